(** Facts about byte strings, their order, and big-endian encoding. *)
From Verif Require Import Base.
From Coq Require Import Strings.Byte.
Set Implicit Arguments.

Lemma to_N_inj : forall a b, Byte.to_N a = Byte.to_N b -> a = b.
Proof.
  intros a b H. assert (E : Byte.of_N (Byte.to_N a) = Byte.of_N (Byte.to_N b)) by now rewrite H.
  rewrite !Byte.of_to_N in E. now injection E.
Qed.

Lemma to_N_lt : forall b, (Byte.to_N b < 256)%N.
Proof. intros b. pose proof (Byte.to_N_bounded b). lia. Qed.

Lemma of_N_lt : forall n, (n < 256)%N -> exists b, Byte.of_N n = Some b.
Proof.
  intros n H. destruct (Byte.of_N n) eqn:E; eauto.
  exfalso. apply Byte.of_N_None_iff in E. lia.
Qed.

Lemma to_N_byte_of : forall n, (n < 256)%N -> Byte.to_N (byte_of n) = n.
Proof.
  intros n H. unfold byte_of. destruct (of_N_lt H) as [b E]. rewrite E. now apply Byte.to_of_N.
Qed.

Lemma byte_of_to_N : forall b, byte_of (Byte.to_N b) = b.
Proof. intros b. unfold byte_of. now rewrite Byte.of_to_N. Qed.

Lemma byte_cmp_eq : forall a b, byte_cmp a b = Eq <-> a = b.
Proof.
  intros a b. unfold byte_cmp. rewrite N.compare_eq_iff. split; [apply to_N_inj|now intros ->].
Qed.
Lemma byte_cmp_refl : forall a, byte_cmp a a = Eq.
Proof. intros. now apply byte_cmp_eq. Qed.
Lemma byte_cmp_antisym : forall a b, byte_cmp b a = CompOpp (byte_cmp a b).
Proof. intros. apply N.compare_antisym. Qed.

Lemma bcmp_refl : forall a, bcmp a a = Eq.
Proof. induction a; simpl; auto. now rewrite byte_cmp_refl. Qed.
Lemma bcmp_eq : forall a b, bcmp a b = Eq <-> a = b.
Proof.
  split; [|intros ->; apply bcmp_refl].
  revert b. induction a as [|x a IH]; destruct b as [|y b]; simpl; intros H; try discriminate; auto.
  destruct (byte_cmp x y) eqn:E; try discriminate. apply byte_cmp_eq in E. subst. f_equal. auto.
Qed.
Lemma bcmp_antisym : forall a b, bcmp b a = CompOpp (bcmp a b).
Proof.
  induction a as [|x a IH]; destruct b as [|y b]; simpl; auto.
  rewrite byte_cmp_antisym. destruct (byte_cmp x y); simpl; auto.
Qed.
Lemma bcmp_gt_lt : forall a b, bcmp a b = Gt <-> bcmp b a = Lt.
Proof. intros. rewrite (bcmp_antisym a b). destruct (bcmp a b); simpl; split; congruence. Qed.
Lemma bcmp_lt_trans : forall a b c, bcmp a b = Lt -> bcmp b c = Lt -> bcmp a c = Lt.
Proof.
  induction a as [|x a IH]; destruct b as [|y b]; destruct c as [|z c]; simpl; try congruence.
  unfold byte_cmp.
  destruct (N.compare_spec (Byte.to_N x) (Byte.to_N y)); destruct (N.compare_spec (Byte.to_N y) (Byte.to_N z));
    intros; try discriminate.
  - replace (Byte.to_N x ?= Byte.to_N z)%N with Eq by (symmetry; apply N.compare_eq_iff; lia). eauto.
  - replace (Byte.to_N x ?= Byte.to_N z)%N with Lt by (symmetry; apply N.compare_lt_iff; lia). auto.
  - replace (Byte.to_N x ?= Byte.to_N z)%N with Lt by (symmetry; apply N.compare_lt_iff; lia). auto.
  - replace (Byte.to_N x ?= Byte.to_N z)%N with Lt by (symmetry; apply N.compare_lt_iff; lia). auto.
Qed.
Lemma bcmp_lt_irrefl : forall a, bcmp a a <> Lt.
Proof. intros a. rewrite bcmp_refl. discriminate. Qed.

Lemma beqb_eq : forall a b, beqb a b = true <-> a = b.
Proof. intros. unfold beqb. rewrite <- bcmp_eq. destruct (bcmp a b); split; congruence. Qed.
Lemma beqb_refl : forall a, beqb a a = true.
Proof. intros. now apply beqb_eq. Qed.
Lemma beqb_neq : forall a b, beqb a b = false <-> a <> b.
Proof. intros. rewrite <- beqb_eq. destruct (beqb a b); split; congruence. Qed.
Lemma beqb_sym : forall a b, beqb a b = beqb b a.
Proof. intros. destruct (beqb b a) eqn:E. - apply beqb_eq in E. subst. apply beqb_refl.
  - apply beqb_neq in E. apply beqb_neq. congruence. Qed.
Lemma beqb_spec : forall a b, reflect (a = b) (beqb a b).
Proof. intros. destruct (beqb a b) eqn:E; constructor; [now apply beqb_eq | now apply beqb_neq]. Qed.
Lemma bytes_eq_dec : forall a b : bytes, {a = b} + {a <> b}.
Proof. intros. destruct (beqb_spec a b); auto. Qed.

Lemma bltb_lt : forall a b, bltb a b = true <-> bcmp a b = Lt.
Proof. intros. unfold bltb. destruct (bcmp a b); split; congruence. Qed.
Lemma bleb_le : forall a b, bleb a b = true <-> bcmp a b = Lt \/ a = b.
Proof. intros. unfold bleb. rewrite <- bcmp_eq. destruct (bcmp a b); intuition congruence. Qed.

(** * Big-endian *)

Lemma be_length : forall k n, length (be k n) = k.
Proof. induction k; simpl; auto. Qed.

Lemma unbe_app_aux : forall b acc, fold_left (fun acc x => acc * 256 + Byte.to_N x)%N b acc
  = (acc * 256 ^ N.of_nat (length b) + unbe b)%N.
Proof.
  unfold unbe. induction b as [|x b IH]; intros acc.
  - simpl. lia.
  - cbn [fold_left length]. rewrite IH. rewrite (IH (0 * 256 + _)%N).
    rewrite Nat2N.inj_succ, N.pow_succ_r'. lia.
Qed.
Lemma unbe_cons : forall x b, unbe (x :: b) = (Byte.to_N x * 256 ^ N.of_nat (length b) + unbe b)%N.
Proof. intros. unfold unbe at 1. cbn [fold_left]. rewrite unbe_app_aux. lia. Qed.

Lemma unbe_lt : forall b, (unbe b < 256 ^ N.of_nat (length b))%N.
Proof.
  induction b as [|x b IH].
  - cbn. lia.
  - rewrite unbe_cons. cbn [length]. rewrite Nat2N.inj_succ, N.pow_succ_r'.
    pose proof (to_N_lt x). nia.
Qed.

Lemma unbe_be : forall k n, unbe (be k n) = (n mod 256 ^ N.of_nat k)%N.
Proof.
  induction k as [|k IH]; intros n.
  - cbn. now rewrite N.mod_1_r.
  - cbn [be]. rewrite unbe_cons, be_length, IH, to_N_byte_of by (apply N.mod_lt; lia).
    rewrite Nat2N.inj_succ, N.pow_succ_r'.
    rewrite (N.mul_comm 256). rewrite N.mod_mul_r by (try apply N.pow_nonzero; lia). lia.
Qed.
Lemma unbe_be_id : forall k n, (n < 256 ^ N.of_nat k)%N -> unbe (be k n) = n.
Proof. intros. rewrite unbe_be. now apply N.mod_small. Qed.

Lemma pow256_8 : (256 ^ N.of_nat 8 = 2 ^ 64)%N.
Proof. reflexivity. Qed.

Lemma unbe_be8 : forall n, (n < 2 ^ 64)%N -> unbe (be 8 n) = n.
Proof. intros. apply unbe_be_id. now rewrite pow256_8. Qed.

Lemma be8_inj : forall a b, (a < 2 ^ 64)%N -> (b < 2 ^ 64)%N -> be 8 a = be 8 b -> a = b.
Proof. intros a b Ha Hb E. rewrite <- (unbe_be8 Ha), <- (unbe_be8 Hb). now rewrite E. Qed.

Lemma unbe_cmp : forall a b, length a = length b -> bcmp a b = N.compare (unbe a) (unbe b).
Proof.
  induction a as [|x a IH]; destruct b as [|y b]; cbn [length]; intros H; try discriminate; auto.
  injection H as H. cbn [bcmp]. rewrite !unbe_cons, <- H.
  pose proof (unbe_lt a) as La. pose proof (unbe_lt b) as Lb. rewrite <- H in Lb.
  unfold byte_cmp. destruct (N.compare_spec (Byte.to_N x) (Byte.to_N y)) as [E|E|E].
  - rewrite E, (IH b H). destruct (N.compare_spec (unbe a) (unbe b)) as [F|F|F]; symmetry.
    + apply N.compare_eq_iff. lia.
    + apply N.compare_lt_iff. lia.
    + apply N.compare_gt_iff. lia.
  - symmetry. apply N.compare_lt_iff. nia.
  - symmetry. apply N.compare_gt_iff. nia.
Qed.

Lemma be8_cmp : forall a b, (a < 2 ^ 64)%N -> (b < 2 ^ 64)%N -> bcmp (be 8 a) (be 8 b) = N.compare a b.
Proof. intros a b Ha Hb. rewrite unbe_cmp by now rewrite !be_length. now rewrite !unbe_be8. Qed.

Lemma be_unbe : forall b, be (length b) (unbe b) = b.
Proof.
  intros b. apply bcmp_eq. rewrite unbe_cmp by now rewrite be_length.
  rewrite unbe_be_id by apply unbe_lt. apply N.compare_refl.
Qed.

(** Comparison of strings with a common first byte. *)
Lemma bcmp_cons : forall p a b, bcmp (p :: a) (p :: b) = bcmp a b.
Proof. intros. simpl. now rewrite byte_cmp_refl. Qed.
