(** Proofs about goroutines and locks: linearizability, for every data structure whose methods hold the lock. *)
From Verif Require Import Base Kv ChainModel LockModel LockSpec.
Set Implicit Arguments.

(** Running code without other goroutines. *)
Fixpoint alone D R (c : code D R) (d : D) : D * R :=
  match c with
  | Ret r => (d, r)
  | Snap k => alone (k d) d
  | Write f k => alone k (f d)
  | RLock k | RUnlock k | Announce k | Enter k | Unlock k => alone k d
  end.
Lemma alone_bind : forall D A B (c : code D A) (f : A -> code D B) d, alone (cbind c f) d = let (d', a) := alone c d in alone (f a) d'.
Proof. induction c as [r|k IH|w k IH|k IH|k IH|k IH|k IH|k IH]; intros f d; cbn [cbind alone]; auto. Qed.

(** Code inside a read lock ([n]: how many more are held), inside a write lock, and code of a method. *)
Fixpoint reading D R (n : nat) (c : code D R) : Prop :=
  match c with
  | Snap k => forall d, reading n (k d)
  | RLock k => reading (S n) k
  | RUnlock k => match n with O => exists r, k = Ret r | S m => reading m k end
  | _ => False
  end.
Fixpoint writing D R (c : code D R) : Prop :=
  match c with
  | Snap k => forall d, writing (k d)
  | Write _ k => writing k
  | Unlock k => exists r, k = Ret r
  | _ => False
  end.
Definition well D R (c : code D R) : Prop :=
  match c with RLock k => reading 0 k | Announce (Enter k) => writing k | _ => False end.
Lemma reading_pure : forall D R (c : code D R) n d, reading n c -> fst (alone c d) = d.
Proof.
  induction c as [r|k IH|w k IH|k IH|k IH|k IH|k IH|k IH]; intros n d H; cbn [alone reading] in *; try contradiction; eauto.
  destruct n; [destruct H as (r & ->); reflexivity|eauto].
Qed.

Lemma upd_same : forall A (f : nat -> A) g x, upd f g x g = x.
Proof. intros. unfold upd. now rewrite Nat.eqb_refl. Qed.
Lemma upd_other : forall A (f : nat -> A) g x h, h <> g -> upd f g x h = f h.
Proof. intros A f g x h N. unfold upd. apply Nat.eqb_neq in N. now rewrite N. Qed.
Notation holds l g := (count_occ Nat.eq_dec l g).
Lemma leave_same : forall g l, In g l -> holds l g = S (holds (leave g l) g).
Proof.
  intros g. induction l as [|h l IH]; intros I; [destruct I|]. cbn [leave count_occ].
  destruct (Nat.eqb_spec g h) as [->|N]; [destruct (Nat.eq_dec h h); [reflexivity|contradiction]|].
  destruct (Nat.eq_dec h g) as [->|]; [contradiction|]. cbn [count_occ]. destruct (Nat.eq_dec h g) as [->|]; [contradiction|].
  apply IH. destruct I as [->|I]; [contradiction|exact I].
Qed.
Lemma leave_other : forall g l h, h <> g -> holds (leave g l) h = holds l h.
Proof.
  intros g l h N. induction l as [|x l IH]; [reflexivity|]. cbn [leave count_occ]. destruct (Nat.eqb_spec g x) as [->|NE].
  - destruct (Nat.eq_dec x h) as [->|]; [contradiction|reflexivity].
  - cbn [count_occ]. now rewrite IH.
Qed.
Lemma holds_some : forall l g n, holds l g = S n -> In g l /\ l <> [].
Proof.
  intros l g n H. assert (I : In g l) by (apply (count_occ_In Nat.eq_dec); lia). split; [exact I|]. intros ->. destruct I.
Qed.
Lemma leave_nil : forall g l, leave g l <> [] -> l <> [].
Proof. intros g l H ->. now apply H. Qed.

Section Linearize.
Variables D C R : Type.
Variable body : C -> code D R.
Variable does : C -> D -> D * R.
Hypothesis ALONE : forall c d, alone (body c) d = does c d.
Hypothesis WELL : forall c, well (body c).

Definition away (m : mutex) (g : nat) : Prop := holds (readers m) g = 0 /\ pending m <> Some g /\ writer m <> Some g.
(** Where goroutine [g] stands; [abs] is the store after the calls that have acted. *)
Inductive stands (m : mutex) (st abs : D) (g : nat) : option (C * code D R) -> phase C R -> Prop :=
| st_out : away m g -> stands m st abs g None (Out C R)
| st_begin c : away m g -> stands m st abs g (Some (c, body c)) (Called R c)
| st_announced c k : writing k -> (forall d, alone k d = does c d) -> holds (readers m) g = 0 -> pending m = Some g -> writer m <> Some g ->
    stands m st abs g (Some (c, Enter k)) (Called R c)
| st_reading c n k r : reading n k -> alone k abs = (abs, r) -> holds (readers m) g = S n -> pending m <> Some g -> writer m <> Some g ->
    stands m st abs g (Some (c, k)) (Acted c r)
| st_writing c k r : writing k -> alone k st = (abs, r) -> holds (readers m) g = 0 -> pending m <> Some g -> writer m = Some g ->
    stands m st abs g (Some (c, k)) (Acted c r)
| st_over c r : away m g -> stands m st abs g (Some (c, Ret r)) (Acted c r).
Definition orderly (m : mutex) (st abs : D) : Prop :=
  (writer m = None -> st = abs) /\ (readers m <> [] -> writer m = None) /\ (writer m <> None -> pending m = None).
Definition linv (s : state D C R) (ph : nat -> phase C R) (abs : D) : Prop :=
  orderly (mx s) (store s) abs /\ forall g, stands (mx s) (store s) abs g (gs s g) (ph g).

(** What the other goroutines need. *)
Lemma stands_others : forall m m' st st' abs abs' g q ph,
  holds (readers m') g = holds (readers m) g ->
  (pending m' = Some g <-> pending m = Some g) -> (writer m' = Some g <-> writer m = Some g) ->
  (holds (readers m) g <> 0 -> abs' = abs) -> (writer m = Some g -> abs' = abs /\ st' = st) ->
  stands m st abs g q ph -> stands m' st' abs' g q ph.
Proof.
  intros m m' st st' abs abs' g q ph H P W A B S.
  assert (AW : away m g -> away m' g) by (intros (? & ? & ?); unfold away; rewrite H, P, W; auto).
  destruct S as [S|c S|c k S1 S2 S3 S4 S5|c n k r S1 S2 S3 S4 S5|c k r S1 S2 S3 S4 S5|c r S].
  - apply st_out; auto.
  - apply st_begin; auto.
  - apply st_announced; auto; rewrite ?H, ?W; auto. now apply P.
  - rewrite A by lia. eapply st_reading; eauto; rewrite ?H, ?P, ?W; auto.
  - destruct (B S5) as [-> ->]. apply st_writing; auto; rewrite ?H, ?P; auto. now apply W.
  - apply st_over; auto.
Qed.

Lemma linv_start : forall d, linv (start_of C R d) (fun _ => Out C R) d.
Proof.
  intros d. split; [repeat split; intros H; cbn in H; try congruence|]. intros g. constructor. repeat split; discriminate.
Qed.

Ltac begun T := match goal with E : body _ = _ |- _ => rewrite E in T | E : _ = body _ |- _ => rewrite <- E in T end.
Ltac others S := eapply stands_others; [..|exact S]; cbn [mx store gs set_readers set_writers readers pending writer];
  try (intros; reflexivity); try (intros; split; reflexivity); try tauto.

Lemma linv_step : forall s es s' d0 ms ph abs, step body s es s' -> explains does d0 ms ph abs -> linv s ph abs ->
  exists new ph' abs', erase new = es /\ explains does d0 (ms ++ new) ph' abs' /\ linv s' ph' abs'.
Proof.
  intros s es s' d0 ms ph abs ST EX [(O1 & O2 & O3) AL]. destruct ST as [g c G|g c r G|g s' IN].
  - (* call *)
    exists [MInv R g c], (upd ph g (Called R c)), abs. pose proof (AL g) as Sg. rewrite G in Sg. inversion Sg as [AW EQ1 EQ2| | | | |].
    split; [reflexivity|]. split; [constructor; auto|]. split; [repeat split; cbn; auto|]. cbn [mx store gs].
    intros h. destruct (Nat.eq_dec h g) as [->|N]; [rewrite !upd_same; now constructor|rewrite !upd_other by exact N; apply AL].
  - (* return *)
    pose proof (AL g) as Sg. rewrite G in Sg.
    assert (X : ph g = Acted c r /\ away (mx s) g).
    { inversion Sg as [|c' AW EQ1 EQ2|c' k S1 S2 S3 S4 S5 EQ1 EQ2|c' n k r' S1 S2 S3 S4 S5 EQ1 EQ2|c' k r' S1 S2 S3 S4 S5 EQ1 EQ2|c' r' AW EQ1 EQ2]; subst.
      - pose proof (WELL c) as W. begun W. destruct W.
      - destruct S1.
      - destruct S1.
      - auto. }
    destruct X as [P AW]. exists [MRes g c r], (upd ph g (Out C R)), abs.
    split; [reflexivity|]. split; [econstructor; eauto|]. split; [repeat split; cbn; auto|]. cbn [mx store gs].
    intros h. destruct (Nat.eq_dec h g) as [->|N]; [rewrite !upd_same; now constructor|rewrite !upd_other by exact N; apply AL].
  - pose proof (AL g) as Sg. destruct IN as [c k G|c f k G|c k G P W|c k G I|c k G P W|c k G P W|c k G W]; rewrite G in Sg.
    + (* snapshot *)
      exists [], ph, abs. split; [reflexivity|]. split; [now rewrite app_nil_r|]. split; [repeat split; cbn; auto|]. cbn [mx store gs].
      intros h. destruct (Nat.eq_dec h g) as [->|N]; [rewrite upd_same|rewrite upd_other by exact N; apply AL].
      inversion Sg as [|c' AW EQ1 EQ2|c' k' S1 S2 S3 S4 S5 EQ1 EQ2|c' n k' r' S1 S2 S3 S4 S5 EQ1 EQ2|c' k' r' S1 S2 S3 S4 S5 EQ1 EQ2|c' r' AW EQ1 EQ2]; subst.
      * pose proof (WELL c) as W. begun W. destruct W.
      * cbn [reading alone] in S1, S2. destruct (holds_some _ _ S3) as [I NE]. rewrite (O1 (O2 NE)). econstructor; eauto.
      * cbn [writing alone] in S1, S2. apply st_writing; auto.
    + (* write *)
      exists [], ph, abs. split; [reflexivity|]. split; [now rewrite app_nil_r|].
      inversion Sg as [|c' AW EQ1 EQ2|c' k' S1 S2 S3 S4 S5 EQ1 EQ2|c' n k' r' S1 S2 S3 S4 S5 EQ1 EQ2|c' k' r' S1 S2 S3 S4 S5 EQ1 EQ2|c' r' AW EQ1 EQ2]; subst.
      * pose proof (WELL c) as W. begun W. destruct W.
      * destruct S1.
      * cbn [writing alone] in S1, S2. split; [repeat split; cbn [mx store]; auto; congruence|]. cbn [mx store gs].
        intros h. destruct (Nat.eq_dec h g) as [->|N]; [rewrite upd_same; rewrite <- EQ2; apply st_writing; auto|rewrite upd_other by exact N].
        others (AL h). intros H. congruence.
    + (* read lock *)
      inversion Sg as [|c' AW EQ1 EQ2|c' k' S1 S2 S3 S4 S5 EQ1 EQ2|c' n k' r' S1 S2 S3 S4 S5 EQ1 EQ2|c' k' r' S1 S2 S3 S4 S5 EQ1 EQ2|c' r' AW EQ1 EQ2]; subst.
      * (* the first one *)
        pose proof (WELL c) as WE. begun WE. cbn [well] in WE. pose proof (ALONE c abs) as A. begun A. cbn [alone] in A.
        pose proof (@reading_pure _ _ k 0 abs WE) as PU. destruct (alone k abs) as [d' r] eqn:E. cbn [fst] in PU. subst d'.
        exists [MAct g c r], (upd ph g (Acted c r)), abs. split; [reflexivity|]. split; [econstructor; eauto; now symmetry|].
        split; [repeat split; cbn [mx store set_readers readers pending writer]; auto; congruence|]. cbn [mx store gs].
        destruct AW as (A1 & A2 & A3).
        intros h. destruct (Nat.eq_dec h g) as [->|N]; [rewrite !upd_same; eapply st_reading with (n := 0); cbn [set_readers readers pending writer]; eauto|].
        -- rewrite count_occ_cons_eq by reflexivity. now rewrite A1.
        -- rewrite !upd_other by exact N. others (AL h). now rewrite count_occ_cons_neq by congruence.
      * (* a further one *)
        exists [], ph, abs. split; [reflexivity|]. split; [now rewrite app_nil_r|]. cbn [reading alone] in S1, S2.
        split; [repeat split; cbn [mx store set_readers readers pending writer]; auto|]. cbn [mx store gs].
        intros h. destruct (Nat.eq_dec h g) as [->|N]; [rewrite !upd_same; rewrite <- EQ2; eapply st_reading; cbn [set_readers readers pending writer]; eauto|].
        -- rewrite count_occ_cons_eq by reflexivity. now rewrite S3.
        -- rewrite !upd_other by exact N. others (AL h). now rewrite count_occ_cons_neq by congruence.
      * destruct S1.
    + (* read unlock *)
      exists [], ph, abs. split; [reflexivity|]. split; [now rewrite app_nil_r|].
      split; [repeat split; cbn [mx store set_readers readers pending writer]; auto; intros H; apply O2, (@leave_nil g), H|]. cbn [mx store gs].
      intros h. destruct (Nat.eq_dec h g) as [->|N].
      * rewrite upd_same. pose proof (leave_same _ _ I) as L.
        inversion Sg as [|c' AW EQ1 EQ2|c' k' S1 S2 S3 S4 S5 EQ1 EQ2|c' n k' r' S1 S2 S3 S4 S5 EQ1 EQ2|c' k' r' S1 S2 S3 S4 S5 EQ1 EQ2|c' r' AW EQ1 EQ2]; subst.
        -- destruct AW. lia.
        -- cbn [reading alone] in S1, S2. destruct n as [|n].
           ++ destruct S1 as (r & ->). cbn [alone] in S2. injection S2 as <-. apply st_over. repeat split; cbn [set_readers readers pending writer]; auto. lia.
           ++ eapply st_reading; cbn [set_readers readers pending writer]; eauto. lia.
        -- lia.
      * rewrite upd_other by exact N. others (AL h). now apply leave_other.
    + (* announce *)
      exists [], ph, abs. split; [reflexivity|]. split; [now rewrite app_nil_r|].
      split; [repeat split; cbn [mx store set_writers readers pending writer]; auto; congruence|]. cbn [mx store gs].
      intros h. destruct (Nat.eq_dec h g) as [->|N].
      * rewrite upd_same.
        inversion Sg as [|c' AW EQ1 EQ2|c' k' S1 S2 S3 S4 S5 EQ1 EQ2|c' n k' r' S1 S2 S3 S4 S5 EQ1 EQ2|c' k' r' S1 S2 S3 S4 S5 EQ1 EQ2|c' r' AW EQ1 EQ2]; subst.
        -- pose proof (WELL c) as WE. pose proof (ALONE c) as A. begun WE; begun A. cbn [well] in WE. destruct k; try contradiction.
           destruct AW as (A1 & A2 & A3). apply st_announced; auto; cbn [set_writers writer]; discriminate.
        -- destruct S1.
        -- destruct S1.
      * rewrite upd_other by exact N. others (AL h); rewrite ?P, ?W; split; congruence.
    + (* enter *)
      inversion Sg as [|c' AW EQ1 EQ2|c' k' S1 S2 S3 S4 S5 EQ1 EQ2|c' n k' r' S1 S2 S3 S4 S5 EQ1 EQ2|c' k' r' S1 S2 S3 S4 S5 EQ1 EQ2|c' r' AW EQ1 EQ2]; subst.
      * destruct AW as (_ & A & _). contradiction.
      * assert (WN : writer (mx s) = None) by (destruct (writer (mx s)) eqn:WR; [rewrite (O3 ltac:(discriminate)) in P; discriminate|reflexivity]).
        destruct (does c abs) as [abs' r] eqn:DO.
        exists [MAct g c r], (upd ph g (Acted c r)), abs'. split; [reflexivity|]. split; [econstructor; eauto|].
        split; [repeat split; cbn [mx store set_writers readers pending writer]; try discriminate; auto; rewrite W; congruence|]. cbn [mx store gs].
        intros h. destruct (Nat.eq_dec h g) as [->|N].
        -- rewrite !upd_same. apply st_writing; cbn [set_writers readers pending writer]; auto; [|discriminate]. rewrite (O1 WN), S2. exact DO.
        -- rewrite !upd_other by exact N. others (AL h).
           ++ rewrite P. split; congruence.
           ++ rewrite WN. split; congruence.
           ++ rewrite W. cbn [count_occ]. congruence.
           ++ rewrite WN. discriminate.
      * destruct S1.
      * destruct S1.
    + (* unlock *)
      exists [], ph, abs. split; [reflexivity|]. split; [now rewrite app_nil_r|].
      inversion Sg as [|c' AW EQ1 EQ2|c' k' S1 S2 S3 S4 S5 EQ1 EQ2|c' n k' r' S1 S2 S3 S4 S5 EQ1 EQ2|c' k' r' S1 S2 S3 S4 S5 EQ1 EQ2|c' r' AW EQ1 EQ2]; subst.
      * destruct AW as (_ & _ & A). contradiction.
      * contradiction.
      * cbn [writing alone] in S1, S2. destruct S1 as (r & ->). cbn [alone] in S2. injection S2 as E1 <-.
        split; [repeat split; cbn [mx store set_writers readers pending writer]; auto; congruence|]. cbn [mx store gs].
        intros h. destruct (Nat.eq_dec h g) as [->|N].
        -- rewrite upd_same. rewrite <- EQ2. apply st_over. repeat split; cbn [set_writers readers pending writer]; auto; discriminate.
        -- rewrite upd_other by exact N. others (AL h). rewrite W. split; congruence.
Qed.

Lemma erase_app : forall ms ms' : list (mark C R), erase (ms ++ ms') = erase ms ++ erase ms'.
Proof. intros. apply flat_map_app. Qed.
Theorem linearizable : forall d0 tr s, steps body (start_of C R d0) tr s ->
  exists ms ph abs, erase ms = tr /\ explains does d0 ms ph abs /\ linv s ph abs.
Proof.
  intros d0 tr s H. induction H as [|tr s1 es s2 _ (ms & ph & abs & E & EX & I) ST].
  - exists [], (fun _ => Out C R), d0. split; [reflexivity|]. split; [constructor|apply linv_start].
  - destruct (linv_step ST EX I) as (new & ph' & abs' & E' & EX' & I'). exists (ms ++ new), ph', abs'.
    split; [rewrite erase_app; congruence|auto].
Qed.
End Linearize.
