(** Two worlds that answer alike until the second one is lost: an event of the loader in the one and in the other. *)
From Verif Require Import Base Kv BytesFacts ChainModel ChainSpec PeersModel PeersSpec LoadModel LoadSpec LoadProofs LoadFire LoadSim LoadCalm LoadRule.
Set Implicit Arguments.
Unset Strict Implicit.

Section Agree.
Variables U W Z : Type.
Variable Rel : U -> W -> Prop.
Variable Lz : Z -> U -> Prop.
Variable Rz : Z -> W -> Prop.
Definition agree A (a : U * A) (b : W * A) : Prop :=
  (Rel (fst a) (fst b) /\ snd a = snd b) \/ exists z, Lz z (fst a) /\ Rz z (fst b).
Lemma agree_here : forall A u w (a : A), Rel u w -> agree (u, a) (w, a).
Proof. intros. left. auto. Qed.
End Agree.
Lemma agree_bind : forall U W Z Rel Lz Rz U' W' Rel' Lz' Rz' A B (ru : U * A) (rw : W * A) (F : U -> A -> U' * B) (G : W -> A -> W' * B),
  agree (Z := Z) Rel Lz Rz ru rw -> (forall u w a, Rel u w -> agree (Z := Z) Rel' Lz' Rz' (F u a) (G w a)) ->
  (forall z u a, Lz z u -> Lz' z (fst (F u a))) -> (forall z w a, Rz z w -> Rz' z (fst (G w a))) ->
  agree Rel' Lz' Rz' (let (u, a) := ru in F u a) (let (w, a) := rw in G w a).
Proof.
  intros U W Z Rel Lz Rz U' W' Rel' Lz' Rz' A B [u a] [w b] F G [[R E]|(z & L & R)] H HL HR; cbn [fst snd] in *; [subst; auto|]. right. exists z. auto.
Qed.

Section Upto.
Variables U W Z : Type.
Variable x : world U.
Variable y : world W.
Variable Rel : U -> W -> Prop.
Variable Lz : Z -> U -> Prop.
Variable Rz : Z -> W -> Prop.
Notation agree := (agree Rel Lz Rz).
Hypothesis call : forall c u w, Rel u w -> agree (x c u) (y c w).
Hypothesis keepL : forall z c u, Lz z u -> Lz z (fst (x c u)).
Hypothesis keepR : forall z c w, Rz z w -> Rz z (fst (y c w)).

Definition stay V (P : V -> Prop) (a b : V) : Prop := P a -> P b.
Ltac one := match goal with
  | H : Lz ?z ?u |- context [x ?c ?u] => let K := fresh "K" in pose proof (keepL c H) as K; destruct (x c u); cbn [fst snd] in K
  | H : Rz ?z ?u |- context [y ?c ?u] => let K := fresh "K" in pose proof (keepR c H) as K; destruct (y c u); cbn [fst snd] in K
  end; cbn [fst snd fails].
Ltac cs := match goal with |- context [match ?r with Ok _ => _ | Err _ => _ | Panic => _ | Diverge => _ end] => destruct r; cbn [fst snd fails]; try assumption end.
Ltac per := repeat first [assumption | one | match goal with |- context [match ?r with _ => _ end] => is_var r; destruct r; cbn [fst snd fails] end].

Lemma put_L : forall z a bs u, Lz z u -> Lz z (fst (put_all x a bs u)).
Proof. intros z a bs u. match goal with |- _ -> _ ?v => change (stay (Lz z) u v) end. apply put_all_all; unfold stay; auto. Qed.
Lemma put_R : forall z a bs w, Rz z w -> Rz z (fst (put_all y a bs w)).
Proof. intros z a bs u. match goal with |- _ -> _ ?v => change (stay (Rz z) u v) end. apply put_all_all; unfold stay; auto. Qed.
Lemma skip_L : forall z a bs u, Lz z u -> Lz z (fst (skip_known x a bs u)).
Proof. intros z a bs u. match goal with |- _ -> _ ?v => change (stay (Lz z) u v) end. apply skip_known_all; unfold stay; auto. Qed.
Lemma skip_R : forall z a bs w, Rz z w -> Rz z (fst (skip_known y a bs w)).
Proof. intros z a bs u. match goal with |- _ -> _ ?v => change (stay (Rz z) u v) end. apply skip_known_all; unfold stay; auto. Qed.
Lemma ask_L : forall z a bs u, Lz z u -> Lz z (ask_blocks x a bs u).
Proof. intros z a bs u. match goal with |- _ -> _ ?v => change (stay (Lz z) u v) end. apply ask_blocks_all; unfold stay; auto. Qed.
Lemma ask_R : forall z a bs w, Rz z w -> Rz z (ask_blocks y a bs w).
Proof. intros z a bs u. match goal with |- _ -> _ ?v => change (stay (Rz z) u v) end. apply ask_blocks_all; unfold stay; auto. Qed.
Lemma from_L : forall z i p u, Lz z u -> Lz z (fst (ask_from x i p u)).
Proof. intros z a bs u. match goal with |- _ -> _ ?v => change (stay (Lz z) u v) end. apply ask_from_all; unfold stay; auto. Qed.
Lemma from_R : forall z i p w, Rz z w -> Rz z (fst (ask_from y i p w)).
Proof. intros z a bs u. match goal with |- _ -> _ ?v => change (stay (Rz z) u v) end. apply ask_from_all; unfold stay; auto. Qed.
Lemma loop_L : forall z n p u, Lz z u -> Lz z (fst (fire_loop x n p u)).
Proof. intros z a bs u. match goal with |- _ -> _ ?v => change (stay (Lz z) u v) end. apply fire_loop_all; unfold stay; auto. Qed.
Lemma loop_R : forall z n p w, Rz z w -> Rz z (fst (fire_loop y n p w)).
Proof. intros z a bs u. match goal with |- _ -> _ ?v => change (stay (Rz z) u v) end. apply fire_loop_all; unfold stay; auto. Qed.

Lemma put_upto : forall a bs u w, Rel u w -> agree (put_all x a bs u) (put_all y a bs w).
Proof.
  intros a. induction bs as [|b bs IH]; intros u w H; cbn [put_all]; [now apply agree_here|]. apply agree_bind with (Rel := Rel) (Lz := Lz) (Rz := Rz); [now apply call|..].
  - intros u1 w1 [r|e| |] R; try now apply agree_here. now apply IH.
  - intros z u1 [r|e| |] L; try exact L. now apply put_L.
  - intros z u1 [r|e| |] L; try exact L. now apply put_R.
Qed.
Lemma skip_upto : forall a ids u w, Rel u w -> agree (skip_known x a ids u) (skip_known y a ids w).
Proof.
  intros a. induction ids as [|i ids IH]; intros u w H; cbn [skip_known]; [now apply agree_here|]. apply agree_bind with (Rel := Rel) (Lz := Lz) (Rz := Rz); [now apply call|..].
  - intros u1 w1 [[|]|e| |] R; try now apply agree_here. apply agree_bind with (Rel := Rel) (Lz := Lz) (Rz := Rz); [now apply call|..].
    + intros u2 w2 [j|e| |] R2; try now apply agree_here. destruct (id_eqb i j); [now apply IH|]. apply agree_bind with (Rel := Rel) (Lz := Lz) (Rz := Rz); [now apply call|..].
      * intros u3 w3 [r|e| |] R3; try now apply agree_here. now apply IH.
      * intros z u3 [r|e| |] L; try exact L. now apply skip_L.
      * intros z u3 [r|e| |] L; try exact L. now apply skip_R.
    + intros z u2 [j|e| |] L; try exact L. destruct (id_eqb i j); [now apply skip_L|]. one. cs. now apply skip_L.
    + intros z u2 [j|e| |] L; try exact L. destruct (id_eqb i j); [now apply skip_R|]. one. cs. now apply skip_R.
  - intros z u1 [[|]|e| |] L; try exact L. one. cs. destruct (id_eqb i _); [now apply skip_L|]. one. cs. now apply skip_L.
  - intros z u1 [[|]|e| |] L; try exact L. one. cs. destruct (id_eqb i _); [now apply skip_R|]. one. cs. now apply skip_R.
Qed.
Lemma ask_upto : forall a ids u w, Rel u w -> Rel (ask_blocks x a ids u) (ask_blocks y a ids w) \/ exists z, Lz z (ask_blocks x a ids u) /\ Rz z (ask_blocks y a ids w).
Proof.
  intros a. induction ids as [|i ids IH]; intros u w H; cbn [ask_blocks]; [now left|].
  destruct (call (CAskBlock a i) H) as [[R _]|(z & L & R)]; [now apply IH|]. right. exists z. split; [now apply ask_L|now apply ask_R].
Qed.
Lemma from_upto : forall i p u w, Rel u w -> agree (ask_from x i p u) (ask_from y i p w).
Proof.
  intros i p u w H. unfold ask_from. apply agree_bind with (Rel := Rel) (Lz := Lz) (Rz := Rz); [now apply call|..].
  - intros u1 w1 [[|j ids]|e| |] R; try now apply agree_here. apply agree_bind with (Rel := Rel) (Lz := Lz) (Rz := Rz); [now apply call|..].
    + intros u2 w2 _ R2. apply agree_bind with (Rel := Rel) (Lz := Lz) (Rz := Rz); [now apply call|..]; auto. intros. now apply agree_here.
    + intros z u2 _ L. one. assumption.
    + intros z u2 _ L. one. assumption.
  - intros z u1 [[|j ids]|e| |] L; try exact L. one. one. assumption.
  - intros z u1 [[|j ids]|e| |] L; try exact L. one. one. assumption.
Qed.

Ltac putl := match goal with H : Lz ?z ?u |- context [put_all x ?a ?l ?u] => let K := fresh "K" in pose proof (put_L a l H) as K; destruct (put_all x a l u); cbn [fst snd] in K end; cbn [fst snd fails].
Ltac putr := match goal with H : Rz ?z ?u |- context [put_all y ?a ?l ?u] => let K := fresh "K" in pose proof (put_R a l H) as K; destruct (put_all y a l u); cbn [fst snd] in K end; cbn [fst snd fails].
Lemma failure_upto : forall p u w, Rel u w -> agree (handle_failure x p u) (handle_failure y p w).
Proof.
  intros p u w H. unfold handle_failure. apply agree_bind with (Rel := Rel) (Lz := Lz) (Rz := Rz); [now apply put_upto|..].
  - intros u1 w1 [r|e| |] R; try now apply agree_here. apply agree_bind with (Rel := Rel) (Lz := Lz) (Rz := Rz); [now apply call|..]; auto. intros u2 w2 r2 R2. now apply agree_here.
  - intros z u1 [r|e| |] L; try exact L. one. assumption.
  - intros z u1 [r|e| |] L; try exact L. one. assumption.
Qed.
Lemma append_upto : forall b p u w, Rel u w -> agree (append_block x b p u) (append_block y b p w).
Proof.
  intros b p u w H. unfold append_block. cbv zeta. destruct (queue_ready _); [|now apply agree_here].
  apply agree_bind with (Rel := Rel) (Lz := Lz) (Rz := Rz); [now apply put_upto|..].
  - intros u1 w1 [r|e| |] R; now apply agree_here.
  - intros z u1 [r|e| |] L; exact L.
  - intros z u1 [r|e| |] L; exact L.
Qed.
Lemma one_upto : forall t p u w, Rel u w -> agree (fire_one x t p u) (fire_one y t p w).
Proof.
  intros t p u w H. unfold fire_one. destruct (pl_state p), t; cbn [behave on_entry]; try now apply agree_here.
  - unfold request_ids. apply agree_bind with (Rel := Rel) (Lz := Lz) (Rz := Rz); [now apply call|..].
    + intros u1 w1 [r|e| |] R; try now apply agree_here. now apply from_upto.
    + intros z u1 [r|e| |] L; try exact L. now apply from_L.
    + intros z u1 [r|e| |] L; try exact L. now apply from_R.
  - unfold request_ids_from_lca. apply agree_bind with (Rel := Rel) (Lz := Lz) (Rz := Rz); [now apply call|..].
    + intros u1 w1 [r|e| |] R; try now apply agree_here. now apply from_upto.
    + intros z u1 [r|e| |] L; try exact L. now apply from_L.
    + intros z u1 [r|e| |] L; try exact L. now apply from_R.
  - unfold request_blocks. apply agree_bind with (Rel := Rel) (Lz := Lz) (Rz := Rz); [now apply skip_upto|..].
    + intros u1 w1 [[|i rest]|e| |] R; try now apply agree_here. cbv zeta.
      match goal with |- context [ask_blocks x ?a ?l u1] => destruct (ask_upto a l R) as [R2|(z & L & R2)];
        [set (u2 := ask_blocks x a l u1) in *; set (w2 := ask_blocks y a l w1) in *|set (u2 := ask_blocks x a l u1) in *; set (w2 := ask_blocks y a l w1) in *] end.
      * apply agree_bind with (Rel := Rel) (Lz := Lz) (Rz := Rz); [now apply call|..]; auto. intros. now apply agree_here.
      * right. exists z. split; one; assumption.
    + intros z u1 [[|i rest]|e| |] L; try exact L. cbv zeta. match goal with |- context [ask_blocks x ?a ?l u1] => pose proof (ask_L a l L) end. one. assumption.
    + intros z u1 [[|i rest]|e| |] L; try exact L. cbv zeta. match goal with |- context [ask_blocks y ?a ?l u1] => pose proof (ask_R a l L) end. one. assumption.
  - now apply failure_upto.
  - now apply append_upto.
  - now apply failure_upto.
  - unfold report_ok. apply agree_bind with (Rel := Rel) (Lz := Lz) (Rz := Rz); [now apply call|..].
    + intros u1 w1 [r|e| |] R; now apply agree_here.
    + intros z u1 [r|e| |] L; exact L.
    + intros z u1 [r|e| |] L; exact L.
Qed.
Lemma loop_upto : forall n p u w, Rel u w -> agree (fire_loop x n p u) (fire_loop y n p w).
Proof.
  induction n as [|n IH]; intros p u w H; cbn [fire_loop]; destruct (pl_triggers p) as [|t ts]; try now apply agree_here.
  apply agree_bind with (Rel := Rel) (Lz := Lz) (Rz := Rz); [now apply one_upto|..].
  - intros u1 w1 [p1 [r|e| |]] R; try now apply agree_here. now apply IH.
  - intros z u1 [p1 [r|e| |]] L; try exact L. now apply loop_L.
  - intros z u1 [p1 [r|e| |]] L; try exact L. now apply loop_R.
Qed.
End Upto.

Section Lift.
Variables U W Z : Type.
Variable Rel : U -> W -> Prop.
Variable Lz : Z -> U -> Prop.
Variable Rz : Z -> W -> Prop.
Definition with_eq K (a : K * U) (b : K * W) : Prop := fst a = fst b /\ Rel (snd a) (snd b).
Definition left_of K (z : Z) (a : K * U) : Prop := Lz z (snd a).
Definition right_of K (z : Z) (b : K * W) : Prop := Rz z (snd b).
Definition agree2 K A : (K * U) * A -> (K * W) * A -> Prop := agree (@with_eq K) (@left_of K) (@right_of K) (A := A).
Lemma agree2_here : forall K A u w (k : K) (a : A), Rel u w -> agree2 ((k, u), a) ((k, w), a).
Proof. intros. left. split; [split; auto|auto]. Qed.
Lemma agree2_fst : forall K A B (ru : U * B) (rw : W * B) (k : K) (a : A), agree Rel Lz Rz ru rw -> agree2 ((k, fst ru), a) ((k, fst rw), a).
Proof. intros K A B ru rw k a [[R E]|(z & L & R)]; [now apply agree2_here|]. right. exists z. auto. Qed.
Lemma agree2_call : forall K A (ru : U * A) (rw : W * A) (k : K), agree Rel Lz Rz ru rw ->
  agree2 (let (u, r) := ru in ((k, u), r)) (let (w, r) := rw in ((k, w), r)).
Proof. intros K A [u r] [w s] k [[R E]|(z & L & R)]; cbn [fst snd] in *; [subst; now apply agree2_here|]. right. exists z. auto. Qed.
End Lift.

Section UptoSteps.
Variables U W Z : Type.
Variable x : world U.
Variable y : world W.
Variable Rel : U -> W -> Prop.
Variable Lz : Z -> U -> Prop.
Variable Rz : Z -> W -> Prop.
Notation agree := (agree Rel Lz Rz).
Notation agree2 := (agree2 Rel Lz Rz).
Hypothesis call : forall c u w, Rel u w -> agree (x c u) (y c w).
Hypothesis keepL : forall z c u, Lz z u -> Lz z (fst (x c u)).
Hypothesis keepR : forall z c w, Rz z w -> Rz z (fst (y c w)).
Ltac one := match goal with
  | H : Lz ?z ?u |- context [x ?c ?u] => let K := fresh "K" in pose proof (keepL c H) as K; destruct (x c u); cbn [fst snd] in K
  | H : Rz ?z ?u |- context [y ?c ?u] => let K := fresh "K" in pose proof (keepR c H) as K; destruct (y c u); cbn [fst snd] in K
  end; cbn [fst snd fails].
Ltac cs := match goal with |- context [match ?r with Ok _ => _ | Err _ => _ | Panic => _ | Diverge => _ end] => destruct r; cbn [fst snd fails]; try assumption end.
Ltac logged := match goal with |- context [fst (x (CLog ?m) _)] => apply agree2_fst with (B := unit); now apply (call (CLog m)) end.
Ltac side := unfold left_of, right_of; cbn [fst snd].

Lemma ok_upto : forall a s h u w, Rel u w -> agree2 (loader_ok x a s h u) (loader_ok y a s h w).
Proof.
  intros a s h u w H. unfold loader_ok. destruct (h_pl h), s; try now apply agree2_here. cbv zeta. eapply agree_bind; [apply (call (CPeer a) H)|..].
  - intros u1 w1 [sc|e| |] R; try (now apply agree2_here); [|now logged].
    eapply agree_bind; [apply (call (CScore a) R)|..].
    + intros u2 w2 [leash|e| |] R2; try (now apply agree2_here); [|now logged].
      destruct sc as [peer|]; [|now apply agree2_here]. destruct (is_lagging _ _ _) as [d [|]]; now logged.
    + intros z u2 [leash|e| |] L; side; try exact L; [|now apply keepL]. destruct sc as [peer|]; [|exact L]. destruct (is_lagging _ _ _) as [d [|]]; now apply keepL.
    + intros z u2 [leash|e| |] L; side; try exact L; [|now apply keepR]. destruct sc as [peer|]; [|exact L]. destruct (is_lagging _ _ _) as [d [|]]; now apply keepR.
  - intros z u1 [sc|e| |] L; side; try exact L; [|now apply keepL]. one. cs; [|now apply keepL]. destruct sc as [peer|]; [|assumption].
    destruct (is_lagging _ _ _) as [d [|]]; now apply keepL.
  - intros z u1 [sc|e| |] L; side; try exact L; [|now apply keepR]. one. cs; [|now apply keepR]. destruct sc as [peer|]; [|assumption].
    destruct (is_lagging _ _ _) as [d [|]]; now apply keepR.
Qed.
Lemma inner_upto : forall c hu hw, with_eq Rel hu hw -> agree2 (inner x c hu) (inner y c hw).
Proof.
  intros c [h u] [h' w] [E H]. cbn [fst snd] in E, H. subst h'.
  destruct c; cbn [inner fst snd]; try (apply agree2_call, call, H).
  - now apply ok_upto.
  - unfold loader_fail. destruct (h_pl h), s; try now apply agree2_here. now logged.
Qed.
Lemma inner_L : forall z c hu, left_of Lz z hu -> left_of (K := held) Lz z (fst (inner x c hu)).
Proof.
  intros z c hu. change (stay (left_of (K := held) Lz z) hu (fst (inner x c hu))). apply (@inner_all _ x (stay (Lz z))); unfold stay; auto.
Qed.
Lemma inner_R : forall z c hu, right_of Rz z hu -> right_of (K := held) Rz z (fst (inner y c hu)).
Proof.
  intros z c hu. change (stay (right_of (K := held) Rz z) hu (fst (inner y c hu))). apply (@inner_all _ y (stay (Rz z))); unfold stay; auto.
Qed.
Lemma drive_upto : forall t p l u w, Rel u w -> agree2 (drive x t p l u) (drive y t p l w).
Proof.
  intros t p l u w H. unfold drive. cbv zeta. set (h := {| h_pl := true; h_prev := l_prev l; h_fc := l_fc l; h_ticker := l_ticker l |}).
  pose proof (@loop_upto _ _ _ (inner x) (inner y) (with_eq Rel (K := held)) (left_of Lz (K := held)) (right_of Rz (K := held)) inner_upto inner_L inner_R 8 (set_triggers p (pl_triggers p ++ [t])) (h, u) (h, w) (conj eq_refl H)) as K.
  unfold fire. destruct (fire_loop (inner x) 8 _ (h, u)) as ((h1 & u1) & p1 & r1). destruct (fire_loop (inner y) 8 _ (h, w)) as ((h2 & w2) & p2 & r2).
  destruct K as [[[E R] E2]|(z & L & R)]; cbn [fst snd] in *; [|right; exists z; auto]. subst h2. injection E2 as <- <-. now apply agree2_here.
Qed.
Lemma drive_L : forall z t p l u, Lz z u -> Lz z (snd (fst (drive x t p l u))).
Proof. intros z t p l u. match goal with |- _ -> _ ?v => change (stay (Lz z) u v) end. apply drive_all; unfold stay; auto. Qed.
Lemma drive_R : forall z t p l w, Rz z w -> Rz z (snd (fst (drive y t p l w))).
Proof. intros z t p l u. match goal with |- _ -> _ ?v => change (stay (Rz z) u v) end. apply drive_all; unfold stay; auto. Qed.
Lemma lag_L : forall z cs u, Lz z u -> Lz z (fst (find_lagging x cs u)).
Proof. intros z cs u. match goal with |- _ -> _ ?v => change (stay (Lz z) u v) end. apply find_lagging_all; unfold stay; auto. Qed.
Lemma lag_R : forall z cs w, Rz z w -> Rz z (fst (find_lagging y cs w)).
Proof. intros z cs u. match goal with |- _ -> _ ?v => change (stay (Rz z) u v) end. apply find_lagging_all; unfold stay; auto. Qed.
Lemma begin_L : forall z a l u, Lz z u -> Lz z (snd (fst (begin_sync x a l u))).
Proof. intros z a l u. match goal with |- _ -> _ ?v => change (stay (Lz z) u v) end. apply begin_all; unfold stay; auto. Qed.
Lemma begin_R : forall z a l w, Rz z w -> Rz z (snd (fst (begin_sync y a l w))).
Proof. intros z a l u. match goal with |- _ -> _ ?v => change (stay (Rz z) u v) end. apply begin_all; unfold stay; auto. Qed.
Lemma lag_upto : forall cs u w, Rel u w -> agree (find_lagging x cs u) (find_lagging y cs w).
Proof.
  induction cs as [|[a [s|]] cs IH]; intros u w H; cbn [find_lagging]; [now apply agree_here| |now apply IH].
  apply agree_bind with (Rel := Rel) (Lz := Lz) (Rz := Rz); [now apply call|..].
  - intros u1 w1 [k|e| |] R; try (now apply agree_here); [|now apply IH]. apply agree_bind with (Rel := Rel) (Lz := Lz) (Rz := Rz); [now apply IH|..].
    + intros u2 w2 [l|e| |] R2; now apply agree_here.
    + intros z u2 [l|e| |] L; exact L.
    + intros z u2 [l|e| |] L; exact L.
  - intros z u1 [k|e| |] L; try exact L; [|now apply lag_L]. pose proof (lag_L cs L) as K. destruct (find_lagging x cs u1) as [u2 [l|e| |]]; exact K.
  - intros z u1 [k|e| |] L; try exact L; [|now apply lag_R]. pose proof (lag_R cs L) as K. destruct (find_lagging y cs u1) as [u2 [l|e| |]]; exact K.
Qed.
Lemma begin_upto : forall a l u w, Rel u w -> agree2 (begin_sync x a l u) (begin_sync y a l w).
Proof.
  intros a l u w H. unfold begin_sync. destruct (Nat.leb _ _); [|now apply drive_upto]. cbv zeta.
  set (l0 := with_pl l (new_ploader a) (fc_reset (l_fc l) a)). clearbody l0.
  set (FX := fun (lu : loader * U) (r : outcome unit) => match r with
    | Ok _ | Err _ => match l_pl (fst lu) with
        | Some p => drive x EStart p {| l_pl := Some p; l_prev := l_prev (fst lu); l_fc := l_fc (fst lu); l_ticker := true; l_timer := l_timer (fst lu) |} (snd lu)
        | None => (lu, Panic) end
    | r => (lu, r) end).
  set (FY := fun (lu : loader * W) (r : outcome unit) => match r with
    | Ok _ | Err _ => match l_pl (fst lu) with
        | Some p => drive y EStart p {| l_pl := Some p; l_prev := l_prev (fst lu); l_fc := l_fc (fst lu); l_ticker := true; l_timer := l_timer (fst lu) |} (snd lu)
        | None => (lu, Panic) end
    | r => (lu, r) end).
  assert (NL : forall z lu r, left_of (K := loader) Lz z lu -> left_of (K := loader) Lz z (fst (FX lu r))).
  { intros z [l1 u1] r L. unfold FX. cbn [fst snd]. destruct r; try exact L; destruct (l_pl l1); try exact L; now apply drive_L. }
  assert (NR : forall z lu r, right_of (K := loader) Rz z lu -> right_of (K := loader) Rz z (fst (FY lu r))).
  { intros z [l1 u1] r L. unfold FY. cbn [fst snd]. destruct r; try exact L; destruct (l_pl l1); try exact L; now apply drive_R. }
  enough (X : agree2 (let (lu, r) := drive x ERestart (new_ploader a) l0 (fst (x (CLog (LRestart a)) u)) in FX lu r)
                     (let (lu, r) := drive y ERestart (new_ploader a) l0 (fst (y (CLog (LRestart a)) w)) in FY lu r)).
  { destruct (drive x ERestart (new_ploader a) l0 _) as ((l1 & u1) & r1). destruct (drive y ERestart (new_ploader a) l0 _) as ((l2 & w1) & r2).
    unfold FX, FY in X. cbn [fst snd] in X. destruct r1, r2; exact X. }
  destruct (call (CLog (LRestart a)) H) as [[R _]|(z & L & R)].
  - eapply agree_bind; [apply (drive_upto ERestart (new_ploader a) l0 R)| |exact NL|exact NR].
    intros [l1 u1] [l2 w1] r [E R1]. cbn [fst snd] in E, R1. subst l2. unfold FX, FY. cbn [fst snd].
    destruct r; try (destruct (l_pl l1); [now apply drive_upto|now apply agree2_here]); now apply agree2_here.
  - right. exists z. apply (drive_L ERestart (new_ploader a) l0) in L. apply (drive_R ERestart (new_ploader a) l0) in R.
    destruct (drive x ERestart (new_ploader a) l0 _) as (lu & r1). destruct (drive y ERestart (new_ploader a) l0 _) as (lw & r2). split; [now apply NL|now apply NR].
Qed.
Lemma step_upto : forall i l u w, Rel u w -> agree2 (loader_step x i l u) (loader_step y i l w).
Proof.
  intros i l u w H. destruct i as [a ids|a b| |]; cbn [loader_step].
  - unfold handle_ids. destruct (l_pl l); [|now apply agree2_here]. destruct ids; [now apply agree2_here|]. destruct (addr_eqb _ _); [now apply drive_upto|now apply agree2_here].
  - unfold handle_block. destruct (l_pl l); [|now apply agree2_here]. destruct (addr_eqb _ _); [now apply drive_upto|now apply agree2_here].
  - assert (X : agree2 (loader_tick x (stop_ticker l) u) (loader_tick y (stop_ticker l) w)).
    { unfold loader_tick. destruct (l_pl (stop_ticker l)); [|now apply agree2_here]. eapply agree_bind; [apply (call CNow H)|..].
      - intros. now apply drive_upto.
      - intros. now apply drive_L.
      - intros. now apply drive_R. }
    destruct (loader_tick x (stop_ticker l) u) as ((l1 & u1) & r1). destruct (loader_tick y (stop_ticker l) w) as ((l2 & w1) & r2).
    destruct X as [[[E R] E2]|(z & L & R)]; cbn [fst snd] in *.
    + subst l2 r2. destruct r1; now apply agree2_here.
    + right. exists z. split; [destruct r1; exact L|destruct r2; exact R].
  - assert (X : agree2 (loader_sync x (stop_timer l) u) (loader_sync y (stop_timer l) w)).
    { unfold loader_sync. destruct (l_pl (stop_timer l)); [now apply agree2_here|]. 
      assert (PL : forall z v (lag : list addr) k, Lz z v -> Lz z (snd (fst (match nth_error lag k with Some a => begin_sync x a (stop_timer l) v | None => ((stop_timer l, v), Panic) end)))).
      { intros z v lag k L. destruct (nth_error lag k); [now apply begin_L|exact L]. }
      assert (PR : forall z v (lag : list addr) k, Rz z v -> Rz z (snd (fst (match nth_error lag k with Some a => begin_sync y a (stop_timer l) v | None => ((stop_timer l, v), Panic) end)))).
      { intros z v lag k L. destruct (nth_error lag k); [now apply begin_R|exact L]. }
      eapply agree_bind; [apply (call CConns H)|..].
      - intros u1 w1 [[|c cs]|e| |] R; try now apply agree2_here. eapply agree_bind; [apply (lag_upto (c :: cs) R)|..].
        + intros u2 w2 [[|a lag]|e| |] R2; try now apply agree2_here. eapply agree_bind; [apply (call (CPick (length (a :: lag))) R2)|..].
          * intros u3 w3 k R3. destruct (nth_error _ _); [now apply begin_upto|now apply agree2_here].
          * intros z u3 k L. now apply PL.
          * intros z u3 k L. now apply PR.
        + intros z u2 [[|a lag]|e| |] L; try exact L. one. now apply PL.
        + intros z u2 [[|a lag]|e| |] L; try exact L. one. now apply PR.
      - intros z u1 [[|c cs]|e| |] L; try exact L. pose proof (lag_L (c :: cs) L) as K. destruct (find_lagging x (c :: cs) u1) as [u2 [[|a lag]|e| |]]; try exact K.
        cbn [fst] in K. one. now apply PL.
      - intros z u1 [[|c cs]|e| |] L; try exact L. pose proof (lag_R (c :: cs) L) as K. destruct (find_lagging y (c :: cs) u1) as [u2 [[|a lag]|e| |]]; try exact K.
        cbn [fst] in K. one. now apply PR. }
    destruct (loader_sync x (stop_timer l) u) as ((l1 & u1) & r1). destruct (loader_sync y (stop_timer l) w) as ((l2 & w1) & r2).
    destruct X as [[[E R] E2]|(z & L & R)]; cbn [fst snd] in *.
    + subst l2 r2. destruct r1; now apply agree2_here.
    + right. exists z. split; [destruct r1; exact L|destruct r2; exact R].
Qed.
End UptoSteps.
