(** In a calm world every event is handled and returns. *)
From Verif Require Import Base Kv BytesFacts ChainModel ChainSpec PeersModel PeersSpec LoadModel LoadSpec LoadProofs LoadFire LoadSim.
Set Implicit Arguments.
Unset Strict Implicit.

Definition good A (r : outcome A) : Prop := returned r /\ r <> Err EUnhandled.
Lemma good_ok : forall A (a : A), good (Ok a).
Proof. intros. split; [exact Logic.I|discriminate]. Qed.
Lemma good_to_unit : forall A (r : outcome A), good r -> good (to_unit r).
Proof. intros A [a|e| |] [R N]; split; cbn in *; auto; congruence. Qed.

(** * The triggers fired by one trigger *)
Definition next_ok (s : lstate) (t : trigger) (s' : lstate) (more : list trigger) : Prop :=
  match s, t with
  | Idle, (EStart | ERestart) => s' = WaitIDs /\ more = []
  | WaitIDs, EIDs _ => s' = WaitBlocks /\ (more = [] \/ more = [EQueueReady])
  | WaitIDs, ETick _ => s' = WaitIDs /\ (more = [] \/ more = [ETimeout])
  | WaitBlocks, ETick _ => s' = WaitBlocks /\ (more = [] \/ more = [ETimeout])
  | WaitIDs, ETimeout | WaitBlocks, ETimeout => s' = Done /\ more = []
  | WaitBlocks, EBlock _ => s' = WaitBlocks /\ (more = [] \/ more = [EQueueReady])
  | WaitBlocks, EQueueReady => s' = Idle /\ (more = [] \/ more = [EStart])
  | _, _ => s' = s /\ more = []
  end.
Lemma ask_from_next : forall V (z : world V) i p v, let '(v', (p', r)) := ask_from z i p v in
  pl_state p' = pl_state p /\ pl_triggers p' = pl_triggers p /\ pl_queue p' = pl_queue p /\ match r with Ok more => more = [] | _ => True end.
Proof.
  intros V z i p v. unfold ask_from. destruct (z (CLast i idsBatchSize) v) as [v1 [[|j ids]| | |]]; cbn; auto.
  destruct (z _ v1) as [v2 ?]. destruct (z CNow v2) as [v3 ?]. cbn. auto.
Qed.
Lemma fire_one_next : forall V (z : world V) t p v, let '(v', (p', r)) := fire_one z t p v in
  pl_triggers p' = pl_triggers p /\
  next_ok (pl_state p) t (pl_state p') (match r with Ok more => more | _ => [] end).
Proof.
  intros V z t p v. unfold fire_one. destruct (pl_state p) eqn:S, t; cbn [behave on_entry]; try (cbn; auto; fail).
  - unfold request_ids. destruct (z _ v) as [v1 [i| | |]]; try (cbn; auto; fail).
    pose proof (ask_from_next z i (set_state p WaitIDs) v1) as A. destruct (ask_from z i _ v1) as (v' & p' & [more|e| |]); cbn in *; intuition.
  - unfold request_ids_from_lca. destruct (z _ v) as [v1 [i| | |]]; try (cbn; auto; fail).
    pose proof (ask_from_next z i (set_state p WaitIDs) v1) as A. destruct (ask_from z i _ v1) as (v' & p' & [more|e| |]); cbn in *; intuition.
  - unfold request_blocks. destruct (skip_known z _ ids v) as [v1 [[|i rest]| | |]]; try (cbn; auto; fail).
    destruct (z CNow _) as [v3 ?]. cbn. auto.
  - unfold on_tick. cbn. destruct (_ <? _)%Z; auto.
  - unfold handle_failure. destruct (put_all z _ _ v) as [v1 [|e| |]]; try (cbn; auto; fail).
    match goal with |- context [z ?c ?u] => destruct (z c u) as [v2 [|e| |]] end; cbn; auto.
  - unfold append_block. destruct (queue_ready _); [|cbn; auto]. destruct (put_all z _ _ v) as [v1 [|e| |]]; cbn; auto.
  - unfold on_tick. cbn. destruct (_ <? _)%Z; auto.
  - unfold handle_failure. destruct (put_all z _ _ v) as [v1 [|e| |]]; try (cbn; auto; fail).
    match goal with |- context [z ?c ?u] => destruct (z c u) as [v2 [|e| |]] end; cbn; auto.
  - unfold report_ok. match goal with |- context [z ?c ?u] => destruct (z c u) as [v1 [[|]| | |]] end; cbn; auto.
Qed.

Section Calm.
Variable U : Type.
Variable x : world U.
Variable a : addr.
Variable I : U -> Prop.
Hypothesis calm : calm_on (pl_call a) I x.

Ltac call H := match goal with |- context [x ?c ?u] =>
  let K := fresh "K" in let C := fresh "C" in
  destruct (@calm c u ltac:(first [exact Logic.I | reflexivity | split; reflexivity]) H) as [K C];
  destruct (x c u) as [? ?]; cbn [fst snd] in K, C; cbn beta iota end.

Lemma put_all_calm : forall bs u, I u -> let r := put_all x a bs u in I (fst r) /\ good (snd r).
Proof.
  induction bs as [|b bs IH]; intros u H; cbn [put_all]; [split; [exact H|apply good_ok]|]. call H.
  destruct r as [v|e| |]; cbn [fst snd]; [now apply IH|split; auto|split; auto|split; auto].
Qed.
Lemma good_err : forall A B e, good (@Err A e) -> good (@Err B e).
Proof. intros A B e [_ N]. split; [exact Logic.I|congruence]. Qed.
Lemma skip_known_calm : forall ids u, I u -> let r := skip_known x a ids u in I (fst r) /\ good (snd r).
Proof.
  induction ids as [|i ids IH]; intros u H; cbn [skip_known]; [split; [exact H|apply good_ok]|]. call H.
  destruct r as [[|]|e| |]; cbn [fst snd]; try (destruct C as [[] _]; fail).
  - call K. destruct r as [j|e| |]; cbn [fst snd]; try (destruct C0 as [[] _]; fail).
    + destruct (id_eqb i j); [now apply IH|]. call K0. destruct r as [v|e| |]; cbn [fst snd]; try (destruct C1 as [[] _]; fail).
      * now apply IH.
      * split; auto. exact (@good_err unit _ e C1).
    + split; auto. exact (@good_err id _ e C0).
  - split; auto. apply good_ok.
  - split; auto. exact (@good_err bool _ e C).
Qed.
Lemma ask_blocks_calm : forall ids u, I u -> I (ask_blocks x a ids u).
Proof. induction ids as [|i ids IH]; intros u H; cbn [ask_blocks]; [exact H|]. call H. cbn [fst]. now apply IH. Qed.
Lemma ask_from_calm : forall i p u, I u -> pl_peer p = a -> let r := ask_from x i p u in I (fst r) /\ good (snd (snd r)).
Proof.
  intros i p u H P. unfold ask_from. rewrite P. call H. destruct C as (C1 & C2 & C3).
  destruct r as [[|j ids]|e| |]; cbn [fails fst snd]; try (destruct C1; fail).
  - congruence.
  - call K. call K0. cbn [fst snd]. split; [auto|apply good_ok].
  - split; auto. apply (@good_err (list id)). split; auto.
Qed.
Lemma fire_one_calm : forall t p u, I u -> pl_peer p = a -> ~ (pl_state p = Done /\ t = EQueueReady) ->
  let r := fire_one x t p u in I (fst r) /\ good (snd (snd r)).
Proof.
  intros t p u H P N. unfold fire_one. destruct (pl_state p) eqn:S, t; cbn [behave on_entry]; try (split; [exact H|apply good_ok]).
  - unfold request_ids. cbn [set_state pl_peer]. rewrite P. call H.
    destruct r as [i|e| |]; cbn [fails fst snd]; try (destruct C as [[] _]; fail).
    + apply ask_from_calm; auto.
    + split; auto. exact (@good_err id _ e C).
  - unfold request_ids_from_lca. cbn [set_state pl_peer]. rewrite P. call H.
    destruct r as [i|e| |]; cbn [fails fst snd]; try (destruct C as [[] _]; fail).
    + apply ask_from_calm; auto.
    + split; auto. exact (@good_err id _ e C).
  - unfold request_blocks. cbn [set_state pl_peer]. rewrite P. destruct (@skip_known_calm ids u H) as [K C].
    destruct (skip_known x a ids u) as [u0 [[|i rest]|e| |]]; cbn [fails fst snd] in *; try (destruct C as [[] _]; fail).
    + split; auto. apply good_ok.
    + pose proof (@ask_blocks_calm (i :: rest) u0 K) as K0. call K0. cbn [fst snd]. split; auto. apply good_ok.
    + split; auto. exact (@good_err (list id) _ e C).
  - unfold handle_failure. cbn [set_state pl_peer pl_queue pl_state]. rewrite P. destruct (@put_all_calm (arrived_prefix (pl_queue p)) u H) as [K C].
    destruct (put_all x a _ u) as [u0 [v|e| |]]; cbn [fails fst snd] in *; try (destruct C as [[] _]; fail).
    + call K. destruct r as [v'|e| |]; cbn [fails fst snd]; try (destruct C0 as [[] _]; fail); split; auto; [apply good_ok|exact (@good_err unit _ e C0)].
    + split; auto. exact (@good_err unit _ e C).
  - unfold append_block. cbn [set_queue pl_queue]. destruct (queue_ready _); [|split; [exact H|apply good_ok]]. rewrite P.
    destruct (@put_all_calm (received (queue_put_ptr (pl_queue p) b)) u H) as [K C].
    destruct (put_all x a _ u) as [u0 [v|e| |]]; cbn [fails fst snd] in *; try (destruct C as [[] _]; fail); split; auto.
    + apply good_ok.
    + exact (@good_err unit _ e C).
  - unfold handle_failure. cbn [set_state pl_peer pl_queue pl_state]. rewrite P. destruct (@put_all_calm (arrived_prefix (pl_queue p)) u H) as [K C].
    destruct (put_all x a _ u) as [u0 [v|e| |]]; cbn [fails fst snd] in *; try (destruct C as [[] _]; fail).
    + call K. destruct r as [v'|e| |]; cbn [fails fst snd]; try (destruct C0 as [[] _]; fail); split; auto; [apply good_ok|exact (@good_err unit _ e C0)].
    + split; auto. exact (@good_err unit _ e C).
  - unfold report_ok. cbn [set_state pl_peer pl_state]. rewrite P. call H.
    destruct r as [v'|e| |]; cbn [fails fst snd]; try (destruct C as [[] _]; fail); split; auto; [apply good_ok|exact (@good_err bool _ e C)].
  - destruct N. auto.
Qed.
End Calm.

(** * One event: the machine comes to rest, and what it can have done *)
(** How many more triggers can follow. *)
Definition depth (s : lstate) (t : trigger) : nat :=
  match s, t with
  | WaitBlocks, EQueueReady => 1
  | WaitIDs, EIDs _ => 2
  | WaitBlocks, EBlock _ => 2
  | WaitIDs, ETick _ | WaitBlocks, ETick _ => 1
  | _, _ => 0
  end.
Lemma next_depth : forall s t s' more, next_ok s t s' more -> more = [] \/ exists t', more = [t'] /\ depth s' t' < depth s t /\ ~ (s' = Done /\ t' = EQueueReady).
Proof.
  intros s t s' more H. destruct s, t; cbn in H; destruct H as [-> H]; auto; try (destruct H as [-> | ->]; auto); right; eexists; (split; [reflexivity|]);
    cbn; (split; [lia|]); intros []; congruence.
Qed.
(** The loop with any fuel above the depth: it ends at rest, unless a call did not return. *)
Lemma loop_end : forall V (z : world V) n p v t, pl_triggers p = [t] -> depth (pl_state p) t < n ->
  let '(v', (p', r)) := fire_loop z n p v in pl_triggers p' = [] /\ pl_peer p' = pl_peer p.
Proof.
  induction n as [|n IH]; intros p v t T D; [lia|]. cbn [fire_loop]. rewrite T.
  pose proof (fire_one_next z t (set_triggers p []) v) as N. pose proof (@fire_one_peer _ z t (set_triggers p []) v) as P.
  destruct (fire_one z t (set_triggers p []) v) as (v1 & p1 & [more|e| |]); cbn [fst snd] in *; destruct N as [N1 N2]; auto.
  destruct (next_depth N2) as [->|(t' & -> & L & _)].
  - rewrite N1. cbn [set_triggers pl_triggers app]. rewrite loop_rest by reflexivity. split; [reflexivity|exact P].
  - rewrite N1. cbn [set_triggers pl_triggers app].
    specialize (IH (set_triggers p1 [t']) v1 t' eq_refl). cbn [set_triggers pl_state] in *.
    match goal with |- context [fire_loop z n ?q v1] => change (fire_loop z n q v1) with (fire_loop z n (set_triggers p1 [t']) v1) end.
    destruct (fire_loop z n (set_triggers p1 [t']) v1) as (v' & p' & r). destruct IH as [A B]; [lia|]. split; auto. rewrite B. exact P.
Qed.
Lemma depth_max : forall s t, depth s t < 8.
Proof. intros [] []; cbn; lia. Qed.
Lemma fire_end : forall V (z : world V) t p v, pl_triggers p = [] ->
  let '(v', (p', r)) := fire z t p v in pl_triggers p' = [] /\ pl_peer p' = pl_peer p.
Proof.
  intros V z t p v T. unfold fire. rewrite T. cbn [app]. apply (@loop_end V z 8 (set_triggers p [t]) v t); [reflexivity|apply depth_max].
Qed.
Section CalmFire.
Variable U : Type.
Variable x : world U.
Variable a : addr.
Variable I : U -> Prop.
Hypothesis calm : calm_on (pl_call a) I x.
Lemma loop_calm : forall n p u t, I u -> pl_peer p = a -> pl_triggers p = [t] -> depth (pl_state p) t < n ->
  ~ (pl_state p = Done /\ t = EQueueReady) ->
  let '(u', (p', r)) := fire_loop x n p u in I u' /\ good r.
Proof.
  induction n as [|n IH]; intros p u t H P T D N; [lia|]. cbn [fire_loop]. rewrite T.
  pose proof (fire_one_next x t (set_triggers p []) u) as Q. pose proof (@fire_one_peer _ x t (set_triggers p []) u) as P1.
  pose proof (@fire_one_calm _ _ _ _ calm t (set_triggers p []) u H P N) as C. cbv zeta in C.
  destruct (fire_one x t (set_triggers p []) u) as (u1 & p1 & [more|e| |]); cbn [fst snd] in *; destruct Q as [Q1 Q2]; destruct C as [C1 C2];
    try (destruct C2 as [[] _]; fail).
  2: { split; auto. exact (@good_err (list trigger) unit e C2). }
  destruct (next_depth Q2) as [->|(t' & -> & L & M)].
  - rewrite Q1. cbn [set_triggers pl_triggers app]. rewrite loop_rest by reflexivity. split; [exact C1|apply good_ok].
  - rewrite Q1. cbn [set_triggers pl_triggers app].
    match goal with |- context [fire_loop x n ?q u1] => change (fire_loop x n q u1) with (fire_loop x n (set_triggers p1 [t']) u1) end.
    apply (@IH (set_triggers p1 [t']) u1 t'); auto; [rewrite <- P; exact P1|]. cbn [set_triggers pl_state] in *. lia.
Qed.
Lemma fire_calm : forall t p u, I u -> pl_peer p = a -> pl_triggers p = [] -> t <> EQueueReady ->
  let '(u', (p', r)) := fire x t p u in I u' /\ good r.
Proof.
  intros t p u H P T N. unfold fire. rewrite T. cbn [app]. apply (@loop_calm 8 (set_triggers p [t]) u t); auto; [apply depth_max|].
  intros [_ E]. auto.
Qed.
End CalmFire.

(** The state after an event, in any world. *)
Definition landing (s : lstate) (t : trigger) (s' : lstate) : Prop :=
  s' = s \/
  match s, t with
  | Idle, (EStart | ERestart) => s' = WaitIDs
  | WaitIDs, EIDs _ => s' = WaitBlocks \/ s' = Idle \/ s' = WaitIDs
  | WaitIDs, ETick _ | WaitBlocks, ETick _ => s' = Done
  | WaitBlocks, EBlock _ => s' = Idle \/ s' = WaitIDs
  | _, _ => False
  end.
Lemma loop_start_state : forall V (z : world V) n p v t, pl_state p = Idle -> t = EStart \/ t = ERestart -> pl_triggers p = [t] ->
  pl_state (fst (snd (fire_loop z (S n) p v))) = WaitIDs.
Proof.
  intros V z n p v t S E T. rewrite (@loop_one _ z n p v t T). pose proof (fire_one_next z t (set_triggers p []) v) as N.
  destruct (fire_one z t (set_triggers p []) v) as (v1 & p1 & [more|e| |]); destruct N as [N1 N2]; cbn [set_triggers pl_state] in N2; rewrite S in N2;
    (assert (X : pl_state p1 = WaitIDs) by (destruct E as [-> | ->]; destruct N2; auto)); auto.
  assert (Y : more = []) by (destruct E as [-> | ->]; destruct N2; auto). subst more. rewrite N1. cbn [set_triggers pl_triggers app].
  rewrite loop_rest by reflexivity. exact X.
Qed.
Lemma loop_ready_state : forall V (z : world V) n p v, pl_state p = WaitBlocks -> pl_triggers p = [EQueueReady] ->
  let s' := pl_state (fst (snd (fire_loop z (S (S n)) p v))) in s' = Idle \/ s' = WaitIDs.
Proof.
  intros V z n p v S T. rewrite (@loop_one _ z _ p v _ T). pose proof (fire_one_next z EQueueReady (set_triggers p []) v) as N.
  destruct (fire_one z EQueueReady (set_triggers p []) v) as (v1 & p1 & [more|e| |]); destruct N as [N1 N2]; cbn [set_triggers pl_state] in N2; rewrite S in N2;
    destruct N2 as [X Y]; auto.
  rewrite N1. cbn [set_triggers pl_triggers app]. destruct Y as [->| ->].
  - rewrite loop_rest by reflexivity. left. exact X.
  - right. apply (@loop_start_state V z n _ v1 EStart); auto.
Qed.
Lemma loop_timeout_state : forall V (z : world V) n p v, pl_state p = WaitIDs \/ pl_state p = WaitBlocks -> pl_triggers p = [ETimeout] ->
  pl_state (fst (snd (fire_loop z (S n) p v))) = Done.
Proof.
  intros V z n p v S T. rewrite (@loop_one _ z _ p v _ T). pose proof (fire_one_next z ETimeout (set_triggers p []) v) as N.
  destruct (fire_one z ETimeout (set_triggers p []) v) as (v1 & p1 & r); destruct N as [N1 N2]; cbn [set_triggers pl_state] in N2.
  assert (X : pl_state p1 = Done /\ match r with Ok more => more = [] | _ => True end).
  { destruct S as [S|S]; rewrite S in N2; destruct N2 as [X Y]; split; auto; destruct r; auto. }
  destruct X as [X Y]. destruct r; auto. subst. rewrite N1. cbn [set_triggers pl_triggers app]. rewrite loop_rest by reflexivity. exact X.
Qed.
Lemma fire_state : forall V (z : world V) t p v, pl_triggers p = [] -> t <> EQueueReady -> t <> ETimeout ->
  landing (pl_state p) t (pl_state (fst (snd (fire z t p v)))).
Proof.
  intros V z t p v T N1 N2. rewrite (@fire_rest _ z t p v T). pose proof (fire_one_next z t p v) as N.
  destruct (fire_one z t p v) as (v1 & p1 & r) eqn:F. destruct N as [E1 E2]. rewrite T in E1.
  destruct r as [more|e| |].
  2-4: unfold landing; destruct (pl_state p), t; cbn in E2; destruct E2; cbn [fst snd]; auto.
  rewrite E1. cbn [app]. destruct (next_depth E2) as [->|(t' & -> & _ & _)].
  { rewrite loop_rest by reflexivity. unfold landing. destruct (pl_state p), t; cbn in E2; destruct E2; cbn [fst snd set_triggers pl_state]; auto. }
  unfold landing. destruct (pl_state p), t; cbn [next_ok] in E2; destruct E2 as [S E]; try discriminate E; try congruence; destruct E as [E|E]; try discriminate E;
    injection E as ->; right.
  - pose proof (@loop_ready_state V z 5 (set_triggers p1 [EQueueReady]) v1 S eq_refl) as X. cbv zeta in X.
    destruct X as [X|X]; rewrite X; auto.
  - now apply loop_timeout_state; [left|].
  - pose proof (@loop_ready_state V z 5 (set_triggers p1 [EQueueReady]) v1 S eq_refl) as X. cbv zeta in X.
    destruct X as [X|X]; rewrite X; auto.
  - now apply loop_timeout_state; [right|].
Qed.
