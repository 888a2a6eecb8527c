(** Observation does not change behaviour; relations kept by every call are kept by every event. *)
From Verif Require Import Base Kv BytesFacts ChainModel ChainSpec PeersModel PeersSpec LoadModel LoadSpec LoadProofs LoadFire.
Set Implicit Arguments.
Unset Strict Implicit.

(** * Simulation *)
Section Sim.
Variables U W : Type.
Variable x : world U.
Variable y : world W.
Variable f : U -> W.
Definition simulates : Prop := forall c u, y c (f u) = let (u', r) := x c u in (f u', r).
Hypothesis sim : simulates.
Definition onto A (r : U * A) : W * A := (f (fst r), snd r).

Ltac go := repeat (rewrite sim; match goal with |- context [let (_, _) := x ?c ?u in _] => destruct (x c u) as [? ?]; cbn beta iota; cbn [fst snd] end).
Ltac step := rewrite sim; match goal with |- context [x ?c ?u] => let r := fresh "r" in let u1 := fresh "u" in destruct (x c u) as [u1 r]; cbn beta iota; cbn [fst snd] end.

Lemma put_all_sim : forall a bs u, put_all y a bs (f u) = onto (put_all x a bs u).
Proof.
  intros a. induction bs as [|b bs IH]; intros u; [reflexivity|]. cbn [put_all]. step. destruct r; try reflexivity. apply IH.
Qed.
Lemma skip_known_sim : forall a ids u, skip_known y a ids (f u) = onto (skip_known x a ids u).
Proof.
  intros a. induction ids as [|i ids IH]; intros u; [reflexivity|]. cbn [skip_known]. step. destruct r as [[|]| | |]; try reflexivity.
  step. destruct r as [j| | |]; try reflexivity. destruct (id_eqb i j); [apply IH|]. step. destruct r; try reflexivity. apply IH.
Qed.
Lemma ask_blocks_sim : forall a ids u, ask_blocks y a ids (f u) = f (ask_blocks x a ids u).
Proof. intros a. induction ids as [|i ids IH]; intros u; [reflexivity|]. cbn [ask_blocks]. step. apply IH. Qed.
Lemma ask_from_sim : forall i p u, ask_from y i p (f u) = onto (ask_from x i p u).
Proof. intros i p u. unfold ask_from. step. destruct r as [[|j ids]| | |]; try reflexivity. step. step. reflexivity. Qed.
Lemma fire_one_sim : forall t p u, fire_one y t p (f u) = onto (fire_one x t p u).
Proof.
  intros t p u. unfold fire_one. destruct (pl_state p), t; cbn [behave on_entry]; try reflexivity.
  - unfold request_ids. step. destruct r; try reflexivity. apply ask_from_sim.
  - unfold request_ids_from_lca. step. destruct r; try reflexivity. apply ask_from_sim.
  - unfold request_blocks. rewrite skip_known_sim. destruct (skip_known x _ ids u) as [u1 [[|i rest]| | |]]; try reflexivity.
    unfold onto. cbn [fst snd]. rewrite ask_blocks_sim. step. reflexivity.
  - unfold handle_failure. rewrite put_all_sim. destruct (put_all x _ _ u) as [u1 [|e| |]]; try reflexivity.
    unfold onto. cbn [fst snd]. step. reflexivity.
  - unfold append_block. destruct (queue_ready _); try reflexivity. rewrite put_all_sim.
    destruct (put_all x _ _ u) as [u1 [|e| |]]; reflexivity.
  - unfold handle_failure. rewrite put_all_sim. destruct (put_all x _ _ u) as [u1 [|e| |]]; try reflexivity.
    unfold onto. cbn [fst snd]. step. reflexivity.
  - unfold report_ok. step. destruct r as [[|]| | |]; reflexivity.
Qed.
Lemma fire_loop_sim : forall n p u, fire_loop y n p (f u) = onto (fire_loop x n p u).
Proof.
  induction n as [|n IH]; intros p u; cbn [fire_loop]; destruct (pl_triggers p) as [|t ts]; try reflexivity.
  rewrite fire_one_sim. destruct (fire_one x t _ u) as (u1 & p1 & [more|e| |]); unfold onto; cbn [fst snd]; try reflexivity. apply IH.
Qed.
Lemma fire_sim : forall t p u, fire y t p (f u) = onto (fire x t p u).
Proof. intros. apply fire_loop_sim. Qed.
End Sim.

Lemma logging_sim : forall V (w : world V), simulates (logging w) w (@fst V (list event)).
Proof. intros V w c [v es]. unfold logging. cbn [fst]. destruct (w c v) as [v' r]. reflexivity. Qed.

Section SimLoader.
Variables U W : Type.
Variable x : world U.
Variable y : world W.
Variable f : U -> W.
Hypothesis sim : simulates x y f.
Definition g (hu : held * U) : held * W := (fst hu, f (snd hu)).
Ltac step := rewrite sim; match goal with |- context [x ?c ?u] => let r := fresh "r" in let u1 := fresh "u" in destruct (x c u) as [u1 r]; cbn beta iota; cbn [fst snd] end.
Lemma loader_ok_sim : forall a s h u, loader_ok y a s h (f u) = onto g (loader_ok x a s h u).
Proof.
  intros a s h u. unfold loader_ok. destruct (h_pl h), s; try reflexivity. step.
  destruct r as [sc| | |]; try reflexivity.
  - step. destruct r as [leash| | |]; try reflexivity.
    + destruct sc as [pe|]; try reflexivity. destruct (is_lagging _ pe leash) as [d [|]]; step; reflexivity.
    + step. reflexivity.
  - step. reflexivity.
Qed.
Lemma inner_sim : simulates (inner x) (inner y) g.
Proof.
  intros c [h u]. unfold g at 1. cbn [fst snd].
  destruct c; cbn [inner]; try (cbn [fst snd]; rewrite sim; destruct (x _ u) as [u1 r]; reflexivity).
  - cbn [fst snd]. rewrite loader_ok_sim. destruct (loader_ok x a s h u) as [hu r]. reflexivity.
  - cbn [fst snd]. unfold loader_fail. destruct (h_pl h), s; try reflexivity. rewrite sim. destruct (x (CLog (LFailed a)) u) as [u1 r]. reflexivity.
Qed.
Definition lonto A (r : (loader * U) * A) : (loader * W) * A := ((fst (fst r), f (snd (fst r))), snd r).
Lemma drive_sim : forall t p l u, drive y t p l (f u) = lonto (drive x t p l u).
Proof.
  intros t p l u. unfold drive. set (h := {| h_pl := true; h_prev := l_prev l; h_fc := l_fc l; h_ticker := l_ticker l |}).
  change (h, f u) with (g (h, u)). rewrite (fire_sim inner_sim). destruct (fire (inner x) t p (h, u)) as ((h1 & u1) & p1 & r). reflexivity.
Qed.
Lemma find_lagging_sim : forall cs u, find_lagging y cs (f u) = onto f (find_lagging x cs u).
Proof.
  induction cs as [|[a [s|]] cs IH]; intros u; cbn [find_lagging]; [reflexivity| |apply IH]. step.
  destruct r; try reflexivity; [|apply IH]. rewrite IH. destruct (find_lagging x cs u0) as [u1 [|e| |]]; reflexivity.
Qed.
Lemma begin_sync_sim : forall a l u, begin_sync y a l (f u) = lonto (begin_sync x a l u).
Proof.
  intros a l u. unfold begin_sync. destruct (Nat.leb _ _); [|apply drive_sim]. step. rewrite drive_sim.
  destruct (drive x ERestart _ _ u0) as ((l1 & u1) & [|e| |]); unfold lonto; cbn [fst snd]; try reflexivity;
    destruct (l_pl l1); try reflexivity; apply drive_sim.
Qed.
Lemma loader_step_sim : forall i l u, loader_step y i l (f u) = lonto (loader_step x i l u).
Proof.
  intros i l u. destruct i as [a ids|a b| |]; cbn [loader_step].
  - unfold handle_ids. destruct (l_pl l); [|reflexivity]. destruct ids; [reflexivity|]. destruct (addr_eqb _ _); [apply drive_sim|reflexivity].
  - unfold handle_block. destruct (l_pl l); [|reflexivity]. destruct (addr_eqb _ _); [apply drive_sim|reflexivity].
  - unfold loader_tick. destruct (l_pl (stop_ticker l)); [|reflexivity]. step. rewrite drive_sim.
    destruct (drive x _ _ _ u0) as ((l1 & u1) & [|e| |]); reflexivity.
  - unfold loader_sync. destruct (l_pl (stop_timer l)); [reflexivity|]. step. destruct r as [cs| | |]; try reflexivity.
    destruct cs as [|c cs]; [reflexivity|]. rewrite find_lagging_sim. destruct (find_lagging x (c :: cs) u0) as [u1 [lag|e| |]]; try reflexivity.
    unfold onto. cbn [fst snd]. destruct lag as [|a lag]; [reflexivity|]. step. destruct (nth_error _ _); [|reflexivity]. rewrite begin_sync_sim.
    destruct (begin_sync x _ _ _) as ((l1 & u3) & [|e| |]); reflexivity.
Qed.
End SimLoader.

(** * Relations kept by every call *)
Definition ret_reply (c : call) : reply c -> Prop :=
  match c return reply c -> Prop with
  | CLeash _ => @returned id
  | CLcb _ => @returned id
  | CLast _ _ => @returned (list id)
  | CHas _ => @returned bool
  | CMove _ _ => @returned unit
  | CPut _ _ => @returned unit
  | COk _ _ => @returned bool
  | CFail _ _ => @returned unit
  | CScore _ => @returned Z
  | CPeer _ => @returned (option Z)
  | CConns => @returned (list (addr * option Z))
  | _ => fun _ => True
  end.
(** The calls of the peer loader of [a]. *)
Definition pl_call (a : addr) (c : call) : Prop :=
  match c with
  | CLeash b | CLcb b | CMove _ b | CPut _ b | CAskIDs b _ | CAskBlock b _ => b = a
  | CLast _ n => n = 100%Z
  | CHas _ | CNow => True
  | COk b s => b = a /\ s = Idle
  | CFail b s => b = a /\ s = Done
  | CScore _ | CPeer _ | CConns | CPick _ | CLog _ => False
  end.

Section Keep.
Variable U : Type.
Variable x : world U.
Variable a : addr.
Variable R : U -> U -> Prop.
Hypothesis refl : forall u, R u u.
Hypothesis trans : forall u1 u2 u3, R u1 u2 -> R u2 u3 -> R u1 u3.
Hypothesis keep : forall c u, pl_call a c -> ret_reply (snd (x c u)) -> R u (fst (x c u)).

Ltac call := match goal with |- context [x ?c ?u] =>
  let K := fresh "K" in pose proof (@keep c u) as K; destruct (x c u) as [? ?]; cbn [fst snd] in K; cbn beta iota end.
Ltac use := repeat match goal with K : ?P -> ?Q -> R _ _ |- _ => specialize (K ltac:(first [exact Logic.I | reflexivity | split; reflexivity])) end.

Lemma put_all_keep : forall bs u, let r := put_all x a bs u in returned (snd r) -> R u (fst r).
Proof.
  induction bs as [|b bs IH]; intros u; cbn [put_all]; [intros; apply refl|]. call. use.
  destruct r as [v|e| |]; cbn [fst snd returned]; intros H; try contradiction; [|apply K; exact Logic.I].
  apply trans with u0; [apply K; exact Logic.I|]. now apply IH.
Qed.
Lemma skip_known_keep : forall ids u, let r := skip_known x a ids u in returned (snd r) -> R u (fst r).
Proof.
  induction ids as [|i ids IH]; intros u; cbn [skip_known]; [intros; apply refl|]. call. use.
  destruct r as [[|]|e| |]; cbn [fst snd returned]; intros H; try contradiction; try (apply K; exact Logic.I). revert H.
  call. use. destruct r as [j|e| |]; cbn [fst snd returned]; intros H; try contradiction.
  2: { apply trans with u0; [apply K; exact Logic.I|apply K0; exact Logic.I]. }
  revert H. destruct (id_eqb i j).
  - intros H. apply trans with u0; [apply K; exact Logic.I|]. apply trans with u1; [apply K0; exact Logic.I|]. now apply IH.
  - call. use. destruct r as [v|e| |]; cbn [fst snd returned]; intros H; try contradiction.
    + apply trans with u0; [apply K; exact Logic.I|]. apply trans with u1; [apply K0; exact Logic.I|].
      apply trans with u2; [apply K1; exact Logic.I|]. now apply IH.
    + apply trans with u0; [apply K; exact Logic.I|]. apply trans with u1; [apply K0; exact Logic.I|apply K1; exact Logic.I].
Qed.
Lemma ask_blocks_keep : forall ids u, R u (ask_blocks x a ids u).
Proof.
  induction ids as [|i ids IH]; intros u; cbn [ask_blocks]; [apply refl|]. call. use. cbn [fst]. apply trans with u0; [apply K; exact Logic.I|apply IH].
Qed.
Lemma ask_from_keep : forall i p u, pl_peer p = a -> let r := ask_from x i p u in returned (snd (snd r)) -> R u (fst r).
Proof.
  intros i p u P. unfold ask_from. rewrite P. call. use. destruct r as [[|j ids]|e| |]; cbn [fails fst snd returned]; intros H; try contradiction.
  - revert H. call. use. call. use. cbn [fst snd]. intros _. apply trans with u0; [apply K; exact Logic.I|].
    apply trans with u1; [apply K0; exact Logic.I|apply K1; exact Logic.I].
  - apply K. exact Logic.I.
Qed.
Lemma fire_one_peer : forall V (z : world V) t p v, pl_peer (fst (snd (fire_one z t p v))) = pl_peer p.
Proof.
  intros V z t p v. unfold fire_one. assert (AF : forall i q v, pl_peer (fst (snd (ask_from z i q v))) = pl_peer q).
  { intros i q v0. unfold ask_from. destruct (z (CLast i idsBatchSize) v0) as [v1 [[|j ids]| | |]]; try reflexivity.
    destruct (z _ v1) as [v2 ?]. destruct (z CNow v2) as [v3 ?]. reflexivity. }
  destruct (pl_state p), t; cbn [behave on_entry]; try reflexivity.
  - unfold request_ids. destruct (z _ v) as [v1 [i| | |]]; try reflexivity. rewrite AF. reflexivity.
  - unfold request_ids_from_lca. destruct (z _ v) as [v1 [i| | |]]; try reflexivity. rewrite AF. reflexivity.
  - unfold request_blocks. destruct (skip_known z _ ids v) as [v1 [[|i rest]| | |]]; try reflexivity. destruct (z CNow _) as [v3 ?]. reflexivity.
  - unfold handle_failure. destruct (put_all z _ _ v) as [v1 [|e| |]]; try reflexivity. destruct (z _ v1) as [v2 ?]. reflexivity.
  - unfold append_block. destruct (queue_ready _); try reflexivity. destruct (put_all z _ _ v) as [v1 [|e| |]]; reflexivity.
  - unfold handle_failure. destruct (put_all z _ _ v) as [v1 [|e| |]]; try reflexivity. destruct (z _ v1) as [v2 ?]. reflexivity.
  - unfold report_ok. match goal with |- context [z ?c ?u] => destruct (z c u) as [v1 [[|]| | |]]; reflexivity end.
Qed.
Lemma fire_one_keep : forall t p u, pl_peer p = a -> let r := fire_one x t p u in returned (snd (snd r)) -> R u (fst r).
Proof.
  intros t p u P. unfold fire_one. destruct (pl_state p) eqn:S, t; cbn [behave on_entry]; try (intros; apply refl).
  - unfold request_ids. cbn [set_state pl_peer]. rewrite P. call. use.
    destruct r as [i|e| |]; cbn [fails fst snd returned]; intros H; try contradiction; [|apply K; exact Logic.I].
    apply trans with u0; [apply K; exact Logic.I|]. apply ask_from_keep; [exact P|exact H].
  - unfold request_ids_from_lca. cbn [set_state pl_peer]. rewrite P. call. use.
    destruct r as [i|e| |]; cbn [fails fst snd returned]; intros H; try contradiction; [|apply K; exact Logic.I].
    apply trans with u0; [apply K; exact Logic.I|]. apply ask_from_keep; [exact P|exact H].
  - unfold request_blocks. cbn [set_state pl_peer]. rewrite P. pose proof (@skip_known_keep ids u) as K. cbv zeta in K.
    destruct (skip_known x a ids u) as [u0 [[|i rest]|e| |]]; cbn [fails fst snd returned] in *; intros H; try contradiction; auto.
    revert H. pose proof (@ask_blocks_keep (i :: rest) u0) as K1. call. use. cbn [fst snd]. intros _.
    apply trans with u0; [auto|]. apply trans with (ask_blocks x a (i :: rest) u0); auto. apply K0; exact Logic.I.
  - unfold handle_failure. cbn [set_state pl_peer pl_queue pl_state]. rewrite P. pose proof (@put_all_keep (arrived_prefix (pl_queue p)) u) as K. cbv zeta in K.
    destruct (put_all x a _ u) as [u0 [v|e| |]]; cbn [fails fst snd returned] in *; intros H; try contradiction; auto.
    revert H. call. use. destruct r as [v'|e| |]; cbn [fails fst snd returned]; intros H; try contradiction; apply trans with u0; auto; apply K0; exact Logic.I.
  - unfold append_block. cbn [set_queue pl_queue]. destruct (queue_ready _); [|intros; apply refl]. rewrite P.
    pose proof (@put_all_keep (received (queue_put_ptr (pl_queue p) b)) u) as K. cbv zeta in K.
    destruct (put_all x a _ u) as [u0 [v|e| |]]; cbn [fails fst snd returned] in *; intros H; try contradiction; auto.
  - unfold handle_failure. cbn [set_state pl_peer pl_queue pl_state]. rewrite P. pose proof (@put_all_keep (arrived_prefix (pl_queue p)) u) as K. cbv zeta in K.
    destruct (put_all x a _ u) as [u0 [v|e| |]]; cbn [fails fst snd returned] in *; intros H; try contradiction; auto.
    revert H. call. use. destruct r as [v'|e| |]; cbn [fails fst snd returned]; intros H; try contradiction; apply trans with u0; auto; apply K0; exact Logic.I.
  - unfold report_ok. cbn [set_state pl_peer pl_state]. rewrite P. call. use.
    destruct r as [v'|e| |]; cbn [fails fst snd returned]; intros H; try contradiction; apply K; exact Logic.I.
Qed.
Lemma fire_loop_keep : forall n p u, pl_peer p = a -> let r := fire_loop x n p u in returned (snd (snd r)) -> R u (fst r).
Proof.
  induction n as [|n IH]; intros p u P; cbn [fire_loop]; destruct (pl_triggers p) as [|t ts]; try (intros; apply refl).
  - pose proof (@fire_one_keep t (set_triggers p ts) u P) as K. cbv zeta in K. pose proof (@fire_one_peer _ x t (set_triggers p ts) u) as Q.
    destruct (fire_one x t (set_triggers p ts) u) as (u1 & p1 & [more|e| |]); cbn [fst snd returned] in *; intros H; try contradiction; auto.
    apply trans with u1; auto. apply IH; auto. cbn [set_triggers pl_peer]. rewrite Q. exact P.
Qed.
Lemma fire_keep : forall t p u, pl_peer p = a -> let r := fire x t p u in returned (snd (snd r)) -> R u (fst r).
Proof. intros t p u P. unfold fire. now apply fire_loop_keep. Qed.
End Keep.
