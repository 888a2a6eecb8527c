(** Proofs about package main. *)
From Coq Require Import Permutation Wf_nat.
From Verif Require Import Base Kv BytesFacts KvFacts ChainModel ChainSpec ChainTree ChainRep ChainStep ChainQueries ChainProofs
  PeersModel PeersSpec PeersProofs PeersCalls LockSpec NetModel NetSpec.
Set Implicit Arguments.
Unset Strict Implicit.

(** * Shutdown *)
Section Shutdown.
Variable cfg : config.
Variable g : pblock.
Variable srt : list Peer -> list Peer.
Variable ord : list (addr * conn) -> list (addr * conn).
Notation moves := (moves cfg g srt ord).
Notation next := (next cfg g srt ord).
Notation calm := (calm cfg g srt ord).
Definition stage_left (m : stage) : nat :=
  match m with Serving => 7 | AtAPI => 6 | AtListener => 5 | AtRespawn => 4 | AtLoader => 3 | AtDistributor => 2 | Ended => 0 | Crashed => 0 end.
Definition listener_left (x : listener) : nat :=
  match x with NoServer => 0 | Starting => 3 | Accepting => 2 | Refused => 0 | Closed => 1 | Returned => 0 end.
Definition loader_left (x : lproc) : nat := match x with LSelect => 1 | LHandling => 2 | LStopped => 0 end.
Definition dist_left (x : dproc) : nat := match x with DSelect => 1 | DSending _ => 4 | DStopped => 0 end.
Definition work (s : sys) : nat :=
  (if y_term s then 0 else 1) + stage_left (y_main s) + listener_left (y_listener s) + (if y_respawn s then 1 else 0) +
  loader_left (y_loader s) + dist_left (y_dist s) + 5 * length (y_inbox s) + 2 * y_left s.
Lemma moves_work : forall s s', moves s s' -> alive s -> work s' < work s.
Proof.
  intros s s' M [A1 A2].
  destruct M; unfold work;
    cbn [set_main set_listener set_procs NetModel.set_state set_left set_inbox set_term y_term y_main y_listener y_respawn y_loader y_dist y_inbox y_left y_state];
    repeat match goal with H : ?f s = _ |- _ => match f with y_term => rewrite H | y_main => rewrite H | y_listener => rewrite H | y_respawn => rewrite H
      | y_loader => rewrite H | y_dist => rewrite H | y_inbox => rewrite H | y_left => rewrite H end end;
    cbn [stage_left listener_left loader_left dist_left length after_send]; try lia.
  - destruct p; cbn [after_send dist_left]; lia.
  - destruct (y_main s); cbn [stage_left]; try congruence; lia.
Qed.
Lemma moves_term : forall s s', moves s s' -> y_term s = true -> y_term s' = true.
Proof. intros s s' M T. destruct M; cbn; auto. Qed.
Lemma jammed_step : forall s s', jammed s -> y_term s = true -> moves s s' -> jammed s'.
Proof.
  intros s s' (J1 & J2 & J3 & q & J4) T M. destruct M; try congruence; unfold jammed; cbn; eauto.
Qed.
Lemma moves_on : forall s, alive s -> y_term s = true -> jammed s \/ exists s', next s s'.
Proof.
  intros s A T. assert (Q : jammed s \/ exists s', moves s s'); [|destruct Q as [Q|[s' Q]]; [now left|right; exists s'; now split]].
  destruct A as [A1 A2]. destruct (y_main s) eqn:M; try congruence.
  - right. eexists. now apply m_done.
  - right. eexists. now apply m_api.
  - right. destruct (y_listener s) eqn:L.
    + eexists. now apply m_no_listener.
    + eexists. apply m_nil; auto.
    + eexists. now apply m_close.
    + eexists. apply m_nil; auto.
    + eexists. now apply m_listen_exit.
    + eexists. now apply m_listener.
  - right. destruct (y_respawn s) eqn:R; eexists; [now apply m_respawn_exit|now apply m_respawned].
  - right. destruct (y_loader s) eqn:L; eexists; [now apply m_load_exit|apply m_load_done with (d := y_state s); exact L|now apply m_loaded].
  - destruct (y_dist s) as [|p|] eqn:D.
    + right. eexists. now apply m_dist_exit.
    + destruct (y_loader s) eqn:L.
      * right. eexists. eapply m_send; eauto.
      * right. eexists. apply m_load_done with (d := y_state s); exact L.
      * destruct (y_respawn s) eqn:R; [right; eexists; now apply m_respawn_exit|]. left. unfold jammed. eauto.
    + right. eexists. now apply m_distributed.
Qed.
Lemma over_inevitable : forall s, y_term s = true -> inevitably next over s.
Proof.
  intros s. remember (work s) as n eqn:E. revert s E. induction n as [n IH] using lt_wf_ind. intros s -> T.
  assert (D : y_main s = Ended \/ y_main s = Crashed \/ alive s) by (unfold alive; destruct (y_main s); (now left) || (now right; left) || (right; right; split; discriminate)).
  destruct D as [D|[D|A]]; [apply iv_now; now left|apply iv_now; right; now left|].
  destruct (moves_on A T) as [J|[s' N]]; [apply iv_now; right; now right|].
  apply iv_later; [eauto|]. intros s2 [_ M]. apply (IH (work s2)); [now apply moves_work|reflexivity|]. eapply moves_term; eauto.
Qed.
Lemma inevitably_imp : forall S (nx : S -> S -> Prop) (P Q : S -> Prop) s, (forall s, P s -> Q s) -> inevitably nx P s -> inevitably nx Q s.
Proof. intros S nx P Q s I H. induction H as [s H|s H _ IH]; [apply iv_now; auto|apply iv_later; auto]. Qed.
(** An invariant that holds along all steps can be used at the end. *)
Lemma inevitably_inv : forall S (nx : S -> S -> Prop) (I P Q : S -> Prop) s, (forall s s', I s -> nx s s' -> I s') -> (forall s, I s -> P s -> Q s) ->
  I s -> inevitably nx P s -> inevitably nx Q s.
Proof. intros S nx I P Q s ST F H0 H. induction H as [s H|s H _ IH]; [apply iv_now; auto|apply iv_later; eauto]. Qed.
Lemma calm_step : forall s s', calm s -> next s s' -> calm s'.
Proof.
  intros s s' ((C1 & C1') & C2 & C3 & C4) [_ M].
  destruct M as [| x a rest d ss p D I E | x a rest d ss D I E | | | | | | | | | | | | | | M' L | | | | | |];
    try (unfold calm; cbn; repeat split; auto; try discriminate; congruence).
  - rewrite I in C3. inversion C3 as [|? ? HD TL]; subst. destruct (HD (y_state s)) as (d' & ss' & E'). cbn [fst snd] in E'. rewrite E in E'.
    injection E' as -> -> ->. unfold calm; cbn. repeat split; auto. intros q; discriminate.
  - rewrite I in C3. inversion C3 as [|? ? HD TL]; subst. destruct (HD (y_state s)) as (d' & ss' & E'). cbn [fst snd] in E'. rewrite E in E'. discriminate.
  - destruct L; congruence.
Qed.
Lemma calm_ends : forall s, y_term s = true -> calm s -> inevitably next (fun s => y_main s = Ended) s.
Proof.
  intros s T C. apply (@inevitably_inv _ next calm over); auto using over_inevitable; [apply calm_step|].
  intros s1 (_ & C2 & _ & C4) [E|[E|(_ & _ & _ & p & E)]]; [exact E|congruence|exfalso; now apply (C2 p)].
Qed.
Lemma jammed_forever : forall s s', jammed s -> y_term s = true -> runs cfg g srt ord s s' -> y_main s' = AtDistributor.
Proof.
  intros s s' J T R. assert (Q : jammed s' /\ y_term s' = true); [|apply Q].
  induction R as [|s1 s2 R [IH1 IH2] [_ M]]; [auto|]. split; [eapply jammed_step; eauto|eapply moves_term; eauto].
Qed.
End Shutdown.

(** * Respawn *)
Lemma take_returns : forall cfg r clock, RInv r -> exists r' out, take_available cfg r clock = (r', Ok out).
Proof. intros cfg r clock I. destruct (take_view cfg clock I) as (pend & out & E & _). eauto. Qed.
Lemma respawn_keeps : forall cfg hs s s' rs, rs_armed s = true -> RInv (rs_reg s) -> Forall healthy hs -> respawn_run cfg s hs = (s', rs) ->
  rs_armed s' = true /\ length rs = length (filter ten hs) /\ Forall (fun r => exists l, r = Ok l) rs.
Proof.
  intros cfg hs. induction hs as [|h hs IH]; intros s s' rs A I F E; cbn [respawn_run] in E; [injection E as <- <-; auto|].
  inversion F as [|? ? F1 F2]; subst. destruct h as [[clock|]|o]; cbn [respawn_step healthy] in *; [|congruence|].
  - rewrite A in E. unfold respawn_fire in E. destruct (take_view cfg clock I) as (pend & out & TV & _ & _ & ND & _). rewrite TV in E.
    destruct (respawn_run cfg _ hs) as [s2 rs2] eqn:R in E. injection E as <- <-.
    destruct (fun K => IH _ _ _ (eq_refl : rs_armed {| rs_armed := true; rs_reg := _ |} = true) K F2 R) as (Q1 & Q2 & Q3); [cbn; apply inv_maps; auto; apply I|].
    cbn [filter ten length]. split; [exact Q1|]. split; [now rewrite Q2|]. constructor; eauto.
  - destruct (respawn_run cfg _ hs) as [s2 rs2] eqn:R in E. injection E as <- <-. cbn [filter ten].
    refine (IH {| rs_armed := rs_armed s; rs_reg := rstep cfg (rs_reg s) o |} _ _ A _ F2 R). cbn. now apply rstep_inv.
Qed.
Lemma respawn_dead : forall cfg hs s, rs_armed s = false -> snd (respawn_run cfg s hs) = [].
Proof.
  intros cfg hs. induction hs as [|h hs IH]; intros s A; [reflexivity|]. cbn [respawn_run]. destruct h as [clock|o]; cbn [respawn_step].
  - rewrite A. specialize (IH s A). destruct (respawn_run cfg s hs). exact IH.
  - specialize (IH {| rs_armed := rs_armed s; rs_reg := rstep cfg (rs_reg s) o |} A). destruct (respawn_run cfg _ hs). exact IH.
Qed.
