(** The dialling goroutines of the running process (C85): respawn.go:53-89, connection_manager.go:94-115. *)
From Verif Require Import Base Kv ChainModel ChainSpec ChainExample PeersModel PeersSpec PeersProofs PeersCalls PeersProps LoadModel LoadSpec LoadProps
  NetModel NetSpec NetProps WholeModel WholeSpec WholeProofs WholeProps DialProofs.
Set Implicit Arguments.
Unset Strict Implicit.

(** The address a goroutine dials. *)
Definition target (d : dialler) : addr := match d with Fresh a | Calling a | Failing a => a end.
Definition all_moves (P : move -> Prop) (ts : list turn) : Prop := forall t m, In t ts -> In m (moves_in t) -> P m.
(** EstablishConnection does not return nil. *)
Definition no_nil (m : move) : Prop := forall x n, m <> VCalled x n true.
(** Reading the records does not fail. *)
Definition reads (m : move) : Prop := m <> VRespawn None.

Lemma all_forall : forall (P : move -> Prop) ts, all_moves P ts -> Forall (fun t => Forall P (moves_in t)) ts.
Proof. intros P ts H. apply Forall_forall. intros t I. apply Forall_forall. intros m J. exact (H t m I J). Qed.

(** * C85 *)
(** Whatever happens, an address marked as pending has a goroutine that dials it, so that the mark is removed in the end. Missing:
    runs in which EstablishConnection returns nil (below). *)
Theorem C85_pending_partial : forall cfg g ord cord srt x ts l v r, initial cfg g x -> r_pending (re_reg x) = [] -> Forall wf_turn ts -> all_moves no_nil ts ->
  process cfg g ord cord srt new_loader (begun x) ts = ((l, v), r) ->
  forall a, pending (re_reg (o_real v)) a -> exists d, In d (o_dials v) /\ target d = a.
Proof.
  intros cfg g ord cord srt x ts l v r X N W ST E a P. assert (S1 : Forall (fun t => Forall (steady True) (moves_in t)) ts).
  { apply all_forall. intros t m I J _. exact (ST t m I J). }
  destruct (process_pending X (fun _ => N) W S1 E) as [A _]. specialize (A a Logic.I P). apply in_map_iff in A as (d & D & I). now exists d.
Qed.
Print Assumptions C85_pending_partial.

(** EstablishConnection returns nil before the distributor has heard of the connection: the address stays pending although no goroutine
    dials it, and no respawn takes it again. *)
Definition lonely : list turn :=
  [TMove (VArrive fine (AMessage (on pb (line2 hgood)) (MPeers [Some (pa, 6863%N)]))); TMove (VRespawn (Some (at0 0%Z))); TMove (VSuggest fine 0); TMove (VCalled fine 0 true)].
Lemma lonely_wf : Forall wf_turn lonely.
Proof.
  repeat constructor; try exact Logic.I.
  intros a port [Q|[]]. injection Q as <- _. reflexivity.
Qed.
Theorem C85_leak_refuted : exists x ts l v, initial xcfg xg x /\ r_pending (re_reg x) = [] /\ Forall wf_turn ts /\
  xprocess new_loader (begun x) ts = ((l, v), Ok tt) /\ pending (re_reg (o_real v)) pa /\ ~ connected (re_reg (o_real v)) pa /\ o_dials v = [] /\ o_armed v = true /\
  forall clock, o_dials (move_step xcfg xg (@asis _) (@asis _) v (VRespawn (Some clock))) = [].
Proof.
  exists (xblank [] []), lonely, (loader_of lonely), (end_of lonely). split; [exact xblank_initial|]. split; [reflexivity|]. split; [exact lonely_wf|].
  split; [vm_compute; reflexivity|]. split; [vm_compute; auto|]. split; [vm_compute; tauto|]. split; [vm_compute; reflexivity|]. split; [vm_compute; reflexivity|].
  intros clock.
  assert (E : xprocess new_loader (begun (xblank [] [])) lonely = ((loader_of lonely, end_of lonely), Ok tt)) by (vm_compute; reflexivity).
  unfold xprocess in E. pose proof (proj1 (proj1 (process_fit xblank_initial lonely_wf E))) as RI.
  destruct (take_view xcfg clock RI) as (pend & out & T & _ & D & _).
  assert (O : out = []).
  { destruct out as [|[a port] out]; [reflexivity|]. exfalso. destruct (proj1 (D a port) (or_introl eq_refl)) as (IA & _ & _ & _ & NP & p & RP & _).
    assert (AP : exists q, all_peers (r_db (re_reg (o_real (end_of lonely)))) = Ok [q] /\ p_addr q = pa) by (vm_compute; eauto). destruct AP as (q & AP & QA).
    assert (PA : p_addr p = a) by (eapply get_peer_fields, RP).
    rewrite <- PA in IA, RP. destruct (proj2 (all_peers_In p RI AP) (conj IA RP)) as [Q|[]]. subst q. apply NP. rewrite <- PA, QA. vm_compute. auto. }
  assert (DD : o_dead (end_of lonely) = false) by (vm_compute; reflexivity). assert (AR : o_armed (end_of lonely) = true) by (vm_compute; reflexivity).
  assert (DI : o_dials (end_of lonely) = []) by (vm_compute; reflexivity).
  unfold move_step. rewrite DD, AR, T. cbn [set_respawn o_dials]. rewrite DI, O. reflexivity.
Qed.
Print Assumptions C85_leak_refuted.

(** The timer of the respawn runs as long as reading the records does not fail. *)
Theorem C85_armed : forall cfg g ord cord srt x ts l v r, initial cfg g x -> Forall wf_turn ts -> all_moves reads ts ->
  process cfg g ord cord srt new_loader (begun x) ts = ((l, v), r) -> o_armed v = true.
Proof. intros cfg g ord cord srt x ts l v r X W R E. exact (process_armed X W (all_forall R) E). Qed.
Print Assumptions C85_armed.
(** After it has failed once, nothing is dialled anymore, however long the process runs. *)
Theorem C85_disarmed : forall cfg g ord cord srt x ts l v ts' l' v' r, initial cfg g x -> Forall wf_turn (ts ++ ts') ->
  process cfg g ord cord srt new_loader (begun x) ts = ((l, v), Ok tt) ->
  process cfg g ord cord srt l (move_step cfg g cord srt v (VRespawn None)) ts' = ((l', v'), r) ->
  o_armed v' = false /\ length (o_dials v') <= length (o_dials v).
Proof.
  intros cfg g ord cord srt x ts l v ts' l' v' r X W E E'. apply Forall_app in W as [W W']. destruct (process_fit X W E) as [[RI SH] T].
  assert (D : o_dead v = false) by (eapply process_alive; [|exact E]; reflexivity).
  assert (M : move_step cfg g cord srt v (VRespawn None) = set_respawn v false (o_dials v) \/ (o_armed v = false /\ move_step cfg g cord srt v (VRespawn None) = v)).
  { unfold move_step. rewrite D. destruct (o_armed v); auto. }
  destruct M as [M|[A M]]; rewrite M in E'.
  - assert (F : fit (set_respawn v false (o_dials v))) by (split; [exact RI|destruct SH; constructor; auto]). eapply (process_disarmed F); eauto.
  - eapply (process_disarmed (conj RI SH)); eauto.
Qed.
Print Assumptions C85_disarmed.

(** An address that may be dialled is dialled when the timer fires. *)
Theorem C85_dialled : forall cfg g ord cord srt x ts l v clock a port, initial cfg g x -> Forall wf_turn ts ->
  process cfg g ord cord srt new_loader (begun x) ts = ((l, v), Ok tt) -> o_armed v = true -> dialable cfg (re_reg (o_real v)) clock a port ->
  let v' := move_step cfg g cord srt v (VRespawn (Some clock)) in
  In (Fresh a) (o_dials v') /\ pending (re_reg (o_real v')) a /\ o_armed v' = true /\ exists new, o_dials v' = o_dials v ++ new.
Proof.
  intros cfg g ord cord srt x ts l v clock a port X W E A D v'. destruct (process_fit X W E) as [[RI SH] T].
  assert (DD : o_dead v = false) by (eapply process_alive; [|exact E]; reflexivity).
  destruct (take_view cfg clock RI) as (pend & out & TV & _ & DI & _ & PE). assert (IN : In (a, port) out) by (now apply DI).
  unfold v', move_step. rewrite DD, A, TV. cbn [set_respawn o_dials o_real o_armed registered set_real recorded re_reg d_reg]. split; [|split; [|split; [reflexivity|eauto]]].
  - apply in_app_iff. right. apply in_map_iff. exists (a, port). auto.
  - unfold pending. cbn [r_pending]. apply PE. right. eauto.
Qed.
Print Assumptions C85_dialled.

(** A call that fails, in either of its two steps, takes the mark away and sets the time of the next one; a call that returns nil changes
    nothing. *)
Theorem C85_failed : forall cfg g ord cord srt x ts l v n a f, initial cfg g x -> Forall wf_turn ts ->
  process cfg g ord cord srt new_loader (begun x) ts = ((l, v), Ok tt) -> short (o_real v) -> ft_write f = true ->
  nth_error (o_dials v) n = Some (Calling a) \/ nth_error (o_dials v) n = Some (Failing a) ->
  exists p, reg_peer (re_reg (o_real v)) a = Ok p /\
  let v' := move_step cfg g cord srt v (VCalled f n false) in
  o_dead v' = false /\ o_dials v' = drop n (o_dials v) /\ ~ pending (re_reg (o_real v')) a /\ ~ connected (re_reg (o_real v')) a /\
  exists p', reg_peer (re_reg (o_real v')) a = Ok p' /\ p_next p' = round_second (ft_now f + 600 * second)%Z /\ p_state p' = p_state p /\ p_port p' = p_port p.
Proof.
  intros cfg g ord cord srt x ts l v n a f X W E SO FW N. pose proof (C77_stores_reachable X W E SO) as DR.
  assert (DD : o_dead v = false) by (eapply process_alive; [|exact E]; reflexivity).
  assert (S1 : Forall (fun t => Forall (steady False) (moves_in t)) ts) by (apply all_forall; intros t m _ _ []).
  destruct (process_pending X (fun Q : False => match Q with end) W S1 E) as [_ B].
  assert (KA : ip4 a /\ known (re_reg (o_real v)) a).
  { rewrite Forall_forall in B. destruct N as [N|N]; apply nth_error_In in N; exact (B _ N). }
  destruct KA as [IA [p KP]]. exists p. split; [exact KP|]. destruct DR as [_ RR]. cbn [stores d_reg] in RR.
  destruct (q_unregister (ft_now f) RR IA KP) as (r' & U & U1 & U2 & U3 & _).
  assert (M : move_step cfg g cord srt v (VCalled f n false) = hung_up v f n a).
  { unfold move_step. rewrite DD. destruct N as [-> | ->]; reflexivity. }
  cbv zeta. rewrite M. unfold hung_up. rewrite FW. cbn [stores d_reg] in U. rewrite U. cbn [ignored registered set_respawn set_real o_dead o_dials o_real recorded re_reg d_reg].
  split; [exact DD|]. split; [reflexivity|]. split; [exact U2|]. split; [exact U1|]. eexists. split; [exact U3|]. auto.
Qed.
Print Assumptions C85_failed.
Theorem C85_returned : forall cfg g cord srt v n a f, nth_error (o_dials v) n = Some (Calling a) -> o_dead v = false ->
  let v' := move_step cfg g cord srt v (VCalled f n true) in o_real v' = o_real v /\ o_dials v' = drop n (o_dials v).
Proof. intros cfg g cord srt v n a f N D. cbv zeta. unfold move_step. rewrite D, N. auto. Qed.
Print Assumptions C85_returned.
(** SuggestVersion refuses an address that became hostile meanwhile: the goroutine goes on to UnregisterPeer. *)
Theorem C85_refused : forall cfg g cord srt v n a f, nth_error (o_dials v) n = Some (Fresh a) -> o_dead v = false -> hostile (re_reg (o_real v)) a ->
  nth_error (o_dials (move_step cfg g cord srt v (VSuggest f n))) n = Some (Failing a).
Proof.
  intros cfg g cord srt v n a f N D H. unfold move_step. rewrite D, N, (q_hostile_no_version cfg (ft_now f) (ft_write f) H). cbn [set_respawn o_dials].
  revert N. generalize (o_dials v). clear. induction n as [|n IH]; intros [|d ds] N; cbn in *; try discriminate; auto.
Qed.
Print Assumptions C85_refused.

(** An address is heard of, dialled without success, not dialled again at once, and dialled again after ten minutes. *)
Definition stubborn : list turn :=
  [TMove (VArrive fine (AMessage (on pb (line2 hgood)) (MPeers [Some (pa, 6863%N)]))); TMove (VRespawn (Some (at0 0%Z))); TMove (VSuggest fine 0); TMove (VCalled fine 0 false)].
Example C85_example :
  Forall wf_turn stubborn /\ all_moves no_nil stubborn /\ all_moves reads stubborn /\ snd (xprocess new_loader (begun (xblank [] [])) stubborn) = Ok tt /\ short (o_real (end_of stubborn)) /\
  o_dials (end_of (firstn 2 stubborn)) = [Fresh pa] /\ pending (re_reg (o_real (end_of (firstn 2 stubborn)))) pa /\
  o_dials (end_of (firstn 3 stubborn)) = [Calling pa] /\ r_pending (re_reg (o_real (end_of stubborn))) = [] /\ o_dials (end_of stubborn) = [] /\
  o_dials (end_of (stubborn ++ [TMove (VRespawn (Some (at0 (599 * second)%Z)))])) = [] /\
  o_dials (end_of (stubborn ++ [TMove (VRespawn (Some (at0 (600 * second)%Z)))])) = [Fresh pa] /\
  o_armed (end_of (stubborn ++ [TMove (VRespawn None)])) = false.
Proof.
  split; [repeat constructor; try exact Logic.I; intros a port [Q|[]]; injection Q as <- _; reflexivity|].
  split; [intros t m I J; repeat (destruct I as [<-|I]; [destruct J as [<-|[]]; discriminate|]); destruct I|].
  split; [intros t m I J; repeat (destruct I as [<-|I]; [destruct J as [<-|[]]; discriminate|]); destruct I|].
  split; [vm_compute; reflexivity|]. split; [vm_compute; reflexivity|]. split; [vm_compute; reflexivity|]. split; [vm_compute; auto|].
  split; [vm_compute; reflexivity|]. split; [vm_compute; reflexivity|]. split; [vm_compute; reflexivity|]. split; [vm_compute; reflexivity|]. split; vm_compute; reflexivity.
Qed.
