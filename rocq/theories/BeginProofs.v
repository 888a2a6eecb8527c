(** Proofs about the beginning of a synchronisation with an honest peer (C105). *)
From Verif Require Import Base Kv BytesFacts KvFacts ChainModel ChainSpec ChainTree ChainRep ChainStep ChainProofs PeersModel PeersSpec PeersProofs PeersCalls
  LoadModel LoadSpec LoadProofs LoadFire LoadSim LoadLoop LoadRule LoadReal LoadLeash LoadLift NetModel NetSpec NetProofs NetDist WholeModel WholeSpec WholeProofs WholeSource
  SyncSpec SyncProofs LockSpec HonestSpec HonestProofs HonestSync.
Set Implicit Arguments.
Unset Strict Implicit.

Section Begin.
Variable cfg : config.
Variable g : pblock.
Variable ord : list group -> list group.
Variable cord : list (addr * conn) -> list (addr * conn).
Variable srt : list Peer -> list Peer.
Variable m : meaning.
Variable a : addr.
Variable sc : Z.
Hypothesis IP : ip4 a.
Notation rw := (real_world cfg g ord cord srt).
Notation ww := (whole_world cfg g ord cord srt).
Notation process := (WholeModel.process cfg g ord cord srt).
Notation good := (good cfg g m a sc).
Notation idles := (idles cfg g m a sc).
Notation has x i := (lk_has_block (re_lk x) i = Ok true).

Lemma lag_good : forall cs x, good x -> exists y r, find_lagging rw cs x = (y, r) /\ idles [] x y.
Proof.
  induction cs as [|[b [s|]] cs IH]; intros x G; cbn [find_lagging].
  - exists x, (Ok []). split; [reflexivity|]. now apply idles_refl.
  - cbn [real_world]. assert (I1 := meanwhile_good IP G). set (x1 := meanwhile cfg g x) in *. clearbody x1.
    destruct (leash_score (re_lk x1) b) as [z|e| |].
    + destruct (IH x1) as (y & r & E & I2); [apply I1|]. rewrite E. assert (I12 := idles_nil I1 I2). destruct r; eauto.
    + destruct (IH x1) as (y & r & E & I2); [apply I1|]. rewrite E. assert (I12 := idles_nil I1 I2). eauto.
    + eauto.
    + eauto.
  - apply IH, G.
Qed.
(** The request for IDs of a synchronisation that has just begun. *)
Definition asked (l : loader) (x : real) (l' : loader) (y : real) (r : outcome unit) : Prop :=
  good y /\ later x y /\ l_prev l' = l_prev l /\ exists p, busy l' p /\ pl_peer p = a /\
    forall i, short y -> wf_id i -> leash (re_lk x) a = Ok i -> has x i ->
      r = Ok tt /\ waiting p WaitIDs /\ leash (re_lk y) a = Ok i /\ exists js, re_sent y = re_sent x ++ [(a, MsgIDs (i :: js))].
Lemma begin_good : forall l x l' y r, good x -> fc_count (l_fc l) a < 10 -> begin_sync rw a l x = ((l', y), r) -> asked l x l' y r.
Proof.
  intros l x l' y r G FC E. unfold begin_sync in E. change restartThreshold with 10 in E. destruct (Nat.leb_spec 10 (fc_count (l_fc l) a)) as [L|_]; [lia|].
  unfold drive in E. cbn [with_pl l_prev l_fc l_ticker l_timer] in E. rewrite fire_rest in E by reflexivity.
  unfold fire_one in E. cbn [new_ploader pl_state behave on_entry] in E.
  destruct (@ids_good cfg g ord cord srt m a sc IP (LoadModel.set_state (new_ploader a) WaitIDs) {| h_pl := true; h_prev := l_prev l; h_fc := l_fc l; h_ticker := true |} x G eq_refl)
    as (z & p' & o & Q & GZ & LZ & PA & ST & TR & MO & SP).
  rewrite Q in E. cbn [LoadModel.set_state new_ploader pl_state pl_triggers] in ST, TR. rewrite TR in E.
  destruct o as [more|e| |].
  - rewrite (MO more eq_refl) in E. cbn [app] in E. rewrite loop_rest in E by reflexivity. cbn [h_pl h_prev h_fc h_ticker] in E. injection E as <- <- <-.
    split; [exact GZ|]. split; [exact LZ|]. split; [reflexivity|]. eexists. split; [reflexivity|]. split; [exact PA|]. intros i SH WI L H. destruct (SP i SH WI L H) as (_ & L' & SN).
    split; [reflexivity|]. split; [split; [exact ST|reflexivity]|]. auto.
  - cbn [h_pl h_prev h_fc h_ticker] in E. injection E as <- <- <-. split; [exact GZ|]. split; [exact LZ|]. split; [reflexivity|]. eexists. split; [reflexivity|]. split; [exact PA|].
    intros i SH WI L H. destruct (SP i SH WI L H) as (X & _). discriminate.
  - cbn [h_pl h_prev h_fc h_ticker] in E. injection E as <- <- <-. split; [exact GZ|]. split; [exact LZ|]. split; [reflexivity|]. eexists. split; [reflexivity|]. split; [exact PA|].
    intros i SH WI L H. destruct (SP i SH WI L H) as (X & _). discriminate.
  - cbn [h_pl h_prev h_fc h_ticker] in E. injection E as <- <- <-. split; [exact GZ|]. split; [exact LZ|]. split; [reflexivity|]. eexists. split; [reflexivity|]. split; [exact PA|].
    intros i SH WI L H. destruct (SP i SH WI L H) as (X & _). discriminate.
Qed.
Lemma sync_good : forall l x l' y r p, good x -> fc_count (l_fc l) a < 10 -> l_pl l = None -> busy l' p -> pl_peer p = a ->
  loader_step rw InSync l x = ((l', y), r) -> asked l x l' y r.
Proof.
  intros l x l' y r p G FC IL B PA E. unfold busy in B. cbn [loader_step] in E. unfold loader_sync in E. cbn [stop_timer l_pl] in E. rewrite IL in E.
  assert (I1 := meanwhile_good IP G). destruct (rw CConns x) as [x1 r1] eqn:C1. assert (X1 : x1 = meanwhile cfg g x) by (cbn [real_world] in C1; congruence). rewrite <- X1 in I1. clear X1 C1.
  destruct r1 as [[|c cs]|e| |]; try (exfalso; injection E as Q1 _ _; rewrite <- Q1 in B; cbn in B; congruence).
  destruct (@lag_good (c :: cs) x1) as (x2 & r2 & L2 & I2); [apply I1|]. rewrite L2 in E. assert (I12 := idles_nil I1 I2).
  destruct r2 as [[|b lag]|e| |]; try (exfalso; injection E as Q1 _ _; rewrite <- Q1 in B; cbn in B; congruence).
  assert (I3 := meanwhile_good IP (proj1 (proj1 I12))). destruct (rw (CPick (length (b :: lag))) x2) as [x3 k] eqn:C3.
  assert (X3 : x3 = meanwhile cfg g x2) by (cbn [real_world] in C3; congruence). rewrite <- X3 in I3. clear X3 C3. assert (I13 := idles_nil I12 I3).
  destruct (nth_error (b :: lag) k) as [c0|]; [|exfalso; injection E as Q1 _ _; rewrite <- Q1 in B; cbn in B; congruence].
  destruct (begin_sync rw c0 (stop_timer l) x3) as [[l1 x4] r4] eqn:D.
  assert (CA : c0 = a).
  { destruct (begin_at D) as [_ Q]. assert (B1 : busy l1 p) by (destruct r4; injection E as <- _ _; exact B). specialize (Q _ B1). destruct Q as (_ & Q & _). congruence. }
  subst c0. destruct (@begin_good (stop_timer l) x3 l1 x4 r4) as (GY & LY & PV & p1 & B1 & PA1 & SP); auto; [apply I13|].
  assert (Q : busy l' p1 /\ l_prev l' = l_prev l1 /\ y = x4 /\ r = r4) by (destruct r4; injection E as <- <- <-; auto). destruct Q as (Q1 & Q2 & -> & ->).
  split; [exact GY|]. split; [eapply later_trans; [apply I13|exact LY]|]. split; [rewrite Q2; exact PV|]. exists p1. split; [exact Q1|]. split; [exact PA1|].
  intros i SH WI L H. assert (SH3 : short x3) by (eapply later_short; eauto). destruct I13 as [(G3 & LT3 & SN3) LE3]. rewrite app_nil_r in SN3. rewrite <- SN3. apply SP; auto.
  - rewrite LE3 by exact SH3. exact L.
  - eapply (@has_later cfg g m a sc x x3); eauto.
Qed.

Lemma happens_later : forall hs x, later x (fold_left (LoadModel.happens cfg g) hs x).
Proof.
  induction hs as [|h hs IH]; intros x; cbn [fold_left]; [apply later_refl|]. eapply later_trans; [|apply IH]. eexists. reflexivity.
Qed.
Lemma call_later : forall c x, later x (fst (rw c x)).
Proof.
  intros c x. assert (K : later x (meanwhile cfg g x)) by exact (happens_later (hd [] (re_env x)) x).
  assert (WR : forall o, later x (fst (writes g (meanwhile cfg g x) o))).
  { intros o. eapply later_trans; [exact K|]. unfold writes. destruct (exec g (re_lk (meanwhile cfg g x)) o _). cbn [fst]. eexists. reflexivity. }
  destruct c; cbn [real_world fst]; auto.
Qed.
Lemma step_later : forall i l x, later x (snd (fst (loader_step rw i l x))).
Proof. apply step_all; [apply later_refl|intros; eapply later_trans; eauto|exact call_later]. Qed.

(** * A turn of the timer while nothing else happens *)
Definition quiet (d : bool) (v : whole) : Prop := o_todo v = [] /\ re_env (o_real v) = [] /\ o_dead v = d.
Lemma quiet_pre : forall d v, quiet d v -> o_real (v_pre cfg g cord srt v) = o_real v /\ o_todo (v_pre cfg g cord srt v) = [] /\ o_dead (v_pre cfg g cord srt v) = o_dead v.
Proof. intros d v (T & _). unfold v_pre. rewrite T. auto. Qed.
Lemma call_quiet : forall d c v, quiet d v -> quiet d (fst (ww c v)).
Proof.
  intros d c v Q. destruct (quiet_pre Q) as (A & B & C). destruct Q as (_ & E & D). rewrite world_at, A. cbn [fst]. split; [exact B|]. split; [|cbn [add_call o_dead]; congruence].
  cbn [add_call o_real]. now apply call_keeps.
Qed.
Definition qstate (d : bool) := { v : whole | quiet d v }.
Definition qworld (d : bool) : world (qstate d) := fun c u => (exist _ (fst (ww c (proj1_sig u))) (call_quiet c (proj2_sig u)), snd (ww c (proj1_sig u))).
Lemma quiet_step : forall d i l v l' v' r, quiet d v -> loader_step ww i l v = ((l', v'), r) ->
  loader_step rw i l (o_real v) = ((l', o_real v'), r) /\ quiet d v'.
Proof.
  intros d i l v l' v' r Q E.
  assert (S1 : simulates (@qworld d) ww (@proj1_sig _ _)) by (intros c u; unfold qworld; cbn [proj1_sig]; apply surjective_pairing).
  assert (S2 : simulates (@qworld d) rw (fun u => o_real (proj1_sig u))).
  { intros c [u QU]. unfold qworld. cbn [proj1_sig fst snd]. destruct (quiet_pre QU) as (A & _). rewrite world_at, A. cbn [fst snd add_call o_real]. apply surjective_pairing. }
  pose proof (loader_step_sim S1 i l (exist _ v Q)) as E1. pose proof (loader_step_sim S2 i l (exist _ v Q)) as E2. cbn [proj1_sig] in E1, E2. rewrite E in E1. rewrite E2.
  destruct (loader_step (@qworld d) i l (exist _ v Q)) as [[l1 [v1 Q1]] r1]. unfold lonto in *. cbn [fst snd proj1_sig] in *. injection E1 as -> -> ->. auto.
Qed.
Lemma alone : forall x, re_env x = [] -> meanwhile cfg g x = x.
Proof. intros x N. unfold meanwhile. rewrite N. cbn [hd tl fold_left]. destruct x. cbn in N |- *. now subst. Qed.
Definition behind (x : real) (b : addr) (s : option Z) : Prop := exists t z, s = Some t /\ leash_score (re_lk x) b = Ok z /\ (z < t)%Z.
Lemma lag_alone : forall x cs, re_env x = [] -> (forall b s, In (b, Some s) cs -> exists z, leash_score (re_lk x) b = Ok z) ->
  exists lag, find_lagging rw cs x = (x, Ok lag) /\ forall b, In b lag <-> exists s, In (b, s) cs /\ behind x b s.
Proof.
  intros x cs N. induction cs as [|[b [s|]] cs IH]; intros HS; cbn [find_lagging].
  - exists []. split; [reflexivity|]. intros b. split; [intros []|intros (s & [] & _)].
  - cbn [real_world]. rewrite (alone N). destruct (HS b s (or_introl eq_refl)) as [z Z]. rewrite Z.
    destruct IH as (lag & E & L). { intros c t I. apply (HS c t). now right. }
    rewrite E. eexists. split; [reflexivity|]. intros c. destruct (Z.ltb_spec z s) as [LT|GE].
    + cbn [In]. rewrite L. split.
      * intros [<-|(t & I & B)]; [exists (Some s); split; [now left|]; exists s, z; auto|exists t; split; [now right|exact B]].
      * intros (t & [I|I] & B); [injection I as <- _; now left|right; eauto].
    + rewrite L. split.
      * intros (t & I & B). exists t. split; [now right|exact B].
      * intros (t & [I|I] & B); [|eauto]. exfalso. injection I as <- <-. destruct B as (t & z' & [= <-] & Z' & LT). assert (z' = z) by congruence. lia.
  - destruct IH as (lag & E & L). { intros c t I. apply (HS c t). now right. }
    exists lag. split; [exact E|]. intros c. rewrite L. split.
    + intros (t & I & B). exists t. split; [now right|exact B].
    + intros (t & [I|I] & B); [|eauto]. exfalso. injection I as <- <-. destruct B as (t & z' & [=] & _).
Qed.
(** Peer [b] is connected and has announced more than the score of its leash. *)
Definition lagging (x : real) (b : addr) : Prop := connected (re_reg x) b /\ exists q, reg_peer (re_reg x) b = Ok q /\ behind x b (p_score q).
Lemma sync_alone : forall l x, permutes cord -> permutes srt -> sound cfg g x -> moved_well g x -> short x -> re_env x = [] -> l_pl l = None ->
  (forall b, connected (re_reg x) b -> known (re_reg x) b) -> lagging x a -> (forall b, lagging x b -> b = a) ->
  loader_step rw InSync l x = (match begin_sync rw a (stop_timer l) x with ((l1, v1), (Ok _ | Err _) as r) => ((reset_timer l1, v1), r) | r => r end).
Proof.
  intros l x PO PS SO MW SH N IL KN LA UN. cbn [loader_step]. unfold loader_sync. cbn [stop_timer l_pl]. rewrite IL. cbn [real_world]. rewrite (alone N).
  assert (RI := real_reg SO). destruct (PeersCalls.connections_view RI PO PS KN) as (ps & E & PE & MEM). rewrite E. cbn [bind].
  set (cs := map (fun p => (p_addr p, p_score p)) ps).
  assert (IN : forall b s, In (b, s) cs <-> connected (re_reg x) b /\ exists q, reg_peer (re_reg x) b = Ok q /\ p_score q = s).
  { intros b s. unfold cs. rewrite in_map_iff. split.
    - intros (p & Q & I). injection Q as <- <-. apply MEM in I. destruct I as (q & c & I & RQ & EQ). split; [now apply in_map_iff; exists (p_addr p, c)|].
      exists q. split; [exact RQ|]. rewrite EQ. reflexivity.
    - intros (C & q & RQ & <-). apply in_map_iff in C as ([b' c] & <- & I). cbn [fst] in *. exists (set_live q c). assert (AQ : p_addr q = b') by (eapply get_peer_fields, RQ).
      split; [cbn; now rewrite AQ|]. apply MEM. exists q, c. cbn [set_live p_addr]. rewrite AQ. auto. }
  destruct (@lag_alone x cs N) as (lag & FL & LG).
  { intros b s I. apply IN in I as (C & _). destruct (I_conns4 RI C) as (bb & EB & LB). destruct (@leash_ok cfg g x b (conj SO (fun _ => MW)) SH) as (i & z & _ & _ & _ & Z); [rewrite EB; exact LB|eauto]. }
  assert (LL : forall b, In b lag <-> lagging x b).
  { intros b. rewrite LG. unfold lagging. split.
    - intros (s & I & B). apply IN in I as (C & q & RQ & <-). eauto.
    - intros (C & q & RQ & B). exists (p_score q). split; [apply IN; eauto|exact B]. }
  assert (IA : In a lag) by now apply LL.
  destruct cs as [|c cs']. { exfalso. cbn [find_lagging] in FL. injection FL as <-. exact IA. }
  rewrite FL. destruct lag as [|b lag]; [destruct IA|]. rewrite (alone N).
  assert (LT : Nat.modulo (re_rand x) (length (b :: lag)) < length (b :: lag)) by (apply Nat.mod_upper_bound; discriminate).
  destruct (nth_error (b :: lag) (Nat.modulo (re_rand x) (length (b :: lag)))) as [c0|] eqn:NE; [|apply nth_error_None in NE; lia].
  assert (c0 = a) by (apply UN, LL; eapply nth_error_In, NE). subst c0. reflexivity.
Qed.

Variable H : list pblock.
Hypothesis PC : proper_chain m g H.
Hypothesis WS : (weight g H <= sc)%Z.
Theorem sync_turn : forall x0 ts ms k i l v l' v' p new, initial cfg g x0 -> Forall wf_turn (ts ++ [TSync ms]) -> Forall (elsewhere m a) (concat ms) ->
  process new_loader (begun x0) ts = ((l, v), Ok tt) -> l_pl l = None -> fc_count (l_fc l) a < 10 -> fair m a sc (o_real v) -> on_line a v ->
  leash (re_lk (o_real v)) a = Ok i -> nth_error (cids g H) k = Some i ->
  process l v [TSync ms] = ((l', v'), Ok tt) -> busy l' p -> pl_peer p = a -> re_sent (o_real v') = re_sent (o_real v) ++ new -> short (o_real v') ->
  fair m a sc (o_real v') /\ on_line a v' /\ asking g a H k {| sc_l := l'; sc_x := o_real v'; sc_open := sent_to a new |} /\ l_prev l' = l_prev l /\
  exists js, sent_to a new = [MsgIDs (i :: js)].
Proof.
  intros x0 ts ms k i l v l' v' p new X0 W EL E IL FC F (CN & DL & HO) LE NT ET B PA SN SH.
  apply Forall_app in W as [W WT]. apply Forall_inv in WT. destruct (process_past (begun_past X0) W E) as (FI & _).
  destruct (@process_going cfg g ord cord srt ts new_loader (begun x0) l v) as [ND DE]; auto; [discriminate|].
  destruct (one_turn ET) as (r1 & TS & _). cbn [turn_step] in TS. destruct (l_timer l); [|injection TS as <- _ _; unfold busy in B; congruence].
  unfold handling in TS. destruct (loader_step ww InSync l (set_todo v ms)) as [[l1 v1] r2] eqn:LS. injection TS as -> EV _.
  assert (LK : linked a None v) by (split; [exact FI|]; split; [exact CN|]; split; [exact DL|]; split; [exact ND|exact HO]).
  assert (AH := linked_ahead LK (todo_turn WT) (todo_away EL)). destruct (step_ahead AH LS) as (env & FE & RS & AH1).
  cbn [set_todo o_real] in RS. apply ahead_linked in AH1. rewrite EV in AH1.
  assert (RV : o_real v1 = o_real v') by (now rewrite <- EV). rewrite RV in RS.
  assert (SV : short (o_real v)).
  { pose proof (step_later InSync l (with_env (o_real v) env)) as LT. rewrite RS in LT. exact (later_short LT SH). }
  destruct (always_well X0 W E SV) as (SO & MW & EN).
  assert (HB : has (o_real v) i).
  { destruct (@leash_ok cfg g (o_real v) a (conj SO (fun _ => MW)) SV (wf_ip4 IP)) as (j & z & _ & LJ & HJ & _). congruence. }
  assert (G : good (o_real v)). { split; [|exact F]. split; [exact SO|]. unfold undisturbed. rewrite EN. constructor. }
  assert (GE := env_good G FE). destruct (sync_good GE FC IL B PA RS) as (GY & LT & PV & p1 & B1 & PA1 & SP).
  assert (WI : wf_id i). { assert (Q := cids_wf PC G). rewrite Forall_forall in Q. apply Q. eapply nth_error_In, NT. }
  assert (p1 = p) by (unfold busy in *; congruence). subst p1.
  destruct (SP i SH WI LE HB) as (_ & WP & LY & js & SJ). cbn [with_env re_sent] in SJ. rewrite SN in SJ. apply app_inv_head in SJ. subst new.
  split; [apply GY|]. split. { destruct AH1 as (_ & A1 & A2 & _ & A3). split; [exact A1|]. split; [exact A2|exact A3]. }
  assert (ST : sent_to a [(a, MsgIDs (i :: js))] = [MsgIDs (i :: js)]).
  { unfold sent_to. cbn [filter fst map snd]. destruct (addr_eqb a a) eqn:Q; [reflexivity|]. destruct (PeersProofs.addr_eqb_spec a a); congruence. }
  split; [|split; [exact PV|exists js; exact ST]]. exists p, (i :: js), i. split; [exact B|]. split; [exact WP|]. split; [exact PA|]. split; [exact ST|].
  split. { exists [], i, js. split; [reflexivity|]. split; [exact NT|constructor]. }
  split; [exact NT|]. cbn [sc_x]. eapply (@has_later cfg g m a sc _ (o_real v') i GE GY); eauto.
Qed.
Lemma ids_ops : forall p h x, re_env x = [] -> re_ops (snd (fst (request_ids (inner rw) p (h, x)))) = re_ops x.
Proof.
  intros p h x N. unfold request_ids. cbn [inner fst snd real_world]. rewrite (alone N). cbn [fst snd]. destruct (leash (re_lk x) (pl_peer p)); try reflexivity.
  unfold ask_from. cbn [inner fst snd real_world]. rewrite (alone N). cbn [fst snd]. destruct (last_ids (re_lk x) _ idsBatchSize) as [[|i ids]|e| |]; try reflexivity.
  cbn [inner fst snd real_world]. rewrite (alone N). cbn [fst snd]. rewrite (@alone (sends x (pl_peer p) (MsgIDs (i :: ids)))) by exact N. reflexivity.
Qed.
Lemma begin_ops : forall l x l' y r, good x -> re_env x = [] -> fc_count (l_fc l) a < 10 -> begin_sync rw a l x = ((l', y), r) -> re_ops y = re_ops x.
Proof.
  intros l x l' y r G N FC E. unfold begin_sync in E. change restartThreshold with 10 in E. destruct (Nat.leb_spec 10 (fc_count (l_fc l) a)) as [L|_]; [lia|].
  unfold drive in E. cbn [with_pl l_prev l_fc l_ticker l_timer] in E. rewrite fire_rest in E by reflexivity.
  unfold fire_one in E. cbn [new_ploader pl_state behave on_entry] in E. set (h := {| h_pl := true; h_prev := l_prev l; h_fc := l_fc l; h_ticker := true |}) in E.
  destruct (@ids_good cfg g ord cord srt m a sc IP (LoadModel.set_state (new_ploader a) WaitIDs) h x G eq_refl)
    as (z & p' & o & Q & GZ & LZ & PA & ST & TR & MO & SP).
  pose proof (@ids_ops (LoadModel.set_state (new_ploader a) WaitIDs) h x N) as O.
  rewrite Q in E, O. cbn [fst snd] in O. cbn [LoadModel.set_state new_ploader pl_state pl_triggers] in ST, TR. rewrite TR in E.
  destruct o as [more|e| |]; [rewrite (MO more eq_refl) in E; cbn [app] in E; rewrite loop_rest in E by reflexivity|..]; injection E as _ <- _; exact O.
Qed.
Theorem sole_turn : forall x0 ts l v, permutes cord -> permutes srt -> initial cfg g x0 -> Forall wf_turn ts ->
  process new_loader (begun x0) ts = ((l, v), Ok tt) -> l_timer l = true -> l_pl l = None -> fc_count (l_fc l) a < 10 -> fair m a sc (o_real v) -> short (o_real v) ->
  (forall b, connected (re_reg (o_real v)) b -> known (re_reg (o_real v)) b) -> lagging (o_real v) a -> (forall b, lagging (o_real v) b -> b = a) ->
  exists l' v' p, process l v [TSync []] = ((l', v'), Ok tt) /\ busy l' p /\ pl_peer p = a /\ re_ops (o_real v') = re_ops (o_real v) /\
    exists i js, leash (re_lk (o_real v)) a = Ok i /\ re_sent (o_real v') = re_sent (o_real v) ++ [(a, MsgIDs (i :: js))].
Proof.
  intros x0 ts l v PO PS X0 W E TM IL FC F SV KN LA UN. destruct (always_well X0 W E SV) as (SO & MW & EN).
  assert (G : good (o_real v)). { split; [|exact F]. split; [exact SO|]. unfold undisturbed. rewrite EN. constructor. }
  destruct (@process_going cfg g ord cord srt ts new_loader (begun x0) l v) as [ND DE]; auto; [discriminate|].
  assert (RS := @sync_alone l (o_real v) PO PS SO MW SV EN IL KN LA UN).
  destruct (begin_sync rw a (stop_timer l) (o_real v)) as [[l1 y] r] eqn:B. destruct (@begin_good (stop_timer l) (o_real v) l1 y r G FC B) as (GY & LT & _ & p & BP & PA & SP).
  assert (OY := @begin_ops (stop_timer l) (o_real v) l1 y r G EN FC B). assert (SY : short y) by (unfold short in *; now rewrite OY).
  destruct (@leash_ok cfg g (o_real v) a (conj SO (fun _ => MW)) SV (wf_ip4 IP)) as (i & z & WI & LE & HB & _).
  destruct (SP i SY WI LE HB) as (-> & _ & _ & js & SJ).
  destruct (loader_step ww InSync l (set_todo v [])) as [[l2 v2] r2] eqn:LS.
  destruct (@quiet_step false InSync l (set_todo v []) l2 v2 r2) as [QS (_ & _ & QD)]; [split; [reflexivity|split; [exact EN|exact DE]]|exact LS|].
  cbn [set_todo o_real] in QS. rewrite RS in QS. injection QS as <- EY <-.
  exists (reset_timer l1), (set_todo v2 []), p. split; [|split; [exact BP|split; [exact PA|split; [cbn [set_todo o_real]; congruence|]]]].
  - cbn [WholeModel.process turn_step]. rewrite TM. unfold handling. rewrite LS. cbn [set_todo o_dead]. now rewrite QD.
  - exists i, js. split; [exact LE|]. cbn [set_todo o_real]. congruence.
Qed.
End Begin.
