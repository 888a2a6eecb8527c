(** Proofs about a synchronisation that begins at the last common block, after ten failures in a row (C107). *)
From Verif Require Import Base Kv BytesFacts KvFacts ChainModel ChainSpec ChainTree ChainRep ChainStep ChainQueries ChainProofs ChainForks ForkProofs PeersModel PeersSpec PeersProofs PeersCalls
  LoadModel LoadSpec LoadProofs LoadFire LoadSim LoadLoop LoadRule LoadReal LoadLeash LoadLift NetModel NetSpec NetProofs NetDist WholeModel WholeSpec WholeProofs WholeSource
  SyncSpec SyncProofs LockSpec HonestSpec HonestProofs HonestSync AlarmProofs AnswerProofs DetectProps BeginProofs.
Set Implicit Arguments.
Unset Strict Implicit.

Section Restart.
Variable cfg : config.
Variable g : pblock.
Variable ord : list group -> list group.
Variable cord : list (addr * conn) -> list (addr * conn).
Variable srt : list Peer -> list Peer.
Variable m : meaning.
Variable a : addr.
Variable sc : Z.
Hypothesis OM : map_order ord.
Hypothesis IP : ip4 a.
Variable H : list pblock.
Hypothesis PC : proper_chain m g H.
Notation rw := (real_world cfg g ord cord srt).
Notation iw := (inner rw).
Notation ww := (whole_world cfg g ord cord srt).
Notation process := (WholeModel.process cfg g ord cord srt).
Notation good := (good cfg g m a sc).
Notation idles := (idles cfg g m a sc).
Notation ok := (ok_real cfg g).
Notation has x i := (lk_has_block (re_lk x) i = Ok true).

Lemma leashed_has : forall x b j, ok x -> short x -> leashed (re_lk x) b j -> ChainSpec.stored (hist g (re_ops x)) j.
Proof.
  intros x b j OK SH (WB & _ & _ & LJ). destruct (@leash_ok cfg g x b OK SH WB) as (i & z & WI & LI & HI & _). assert (i = j) by congruence. subst i.
  apply (has_stored (proj1 OK) SH WI). exact HI.
Qed.
(** The last common block is on the chain of the peer, not after its leash. *)
Lemma place : forall x k i c, good x -> ok x -> short x -> leash (re_lk x) a = Ok i -> nth_error (cids g H) k = Some i -> lcb ord (re_lk x) a = Ok c ->
  exists j, j <= k /\ nth_error (cids g H) j = Some c /\ wf_id c /\ has x c.
Proof.
  intros x k i c G OK SH LE NT LC. destruct (@lcb_stored cfg g ord OM x a c OK SH IP LC) as [WC HC].
  assert (RX := real_reach (proj1 OK) SH). destruct (reach_view RX) as (s & Es & R & GE & BD & SM).
  destruct (st_leash s a) as [i'|] eqn:L.
  - assert (LD : leashed (re_lk x) a i).
    { split; [now apply wf_ip4|]. split; [destruct IP as (b & -> & _); discriminate|]. rewrite (v_has_leash R (wf_ip4 IP)), L. auto. }
    destruct (p_lcb RX OM LD LC) as (lg & _ & (_ & AN & _)).
    assert (KL : k <= length H). { assert (X : k < length (cids g H)) by (apply nth_error_Some; congruence). unfold cids in X. cbn [length] in X. rewrite map_length in X. lia. }
    assert (LF : length (firstn k H) = k) by (rewrite firstn_length; lia).
    assert (TI : tip g (firstn k H) = i). { pose proof (nth_tip g (firstn k H) (skipn k H)) as X. rewrite firstn_skipn, LF in X. congruence. }
    assert (PP : proper_chain m g (firstn k H)) by (apply (@proper_prefix g m _ (skipn k H)); now rewrite firstn_skipn).
    assert (F : Forall (meant m g) (hist g (re_ops x))) by (apply hist_meant, G).
    assert (ST : ChainSpec.stored (hist g (re_ops x)) i) by (eapply leashed_has; eauto).
    unfold anc in AN. rewrite <- TI in AN, ST. rewrite (@chain_cids m g _ (hist_wf RX) F _ PP ST) in AN. apply in_rev in AN.
    apply In_nth_error in AN as [j NJ]. assert (JL : j < length (cids g (firstn k H))) by (apply nth_error_Some; congruence).
    exists j. split; [unfold cids in JL; cbn [length] in JL; rewrite map_length, LF in JL; lia|]. split; [|auto].
    assert (SP : cids g H = cids g (firstn k H) ++ map pb_id (skipn k H)) by (unfold cids; cbn [app]; rewrite <- map_app, firstn_skipn; reflexivity).
    rewrite SP, nth_error_app1 by exact JL. exact NJ.
  - assert (NL : has_leash (re_lk x) a = Ok false) by now rewrite (v_has_leash R (wf_ip4 IP)), L.
    rewrite (@p_lcb_none _ _ _ RX ord a (wf_ip4 IP) NL) in LC. injection LC as <-. exists 0. split; [lia|]. split; [reflexivity|]. auto.
Qed.
(** LCB returns or crashes, because all leashes are at stored blocks. *)
Lemma lcb_out : forall x, ok x -> short x -> (exists c, lcb ord (re_lk x) a = Ok c) \/ lcb ord (re_lk x) a = Panic.
Proof.
  intros x OK SH. assert (RX := real_reach (proj1 OK) SH). destruct (reach_view RX) as (s & Es & R & GE & BD & SM). destruct (st_leash s a) as [i|] eqn:L.
  - assert (LD : leashed (re_lk x) a i).
    { split; [now apply wf_ip4|]. split; [destruct IP as (b & -> & _); discriminate|]. rewrite (v_has_leash R (wf_ip4 IP)), (v_leash R (wf_ip4 IP)), L. auto. }
    destruct (fork_cases RX OM LD) as [(_ & K & _)|[(_ & K & _)|(_ & _ & b & j & Q & N)]]; [left; exact K|right; exact K|]. exfalso. apply N. eapply leashed_has; eauto.
  - left. eexists. apply (@p_lcb_none _ _ _ RX ord a (wf_ip4 IP)). now rewrite (v_has_leash R (wf_ip4 IP)), L.
Qed.
(** The request for the blocks after number [j] of the chain, where block [j] is what LCB returned at some time between [x] and [y]. *)
Definition from_lcb (k : nat) (x y : real) : Prop := exists j c js, j <= k /\ nth_error (cids g H) j = Some c /\ has y c /\
  (exists u, later x u /\ later u y /\ lcb ord (re_lk u) a = Ok c) /\ re_sent y = re_sent x ++ [(a, MsgIDs (c :: js))].
Lemma ids_lcb : forall p h x, good x -> ok x -> pl_peer p = a -> exists y p' r, request_ids_from_lca iw p (h, x) = ((h, y), (p', r)) /\ good y /\ later x y /\
  pl_peer p' = a /\ pl_state p' = pl_state p /\ pl_triggers p' = pl_triggers p /\ (forall more, r = Ok more -> more = []) /\
  forall i k, short y -> leash (re_lk x) a = Ok i -> nth_error (cids g H) k = Some i ->
    r = Panic \/ (r = Ok [] /\ from_lcb k x y).
Proof.
  intros p h x G OK PA. unfold request_ids_from_lca. rewrite PA. cbn [inner fst snd].
  assert (I1 := meanwhile_good IP G). assert (OK1 := proj1 (meanwhile_carries OK)). cbn [real_world]. set (x1 := meanwhile cfg g x) in *. clearbody x1. assert (G1 : good x1) by apply I1.
  destruct (lcb ord (re_lk x1) a) as [c|e| |] eqn:LC.
  2-4: (eexists x1, p, _; split; [reflexivity|]; split; [exact G1|]; split; [apply I1|]; split; [exact PA|]; split; [reflexivity|]; split; [reflexivity|]; split; [discriminate|];
        intros i k SH L NT; destruct (lcb_out OK1 SH) as [[c C]|C]; rewrite C in LC; try discriminate; left; reflexivity).
  unfold ask_from. cbn [inner fst snd]. destruct (@c_last cfg g ord cord srt m a sc IP c idsBatchSize x1 G1) as (x2 & -> & I2). cbn beta iota. assert (G2 : good x2) by apply I2. assert (I12 := idles_nil I1 I2).
  assert (PL : forall i k, short x2 -> leash (re_lk x) a = Ok i -> nth_error (cids g H) k = Some i ->
    exists j, j <= k /\ nth_error (cids g H) j = Some c /\ wf_id c /\ has x2 c /\ exists js, last_ids (re_lk x2) c idsBatchSize = Ok (c :: js)).
  { intros i k SH L NT. assert (SH1 : short x1) by (eapply later_short; [|exact SH]; apply I2).
    destruct (@place x1 k i c G1 OK1 SH1) as (j & JK & NJ & WC & HC); auto. { destruct I1 as [_ I1]. rewrite I1 by exact SH1. exact L. }
    assert (H2 : has x2 c) by (eapply (@has_later cfg g m a sc x1 x2); eauto; apply I2). exists j. split; [exact JK|]. split; [exact NJ|]. split; [exact WC|]. split; [exact H2|].
    assert (RX := real_reach (proj1 (proj1 G2)) SH). destruct (@last_ids_spec g (re_ops x2) (re_lk x2) c idsBatchSize RX WC ltac:(unfold idsBatchSize; lia)) as [A _].
    rewrite (A H2). destruct (chain_shape RX WC H2) as (cc & E & _). rewrite E. unfold idsBatchSize. change (Z.to_nat 100) with (Datatypes.S 99). cbn [firstn]. eauto. }
  destruct (last_ids (re_lk x2) c idsBatchSize) as [[|j js]|e| |] eqn:LI.
  1,3,4,5: (eexists x2, p, _; split; [reflexivity|]; split; [exact G2|]; split; [apply I12|]; split; [exact PA|]; split; [reflexivity|]; split; [reflexivity|]; split; [discriminate|];
        intros i k SH L NT; exfalso; destruct (PL i k SH L NT) as (_ & _ & _ & _ & _ & js & E); discriminate).
  rewrite PA. cbn [inner fst snd]. destruct (@c_askids cfg g ord cord srt m a sc IP (j :: js) x2 G2) as (x3 & -> & I3). cbn [fst snd]. assert (G3 : good x3) by apply I3. assert (I13 := idles_trans I12 I3).
  destruct (@c_now cfg g ord cord srt m a sc IP x3 G3) as (x4 & -> & I4). cbn [fst snd]. assert (I14 := idles_trans I13 I4). rewrite app_nil_r in I14. cbn [app] in I14.
  eexists x4, _, _. split; [reflexivity|]. split; [apply I14|]. split; [apply I14|]. cbn [set_ts pl_peer pl_state pl_triggers]. split; [exact PA|]. split; [reflexivity|]. split; [reflexivity|]. split; [intros more E; congruence|].
  intros i k SH L NT. right. assert (L24 : later x2 x4) by (eapply later_trans; [apply I3|apply I4]). assert (SH2 : short x2) by (eapply later_short; [exact L24|exact SH]).
  destruct (PL i k SH2 L NT) as (j0 & JK & NJ & WC & HC & js' & E). injection E as -> ->. split; [reflexivity|]. exists j0, c, js'. split; [exact JK|]. split; [exact NJ|].
  split; [eapply (@has_later cfg g m a sc x2 x4); eauto; apply I14|]. split; [|apply I14]. exists x1. split; [apply I1|]. split; [eapply later_trans; [apply I2|exact L24]|exact LC].
Qed.
Lemma from_before : forall k x y z, later x y -> re_sent x = re_sent y -> from_lcb k y z -> from_lcb k x z.
Proof.
  intros k x y z L E (j & c & js & JK & NJ & HC & (u & L1 & L2 & LC) & SN). exists j, c, js. split; [exact JK|]. split; [exact NJ|]. split; [exact HC|].
  split; [exists u; split; [eapply later_trans; eauto|auto]|]. now rewrite E.
Qed.
(** The request for IDs of a synchronisation that begins after ten failures. *)
Definition reasked (l : loader) (x : real) (l' : loader) (y : real) (r : outcome unit) : Prop :=
  good y /\ later x y /\ l_prev l' = l_prev l /\ exists p, busy l' p /\ pl_peer p = a /\
    forall i k, short y -> leash (re_lk x) a = Ok i -> nth_error (cids g H) k = Some i ->
      r = Panic \/ (r = Ok tt /\ waiting p WaitIDs /\ from_lcb k x y).
Lemma restart_good : forall l x l' y r, good x -> ok x -> 10 <= fc_count (l_fc l) a -> begin_sync rw a l x = ((l', y), r) -> reasked l x l' y r.
Proof.
  intros l x l' y r G OK FC E. unfold begin_sync in E. change restartThreshold with 10 in E. destruct (Nat.leb_spec 10 (fc_count (l_fc l) a)) as [_|L]; [|lia].
  destruct (@c_log cfg g ord cord srt m a sc IP (LRestart a) x G) as (x0 & EL & I0).
  assert (OK0 : ok x0). { pose proof (@plain_carries cfg g ord cord srt (CLog (LRestart a)) x OK Logic.I) as X. rewrite EL in X. apply X. }
  rewrite EL in E. cbn [fst] in E. clear EL. assert (G0 : good x0) by apply I0.
  unfold drive in E at 1. cbn [with_pl l_prev l_fc l_ticker l_timer] in E. rewrite fire_rest in E by reflexivity.
  unfold fire_one in E. cbn [new_ploader pl_state behave on_entry] in E.
  destruct (@ids_lcb (LoadModel.set_state (new_ploader a) WaitIDs) {| h_pl := true; h_prev := l_prev l; h_fc := fc_reset (l_fc l) a; h_ticker := true |} x0 G0 OK0 eq_refl)
    as (z & p' & o & Q & GZ & LZ & PA & ST & TR & MO & SP).
  rewrite Q in E. cbn [LoadModel.set_state new_ploader pl_state pl_triggers] in ST, TR. rewrite TR in E.
  assert (LZ' : later x z) by (eapply later_trans; [apply I0|exact LZ]).
  assert (IGN : forall q l0 v, pl_state q = WaitIDs -> pl_triggers q = [] -> l_pl l0 = Some q -> drive rw EStart q l0 v = ((l0, v), Ok tt)).
  { intros q l0 v S T B. apply drive_ignored; [exact B|]. intros hh. now apply ignored_state. }
  assert (FIN : forall i k, short z -> leash (re_lk x) a = Ok i -> nth_error (cids g H) k = Some i ->
    o = Panic \/ (o = Ok [] /\ from_lcb k x z)).
  { intros i k SH L NT. assert (SH0 : short x0) by (eapply later_short; eauto). destruct I0 as [(_ & LI & SN) LE]. rewrite app_nil_r in SN. destruct (SP i k SH) as [X|[X Y]]; [rewrite LE by exact SH0; exact L|exact NT|now left|right]. split; [exact X|]. eapply from_before; [exact LI|symmetry; exact SN|exact Y]. }
  destruct o as [more|e| |].
  - rewrite (MO more eq_refl) in E. cbn [app] in E. rewrite loop_rest in E by reflexivity. cbn [h_pl h_prev h_fc h_ticker l_pl l_prev l_fc l_timer] in E.
    rewrite IGN in E by (try reflexivity; exact ST). injection E as <- <- <-.
    split; [exact GZ|]. split; [exact LZ'|]. split; [reflexivity|]. eexists. split; [reflexivity|]. split; [exact PA|]. intros i k SH L NT. right. destruct (FIN i k SH L NT) as [X|[_ X]]; [discriminate|].
    split; [reflexivity|]. split; [split; [exact ST|reflexivity]|exact X].
  - cbn [to_unit h_pl h_prev h_fc h_ticker l_pl l_prev l_fc l_timer] in E. rewrite IGN in E by (try reflexivity; assumption). injection E as <- <- <-.
    split; [exact GZ|]. split; [exact LZ'|]. split; [reflexivity|]. eexists. split; [reflexivity|]. split; [exact PA|]. intros i k SH L NT. destruct (FIN i k SH L NT) as [X|[X _]]; discriminate.
  - cbn [to_unit h_pl h_prev h_fc h_ticker l_pl l_prev l_fc l_timer] in E. injection E as <- <- <-.
    split; [exact GZ|]. split; [exact LZ'|]. split; [reflexivity|]. eexists. split; [reflexivity|]. split; [exact PA|]. intros i k SH L NT. left. reflexivity.
  - cbn [to_unit h_pl h_prev h_fc h_ticker l_pl l_prev l_fc l_timer] in E. injection E as <- <- <-.
    split; [exact GZ|]. split; [exact LZ'|]. split; [reflexivity|]. eexists. split; [reflexivity|]. split; [exact PA|]. intros i k SH L NT. destruct (FIN i k SH L NT) as [X|[X _]]; discriminate.
Qed.
Lemma lag_ok : forall cs x, ok x -> ok (fst (find_lagging rw cs x)).
Proof.
  induction cs as [|[b [s|]] cs IH]; intros x OK; cbn [find_lagging]; auto.
  cbn [real_world]. assert (OK1 := proj1 (meanwhile_carries OK)). set (x1 := meanwhile cfg g x) in *. clearbody x1. specialize (IH x1 OK1).
  destruct (leash_score (re_lk x1) b) as [z|e| |]; try exact OK1; destruct (find_lagging rw cs x1) as [y [lag|e'| |]]; exact IH.
Qed.
Lemma resync_good : forall l x l' y r p, good x -> ok x -> 10 <= fc_count (l_fc l) a -> l_pl l = None -> busy l' p -> pl_peer p = a ->
  loader_step rw InSync l x = ((l', y), r) -> reasked l x l' y r.
Proof.
  intros l x l' y r p G OK FC IL B PA E. unfold busy in B. cbn [loader_step] in E. unfold loader_sync in E. cbn [stop_timer l_pl] in E. rewrite IL in E.
  assert (I1 := meanwhile_good IP G). assert (OK1 := proj1 (meanwhile_carries OK)).
  destruct (rw CConns x) as [x1 r1] eqn:C1. assert (X1 : x1 = meanwhile cfg g x) by (cbn [real_world] in C1; congruence). rewrite <- X1 in I1, OK1. clear X1 C1.
  destruct r1 as [[|c cs]|e| |]; try (exfalso; injection E as Q1 _ _; rewrite <- Q1 in B; cbn in B; congruence).
  destruct (@lag_good cfg g ord cord srt m a sc IP (c :: cs) x1) as (x2 & r2 & L2 & I2); [apply I1|]. assert (OK2 := lag_ok (c :: cs) OK1). rewrite L2 in E, OK2. cbn [fst] in OK2. assert (I12 := idles_nil I1 I2).
  destruct r2 as [[|b lag]|e| |]; try (exfalso; injection E as Q1 _ _; rewrite <- Q1 in B; cbn in B; congruence).
  assert (I3 := meanwhile_good IP (proj1 (proj1 I12))). assert (OK3 := proj1 (meanwhile_carries OK2)). destruct (rw (CPick (length (b :: lag))) x2) as [x3 k] eqn:C3.
  assert (X3 : x3 = meanwhile cfg g x2) by (cbn [real_world] in C3; congruence). rewrite <- X3 in I3, OK3. clear X3 C3. assert (I13 := idles_nil I12 I3).
  destruct (nth_error (b :: lag) k) as [c0|]; [|exfalso; injection E as Q1 _ _; rewrite <- Q1 in B; cbn in B; congruence].
  destruct (begin_sync rw c0 (stop_timer l) x3) as [[l1 x4] r4] eqn:D.
  assert (CA : c0 = a).
  { destruct (begin_at D) as [_ Q]. assert (B1 : busy l1 p) by (destruct r4; injection E as <- _ _; exact B). specialize (Q _ B1). destruct Q as (_ & Q & _). congruence. }
  subst c0. destruct (@restart_good (stop_timer l) x3 l1 x4 r4) as (GY & LY & PV & p1 & B1 & PA1 & SP); auto; [apply I13|].
  assert (Q : busy l' p1 /\ l_prev l' = l_prev l1 /\ y = x4 /\ r = r4) by (destruct r4; injection E as <- <- <-; auto). destruct Q as (Q1 & Q2 & -> & ->).
  split; [exact GY|]. split; [eapply later_trans; [apply I13|exact LY]|]. split; [rewrite Q2; exact PV|]. exists p1. split; [exact Q1|]. split; [exact PA1|].
  intros i n SH L NT. assert (SH3 : short x3) by (eapply later_short; eauto). destruct I13 as [(G3 & LT3 & SN3) LE3]. rewrite app_nil_r in SN3. destruct (SP i n SH) as [X|(X & X' & Y)]; [rewrite LE3 by exact SH3; exact L|exact NT|now left|right].
  split; [exact X|]. split; [exact X'|]. eapply from_before; [exact LT3|symmetry; exact SN3|exact Y].
Qed.
Hypothesis WS : (weight g H <= sc)%Z.
Theorem resync_turn : forall x0 ts ms k i l v l' v' p new, initial cfg g x0 -> Forall wf_turn (ts ++ [TSync ms]) -> Forall (elsewhere m a) (concat ms) ->
  process new_loader (begun x0) ts = ((l, v), Ok tt) -> l_pl l = None -> 10 <= fc_count (l_fc l) a -> fair m a sc (o_real v) -> HonestSpec.on_line a v ->
  leash (re_lk (o_real v)) a = Ok i -> nth_error (cids g H) k = Some i ->
  process l v [TSync ms] = ((l', v'), Ok tt) -> busy l' p -> pl_peer p = a -> re_sent (o_real v') = re_sent (o_real v) ++ new -> short (o_real v') ->
  fair m a sc (o_real v') /\ HonestSpec.on_line a v' /\ l_prev l' = l_prev l /\
  exists j c js u, j <= k /\ nth_error (cids g H) j = Some c /\ later (o_real v) u /\ later u (o_real v') /\ lcb ord (re_lk u) a = Ok c /\
    sent_to a new = [MsgIDs (c :: js)] /\ asking g a H j {| sc_l := l'; sc_x := o_real v'; sc_open := sent_to a new |}.
Proof.
  intros x0 ts ms k i l v l' v' p new X0 W EL E IL FC F (CN & DL & HO) LE NT ET B PA SN SH.
  apply Forall_app in W as [W WT]. apply Forall_inv in WT. destruct (process_past (begun_past X0) W E) as (FI & _).
  destruct (@process_going cfg g ord cord srt ts new_loader (begun x0) l v) as [ND DE]; auto; [discriminate|].
  destruct (one_turn ET) as (r1 & TS & NP). cbn [turn_step] in TS. destruct (l_timer l); [|injection TS as <- _ _; unfold busy in B; congruence].
  unfold handling in TS. destruct (loader_step ww InSync l (set_todo v ms)) as [[l1 v1] r2] eqn:LS. injection TS as -> EV ER.
  assert (LK : linked a None v) by (split; [exact FI|]; split; [exact CN|]; split; [exact DL|]; split; [exact ND|exact HO]).
  assert (AH := linked_ahead LK (todo_turn WT) (todo_away EL)). destruct (step_ahead AH LS) as (env & FE & RS & AH1).
  cbn [set_todo o_real] in RS. apply ahead_linked in AH1. rewrite EV in AH1.
  assert (RV : o_real v1 = o_real v') by (now rewrite <- EV). rewrite RV in RS.
  assert (SV : short (o_real v)).
  { pose proof (@step_later cfg g ord cord srt InSync l (with_env (o_real v) env)) as LT. rewrite RS in LT. exact (later_short LT SH). }
  destruct (always_well X0 W E SV) as (SO & MW & EN).
  assert (G : good (o_real v)). { split; [|exact F]. split; [exact SO|]. unfold undisturbed. rewrite EN. constructor. }
  assert (GE := env_good G FE). assert (OE : ok (with_env (o_real v) env)) by (split; [apply GE|intros _; exact MW]).
  destruct (resync_good GE OE FC IL B PA RS) as (GY & LT & PV & p1 & B1 & PA1 & SP).
  assert (p1 = p) by (unfold busy in *; congruence). subst p1.
  destruct (SP i k SH LE NT) as [X|(_ & WP & j & c & js & JK & NJ & HC & (u & U1 & U2 & LC) & SJ)]; [exfalso|].
  { subst. discriminate NP. }
  cbn [with_env re_sent] in SJ. rewrite SN in SJ. apply app_inv_head in SJ. subst new.
  split; [apply GY|]. split. { destruct AH1 as (_ & A1 & A2 & _ & A3). split; [exact A1|]. split; [exact A2|exact A3]. }
  assert (ST : sent_to a [(a, MsgIDs (c :: js))] = [MsgIDs (c :: js)]).
  { unfold sent_to. cbn [filter fst map snd]. destruct (addr_eqb a a) eqn:Q; [reflexivity|]. destruct (PeersProofs.addr_eqb_spec a a); congruence. }
  split; [exact PV|]. exists j, c, js, u. split; [exact JK|]. split; [exact NJ|]. split; [exact U1|]. split; [exact U2|]. split; [exact LC|]. split; [exact ST|].
  exists p, (c :: js), c. split; [exact B|]. split; [exact WP|]. split; [exact PA|]. split; [exact ST|].
  split. { exists [], c, js. split; [reflexivity|]. split; [exact NJ|constructor]. }
  split; [exact NJ|]. exact HC.
Qed.
(** * While nothing else happens *)
Lemma says_alone : forall x y, re_env x = [] -> rw (CLog y) x = (says x y, tt).
Proof. intros x y N. cbn [real_world]. now rewrite (alone cfg g N). Qed.
Lemma restart_crash : forall l x, re_env x = [] -> 10 <= fc_count (l_fc l) a -> lcb ord (re_lk x) a = Panic -> snd (begin_sync rw a l x) = Panic.
Proof.
  intros l x N FC LC. unfold begin_sync. change restartThreshold with 10. destruct (Nat.leb_spec 10 (fc_count (l_fc l) a)) as [_|L]; [|lia].
  rewrite (says_alone _ N). cbn [fst]. unfold drive at 1. cbn [with_pl l_prev l_fc l_ticker l_timer]. rewrite fire_rest by reflexivity.
  unfold fire_one. cbn [new_ploader pl_state behave on_entry]. unfold request_ids_from_lca. cbn [LoadModel.set_state new_ploader pl_peer inner fst snd real_world].
  rewrite (@alone cfg g (says x (LRestart a)) N). change (re_lk (says x (LRestart a))) with (re_lk x). rewrite LC. reflexivity.
Qed.
Lemma restart_alone : forall l x c js, re_env x = [] -> 10 <= fc_count (l_fc l) a -> lcb ord (re_lk x) a = Ok c -> last_ids (re_lk x) c idsBatchSize = Ok (c :: js) ->
  exists l' y p, begin_sync rw a l x = ((l', y), Ok tt) /\ busy l' p /\ pl_peer p = a /\ re_ops y = re_ops x /\ re_sent y = re_sent x ++ [(a, MsgIDs (c :: js))].
Proof.
  intros l x c js N FC LC LI. unfold begin_sync. change restartThreshold with 10. destruct (Nat.leb_spec 10 (fc_count (l_fc l) a)) as [_|L]; [|lia].
  rewrite (says_alone _ N). cbn [fst]. set (x0 := says x (LRestart a)). assert (N0 : re_env x0 = []) by exact N. change (re_lk x) with (re_lk x0) in LC, LI.
  change (re_ops x) with (re_ops x0). change (re_sent x) with (re_sent x0). clearbody x0.
  unfold drive at 1. cbn [with_pl l_prev l_fc l_ticker l_timer]. rewrite fire_rest by reflexivity.
  unfold fire_one. cbn [new_ploader pl_state behave on_entry]. unfold request_ids_from_lca. cbn [LoadModel.set_state new_ploader pl_peer inner fst snd real_world].
  rewrite (alone cfg g N0), LC. unfold ask_from. cbn [inner fst snd real_world]. rewrite (alone cfg g N0), LI. cbn [LoadModel.set_state new_ploader pl_peer inner fst snd real_world].
  rewrite (alone cfg g N0). rewrite (@alone cfg g (sends x0 a (MsgIDs (c :: js))) N0). cbn [set_ts pl_triggers app]. rewrite loop_rest by reflexivity. cbn [to_unit h_pl h_prev h_fc h_ticker l_pl l_prev l_fc l_timer].
  eexists _, _, _. split; [apply drive_ignored; [reflexivity|]; intros hh; apply ignored_state; reflexivity|]. split; [reflexivity|]. split; [reflexivity|]. split; reflexivity.
Qed.
Theorem sole_returns : forall x0 ts l v k i, permutes cord -> permutes srt -> initial cfg g x0 -> Forall wf_turn ts ->
  process new_loader (begun x0) ts = ((l, v), Ok tt) -> l_timer l = true -> l_pl l = None -> 10 <= fc_count (l_fc l) a -> fair m a sc (o_real v) -> short (o_real v) ->
  leash (re_lk (o_real v)) a = Ok i -> nth_error (cids g H) k = Some i ->
  (forall b, connected (re_reg (o_real v)) b -> known (re_reg (o_real v)) b) -> lagging (o_real v) a -> (forall b, lagging (o_real v) b -> b = a) ->
  (lcb ord (re_lk (o_real v)) a = Panic /\ snd (process l v [TSync []]) = Panic) \/
  exists l' v' p c js, lcb ord (re_lk (o_real v)) a = Ok c /\ process l v [TSync []] = ((l', v'), Ok tt) /\ busy l' p /\ pl_peer p = a /\ re_ops (o_real v') = re_ops (o_real v) /\
    re_sent (o_real v') = re_sent (o_real v) ++ [(a, MsgIDs (c :: js))].
Proof.
  intros x0 ts l v k i PO PS X0 W E TM IL FC F SV LE NT KN LA UN. destruct (always_well X0 W E SV) as (SO & MW & EN).
  assert (G : good (o_real v)). { split; [|exact F]. split; [exact SO|]. unfold undisturbed. rewrite EN. constructor. }
  assert (OK : ok (o_real v)) by (split; [exact SO|intros _; exact MW]).
  destruct (@process_going cfg g ord cord srt ts new_loader (begun x0) l v) as [ND DE]; auto; [discriminate|].
  assert (RS := @sync_alone cfg g ord cord srt a l (o_real v) PO PS SO MW SV EN IL KN LA UN).
  destruct (loader_step ww InSync l (set_todo v [])) as [[l2 v2] r2] eqn:LS.
  destruct (@quiet_step cfg g ord cord srt false InSync l (set_todo v []) l2 v2 r2) as [QS (_ & _ & QD)]; [split; [reflexivity|split; [exact EN|exact DE]]|exact LS|].
  cbn [set_todo o_real] in QS. rewrite RS in QS.
  destruct (lcb_out OK SV) as [[c LC]|LC].
  - right. destruct (place G OK SV LE NT LC) as (j & JK & NJ & WC & HC).
    assert (LI : exists js, last_ids (re_lk (o_real v)) c idsBatchSize = Ok (c :: js)).
    { assert (RX := real_reach SO SV). destruct (@last_ids_spec g (re_ops (o_real v)) (re_lk (o_real v)) c idsBatchSize RX WC ltac:(unfold idsBatchSize; lia)) as [A _].
      rewrite (A HC). destruct (chain_shape RX WC HC) as (cc & EC & _). rewrite EC. unfold idsBatchSize. change (Z.to_nat 100) with (Datatypes.S 99). cbn [firstn]. eauto. }
    destruct LI as [js LI]. destruct (@restart_alone (stop_timer l) (o_real v) c js EN FC LC LI) as (l1 & y & p & B & BP & PA & OP & SN). rewrite B in QS. injection QS as <- EY <-.
    exists (reset_timer l1), (set_todo v2 []), p, c, js. split; [exact LC|]. split; [|split; [exact BP|split; [exact PA|split; cbn [set_todo o_real]; congruence]]].
    cbn [WholeModel.process turn_step]. rewrite TM. unfold handling. rewrite LS. cbn [set_todo o_dead]. now rewrite QD.
  - left. split; [exact LC|]. pose proof (@restart_crash (stop_timer l) (o_real v) EN FC LC) as R. destruct (begin_sync rw a (stop_timer l) (o_real v)) as [[l1 y] r]. cbn [snd] in R. subst r.
    injection QS as <- EY <-. cbn [WholeModel.process turn_step]. rewrite TM. unfold handling. rewrite LS. reflexivity.
Qed.
End Restart.
