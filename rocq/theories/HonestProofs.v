(** Proofs about the synchronisation with an honest peer in the running process (C90). *)
From Verif Require Import Base Kv BytesFacts KvFacts ChainModel ChainSpec ChainTree ChainRep ChainStep ChainProofs PeersModel PeersSpec PeersProofs PeersCalls
  LoadModel LoadSpec LoadProofs LoadFire LoadSim LoadRule LoadReal LoadLeash LoadLift NetModel NetSpec NetProofs NetDist WholeModel WholeSpec WholeProofs WholeSource
  SyncSpec SyncProofs LockSpec HonestSpec.
Set Implicit Arguments.
Unset Strict Implicit.

Section Honest.
Variable cfg : config.
Variable g : pblock.
Variable ord : list group -> list group.
Variable cord : list (addr * conn) -> list (addr * conn).
Variable srt : list Peer -> list Peer.
Variable m : meaning.
Variable a : addr.
Variable sc : Z.
Hypothesis IP : ip4 a.
Notation happens := (LoadModel.happens cfg g).
Notation rw := (real_world cfg g ord cord srt).
Notation mstep := (move_step cfg g cord srt).
Notation others := (WholeModel.others cfg g cord srt).
Notation ww := (whole_world cfg g ord cord srt).
Notation process := (WholeModel.process cfg g ord cord srt).
Notation good := (good cfg g m a sc).
Notation idles := (idles cfg g m a sc).
Let WA : wf_addr a := wf_ip4 IP.

(** * The connection of [a] is kept *)
Lemma conn_kept : forall r o, RInv r -> ~ about a o -> o <> RRestart -> connected r a -> connected (rstep cfg r o) a.
Proof.
  intros r o I NA NR C. unfold connected in *. destruct o as [x np h now w|x s w|x now w|[x|] w|l f|clock|x now w|]; cbn [rstep about] in *; auto.
  - destruct (register_cases cfg r now w x np h) as [(o & c & E & _)|(_ & ND & [(IC & E)|(_ & _ & _ & _ & E)])]; rewrite E; cbn [fst];
      rewrite ?(proj1 (finish_maps _ _ _)); cbn [r_conns]; auto. apply set_conn_keys. auto.
  - unfold update_peer_score. destruct (get_peer (r_db r) x); auto. now rewrite (proj1 (finish_maps _ _ _)).
  - unfold unregister_peer. destruct (get_peer (r_db r) x); auto. rewrite (proj1 (finish_maps _ _ _)). apply del_conn_keys. auto.
  - unfold mark_as_hostile. cbn [r_db]. destruct (get_peer (r_db r) x) as [p|[]| |]; auto; now rewrite (proj1 (finish_maps _ _ _)).
  - unfold append_addresses. destruct (append_loop cfg (r_db r) l f 0); auto.
  - destruct (take_view cfg clock I) as (pend & out & E & _). rewrite E. auto.
  - unfold suggest_version. destruct (get_peer (r_db r) x) as [p|[]| |]; auto.
    + destruct (p_state p); auto. destruct (next_version (g_versions cfg) (p_version p)) as [ver| | |]; auto.
      assert (Q := proj1 (finish_maps r (set_version p ver (round_second (now + delay)%Z)) w)).
      destruct (PeersModel.finish r _ w) as [r' [| | |]]; cbn [fst] in *; now rewrite Q.
    + destruct (best_version (g_versions cfg)) as [ver| | |]; auto.
      assert (Q := proj1 (finish_maps r (set_version (fresh_peer x 0) ver (round_second (now + delay)%Z)) w)).
      destruct (PeersModel.finish r _ w) as [r' [| | |]]; cbn [fst] in *; now rewrite Q.
  - congruence.
Qed.
Definition plain_reg (h : LoadModel.happening) : Prop := h <> HReg RRestart.
Definition aside (h : LoadModel.happening) : Prop := wf_happening h /\ true_happening m a h /\ plain_reg h.
Lemma conn_happens : forall hs x, RInv (re_reg x) -> Forall aside hs -> connected (re_reg x) a -> connected (re_reg (fold_left happens hs x)) a.
Proof.
  induction hs as [|h hs IH]; intros x I F C; cbn [fold_left]; [exact C|]. destruct (Forall_inv F) as (W & T & P). apply Forall_inv_tail in F.
  apply IH; [|exact F|]; destruct h as [o f|o|t]; cbn [LoadModel.happens re_reg]; auto; [now apply rstep_inv|].
  apply conn_kept; auto. intros ->. now apply P.
Qed.

(** * A step elsewhere *)
(** [D]: the package of [a] that the distributor holds, if any. *)
Definition holding (D : option package) (v : whole) : Prop :=
  match D with Some p => o_dist v = DSending p | None => o_dist v <> DStopped /\ forall p, o_dist v = DSending p -> sender p <> a end.
Definition linked (D : option package) (v : whole) : Prop :=
  fit v /\ connected (re_reg (o_real v)) a /\ Forall (fun d => dials d <> a) (o_dials v) /\ holding D v.
Lemma dial_dials : forall d, dial_addr d = dials d.
Proof. intros []; reflexivity. Qed.
Lemma calls_aside : forall x ar, wf_arrival ar -> elsewhere m a (VArrive x ar) -> Forall aside (calls_of x ar).
Proof.
  intros x ar W E. pose proof (calls_wf x W) as CW. cut (Forall (fun h => true_happening m a h /\ plain_reg h) (calls_of x ar)).
  { intros F. apply Forall_forall. rewrite Forall_forall in CW, F. intros h H. split; auto. }
  clear CW W. destruct ar as [from msg|[from h|from|]|]; cbn [calls_of elsewhere] in *; try constructor.
  - destruct E as [T S]. unfold plain_reg. destruct (ln_addr from) as [p|] eqn:L, msg as [| l | ids | [b|] | s | [mi|] | [b|] | ids | | | | | | | | | | | | | | n];
      try constructor; try constructor; cbn [true_happening true_op truthful target about] in *; try tauto; try discriminate;
      try (split; [exact T|]; intros i Q; injection Q as -> _; exact (S eq_refl)).
    intros ->. exact (S eq_refl).
  - unfold plain_reg. destruct (ln_addr from) as [p|]; constructor; [|constructor]. cbn. split; [congruence|discriminate].
  - unfold plain_reg. destruct (ln_addr from) as [p|]; constructor; [|constructor]. cbn. split; [congruence|discriminate].
Qed.
Lemma move_aside : forall D v x, linked D v -> wf_move x -> elsewhere m a x ->
  linked D (mstep v x) /\ exists hs, Forall aside hs /\ o_real (mstep v x) = fold_left happens hs (o_real v).
Proof.
  intros D v x ([RI SH] & C & DI & HO) W E.
  assert (KEY : (exists hs, Forall aside hs /\ o_real (mstep v x) = fold_left happens hs (o_real v)) /\ Forall (fun d => dials d <> a) (o_dials (mstep v x)) /\ holding D (mstep v x)).
  { unfold move_step.
    assert (NO : exists hs, Forall aside hs /\ o_real v = fold_left happens hs (o_real v)) by (exists []; auto).
    assert (RG : forall r o h b ds, r = rstep cfg (re_reg (o_real v)) h -> aside (HReg h) -> Forall (fun d => dials d <> a) ds ->
      (exists hs, Forall aside hs /\ o_real (set_respawn (registered v r o h) b ds) = fold_left happens hs (o_real v)) /\
      Forall (fun d => dials d <> a) (o_dials (set_respawn (registered v r o h) b ds)) /\ holding D (set_respawn (registered v r o h) b ds)).
    { intros r o h b ds Q WH FD. split; [|split; [exact FD|]].
      - destruct (@registered_real cfg g v r o h Q) as (hs & H & E'). exists hs. split; [|exact E']. destruct H as [-> | ->]; repeat constructor; apply WH.
      - unfold holding in *. cbn [set_respawn o_dist]. destruct (registered_rest v r o h) as (-> & _). exact HO. }
    assert (DW : forall n d, nth_error (o_dials v) n = Some d -> wf_addr (dials d) /\ dials d <> a).
    { intros n d Q. apply nth_error_In in Q. split; [rewrite <- dial_dials; exact (proj1 (Forall_forall _ _) (sh_dials SH) d Q)|exact (proj1 (Forall_forall _ _) DI d Q)]. }
    assert (HU : forall y n b, wf_addr b -> b <> a ->
      (exists hs, Forall aside hs /\ o_real (hung_up v y n b) = fold_left happens hs (o_real v)) /\ Forall (fun d => dials d <> a) (o_dials (hung_up v y n b)) /\ holding D (hung_up v y n b)).
    { intros y n b WB NB. unfold hung_up. destruct (unregister_peer (re_reg (o_real v)) (ft_now y) (ft_write y) b) as [r o] eqn:Q. apply RG.
      - cbn [rstep]. now rewrite Q.
      - split; [cbn; now apply wf_go|]. split; [exact NB|discriminate].
      - now apply drop_all. }
    assert (SU : forall b now w, wf_addr b -> b <> a -> aside (HReg (RSuggest b now w))).
    { intros b now w WB NB. split; [cbn; now apply wf_go|]. split; [exact NB|discriminate]. }
    destruct (o_dead v); [auto|]. destruct x as [y ar|[clock|]|y n|y n up|y [b|]|t]; cbn [elsewhere wf_move] in *.
    - destruct (o_dist v) eqn:DV; [|split; [auto|split; [exact DI|exact HO]]..].
      destruct D as [p|]; [unfold holding in HO; congruence|]. destruct HO as [HO1 HO2].
      destruct (handle cfg g srt cord y (stores v) ar) as [[d ss] o] eqn:Q. destruct o as [p|e| |]; cbn [set_dist set_real set_dead set_seen o_real o_dials o_dist].
      + split; [|split; [exact DI|]].
        * exists (calls_of y ar). split; [now apply calls_aside|]. rewrite (handle_effect Q). apply recorded_happens. apply calls_no_time.
        * split; [destruct p; discriminate|]. intros p0 P0. destruct p as [p|]; [|discriminate]. injection P0 as <-. cbn [o_dist].
          apply handle_package in Q as (from & msg & -> & Q). destruct E as [_ S]. destruct p as [ad ids|ad b]; cbn [sender]; destruct Q as [Q1 Q2]; intros ->;
            specialize (S Q1); destruct Q2 as [-> | ->]; exact S.
      + split; [auto|]. split; [exact DI|]. split; [rewrite DV; discriminate|]. rewrite DV. discriminate.
      + split; [auto|]. split; [exact DI|]. split; cbn [set_dead set_seen o_dist]; rewrite DV; discriminate.
      + split; [auto|]. split; [exact DI|]. split; cbn [set_dead set_seen o_dist]; rewrite DV; discriminate.
    - destruct (o_armed v); [|auto]. destruct (take_available cfg (re_reg (o_real v)) clock) as [r o] eqn:Q.
      assert (X : r = rstep cfg (re_reg (o_real v)) (RTake clock)) by (cbn [rstep]; now rewrite Q).
      assert (AS : aside (HReg (RTake clock))) by (split; [exact Logic.I|]; split; [exact (fun F => F)|discriminate]).
      destruct o as [l|e| |]; apply RG; auto. apply Forall_app. split; [exact DI|]. apply Forall_map, Forall_forall. intros [b port] IN. cbn [dials fst].
      destruct (take_view cfg clock RI) as (pend & out & T & _ & DD & _). rewrite T in Q. injection Q as _ <-. apply DD in IN. intros X0. subst b. destruct IN as (_ & _ & _ & NC & _). exact (NC C).
    - destruct (o_armed v); auto.
    - destruct (nth_error (o_dials v) n) as [[b|b|b]|] eqn:N; auto. destruct (DW _ _ N) as [WB NB]. cbn [dials] in *.
      destruct (suggest_version cfg (re_reg (o_real v)) (ft_now y) (ft_write y) b) as [r o] eqn:Q.
      assert (X : r = rstep cfg (re_reg (o_real v)) (RSuggest b (ft_now y) (ft_write y))) by (cbn [rstep]; now rewrite Q).
      destruct o; apply RG; auto; apply replace_all; auto.
    - destruct (nth_error (o_dials v) n) as [[b|b|b]|] eqn:N; auto; destruct (DW _ _ N) as [WB NB]; cbn [dials] in *; [destruct up|]; auto.
      split; [exact NO|]. split; [now apply drop_all|exact HO].
    - destruct (suggest_version cfg (re_reg (o_real v)) (ft_now y) (ft_write y) b) as [r o] eqn:Q.
      assert (X : r = rstep cfg (re_reg (o_real v)) (RSuggest b (ft_now y) (ft_write y))) by (cbn [rstep]; now rewrite Q).
      assert (NB : b <> a) by congruence.
      pose proof (@RG r (ignored o) _ (o_armed v) (o_dials v) X (SU b (ft_now y) (ft_write y) W NB) DI) as (K1 & K2 & K3). split; [exact K1|]. split; [|exact K3].
      destruct (registered_rest v r (ignored o) (RSuggest b (ft_now y) (ft_write y))) as (_ & _ & -> & _). exact DI.
    - auto.
    - split; [|auto]. exists [HTime t]. split; [repeat constructor; discriminate|reflexivity]. }
  destruct KEY as ((hs & F & EQ) & K2 & K3). split; [|eauto]. split; [now apply move_shape|]. split; [|auto].
  rewrite EQ. now apply conn_happens.
Qed.
Lemma others_aside : forall D ms v, linked D v -> Forall wf_move ms -> Forall (elsewhere m a) ms ->
  linked D (others v ms) /\ exists hs, Forall aside hs /\ o_real (others v ms) = fold_left happens hs (o_real v).
Proof.
  intros D. induction ms as [|x ms IH]; intros v L W E; cbn [WholeModel.others fold_left]; [split; [exact L|exists []; auto]|].
  destruct (move_aside L (Forall_inv W) (Forall_inv E)) as (L1 & hs & F & Q). destruct (IH _ L1 (Forall_inv_tail W) (Forall_inv_tail E)) as (L2 & hs' & F' & Q').
  split; [exact L2|]. exists (hs ++ hs'). split; [now apply Forall_app|]. rewrite fold_left_app, <- Q. exact Q'.
Qed.
Lemma aside_idles : forall hs x, good x -> Forall aside hs -> idles [] x (fold_left happens hs x).
Proof.
  induction hs as [|h hs IH]; intros x G F; cbn [fold_left]; [now apply idles_refl|]. destruct (Forall_inv F) as (W & T & _). apply Forall_inv_tail in F.
  assert (SP : spares a h) by (destruct h; cbn in *; tauto). destruct (happens_stays WA (proj1 G) W SP) as [(_ & LT & _) LE].
  eapply idles_nil; [|apply IH; [|exact F]]; [split; [split; [|split]|]|]; try (now apply happens_good); auto. cbn [LoadModel.happens re_sent]. now rewrite app_nil_r.
Qed.

(** * The loader among the other goroutines *)
Definition ahead (D : option package) (v : whole) : Prop := linked D v /\ Forall (Forall (elsewhere m a)) (o_todo v).
Lemma ahead_hd : forall D v, ahead D v -> linked D (others v (hd [] (o_todo v))) /\ Forall (Forall (elsewhere m a)) (tl (o_todo v)) /\
  exists hs, Forall aside hs /\ o_real (others v (hd [] (o_todo v))) = fold_left happens hs (o_real v).
Proof.
  intros D v [L T]. destruct (todo_hd (proj2 (proj1 L))) as [T1 T2]. assert (E1 : Forall (elsewhere m a) (hd [] (o_todo v))) by (destruct T; cbn; auto).
  assert (E2 : Forall (Forall (elsewhere m a)) (tl (o_todo v))) by (destruct T; cbn; auto). destruct (others_aside L T1 E1) as (L' & X). auto.
Qed.
Lemma call_ahead : forall D c v, ahead D v -> ahead D (fst (ww c v)).
Proof.
  intros D c v A. destruct (ahead_hd A) as ((_ & C & DI & HO) & T & _). assert (F := @call_fit cfg g ord cord srt c v (proj1 (proj1 A))). split; [split; [exact F|]|].
  - rewrite world_at. cbn [fst add_call o_real o_dials o_dist]. destruct (@pre_fit cfg g cord srt v (proj1 (proj1 A))) as [_ [_ _ _ EN]].
    destruct (@call_keeps cfg g ord cord srt c _ EN) as (-> & _). split; [exact C|]. split; [exact DI|exact HO].
  - rewrite world_at. exact T.
Qed.
Definition astate (D : option package) := { v : whole | ahead D v }.
Definition aworld (D : option package) : world (astate D) := fun c u => (exist _ (fst (ww c (proj1_sig u))) (call_ahead c (proj2_sig u)), snd (ww c (proj1_sig u))).
Definition aside_env := { hs : list LoadModel.happening | Forall aside hs }.
Definition seen_as (D : option package) (u : astate D) (es : list aside_env) : real := with_env (o_real (proj1_sig u)) (map (@proj1_sig _ _) es).
Lemma aworld_sim : forall D, simulates (@aworld D) ww (@proj1_sig _ _).
Proof. intros D c u. unfold aworld. cbn [proj1_sig fst snd]. apply surjective_pairing. Qed.
Lemma aworld_follows : forall D, follows (@aworld D) rw (@seen_as D).
Proof.
  intros D c [v A]. unfold along. destruct (ahead_hd A) as (_ & _ & hs & F & E). exists [exist _ hs F]. intros rest. unfold seen_as, aworld. cbn [proj1_sig app map fst snd].
  rewrite world_at. cbn [fst snd add_call o_real]. rewrite call_env by exact (sh_env (proj2 (proj1 (proj1 A)))). unfold v_pre. cbn [set_todo o_real].
  rewrite <- E. now destruct (rw c (o_real (others v (hd [] (o_todo v))))) as [y r].
Qed.
Lemma step_ahead : forall D i l v l' v' r, ahead D v -> loader_step ww i l v = ((l', v'), r) ->
  exists env, Forall (Forall aside) env /\ loader_step rw i l (with_env (o_real v) env) = ((l', o_real v'), r) /\ ahead D v'.
Proof.
  intros D i l v l' v' r F E. pose proof (loader_step_sim (@aworld_sim D) i l (exist _ v F)) as SM. cbn [proj1_sig] in SM. rewrite E in SM.
  destruct (loader_step_lift (@aworld_follows D) i l (exist _ v F)) as [es X]. specialize (X []). rewrite app_nil_r in X.
  destruct (loader_step (@aworld D) i l (exist _ v F)) as [[l1 [v1 F1]] r1]. unfold lonto in SM. cbn [fst snd proj1_sig] in SM. injection SM as -> -> ->.
  exists (map (@proj1_sig _ _) es). split.
  - apply Forall_map, Forall_forall. intros [hs WH] _. exact WH.
  - unfold seen_as in X. cbn [proj1_sig fst snd map] in X. split; [|exact F1]. rewrite X. repeat f_equal. destruct F1 as [[[_ [_ _ _ N]] _] _].
    destruct (o_real v1). cbn in N |- *. now subst.
Qed.
Lemma env_good : forall x env, good x -> Forall (Forall aside) env -> good (with_env x env).
Proof.
  intros x env [[(A & B & C & D & E & _) U] (NF & OPS & _ & RP)] F.
  assert (F1 : Forall (Forall wf_happening) env) by (eapply Forall_impl; [|exact F]; intros hs H; eapply Forall_impl; [|exact H]; intros h Q; apply Q).
  assert (F2 : Forall (Forall (true_happening m a)) env) by (eapply Forall_impl; [|exact F]; intros hs H; eapply Forall_impl; [|exact H]; intros h Q; apply Q).
  split; [split|].
  - repeat (split; auto).
  - unfold undisturbed in *. cbn [with_env re_env]. eapply Forall_impl; [|exact F2]. intros hs H. eapply Forall_impl; [|exact H]. intros h Q. destruct h; cbn in *; tauto.
  - repeat (split; auto).
Qed.

(** * Turns apart *)
Lemma todo_away : forall ms, Forall (elsewhere m a) (concat ms) -> Forall (Forall (elsewhere m a)) ms.
Proof. induction ms as [|x ms IH]; intros H; [constructor|]. cbn [concat] in H. apply Forall_app in H as [A B]. constructor; auto. Qed.
Lemma todo_move : forall v t x, mstep (set_todo v t) x = set_todo (mstep v x) t.
Proof.
  intros v t x. unfold move_step. change (o_dead (set_todo v t)) with (o_dead v). destruct (o_dead v); [reflexivity|].
  assert (RE : forall r o h, registered (set_todo v t) r o h = set_todo (registered v r o h) t) by (intros r o h; destruct o; reflexivity).
  destruct x as [y ar|[clock|]|y n|y n up|y [b|]|z]; cbn [set_todo o_dist o_armed o_dials o_real stores]; try reflexivity.
  - change (stores (set_todo v t)) with (stores v). destruct (o_dist v); try reflexivity. now destruct (handle cfg g srt cord y (stores v) ar) as [[d ss] [p|e| |]].
  - destruct (o_armed v); [|reflexivity]. destruct (take_available cfg (re_reg (o_real v)) clock) as [r [l|e| |]]; now rewrite RE.
  - now destruct (o_armed v).
  - destruct (nth_error (o_dials v) n) as [[b|b|b]|]; try reflexivity. destruct (suggest_version _ _ _ _ _) as [r []]; now rewrite RE.
  - destruct (nth_error (o_dials v) n) as [[b|b|b]|]; try reflexivity; try destruct up; try reflexivity; unfold hung_up; cbn [set_todo o_real o_armed o_dials];
      destruct (unregister_peer _ _ _ _) as [r o]; now rewrite RE.
  - destruct (suggest_version _ _ _ _ _) as [r o]. now rewrite RE.
Qed.
Lemma todo_others : forall ms v t, others (set_todo v t) ms = set_todo (others v ms) t.
Proof. induction ms as [|x ms IH]; intros v t; cbn [WholeModel.others fold_left]; [reflexivity|]. rewrite todo_move. apply IH. Qed.
Lemma linked_ahead : forall D v t, linked D v -> Forall (Forall wf_move) t -> Forall (Forall (elsewhere m a)) t -> ahead D (set_todo v t).
Proof. intros D v t ([RI [A B C DD]] & CN & DI & HO) W E. split; [|exact E]. split; [|auto]. split; [exact RI|]. constructor; auto. Qed.
Lemma ahead_linked : forall D v, ahead D v -> linked D (set_todo v []).
Proof. intros D v [([RI [A B C DD]] & CN & DI & HO) E]. split; [|auto]. split; [exact RI|]. constructor; auto. constructor. Qed.
Lemma one_turn : forall l v t l' v' r, process l v [t] = ((l', v'), r) ->
  exists r1, turn_step cfg g ord cord srt l v t = ((l', v'), r1) /\ r = (match r1 with Ok _ | Err _ => if o_dead v' then Panic else Ok tt | Panic => Panic | Diverge => Diverge end).
Proof.
  intros l v t l' v' r E. cbn [WholeModel.process] in E. destruct (turn_step cfg g ord cord srt l v t) as [[l1 v1] r1]. exists r1.
  destruct r1; try destruct (o_dead v1) eqn:DE; injection E as <- <- <-; rewrite ?DE; auto.
Qed.
Lemma now_still : forall x, re_env x = [] -> snd (rw CNow x) = re_now x.
Proof. intros x E. cbn [real_world snd]. unfold meanwhile. cbn [re_now]. rewrite E. reflexivity. Qed.
Lemma tick_aside : forall l v p l' v' r, busy l p -> pl_triggers p = [] -> pl_state p = WaitIDs \/ pl_state p = WaitBlocks ->
  (re_now (o_real (v_pre cfg g cord srt v)) - pl_ts p <= 30 * second)%Z -> re_env (o_real (v_pre cfg g cord srt v)) = [] ->
  loader_step ww InTick l v = ((l', v'), r) -> busy l' p /\ l_prev l' = l_prev l /\ v' = fst (ww CNow v) /\ r = Ok tt.
Proof.
  intros l v p l' v' r B T S TM EN E. unfold busy in *. cbn [loader_step] in E. unfold loader_tick in E. cbn [stop_ticker l_pl] in E. rewrite B in E.
  assert (NQ : snd (ww CNow v) = re_now (o_real (v_pre cfg g cord srt v))) by (rewrite world_at; cbn [snd]; apply now_still; exact EN).
  destruct (ww CNow v) as [v1 now] eqn:Q. cbn [snd] in NQ. subst now. set (now := re_now (o_real (v_pre cfg g cord srt v))) in *.
  unfold drive in E. cbn [stop_ticker l_prev l_fc l_ticker l_timer] in E. rewrite fire_rest in E by exact T.
  assert (F : forall u, fire_one (inner ww) (ETick now) p u = (u, (p, Ok []))).
  { intros u. unfold fire_one. assert (O : on_tick now p u = (u, (p, Ok []))).
    { unfold on_tick. destruct (Z.ltb_spec timeoutDuration (now - pl_ts p)) as [L|L]; [unfold timeoutDuration in L; lia|reflexivity]. }
    destruct S as [-> | ->]; exact O. }
  rewrite F in E. rewrite T in E. cbn [app] in E. rewrite loop_rest in E by reflexivity. injection E as <- <- <-. cbn [reset_ticker l_pl l_prev h_prev].
  split; [f_equal; destruct p; cbn in *; now rewrite T|]. auto.
Qed.
Lemma other_input : forall i l (v : whole) p, busy l p -> pl_peer p = a -> match i with InIDs b _ | InBlock b _ => b <> a | _ => False end ->
  loader_step ww i l v = ((l, v), Ok tt).
Proof.
  intros i l v p B PA N. unfold busy in B. destruct i as [b ids|b bl| |]; cbn [loader_step]; try contradiction.
  - unfold handle_ids. rewrite B, PA. destruct ids; [reflexivity|]. destruct (addr_eqb b a) eqn:Q; [|reflexivity]. apply addr_eqb_eq in Q. contradiction.
  - unfold LoadModel.handle_block. rewrite B, PA. destruct (addr_eqb b a) eqn:Q; [|reflexivity]. apply addr_eqb_eq in Q. contradiction.
Qed.
Lemma take_linked : forall D v p, linked D v -> o_dist v = DSending p -> linked None (set_dist v DSelect).
Proof.
  intros D v p ([RI [A B C DD]] & CN & DI & HO) E. split; [|split; [exact CN|split; [exact DI|split; discriminate]]]. split; [exact RI|]. constructor; auto. exact Logic.I.
Qed.
Lemma away_turn : forall D l v t l' v' p, away cfg g cord srt m a l v t -> process l v [t] = ((l', v'), Ok tt) -> (forall q, D = Some q -> sender q = a) ->
  busy l p -> pl_triggers p = [] -> pl_state p = WaitIDs \/ pl_state p = WaitBlocks -> pl_peer p = a -> good (o_real v) -> linked D v ->
  busy l' p /\ l_prev l' = l_prev l /\ idles [] (o_real v) (o_real v') /\ linked D v' /\ o_dead v' = false.
Proof.
  intros D l v t l' v' p (W & E & AW) Q HD B T S PA G L. destruct (one_turn Q) as (r1 & TS & R).
  assert (DE : o_dead v' = false) by (destruct r1; try discriminate; destruct (o_dead v'); [discriminate|reflexivity| discriminate|reflexivity]).
  clear Q R. cut (busy l' p /\ l_prev l' = l_prev l /\ idles [] (o_real v) (o_real v') /\ linked D v'); [tauto|].
  unfold wf_turn in W. destruct t as [x|ms|ms|ms]; cbn [turn_step moves_in] in *.
  - injection TS as <- <- _. destruct (move_aside L (Forall_inv W) (Forall_inv E)) as (L1 & hs & F & ->). split; [exact B|]. split; [reflexivity|]. split; [now apply aside_idles|exact L1].
  - destruct (l_timer l); [|injection TS as <- <- _; split; [exact B|]; split; [reflexivity|]; split; [now apply idles_refl|exact L]].
    unfold handling in TS. cbn [loader_step] in TS. unfold loader_sync in TS. cbn [stop_timer l_pl] in TS. unfold busy in B. rewrite B in TS. injection TS as <- <- _. cbn.
    split; [exact B|]. split; [reflexivity|]. split; [now apply idles_refl|]. apply ahead_linked. apply linked_ahead; [exact L|now apply todo_turn|now apply todo_away].
  - destruct (l_ticker l); [|injection TS as <- <- _; split; [exact B|]; split; [reflexivity|]; split; [now apply idles_refl|exact L]].
    unfold handling in TS. destruct (loader_step ww InTick l (set_todo v ms)) as [[l1 v1] r2] eqn:LS. injection TS as <- <- _.
    assert (AH := linked_ahead L (todo_turn W) (todo_away E)). destruct (ahead_hd AH) as (L2 & _ & hs & F & EQ). cbn [set_todo o_todo o_real] in EQ, L2.
    destruct (@pre_fit cfg g cord srt _ (proj1 (proj1 AH))) as [_ [_ _ _ EN]].
    destruct (@tick_aside l (set_todo v ms) p l1 v1 r2 B T S) as (B1 & P1 & V1 & _); auto.
    { unfold v_pre. cbn [set_todo o_todo o_real]. rewrite todo_others. cbn [set_todo o_real]. exact (AW p B). }
    split; [exact B1|]. split; [exact P1|]. split; [|apply ahead_linked; rewrite V1; now apply call_ahead].
    rewrite V1, world_at. cbn [fst add_call o_real set_todo]. unfold v_pre in EN |- *. cbn [set_todo o_todo o_real] in EN |- *. rewrite EQ in EN |- *.
    eapply idles_nil; [apply aside_idles; eassumption|]. destruct (@c_now cfg g ord cord srt m a sc IP (fold_left happens hs (o_real v))) as (y & CN & I1); [now apply aside_idles|].
    rewrite CN. exact I1.
  - destruct (o_dist v) as [|pk|] eqn:DV; try (injection TS as <- <- _; split; [exact B|]; split; [reflexivity|]; split; [now apply idles_refl|exact L]).
    specialize (AW pk eq_refl). assert (DN : D = None).
    { destruct D as [q|]; [|reflexivity]. destruct L as (_ & _ & _ & HO). unfold holding in HO. rewrite DV in HO. injection HO as <-. exfalso. apply AW. now apply HD. }
    subst D. unfold handling in TS. rewrite (@other_input (input_of pk) l (set_todo (set_dist v DSelect) ms) p B PA) in TS by (destruct pk; exact AW).
    injection TS as <- <- _. split; [exact B|]. split; [reflexivity|]. split; [now apply idles_refl|]. apply ahead_linked. apply linked_ahead; [|now apply todo_turn|now apply todo_away].
    eapply take_linked; eauto.
Qed.
Lemma apart_all : forall D l v l' v' p, apart cfg g ord cord srt m a l v l' v' -> (forall q, D = Some q -> sender q = a) ->
  busy l p -> pl_triggers p = [] -> pl_state p = WaitIDs \/ pl_state p = WaitBlocks -> pl_peer p = a -> good (o_real v) -> linked D v -> o_dead v = false ->
  busy l' p /\ l_prev l' = l_prev l /\ idles [] (o_real v) (o_real v') /\ linked D v' /\ o_dead v' = false.
Proof.
  intros D l v l' v' p AP HD B T S PA G L DE. induction AP as [|l1 v1 t l2 v2 AP IH AW Q].
  - split; [exact B|]. split; [reflexivity|]. split; [now apply idles_refl|]. auto.
  - destruct IH as (B1 & P1 & I1 & L1 & _). destruct (away_turn AW Q HD B1 T S PA) as (B2 & P2 & I2 & L2 & D2); auto; [apply I1|].
    split; [exact B2|]. split; [congruence|]. split; [eapply idles_nil; eauto|]. auto.
Qed.

(** * The answers of [a] *)
Variable H : list pblock.
Hypothesis PC : proper_chain m g H.
Hypothesis WS : (weight g H <= sc)%Z.
Notation goes := (goes cfg g m a sc).
Notation asks := (asks cfg g m a sc H).
Notation fetches := (fetches cfg g m a sc H).
Notation real_block := (real_block m).

Lemma own_put : forall x b, good x -> real_block b -> goes [] x (happens x (HOp (Put b a) None)) /\
  (short x -> snd (exec g (re_lk x) (Put b a) None) = Ok tt \/ snd (exec g (re_lk x) (Put b a) None) = Err EParentNotFound).
Proof.
  intros x b [[S U] (NF & OPS & EV & RP)] (WB & GN & [_ BT] & MB). assert (WO : wf_op (Put b a)) by (split; auto). split; [split; [split; [split|]|split]|].
  - eapply (@op_sound cfg g x _ (Put b a) None S WO); try reflexivity. cbn [LoadModel.happens re_rops]. now rewrite app_nil_r.
  - exact U.
  - split; [exact NF|]. split; [cbn [LoadModel.happens re_ops]; apply Forall_app; split; [exact OPS|repeat constructor; exact MB]|]. split; [exact EV|exact RP].
  - exists [(Put b a, None)]. reflexivity.
  - cbn [LoadModel.happens re_sent]. now rewrite app_nil_r.
  - intros SH. destruct (reach_view (real_reach S SH)) as (s & _ & R & _ & BD & _). destruct (step_view g None R BD WO) as (_ & E & _). rewrite E. unfold sexec. cbn [effects].
    destruct (chain (st_blocks s) (pb_id b)); [|left; reflexivity]. destruct (chain (st_blocks s) (pb_parent b)); [right; reflexivity|].
    destruct (pb_gen b); [|congruence]. destruct (N.ltb_spec max_int64 (pb_bt b)); [lia|left; reflexivity].
Qed.
Lemma cids_wf : forall x, good x -> Forall wf_id (cids g H).
Proof.
  intros x G. constructor; [apply (proj1 (proj1 (proj1 G)))|]. apply Forall_map. eapply Forall_impl; [|apply PC]. cbn. intros b Hb. apply Hb.
Qed.
Definition handed (pk : package) (v : whole) : Prop := sender pk = a /\ linked (Some pk) v /\ o_dead v = false.
Lemma own_says : forall l v x from msg q i l' v' r, good (o_real v) -> linked None v -> o_dead v = false -> o_dist v = DSelect -> ln_addr from = Some a -> ft_fault x = None ->
  answer g H a q i -> brings msg i -> process l v [TMove (VArrive x (AMessage from msg))] = ((l', v'), r) -> short (o_real v') ->
  l' = l /\ r = Ok tt /\ goes [] (o_real v) (o_real v') /\ exists pk, input_of pk = i /\ handed pk v'.
Proof.
  intros l v x from msg q i l' v' r G L DE DS LA FT AN BR E SH. destruct (one_turn E) as (r1 & TS & R). cbn [turn_step] in TS. injection TS as <- EV <-. subst r.
  assert (WC := cids_wf G). destruct L as ([RI S] & C & DI & _).
  assert (WM : wf_move (VArrive x (AMessage from msg))).
  { cbn [wf_move wf_arrival]. unfold wf_link. rewrite LA. inversion AN as [ids reply AR|b IB]; subst i; cbn [brings] in BR.
    - destruct AR as (k & low & high & _ & EC & _). rewrite EC in WC. apply Forall_app in WC as [_ WC]. apply Forall_app in WC as [WC _].
      destruct BR as [-> | ->]; cbn; auto.
    - destruct PC as (_ & _ & F). rewrite Forall_forall in F. destruct (F b IB) as (WB & _). destruct BR as [-> | ->]; cbn; auto. }
  assert (F' := @move_shape cfg g cord srt v _ RI S WM). rewrite EV in F'.
  assert (X : exists d ss pk, handle cfg g srt cord x (stores v) (AMessage from msg) = (d, ss, Ok (Some pk)) /\ input_of pk = i /\ sender pk = a /\ d_reg d = re_reg (o_real v) /\
     goes [] (o_real v) (recorded (o_real v) d (calls_of x (AMessage from msg)))).
  { inversion AN as [ids reply AR|b IB]; subst i; cbn [brings] in BR.
    - assert (NE : reply <> []) by (destruct AR as (k & low & high & _ & _ & NE & _); exact NE). exists (stores v), [], (PIDs a reply). destruct BR as [-> | ->]; cbn [handle handle_message].
      + unfold handle_signatures. rewrite LA. split; [reflexivity|]. split; [reflexivity|]. split; [reflexivity|]. split; [reflexivity|]. cbn [calls_of]. rewrite LA.
        pose proof (@recorded_happens cfg g [] (o_real v) (fun t X => X)) as RH. cbn [fold_left] in RH. unfold stores. rewrite RH. now apply goes_refl.
      + unfold handle_block_ids. rewrite LA. destruct reply as [|j reply]; [congruence|]. split; [reflexivity|]. split; [reflexivity|]. split; [reflexivity|]. split; [reflexivity|]. cbn [calls_of]. rewrite LA.
        pose proof (@recorded_happens cfg g [] (o_real v) (fun t X => X)) as RH. cbn [fold_left] in RH. unfold stores. rewrite RH. now apply goes_refl.
    - destruct PC as (_ & _ & F). rewrite Forall_forall in F. destruct (own_put G (F b IB)) as [GO RS].
      assert (SX : short (o_real v)).
      { eapply later_short; [|exact SH]. rewrite <- EV. apply (move_grow cfg g cord srt v (VArrive x (AMessage from msg))). }
      specialize (RS SX). destruct (exec g (re_lk (o_real v)) (Put b a) None) as [lk e] eqn:EX. cbn [snd] in RS.
      assert (HB : NetModel.handle_block g x (stores v) from b = (with_lk (stores v) lk, [], Ok (Some (PBlock a b)))).
      { unfold NetModel.handle_block. rewrite LA, FT. cbn [stores d_lk]. rewrite EX. destruct RS as [-> | ->]; reflexivity. }
      exists (with_lk (stores v) lk), [], (PBlock a b).
      assert (RC : calls_of x (AMessage from msg) = [HOp (Put b a) None]) by (cbn [calls_of]; rewrite LA, FT; destruct BR as [-> | ->]; reflexivity).
      rewrite RC. split; [destruct BR as [-> | ->]; exact HB|]. split; [reflexivity|]. split; [reflexivity|]. split; [reflexivity|].
      assert (RH := @recorded_happens cfg g [HOp (Put b a) None] (o_real v)). cbn [fold_left effect with_lk d_lk d_reg] in RH. rewrite EX in RH. cbn [fst] in RH.
      unfold stores. rewrite RH; [exact GO|]. intros t [Q|[]]. discriminate. }
  destruct X as (d & ss & pk & HD & IN & SE & DR & GO). unfold move_step in EV. rewrite DE, DS, HD in EV. subst v'. cbn [set_dist set_real set_seen o_real o_dead after_send] in *.
  rewrite DE. split; [reflexivity|]. split; [reflexivity|]. split; [exact GO|]. exists pk. split; [exact IN|]. split; [exact SE|]. split; [|exact DE].
  split; [exact F'|]. cbn [set_dist set_real set_seen o_real o_dials holding o_dist recorded re_reg]. rewrite DR. auto.
Qed.
Lemma own_heard : forall l v pk ms l' v' r, good (o_real v) -> handed pk v -> wf_turn (TTake ms) -> Forall (elsewhere m a) (moves_in (TTake ms)) ->
  process l v [TTake ms] = ((l', v'), r) -> o_dead v' = false ->
  exists env r1, good (with_env (o_real v) env) /\ loader_step rw (input_of pk) l (with_env (o_real v) env) = ((l', o_real v'), r1) /\ linked None v' /\ (r1 = Ok tt -> r = Ok tt).
Proof.
  intros l v pk ms l' v' r G (SE & L & _) W E Q DE. destruct (one_turn Q) as (r1 & TS & R). cbn [turn_step] in TS. assert (DV : o_dist v = DSending pk) by apply L. rewrite DV in TS.
  unfold handling in TS. destruct (loader_step ww (input_of pk) l (set_todo (set_dist v DSelect) ms)) as [[l1 v1] r2] eqn:LS. injection TS as <- <- <-.
  assert (AH := linked_ahead (take_linked L DV) (todo_turn W) (todo_away E)). destruct (step_ahead AH LS) as (env & FE & LR & AH').
  exists env, r2. split; [now apply env_good|]. split; [exact LR|]. split; [now apply ahead_linked|]. intros ->. now rewrite DE in R.
Qed.

(** * The rounds *)
Lemma env_goes : forall x env, good x -> good (with_env x env) -> goes [] x (with_env x env).
Proof. intros x env G GE. split; [exact GE|]. split; [exists []; cbn; now rewrite app_nil_r|cbn; now rewrite app_nil_r]. Qed.
Definition at_ (l : loader) (x : real) (q : list LoadModel.message) : scene := {| sc_l := l; sc_x := x; sc_open := q |}.
Lemma asks_wait : forall P R l x q, asks P R (at_ l x q) -> good x /\ exists p, busy l p /\ pl_triggers p = [] /\ (pl_state p = WaitIDs \/ pl_state p = WaitBlocks) /\ pl_peer p = a.
Proof. intros P R l x q (_ & G & _ & p & ids & B & [ST TR] & PA & _). split; [exact G|]. exists p. auto. Qed.
Lemma fetches_wait : forall P Q R miss l x q, fetches P Q R miss (at_ l x q) ->
  good x /\ exists p, busy l p /\ pl_triggers p = [] /\ (pl_state p = WaitIDs \/ pl_state p = WaitBlocks) /\ pl_peer p = a.
Proof. intros P Q R miss l x q (_ & G & _ & _ & p & rcv & B & [ST TR] & PA & _). split; [exact G|]. exists p. auto. Qed.
Lemma asks_goes : forall P R l x q l1 x1, asks P R (at_ l x q) -> (forall p, busy l p -> busy l1 p) -> l_prev l1 = l_prev l -> goes [] x x1 -> asks P R (at_ l1 x1 q).
Proof.
  intros P R l x q l1 x1 (EH & G & PV & p & ids & B & WT & PA & OP & CM & HT) BB P1 (G1 & L1 & _). cbn [at_ sc_l sc_x sc_open] in *.
  split; [exact EH|]. split; [exact G1|]. cbn [at_ sc_l sc_x sc_open]. split; [now rewrite P1|]. exists p, ids. split; [auto|]. split; [exact WT|]. split; [exact PA|].
  split; [exact OP|]. split; [exact CM|]. intros SH. apply (@has_later cfg g m a sc x); auto; [|apply HT; eapply later_short; eauto].
  eapply (@tip_wf cfg g m a sc x); eauto. assert (F : Forall real_block H) by apply PC. rewrite EH in F. now apply Forall_app in F.
Qed.
Lemma fetches_goes : forall P Q R miss l x q l1 x1, fetches P Q R miss (at_ l x q) -> (forall p, busy l p -> busy l1 p) -> l_prev l1 = l_prev l -> goes [] x x1 ->
  fetches P Q R miss (at_ l1 x1 q).
Proof.
  intros P Q R miss l x q l1 x1 (EH & G & PV & QN & p & rcv & B & WT & PA & PQ & IR & OP & NM & MN & MI & HT) BB P1 (G1 & L1 & _). cbn [at_ sc_l sc_x sc_open] in *.
  split; [exact EH|]. split; [exact G1|]. cbn [at_ sc_l sc_x sc_open]. split; [now rewrite P1|]. split; [exact QN|]. exists p, rcv. split; [auto|]. split; [exact WT|]. split; [exact PA|].
  split; [exact PQ|]. split; [exact IR|]. split; [exact OP|]. split; [exact NM|]. split; [exact MN|]. split; [exact MI|].
  intros SH. apply (@has_later cfg g m a sc x); auto; [|apply HT; eapply later_short; eauto].
  eapply (@tip_wf cfg g m a sc x); eauto. assert (F : Forall real_block H) by apply PC. rewrite EH in F. apply Forall_app in F as [F _]. now apply Forall_app in F.
Qed.
Notation nxt := (plain_turn cfg g ord cord srt m a H).
Definition ready (s : stage) : Prop := st_res s = Ok tt /\ o_dead (st_v s) = false /\ linked None (st_v s).
Definition carrying (pk : package) (s : stage) : Prop := st_res s = Ok tt /\ handed pk (st_v s).
Definition waits (l : loader) : Prop := exists p, busy l p /\ pl_triggers p = [] /\ (pl_state p = WaitIDs \/ pl_state p = WaitBlocks) /\ pl_peer p = a.
Definition still (l l' : loader) : Prop := (forall p, busy l p -> busy l' p) /\ l_prev l' = l_prev l.
Lemma sent_none : forall (x y : real) new, goes [] x y -> re_sent y = re_sent x ++ new -> new = [].
Proof. intros x y new (_ & _ & E) Q. rewrite E in Q. now apply app_inv_head in Q. Qed.
Lemma apart_waits : forall D l v l' v', apart cfg g ord cord srt m a l v l' v' -> (forall q, D = Some q -> sender q = a) -> waits l -> good (o_real v) -> linked D v -> o_dead v = false ->
  still l l' /\ goes [] (o_real v) (o_real v') /\ linked D v' /\ o_dead v' = false.
Proof.
  intros D l v l' v' AP HD (p & B & T & S & PA) G L DE. destruct (apart_all AP HD B T S PA G L DE) as (B1 & P1 & I1 & L1 & D1). split; [|split; [apply I1|auto]].
  split; [|exact P1]. intros p0 B0. unfold busy in *. congruence.
Qed.
Lemma step_ready : forall s s', ready s -> waits (st_l s) -> good (o_real (st_v s)) -> nxt s s' -> short (o_real (st_v s')) ->
  still (st_l s) (st_l s') /\ goes [] (o_real (st_v s)) (o_real (st_v s')) /\
  exists q1 q q2 i pk, st_open s = q1 ++ q :: q2 /\ st_open s' = q1 ++ q2 /\ answer g H a q i /\ input_of pk = i /\ carrying pk s'.
Proof.
  intros s s' (RS & DE & L) WT G (l1 & v1 & t & new & _ & AP & PR & SN & CASES) SH.
  destruct (@apart_waits None _ _ _ _ AP) as (SL & GO & L1 & D1); auto; [discriminate|]. destruct CASES as [(x & from & msg & q1 & q & q2 & i & DS & -> & LA & FT & OP & AN & BR & OP')|(p & ms & DS & SE & _)].
  - destruct (@own_says l1 v1 x from msg q i (st_l s') (st_v s') (st_res s') (proj1 GO) L1 D1 DS LA FT AN BR PR SH) as (EL & ER & GO1 & pk & IN & HD).
    assert (GO2 := goes_nil GO GO1). rewrite EL. split; [exact SL|]. split; [exact GO2|]. exists q1, q, q2, i, pk. split; [exact OP|].
    rewrite (sent_none GO2 SN) in OP'. unfold sent_to in OP'. cbn [filter map] in OP'. rewrite app_nil_r in OP'. split; [exact OP'|]. split; [exact AN|]. split; [exact IN|]. split; [exact ER|exact HD].
  - exfalso. destruct L1 as (_ & _ & _ & _ & HO). exact (HO p DS SE).
Qed.
Lemma step_carry : forall pk s s', carrying pk s -> waits (st_l s) -> good (o_real (st_v s)) -> nxt s s' ->
  exists l1 x1 r1 new, still (st_l s) l1 /\ goes [] (o_real (st_v s)) x1 /\ loader_step rw (input_of pk) l1 x1 = ((st_l s', o_real (st_v s')), r1) /\ (r1 = Ok tt -> ready s') /\
    re_sent (o_real (st_v s')) = re_sent x1 ++ new /\ st_open s' = st_open s ++ sent_to a new.
Proof.
  intros pk s s' (RS & SE & L & DE) WT G (l1 & v1 & t & new & _ & AP & PR & SN & CASES).
  destruct (@apart_waits (Some pk) _ _ _ _ AP) as (SL & GO & L1 & D1); auto; [intros q Q; now injection Q as <-|].
  assert (DV : o_dist v1 = DSending pk) by apply L1.
  destruct CASES as [(x & from & msg & q1 & q & q2 & i & DS & _)|(p & ms & DS & SE' & -> & WT' & EL & DE' & OP)]; [congruence|].
  assert (p = pk) by congruence. subst p.
  destruct (@own_heard l1 v1 pk ms (st_l s') (st_v s') (st_res s') (proj1 GO) (conj SE (conj L1 D1)) WT' EL PR DE') as (env & r1 & GE & LS & L' & RR).
  assert (GO1 := goes_nil GO (env_goes (proj1 GO) GE)). exists l1, (with_env (o_real v1) env), r1, new. split; [exact SL|]. split; [exact GO1|]. split; [exact LS|].
  split; [intros R; split; [auto|split; [exact DE'|exact L']]|]. split; [|exact OP]. rewrite SN. destruct GO1 as (_ & _ & ->). now rewrite app_nil_r.
Qed.
Lemma moved_sent : forall v x, re_sent (o_real (mstep v x)) = re_sent (o_real v).
Proof.
  intros v x. unfold move_step. destruct (o_dead v); [reflexivity|].
  assert (RE : forall r o h, re_sent (o_real (registered v r o h)) = re_sent (o_real v)) by (intros r o h; destruct o; reflexivity).
  destruct x as [y ar|[clock|]|y n|y n up|y [b|]|z]; try reflexivity.
  - destruct (o_dist v); try reflexivity. now destruct (handle cfg g srt cord y (stores v) ar) as [[d ss] [p|e| |]].
  - destruct (o_armed v); [|reflexivity]. destruct (take_available cfg (re_reg (o_real v)) clock) as [r [l|e| |]]; apply RE.
  - now destruct (o_armed v).
  - destruct (nth_error (o_dials v) n) as [[b|b|b]|]; try reflexivity. destruct (suggest_version _ _ _ _ _) as [r []]; apply RE.
  - destruct (nth_error (o_dials v) n) as [[b|b|b]|]; try reflexivity; try destruct up; try reflexivity; unfold hung_up; destruct (unregister_peer _ _ _ _) as [r o]; apply RE.
  - destruct (suggest_version _ _ _ _ _) as [r o]. apply RE.
Qed.
Lemma can_say : forall s q1 q q2 i, ready s -> waits (st_l s) -> good (o_real (st_v s)) -> st_open s = q1 ++ q :: q2 -> answer g H a q i -> exists s', nxt s s'.
Proof.
  intros s q1 q q2 i (RS & DE & L) WT G OP AN.
  assert (X : exists l1 v1, apart cfg g ord cord srt m a (st_l s) (st_v s) l1 v1 /\ o_dist v1 = DSelect /\ re_sent (o_real v1) = re_sent (o_real (st_v s))).
  { assert (L0 := L). destruct L0 as (_ & _ & _ & ND & HO). destruct (o_dist (st_v s)) as [|pk|] eqn:DV; [|..|congruence].
    - exists (st_l s), (st_v s). split; [constructor|]. auto.
    - specialize (HO pk eq_refl). destruct WT as (p & B & _ & _ & PA).
      exists (st_l s), (set_todo (set_todo (set_dist (st_v s) DSelect) []) []). split; [|split; reflexivity]. eapply ap_more with (t := TTake []); [constructor| |].
      + split; [|split; [|]]; [constructor|constructor|]. intros p0 P0. cbn [o_dist] in P0. rewrite DV in P0. injection P0 as <-. exact HO.
      + cbn [WholeModel.process turn_step]. rewrite DV. unfold handling. rewrite (@other_input (input_of pk) (st_l s) _ p B PA) by (destruct pk; exact HO).
        cbn [set_todo set_dist o_dead]. now rewrite DE. }
  destruct X as (l1 & v1 & AP & DS & SN). assert (CN : exists c, In (a, c) (r_conns (re_reg (o_real (st_v s))))).
  { destruct L as (_ & C & _). unfold connected in C. apply in_map_iff in C as ([b c] & E & IN). cbn [fst] in E. subst b. eauto. }
  destruct CN as (c & _). set (from := {| ln_addr := Some a; ln_conn := c |}). set (x := {| ft_now := 0%Z; ft_write := true; ft_append := None; ft_fault := None |}).
  assert (MS : exists msg, brings msg i).
  { inversion AN; [exists (MBlockIds reply); now right|exists (MBlock (Some b)); now left]. }
  destruct MS as [msg BR]. destruct (process l1 v1 [TMove (VArrive x (AMessage from msg))]) as [[l' v'] r] eqn:E.
  assert (SN' : re_sent (o_real v') = re_sent (o_real v1)).
  { destruct (one_turn E) as (r1 & TS & _). cbn [turn_step] in TS. injection TS as _ <- _. apply moved_sent. }
  exists {| st_l := l'; st_v := v'; st_open := (q1 ++ q2) ++ sent_to a []; st_res := r |}, l1, v1, (TMove (VArrive x (AMessage from msg))), []. cbn [st_l st_v st_open st_res].
  split; [exact RS|]. split; [exact AP|]. split; [exact E|]. split; [rewrite SN', SN; now rewrite app_nil_r|]. left. exists x, from, msg, q1, q, q2, i. repeat (split; [auto; reflexivity|]). auto.
Qed.
Lemma dead_call : forall c v, (o_todo v = [] -> o_todo (fst (ww c v)) = [] /\ o_dead (fst (ww c v)) = o_dead v).
Proof. intros c v T. rewrite world_at. cbn [fst add_call o_todo o_dead]. unfold v_pre. rewrite T. cbn. auto. Qed.
Lemma dead_step : forall i l v, o_todo v = [] -> o_dead (snd (fst (loader_step ww i l v))) = o_dead v.
Proof.
  intros i l v T. pose proof (@step_all _ ww (fun x y => o_todo x = [] -> o_todo y = [] /\ o_dead y = o_dead x)) as K.
  apply (K (fun x E => conj E eq_refl)); [|exact dead_call|exact T]. intros x y z A B E. destruct (A E) as [E1 D1]. destruct (B E1) as [E2 D2]. split; congruence.
Qed.
Lemma can_hear : forall pk s, carrying pk s -> good (o_real (st_v s)) -> exists s', nxt s s'.
Proof.
  intros pk s (RS & SE & L & DE) G. destruct (process (st_l s) (st_v s) [TTake []]) as [[l' v'] r] eqn:E. assert (DV : o_dist (st_v s) = DSending pk) by apply L.
  assert (D' : o_dead v' = false).
  { destruct (one_turn E) as (r1 & TS & _). cbn [turn_step] in TS. rewrite DV in TS. unfold handling in TS.
    pose proof (@dead_step (input_of pk) (st_l s) (set_todo (set_dist (st_v s) DSelect) []) eq_refl) as K. destruct (loader_step ww _ _ _) as [[l1 v1] r2]. injection TS as _ <- _.
    cbn [fst snd set_todo set_dist o_dead] in *. congruence. }
  destruct (@own_heard (st_l s) (st_v s) pk [] l' v' r G (conj SE (conj L DE))) as (env & r1 & GE & LS & _); auto; try constructor.
  destruct (grows_step LS) as (_ & new & SN). exists {| st_l := l'; st_v := v'; st_open := st_open s ++ sent_to a new; st_res := r |}, (st_l s), (st_v s), (TTake []), new.
  cbn [st_l st_v st_open st_res]. split; [exact RS|]. split; [constructor|]. split; [exact E|]. split; [exact SN|]. right. exists pk, []. split; [exact DV|]. split; [exact SE|]. split; [reflexivity|].
  split; [constructor|]. split; [constructor|]. auto.
Qed.
Notation flag := (flag g sc H).
Notation room := (room g sc H).
Notation over := (fun s => synchronised g a H s \/ ~ short (o_real (st_v s))).
Definition scn (s : stage) : scene := at_ (st_l s) (o_real (st_v s)) (st_open s).
Lemma still_waits : forall l l', still l l' -> waits l -> waits l'.
Proof. intros l l' [S _] (p & B & X). exists p. auto. Qed.
(** The distributor does not stop. *)
Lemma move_going : forall v x, o_dist v <> DStopped -> o_dist (mstep v x) <> DStopped.
Proof.
  intros v x N. unfold move_step. destruct (o_dead v); [exact N|].
  assert (RE : forall r o h b ds, o_dist (set_respawn (registered v r o h) b ds) <> DStopped) by (intros r o h b ds; destruct o; exact N).
  assert (RE' : forall r o h, o_dist (registered v r o h) <> DStopped) by (intros r o h; destruct o; exact N).
  destruct x as [y ar|[clock|]|y n|y n up|y [b|]|z]; try exact N.
  - destruct (o_dist v) eqn:D; try congruence. destruct (handle cfg g srt cord y (stores v) ar) as [[d ss] [p|e| |]]; cbn [set_dist set_dead set_seen o_dist]; try congruence.
    unfold after_send. destruct p; discriminate.
  - destruct (o_armed v); [|exact N]. destruct (take_available cfg (re_reg (o_real v)) clock) as [r [l|e| |]]; apply RE.
  - destruct (o_armed v); exact N.
  - destruct (nth_error (o_dials v) n) as [[b|b|b]|]; try exact N. destruct (suggest_version _ _ _ _ _) as [r []]; apply RE.
  - destruct (nth_error (o_dials v) n) as [[b|b|b]|]; try exact N; try destruct up; try exact N; unfold hung_up; destruct (unregister_peer _ _ _ _) as [r o]; apply RE.
  - destruct (suggest_version _ _ _ _ _) as [r o]. apply RE'.
Qed.
Lemma others_going : forall ms v, o_dist v <> DStopped -> o_dist (others v ms) <> DStopped.
Proof. induction ms as [|x ms IH]; intros v N; [exact N|]. apply (IH (mstep v x)). now apply move_going. Qed.
Lemma step_going : forall i l v, o_dist v <> DStopped -> o_dist (snd (fst (loader_step ww i l v))) <> DStopped.
Proof.
  intros i l v. apply (@step_all _ ww (fun x y => o_dist x <> DStopped -> o_dist y <> DStopped)); [auto|auto|].
  intros c x N. rewrite world_at. cbn [fst add_call o_dist]. unfold v_pre. cbn [set_todo o_dist]. now apply others_going.
Qed.
Lemma process_going : forall ts l v l' v', o_dist v <> DStopped -> o_dead v = false -> process l v ts = ((l', v'), Ok tt) -> o_dist v' <> DStopped /\ o_dead v' = false.
Proof.
  induction ts as [|t ts IH]; intros l v l' v' N D E; cbn [WholeModel.process] in E; [injection E as <- <-; auto|].
  assert (K : o_dist (snd (fst (turn_step cfg g ord cord srt l v t))) <> DStopped).
  { assert (HA : forall i v0 ms, o_dist v0 <> DStopped -> o_dist (snd (fst (handling cfg g ord cord srt i l v0 ms))) <> DStopped).
    { intros i v0 ms N0. unfold handling. pose proof (@step_going i l (set_todo v0 ms) N0) as X. destruct (loader_step ww i l (set_todo v0 ms)) as [[l1 v1] r1]. exact X. }
    destruct t as [x|ms|ms|ms]; cbn [turn_step].
    - now apply move_going.
    - destruct (l_timer l); [now apply HA|exact N].
    - destruct (l_ticker l); [now apply HA|exact N].
    - destruct (o_dist v) eqn:DV; [cbn [fst snd]; congruence|apply HA; discriminate|congruence]. }
  destruct (turn_step cfg g ord cord srt l v t) as [[l1 v1] r1]. cbn [fst snd] in K.
  destruct r1; [destruct (o_dead v1) eqn:D1|destruct (o_dead v1) eqn:D1| |]; try discriminate E; eapply IH; eauto.
Qed.
(** Without a request, and with nothing of [a] at the distributor, there is no honest turn. *)
Definition free (v : whole) : Prop := forall p, o_dist v = DSending p -> sender p <> a.
Lemma move_free : forall v x, free v -> elsewhere m a x -> free (mstep v x).
Proof.
  intros v x N E. unfold move_step. destruct (o_dead v); [exact N|].
  assert (RE : forall r o h b ds, free (set_respawn (registered v r o h) b ds)) by (intros r o h b ds; destruct o; exact N).
  assert (RE' : forall r o h, free (registered v r o h)) by (intros r o h; destruct o; exact N).
  destruct x as [y ar|[clock|]|y n|y n up|y [b|]|z]; try exact N.
  - destruct (o_dist v) eqn:D; try exact N. destruct (handle cfg g srt cord y (stores v) ar) as [[d ss] [p|e| |]] eqn:Q; try exact N;
      try (intros p0 P0; cbn [set_dead set_seen o_dist] in P0; congruence).
    intros p0 P0. cbn [set_dist o_dist] in P0. destruct p as [p|]; [|discriminate]. injection P0 as <-.
    apply handle_package in Q as (from & msg & -> & Q). destruct E as [_ S]. destruct p as [ad ids|ad b]; cbn [sender]; destruct Q as [Q1 Q2]; intros ->;
      specialize (S Q1); destruct Q2 as [-> | ->]; exact S.
  - destruct (o_armed v); [|exact N]. destruct (take_available cfg (re_reg (o_real v)) clock) as [r [l|e| |]]; apply RE.
  - destruct (o_armed v); exact N.
  - destruct (nth_error (o_dials v) n) as [[b|b|b]|]; try exact N. destruct (suggest_version _ _ _ _ _) as [r []]; apply RE.
  - destruct (nth_error (o_dials v) n) as [[b|b|b]|]; try exact N; try destruct up; try exact N; unfold hung_up; destruct (unregister_peer _ _ _ _) as [r o]; apply RE.
  - destruct (suggest_version _ _ _ _ _) as [r o]. apply RE'.
Qed.
Lemma others_free : forall ms v, free v -> Forall (elsewhere m a) ms -> free (others v ms).
Proof. induction ms as [|x ms IH]; intros v N F; [exact N|]. apply (IH (mstep v x)); [apply move_free; [exact N|exact (Forall_inv F)]|exact (Forall_inv_tail F)]. Qed.
Lemma step_free : forall i l v, free v -> Forall (Forall (elsewhere m a)) (o_todo v) -> free (snd (fst (loader_step ww i l v))).
Proof.
  intros i l v N T. pose proof (@step_all _ ww (fun x y => free x /\ Forall (Forall (elsewhere m a)) (o_todo x) -> free y /\ Forall (Forall (elsewhere m a)) (o_todo y))) as K.
  apply K; auto. intros c x [N1 T1]. rewrite world_at. cbn [fst add_call o_dist o_todo]. unfold v_pre. cbn [set_todo o_dist o_todo].
  split; [|destruct T1; cbn; auto]. intros p. cbn [o_dist add_call set_todo]. apply others_free; [exact N1|]. destruct T1; cbn; auto.
Qed.
Lemma away_free : forall l v t l' v' r, free v -> away cfg g cord srt m a l v t -> process l v [t] = ((l', v'), r) -> free v'.
Proof.
  intros l v t l' v' r N (W & F & _) E. destruct (one_turn E) as (r1 & TS & _).
  assert (HA : forall i v0 ms, moves_in t = concat ms -> free v0 -> free (snd (fst (handling cfg g ord cord srt i l v0 ms)))).
  { intros i v0 ms M N0. unfold handling. rewrite M in F. assert (T : Forall (Forall (elsewhere m a)) (o_todo (set_todo v0 ms))) by (cbn [set_todo o_todo]; now apply Forall_concat).
    pose proof (@step_free i l (set_todo v0 ms) N0 T) as X. destruct (loader_step ww i l (set_todo v0 ms)) as [[l1 v1] r2]. exact X. }
  replace v' with (snd (fst (turn_step cfg g ord cord srt l v t))) by (now rewrite TS). destruct t as [x|ms|ms|ms]; cbn [turn_step moves_in] in *.
  - apply move_free; [exact N|exact (Forall_inv F)].
  - destruct (l_timer l); [now apply HA|exact N].
  - destruct (l_ticker l); [now apply HA|exact N].
  - destruct (o_dist v) eqn:DV; [exact N|apply HA; [reflexivity|intros p0 P0; discriminate]|exact N].
Qed.
Lemma apart_free : forall l v l' v', apart cfg g ord cord srt m a l v l' v' -> free v -> free v'.
Proof. intros l v l' v' AP N. induction AP as [|l1 v1 t l2 v2 AP IH AW E]; [exact N|]. exact (away_free IH AW E). Qed.
End Honest.
