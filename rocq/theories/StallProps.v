(** The loader in the running process (C87): a run of the process is a session of the loader, so that what is proved of sessions (C46, C48,
    C50, C64, C81) holds of it; and what it means for the process that the loader is never freed (peer_loader.go:239-252). *)
From Verif Require Import Base Kv ChainModel ChainSpec ChainExample PeersModel PeersSpec PeersProofs PeersCalls PeersProps LoadModel LoadSpec LoadProofs LoadRule LoadLoop LoadBatch
  LoadProps LoadFire NetModel NetSpec NetProps WholeModel WholeSpec WholeProofs WholeProps.
Set Implicit Arguments.
Unset Strict Implicit.

(** The store refuses to store a block for the peer. *)
Definition refused_for (a : addr) (e : event) : Prop := exists b r, e = (CPut b a ==> r) /\ r <> Ok tt.

Lemma session_stuck : forall V (w : world V) l es, session w l es -> forall p, busy l p -> pl_state p = Done -> Exists (refused_for (pl_peer p)) es.
Proof.
  intros V w l es H. induction H as [|l es i v l' v' new r S IH E R]; intros p' B' D; [discriminate B'|]. apply Exists_app.
  destruct (session_inv S) as (RS & TK & TM & _).
  destruct (l_pl l) as [p|] eqn:Q.
  - destruct (step_busy RS Q E) as [_ M]. destruct (M _ B') as [P MT]. rewrite P. assert (TK' : l_ticker l = true) by (apply TK; congruence).
    destruct (pl_state p) eqn:ST.
    + destruct MT as [X|[]]; congruence.
    + right. destruct MT as [X|X]; [congruence|]. destruct i; try contradiction; [destruct X; congruence|].
      destruct (tick_log RS Q (or_introl ST) TK' E) as (t & rest & -> & K). destruct (_ <? _)%Z.
      * destruct K as [(_ & N & _)|(NR & _ & pre & b & post & _ & ->)]; [unfold busy in B'; congruence|]. apply Exists_cons_tl, Exists_app. right.
        apply Exists_cons_hd. exists b, r. auto.
      * destruct K as (_ & -> & _). unfold busy in B'. congruence.
    + right. destruct MT as [X|X]; [congruence|]. destruct i; try contradiction; [destruct X; congruence|].
      destruct (tick_log RS Q (or_intror ST) TK' E) as (t & rest & -> & K). destruct (_ <? _)%Z.
      * destruct K as [(_ & N & _)|(NR & _ & pre & b & post & _ & ->)]; [unfold busy in B'; congruence|]. apply Exists_cons_tl, Exists_app. right.
        apply Exists_cons_hd. exists b, r. auto.
      * destruct K as (_ & -> & _). unfold busy in B'. congruence.
    + left. rewrite <- P. destruct (@stuck_step _ w i l v [] p) as (v2 & n2 & E2 & _); auto.
      { split; [exact Q|]. split; [exact (RS _ Q)|now right]. }
      rewrite E in E2. injection E2 as -> _ _ _. apply IH; auto.
  - destruct (step_free Q E) as [_ M]. destruct (M _ B') as [_ W]. congruence.
Qed.

Section Stall.
Variable cfg : config.
Variable g : pblock.
Variable ord : list group -> list group.
Variable cord : list (addr * conn) -> list (addr * conn).
Variable srt : list Peer -> list Peer.
Notation mstep := (move_step cfg g cord srt).
Notation ww := (whole_world cfg g ord cord srt).
Notation tstep := (turn_step cfg g ord cord srt).
Notation process := (process cfg g ord cord srt).

(** The record of calls in the process is the log of the loader. *)
Definition in_step (x y : whole * list event) : Prop := exists new, o_calls (fst y) = o_calls (fst x) ++ new /\ snd y = snd x ++ new.
Lemma in_step_refl : forall x, in_step x x.
Proof. intros x. exists []. now rewrite !app_nil_r. Qed.
Lemma in_step_trans : forall x y z, in_step x y -> in_step y z -> in_step x z.
Proof. intros x y z (n & A & B) (m & C & D). exists (n ++ m). now rewrite C, D, A, B, !app_assoc. Qed.
Lemma call_in_step : forall c x, in_step x (fst (logging ww c x)).
Proof.
  intros c [v es]. rewrite log_call, world_at. cbn [fst snd]. eexists. split; [|reflexivity]. cbn [add_call o_calls fst].
  unfold v_pre. cbn [set_todo o_calls]. now destruct (others_grow cfg g cord srt (hd [] (o_todo v)) v) as (_ & _ & ->).
Qed.
Lemma step_in_step : forall i l v l' v' new r, loader_step (logging ww) i l (v, []) = ((l', (v', new)), r) -> o_calls v' = o_calls v ++ new.
Proof.
  intros i l v l' v' new r E. pose proof (@step_all _ (logging ww) in_step in_step_refl in_step_trans call_in_step i l (v, [])) as S. rewrite E in S.
  destruct S as (n & A & B). cbn [fst snd app] in *. now subst.
Qed.
Lemma handling_session : forall i l v ms l' v' r, handling cfg g ord cord srt i l v ms = ((l', v'), r) ->
  exists new, o_calls v' = o_calls v ++ new /\ exists u u', loader_step (logging ww) i l (u, []) = ((l', (u', new)), r).
Proof.
  intros i l v ms l' v' r H. unfold handling in H. rewrite unlogged in H.
  destruct (loader_step (logging ww) i l (set_todo v ms, [])) as [[l1 [v1 es]] r1] eqn:E. injection H as <- <- <-.
  exists es. split; [exact (step_in_step E)|]. exists (set_todo v ms), v1. exact E.
Qed.
Lemma turn_session : forall t l v l' v' r, tstep l v t = ((l', v'), r) -> returned r -> session ww l (o_calls v) -> session ww l' (o_calls v').
Proof.
  intros t l v l' v' r E R S. assert (HS : forall i u ms, o_calls u = o_calls v -> handling cfg g ord cord srt i l u ms = ((l', v'), r) -> session ww l' (o_calls v')).
  { intros i u ms Q H. destruct (handling_session H) as (new & -> & x & x' & L). rewrite Q. exact (session_step S L R). }
  assert (ID : ((l, v), Ok tt) = ((l', v'), r) -> session ww l' (o_calls v')) by (intros [= <- <- _]; exact S).
  destruct t as [m|ms|ms|ms]; cbn [turn_step] in E.
  - injection E as <- <- _. now destruct (move_grow cfg g cord srt v m) as [_ ->].
  - destruct (l_timer l); [eapply HS; eauto|auto].
  - destruct (l_ticker l); [eapply HS; eauto|auto].
  - destruct (o_dist v); auto. eapply HS; [|exact E]. reflexivity.
Qed.
Lemma process_session : forall ts l v l' v', session ww l (o_calls v) -> process l v ts = ((l', v'), Ok tt) -> session ww l' (o_calls v').
Proof.
  induction ts as [|t ts IH]; intros l v l' v' S E; cbn [WholeModel.process] in E; [injection E as <- <-; exact S|].
  destruct (tstep l v t) as [[l1 v1] r1] eqn:T.
  destruct r1; try discriminate E; (destruct (o_dead v1); [discriminate E|]); apply (IH l1 v1 l' v'); auto; apply (turn_session T); auto; exact Logic.I.
Qed.

(** Only the loader asks peers for blocks. *)
Lemma registered_sent : forall v r o h, re_sent (o_real (registered v r o h)) = re_sent (o_real v).
Proof. intros v r o h. destruct o; reflexivity. Qed.
Lemma move_sent : forall v m, re_sent (o_real (mstep v m)) = re_sent (o_real v).
Proof.
  intros v m. unfold move_step. destruct (o_dead v); [reflexivity|]. destruct m as [x a|[clock|]|x n|x n up|x [a|]|t]; try reflexivity.
  - destruct (o_dist v); try reflexivity. destruct (handle _ _ _ _ _ _ _) as [[d ss] [p|e| |]]; reflexivity.
  - destruct (o_armed v); [|reflexivity]. destruct (take_available _ _ _) as [r [l|e| |]]; apply registered_sent.
  - destruct (o_armed v); reflexivity.
  - destruct (nth_error _ _) as [[a|a|a]|]; try reflexivity. destruct (suggest_version _ _ _ _ _) as [r []]; apply registered_sent.
  - destruct (nth_error _ _) as [[a|a|a]|]; try destruct up; try reflexivity; unfold hung_up; destruct (unregister_peer _ _ _ _); apply registered_sent.
  - destruct (suggest_version _ _ _ _ _). apply registered_sent.
Qed.
Lemma others_sent : forall ms v, re_sent (o_real (others cfg g cord srt v ms)) = re_sent (o_real v).
Proof. induction ms as [|m ms IH]; intros v; [reflexivity|]. cbn [others fold_left]. unfold others in IH. rewrite IH. apply move_sent. Qed.
Lemma happens_sent : forall hs x, re_sent (fold_left (LoadModel.happens cfg g) hs x) = re_sent x.
Proof. induction hs as [|h hs IH]; intros x; [reflexivity|]. cbn [fold_left]. now rewrite IH. Qed.
Lemma meanwhile_sent : forall x, re_sent (meanwhile cfg g x) = re_sent x.
Proof. intros x. unfold meanwhile. cbn [re_sent]. apply happens_sent. Qed.
Definition clock_only (es : list event) : Prop := Forall (fun e : event => projT1 e = CNow) es.
Definition silent (x y : whole * list event) : Prop := exists new, snd y = snd x ++ new /\ (clock_only new -> re_sent (o_real (fst y)) = re_sent (o_real (fst x))).
Lemma silent_trans : forall x y z, silent x y -> silent y z -> silent x z.
Proof.
  intros x y z (n & A & B) (m & C & D). exists (n ++ m). split; [now rewrite C, A, app_assoc|]. intros F. apply Forall_app in F as [F1 F2]. now rewrite D, B.
Qed.
Lemma call_silent : forall c x, silent x (fst (logging ww c x)).
Proof.
  intros c [v es]. rewrite log_call, world_at. cbn [fst snd]. eexists. split; [reflexivity|]. intros F. apply Forall_inv in F. cbn [projT1] in F. subst c.
  cbn [real_world fst add_call o_real]. rewrite meanwhile_sent. unfold v_pre. cbn [set_todo o_real]. apply others_sent.
Qed.
Lemma step_silent : forall i l v l' v' new r, loader_step (logging ww) i l (v, []) = ((l', (v', new)), r) -> clock_only new -> re_sent (o_real v') = re_sent (o_real v).
Proof.
  intros i l v l' v' new r E. pose proof (@step_all _ (logging ww) silent (fun x => ex_intro _ [] (conj (eq_sym (app_nil_r _)) (fun _ => eq_refl))) silent_trans call_silent i l (v, [])) as S.
  rewrite E in S. destruct S as (n & A & B). cbn [fst snd app] in *. now subst.
Qed.
Lemma stuck_handling : forall i l p v ms, stuck l p -> l_timer l = true -> l_ticker l = true ->
  exists v' new, handling cfg g ord cord srt i l v ms = ((l, v'), Ok tt) /\ o_calls v' = o_calls v ++ new /\ clock_only new /\ re_sent (o_real v') = re_sent (o_real v).
Proof.
  intros i l p v ms S TM TK. destruct (@stuck_step _ ww i l (set_todo v ms) [] p S TM TK) as (v' & new & E & F).
  exists (set_todo v' []), new. unfold handling. rewrite unlogged, E. split; [reflexivity|]. split; [exact (step_in_step E)|]. split; [exact F|]. exact (step_silent E F).
Qed.
Lemma stuck_turn : forall t l p v, stuck l p -> l_timer l = true -> l_ticker l = true ->
  exists v' new, tstep l v t = ((l, v'), Ok tt) /\ o_calls v' = o_calls v ++ new /\ clock_only new /\ re_sent (o_real v') = re_sent (o_real v).
Proof.
  intros t l p v S TM TK. assert (ID : exists v' new, ((l, v), @Ok unit tt) = ((l, v'), Ok tt) /\ o_calls v' = o_calls v ++ new /\ clock_only new /\ re_sent (o_real v') = re_sent (o_real v)).
  { exists v, []. rewrite app_nil_r. repeat split. constructor. }
  destruct t as [m|ms|ms|ms]; cbn [turn_step].
  - exists (mstep v m), []. rewrite app_nil_r. split; [reflexivity|]. split; [apply move_grow|]. split; [constructor|]. apply move_sent.
  - destruct (l_timer l) eqn:T; [|exact ID]. rewrite <- T in TM. eapply stuck_handling; eauto.
  - destruct (l_ticker l) eqn:T; [|exact ID]. rewrite <- T in TK. eapply stuck_handling; eauto.
  - destruct (o_dist v); try exact ID. eapply stuck_handling with (v := set_dist v DSelect); eauto.
Qed.
Lemma stuck_process : forall ts l p v l' v' r, stuck l p -> l_timer l = true -> l_ticker l = true -> process l v ts = ((l', v'), r) ->
  l' = l /\ (exists new, o_calls v' = o_calls v ++ new /\ clock_only new) /\ re_sent (o_real v') = re_sent (o_real v).
Proof.
  induction ts as [|t ts IH]; intros l p v l' v' r S TM TK E; cbn [WholeModel.process] in E.
  - injection E as <- <- _. split; [reflexivity|]. split; [|reflexivity]. exists []. rewrite app_nil_r. split; [reflexivity|constructor].
  - destruct (@stuck_turn t l p v S TM TK) as (v1 & n1 & T & C & F & Q). rewrite T in E. destruct (o_dead v1).
    + injection E as <- <- _. eauto 6.
    + destruct (IH _ _ _ _ _ _ S TM TK E) as (A & (n2 & B & G) & D). split; [exact A|]. split; [|congruence]. exists (n1 ++ n2). split; [rewrite B, C; now rewrite app_assoc|].
      now apply Forall_app.
Qed.
End Stall.

(** * C87 *)
(** The loader in the process is the loader of the theorems about sessions: a run that has not ended is a session, and the calls it has
    recorded are the calls of the session. *)
Theorem C87_session : forall cfg g ord cord srt x ts l v, process cfg g ord cord srt new_loader (begun x) ts = ((l, v), Ok tt) ->
  session (whole_world cfg g ord cord srt) l (o_calls v).
Proof. intros cfg g ord cord srt x ts l v E. eapply process_session; [|exact E]. apply session_new. Qed.
Print Assumptions C87_session.

Definition put_failed (e : event) : bool := match e with existT _ c r => match c return reply c -> bool with CPut _ _ => fun r => match r with Ok _ => false | _ => true end | _ => fun _ => false end r end.
Lemma refused_failed : forall a e, refused_for a e -> put_failed e = true.
Proof. intros a e (b & r & -> & N). cbn. destruct r as [[]| | |]; congruence. Qed.

(** A loader that waits for its peer is free after the first tick more than 30 seconds after its last request, unless the store refuses
    one of the blocks that have arrived: then it is in the final state with the same peer. *)
Theorem C87_freed_partial : forall cfg g ord cord srt x ts l v p ms l' v' r, process cfg g ord cord srt new_loader (begun x) ts = ((l, v), Ok tt) ->
  l_pl l = Some p -> pl_state p = WaitIDs \/ pl_state p = WaitBlocks -> turn_step cfg g ord cord srt l v (TTick ms) = ((l', v'), r) ->
  exists t rest, o_calls v' = o_calls v ++ (CNow ==> t) :: rest /\
    if (30 * 1000000000 <? t - pl_ts p)%Z
    then (r = Ok tt /\ l_pl l' = None /\ ~ Exists (refused_for (pl_peer p)) rest) \/
         ((exists q, l_pl l' = Some q /\ pl_state q = Done /\ pl_peer q = pl_peer p) /\ Exists (refused_for (pl_peer p)) rest)
    else r = Ok tt /\ l' = l /\ rest = [].
Proof.
  intros cfg g ord cord srt x ts l v p ms l' v' r E B W T. pose proof (C87_session E) as S. destruct (session_inv S) as (RS & TK & _).
  assert (K : l_ticker l = true) by (apply TK; congruence). cbn [turn_step] in T. rewrite K in T.
  destruct (handling_session T) as (new & Q & u & u' & L). destruct (tick_log RS B W K L) as (t & rest & -> & H). exists t, rest. split; [exact Q|].
  change (30 * 1000000000)%Z with timeoutDuration. destruct (_ <? _)%Z; [|exact H]. destruct H as [(R & N & ->)|(R & N & pre & b & post & _ & ->)].
  - left. split; [exact R|]. split; [exact N|]. intros X. apply Exists_exists in X as (e & I & F). apply refused_failed in F. apply in_app_or in I as [I|[<-|[]]]; [|discriminate F].
    apply in_map_iff in I as (b & <- & _). discriminate F.
  - right. split; [eexists; split; [exact N|]; split; reflexivity|]. apply Exists_app. right. apply Exists_cons_hd. exists b, r. auto.
Qed.
Print Assumptions C87_freed_partial.

(** The only way into the final state is a refusal of the store, and there is no way out: whatever the nodes, the clock and the other
    threads do, the loader is as it was, sends nothing and calls nothing but the clock. *)
Theorem C87_stuck : forall cfg g ord cord srt x ts l v p, process cfg g ord cord srt new_loader (begun x) ts = ((l, v), Ok tt) ->
  l_pl l = Some p -> pl_state p = Done ->
  Exists (refused_for (pl_peer p)) (o_calls v) /\
  forall more l' v' r, process cfg g ord cord srt l v more = ((l', v'), r) ->
    l' = l /\ re_sent (o_real v') = re_sent (o_real v) /\ exists new, o_calls v' = o_calls v ++ new /\ Forall (fun e : event => projT1 e = CNow) new.
Proof.
  intros cfg g ord cord srt x ts l v p E B D. pose proof (C87_session E) as S. split; [exact (session_stuck S B D)|]. intros more l' v' r M.
  destruct (session_inv S) as (RS & TK & TM & _). assert (K : l_ticker l = true) by (apply TK; congruence).
  assert (ST : stuck l p) by (split; [exact B|]; split; [exact (RS _ B)|now right]).
  destruct (stuck_process ST TM K M) as (A & C & F). auto.
Qed.
Print Assumptions C87_stuck.

(** One node is enough. It says that its score is the highest, is asked for its chain, names one block and sends it; the parent of the
    block is unknown. 30 seconds later the store refuses the block, and no peer is synchronised with from then on: every run of the
    process that begins like this. *)
Definition orphan_day : list turn :=
  visit pa hgood [MScore (repeat xff 12)] ++ [TSync []] ++ tell pa (MBlockIds [pb_id bad]) ++ tell pa (MBlock (Some bad)) ++ [TMove (VTime (100 * second)%Z); TTick []].
Definition said_by (a : addr) (m : move) : Prop :=
  match m with
  | VArrive _ (AMessage f _) | VArrive _ (AInfo (IConnected f _)) | VArrive _ (AInfo (IError f)) => ln_addr f = Some a
  | _ => True
  end.
Lemma process_app : forall cfg g ord cord srt ts more l v l1 v1, process cfg g ord cord srt l v ts = ((l1, v1), Ok tt) ->
  process cfg g ord cord srt l v (ts ++ more) = process cfg g ord cord srt l1 v1 more.
Proof.
  induction ts as [|t ts IH]; intros more l v l1 v1 E; cbn [process app] in *; [now injection E as <- <-|].
  destruct (turn_step cfg g ord cord srt l v t) as [[l2 v2] [[]|e| |]]; try discriminate E; destruct (o_dead v2); try discriminate E; now apply IH.
Qed.
Lemma orphan_wf : Forall wf_turn orphan_day.
Proof. apply wf_turnsb. vm_compute. reflexivity. Qed.
Definition said_byb (m : move) : bool :=
  match m with
  | VArrive _ (AMessage f _) | VArrive _ (AInfo (IConnected f _)) | VArrive _ (AInfo (IError f)) => match ln_addr f with Some b => addr_eqb b pa | None => false end
  | _ => true
  end.
Lemma said_byb_ok : forall m, said_byb m = true -> said_by pa m.
Proof.
  assert (K : forall f, match ln_addr f with Some b => addr_eqb b pa | None => false end = true -> ln_addr f = Some pa).
  { intros f H. destruct (ln_addr f) as [b|]; [|discriminate H]. destruct (addr_eqb_spec b pa); congruence. }
  intros [c [f m|[f h|f|]|]| | | | | ]; cbn [said_byb said_by]; auto.
Qed.
Lemma orphan_said : Forall (fun t => Forall (said_by pa) (moves_in t)) orphan_day.
Proof.
  apply Forall_forall. intros t I. apply Forall_forall. intros m J. apply said_byb_ok. revert m J. apply forallb_forall. revert t I. apply forallb_forall. vm_compute. reflexivity.
Qed.
Lemma orphan_ok : snd (xprocess new_loader (begun (xblank [] [])) orphan_day) = Ok tt.
Proof. vm_compute. reflexivity. Qed.
Lemma orphan_stuck : match l_pl (loader_of orphan_day) with Some p => addr_eqb (pl_peer p) pa && match pl_state p with Done => true | _ => false end | None => false end = true.
Proof. vm_compute. reflexivity. Qed.
Lemma stall_of : forall ts, snd (xprocess new_loader (begun (xblank [] [])) ts) = Ok tt ->
  match l_pl (loader_of ts) with Some p => addr_eqb (pl_peer p) pa && match pl_state p with Done => true | _ => false end | None => false end = true ->
  forall more l v r, xprocess new_loader (begun (xblank [] [])) (ts ++ more) = ((l, v), r) ->
    (exists p, l_pl l = Some p /\ pl_peer p = pa) /\ re_sent (o_real v) = re_sent (o_real (end_of ts)).
Proof.
  intros ts R B more l v r E. unfold loader_of, end_of, xprocess in *.
  destruct (process xcfg xg (@asis _) (@asis _) (@asis _) new_loader (begun (xblank [] [])) ts) as [[l1 v1] r1] eqn:D. cbn [fst snd] in *. subst r1.
  rewrite (process_app more D) in E. destruct (l_pl l1) as [p|] eqn:P; [|discriminate B]. apply andb_true_iff in B as [A S].
  destruct (pl_state p) eqn:S'; try discriminate S. destruct (addr_eqb_spec (pl_peer p) pa) as [Q|]; [|discriminate A].
  destruct (C87_stuck D P S') as [_ K]. destruct (K _ _ _ _ E) as (-> & F & _). split; [eauto|exact F].
Qed.
Theorem C87_stall_refuted : exists x ts,
  initial xcfg xg x /\ Forall wf_turn ts /\ Forall (fun t => Forall (said_by pa) (moves_in t)) ts /\
  forall more l v r, xprocess new_loader (begun x) (ts ++ more) = ((l, v), r) ->
    (exists p, l_pl l = Some p /\ pl_peer p = pa) /\ re_sent (o_real v) = re_sent (o_real (end_of ts)).
Proof.
  exists (xblank [] []), orphan_day. exact (conj xblank_initial (conj orphan_wf (conj orphan_said (@stall_of orphan_day orphan_ok orphan_stuck)))).
Qed.
Print Assumptions C87_stall_refuted.

(** The hypotheses are met: in the middle of the day of C77 the loader waits for the blocks of peer [pa]; the day ends with a free loader. *)
Example C87_example :
  (exists p, l_pl (fst (fst (xprocess new_loader (begun (xblank [] [])) (firstn 10 busy_day)))) = Some p /\ pl_state p = WaitBlocks /\ pl_peer p = pa) /\
  l_pl (loader_of busy_day) = None /\ length (o_calls (end_of busy_day)) <> 0%nat /\
  (exists p, l_pl (loader_of orphan_day) = Some p /\ pl_state p = Done) /\ re_sent (o_real (end_of orphan_day)) <> [].
Proof.
  split; [eexists; split; [vm_compute; reflexivity|split; reflexivity]|]. split; [vm_compute; reflexivity|]. split; [vm_compute; discriminate|].
  split; [eexists; split; [vm_compute; reflexivity|reflexivity]|]. vm_compute. discriminate.
Qed.
