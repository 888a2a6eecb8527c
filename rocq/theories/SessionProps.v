(** Whom the loader loads from, and for how long (C81). *)
From Verif Require Import Base Kv BytesFacts ChainModel ChainSpec ChainProofs ChainExample PeersModel PeersSpec PeersProps LoadModel LoadSpec LoadProofs LoadFire
  LoadSim LoadCalm LoadLoop LoadRule LoadBatch LoadReal LoadSource LoadProps SyncProps.
Set Implicit Arguments.
Unset Strict Implicit.

(** * Vocabulary *)

(** Calls that begin or end the loading from a peer, or a batch. *)
Definition is_turn (e : event) : Prop :=
  match projT1 e with CPick _ | CLog (LStill _) | CLog (LNoMore _) | CLog (LFailed _) => True | _ => False end.
(** A record of calls with the right decisions, the peer that is loaded from after it, and the difference of scores that is
    remembered: after a batch, the loading goes on exactly if the announced score of the peer is above the score of its
    leash, and their difference is another one than that remembered. A difference is remembered until a verdict, even
    beyond a failure. *)
Inductive judged : list event -> option addr -> option Z -> Prop :=
| judged_new : judged [] None None
| judged_begin : forall es d n k a, judged es None d -> judged (es ++ [CPick n ==> k]) (Some a) d
| judged_on : forall es d a s q, judged es (Some a) d -> (q < s)%Z -> d <> Some (s - q)%Z ->
    judged (es ++ [CPeer a ==> Ok (Some s); CScore a ==> Ok q; CLog (LStill a) ==> tt]) (Some a) (Some (s - q)%Z)
| judged_off : forall es d a s q, judged es (Some a) d -> ((s <= q)%Z \/ d = Some (s - q)%Z) ->
    judged (es ++ [CPeer a ==> Ok (Some s); CScore a ==> Ok q; CLog (LNoMore a) ==> tt]) None None
| judged_fail : forall es d a, judged es (Some a) d -> judged (es ++ [CLog (LFailed a) ==> tt]) None d
| judged_other : forall es o d e, judged es o d -> ~ is_turn e -> judged (es ++ [e]) o d.

(** The requests for the scores of the leashes of the connected peers [cs], and the peers found to be ahead of them. *)
Inductive lags : list (addr * option Z) -> list event -> list addr -> Prop :=
| lags_none : lags [] [] []
| lags_mute : forall a cs es lag, lags cs es lag -> lags ((a, None) :: cs) es lag
| lags_ahead : forall a s q cs es lag, (q < s)%Z -> lags cs es lag -> lags ((a, Some s) :: cs) ((CScore a ==> Ok q) :: es) (a :: lag)
| lags_level : forall a s q cs es lag, (s <= q)%Z -> lags cs es lag -> lags ((a, Some s) :: cs) ((CScore a ==> Ok q) :: es) lag
| lags_error : forall a s e cs es lag, lags cs es lag -> lags ((a, Some s) :: cs) ((CScore a ==> Err e) :: es) lag.

(** * Proofs *)

Section Verdicts.
Variable V : Type.
Variable w0 : world V.
Let w := logging w0.
(** The calls before the present input. *)
Variable es0 : list event.
Let K (o : option addr) (d : option Z) (v : V * list event) : Prop := judged (es0 ++ snd v) o d.
Definition whom (a : addr) (b : bool) : option addr := if b then Some a else None.
Let Ku (a : addr) (u : held * (V * list event)) : Prop := K (whom a (h_pl (fst u))) (h_prev (fst u)) (snd u).
Definition plain (c : call) : Prop := match c with CPick _ | CLog (LStill _) | CLog (LNoMore _) | CLog (LFailed _) => False | _ => True end.
Lemma keep_plain : forall c v o d, K o d v -> plain c -> exists v' r, w c v = (v', r) /\ K o d v'.
Proof.
  intros c [v es] o d H P. unfold w. rewrite log_call. destruct (w0 c v) as [v' r]. exists (v', es ++ [c ==> r]), r. split; [reflexivity|].
  unfold K. cbn [snd]. rewrite app_assoc. apply judged_other; [exact H|]. intros X. unfold is_turn in X. cbn [projT1] in X. destruct c as [| | | | | | | | | | | | | | |m]; auto; destruct m; auto.
Qed.
Ltac go c H v' r E H' := match type of H with K ?o ?d ?v => destruct (@keep_plain c v o d H Logic.I) as (v' & r & E & H') end.
Lemma skip_keep : forall a o d ids v, K o d v -> K o d (fst (skip_known w a ids v)).
Proof.
  intros a o d. induction ids as [|i ids IH]; intros v H; cbn [skip_known]; [exact H|].
  go (CHas i) H v1 r1 E1 H1. rewrite E1. cbn in r1. destruct r1 as [[|]| | |]; try exact H1.
  go (CLeash a) H1 v2 r2 E2 H2. rewrite E2. cbn in r2. destruct r2 as [j| | |]; try exact H2.
  destruct (id_eqb i j); [now apply IH|]. go (CMove i a) H2 v3 r3 E3 H3. rewrite E3. cbn in r3. destruct r3; try exact H3. now apply IH.
Qed.
Lemma ask_keep : forall i p o d v, K o d v -> K o d (fst (ask_from w i p v)).
Proof.
  intros i p o d v H. unfold ask_from. go (CLast i idsBatchSize) H v1 r1 E1 H1. rewrite E1. cbn in r1. destruct r1 as [[|j ids]| | |]; try exact H1.
  go (CAskIDs (pl_peer p) (j :: ids)) H1 v2 r2 E2 H2. rewrite E2. go CNow H2 v3 r3 E3 H3. rewrite E3. exact H3.
Qed.
Lemma ids_keep : forall p o d v, K o d v -> K o d (fst (request_ids w p v)).
Proof.
  intros p o d v H. unfold request_ids. go (CLeash (pl_peer p)) H v1 r1 E1 H1. rewrite E1. cbn in r1. destruct r1; try exact H1. now apply ask_keep.
Qed.
Lemma lca_keep : forall p o d v, K o d v -> K o d (fst (request_ids_from_lca w p v)).
Proof.
  intros p o d v H. unfold request_ids_from_lca. go (CLcb (pl_peer p)) H v1 r1 E1 H1. rewrite E1. cbn in r1. destruct r1; try exact H1. now apply ask_keep.
Qed.
Let E (u : held * (V * list event)) : Prop := True.
Lemma keeps : forall a A (u : held * (V * list event)) (r : outcome A), Ku a u -> post (Ku a) E u r.
Proof. intros a A u r H. destruct r; [left|left|right|right]; (split; [exact H || exact Logic.I|]); cbn; auto. Qed.
Lemma ok_keep : forall a h v, K (whom a (h_pl h)) (h_prev h) v -> let (u', r) := loader_ok w a Idle h v in post (Ku a) E u' r.
Proof.
  intros a h [v es] H. unfold loader_ok. destruct (h_pl h) eqn:HP0; [|apply keeps; unfold Ku; cbn [fst snd]; now rewrite HP0]. cbn [whom] in H. cbv zeta. cbn [h_prev].
  unfold w. rewrite log_call. destruct (w0 (CPeer a) v) as [v1 r1]. cbn in r1.
  assert (HP : forall r, judged (es0 ++ es ++ [CPeer a ==> r]) (Some a) (h_prev h)) by (intros r; rewrite app_assoc; apply judged_other; [exact H|intros []]).
  destruct r1 as [sc|e| |]; try (right; split; [exact Logic.I|cbn; tauto]).
  - rewrite log_call. destruct (w0 (CScore a) v1) as [v2 r2]. cbn in r2. destruct r2 as [q|e| |]; try (right; split; [exact Logic.I|cbn; tauto]).
    + destruct sc as [s|]; [|right; split; [exact Logic.I|cbn; tauto]]. destruct (is_lagging (h_prev h) s q) as [diff lag] eqn:L.
      assert (LD : diff = (s - q)%Z /\ (lag = true <-> (q < s)%Z /\ h_prev h <> Some (s - q)%Z)).
      { unfold is_lagging in L. injection L as <- <-. split; [reflexivity|]. destruct (h_prev h) as [d|]; [|split; [intros; split; [lia|discriminate]|lia]].
        rewrite andb_true_iff, negb_true_iff, Z.eqb_neq, Z.ltb_lt. split; intros [A B]; (split; [exact A|]); [intros X; injection X as ->; now apply B|intros ->; now apply B]. }
      destruct LD as [-> LD]. destruct lag; rewrite log_call.
      * destruct (w0 (CLog (LStill a)) v2) as [v3 []]. left. split; [|exact Logic.I]. unfold Ku, K. cbn [fst snd h_prev h_pl whom]. rewrite <- !app_assoc. cbn [app]. rewrite app_assoc.
        destruct (proj1 LD eq_refl) as [A B]. now apply judged_on with (d := h_prev h).
      * destruct (w0 (CLog (LNoMore a)) v2) as [v3 []]. left. split; [|exact Logic.I]. unfold Ku, K. cbn [fst snd h_prev h_pl whom]. rewrite <- !app_assoc. cbn [app]. rewrite app_assoc.
        apply judged_off with (d := h_prev h); [exact H|]. destruct (Z.le_gt_cases s q) as [G|G]; [now left|right]. destruct (h_prev h) as [d|]; [|exfalso; assert (X : false = true) by (apply LD; split; [lia|discriminate]); discriminate].
        destruct (Z.eq_dec d (s - q)%Z) as [->|N]; [reflexivity|]. exfalso. assert (X : false = true) by (apply LD; split; [lia|congruence]). discriminate.
    + rewrite log_call. destruct (w0 (CLog (LNoScore a)) v2) as [v3 []]. left. split; [|exact Logic.I]. unfold Ku, K. cbn [fst snd h_prev h_pl whom].
      rewrite app_assoc. apply judged_other; [rewrite app_assoc; apply judged_other; [apply HP|intros []]|intros []].
  - rewrite log_call. destruct (w0 (CLog (LNoPeer a)) v1) as [v3 []]. left. split; [|exact Logic.I]. unfold Ku, K. cbn [fst snd h_prev h_pl whom].
    rewrite app_assoc. apply judged_other; [apply HP|intros []].
Qed.
Lemma keep_safe : forall a, safe_calls (inner w) a (Ku a) E (fun _ => True) (fun _ => True).
Proof.
  intros a. constructor.
  - intros b [h v] H _. change (K (whom a (h_pl h)) (h_prev h) v) in H. cbn [inner fst snd]. go (CPut b a) H v1 r1 E1 H1. rewrite E1. now apply keeps.
  - intros i [h v] H. change (K (whom a (h_pl h)) (h_prev h) v) in H. cbn [inner fst snd]. go (CAskBlock a i) H v1 r1 E1 H1. rewrite E1. exact H1.
  - intros [h v] H. change (K (whom a (h_pl h)) (h_prev h) v) in H. cbn [inner fst snd]. go CNow H v1 r1 E1 H1. rewrite E1. exact H1.
  - intros [h v] H. exact (@ok_keep a h v H).
  - intros [h v] H. change (K (whom a (h_pl h)) (h_prev h) v) in H. cbn [inner fst snd]. unfold loader_fail. destruct (h_pl h) eqn:HP0; [|apply keeps; unfold Ku; cbn [fst snd]; now rewrite HP0].
    destruct v as [v es]. unfold w. rewrite log_call. destruct (w0 (CLog (LFailed a)) v) as [v1 []]. apply keeps. unfold Ku, K. cbn [fst snd h_prev h_pl whom].
    rewrite app_assoc. exact (judged_fail H).
  - intros ids [h v] H F. change (K (whom a (h_pl h)) (h_prev h) v) in H. rewrite skip_known_inner. pose proof (@skip_keep a _ _ ids v H) as G. destruct (skip_known w a ids v) as [v' r]. now apply keeps.
  - intros p [h v] H P. change (K (whom a (h_pl h)) (h_prev h) v) in H. rewrite ids_inner. pose proof (@ids_keep p _ _ v H) as G. destruct (request_ids w p v) as [v' [p' r]]. now apply keeps.
  - intros p [h v] H P. change (K (whom a (h_pl h)) (h_prev h) v) in H. rewrite lca_inner. pose proof (@lca_keep p _ _ v H) as G. destruct (request_ids_from_lca w p v) as [v' [p' r]]. now apply keeps.
Qed.
Definition settled (l : loader) : Prop := forall p, busy l p -> pl_triggers p = [].
Lemma any_items : forall q, items_ok (fun _ => True) q.
Proof. intros q. apply Forall_forall. intros it _. destruct (it_rcv it); exact Logic.I. Qed.
Lemma any_trig : forall t, trig_ok (fun _ => True) (fun _ => True) t.
Proof. intros t. destruct t; try exact Logic.I; [|destruct b; exact Logic.I]. apply Forall_forall. auto. Qed.
Let KL (l : loader) (v : V * list event) : Prop := K (option_map pl_peer (l_pl l)) (l_prev l) v.
Lemma drive_judged : forall t p l v, K (Some (pl_peer p)) (l_prev l) v -> pl_triggers p = [] -> t <> EQueueReady -> t <> ETimeout ->
  let '((l', v'), r) := drive w t p l v in settled l' /\ (returned r -> KL l' v').
Proof.
  intros t p l v H T N1 N2. destruct (drive w t p l v) as [[l' v'] r] eqn:D. destruct (drive_at D T N1 N2) as [_ DA].
  split; [intros q B; now destruct (DA q B)|].
  unfold drive in D. set (h := {| h_pl := true; h_prev := l_prev l; h_fc := l_fc l; h_ticker := l_ticker l |}) in D.
  assert (HI : Ku (pl_peer p) (h, v)) by exact H. pose proof (fire_rule (keep_safe (pl_peer p)) HI eq_refl T (any_trig t) (any_items _)) as F.
  destruct (fire (inner w) t p (h, v)) as [[h1 v1] [p1 r1]]. destruct F as [F1 _]. injection D as <- <- <-. intros R. pose proof (post_inv F1 R) as X.
  unfold Ku in X. cbn [fst snd] in X. unfold KL. cbn [l_pl l_prev] in *. destruct (h_pl h1); cbn [option_map whom] in *; [|exact X].
  destruct (DA p1 eq_refl) as (_ & -> & _). exact X.
Qed.
Lemma begin_judged : forall a l v, K (Some a) (l_prev l) v -> let '((l', v'), r) := begin_sync w a l v in settled l' /\ (returned r -> KL l' v').
Proof.
  intros a l v H. unfold begin_sync. destruct (Nat.leb _ _).
  - cbv zeta. go (CLog (LRestart a)) H v1 r1 E1 H1. rewrite E1. cbn [fst].
    pose proof (@drive_judged ERestart (new_ploader a) (with_pl l (new_ploader a) (fc_reset (l_fc l) a)) v1 H1 eq_refl ltac:(discriminate) ltac:(discriminate)) as D.
    destruct (drive w ERestart _ _ v1) as [[l2 v2] r2]. destruct D as [D1 D2]. unfold KL in D2.
    destruct r2 as [u|e| |]; try (split; [exact D1|cbn; tauto]); specialize (D2 Logic.I); (destruct (l_pl l2) as [p|] eqn:B; [|split; [exact D1|cbn; tauto]]);
      apply drive_judged; auto; discriminate.
  - apply drive_judged; auto; discriminate.
Qed.
Lemma lagging_judged : forall cs o d v, K o d v -> K o d (fst (find_lagging w cs v)).
Proof.
  induction cs as [|[a [s|]] cs IH]; intros o d v H; cbn [find_lagging]; auto.
  go (CScore a) H v1 r1 E1 H1. rewrite E1. cbn in r1. specialize (IH o d v1 H1). destruct r1; auto.
  destruct (find_lagging w cs v1) as [v2 [lag| | |]]; exact IH.
Qed.
Lemma step_judged : forall i l v, KL l v -> settled l -> let '((l', v'), r) := loader_step w i l v in settled l' /\ (returned r -> KL l' v').
Proof.
  intros i l v H S.
  assert (RS : forall (f : loader -> loader) (m : (loader * (V * list event)) * outcome unit), (forall l, l_pl (f l) = l_pl l /\ l_prev (f l) = l_prev l) ->
    (let '((l', v'), r) := m in settled l' /\ (returned r -> KL l' v')) ->
    let '((l', v'), r) := (let (p, r) := m in let (l1, v1) := p in match r with Panic => ((l1, v1), Panic) | Diverge => ((l1, v1), Diverge) | _ => ((f l1, v1), r) end) in
    settled l' /\ (returned r -> KL l' v')).
  { intros f [[l1 v1] r] Q [M1 M2]. destruct (Q l1) as [Q1 Q2]. assert (settled (f l1)) by (intros p B; apply M1; unfold busy in *; now rewrite Q1 in B).
    unfold KL in *. destruct r; auto; rewrite Q1, Q2; auto. }
  assert (ST : forall l', l_pl l' = l_pl l -> settled l') by (intros l' Q p B; apply S; unfold busy in *; congruence).
  destruct i as [a ids|a b| |]; cbn [loader_step].
  - unfold handle_ids. destruct (l_pl l) as [p|] eqn:B; [|auto]. destruct ids as [|i ids]; [auto|]. destruct (addr_eqb a (pl_peer p)) eqn:A; [|auto].
    unfold KL in H. rewrite B in H. apply drive_judged; auto; discriminate.
  - unfold handle_block. destruct (l_pl l) as [p|] eqn:B; [|auto]. destruct (addr_eqb a (pl_peer p)) eqn:A; [|auto].
    unfold KL in H. rewrite B in H. apply drive_judged; auto; discriminate.
  - apply (RS reset_ticker); [split; reflexivity|]. unfold loader_tick. cbn [stop_ticker l_pl]. destruct (l_pl l) as [p|] eqn:B; [|split; [apply ST; exact B|intros _; exact H]].
    unfold KL in H. rewrite B in H. cbn [option_map] in H. go CNow H v1 r1 E1 H1. rewrite E1. apply drive_judged; auto; discriminate.
  - apply (RS reset_timer); [split; reflexivity|]. unfold loader_sync. cbn [stop_timer l_pl]. destruct (l_pl l) as [p|] eqn:B; [split; [apply ST; exact B|intros _; exact H]|].
    assert (N : settled (stop_timer l)) by (apply ST; exact B).
    assert (KN : forall x, K None (l_prev l) x -> KL (stop_timer l) x) by (intros x X; unfold KL; cbn [stop_timer l_pl l_prev]; now rewrite B).
    unfold KL in H. rewrite B in H. cbn [option_map] in H.
    go CConns H v1 r1 E1 H1. rewrite E1. cbn in r1. destruct r1 as [[|c cs]| | |]; auto.
    pose proof (@lagging_judged (c :: cs) _ _ _ H1) as H2. destruct (find_lagging w (c :: cs) v1) as [v2 [[|a lag]| | |]]; cbn [fst] in H2; auto.
    destruct v2 as [v2 es2]. unfold w. rewrite log_call. destruct (w0 (CPick (length (a :: lag))) v2) as [v3 k].
    destruct (nth_error (a :: lag) k) as [b|]; [|split; [auto|cbn; tauto]]. apply begin_judged. unfold K. cbn [snd]. rewrite app_assoc. exact (judged_begin k b H2).
Qed.
End Verdicts.
Lemma session_judged : forall V (w : world V) l es, session w l es -> settled l /\ judged es (option_map pl_peer (l_pl l)) (l_prev l).
Proof.
  intros V w l es SS. induction SS as [|l es i v l' v' new r SS [IH1 IH2] E R].
  - split; [intros p B; discriminate|constructor].
  - pose proof (@step_judged _ w es i l (v, [])) as J. cbn [snd] in J. rewrite app_nil_r in J. specialize (J IH2 IH1). rewrite E in J. destruct J as [J1 J2]. split; [exact J1|exact (J2 R)].
Qed.

Lemma lagging_lags : forall V (w : world V) cs v es v' es' lag, find_lagging (logging w) cs (v, es) = ((v', es'), Ok lag) ->
  exists new, es' = es ++ new /\ lags cs new lag.
Proof.
  intros V w. induction cs as [|[a [s|]] cs IH]; intros v es v' es' lag E; cbn [find_lagging] in E.
  - injection E as _ <- <-. exists []. split; [now rewrite app_nil_r|constructor].
  - rewrite log_call in E. destruct (w (CScore a) v) as [v1 r1]. cbn in r1. destruct r1 as [q|e| |]; try discriminate.
    + destruct (find_lagging (logging w) cs (v1, es ++ [CScore a ==> Ok q])) as [[v2 es2] r2] eqn:F. destruct r2 as [lag2| | |]; try discriminate.
      injection E as _ <- <-. destruct (IH _ _ _ _ _ F) as (new & -> & L). exists ((CScore a ==> Ok q) :: new). rewrite <- app_assoc. split; [reflexivity|].
      destruct (q <? s)%Z eqn:Q; [apply lags_ahead|apply lags_level]; auto; lia.
    + destruct (IH _ _ _ _ _ E) as (new & -> & L). exists ((CScore a ==> Err e) :: new). rewrite <- app_assoc. split; [reflexivity|now constructor].
  - destruct (IH _ _ _ _ _ E) as (new & -> & L). exists new. split; [reflexivity|now constructor].
Qed.
Lemma lagging_no_error : forall V (w : world V) cs v v' e, find_lagging w cs v = (v', Err e) -> False.
Proof.
  intros V w. induction cs as [|[a [s|]] cs IH]; intros v v' e E; cbn [find_lagging] in E; [discriminate| |now apply IH in E].
  destruct (w (CScore a) v) as [v1 [q|e1| |]]; try discriminate; [|now apply IH in E].
  destruct (find_lagging w cs v1) as [v2 [lag|e2| |]] eqn:F; try discriminate. now apply IH in F.
Qed.

(** * Reading the record backwards *)

Lemma judged_back_other : forall es o d e, judged (es ++ [e]) o d -> ~ is_turn e -> judged es o d.
Proof.
  intros es o d e J N. remember (es ++ [e]) as es' eqn:E. assert (C3 : forall (pre : list event) a b c, pre ++ [a; b; c] = (pre ++ [a; b]) ++ [c]) by (intros; now rewrite <- app_assoc).
  destruct J; try rewrite C3 in E; [destruct es; discriminate|..]; apply app_inj_tail in E as [<- <-]; auto; exfalso; apply N; exact Logic.I.
Qed.
Lemma judged_back_pick : forall es o d n k, judged (es ++ [CPick n ==> k]) o d -> judged es None d.
Proof.
  intros es o d n k J. remember (es ++ [CPick n ==> k]) as es' eqn:E. assert (C3 : forall (pre : list event) a b c, pre ++ [a; b; c] = (pre ++ [a; b]) ++ [c]) by (intros; now rewrite <- app_assoc).
  destruct J; try rewrite C3 in E; [destruct es; discriminate|..]; apply app_inj_tail in E as [<- E]; auto; try discriminate. subst. exfalso. now apply H.
Qed.
Lemma judged_back_nomore : forall es o d a, judged (es ++ [CLog (LNoMore a) ==> tt]) o d -> d = None /\ exists es' s q d',
  es = es' ++ [CPeer a ==> Ok (Some s); CScore a ==> Ok q] /\ judged es' (Some a) d' /\ ((s <= q)%Z \/ d' = Some (s - q)%Z).
Proof.
  intros es o d a J. remember (es ++ [CLog (LNoMore a) ==> tt]) as es' eqn:E. assert (C3 : forall (pre : list event) a b c, pre ++ [a; b; c] = (pre ++ [a; b]) ++ [c]) by (intros; now rewrite <- app_assoc).
  destruct J; try rewrite C3 in E; [destruct es; discriminate|..]; apply app_inj_tail in E as [<- E]; try discriminate.
  - injection E as <-. split; [reflexivity|]. exists es0, s, q, d. auto.
  - subst. exfalso. now apply H.
Qed.
Lemma judged_back_others : forall mid es o d, judged (es ++ mid) o d -> Forall (fun e => ~ is_turn e) mid -> judged es o d.
Proof.
  induction mid as [|e mid IH] using rev_ind; intros es o d J F; [now rewrite app_nil_r in J|]. apply Forall_app in F as [F1 F2].
  apply IH; auto. rewrite app_assoc in J. eapply judged_back_other; [exact J|now apply Forall_inv in F2].
Qed.
Lemma judged_prefix : forall post es o d, judged (es ++ post) o d -> exists o' d', judged es o' d'.
Proof.
  assert (B1 : forall es' o d, judged es' o d -> forall es e, es' = es ++ [e] -> exists o' d', judged es o' d').
  { intros es' o d J es e E. assert (C3 : forall (pre : list event) a b c, pre ++ [a; b; c] = (pre ++ [a; b]) ++ [c]) by (intros; now rewrite <- app_assoc).
    assert (P2 : forall pre o d a s q, judged pre o d -> judged (pre ++ [CPeer a ==> Ok (Some s); CScore a ==> Ok q]) o d).
    { intros pre o0 d0 a s q H. change [CPeer a ==> Ok (Some s); CScore a ==> Ok q] with ([CPeer a ==> Ok (Some s)] ++ [CScore a ==> Ok q]).
      rewrite app_assoc. apply judged_other; [|intros []]. apply judged_other; [exact H|intros []]. }
    destruct J; try rewrite C3 in E; [destruct es; discriminate|..]; apply app_inj_tail in E as [<- _]; eauto. }
  induction post as [|e post IH] using rev_ind; intros es o d J; [rewrite app_nil_r in J; eauto|]. rewrite app_assoc in J.
  destruct (B1 _ _ _ J _ _ eq_refl) as (o' & d' & J'). eapply IH; exact J'.
Qed.
(** The score in the result of a call. *)
Definition score_in (e : event) : option Z :=
  match e with
  | existT _ c r => match c return reply c -> option Z with
                    | CScore _ => fun r => match r with Ok q => Some q | _ => None end
                    | CPeer _ => fun r => match r with Ok (Some s) => Some s | _ => None end
                    | _ => fun _ => None
                    end r
  end.

(** * C81 *)

(** In every run of the loader, all decisions are right, the peer loaded from is the one of the record, and the difference of
    scores kept by the loader is the one remembered. *)
Theorem C81_decisions : forall V (w : world V) l es, session w l es -> judged es (option_map pl_peer (l_pl l)) (l_prev l).
Proof. intros V w l es SS. now destruct (session_judged SS). Qed.
Print Assumptions C81_decisions.
(** A synchronisation begins exactly if some connected peer has announced more than the score of its leash, and with one of
    these peers. *)
Theorem C81_choice : forall V (w : world V) l v l' v' new r, l_pl l = None ->
  loader_step (logging w) InSync l (v, []) = ((l', (v', new)), r) -> returned r ->
  (exists e, new = [CConns ==> Err e] /\ l_pl l' = None) \/
  exists cs scs lag, lags cs scs lag /\
    match lag with
    | [] => new = (CConns ==> Ok cs) :: scs /\ l_pl l' = None
    | _ => exists k p rest, nth_error lag k = Some (pl_peer p) /\ busy l' p /\ pl_state p = WaitIDs /\
             new = (CConns ==> Ok cs) :: scs ++ (CPick (length lag) ==> k) :: rest
    end.
Proof.
  intros V w l v l' v' new r B E R. cbn [loader_step] in E. unfold loader_sync in E. cbn [stop_timer l_pl] in E. rewrite B in E.
  rewrite log_call in E. destruct (w CConns v) as [v1 [cs|e| |]] eqn:E1; try (injection E as _ _ _ <-; destruct R; fail).
  2: { injection E as <- <- <- <-. left. exists e. auto. }
  right. destruct cs as [|c cs]. { injection E as <- <- <- <-. exists [], [], []. split; [constructor|]. auto. }
  destruct (find_lagging_log w (c :: cs) v1 ([] ++ [CConns ==> Ok (c :: cs)])) as (v2 & n2 & r2 & E2 & F2 & NE). cbn [app] in E, E2. rewrite E2 in E.
  destruct r2 as [lag|e| |]; try (injection E as _ _ _ <-; destruct R; fail).
  2: { exfalso. exact (lagging_no_error E2). }
  destruct (lagging_lags E2) as (n3 & X & L). cbn [app] in X. apply (@app_inv_head _ [CConns ==> Ok (c :: cs)]) in X. subst n3.
  exists (c :: cs), n2, lag. split; [exact L|]. destruct lag as [|a lag]. { injection E as <- <- <- <-. auto. }
  rewrite log_call in E. destruct (w (CPick (length (a :: lag))) v2) as [v3 k] eqn:E3.
  destruct (nth_error (a :: lag) k) as [x|] eqn:NX; [|injection E as _ _ _ <-; destruct R].
  destruct (begin_sync (logging w) x (stop_timer l) _) as [[l1 [v4 es4]] r1] eqn:D.
  assert (RR : returned r1) by (destruct r1; try exact Logic.I; exfalso; injection E as _ _ _ <-; exact R).
  destruct (begin_held D RR) as (p' & pre & y & post & LP & P & S & ES & _ & _).
  assert (Q : l_pl l' = Some p' /\ new = es4) by (destruct r1; try contradiction; injection E as <- <- <- <-; auto). destruct Q as [Q1 Q2].
  exists k, p'. rewrite P. rewrite Q2, ES. eexists. split; [exact NX|]. split; [exact Q1|]. split; [exact S|].
  cbn [app]. rewrite <- !app_assoc. cbn [app]. reflexivity.
Qed.
Print Assumptions C81_choice.
(** The first batch of a synchronisation is the last one only if the peer has nothing more to offer, provided that the
    synchronisation before was not ended by a timeout. *)
Theorem C81_first_batch_partial : forall V (w : world V) l es pre n k mid a s q post, session w l es ->
  es = pre ++ (CPick n ==> k) :: mid ++ [CPeer a ==> Ok (Some s); CScore a ==> Ok q; CLog (LNoMore a) ==> tt] ++ post ->
  Forall (fun e => ~ is_turn e) mid ->
  (Forall (fun e => ~ is_turn e) pre \/ exists b pre1 pre2, pre = pre1 ++ (CLog (LNoMore b) ==> tt) :: pre2 /\ Forall (fun e => ~ is_turn e) pre2) ->
  (s <= q)%Z.
Proof.
  intros V w l es pre n k mid a s q post SS -> F P. pose proof (proj2 (session_judged SS)) as J.
  replace (pre ++ (CPick n ==> k) :: mid ++ [CPeer a ==> Ok (Some s); CScore a ==> Ok q; CLog (LNoMore a) ==> tt] ++ post)
    with (((((pre ++ [CPick n ==> k]) ++ mid) ++ [CPeer a ==> Ok (Some s); CScore a ==> Ok q]) ++ [CLog (LNoMore a) ==> tt]) ++ post) in J by (now rewrite <- !app_assoc).
  destruct (judged_prefix J) as (o1 & d1 & J1). destruct (judged_back_nomore J1) as (_ & es' & s' & q' & d' & E & J2 & V2).
  change [CPeer a ==> Ok (Some s); CScore a ==> Ok q] with ([CPeer a ==> Ok (Some s)] ++ [CScore a ==> Ok q]) in E.
  change [CPeer a ==> Ok (Some s'); CScore a ==> Ok q'] with ([CPeer a ==> Ok (Some s')] ++ [CScore a ==> Ok q']) in E. rewrite !app_assoc in E.
  apply app_inj_tail in E as [E Q]. apply app_inj_tail in E as [E S]. apply (f_equal score_in) in Q, S. cbn in Q, S. injection Q as <-. injection S as <-. subst es'.
  apply judged_back_others in J2; [|exact F]. apply judged_back_pick in J2.
  assert (D : d' = None).
  { destruct P as [P|(b & pre1 & pre2 & -> & P)].
    - apply (@judged_back_others pre []) in J2; auto. remember [] as z eqn:Z. destruct J2; auto; exfalso; destruct es; discriminate.
    - change (pre1 ++ (CLog (LNoMore b) ==> tt) :: pre2) with (pre1 ++ [CLog (LNoMore b) ==> tt] ++ pre2) in J2. rewrite app_assoc in J2.
      apply judged_back_others in J2; auto. now destruct (judged_back_nomore J2). }
  subst d'. destruct V2 as [V2|V2]; [exact V2|discriminate].
Qed.
Print Assumptions C81_first_batch_partial.
(** The proviso is needed: a difference is not forgotten at a timeout (loader.go:152-158). Peer [pa] sends a batch and then
    nothing more. The next peer, [pb], has announced the same score, and has its leash moved to the same block: the loading
    ends after the first batch, though [pb] is far ahead. *)
Definition zins : list input := yins ++ [InIDs pb [xid 0; xid 1; xid 2]].
Definition zlog : list event := snd (snd (fst (feeds (logging xw) zins new_loader (yreal, [])))).
Definition score_at (n : nat) : Z := match nth_error zlog n with Some e => match score_in e with Some q => q | None => 0%Z end | None => 0%Z end.
Definition turnb (e : event) : bool := match projT1 e with CPick _ | CLog (LStill _) | CLog (LNoMore _) | CLog (LFailed _) => true | _ => false end.
Lemma turnb_ok : forall es, forallb (fun e => negb (turnb e)) es = true -> Forall (fun e => ~ is_turn e) es.
Proof.
  intros es H. apply Forall_forall. intros e I T. rewrite forallb_forall in H. apply H in I. apply negb_true_iff in I. unfold turnb in I. unfold is_turn in T.
  destruct (projT1 e) as [| | | | | | | | | | | | | | |m]; try contradiction; try discriminate. destruct m; try contradiction; discriminate.
Qed.
Lemma zlog_read : zlog = firstn 29 zlog ++ (CPick 2 ==> 1) :: firstn 12 (skipn 30 zlog) ++
  [CPeer pb ==> Ok (Some (10 ^ 40)%Z); CScore pb ==> Ok (score_at 43); CLog (LNoMore pb) ==> tt].
Proof. vm_compute. reflexivity. Qed.
Theorem C81_first_batch_refuted : exists x0 ins l x es, sound xcfg xg x0 /\ moved_well xg x0 /\ (forall a, undisturbed a x0) /\ no_faults x0 /\
  Forall wf_input ins /\ feeds (logging xw) ins new_loader (x0, []) = ((l, (x, es)), Ok tt) /\
  exists pre n k mid a s q i, es = pre ++ (CPick n ==> k) :: mid ++ [CPeer a ==> Ok (Some s); CScore a ==> Ok q; CLog (LNoMore a) ==> tt] /\
    Forall (fun e => ~ is_turn e) mid /\ In (CMove i a ==> Ok tt) mid /\ (q < s)%Z /\ l_pl l = None.
Proof.
  pose (y := fst (feeds (logging xw) zins new_loader (yreal, []))). exists yreal, zins, (fst y), (fst (snd y)), zlog.
  split; [exact yreal_sound|]. split; [intros l0 _; exact Logic.I|].
  split. { intros a. apply Forall_app. split; [apply Forall_forall; intros e I; apply repeat_spec in I; now subst|]. repeat constructor; intros i; discriminate. }
  split; [constructor|]. split; [apply wf_inputs; vm_compute; reflexivity|]. split; [vm_compute; reflexivity|].
  exists (firstn 29 zlog), 2, 1, (firstn 12 (skipn 30 zlog)), pb, (10 ^ 40)%Z, (score_at 43), (xid 2).
  split; [exact zlog_read|]. split; [apply turnb_ok; vm_compute; reflexivity|]. split; [|split; vm_compute; reflexivity].
  assert (N : nth_error (firstn 12 (skipn 30 zlog)) 11 = Some (CMove (xid 2) pb ==> Ok tt)) by (vm_compute; reflexivity). exact (nth_error_In _ _ N).
Qed.
Print Assumptions C81_first_batch_refuted.
(** After the batch of [pa] the loading goes on and the difference is kept; it is still there after the timeout, and gone
    after the verdict about [pb]. A peer at its announced score is not loaded from. *)
Example C81_example :
  let at_ n := fst (fst (feeds xw (firstn n zins) new_loader yreal)) in
  (l_prev (at_ 3), l_prev (at_ 5), l_prev (at_ 6), l_prev (at_ 7)) =
    (None, Some (10 ^ 40 - score_at 43)%Z, Some (10 ^ 40 - score_at 43)%Z, None) /\
  option_map pl_peer (l_pl (at_ 4)) = Some pa /\ l_pl (at_ 5) = None /\ option_map pl_peer (l_pl (at_ 6)) = Some pb /\ l_pl (at_ 7) = None.
Proof. vm_compute. repeat split; reflexivity. Qed.
(** The peer has announced just the score of its leash: nothing is loaded from it, and the session with it ends. *)
Definition level : world unit := fun c _ =>
  (tt, match c return reply c with
       | CLeash _ => Ok (xid 0) | CLcb _ => Ok (xid 0) | CLast _ _ => Ok [xid 0] | CHas _ => Ok true | CMove _ _ => Ok tt | CPut _ _ => Ok tt
       | CAskIDs _ _ => tt | CAskBlock _ _ => tt | CNow => 0%Z | COk _ _ => Ok false | CFail _ _ => Ok tt | CScore a => if addr_eqb a pa then Ok 7%Z else Ok 9%Z
       | CPeer _ => Ok (Some 9%Z) | CConns => Ok [(pa, Some 7%Z); (pme, None); (pb, Some 10%Z)] | CPick n => 0 | CLog _ => tt
       end).
Example C81_choice_example :
  let y := feeds (logging level) [InSync; InIDs pb [xid 0]] new_loader (tt, []) in
  l_pl (fst (fst y)) = None /\ In (CPick 1 ==> 0) (snd (snd (fst y))) /\ In (CLog (LNoMore pb) ==> tt) (snd (snd (fst y))) /\
  lags [(pa, Some 7%Z); (pme, None); (pb, Some 10%Z)] [CScore pa ==> Ok 7%Z; CScore pb ==> Ok 9%Z] [pb].
Proof.
  split; [vm_compute; reflexivity|]. split; [vm_compute; auto|]. split; [vm_compute; repeat (try (left; reflexivity); right)|].
  apply lags_level; [lia|]. apply lags_mute. apply lags_ahead; [lia|]. constructor.
Qed.
