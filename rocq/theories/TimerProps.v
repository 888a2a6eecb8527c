(** The timers of the loader in the running process (C86): loader.go:97-117, 160-183, 233-247. *)
From Verif Require Import Base Kv ChainModel ChainSpec ChainExample PeersModel PeersSpec PeersProofs PeersCalls PeersProps LoadModel LoadSpec LoadProofs LoadRule LoadFire LoadLoop LoadProps
  NetModel NetSpec NetProps WholeModel WholeSpec WholeProofs WholeProps DeliverProps StallProps.
Set Implicit Arguments.
Unset Strict Implicit.

(** The loader has chosen a peer to synchronise with. *)
Definition chosen (es : list event) : Prop := exists n k, In (CPick n ==> k) es.
Lemma no_choice : forall es, Forall (fun e : event => forall n, projT1 e <> CPick n) es -> ~ chosen es.
Proof. intros es F (n & k & I). rewrite Forall_forall in F. exact (F _ I n eq_refl). Qed.
Lemma step_ticker : forall V (w : world V) i l v l' v' new r, loader_step (logging w) i l (v, []) = ((l', (v', new)), r) -> returned r ->
  busy_ticker l -> (i = InTick -> l_ticker l = true) -> (l_ticker l' = true <-> l_ticker l = true \/ chosen new).
Proof.
  intros V w i l v l' v' new r E R BT TK.
  assert (NO : ~ chosen []) by (apply no_choice; constructor).
  assert (DR : forall t p, l_pl l = Some p -> drive (logging w) t p l (v, []) = ((l', (v', new)), r) -> (l_ticker l' = true <-> l_ticker l = true \/ chosen new)).
  { intros t p B D. destruct (drive_tracks D R) as (T & _). assert (X : l_ticker l = true) by (apply BT; rewrite B; discriminate). split; [now left|]. auto. }
  assert (ID : ((l, (v, [])), Ok tt) = ((l', (v', new)), r) -> (l_ticker l' = true <-> l_ticker l = true \/ chosen new)).
  { intros [= <- <- <- <-]. tauto. }
  destruct i as [a ids|a b| |]; cbn [loader_step] in E.
  - unfold handle_ids in E. destruct (l_pl l) as [p|] eqn:B; [|now apply ID]. destruct ids; [now apply ID|]. destruct (addr_eqb _ _); [|now apply ID]. eapply DR; eauto.
  - unfold LoadModel.handle_block in E. destruct (l_pl l) as [p|] eqn:B; [|now apply ID]. destruct (addr_eqb _ _); [|now apply ID]. eapply DR; eauto.
  - specialize (TK eq_refl). split; [now left|]. intros _. destruct (loader_tick (logging w) (stop_ticker l) (v, [])) as [[l1 z] r1]. destruct r1; injection E as <- _ <-; try contradiction; reflexivity.
  - clear DR ID. unfold loader_sync in E. cbn [stop_timer l_pl] in E. destruct (l_pl l) as [p|] eqn:B; [injection E as <- <- <- <-; cbn [reset_timer stop_timer l_ticker]; tauto|].
    rewrite log_call in E. destruct (w CConns v) as [v1 [cs|e| |]] eqn:E1.
    3-4: injection E as _ _ _ <-; destruct R.
    2: { injection E as <- <- <- <-. cbn [reset_timer stop_timer l_ticker]. assert (X : ~ chosen [CConns ==> Err e]) by (apply no_choice; repeat constructor; discriminate). cbn [app]. tauto. }
    destruct cs as [|c cs].
    { injection E as <- <- <- <-. cbn [reset_timer stop_timer l_ticker app]. assert (X : ~ chosen [CConns ==> Ok []]) by (apply no_choice; repeat constructor; discriminate). tauto. }
    destruct (@find_lagging_log _ w (c :: cs) v1 ([] ++ [CConns ==> Ok (c :: cs)])) as (v2 & n2 & r2 & E2 & F2 & _). cbn [app] in E, E2. rewrite E2 in E.
    assert (X : ~ chosen ((CConns ==> Ok (c :: cs)) :: n2)).
    { apply no_choice. constructor; [discriminate|]. eapply Forall_impl; [|exact F2]. cbn. intros e [a ->] n. discriminate. }
    destruct r2 as [lag|e| |]; try (injection E as _ _ _ <-; destruct R; fail).
    2: { injection E as <- <- <- <-. cbn [reset_timer stop_timer l_ticker]. tauto. }
    destruct lag as [|a lag]; [injection E as <- <- <- <-; cbn [reset_timer stop_timer l_ticker]; tauto|].
    rewrite log_call in E. destruct (w (CPick (length (a :: lag))) v2) as [v3 k] eqn:E3.
    destruct (nth_error (a :: lag) k) as [x|] eqn:NE; [|injection E as _ _ _ <-; destruct R].
    destruct (begin_sync (logging w) x (stop_timer l) _) as [[l1 [v4 es4]] r1] eqn:D.
    assert (RR : returned r1) by (destruct r1; try exact Logic.I; exfalso; injection E as _ _ _ <-; exact R).
    destruct (begin_tracks D RR) as (T & n & EQ & _). split; [|intros _; destruct r1; try contradiction; injection E as <- _ _ _; exact T].
    intros _. right. exists (length (a :: lag)), k. assert (EN : new = es4) by (destruct r1; try contradiction; now injection E as _ _ <- _). rewrite EN, EQ.
    apply in_or_app. left. apply in_or_app. right. now left.
Qed.

Section Timers.
Variable cfg : config.
Variable g : pblock.
Variable ord : list group -> list group.
Variable cord : list (addr * conn) -> list (addr * conn).
Variable srt : list Peer -> list Peer.
Notation tstep := (turn_step cfg g ord cord srt).
Notation process := (process cfg g ord cord srt).
Definition wound (l : loader) (v : whole) : Prop := busy_ticker l /\ (l_ticker l = true <-> chosen (o_calls v)).
Lemma chosen_app : forall a b, chosen (a ++ b) <-> chosen a \/ chosen b.
Proof.
  intros a b. split.
  - intros (n & k & I). apply in_app_or in I as [I|I]; [left|right]; now exists n, k.
  - intros [(n & k & I)|(n & k & I)]; exists n, k; apply in_or_app; auto.
Qed.
Lemma handling_wound : forall i l v ms l' v' r, handling cfg g ord cord srt i l v ms = ((l', v'), r) -> returned r -> (i = InTick -> l_ticker l = true) -> wound l v -> wound l' v'.
Proof.
  intros i l v ms l' v' r E R TK [BT W]. destruct (handling_session E) as (new & CE & u & u' & LS). split; [exact (proj1 (step_tracks LS R) BT)|].
  rewrite CE, (step_ticker LS R BT TK), chosen_app, W. reflexivity.
Qed.
Lemma process_wound : forall ts l v l' v', wound l v -> process l v ts = ((l', v'), Ok tt) -> wound l' v'.
Proof.
  induction ts as [|t ts IH]; intros l v l' v' W E; cbn [WholeModel.process] in E; [injection E as <- <-; exact W|].
  assert (T : forall l1 v1 r1, tstep l v t = ((l1, v1), r1) -> returned r1 -> wound l1 v1).
  { intros l1 v1 r1 Q RR. assert (ID : ((l, v), Ok tt) = ((l1, v1), r1) -> wound l1 v1) by (intros [= <- <- _]; exact W).
    destruct t as [m|ms|ms|ms]; cbn [turn_step] in Q.
    - injection Q as <- <- _. unfold wound. now destruct (move_grow cfg g cord srt v m) as [_ ->].
    - destruct (l_timer l); [|auto]. eapply handling_wound; eauto. discriminate.
    - destruct (l_ticker l) eqn:TK; [|auto]. eapply handling_wound; eauto.
    - destruct (o_dist v) as [|p|]; auto. eapply (@handling_wound (input_of p) l (set_dist v DSelect)); eauto. destruct p; discriminate. }
  destruct (tstep l v t) as [[l1 v1] r1]. specialize (T _ _ _ eq_refl).
  destruct r1; try discriminate E; (destruct (o_dead v1); [discriminate E|]; apply (IH l1 v1 l' v'); auto; apply T; exact Logic.I).
Qed.
End Timers.

(** The timer of the timeouts does not run before the loader has chosen its first peer; from then on it always runs, also when there is no current
    peer. *)
Theorem C86_ticker : forall cfg g ord cord srt x ts l v, process cfg g ord cord srt new_loader (begun x) ts = ((l, v), Ok tt) ->
  (l_ticker l = true <-> exists n k, In (CPick n ==> k) (o_calls v)).
Proof.
  intros cfg g ord cord srt x ts l v E. apply (@process_wound cfg g ord cord srt ts new_loader (begun x) l v); [|exact E].
  split; [intros N; now contradiction N|]. split; [discriminate|]. intros (n & k & []).
Qed.
Print Assumptions C86_ticker.

Example C86_ticker_example : l_ticker new_loader = false /\ l_ticker (loader_of (firstn 3 busy_day)) = false /\ l_ticker (loader_of busy_day) = true /\ l_pl (loader_of busy_day) = None.
Proof. vm_compute. auto. Qed.
