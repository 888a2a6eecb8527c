(** An answer that reaches the distributor in the middle of a turn of the loader: the turn ends in the state in which it ends when the
    answer comes directly after it (C90). *)
From Verif Require Import Base Kv BytesFacts KvFacts ChainModel ChainSpec ChainTree ChainRep ChainStep ChainProofs PeersModel PeersSpec PeersProofs PeersCalls
  LoadModel LoadSpec LoadProofs LoadFire LoadSim LoadRule LoadReal LoadLeash LoadLift LoadTwo NetModel NetSpec NetProofs NetDist WholeModel WholeSpec WholeProofs WholeSource
  SyncSpec SyncProofs LockSpec HonestSpec HonestProofs.
Set Implicit Arguments.
Unset Strict Implicit.

(** An answer: a message that is sent on to the loader and does not change the registry. *)
Definition reply_message (msg : NetModel.message) : Prop :=
  match msg with MSignatures _ | MBlockIds _ | MBlock (Some _) | MPBBlock (Some _) => True | _ => False end.
Definition not_arrive (x : move) : bool := match x with VArrive _ _ => false | _ => true end.

Section Mid.
Variable cfg : config.
Variable g : pblock.
Variable ord : list group -> list group.
Variable cord : list (addr * conn) -> list (addr * conn).
Variable srt : list Peer -> list Peer.
Variable m : meaning.
Variable a : addr.
Notation mstep := (move_step cfg g cord srt).
Notation others := (WholeModel.others cfg g cord srt).
Notation ww := (whole_world cfg g ord cord srt).
Notation rw := (real_world cfg g ord cord srt).
Variable x : fate.
Variable from : link.
Variable msg : NetModel.message.
Hypothesis LA : ln_addr from = Some a.
Hypothesis RM : reply_message msg.
Notation arr := (VArrive x (AMessage from msg)).

Lemma arr_handle : exists F : linkage -> linkage * outcome (option package), forall d,
  handle cfg g srt cord x d (AMessage from msg) = ({| d_lk := fst (F (d_lk d)); d_reg := d_reg d |}, [], snd (F (d_lk d))).
Proof.
  assert (HB : forall b, exists F : linkage -> linkage * outcome (option package), forall d,
    NetModel.handle_block g x d from b = ({| d_lk := fst (F (d_lk d)); d_reg := d_reg d |}, [], snd (F (d_lk d)))).
  { intros b. exists (fun l => let (l', e) := exec g l (Put b a) (ft_fault x) in
      (l', match e with Ok _ | Err EParentNotFound => Ok (Some (PBlock a b)) | Err _ => Ok None | Panic => Panic | Diverge => Diverge end)).
    intros d. unfold NetModel.handle_block. rewrite LA. destruct (exec g (d_lk d) (Put b a) (ft_fault x)) as [l' e]. reflexivity. }
  destruct msg; try contradiction RM; cbn [handle handle_message handle_block_message];
    try (match goal with b : option pblock |- _ => destruct b; [apply HB|contradiction RM] end).
  - exists (fun l => (l, Ok (Some (PIDs a ids)))). intros [lk rg]. unfold handle_signatures. now rewrite LA.
  - exists (fun l => (l, match ids with [] => Ok None | _ => Ok (Some (PIDs a ids)) end)). intros [lk rg]. unfold handle_block_ids. rewrite LA. now destruct ids.
Qed.
Lemma arr_calls : exists ops, calls_of x (AMessage from msg) = map (fun o => HOp (fst o) (snd o)) ops.
Proof.
  cbn [calls_of]. rewrite LA. destruct msg; try contradiction RM; try (exists []; reflexivity);
    (match goal with b : option pblock |- _ => destruct b as [c|]; [exists [(Put c a, ft_fault x)]; reflexivity|contradiction RM] end).
Qed.
(** What the arrival does, when it leaves the linkage [lk] and the package [p]. *)
Definition marked (lk : linkage) (ops : list (op * option nat)) (p : package) (w : whole) : whole :=
  {| o_real := {| re_lk := lk; re_reg := re_reg (o_real w); re_now := re_now (o_real w); re_env := re_env (o_real w); re_faults := re_faults (o_real w);
                  re_rand := re_rand (o_real w); re_sent := re_sent (o_real w); re_lines := re_lines (o_real w); re_ops := re_ops (o_real w) ++ ops; re_rops := re_rops (o_real w) |};
     o_dist := DSending p; o_armed := o_armed w; o_dials := o_dials w; o_todo := o_todo w; o_dead := o_dead w; o_seen := o_seen w ++ [AMessage from msg]; o_calls := o_calls w |}.
Lemma arrives : forall w p, o_dead w = false -> o_dist w = DSelect -> o_dist (mstep w arr) = DSending p ->
  exists lk ops, forall w', o_dead w' = false -> o_dist w' = DSelect -> re_lk (o_real w') = re_lk (o_real w) -> mstep w' arr = marked lk ops p w'.
Proof.
  intros w p DE DS DP. destruct arr_handle as [F HF]. destruct arr_calls as [ops HC]. unfold move_step in DP. rewrite DE, DS, HF in DP. cbn [stores d_lk d_reg] in DP.
  exists (fst (F (re_lk (o_real w)))), ops. intros w' DE' DS' LK. unfold move_step. rewrite DE', DS', HF. cbn [stores d_lk d_reg]. rewrite LK.
  destruct (snd (F (re_lk (o_real w)))) as [[p'|]|e| |]; cbn [set_dist set_dead set_seen o_dist after_send] in DP; try congruence. injection DP as ->.
  unfold marked, set_dist, set_real, set_seen, recorded. cbn [o_real o_dist o_armed o_dials o_todo o_dead o_seen o_calls re_lk re_reg re_now re_env re_faults re_rand re_sent re_lines re_ops re_rops d_lk d_reg after_send].
  rewrite HC. assert (E1 : flat_map (fun h => match h with HOp o f => [(o, f)] | _ => [] end) (map (fun o => HOp (fst o) (snd o)) ops) = ops).
  { clear. induction ops as [|[o f] l IH]; [reflexivity|]. cbn. now f_equal. }
  assert (E2 : flat_map (fun h => match h with HReg o => [o] | _ => [] end) (map (fun o => HOp (fst o) (snd o)) ops) = []).
  { clear. induction ops as [|o l IH]; [reflexivity|]. exact IH. }
  now rewrite E1, E2, app_nil_r.
Qed.
Lemma marked_registered : forall lk ops p w r o h, registered (marked lk ops p w) r o h = marked lk ops p (registered w r o h).
Proof.
  intros lk ops p w r o h. assert (K : set_real (marked lk ops p w) (recorded (o_real (marked lk ops p w)) {| d_lk := re_lk (o_real (marked lk ops p w)); d_reg := r |} [HReg h]) =
    marked lk ops p (set_real w (recorded (o_real w) {| d_lk := re_lk (o_real w); d_reg := r |} [HReg h]))).
  { unfold marked, set_real, recorded. cbn [o_real o_dist o_armed o_dials o_todo o_dead o_seen o_calls re_lk re_reg re_now re_env re_faults re_rand re_sent re_lines re_ops re_rops d_lk d_reg flat_map app].
    now rewrite !app_nil_r. }
  destruct o; [exact K|exact K|reflexivity|reflexivity].
Qed.
Lemma registered_lk : forall w r o h, re_lk (o_real (registered w r o h)) = re_lk (o_real w) /\ o_dist (registered w r o h) = o_dist w.
Proof. intros w r o h. destruct o; auto. Qed.
Lemma marked_move : forall lk ops p w y, not_arrive y = true -> o_dead w = false -> mstep (marked lk ops p w) y = marked lk ops p (mstep w y) /\
  re_lk (o_real (mstep w y)) = re_lk (o_real w) /\ o_dist (mstep w y) = o_dist w.
Proof.
  intros lk ops p w y N DE. unfold move_step. change (o_dead (marked lk ops p w)) with (o_dead w). rewrite DE.
  destruct y as [z ar|[clock|]|z n|z n up|z [b|]|t]; [discriminate N|..]; cbn [marked o_dist o_armed o_dials o_real re_reg]; auto.
  - destruct (o_armed w); [|auto]. destruct (take_available cfg (re_reg (o_real w)) clock) as [r [l|e| |]];
      fold (marked lk ops p w); rewrite marked_registered; (split; [reflexivity|apply registered_lk]).
  - destruct (o_armed w); auto.
  - destruct (nth_error (o_dials w) n) as [[b|b|b]|]; auto. destruct (suggest_version _ _ _ _ _) as [r [| | |]]; fold (marked lk ops p w); rewrite marked_registered; (split; [reflexivity|apply registered_lk]).
  - assert (HU : forall b, hung_up (marked lk ops p w) z n b = marked lk ops p (hung_up w z n b) /\ re_lk (o_real (hung_up w z n b)) = re_lk (o_real w) /\ o_dist (hung_up w z n b) = o_dist w).
    { intros b. unfold hung_up. cbn [marked o_real re_reg o_armed o_dials]. destruct (unregister_peer _ _ _ _) as [r o]. fold (marked lk ops p w). rewrite marked_registered. split; [reflexivity|apply registered_lk]. }
    destruct (nth_error (o_dials w) n) as [[b|b|b]|]; auto. destruct up; auto.
  - destruct (suggest_version _ _ _ _ _) as [r o]. fold (marked lk ops p w). rewrite marked_registered. split; [reflexivity|apply registered_lk].
  - split; [|auto]. unfold marked, set_real, LoadModel.happens. cbn [o_real o_dist o_armed o_dials o_todo o_dead o_seen o_calls re_lk re_reg re_now re_env re_faults re_rand re_sent re_lines re_ops re_rops].
    now rewrite !app_nil_r.
Qed.
Lemma dead_move : forall w y, o_dead w = true -> mstep w y = w.
Proof. intros w y D. unfold move_step. now rewrite D. Qed.
Lemma dead_others : forall ms w, o_dead w = true -> others w ms = w.
Proof. induction ms as [|y ms IH]; intros w D; [reflexivity|]. cbn [WholeModel.others fold_left]. rewrite dead_move by exact D. now apply IH. Qed.
Lemma sending_arrive : forall w y p, not_arrive y = false -> o_dist w = DSending p -> mstep w y = w.
Proof. intros w y p N D. destruct y; try discriminate. unfold move_step. rewrite D. now destruct (o_dead w). Qed.
(** The others go on after the arrival as without it, except that the distributor receives nothing. *)
Lemma marked_others : forall lk ops p ms w, o_dead w = false -> o_dead (others (marked lk ops p w) ms) = false ->
  others (marked lk ops p w) ms = marked lk ops p (others w (filter not_arrive ms)) /\
  re_lk (o_real (others w (filter not_arrive ms))) = re_lk (o_real w) /\ o_dist (others w (filter not_arrive ms)) = o_dist w /\ o_dead (others w (filter not_arrive ms)) = false.
Proof.
  intros lk ops p. induction ms as [|y ms IH]; intros w DE DL; [auto|]. cbn [WholeModel.others fold_left filter] in *. destruct (not_arrive y) eqn:N.
  - destruct (@marked_move lk ops p w y N DE) as (E & E1 & E2). rewrite E in DL |- *. cbn [WholeModel.others fold_left].
    assert (D1 : o_dead (mstep w y) = false).
    { destruct (o_dead (mstep w y)) eqn:D1; [|reflexivity]. change (fold_left mstep ms (marked lk ops p (mstep w y))) with (others (marked lk ops p (mstep w y)) ms) in DL.
      rewrite dead_others in DL by exact D1. cbn [marked o_dead] in DL. congruence. }
    destruct (IH (mstep w y) D1 DL) as (A & B & C & D). split; [exact A|]. split; [etransitivity; [exact B|exact E1]|]. split; [etransitivity; [exact C|exact E2]|exact D].
  - rewrite (@sending_arrive (marked lk ops p w) y p N eq_refl) in DL |- *. now apply IH.
Qed.

(** * The two runs of one turn *)
Lemma light_call : forall lk ops p w c, is_light c = true -> re_env (o_real w) = [] -> snd (rw c (o_real (marked lk ops p w))) = snd (rw c (o_real w)) /\
  add_call (marked lk ops p w) (fst (rw c (o_real (marked lk ops p w)))) (c ==> snd (rw c (o_real (marked lk ops p w)))) =
  marked lk ops p (add_call w (fst (rw c (o_real w))) (c ==> snd (rw c (o_real w)))) /\
  re_env (fst (rw c (o_real w))) = [] /\ re_lk (fst (rw c (o_real w))) = re_lk (o_real w).
Proof.
  intros lk ops p w c LC EN. destruct c; try discriminate LC; cbn [real_world]; unfold meanwhile; cbn [marked o_real re_env]; rewrite EN; cbn [hd tl fold_left fst snd sends re_env re_lk re_now]; auto.
Qed.
Notation D := (filter not_arrive).
Variables (before : list (list move)) (u1 u2 : list move) (after : list (list move)).
Hypothesis EB : Forall (Forall (elsewhere m a)) before.
Hypothesis E1 : Forall (elsewhere m a) u1.
Hypothesis E2 : Forall (elsewhere m a) u2.
Hypothesis EA : Forall (Forall (elsewhere m a)) after.
Variables (c0 es : list event).
Hypothesis ASK : exists e, In e (firstn (length before) es) /\ requests e <> None.
Definition todo1 : list (list move) := (u1 ++ arr :: u2) :: after.
Definition todo2 : list (list move) := (u1 ++ D u2) :: map D after.
Definition earlier (b : list (list move)) (u w : whole) : Prop :=
  o_todo u = b ++ todo1 /\ w = set_todo u (b ++ todo2) /\ free a u /\ Forall (Forall (elsewhere m a)) b /\ re_env (o_real u) = [].
Definition first_part (u w : whole) : Prop := exists b pre, earlier b u w /\ o_calls u = c0 ++ pre /\ length pre + length b = length before /\ Forall (fun e => requests e = None) pre.
Definition arrived (u w : whole) : Prop := exists lk ops p, o_dead w = false /\ o_dist w = DSelect /\ re_env (o_real w) = [] /\ sender p = a /\
  (forall w', o_dead w' = false -> o_dist w' = DSelect -> re_lk (o_real w') = re_lk (o_real w) -> mstep w' arr = marked lk ops p w') /\
  u = set_todo (marked lk ops p w) (o_todo u) /\ o_todo w = map D (o_todo u) /\ Forall (Forall (elsewhere m a)) (o_todo u).
Definition second_part (u w : whole) : Prop := (exists b, earlier b u w) \/ arrived u w.
Definition excluded (u : whole) : Prop :=
  o_dead u = true \/ ~ (exists t, c0 ++ es = o_calls u ++ t) \/ (free a u /\ Forall (Forall (elsewhere m a)) (o_todo u)).

Lemma call_calls : forall c u, o_calls (fst (ww c u)) = o_calls u ++ [c ==> snd (ww c u)].
Proof.
  intros c u. rewrite world_at. cbn [fst snd add_call o_calls]. unfold v_pre at 1. cbn [set_todo o_calls]. f_equal. apply (others_grow cfg g cord srt (hd [] (o_todo u)) u).
Qed.
Lemma requests_call : forall c r, requests (c ==> r) = None <-> is_ask c = false.
Proof. intros c r. destruct c; cbn; split; congruence. Qed.
Lemma excluded_dead : forall c u, o_dead (others u (hd [] (o_todo u))) = true -> excluded (fst (ww c u)).
Proof. intros c u E. left. rewrite world_at. exact E. Qed.
Lemma excluded_free : forall c u, free a (others u (hd [] (o_todo u))) -> Forall (Forall (elsewhere m a)) (tl (o_todo u)) -> excluded (fst (ww c u)).
Proof. intros c u E T. right. right. rewrite world_at. split; [exact E|exact T]. Qed.
Lemma excluded_call : forall c u, excluded u -> excluded (fst (ww c u)).
Proof.
  intros c u [E|[E|[E T]]].
  - apply excluded_dead. now rewrite dead_others.
  - right. left. intros [t X]. apply E. rewrite call_calls in X. exists ([c ==> snd (ww c u)] ++ t). now rewrite app_assoc.
  - apply excluded_free; [|destruct T; cbn; auto]. apply (@others_free cfg g cord srt m a); [exact E|]. destruct T; cbn; auto.
Qed.
(** A call before the arrival. *)
Lemma earlier_call : forall c ms b u w, earlier (ms :: b) u w -> earlier b (fst (ww c u)) (fst (ww c w)) /\ snd (ww c u) = snd (ww c w).
Proof.
  intros c ms b u w (T & -> & FR & F & EN). assert (V1 : v_pre cfg g cord srt u = set_todo (others u ms) (b ++ todo1)) by (unfold v_pre; now rewrite T).
  assert (V2 : v_pre cfg g cord srt (set_todo u ((ms :: b) ++ todo2)) = set_todo (others u ms) (b ++ todo2)) by (unfold v_pre; cbn [set_todo o_todo hd tl app]; now rewrite todo_others).
  rewrite !world_at, V1, V2. cbn [fst snd set_todo o_real]. split; [|reflexivity]. split; [reflexivity|]. split; [reflexivity|]. split; [|split; [exact (Forall_inv_tail F)|]].
  - assert (X := @others_free cfg g cord srt m a ms u FR (Forall_inv F)). exact X.
  - cbn [add_call o_real]. destruct (@call_keeps cfg g ord cord srt c (o_real (others u ms))) as (_ & _ & X); [now rewrite others_env|exact X].
Qed.
Lemma take_prefix : forall (l r t : list event) e, c0 ++ es = (c0 ++ l) ++ e :: t -> firstn (length l) es = l.
Proof. intros l r t e X. rewrite <- app_assoc in X. apply app_inv_head in X. rewrite X, firstn_app, firstn_all, Nat.sub_diag. cbn. apply app_nil_r. Qed.
Lemma first_call : forall c u w, first_part u w -> is_ask c = false -> excluded (fst (ww c u)) \/ (first_part (fst (ww c u)) (fst (ww c w)) /\ snd (ww c u) = snd (ww c w)).
Proof.
  intros c u w (b & pre & E & C & LN & NA) N. destruct b as [|ms b].
  - left. right. left. intros [t X]. rewrite call_calls, C in X. rewrite <- (app_assoc (c0 ++ pre)) in X. destruct ASK as (e & IN & R). cbn [length] in LN. rewrite Nat.add_0_r in LN. rewrite <- LN in IN.
    cbn [app] in X. rewrite (take_prefix [] X) in IN. rewrite Forall_forall in NA. apply R. now apply NA.
  - right. destruct (earlier_call c E) as [E' RE]. split; [|exact RE]. exists b, (pre ++ [c ==> snd (ww c u)]). split; [exact E'|]. split; [rewrite call_calls, C; now rewrite app_assoc|].
    rewrite app_length. cbn [length] in *. split; [lia|]. apply Forall_app. split; [exact NA|]. repeat constructor. now apply requests_call.
Qed.
Lemma ask_call : forall c u w, first_part u w -> is_ask c = true -> excluded (fst (ww c u)) \/ (second_part (fst (ww c u)) (fst (ww c w)) /\ snd (ww c u) = snd (ww c w)).
Proof.
  intros c u w (b & pre & E & C & LN & NA) N. destruct b as [|ms b].
  - left. right. left. intros [t X]. rewrite call_calls, C in X. rewrite <- (app_assoc (c0 ++ pre)) in X. destruct ASK as (e & IN & R). cbn [length] in LN. rewrite Nat.add_0_r in LN. rewrite <- LN in IN.
    cbn [app] in X. rewrite (take_prefix [] X) in IN. rewrite Forall_forall in NA. apply R. now apply NA.
  - right. destruct (earlier_call c E) as [E' RE]. split; [|exact RE]. left. now exists b.
Qed.
Lemma hd_D : forall t, hd [] (map D t) = D (hd [] t).
Proof. now intros []. Qed.
Lemma tl_D : forall t, tl (map D t) = map D (tl t).
Proof. now intros []. Qed.
Lemma arrived_call : forall c u w, arrived u w -> is_light c = true -> excluded (fst (ww c u)) \/ (second_part (fst (ww c u)) (fst (ww c w)) /\ snd (ww c u) = snd (ww c w)).
Proof.
  intros c u w (lk & ops & p & DE & DS & EN & SE & AR & U & TW & ET) LC. destruct (o_dead (others u (hd [] (o_todo u)))) eqn:DO; [left; now apply excluded_dead|]. right.
  assert (OU : others u (hd [] (o_todo u)) = set_todo (others (marked lk ops p w) (hd [] (o_todo u))) (o_todo u)) by (rewrite U at 1; apply todo_others).
  rewrite OU in DO. cbn [set_todo o_dead] in DO. destruct (@marked_others lk ops p (hd [] (o_todo u)) w DE DO) as (MO & LK & DI & DD). rewrite MO in OU.
  set (w1 := others w (D (hd [] (o_todo u)))) in *.
  assert (V1 : v_pre cfg g cord srt u = set_todo (marked lk ops p w1) (tl (o_todo u))) by (unfold v_pre; rewrite OU; reflexivity).
  assert (V2 : v_pre cfg g cord srt w = set_todo w1 (map D (tl (o_todo u)))) by (unfold v_pre; rewrite TW, hd_D, tl_D; reflexivity).
  assert (EN1 : re_env (o_real w1) = []) by (unfold w1; now rewrite others_env).
  destruct (@light_call lk ops p w1 c LC EN1) as (A & B & C & K). rewrite !world_at, V1, V2. cbn [fst snd set_todo o_real]. split; [|exact A]. right. exists lk, ops, p.
  cbn [add_call o_dead o_dist o_real o_todo set_todo]. split; [exact DD|]. split; [congruence|]. split; [exact C|]. split; [exact SE|].
  split; [intros w' X1 X2 X3; apply AR; auto; congruence|]. split; [|split; [reflexivity|destruct ET; cbn; auto]].
  unfold marked, add_call, set_todo in B |- *. cbn [o_real o_dist o_armed o_dials o_todo o_dead o_seen o_calls re_lk re_reg re_now re_env re_faults re_rand re_sent re_lines re_ops re_rops] in B |- *.
  injection B as B1 B2. f_equal; [exact B1|exact B2].
Qed.
(** The call before which the answer arrives. *)
Lemma arrival_call : forall c u w, earlier [] u w -> is_light c = true -> excluded (fst (ww c u)) \/ (second_part (fst (ww c u)) (fst (ww c w)) /\ snd (ww c u) = snd (ww c w)).
Proof.
  intros c u w (T & -> & FR & _ & EN) LC. cbn [app todo1] in T. set (v := others u u1).
  assert (OU : others u (hd [] (o_todo u)) = others (mstep v arr) u2) by (rewrite T; exact (fold_left_app mstep u1 (arr :: u2) u)).
  assert (FV : free a v) by (apply (@others_free cfg g cord srt m a); auto).
  destruct (o_dead (others u (hd [] (o_todo u)))) eqn:DO; [left; now apply excluded_dead|].
  assert (DV : o_dead v = false).
  { destruct (o_dead v) eqn:X; [|reflexivity]. rewrite OU, (dead_move _ X), dead_others in DO by exact X. congruence. }
  assert (CS : (exists p, o_dist (mstep v arr) = DSending p /\ sender p = a) \/ free a (mstep v arr)).
  { destruct (o_dist (mstep v arr)) as [|p|] eqn:X; try (right; intros p0 P0; congruence). destruct (PeersProofs.addr_eqb_spec (sender p) a) as [Q|Q].
    - left. exists p. auto.
    - right. intros p0 P0 P1. rewrite X in P0. injection P0 as <-. contradiction. }
  destruct CS as [(p & DP & SE)|FR']; [|left; apply excluded_free; [rewrite OU; now apply (@others_free cfg g cord srt m a)|rewrite T; exact EA]].
  assert (DS : o_dist v = DSelect).
  { destruct (o_dist v) as [|p0|] eqn:X; [reflexivity| |]; unfold move_step in DP; rewrite DV, X in DP; [exfalso; rewrite X in DP; exact (FV _ X ltac:(congruence))|congruence]. }
  destruct (@arrives v p DV DS DP) as (lk & ops & AR). rewrite (AR v DV DS eq_refl) in OU.
  assert (DO' := DO). rewrite OU in DO'. destruct (@marked_others lk ops p u2 v DV DO') as (MO & LK & DI & DD). rewrite MO in OU. set (w1 := others v (D u2)) in *. right.
  assert (V1 : v_pre cfg g cord srt u = set_todo (marked lk ops p w1) after) by (unfold v_pre; rewrite OU, T; reflexivity).
  assert (V2 : v_pre cfg g cord srt (set_todo u ([] ++ todo2)) = set_todo w1 (map D after)).
  { unfold v_pre. cbn [set_todo o_todo hd tl app todo2]. rewrite todo_others. transitivity (set_todo (others u (u1 ++ D u2)) (map D after)); [reflexivity|]. f_equal. exact (fold_left_app mstep u1 (D u2) u). }
  assert (EN1 : re_env (o_real w1) = []) by (unfold w1, v; now rewrite !others_env).
  destruct (@light_call lk ops p w1 c LC EN1) as (A & B & C & K). rewrite !world_at, V1, V2. cbn [fst snd set_todo o_real]. split; [|exact A]. right. exists lk, ops, p.
  cbn [add_call o_dead o_dist o_real o_todo set_todo]. split; [exact DD|]. split; [congruence|]. split; [exact C|]. split; [exact SE|].
  split; [intros w' X1 X2 X3; apply AR; auto; congruence|]. split; [|split; [reflexivity|exact EA]].
  unfold marked, add_call, set_todo in B |- *. cbn [o_real o_dist o_armed o_dials o_todo o_dead o_seen o_calls re_lk re_reg re_now re_env re_faults re_rand re_sent re_lines re_ops re_rops] in B |- *.
  injection B as B1 B2. f_equal; [exact B1|exact B2].
Qed.
Theorem mid_alike : alike ww ww first_part second_part excluded (fun _ => True).
Proof.
  constructor; auto.
  - exact excluded_call.
  - exact first_call.
  - exact ask_call.
  - intros c u w [[b E]|A] LC; [|now apply arrived_call]. destruct b as [|ms b]; [now apply arrival_call|]. right. destruct (earlier_call c E) as [E' RE]. split; [|exact RE]. left. now exists b.
Qed.
(** The turn with the answer in it, and the turn with the answer after it. *)
Theorem mid_turn : forall i l v l' u r p', i <> InTick -> i <> InSync -> (forall p, l_pl l = Some p -> pl_triggers p = []) -> free a v -> re_env (o_real v) = [] -> o_calls v = c0 ->
  loader_step ww i l (set_todo v (before ++ todo1)) = ((l', u), r) -> o_calls u = c0 ++ es -> o_dead u = false -> o_dist u = DSending p' -> sender p' = a ->
  exists w, loader_step ww i l (set_todo v (before ++ todo2)) = ((l', w), Ok tt) /\ r = Ok tt /\ l_pl l' <> None /\ o_dead w = false /\ o_dist w = DSelect /\
    mstep (set_todo w []) arr = set_todo u [].
Proof.
  intros i l v l' u r p' NT NS TR FR EN C0 E CU DU DP SE.
  assert (F0 : first_part (set_todo v (before ++ todo1)) (set_todo v (before ++ todo2))).
  { exists before, []. cbn [length set_todo o_calls]. rewrite app_nil_r. split; [|split; [exact C0|split; [lia|constructor]]]. split; [reflexivity|]. split; [reflexivity|]. auto. }
  destruct (step_two mid_alike F0 TR NT NS) as [X|(X1 & X2 & X3)]; rewrite E in *; cbn [fst snd] in *.
  - exfalso. destruct X as [X|[X|[X _]]]; [congruence| |exact (X _ DP SE)]. apply X. exists []. now rewrite CU, app_nil_r.
  - destruct (loader_step ww i l (set_todo v (before ++ todo2))) as [[l2 w] r2]. cbn [fst snd] in *. subst l2 r2.
    destruct X3 as [(b & pre & (_ & _ & X & _) & _)|([(b & (_ & _ & X & _))|(lk & ops & p & DW & DS & _ & SP & AR & U & _)] & PL & ->)]; try (exfalso; exact (X _ DP SE)).
    exists w. split; [reflexivity|]. split; [reflexivity|]. split; [exact PL|]. split; [exact DW|]. split; [exact DS|]. rewrite todo_move, (AR w DW DS eq_refl), U. reflexivity.
Qed.
End Mid.
