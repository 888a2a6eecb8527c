(** The running process: the stores stay reachable, and what can crash it. *)
From Verif Require Import Base Kv BytesFacts ChainModel ChainSpec ChainProofs PeersModel PeersSpec PeersProofs PeersCalls LoadModel LoadSpec LoadProofs LoadFire LoadSim
  LoadRule LoadReal LoadLift NetModel NetSpec NetProofs NetDist WholeModel WholeSpec.
Set Implicit Arguments.
Unset Strict Implicit.

(** * The effect of the other goroutines on the stores *)
Definition hops (hs : list LoadModel.happening) : list (op * option nat) := flat_map (fun h => match h with HOp o f => [(o, f)] | _ => [] end) hs.
Definition hrops (hs : list LoadModel.happening) : list rop := flat_map (fun h => match h with HReg o => [o] | _ => [] end) hs.

Section Whole.
Variable cfg : config.
Variable g : pblock.
Variable ord : list group -> list group.
Variable cord : list (addr * conn) -> list (addr * conn).
Variable srt : list Peer -> list Peer.
Notation happens := (happens cfg g).
Notation rw := (real_world cfg g ord cord srt).
Notation lrw := (logging rw).
Notation mstep := (move_step cfg g cord srt).
Notation others := (others cfg g cord srt).
Notation ww := (whole_world cfg g ord cord srt).

Definition effect (d : dist) (h : LoadModel.happening) : dist :=
  match h with HOp o f => with_lk d (fst (exec g (d_lk d) o f)) | HReg o => with_reg d (rstep cfg (d_reg d) o) | HTime _ => d end.
Lemma handle_effect : forall x d a d' ss o, handle cfg g srt cord x d a = (d', ss, o) -> d' = fold_left effect (calls_of x a) d.
Proof.
  intros x d a d' ss o E. destruct a as [from m|[from h|from|]|]; cbn [handle handle_info calls_of] in *.
  - assert (HB : forall b, handle_block g x d from b = (d', ss, o) ->
             d' = fold_left effect (match ln_addr from with Some p => [HOp (Put b p) (ft_fault x)] | None => [] end) d).
    { intros b Q. unfold handle_block in Q. destruct (ln_addr from) as [ad|]; [|now injection Q as <- _ _]. cbn [fold_left effect].
      destruct (exec _ _ _ _). now injection Q as <- _ _. }
    destruct m as [| l | ids | [b|] | s | mi | [b|] | ids | | | | | | | | | | | | | | n]; cbn [handle_message handle_block_message] in E;
      try (injection E as <- <- <-; destruct (ln_addr from); reflexivity).
    + unfold handle_get_peers in E. assert (d' = d).
      { destruct (friendly_peers srt (d_reg d)) as [ps| | |]; try (now injection E as <- _ _). destruct (mapM tcp_addr ps); now injection E as <- _ _. }
      subst. destruct (ln_addr from); reflexivity.
    + unfold handle_peers in E. assert (d' = with_reg d (rstep cfg (d_reg d) (RAppend (filter (fun p => match p with Some _ => true | None => false end) l) (ft_append x)))).
      { cbn [rstep]. destruct (append_addresses _ _ _ _). now injection E as <- _ _. }
      subst. destruct (ln_addr from); reflexivity.
    + unfold handle_signatures in E. destruct (ln_addr from); now injection E as <- _ _.
    + rewrite (HB b E). destruct (ln_addr from); reflexivity.
    + unfold handle_score in E. destruct (ln_addr from) as [ad|]; [|now injection E as <- _ _]. cbn [fold_left effect rstep].
      destruct (update_peer_score _ _ _ _). now injection E as <- _ _.
    + unfold handle_micro in E. destruct (ln_addr from) as [ad|]; [|now injection E as <- _ _]. destruct mi as [mi|]; [|now injection E as <- _ _].
      cbn [fold_left effect]. destruct (exec _ _ _ _). now injection E as <- _ _.
    + rewrite (HB b E). destruct (ln_addr from); reflexivity.
    + unfold handle_block_ids in E. destruct (ln_addr from); [destruct ids|]; now injection E as <- _ _.
  - unfold handle_connected in E. destruct (ln_addr from) as [ad|]; [|now injection E as <- _ _]. cbn [fold_left effect rstep].
    destruct (register_peer _ _ _ _ _ _ _) as [[r e] c]. now injection E as <- _ _.
  - unfold handle_error in E. destruct (ln_addr from) as [ad|]; [|now injection E as <- _ _]. cbn [fold_left effect rstep].
    destruct (unregister_peer _ _ _ _). now injection E as <- _ _.
  - now injection E as <- _ _.
  - now injection E as <- _ _.
Qed.
Lemma recorded_happens : forall hs x, (forall t, ~ In (HTime t) hs) ->
  recorded x (fold_left effect hs {| d_lk := re_lk x; d_reg := re_reg x |}) hs = fold_left happens hs x.
Proof.
  induction hs as [|h hs IH]; intros x NT; cbn [fold_left].
  - unfold recorded. cbn. rewrite !app_nil_r. now destruct x.
  - rewrite <- IH by (intros t Q; apply (NT t); now right). assert (NH : forall t, h <> HTime t) by (intros t ->; apply (NT t); now left).
    unfold recorded. destruct h as [o f|o|t]; [| |now destruct (NH t)]; cbn [effect LoadModel.happens re_lk re_reg re_now re_env re_faults re_rand re_sent re_lines re_ops re_rops flat_map d_lk d_reg];
      rewrite <- ?app_assoc; cbn [app]; rewrite ?app_nil_r; reflexivity.
Qed.
Lemma calls_no_time : forall x a t, ~ In (HTime t) (calls_of x a).
Proof.
  intros x a t. destruct a as [from m|[from h|from|]|]; cbn [calls_of]; try (destruct (ln_addr from)); try (destruct m as [| l | ids | [b|] | s | [mi|] | [b|] | ids | | | | | | | | | | | | | | n]);
    cbn; try tauto; intros [Q|[]]; discriminate.
Qed.
Lemma calls_wf : forall x a, wf_arrival a -> Forall wf_happening (calls_of x a).
Proof.
  intros x a W. destruct a as [from m|[from h|from|]|]; cbn [calls_of wf_arrival] in *; try constructor.
  - destruct W as [WL WM]. unfold wf_link in WL. destruct (ln_addr from) as [p|], m as [| l | ids | [b|] | s | [mi|] | [b|] | ids | | | | | | | | | | | | | | n]; try constructor;
      try constructor; cbn [wf_message wf_happening wf_rop wf_op] in *; try tauto; try discriminate; try (now apply wf_go);
      try (intros ad port Q; apply filter_In in Q as [Q _]; eauto; fail); try (split; [tauto|discriminate]).
  - unfold wf_link in W. destruct (ln_addr from); constructor; [cbn; now apply wf_go|constructor].
  - unfold wf_link in W. destruct (ln_addr from); constructor; [cbn; now apply wf_go|constructor].
Qed.
Lemma registered_real : forall v r o h, r = rstep cfg (re_reg (o_real v)) h ->
  exists hs, (hs = [] \/ hs = [HReg h]) /\ o_real (registered v r o h) = fold_left happens hs (o_real v).
Proof.
  intros v r o h ->. assert (K : recorded (o_real v) {| d_lk := re_lk (o_real v); d_reg := rstep cfg (re_reg (o_real v)) h |} [HReg h] = fold_left happens [HReg h] (o_real v)).
  { rewrite <- recorded_happens; [reflexivity|]. intros t [Q|[]]. discriminate. }
  destruct o; cbn [registered set_real o_real set_dead]; [exists [HReg h]|exists [HReg h]|exists []|exists []]; auto.
Qed.

(** * The well-formed states *)
Definition dial_addr (d : dialler) : addr := match d with Fresh a | Calling a | Failing a => a end.
Definition wf_pack (p : package) : Prop := match p with PIDs a ids => wf_addr a /\ Forall wf_id ids | PBlock a b => wf_addr a /\ wf_pblock b end.
Definition wf_proc (d : dproc) : Prop := match d with DSending p => wf_pack p | _ => True end.
Record shape (v : whole) : Prop := {
  sh_dials : Forall (fun d => wf_addr (dial_addr d)) (o_dials v);
  sh_dist : wf_proc (o_dist v);
  sh_todo : Forall (Forall wf_move) (o_todo v);
  sh_env : re_env (o_real v) = []
}.
Lemma take_in_wf : forall r clock r' l a port, RInv r -> take_available cfg r clock = (r', Ok l) -> In (a, port) l -> wf_addr a.
Proof.
  intros r clock r' l a port I E Q. destruct (take_view cfg clock I) as (pend & out & T & _ & D & _). rewrite T in E. injection E as _ <-.
  apply D in Q. apply wf_ip4. apply Q.
Qed.
Lemma handle_package : forall x d a d' ss p, handle cfg g srt cord x d a = (d', ss, Ok (Some p)) ->
  exists from m, a = AMessage from m /\
    match p with
    | PIDs ad ids => ln_addr from = Some ad /\ (m = MSignatures ids \/ m = MBlockIds ids)
    | PBlock ad b => ln_addr from = Some ad /\ NetSpec.carries m b
    end.
Proof.
  intros x d a d' ss p E. destruct a as [from m|[from h|from|]|]; cbn [handle handle_info] in E.
  - exists from, m. split; [reflexivity|].
    assert (HB : forall b, handle_block g x d from b = (d', ss, Ok (Some p)) -> exists ad, p = PBlock ad b /\ ln_addr from = Some ad).
    { intros b Q. unfold handle_block in Q. destruct (ln_addr from) as [ad|]; [|discriminate]. destruct (exec _ _ _ _) as [l e].
      assert (Z := f_equal snd Q). cbn in Z. destruct e as [|[]| |]; try discriminate; injection Z as <-; eauto. }
    destruct m as [| l | ids | [b|] | s | mi | [b|] | ids | | | | | | | | | | | | | | n]; cbn [handle_message handle_block_message] in E; try discriminate.
    + unfold handle_get_peers in E. destruct (friendly_peers srt (d_reg d)) as [ps| | |]; try discriminate. destruct (mapM tcp_addr ps); discriminate.
    + unfold handle_peers in E. destruct (append_addresses _ _ _ _). discriminate.
    + unfold handle_signatures in E. destruct (ln_addr from) as [ad|]; [|discriminate]. assert (Z := f_equal snd E). injection Z as <-. auto.
    + destruct (HB b E) as (ad & -> & A). split; [exact A|now left].
    + unfold handle_score in E. destruct (ln_addr from) as [ad|]; [|discriminate]. destruct (update_peer_score _ _ _ _) as [? []]; discriminate.
    + unfold handle_micro in E. destruct (ln_addr from) as [ad|]; [|discriminate]. destruct mi as [mi|]; [|discriminate]. destruct (exec _ _ _ _) as [? []]; discriminate.
    + destruct (HB b E) as (ad & -> & A). split; [exact A|now right].
    + unfold handle_block_ids in E. destruct (ln_addr from) as [ad|]; [|discriminate]. destruct ids as [|i ids]; [discriminate|].
      assert (Z := f_equal snd E). injection Z as <-. auto.
  - unfold handle_connected in E. destruct (ln_addr from) as [ad|]; [|discriminate]. destruct (register_peer _ _ _ _ _ _ _) as [[r []] c]; discriminate.
  - unfold handle_error in E. destruct (ln_addr from) as [ad|]; [|discriminate]. destruct (unregister_peer _ _ _ _) as [? []]; discriminate.
  - discriminate.
  - discriminate.
Qed.
Lemma package_wf : forall x d a d' ss p, wf_arrival a -> wf_ids a -> handle cfg g srt cord x d a = (d', ss, Ok (Some p)) -> wf_pack p.
Proof.
  intros x d a d' ss p WA WI E. apply handle_package in E as (from & m & -> & H). destruct WA as [WL WM]. unfold wf_link in WL.
  destruct p as [ad ids|ad b]; destruct H as [A H]; rewrite A in WL; cbn [wf_pack]; (split; [exact WL|]); destruct H as [-> | ->]; assumption.
Qed.
Lemma package_tame : forall x d a d' ss ad b, tame a -> handle cfg g srt cord x d a = (d', ss, Ok (Some (PBlock ad b))) -> (pb_bt b <= max_int64)%N.
Proof. intros x d a d' ss ad b T E. apply handle_package in E as (from & m & -> & _ & H). now apply T. Qed.

(** * One step of another goroutine *)
Lemma happens_inv : forall hs x, RInv (re_reg x) -> Forall wf_happening hs -> RInv (re_reg (fold_left happens hs x)) /\ re_env (fold_left happens hs x) = re_env x.
Proof.
  induction hs as [|h hs IH]; intros x RI W; cbn [fold_left]; [auto|]. assert (WH := Forall_inv W). apply Forall_inv_tail in W.
  assert (K : RInv (re_reg (happens x h)) /\ re_env (happens x h) = re_env x).
  { destruct h as [o f|o|t]; cbn [LoadModel.happens re_reg re_env]; auto. split; [now apply rstep_inv|reflexivity]. }
  destruct K as [K1 K2]. destruct (IH _ K1 W) as [A B]. split; [exact A|congruence].
Qed.
Lemma move_effect : forall v m, RInv (re_reg (o_real v)) -> shape v -> wf_move m ->
  exists hs, Forall wf_happening hs /\ o_real (mstep v m) = fold_left happens hs (o_real v).
Proof.
  intros v m RI SH W. unfold move_step. assert (NO : exists hs, Forall wf_happening hs /\ o_real v = fold_left happens hs (o_real v)) by (exists []; auto).
  assert (RG : forall r o h, r = rstep cfg (re_reg (o_real v)) h -> wf_rop h -> exists hs, Forall wf_happening hs /\ o_real (registered v r o h) = fold_left happens hs (o_real v)).
  { intros r o h E WH. destruct (@registered_real v r o h E) as (hs & H & E'). exists hs. split; [|exact E']. destruct H as [-> | ->]; repeat constructor. exact WH. }
  assert (DW : forall n d, nth_error (o_dials v) n = Some d -> wf_addr (dial_addr d)).
  { intros n d E. apply nth_error_In in E. exact (proj1 (Forall_forall _ _) (sh_dials SH) d E). }
  assert (HU : forall x n a, wf_addr a -> exists hs, Forall wf_happening hs /\ o_real (hung_up v x n a) = fold_left happens hs (o_real v)).
  { intros x n a WA. unfold hung_up. destruct (unregister_peer (re_reg (o_real v)) (ft_now x) (ft_write x) a) as [r o] eqn:E. cbn [set_respawn o_real]. apply RG; [|now apply wf_go].
    cbn [rstep]. now rewrite E. }
  destruct (o_dead v); [exact NO|]. destruct m as [x a|[clock|]|x n|x n up|x [a|]|t].
  - destruct (o_dist v); try exact NO. destruct (handle cfg g srt cord x (stores v) a) as [[d ss] o] eqn:E. destruct o as [p|e| |]; cbn [set_dead set_seen o_real]; try exact NO.
    exists (calls_of x a). split; [apply calls_wf, W|]. cbn [set_dist set_real o_real]. rewrite (handle_effect E). apply recorded_happens. apply calls_no_time.
  - destruct (o_armed v); [|exact NO]. destruct (take_available cfg (re_reg (o_real v)) clock) as [r o] eqn:E.
    assert (X : r = rstep cfg (re_reg (o_real v)) (RTake clock)) by (cbn [rstep]; now rewrite E).
    destruct o; cbn [set_respawn o_real]; apply RG; auto; exact Logic.I.
  - destruct (o_armed v); exact NO.
  - destruct (nth_error (o_dials v) n) as [[a|a|a]|] eqn:N; try exact NO. destruct (suggest_version cfg (re_reg (o_real v)) (ft_now x) (ft_write x) a) as [r o] eqn:E.
    assert (X : r = rstep cfg (re_reg (o_real v)) (RSuggest a (ft_now x) (ft_write x))) by (cbn [rstep]; now rewrite E).
    assert (Y : wf_rop (RSuggest a (ft_now x) (ft_write x))) by (cbn; apply wf_go; exact (DW _ _ N)).
    destruct o; cbn [set_respawn o_real]; now apply RG.
  - destruct (nth_error (o_dials v) n) as [[a|a|a]|] eqn:N; try exact NO; [destruct up; [exact NO|]|]; apply HU; exact (DW _ _ N).
  - destruct (suggest_version cfg (re_reg (o_real v)) (ft_now x) (ft_write x) a) as [r o] eqn:E. apply RG; [cbn [rstep]; now rewrite E|cbn; now apply wf_go].
  - exact NO.
  - exists [HTime t]. split; [repeat constructor|reflexivity].
Qed.
Lemma replace_all : forall A (P : A -> Prop) y n (l : list A), P y -> Forall P l -> Forall P (replace n y l).
Proof. intros A P y n l Y F. revert n. induction F; intros [|n]; cbn; constructor; auto. Qed.
Lemma drop_all : forall A (P : A -> Prop) n (l : list A), Forall P l -> Forall P (drop n l).
Proof. intros A P n l F. revert n. induction F; intros [|n]; cbn; auto. Qed.
(** What [registered] leaves alone. *)
Lemma registered_rest : forall v r o h, let v' := registered v r o h in
  o_dist v' = o_dist v /\ o_armed v' = o_armed v /\ o_dials v' = o_dials v /\ o_todo v' = o_todo v /\ o_seen v' = o_seen v /\ o_calls v' = o_calls v /\
  (returned o -> o_dead v' = o_dead v).
Proof. intros v r o h. destruct o; cbn; tauto. Qed.
Lemma move_shape : forall v m, RInv (re_reg (o_real v)) -> shape v -> wf_move m -> RInv (re_reg (o_real (mstep v m))) /\ shape (mstep v m).
Proof.
  intros v m RI SH W. destruct (@move_effect v m RI SH W) as (hs & WH & E). destruct (@happens_inv hs (o_real v) RI WH) as [A B]. rewrite <- E in A, B.
  split; [exact A|]. assert (EN : re_env (o_real (mstep v m)) = []) by (rewrite B; exact (sh_env SH)). clear E A B WH hs.
  assert (DW : forall n d, nth_error (o_dials v) n = Some d -> wf_addr (dial_addr d)).
  { intros n d E. apply nth_error_In in E. exact (proj1 (Forall_forall _ _) (sh_dials SH) d E). }
  constructor; try exact EN; clear EN; unfold move_step; (destruct (o_dead v); [apply SH|]).
  - destruct m as [x a|[clock|]|x n|x n up|x [a|]|t]; try (match goal with |- context [if o_armed v then _ else _] => destruct (o_armed v) end); try apply SH.
    + destruct (o_dist v); try apply SH. destruct (handle cfg g srt cord x (stores v) a) as [[d ss] [p|e| |]]; apply SH.
    + destruct (take_available cfg (re_reg (o_real v)) clock) as [r [l|e| |]] eqn:T; cbn [set_respawn o_dials]; try apply SH.
      apply Forall_app. split; [apply SH|]. apply Forall_map, Forall_forall. intros [a port] Q. cbn [dial_addr fst]. eapply take_in_wf; eauto.
    + destruct (nth_error (o_dials v) n) as [[a|a|a]|] eqn:N; try apply SH. specialize (DW _ _ N). destruct (suggest_version _ _ _ _ _) as [r []]; cbn [set_respawn o_dials];
        apply replace_all; auto; apply SH.
    + destruct (nth_error (o_dials v) n) as [[a|a|a]|] eqn:N; try apply SH; try destruct up; try (unfold hung_up; destruct (unregister_peer _ _ _ _)); cbn [set_respawn o_dials]; apply drop_all, SH.
    + destruct (suggest_version _ _ _ _ _) as [r o]. match goal with |- context [registered ?a ?b ?c ?d] => destruct (registered_rest a b c d) as (_ & _ & -> & _) end. apply SH.
  - destruct m as [x a|[clock|]|x n|x n up|x [a|]|t]; try (match goal with |- context [if o_armed v then _ else _] => destruct (o_armed v) end); try apply SH.
    + destruct (o_dist v) eqn:D; try (rewrite D; exact Logic.I); try (rewrite D; pose proof (sh_dist SH) as Q; now rewrite D in Q).
      destruct (handle cfg g srt cord x (stores v) a) as [[d ss] [[p|]|e| |]] eqn:E; cbn [set_dist set_dead set_seen o_dist after_send]; try (rewrite D); try exact Logic.I.
      destruct W as [W1 W2]. exact (package_wf W1 W2 E).
    + destruct (take_available cfg (re_reg (o_real v)) clock) as [r [l|e| |]] eqn:T; cbn [set_respawn o_dist]; apply SH.
    + destruct (nth_error (o_dials v) n) as [[a|a|a]|] eqn:N; try apply SH. destruct (suggest_version _ _ _ _ _) as [r []]; cbn [set_respawn o_dist]; apply SH.
    + destruct (nth_error (o_dials v) n) as [[a|a|a]|] eqn:N; try apply SH; try destruct up; try (unfold hung_up; destruct (unregister_peer _ _ _ _)); cbn [set_respawn o_dist]; try apply SH;
        match goal with |- context [registered ?a ?b ?c ?d] => destruct (registered_rest a b c d) as (-> & _) end; apply SH.
    + destruct (suggest_version _ _ _ _ _) as [r o]. match goal with |- context [registered ?a ?b ?c ?d] => destruct (registered_rest a b c d) as (-> & _) end. apply SH.
  - destruct m as [x a|[clock|]|x n|x n up|x [a|]|t]; try (match goal with |- context [if o_armed v then _ else _] => destruct (o_armed v) end); try apply SH.
    + destruct (o_dist v); try apply SH. destruct (handle cfg g srt cord x (stores v) a) as [[d ss] [p|e| |]]; apply SH.
    + destruct (take_available cfg (re_reg (o_real v)) clock) as [r [l|e| |]] eqn:T; cbn [set_respawn o_todo]; apply SH.
    + destruct (nth_error (o_dials v) n) as [[a|a|a]|] eqn:N; try apply SH. destruct (suggest_version _ _ _ _ _) as [r []]; cbn [set_respawn o_todo]; apply SH.
    + destruct (nth_error (o_dials v) n) as [[a|a|a]|] eqn:N; try apply SH; try destruct up; try (unfold hung_up; destruct (unregister_peer _ _ _ _)); cbn [set_respawn o_todo]; try apply SH;
        match goal with |- context [registered ?a ?b ?c ?d] => destruct (registered_rest a b c d) as (_ & _ & _ & -> & _) end; apply SH.
    + destruct (suggest_version _ _ _ _ _) as [r o]. match goal with |- context [registered ?a ?b ?c ?d] => destruct (registered_rest a b c d) as (_ & _ & _ & -> & _) end. apply SH.
Qed.

(** What the other goroutines only add to. *)
Definition grow (v v' : whole) : Prop := later (o_real v) (o_real v') /\ (exists more, o_seen v' = o_seen v ++ more).
Lemma grow_refl : forall v, grow v v.
Proof. intros v. split; [apply later_refl|exists []; now rewrite app_nil_r]. Qed.
Lemma grow_trans : forall v1 v2 v3, grow v1 v2 -> grow v2 v3 -> grow v1 v3.
Proof.
  intros v1 v2 v3 [A [m B]] [C [n D]]. split; [eapply later_trans; eauto|]. exists (m ++ n). now rewrite D, B, app_assoc.
Qed.
Lemma recorded_later : forall x d hs, later x (recorded x d hs).
Proof. intros x d hs. eexists. reflexivity. Qed.
Lemma registered_grow : forall v r o h, grow v (registered v r o h).
Proof.
  intros v r o h. destruct o; cbn [registered]; (split; [cbn [set_real set_dead o_real]; try apply recorded_later; apply later_refl|exists []; cbn; now rewrite app_nil_r]).
Qed.
Lemma respawn_grow : forall v v' b ds, grow v v' -> grow v (set_respawn v' b ds).
Proof. intros v v' b ds H. exact H. Qed.
Lemma move_grow : forall v m, grow v (mstep v m) /\ o_calls (mstep v m) = o_calls v.
Proof.
  intros v m. unfold move_step. assert (NO := conj (grow_refl v) (eq_refl (o_calls v))).
  assert (RG : forall r o h b ds, grow v (set_respawn (registered v r o h) b ds) /\ o_calls (set_respawn (registered v r o h) b ds) = o_calls v).
  { intros r o h b ds. split; [apply respawn_grow, registered_grow|]. cbn [set_respawn o_calls]. apply registered_rest. }
  destruct (o_dead v); [exact NO|]. destruct m as [x a|[clock|]|x n|x n up|x [a|]|t].
  - destruct (o_dist v); try exact NO. destruct (handle cfg g srt cord x (stores v) a) as [[d ss] [p|e| |]]; try exact NO;
      (split; [|reflexivity]); (split; [|eexists; reflexivity]); cbn; try apply recorded_later; apply later_refl.
  - destruct (o_armed v); [|exact NO]. destruct (take_available cfg (re_reg (o_real v)) clock) as [r [l|e| |]]; apply RG.
  - destruct (o_armed v); exact NO.
  - destruct (nth_error (o_dials v) n) as [[a|a|a]|]; try exact NO. destruct (suggest_version _ _ _ _ _) as [r []]; apply RG.
  - destruct (nth_error (o_dials v) n) as [[a|a|a]|]; try exact NO; [destruct up; [exact NO|]|]; unfold hung_up; destruct (unregister_peer _ _ _ _); apply RG.
  - destruct (suggest_version _ _ _ _ _) as [r o]. split; [apply registered_grow|]. apply registered_rest.
  - exact NO.
  - split; [|reflexivity]. split; [exists []; cbn; reflexivity|exists []; cbn; now rewrite app_nil_r].
Qed.
Lemma others_grow : forall ms v, later (o_real v) (o_real (others v ms)) /\ (exists more, o_seen (others v ms) = o_seen v ++ more) /\ o_calls (others v ms) = o_calls v.
Proof.
  intros ms v. assert (K : grow v (others v ms) /\ o_calls (others v ms) = o_calls v).
  { revert v. induction ms as [|m ms IH]; intros v; cbn [WholeModel.others fold_left]; [split; [apply grow_refl|reflexivity]|].
    destruct (move_grow v m) as [A B]. destruct (IH (mstep v m)) as [C D]. split; [eapply grow_trans; eauto|]. unfold WholeModel.others in D. congruence. }
  destruct K as [[A B] C]. auto.
Qed.

(** * The loader among the other goroutines *)
Definition fit (v : whole) : Prop := RInv (re_reg (o_real v)) /\ shape v.
Lemma others_fit : forall ms v, fit v -> Forall wf_move ms -> fit (others v ms) /\ exists hs, Forall wf_happening hs /\ o_real (others v ms) = fold_left happens hs (o_real v).
Proof.
  induction ms as [|m ms IH]; intros v [RI SH] W; cbn [WholeModel.others fold_left]; [split; [split; auto|exists []; auto]|].
  assert (WM := Forall_inv W). apply Forall_inv_tail in W. destruct (@move_effect v m RI SH WM) as (hs & WH & E). pose proof (@move_shape v m RI SH WM) as F.
  destruct (IH _ F W) as (F' & hs' & WH' & E'). split; [exact F'|]. exists (hs ++ hs'). split; [now apply Forall_app|]. rewrite fold_left_app, <- E. exact E'.
Qed.
Definition with_env (x : real) (e : list (list LoadModel.happening)) : real :=
  {| re_lk := re_lk x; re_reg := re_reg x; re_now := re_now x; re_env := e; re_faults := re_faults x; re_rand := re_rand x;
     re_sent := re_sent x; re_lines := re_lines x; re_ops := re_ops x; re_rops := re_rops x |}.
Lemma happens_env : forall hs x e, fold_left happens hs (with_env x e) = with_env (fold_left happens hs x) e.
Proof. induction hs as [|h hs IH]; intros x e; cbn [fold_left]; [reflexivity|]. rewrite <- IH. reflexivity. Qed.
Lemma call_env : forall c x hs rest, re_env x = [] ->
  rw c (with_env x (hs :: rest)) = let (y, r) := rw c (fold_left happens hs x) in (with_env y rest, r).
Proof.
  intros c x hs rest N. assert (M1 : meanwhile cfg g (with_env x (hs :: rest)) = with_env (fold_left happens hs x) rest).
  { unfold meanwhile. cbn [with_env re_env hd tl]. rewrite happens_env. reflexivity. }
  assert (M2 : meanwhile cfg g (fold_left happens hs x) = fold_left happens hs x).
  { assert (EN : re_env (fold_left happens hs x) = []).
    { revert x N M1. induction hs as [|h hs IH]; intros x N _; cbn [fold_left]; [exact N|]. apply IH; [exact N|]. unfold meanwhile. cbn [with_env re_env hd tl]. rewrite happens_env. reflexivity. }
    unfold meanwhile. rewrite EN. cbn [hd tl fold_left]. destruct (fold_left happens hs x). cbn in EN |- *. now subst. }
  unfold real_world. rewrite M1, M2. generalize (fold_left happens hs x). intros y. destruct c; try reflexivity;
    unfold writes; cbn [with_env re_lk re_faults]; destruct (exec g (re_lk y) _ _); reflexivity.
Qed.
Lemma call_keeps : forall c x, re_env x = [] -> re_reg (fst (rw c x)) = re_reg x /\ re_rops (fst (rw c x)) = re_rops x /\ re_env (fst (rw c x)) = [].
Proof.
  intros c x N. assert (M : meanwhile cfg g x = x). { unfold meanwhile. rewrite N. cbn [hd tl fold_left]. destruct x. cbn in N |- *. now subst. }
  unfold real_world. rewrite M. destruct c; cbn [fst]; auto; unfold writes; destruct (exec g (re_lk x) _ _); auto.
Qed.
Lemma todo_hd : forall v, shape v -> Forall wf_move (hd [] (o_todo v)) /\ Forall (Forall wf_move) (tl (o_todo v)).
Proof. intros v SH. pose proof (sh_todo SH) as T. destruct T; cbn; auto. Qed.
Definition v_pre (v : whole) : whole := set_todo (others v (hd [] (o_todo v))) (tl (o_todo v)).
Lemma world_at : forall c v, ww c v = (add_call (v_pre v) (fst (rw c (o_real (v_pre v)))) (c ==> snd (rw c (o_real (v_pre v)))), snd (rw c (o_real (v_pre v)))).
Proof. intros c v. unfold whole_world. fold (v_pre v). cbv zeta. now destruct (rw c (o_real (v_pre v))). Qed.
Lemma pre_fit : forall v, fit v -> fit (v_pre v).
Proof.
  intros v [RI SH]. destruct (todo_hd SH) as [T1 T2]. destruct (others_fit (conj RI SH) T1) as ([RI' SH'] & _). split; [exact RI'|].
  destruct SH' as [A B C D]. constructor; auto.
Qed.
Lemma call_fit : forall c v, fit v -> fit (fst (ww c v)).
Proof.
  intros c v F. rewrite world_at. cbn [fst]. apply pre_fit in F. destruct F as [RI [A B C D]]. destruct (@call_keeps c (o_real (v_pre v)) D) as (K1 & K2 & K3).
  split; [cbn [add_call o_real]; now rewrite K1|]. constructor; cbn [add_call o_dials o_dist o_todo o_real]; auto.
Qed.
(** The fit states as a type. *)
Definition fstate := { v : whole | fit v }.
Definition fworld : world fstate := fun c u => (exist _ (fst (ww c (proj1_sig u))) (call_fit c (proj2_sig u)), snd (ww c (proj1_sig u))).
Definition step_env := { hs : list LoadModel.happening | Forall wf_happening hs }.
Definition as_real (u : fstate) (es : list step_env) : real * list event :=
  (with_env (o_real (proj1_sig u)) (map (@proj1_sig _ _) es), o_calls (proj1_sig u)).
Lemma fworld_sim : simulates fworld ww (@proj1_sig _ _).
Proof. intros c u. unfold fworld. cbn [proj1_sig fst snd]. apply surjective_pairing. Qed.
Lemma fworld_follows : follows fworld lrw as_real.
Proof.
  intros c [v F]. unfold along. destruct F as [RI SH]. destruct (todo_hd SH) as [T1 T2].
  destruct (others_fit (conj RI SH) T1) as (F' & hs & WH & E). exists [exist _ hs WH]. intros rest. unfold as_real, fworld. cbn [proj1_sig app map fst snd].
  rewrite log_call, world_at. cbn [fst snd add_call o_real o_calls]. rewrite call_env by exact (sh_env SH). unfold v_pre. cbn [set_todo o_real o_calls].
  rewrite <- E. destruct (rw c (o_real (others v (hd [] (o_todo v))))) as [y r]. cbn [fst snd]. f_equal. f_equal. f_equal.
  now destruct (others_grow (hd [] (o_todo v)) v) as (_ & _ & ->).
Qed.

(** * As long as nothing has crashed *)
Hypothesis WG : wf_pblock g.
Hypothesis NV : g_versions cfg <> [].
Hypothesis OM : map_order ord.
Hypothesis CO : permutes cord.
Hypothesis SO : permutes srt.
Definition history (x : real) : Prop :=
  (exists l0, start g = Ok l0 /\ re_lk x = run g l0 (re_ops x)) /\ Forall wf_rop (re_rops x) /\ re_reg x = rrun cfg (re_rops x).
Definition wf_history (x : real) : Prop := Forall (fun of => wf_op (fst of)) (re_ops x).
Lemma happens_history : forall hs x, history x -> Forall wf_happening hs -> history (fold_left happens hs x).
Proof.
  induction hs as [|h hs IH]; intros x H W; cbn [fold_left]; [exact H|]. apply IH; [|now apply Forall_inv_tail in W]. apply Forall_inv in W.
  destruct H as ((l0 & S0 & E) & F & R). destruct h as [o f|o|t]; unfold history; cbn [LoadModel.happens re_lk re_ops re_rops re_reg]; rewrite ?app_nil_r.
  - split; [|auto]. exists l0. split; [exact S0|]. rewrite run_app, <- E. reflexivity.
  - split; [eauto|]. split; [apply Forall_app; auto|]. unfold rrun. rewrite fold_left_app, R. reflexivity.
  - split; [eauto|]. auto.
Qed.
Lemma later_wf : forall x y, later x y -> wf_history y -> wf_history x.
Proof. intros x y [m E] H. unfold wf_history in *. rewrite E in H. now apply Forall_app in H. Qed.
Lemma history_reach : forall x, history x -> wf_history x -> short x -> dreach cfg g (re_ops x) (re_rops x) {| d_lk := re_lk x; d_reg := re_reg x |}.
Proof.
  intros x ((l0 & S0 & E) & F & R) W SH. split; cbn [d_lk d_reg]; [|split; auto]. split; [exact WG|]. split; [split; auto|]. eauto.
Qed.
Record alive (v : whole) : Prop := {
  al_fit : fit v;
  al_hist : history (o_real v);
  al_dead : o_dead v = false;
  al_tame : forall ad b, o_dist v = DSending (PBlock ad b) -> (pb_bt b <= max_int64)%N
}.
Definition lasting (v' : whole) : Prop := wf_history (o_real v') /\ short (o_real v') /\ Forall tame (o_seen v').
Lemma grow_lasting : forall v v', grow v v' -> lasting v' -> lasting v.
Proof.
  intros v v' [L [m E]] (A & B & C). split; [eapply later_wf; eauto|]. split; [eapply later_short; eauto|]. rewrite E in C. now apply Forall_app in C.
Qed.
Lemma suggest_returns : forall r now w a, wf_addr a -> returned (snd (suggest_version cfg r now w a)).
Proof.
  intros r now w a WA. unfold suggest_version. destruct (get_peer_returns (r_db r) (wf_nonzero WA)) as (o & -> & [[p ->]| ->]).
  - destruct (p_state p); try exact Logic.I. destruct (next_total (p_version p) NV) as [v ->].
    match goal with |- context [finish ?a ?b ?c] => pose proof (finish_returns a b c) as F; destruct (finish a b c) as [r' o'] end. cbn [snd] in F. destruct F as [-> | ->]; exact Logic.I.
  - assert (B : exists v, best_version (g_versions cfg) = Ok v) by (destruct (g_versions cfg); [now destruct NV|cbn; eauto]). destruct B as [v ->].
    match goal with |- context [finish ?a ?b ?c] => pose proof (finish_returns a b c) as F; destruct (finish a b c) as [r' o'] end. cbn [snd] in F. destruct F as [-> | ->]; exact Logic.I.
Qed.
Lemma ignored_returned : forall A (o : outcome A), returned o -> returned (ignored o).
Proof. intros A o H. destruct o; auto. Qed.
Lemma move_alive : forall v m, alive v -> wf_move m -> lasting (mstep v m) -> alive (mstep v m).
Proof.
  intros v m AL W LA. destruct AL as [[RI SH] H D T]. destruct (move_grow v m) as [GR _]. pose proof (grow_lasting GR LA) as (WO & SHT & _).
  pose proof (history_reach H WO SHT) as DR. fold (stores v) in DR.
  assert (AF := @move_shape v m RI SH W). assert (AH : history (o_real (mstep v m))).
  { destruct (@move_effect v m RI SH W) as (hs & WH & ->). now apply happens_history. }
  assert (DW : forall n d, nth_error (o_dials v) n = Some d -> wf_addr (dial_addr d)).
  { intros n d E. apply nth_error_In in E. exact (proj1 (Forall_forall _ _) (sh_dials SH) d E). }
  destruct LA as (_ & _ & TA).
  assert (KEY : o_dead (mstep v m) = false /\ forall ad b, o_dist (mstep v m) = DSending (PBlock ad b) -> (pb_bt b <= max_int64)%N); [|destruct KEY; constructor; auto].
  clear AF AH GR. unfold move_step in *. rewrite D in *.
  assert (NO : o_dead v = false /\ forall ad b, o_dist v = DSending (PBlock ad b) -> (pb_bt b <= max_int64)%N) by auto.
  assert (RG : forall r o h b ds, returned o -> o_dead (set_respawn (registered v r o h) b ds) = false /\
     forall ad b0, o_dist (set_respawn (registered v r o h) b ds) = DSending (PBlock ad b0) -> (pb_bt b0 <= max_int64)%N).
  { intros r o h b ds RO. cbn [set_respawn o_dead o_dist]. destruct (registered_rest v r o h) as (-> & _ & _ & _ & _ & _ & DD). rewrite DD by exact RO. auto. }
  assert (HU : forall x n a, wf_addr a -> o_dead (hung_up v x n a) = false /\ forall ad b0, o_dist (hung_up v x n a) = DSending (PBlock ad b0) -> (pb_bt b0 <= max_int64)%N).
  { intros x n a WA. unfold hung_up. pose proof (unregister_returns (re_reg (o_real v)) (ft_now x) (ft_write x) (wf_nonzero WA)) as U. destruct (unregister_peer _ _ _ _) as [r o].
    apply RG. now apply ignored_returned. }
  destruct m as [x a|[clock|]|x n|x n up|x [a|]|t].
  - destruct (o_dist v) eqn:DV; [|split; [exact D|intros ad b Q; rewrite DV in Q; exact (proj2 NO ad b Q)]|split; [exact D|intros ad b Q; rewrite DV in Q; exact (proj2 NO ad b Q)]]. destruct W as [W1 W2].
    destruct (handle cfg g srt cord x (stores v) a) as [[d ss] o] eqn:E. destruct (@d_panics _ _ _ _ _ _ _ x a _ _ _ DR SO W1 E) as [[PC _] OP].
    assert (TM : tame a -> o <> Panic) by (intros TM ->; exact (tame_not_crashing TM (PC eq_refl))).
    destruct OP as [-> | [p ->]].
    + exfalso. apply TM; [|reflexivity]. cbn in TA. apply Forall_app in TA. exact (Forall_inv (proj2 TA)).
    + cbn [set_dist set_real set_seen o_dead o_dist o_seen] in *. split; [exact D|]. intros ad b Q. destruct p as [p|]; [|discriminate]. injection Q as ->.
      eapply package_tame; [|exact E]. apply Forall_app in TA. apply (Forall_inv (proj2 TA)).
  - destruct (o_armed v); [|exact NO]. destruct (@take_returns cfg (re_reg (o_real v)) clock RI) as (r & l & ->). now apply RG.
  - destruct (o_armed v); exact NO.
  - destruct (nth_error (o_dials v) n) as [[a|a|a]|] eqn:N; try exact NO. pose proof (suggest_returns (re_reg (o_real v)) (ft_now x) (ft_write x) (DW _ _ N)) as R.
    destruct (suggest_version _ _ _ _ _) as [r []]; apply RG; try exact Logic.I; destruct R.
  - destruct (nth_error (o_dials v) n) as [[a|a|a]|] eqn:N; try exact NO; [destruct up; [exact NO|]|]; apply HU; exact (DW _ _ N).
  - pose proof (suggest_returns (re_reg (o_real v)) (ft_now x) (ft_write x) W) as R. destruct (suggest_version _ _ _ _ _) as [r o].
    exact (RG r (ignored o) _ (o_armed (registered v r (ignored o) (RSuggest a (ft_now x) (ft_write x)))) (o_dials (registered v r (ignored o) (RSuggest a (ft_now x) (ft_write x)))) (ignored_returned R)).
  - exact NO.
  - exact NO.
Qed.
(** * One call and one turn *)
Lemma others_alive : forall ms v, alive v -> Forall wf_move ms -> lasting (others v ms) -> alive (others v ms).
Proof.
  induction ms as [|m ms IH]; intros v AL W LA; cbn [WholeModel.others fold_left]; [exact AL|]. assert (WM := Forall_inv W). apply Forall_inv_tail in W.
  apply IH; auto. apply move_alive; auto. eapply grow_lasting; [|exact LA]. destruct (others_grow ms (mstep v m)) as (A & B & _). split; auto.
Qed.
Lemma todo_alive : forall v t, alive v -> Forall (Forall wf_move) t -> alive (set_todo v t).
Proof. intros v t [[RI [A B C D]] H DD T] W. constructor; auto. split; [exact RI|]. constructor; auto. Qed.
Lemma call_grow : forall c v, grow v (fst (ww c v)).
Proof.
  intros c v. rewrite world_at. cbn [fst]. destruct (others_grow (hd [] (o_todo v)) v) as (A & B & _). split; [|exact B]. cbn [add_call o_real].
  eapply later_trans; [exact A|]. change (o_real (v_pre v)) with (o_real (others v (hd [] (o_todo v)))).
  pose proof (@later_all cfg g ord cord srt c (o_real (others v (hd [] (o_todo v))), [])) as L. rewrite log_call in L. cbn [fst] in L. destruct (rw c _) as [y r]. exact L.
Qed.
Lemma call_history : forall c x, re_env x = [] -> history x -> history (fst (rw c x)).
Proof.
  intros c x N H. assert (M : meanwhile cfg g x = x). { unfold meanwhile. rewrite N. cbn [hd tl fold_left]. destruct x. cbn in N |- *. now subst. }
  unfold real_world. rewrite M. destruct H as ((l0 & S0 & E) & F & R).
  assert (WR : forall o, history (fst (writes g x o))).
  { intros o. unfold writes. destruct (exec g (re_lk x) o (hd None (re_faults x))) as [l r] eqn:X. split; [|auto]. exists l0. split; [exact S0|]. cbn [fst re_lk re_ops].
    rewrite run_app, <- E. cbn [run]. now rewrite X. }
  destruct c; cbn [fst]; try apply WR; split; auto; exists l0; auto.
Qed.
Lemma call_alive : forall c v, alive v -> lasting (fst (ww c v)) -> alive (fst (ww c v)).
Proof.
  intros c v AL LA. assert (AF := call_fit c (al_fit AL)). destruct (todo_hd (proj2 (al_fit AL))) as [T1 T2].
  assert (AP : alive (v_pre v)).
  { apply todo_alive; [|exact T2]. apply others_alive; auto. eapply grow_lasting; [|exact LA]. rewrite world_at. cbn [fst]. split; [|exists []; cbn; now rewrite app_nil_r].
    cbn [add_call o_real]. change (o_real (v_pre v)) with (o_real (others v (hd [] (o_todo v)))).
    pose proof (@later_all cfg g ord cord srt c (o_real (others v (hd [] (o_todo v))), [])) as L. rewrite log_call in L. cbn [fst] in L. destruct (rw c _) as [y r]. exact L. }
  destruct AP as [[RI SH] H D T]. constructor; try exact AF; rewrite world_at; cbn [fst add_call o_real o_dead o_dist]; auto. apply call_history; auto. apply SH.
Qed.
Lemma step_alive : forall i l v, alive v -> lasting (snd (fst (loader_step ww i l v))) -> alive (snd (fst (loader_step ww i l v))).
Proof.
  intros i l v AL LA.
  pose proof (@step_all _ ww (fun x y => grow x y /\ (alive x -> lasting y -> alive y))) as K.
  assert (R1 : forall x, grow x x /\ (alive x -> lasting x -> alive x)) by (intros x; split; [apply grow_refl|auto]).
  assert (R2 : forall x y z, grow x y /\ (alive x -> lasting y -> alive y) -> grow y z /\ (alive y -> lasting z -> alive z) -> grow x z /\ (alive x -> lasting z -> alive z)).
  { intros x y z [A B] [C D]. split; [eapply grow_trans; eauto|]. intros AX LZ. apply D; auto. apply B; auto. eapply grow_lasting; eauto. }
  assert (R3 : forall c x, grow x (fst (ww c x)) /\ (alive x -> lasting (fst (ww c x)) -> alive (fst (ww c x)))).
  { intros c x. split; [apply call_grow|]. intros. now apply call_alive. }
  exact (proj2 (K R1 R2 R3 i l v) AL LA).
Qed.
Lemma step_grow : forall i l v, grow v (snd (fst (loader_step ww i l v))).
Proof. intros i l v. exact (@step_all _ ww grow grow_refl grow_trans call_grow i l v). Qed.
(** The loader does what it does in the real world. *)
Lemma step_lift : forall i l v l' v' r, fit v -> loader_step ww i l v = ((l', v'), r) ->
  exists env, Forall (Forall wf_happening) env /\ loader_step lrw i l (with_env (o_real v) env, o_calls v) = ((l', (o_real v', o_calls v')), r) /\ fit v'.
Proof.
  intros i l v l' v' r F E. pose proof (loader_step_sim fworld_sim i l (exist _ v F)) as SM. cbn [proj1_sig] in SM. rewrite E in SM.
  destruct (loader_step_lift fworld_follows i l (exist _ v F)) as [es X]. specialize (X []). rewrite app_nil_r in X.
  destruct (loader_step fworld i l (exist _ v F)) as [[l1 [v1 F1]] r1]. unfold lonto in SM. cbn [fst snd proj1_sig] in SM. injection SM as -> -> ->.
  exists (map (@proj1_sig _ _) es). split.
  - apply Forall_map, Forall_forall. intros [hs WH] _. exact WH.
  - unfold as_real in X. cbn [proj1_sig fst snd map] in X. split; [|exact F1]. rewrite X. repeat f_equal. destruct F1 as [_ [_ _ _ N]].
    destruct (o_real v1). cbn in N |- *. now subst.
Qed.

(** * Turns *)
Notation tstep := (turn_step cfg g ord cord srt).
Notation process := (process cfg g ord cord srt).
Notation run_ok := (run_ok cfg g).
Definition going (l : loader) (v : whole) : Prop := run_ok l (o_real v) /\ alive v.
Lemma tame_dec : forall a, tame a \/ ~ tame a.
Proof.
  intros [from m|[from h|from|]|]; cbn [tame]; auto.
  - assert (K : forall b, (forall b', NetSpec.carries m b' -> b' = b) -> NetSpec.carries m b -> (forall b', NetSpec.carries m b' -> (pb_bt b' <= max_int64)%N) \/
      ~ (forall b', NetSpec.carries m b' -> (pb_bt b' <= max_int64)%N)).
    { intros b U C. destruct (N.le_gt_cases (pb_bt b) max_int64) as [L|L]; [left; intros b' C'; now rewrite (U b' C')|right; intros H; specialize (H b C); lia]. }
    destruct m as [| l | ids | [b|] | s | mi | [b|] | ids | | | | | | | | | | | | | | n]; try (left; intros b' [Q|Q]; discriminate Q);
      (apply (K b); [intros b' [Q|Q]; congruence|]); [left|right]; reflexivity.
  - destruct (hs_app (co_hs (ln_conn from))); [right|left]; congruence.
Qed.
Lemma handling_post : forall i l v ms l' v' r, going l v -> Forall (Forall wf_move) ms -> wf_input i ->
  handling cfg g ord cord srt i l v ms = ((l', v'), r) -> short (o_real v') -> Forall tame (o_seen v') ->
  (returned r /\ going l' v') \/ (~ returned r /\ bad_lcb (o_calls v')).
Proof.
  intros i l v ms l' v' r [RO AL] W WI E SH TA. unfold handling in E. destruct (loader_step ww i l (set_todo v ms)) as [[l1 v1] r1] eqn:E1. injection E as <- <- <-.
  cbn [set_todo o_real o_seen o_calls] in *. pose proof (todo_alive AL W) as AT. destruct (step_lift (al_fit AT) E1) as (env & WE & E2 & F1).
  cbn [set_todo o_real o_calls] in E2.
  assert (RE : run_ok l (with_env (o_real v) env)).
  { destruct RO as [[(A & B & C & D & E & _) MW] HO]. split; [|exact HO]. split; [|exact MW]. split; [exact A|]. repeat (split; auto). }
  pose proof (@step_real cfg g ord cord srt OM CO SO i l (with_env (o_real v) env, o_calls v) RE WI) as P. rewrite E2 in P.
  destruct P as [[RT RO1]|[NR [EV|EV]]]; [left|contradiction|right; auto]. split; [exact RT|]. split; [exact RO1|].
  apply todo_alive; [|constructor]. pose proof (@step_alive i l (set_todo v ms) AT) as SA. rewrite E1 in SA. cbn [fst snd] in SA. apply SA. repeat split; auto. apply RO1.
Qed.
Lemma handling_grow : forall i l v ms l' v' r, handling cfg g ord cord srt i l v ms = ((l', v'), r) -> grow v v'.
Proof.
  intros i l v ms l' v' r E. unfold handling in E. pose proof (step_grow i l (set_todo v ms)) as G. destruct (loader_step ww i l (set_todo v ms)) as [[l1 v1] r1]. injection E as <- <- <-.
  exact G.
Qed.
Lemma turn_grow : forall t l v l' v' r, tstep l v t = ((l', v'), r) -> grow v v'.
Proof.
  intros [m|ms|ms|ms] l v l' v' r E; cbn [turn_step] in E.
  - injection E as <- <- <-. apply move_grow.
  - destruct (l_timer l); [exact (handling_grow E)|injection E as <- <- <-; apply grow_refl].
  - destruct (l_ticker l); [exact (handling_grow E)|injection E as <- <- <-; apply grow_refl].
  - destruct (o_dist v); try (injection E as <- <- <-; apply grow_refl). exact (handling_grow E).
Qed.
Lemma todo_turn : forall ms, Forall wf_move (concat ms) -> Forall (Forall wf_move) ms.
Proof. induction ms as [|m ms IH]; intros H; [constructor|]. cbn [concat] in H. apply Forall_app in H as [A B]. constructor; auto. Qed.
Lemma held_move : forall l v m, run_ok l (o_real v) -> fit v -> wf_move m -> run_ok l (o_real (mstep v m)).
Proof.
  intros l v m [OK HO] [RI SH] W. destruct (@move_effect v m RI SH W) as (hs & WH & ->).
  assert (K : forall zs y, ok_real cfg g y -> Forall wf_happening zs -> LoadReal.carries cfg g y (fold_left happens zs y)).
  { induction zs as [|h zs IH]; intros y OY WY; cbn [fold_left]; [now apply carries_refl|].
    pose proof (happens_carries OY (Forall_inv WY)) as C. eapply carries_trans; [exact C|]. apply IH; [apply C|now apply Forall_inv_tail in WY]. }
  specialize (K hs _ OK WH). split; [apply K|]. eapply held_carries; eauto.
Qed.
Lemma turn_post : forall t l v l' v' r, going l v -> wf_turn t -> tstep l v t = ((l', v'), r) -> short (o_real v') -> Forall tame (o_seen v') ->
  (returned r /\ going l' v') \/ (~ returned r /\ bad_lcb (o_calls v')).
Proof.
  intros [m|ms|ms|ms] l v l' v' r G W E SH TA; unfold wf_turn in W; cbn [turn_step moves_in] in *.
  - injection E as <- <- <-. left. split; [exact Logic.I|]. destruct G as [RO AL]. apply Forall_inv in W. assert (RO' := held_move RO (al_fit AL) W).
    split; [exact RO'|]. apply move_alive; auto. repeat split; auto. apply RO'.
  - destruct (l_timer l); [|injection E as <- <- <-; left; split; [exact Logic.I|exact G]]. refine (handling_post G (todo_turn W) _ E SH TA). exact Logic.I.
  - destruct (l_ticker l); [|injection E as <- <- <-; left; split; [exact Logic.I|exact G]]. refine (handling_post G (todo_turn W) _ E SH TA). exact Logic.I.
  - destruct (o_dist v) as [|p|] eqn:D; try (injection E as <- <- <-; left; split; [exact Logic.I|exact G]).
    destruct G as [RO AL]. refine (handling_post _ (todo_turn W) _ E SH TA).
    + split; [exact RO|]. destruct AL as [[RI [A B C DD]] H DE T]. constructor; auto; [|discriminate]. split; [exact RI|]. constructor; auto. exact Logic.I.
    + pose proof (sh_dist (proj2 (al_fit AL))) as WP. rewrite D in WP. destruct p as [ad ids|ad b]; cbn [input_of wf_input]; [apply WP|]. split; [apply WP|]. exact (al_tame AL D).
Qed.
Lemma process_grow : forall ts l v l' v' r, process l v ts = ((l', v'), r) -> grow v v'.
Proof.
  induction ts as [|t ts IH]; intros l v l' v' r E; cbn [WholeModel.process] in E; [injection E as <- <- <-; apply grow_refl|].
  destruct (tstep l v t) as [[l1 v1] r1] eqn:T. pose proof (turn_grow T) as G.
  destruct r1; [destruct (o_dead v1)|destruct (o_dead v1)| |]; try (injection E as <- <- <-; exact G); eapply grow_trans; eauto.
Qed.
Lemma process_post : forall ts l v l' v' r, going l v -> Forall wf_turn ts -> process l v ts = ((l', v'), r) -> short (o_real v') -> Forall tame (o_seen v') ->
  (r = Ok tt /\ going l' v') \/ (~ returned r /\ bad_lcb (o_calls v')).
Proof.
  induction ts as [|t ts IH]; intros l v l' v' r G W E SH TA; cbn [WholeModel.process] in E; [injection E as <- <- <-; auto|].
  assert (WT := Forall_inv W). apply Forall_inv_tail in W. destruct (tstep l v t) as [[l1 v1] r1] eqn:T.
  assert (G1 : grow v1 v').
  { destruct r1; [destruct (o_dead v1)|destruct (o_dead v1)| |]; try (injection E as <- <- <-; apply grow_refl); eapply process_grow; eauto. }
  assert (SH1 : short (o_real v1)) by (eapply later_short; [apply G1|exact SH]).
  assert (TA1 : Forall tame (o_seen v1)) by (destruct G1 as [_ [m M]]; rewrite M in TA; now apply Forall_app in TA).
  destruct (turn_post G WT T SH1 TA1) as [[RT GO]|[NR BAD]].
  - destruct r1 as [u|e| |]; try destruct RT; rewrite (al_dead (proj2 GO)) in E; eapply IH; eauto.
  - destruct r1 as [u|e| |]; try (destruct NR; exact Logic.I); injection E as <- <- <-; auto.
Qed.
Lemma begun_going : forall x, initial cfg g x -> going new_loader (begun x).
Proof.
  intros x (S0 & M0 & N). split.
  - split; [split; auto|]. now apply held_none.
  - assert (RI := real_reg S0). destruct S0 as (A & B & C & D & E & F). constructor; cbn; auto; [|repeat split; auto|discriminate].
    split; [exact RI|]. constructor; cbn; auto.
Qed.
(** C77 *)
Lemma process_reach : forall ts x l v, initial cfg g x -> Forall wf_turn ts -> process new_loader (begun x) ts = ((l, v), Ok tt) -> short (o_real v) ->
  Forall tame (o_seen v) -> dreach cfg g (re_ops (o_real v)) (re_rops (o_real v)) (stores v).
Proof.
  intros ts x l v X0 W E SH TA. destruct (process_post (begun_going X0) W E SH TA) as [[_ [RO AL]]|[NR _]]; [|destruct NR; exact Logic.I].
  apply history_reach; auto; [apply AL|apply RO].
Qed.
Lemma process_safe : forall ts x l v r, initial cfg g x -> Forall wf_turn ts -> process new_loader (begun x) ts = ((l, v), r) -> short (o_real v) ->
  r = Ok tt \/ (exists a, In a (o_seen v) /\ ~ tame a) \/ (exists a (k : reply (CLcb a)), In (CLcb a ==> k) (o_calls v) /\ ~ returned k).
Proof.
  intros ts x l v r X0 W E SH.
  assert (D : Forall tame (o_seen v) \/ exists a, In a (o_seen v) /\ ~ tame a).
  { generalize (o_seen v). induction l0 as [|a as0 IH]; [left; constructor|]. destruct (tame_dec a) as [T|T]; [|right; exists a; split; [now left|exact T]].
    destruct IH as [IH|(b & B & T')]; [left; now constructor|right; exists b; split; [now right|exact T']]. }
  destruct D as [TA|D]; [|auto]. destruct (process_post (begun_going X0) W E SH TA) as [[R _]|[_ BAD]]; auto.
Qed.
End Whole.
