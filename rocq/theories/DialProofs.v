(** The dialling goroutines of the running process (C85). *)
From Verif Require Import Base Kv ChainModel ChainSpec ChainProofs PeersModel PeersSpec PeersProofs PeersCalls LoadModel LoadSpec LoadProofs LoadRule LoadReal
  NetModel NetSpec NetProofs NetDist WholeModel WholeSpec WholeProofs.
Set Implicit Arguments.
Unset Strict Implicit.

Section Dial.
Variable cfg : config.
Variable g : pblock.
Variable ord : list group -> list group.
Variable cord : list (addr * conn) -> list (addr * conn).
Variable srt : list Peer -> list Peer.
Notation rw := (real_world cfg g ord cord srt).
Notation mstep := (move_step cfg g cord srt).
Notation others := (others cfg g cord srt).
Notation ww := (whole_world cfg g ord cord srt).
Notation tstep := (turn_step cfg g ord cord srt).
Notation process := (process cfg g ord cord srt).
Notation reg v := (re_reg (o_real v)).

(** * A general induction: what every step of another goroutine keeps, and the loader does not touch *)
Section Keep.
Variable P : registry -> bool -> list dialler -> Prop.
Variable ok : move -> Prop.
Definition here (v : whole) : Prop := P (reg v) (o_armed v) (o_dials v).
Hypothesis step : forall v m, fit v -> wf_move m -> ok m -> here v -> here (mstep v m).
Definition keep (v : whole) : Prop := fit v /\ Forall (Forall ok) (o_todo v) /\ here v.
Lemma move_keeps : forall v m, keep v -> wf_move m -> ok m -> keep (mstep v m).
Proof.
  intros v m (F & T & H) W O. split; [|split; [|now apply step]].
  - destruct F as [RI SH]. exact (@move_shape cfg g cord srt v m RI SH W).
  - assert (E : o_todo (mstep v m) = o_todo v); [|now rewrite E]. unfold move_step. destruct (o_dead v); [reflexivity|]. destruct m as [x a|[clock|]|x n|x n up|x [a|]|t]; try reflexivity.
    + destruct (o_dist v); try reflexivity. destruct (handle _ _ _ _ _ _ _) as [[d ss] [p|e| |]]; reflexivity.
    + destruct (o_armed v); [|reflexivity]. destruct (take_available _ _ _) as [r [l|e| |]]; cbn [set_respawn o_todo]; apply registered_rest.
    + destruct (o_armed v); reflexivity.
    + destruct (nth_error (o_dials v) n) as [[a|a|a]|]; try reflexivity. destruct (suggest_version _ _ _ _ _) as [r []]; cbn [set_respawn o_todo]; apply registered_rest.
    + destruct (nth_error (o_dials v) n) as [[a|a|a]|]; try destruct up; try reflexivity; unfold hung_up; destruct (unregister_peer _ _ _ _); cbn [set_respawn o_todo]; apply registered_rest.
    + destruct (suggest_version _ _ _ _ _). apply registered_rest.
Qed.
Lemma others_keep : forall ms v, keep v -> Forall wf_move ms -> Forall ok ms -> keep (others v ms).
Proof.
  induction ms as [|m ms IH]; intros v K W O; cbn [WholeModel.others fold_left]; [exact K|]. inversion W; subst. inversion O; subst.
  apply IH; auto. now apply move_keeps.
Qed.
Lemma call_keep : forall c v, keep v -> keep (fst (ww c v)).
Proof.
  intros c v K. split; [apply call_fit, K|]. assert (K' := K). destruct K as ((RI & SH) & T & H). destruct (todo_hd SH) as [T1 T2].
  assert (O1 : Forall ok (hd [] (o_todo v))) by (destruct T; cbn; auto). assert (O2 : Forall (Forall ok) (tl (o_todo v))) by (destruct T; cbn; auto).
  destruct (others_keep K' T1 O1) as ((RI' & SH') & T' & H'). rewrite world_at. cbn [fst add_call o_todo v_pre set_todo].
  split; [exact O2|]. unfold here. cbn [add_call o_real o_armed o_dials v_pre set_todo].
  assert (N : re_env (o_real (others v (hd [] (o_todo v)))) = []) by apply SH'.
  destruct (@call_keeps cfg g ord cord srt c _ N) as (-> & _). exact H'.
Qed.
Lemma handling_keep : forall i l v ms, keep v -> Forall (Forall wf_move) ms -> Forall (Forall ok) ms -> keep (snd (fst (handling cfg g ord cord srt i l v ms))).
Proof.
  intros i l v ms K W O. assert (K1 : keep (set_todo v ms)).
  { destruct K as ([RI [A B C D]] & T & H). split; [split; [exact RI|constructor; auto]|]. split; [exact O|exact H]. }
  unfold handling. pose proof (@step_all _ ww (fun x y => keep x -> keep y) (fun _ H => H) (fun _ _ _ H Q R => Q (H R)) call_keep i l (set_todo v ms) K1) as S1.
  destruct (loader_step ww i l (set_todo v ms)) as [[l1 v1] r1]. cbn [fst snd] in *. destruct S1 as ([RI [A B C D]] & T & H).
  split; [split; [exact RI|constructor; auto; constructor]|]. split; [constructor|exact H].
Qed.
Lemma turn_keep : forall t l v, keep v -> wf_turn t -> Forall ok (moves_in t) -> keep (snd (fst (tstep l v t))).
Proof.
  assert (CC : forall A (Q : A -> Prop) ms, Forall Q (concat ms) -> Forall (Forall Q) ms).
  { intros A Q. induction ms as [|m ms IH]; intros H; [constructor|]. cbn [concat] in H. apply Forall_app in H as [H1 H2]. constructor; auto. }
  intros [m|ms|ms|ms] l v K W O; unfold wf_turn in W; cbn [turn_step moves_in] in *.
  - inversion W; subst. inversion O; subst. now apply move_keeps.
  - destruct (l_timer l); [|exact K]. apply handling_keep; auto.
  - destruct (l_ticker l); [|exact K]. apply handling_keep; auto.
  - destruct (o_dist v) as [|p|]; try exact K. apply handling_keep; auto. destruct K as ([RI [A B C D]] & T & H). split; [split; [exact RI|constructor; auto; exact Logic.I]|]. split; [exact T|exact H].
Qed.
Lemma process_keep : forall ts l v, keep v -> Forall wf_turn ts -> Forall (fun t => Forall ok (moves_in t)) ts -> keep (snd (fst (process l v ts))).
Proof.
  induction ts as [|t ts IH]; intros l v K W O; cbn [WholeModel.process]; [exact K|]. inversion W; subst. inversion O; subst.
  pose proof (turn_keep (t := t) l K) as K1. destruct (tstep l v t) as [[l1 v1] r1]. cbn [fst snd] in K1.
  destruct r1; [destruct (o_dead v1)|destruct (o_dead v1)| |]; cbn [fst snd]; auto.
Qed.
End Keep.
Lemma begun_fit : forall x, initial cfg g x -> fit (begun x).
Proof.
  intros x (S0 & M0 & N). assert (RI := real_reg S0). split; [exact RI|]. constructor; cbn; auto.
Qed.

(** * Pending addresses *)
(** Every dialler's address has a record; and if [T], every pending address has a dialler. *)
Section Pending.
Variable T : Prop.
Definition J (r : registry) (ds : list dialler) : Prop :=
  (forall a, T -> pending r a -> In a (map dial_addr ds)) /\ Forall (fun d => ip4 (dial_addr d) /\ known r (dial_addr d)) ds.
Lemma pend_back : forall r o a, pending (rstep cfg r o) a -> pending r a \/ exists clock, o = RTake clock.
Proof.
  intros r o a P. unfold pending in *.
  assert (DB : forall x, In a (del_addr x (r_pending r)) -> In a (r_pending r)) by (intros x Q; apply del_addr_In in Q; tauto).
  destruct o as [x np h now w|x s w|x now w|[x|] w|l f|clock|x now w|]; cbn [rstep] in P; eauto; left.
  - destruct (register_cases cfg r now w x np h) as [(o & c & E & _)|(IP & ND & [(IC & E)|(_ & _ & _ & _ & E)])]; rewrite E in P; cbn [fst] in P; [eauto| |];
      rewrite (proj2 (finish_maps _ _ _)) in P; eauto.
  - unfold update_peer_score in P. destruct (get_peer (r_db r) x); try exact P. now rewrite (proj2 (finish_maps _ _ _)) in P.
  - unfold unregister_peer in P. destruct (get_peer (r_db r) x); try exact P. rewrite (proj2 (finish_maps _ _ _)) in P. eauto.
  - unfold mark_as_hostile in P. cbn [r_db] in P. destruct (get_peer (r_db r) x) as [p|[]| |]; try exact (DB _ P); rewrite (proj2 (finish_maps _ _ _)) in P; eauto.
  - unfold append_addresses in P. now destruct (append_loop cfg (r_db r) l f 0).
  - unfold suggest_version in P. destruct (get_peer (r_db r) x) as [p|[]| |]; try exact P.
    + destruct (p_state p); try exact P. destruct (next_version (g_versions cfg) (p_version p)) as [v|e| |]; try exact P.
      assert (Q := proj2 (finish_maps r (set_version p v (round_second (now + delay)%Z)) w)).
      destruct (finish r _ w) as [r' [| | |]]; cbn [fst] in *; now rewrite Q in P.
    + destruct (best_version (g_versions cfg)) as [v|e| |]; try exact P.
      assert (Q := proj2 (finish_maps r (set_version (fresh_peer x 0) v (round_second (now + delay)%Z)) w)).
      destruct (finish r _ w) as [r' [| | |]]; cbn [fst] in *; now rewrite Q in P.
  - destruct P.
Qed.
Lemma J_step : forall r o ds, RInv r -> wf_rop o -> (forall clock, o <> RTake clock) -> J r ds -> J (rstep cfg r o) ds.
Proof.
  intros r o ds I W N [A B]. split.
  - intros a HT P. destruct (pend_back P) as [Q|[clock Q]]; [auto|destruct (N _ Q)].
  - eapply Forall_impl; [|exact B]. intros d [D1 D2]. split; [exact D1|]. now apply known_step.
Qed.
Lemma J_same : forall r ds ds', map dial_addr ds' = map dial_addr ds -> J r ds -> J r ds'.
Proof.
  intros r ds ds' E [A B]. split; [now rewrite E|]. apply Forall_forall. intros d I. apply (in_map dial_addr) in I. rewrite E in I.
  apply in_map_iff in I as (d' & E' & I). rewrite Forall_forall in B. rewrite <- E'. now apply B.
Qed.
Lemma replace_same : forall n d d' ds, nth_error ds n = Some d -> dial_addr d' = dial_addr d -> map dial_addr (replace n d' ds) = map dial_addr ds.
Proof. induction n as [|n IH]; intros d d' [|y ds] N E; cbn in *; try discriminate; [injection N as <-; now rewrite E|]. f_equal. eauto. Qed.
Lemma drop_in : forall n d ds a, nth_error ds n = Some d -> In a (map dial_addr ds) -> a <> dial_addr d -> In a (map dial_addr (drop n ds)).
Proof. induction n as [|n IH]; intros d [|y ds] a N I X; cbn in *; try discriminate; [injection N as ->; destruct I; [congruence|assumption]|]. destruct I; [now left|right; eauto]. Qed.
Lemma take_J : forall r clock r' l ds, RInv r -> take_available cfg r clock = (r', Ok l) -> J r ds -> J r' (ds ++ map (fun x => Fresh (fst x)) l).
Proof.
  intros r clock r' l ds I E [A B]. destruct (take_view cfg clock I) as (pend & out & TV & _ & D & _ & PE). rewrite TV in E. injection E as <- <-.
  assert (MA : map dial_addr (map (fun x : addr * N => Fresh (fst x)) out) = map fst out) by (rewrite map_map; reflexivity).
  split.
  - intros a HT P. unfold pending in P. cbn [r_pending] in P. rewrite map_app, in_app_iff, MA. apply PE in P as [P|(port & P)]; [left; auto|right]. apply (in_map fst) in P. exact P.
  - apply Forall_app. split.
    + eapply Forall_impl; [|exact B]. intros d [D1 D2]. split; [exact D1|]. exact D2.
    + apply Forall_map, Forall_forall. intros [a port] Q. cbn [dial_addr fst]. apply D in Q as (Q1 & _ & _ & _ & _ & p & Q2 & _). split; [exact Q1|]. exists p. exact Q2.
Qed.
Lemma unregister_done : forall r now w a, known r a -> returned (snd (unregister_peer r now w a)) /\ ~ pending (fst (unregister_peer r now w a)) a /\ ~ connected (fst (unregister_peer r now w a)) a.
Proof.
  intros r now w a [p K]. unfold reg_peer in K. unfold unregister_peer. rewrite K.
  match goal with |- context [finish ?a ?b ?c] => destruct (finish_maps a b c) as [F1 F2]; destruct (finish_returns a b c) as [F3|F3] end.
  all: rewrite F3; split; [exact Logic.I|]; unfold pending, connected; rewrite F1, F2; cbn [r_conns r_pending]; rewrite del_addr_In, del_conn_keys; tauto.
Qed.
Definition steady (m : move) : Prop := T -> forall x n, m <> VCalled x n true.
Lemma handled_reg : forall x v a d ss o, handle cfg g srt cord x (stores v) a = (d, ss, o) ->
  d_reg d = reg v \/ exists q, d_reg d = rstep cfg (reg v) q /\ In (HReg q) (calls_of x a) /\ forall clock, q <> RTake clock.
Proof.
  intros x v a d ss o E. rewrite (handle_effect E). unfold calls_of. destruct a as [from m|[from h|from|]|]; cbn [fold_left]; auto.
  - destruct (ln_addr from) as [p|], m as [| l | ids | [b|] | s | [mi|] | [b|] | ids | | | | | | | | | | | | | | n]; cbn [fold_left effect with_lk with_reg d_reg WholeModel.stores]; auto; right; eexists; (split; [reflexivity|]); (split; [now left|discriminate]).
  - destruct (ln_addr from) as [p|]; cbn [fold_left effect with_lk with_reg d_reg WholeModel.stores]; auto; right; eexists; (split; [reflexivity|]); (split; [now left|discriminate]).
  - destruct (ln_addr from) as [p|]; cbn [fold_left effect with_lk with_reg d_reg WholeModel.stores]; auto; right; eexists; (split; [reflexivity|]); (split; [now left|discriminate]).
Qed.
Lemma registered_J : forall v r o h ds, RInv (reg v) -> r = rstep cfg (reg v) h -> wf_rop h -> (forall clock, h <> RTake clock) ->
  J (reg v) ds -> J (reg (registered v r o h)) ds.
Proof.
  intros v r o h ds I E W N Q. destruct o; cbn [registered set_real set_dead o_real recorded re_reg d_reg]; auto; subst r; now apply J_step.
Qed.
Lemma move_J : forall v m, fit v -> wf_move m -> steady m -> J (reg v) (o_dials v) -> J (reg (mstep v m)) (o_dials (mstep v m)).
Proof.
  intros v m [RI SH] W ST Q. unfold move_step. destruct (o_dead v); [exact Q|].
  assert (DA : forall n d, nth_error (o_dials v) n = Some d -> ip4 (dial_addr d) /\ known (reg v) (dial_addr d)).
  { intros n d N. apply nth_error_In in N. destruct Q as [_ B]. rewrite Forall_forall in B. now apply B. }
  assert (HU : forall x n d, nth_error (o_dials v) n = Some d -> J (reg (hung_up v x n (dial_addr d))) (o_dials (hung_up v x n (dial_addr d)))).
  { intros x n d N. destruct (DA n d N) as [D1 D2]. unfold hung_up. destruct (unregister_done (ft_now x) (ft_write x) D2) as (U1 & U2 & _).
    destruct (unregister_peer (reg v) (ft_now x) (ft_write x) (dial_addr d)) as [r o] eqn:E. cbn [fst snd] in U1, U2.
    cbn [set_respawn o_real o_dials].
    assert (Q1 : J r (o_dials v)).
    { replace r with (rstep cfg (reg v) (RUnregister (dial_addr d) (ft_now x) (ft_write x))) by (cbn [rstep]; now rewrite E). apply J_step; auto; [|discriminate]. cbn. apply wf_go, wf_ip4, D1. }
    assert (RR : reg (registered v r (ignored o) (RUnregister (dial_addr d) (ft_now x) (ft_write x))) = r) by (destruct o; try destruct U1; reflexivity).
    rewrite RR. destruct Q1 as [A B]. split; [|now apply drop_all]. intros a HT P. eapply drop_in; [exact N|auto|]. intros ->. contradiction. }
  destruct m as [x a|[clock|]|x n|x n up|x [a|]|t].
  - destruct (o_dist v); try exact Q. destruct (handle cfg g srt cord x (stores v) a) as [[d ss] [p|e| |]] eqn:E; try exact Q.
    cbn [set_dist set_real set_seen o_real o_dials recorded re_reg]. destruct (handled_reg E) as [->|(q & -> & IQ & NQ)]; [exact Q|].
    apply J_step; auto. destruct W as [W1 _]. pose proof (calls_wf x W1) as CW. rewrite Forall_forall in CW. exact (CW _ IQ).
  - destruct (o_armed v); [|exact Q]. destruct (take_view cfg clock RI) as (pend & out & TV & _). rewrite TV. cbn [set_respawn o_real o_dials registered set_real recorded re_reg d_reg].
    eapply take_J; eauto.
  - destruct (o_armed v); exact Q.
  - destruct (nth_error (o_dials v) n) as [[a|a|a]|] eqn:N; try exact Q. destruct (DA _ _ N) as [D1 D2]. cbn [dial_addr] in *.
    destruct (suggest_version cfg (reg v) (ft_now x) (ft_write x) a) as [r o] eqn:E.
    assert (RE : r = rstep cfg (reg v) (RSuggest a (ft_now x) (ft_write x))) by (cbn [rstep]; now rewrite E).
    assert (WR : wf_rop (RSuggest a (ft_now x) (ft_write x))) by (cbn; apply wf_go, wf_ip4, D1).
    assert (K : forall o', J (reg (registered v r o' (RSuggest a (ft_now x) (ft_write x)))) (o_dials v)) by (intros o'; apply registered_J; auto; discriminate).
    destruct o; cbn [set_respawn o_real o_dials]; (eapply J_same; [eapply replace_same; [exact N|reflexivity]|apply K]).
  - destruct (nth_error (o_dials v) n) as [d|] eqn:N; [|exact Q]. specialize (HU x n d N). destruct d as [a|a|a]; [exact Q| |exact HU].
    destruct up; [|exact HU]. cbn [set_respawn o_real o_dials]. destruct Q as [A B]. split; [|now apply drop_all]. intros b HT. destruct (ST HT x n eq_refl).
  - destruct (suggest_version cfg (reg v) (ft_now x) (ft_write x) a) as [r o] eqn:E.
    match goal with |- context [registered ?a ?b ?c ?d] => destruct (registered_rest a b c d) as (_ & _ & -> & _) end.
    apply registered_J; auto; [cbn [rstep]; now rewrite E|cbn; now apply wf_go|discriminate].
  - exact Q.
  - exact Q.
Qed.
Lemma process_pending : forall ts x l v r, initial cfg g x -> (T -> r_pending (re_reg x) = []) -> Forall wf_turn ts -> Forall (fun t => Forall steady (moves_in t)) ts ->
  process new_loader (begun x) ts = ((l, v), r) -> J (reg v) (o_dials v).
Proof.
  intros ts x l v r X N W ST E. pose proof (@process_keep (fun r _ ds => J r ds) steady move_J ts new_loader (begun x)) as K. rewrite E in K. cbn [fst snd] in K.
  apply K; auto. split; [now apply begun_fit|]. split; [constructor|]. split; [|constructor]. intros a HT P. unfold pending in P. cbn [begun o_real] in P. rewrite (N HT) in P. destruct P.
Qed.
End Pending.


(** * The timer of the respawn *)
Lemma move_armed : forall v m, fit v -> wf_move m -> m <> VRespawn None -> o_armed v = true -> o_armed (mstep v m) = true.
Proof.
  intros v m [RI SH] W N A. unfold move_step. destruct (o_dead v); [exact A|]. destruct m as [x a|[clock|]|x n|x n up|x [a|]|t]; try exact A.
  - destruct (o_dist v); try exact A. destruct (handle _ _ _ _ _ _ _) as [[d ss] [p|e| |]]; exact A.
  - rewrite A. destruct (take_view cfg clock RI) as (pend & out & -> & _). reflexivity.
  - congruence.
  - destruct (nth_error (o_dials v) n) as [[a|a|a]|]; try exact A. destruct (suggest_version _ _ _ _ _) as [r []]; exact A.
  - destruct (nth_error (o_dials v) n) as [[a|a|a]|]; try destruct up; try exact A; unfold hung_up; destruct (unregister_peer _ _ _ _); exact A.
  - destruct (suggest_version _ _ _ _ _). match goal with |- context [registered ?a ?b ?c ?d] => destruct (registered_rest a b c d) as (_ & -> & _) end. exact A.
Qed.
Lemma replace_length : forall A n (y : A) l, length (replace n y l) = length l.
Proof. intros A n y l. revert n. induction l as [|z l IH]; intros [|n]; cbn; auto. Qed.
Lemma drop_length : forall A n (l : list A), length (drop n l) <= length l.
Proof. intros A n l. revert n. induction l as [|z l IH]; intros [|n]; cbn; auto. specialize (IH n). lia. Qed.
Lemma move_disarmed : forall k v m, fit v -> wf_move m -> True -> o_armed v = false /\ length (o_dials v) <= k ->
  o_armed (mstep v m) = false /\ length (o_dials (mstep v m)) <= k.
Proof.
  intros k v m _ _ _ [A B]. assert (D : forall n, length (drop n (o_dials v)) <= k) by (intros n; pose proof (drop_length n (o_dials v)); lia).
  assert (R : forall n d, length (replace n d (o_dials v)) <= k) by (intros n d; rewrite replace_length; exact B).
  unfold move_step. destruct (o_dead v); [auto|]. destruct m as [x a|[clock|]|x n|x n up|x [a|]|t]; auto.
  - destruct (o_dist v); auto. destruct (handle _ _ _ _ _ _ _) as [[d ss] [p|e| |]]; auto.
  - rewrite A. auto.
  - rewrite A. auto.
  - destruct (nth_error (o_dials v) n) as [[a|a|a]|]; auto. destruct (suggest_version _ _ _ _ _) as [r []]; cbn [set_respawn o_armed o_dials]; auto.
  - destruct (nth_error (o_dials v) n) as [[a|a|a]|]; try destruct up; auto; unfold hung_up; try destruct (unregister_peer _ _ _ _); cbn [set_respawn o_armed o_dials]; auto.
  - destruct (suggest_version _ _ _ _ _). match goal with |- context [registered ?a ?b ?c ?d] => destruct (registered_rest a b c d) as (_ & -> & -> & _) end. auto.
Qed.
Lemma process_armed : forall ts x l v r, initial cfg g x -> Forall wf_turn ts -> Forall (fun t => Forall (fun m => m <> VRespawn None) (moves_in t)) ts ->
  process new_loader (begun x) ts = ((l, v), r) -> o_armed v = true.
Proof.
  intros ts x l v r X W N E. pose proof (@process_keep (fun _ b _ => b = true) _ move_armed ts new_loader (begun x)) as K. rewrite E in K. cbn [fst snd] in K.
  apply K; auto. split; [now apply begun_fit|]. split; [constructor|reflexivity].
Qed.
Lemma process_fit : forall ts x l v r, initial cfg g x -> Forall wf_turn ts -> process new_loader (begun x) ts = ((l, v), r) -> fit v /\ o_todo v = [].
Proof.
  intros ts x l v r X W E. pose proof (@process_keep (fun _ _ _ => True) (fun _ => True) (fun _ _ _ _ _ _ => Logic.I) ts new_loader (begun x)) as K. rewrite E in K. cbn [fst snd] in K.
  split.
  - apply K; auto; [split; [now apply begun_fit|]; split; [constructor|exact Logic.I]|]. clear. induction ts as [|t ts IH]; constructor; auto. induction (moves_in t); constructor; auto.
  - clear K X W. assert (N : o_todo (begun x) = []) by reflexivity. revert N E. generalize (begun x), new_loader. clear x.
    assert (MT : forall w m, o_todo w = [] -> o_todo (mstep w m) = []).
    { intros w m N. unfold move_step. destruct (o_dead w); [exact N|]. destruct m as [x a|[clock|]|x n|x n up|x [a|]|t]; try exact N.
      - destruct (o_dist w); try exact N. destruct (handle _ _ _ _ _ _ _) as [[d ss] [p|e| |]]; exact N.
      - destruct (o_armed w); [|exact N]. destruct (take_available _ _ _) as [q [k|e| |]]; exact N.
      - destruct (o_armed w); exact N.
      - destruct (nth_error (o_dials w) n) as [[a|a|a]|]; try exact N. destruct (suggest_version _ _ _ _ _) as [q []]; exact N.
      - destruct (nth_error (o_dials w) n) as [[a|a|a]|]; try destruct up; try exact N; unfold hung_up; destruct (unregister_peer _ _ _ _) as [q []]; exact N.
      - destruct (suggest_version _ _ _ _ _) as [q []]; exact N. }
    assert (HT : forall i k w ms, o_todo (snd (fst (handling cfg g ord cord srt i k w ms))) = []).
    { intros i k w ms. unfold handling. destruct (loader_step _ _ _ _) as [[? ?] ?]. reflexivity. }
    assert (TT : forall t k w, o_todo w = [] -> o_todo (snd (fst (tstep k w t))) = []).
    { intros [m|ms|ms|ms] k w N; cbn [turn_step]; [now apply MT| | |]; [destruct (l_timer k)|destruct (l_ticker k)|destruct (o_dist w)]; auto. }
    induction ts as [|t ts IH]; intros w k N E; cbn [WholeModel.process] in E; [now injection E as _ <- _|].
    specialize (TT t k w N). destruct (tstep k w t) as [[l1 v1] r1]. cbn [fst snd] in TT.
    destruct r1; [destruct (o_dead v1)|destruct (o_dead v1)| |]; try (now injection E as _ <- _); eauto.
Qed.
Lemma process_disarmed : forall ts l v l' v' r, fit v -> o_todo v = [] -> o_armed v = false -> Forall wf_turn ts ->
  process l v ts = ((l', v'), r) -> o_armed v' = false /\ length (o_dials v') <= length (o_dials v).
Proof.
  intros ts l v l' v' r F T A W E. pose proof (@process_keep (fun _ b ds => b = false /\ length ds <= length (o_dials v)) (fun _ => True) (@move_disarmed _) ts l v) as K.
  rewrite E in K. cbn [fst snd] in K. apply K; auto.
  - split; [exact F|]. split; [rewrite T; constructor|]. split; [exact A|reflexivity].
  - clear. induction ts as [|t ts IH]; constructor; auto. induction (moves_in t); constructor; auto.
Qed.
Lemma process_alive : forall ts l v l' v', o_dead v = false -> process l v ts = ((l', v'), Ok tt) -> o_dead v' = false.
Proof.
  induction ts as [|t ts IH]; intros l v l' v' D E; cbn [WholeModel.process] in E; [now injection E as _ <-|].
  destruct (tstep l v t) as [[l1 v1] r1]. destruct r1; [destruct (o_dead v1) eqn:D1|destruct (o_dead v1) eqn:D1| |]; try discriminate; eauto.
Qed.
End Dial.
