(** Proofs about the lives of the process: the stores after any number of them (C79), and whether it starts again (C80). *)
From Verif Require Import Base Kv BytesFacts KvFacts ChainModel ChainSpec ChainTree ChainRep ChainStep ChainQueries ChainProofs ChainForks ForkProofs
  PeersModel PeersSpec PeersProofs PeersCalls LoadModel LoadSpec LoadProofs LoadFire LoadRule LoadReal NetModel NetSpec NetProofs LoadSource
  WholeModel WholeSpec WholeProofs WholeSource LifeModel LifeSpec.
Set Implicit Arguments.
Unset Strict Implicit.

Section Dying.
Variable cfg : config.
Variable g : pblock.
Variable ord : list group -> list group.
Variable cord : list (addr * conn) -> list (addr * conn).
Variable srt : list Peer -> list Peer.
Notation mstep := (move_step cfg g cord srt).
Notation others := (others cfg g cord srt).
Notation ww := (whole_world cfg g ord cord srt).
Notation dw := (dying cfg g ord cord srt).
Notation dt := (last_turn cfg g ord cord srt).
Notation vpre := (v_pre cfg g cord srt).

(** A property that the calls and the moves keep is kept by the dying process. *)
Section Keep.
Variable Pb : addr -> pblock -> Prop.
Variable Pi : addr -> id -> Prop.
Variable St : whole -> id -> Prop.
Variable K : whole -> Prop.
Hypothesis keep : forall c v, K v -> sourced Pb Pi St c v -> K (fst (ww c v)).
Hypothesis found : forall i v, K v -> snd (ww (CHas i) v) = Ok true -> St (fst (ww (CHas i) v)) i.
Hypothesis still : forall a i v, K v -> St v i -> St (fst (ww (CLeash a) v)) i.
Hypothesis wait : forall v, K v -> K (vpre v).
Definition Kd (vn : whole * option nat) : Prop := K (fst vn).
Definition Sd (vn : whole * option nat) (i : id) : Prop := match snd vn with Some _ => St (fst vn) i | None => True end.
Lemma dying_keep : forall c vn, Kd vn -> sourced Pb Pi Sd c vn -> Kd (fst (dw c vn)).
Proof.
  intros c [v [[|n]|]] H S; unfold dying, Kd in *; cbn [fst snd] in *; [exact (wait H)| |exact H]. apply keep; [exact H|]. destruct c; exact S.
Qed.
Lemma dying_found : forall i vn, Kd vn -> snd (dw (CHas i) vn) = Ok true -> Sd (fst (dw (CHas i) vn)) i.
Proof. intros i [v [[|n]|]] H E; unfold dying, Kd, Sd in *; cbn [fst snd] in *; auto. Qed.
Lemma dying_still : forall a i vn, Kd vn -> Sd vn i -> Sd (fst (dw (CLeash a) vn)) i.
Proof. intros a i [v [[|n]|]] H E; unfold dying, Kd, Sd in *; cbn [fst snd] in *; auto. Qed.
Lemma dying_step : forall i l v ms n, K (set_todo v ms) -> kept Pb l -> gives Pb Pi i -> K (last_handling cfg g ord cord srt i l v ms n).
Proof.
  intros i l v ms n H KL G. unfold last_handling.
  pose proof (@step_source _ dw Pb Pi Sd Kd dying_keep dying_found dying_still i l (set_todo v ms, Some n) H KL G) as S.
  destruct (loader_step dw i l (set_todo v ms, Some n)) as [[l' [v' n']] r]. apply S.
Qed.
End Keep.

Lemma pre_grow : forall v, grow v (vpre v).
Proof. intros v. destruct (others_grow cfg g cord srt (hd [] (o_todo v)) v) as (A & B & _). split; [exact A|exact B]. Qed.
Lemma pre_past : forall v, past cfg g v -> past cfg g (vpre v).
Proof.
  intros v P. destruct (todo_hd (proj2 (proj1 P))) as [T1 T2]. apply todo_past; [|exact T2]. apply others_past; auto.
Qed.
Lemma past_step : forall i l v ms n, past cfg g v -> Forall (Forall wf_move) ms -> past cfg g (last_handling cfg g ord cord srt i l v ms n).
Proof.
  intros i l v ms n P W. unfold last_handling.
  assert (C : forall c vn, past cfg g (fst vn) -> past cfg g (fst (fst (dw c vn)))).
  { intros c [u [[|k]|]] H; unfold dying; cbn [fst snd] in *; [exact (pre_past H)|now apply call_past|exact H]. }
  pose proof (@step_all _ dw (fun x y => past cfg g (fst x) -> past cfg g (fst y)) (fun _ H => H) (fun _ _ _ H Q R => Q (H R)) C i l (set_todo v ms, Some n) (todo_past P W)) as S.
  destruct (loader_step dw i l (set_todo v ms, Some n)) as [[l' [v' n']] r]. exact S.
Qed.
Lemma past_last : forall t l v n, past cfg g v -> wf_turn t -> past cfg g (dt l v t n).
Proof.
  intros [m|ms|ms|ms] l v n P W; unfold wf_turn in W; cbn [last_turn moves_in] in *.
  - apply move_past; [now apply Forall_inv in W|exact P].
  - destruct (l_timer l); [|exact P]. apply past_step; [exact P|now apply todo_turn].
  - destruct (l_ticker l); [|exact P]. apply past_step; [exact P|now apply todo_turn].
  - destruct (o_dist v) as [|p|]; try exact P. apply past_step; [|now apply todo_turn].
    destruct P as ([RI [A B C D]] & H & S). split; [|split; [exact H|exact S]]. split; [exact RI|]. constructor; auto. exact Logic.I.
Qed.
Lemma grow_step : forall i l v ms n, grow v (last_handling cfg g ord cord srt i l v ms n).
Proof.
  intros i l v ms n. unfold last_handling.
  assert (C : forall c vn, grow (fst vn) (fst (fst (dw c vn)))).
  { intros c [u [[|k]|]]; unfold dying; cbn [fst snd]; [apply pre_grow|apply call_grow|apply grow_refl]. }
  pose proof (@step_all _ dw (fun x y => grow (fst x) (fst y)) (fun _ => grow_refl _) (fun _ _ _ => @grow_trans _ _ _) C i l (set_todo v ms, Some n)) as S.
  destruct (loader_step dw i l (set_todo v ms, Some n)) as [[l' [v' n']] r]. exact S.
Qed.
Lemma grow_last : forall t l v n, grow v (dt l v t n).
Proof.
  intros [m|ms|ms|ms] l v n; cbn [last_turn].
  - apply move_grow.
  - destruct (l_timer l); [apply grow_step|apply grow_refl].
  - destruct (l_ticker l); [apply grow_step|apply grow_refl].
  - destruct (o_dist v) as [|p|]; try apply grow_refl. exact (grow_step (input_of p) l (set_dist v DSelect) ms n).
Qed.

Section Just.
Variable seen : list arrival.
Variable ops0 : list (op * option nat).
Notation jst := (jst seen ops0).
Notation jrel := (jrel seen ops0).
Lemma pre_jrel : forall v, jrel v (vpre v).
Proof.
  intros v. split; [apply pre_grow|]. split.
  - intros N. unfold no_env, v_pre. cbn [set_todo o_real]. now rewrite others_env.
  - intros N I J. pose proof (@others_just cfg g cord srt seen ops0 (hd [] (o_todo v)) v I J) as [J1 J2]. split; [exact J1|exact J2].
Qed.
Lemma just_step : forall i l v ms n, no_env v -> jst v -> lkept seen l -> gives (jb seen) (ji seen) i ->
  incl (o_seen (last_handling cfg g ord cord srt i l v ms n)) seen -> jst (last_handling cfg g ord cord srt i l v ms n).
Proof.
  intros i l v ms n N J KL G I.
  pose proof (@dying_step (jb seen) (ji seen) (fun _ _ => True) (jrel (set_todo v ms)) (fun c v' R S => jrel_trans R (@call_jrel cfg g ord cord srt seen ops0 c v' S)) (fun _ _ _ _ => Logic.I) (fun _ _ _ _ _ => Logic.I)
    (fun v' R => jrel_trans R (pre_jrel v')) i l v ms n) as K.
  assert (R0 : jrel (set_todo v ms) (set_todo v ms)) by (split; [apply grow_refl|auto]). specialize (K R0 KL G). destruct K as (_ & _ & K). apply K; auto.
Qed.
Lemma just_last : forall t l v n, no_env v -> jst v -> lkept seen l -> incl (o_seen (dt l v t n)) seen -> jst (dt l v t n).
Proof.
  intros [m|ms|ms|ms] l v n N J KL I; cbn [last_turn] in *.
  - now apply move_just.
  - destruct (l_timer l); [|exact J]. apply just_step; auto. exact Logic.I.
  - destruct (l_ticker l); [|exact J]. apply just_step; auto. exact Logic.I.
  - destruct (o_dist v) as [|p|] eqn:D; try exact J. apply just_step; auto.
    + split; [apply J|exact Logic.I].
    + destruct J as [_ P]. rewrite D in P. destruct p as [a ids|a b]; exact P.
Qed.
End Just.

Section Moves.
Variable x0 : real.
Hypothesis X0 : initial cfg g x0.
Variable fin : list (op * option nat).
Hypothesis WF : wf_hist fin.
Notation minds := (minds cfg g fin).
Lemma pre_minds : forall v, minds v -> minds (vpre v).
Proof.
  intros v M. destruct (todo_hd (proj2 (proj1 (proj1 M)))) as [T1 T2]. apply todo_minds; [|exact T2]. apply others_minds; auto.
Qed.
Lemma minds_step : forall i l v ms n, minds v -> rested l -> Forall (Forall wf_move) ms -> minds (last_handling cfg g ord cord srt i l v ms n).
Proof.
  intros i l v ms n M KL W.
  assert (G : gives (fun _ _ => True) (fun _ _ => True) i) by (destruct i as [a ids|a [b|]| |]; cbn; auto; apply Forall_forall; auto).
  exact (@dying_step (fun _ _ => True) (fun _ _ => True) (seen_true fin) minds (@call_minds cfg g ord cord srt x0 X0 fin WF) (@found_true cfg g ord cord srt fin)
    (@still_true cfg g ord cord srt x0 X0 fin WF) pre_minds i l v ms n (todo_minds M W) KL G).
Qed.
Lemma minds_last : forall t l v n, minds v -> rested l -> wf_turn t -> minds (dt l v t n).
Proof.
  intros [m|ms|ms|ms] l v n M KL W; unfold wf_turn in W; cbn [last_turn moves_in] in *.
  - apply move_minds; [now apply Forall_inv in W|exact M].
  - destruct (l_timer l); [|exact M]. apply minds_step; auto. now apply todo_turn.
  - destruct (l_ticker l); [|exact M]. apply minds_step; auto. now apply todo_turn.
  - destruct (o_dist v) as [|p|]; try exact M. apply minds_step; auto; [|now apply todo_turn].
    destruct M as [([RI [A B C D]] & H & S) M]. split; [|exact M]. split; [|split; [exact H|exact S]]. split; [exact RI|]. constructor; auto. exact Logic.I.
Qed.
End Moves.

(** * One life *)
Notation live := (live cfg g ord cord srt).
Lemma opened_initial : forall x li, initial cfg g x -> wf_life li -> initial cfg g (opened cfg g x li).
Proof.
  intros x li ((WG & (l0 & S0 & E) & WO & WR & RR & _) & MW & _) [WS _]. split; [|split; [|reflexivity]].
  - split; [exact WG|]. split; [|split; [|split; [|split]]]; cbn [opened re_lk re_ops re_reg re_rops re_env].
    + exists l0. split; [exact S0|]. rewrite run_app, E. reflexivity.
    + apply Forall_app. split; [exact WO|]. constructor; [exact Logic.I|constructor].
    + apply Forall_app. split; [exact WR|]. constructor; [exact Logic.I|]. constructor; [exact WS|constructor].
    + rewrite RR. unfold rrun. now rewrite fold_left_app.
    + constructor.
  - intros l1 S1. cbn [opened re_ops]. apply good_moves_app. split; [now apply MW|]. cbn [good_moves]. auto.
Qed.
Lemma live_known : forall x li, initial cfg g x -> wf_life li -> let v := live x li in
  ran cfg g (opened cfg g x li) v /\ forall fin, wf_hist fin -> minds cfg g fin v.
Proof.
  intros x li X W v. pose proof (opened_initial X W) as X0. destruct W as (_ & WT & WK).
  assert (B : ran cfg g (opened cfg g x li) (begun (opened cfg g x li)) /\ forall fin, wf_hist fin -> minds cfg g fin (begun (opened cfg g x li))).
  { split; [split; [|now apply begun_past]|].
    - split; [|exact Logic.I]. exists []. split; [cbn; now rewrite app_nil_r|constructor].
    - intros fin _. split; [now apply begun_past|]. intros _. apply X0. }
  unfold v, LifeModel.live. destruct (starts g x); try exact B.
  destruct (process cfg g ord cord srt new_loader (begun (opened cfg g x li)) (li_turns li)) as [[l u] r] eqn:E.
  assert (P : ran cfg g (opened cfg g x li) u /\ forall fin, wf_hist fin -> minds cfg g fin u).
  { split; [apply (process_ran X0 WT E)|]. intros fin WF. apply (process_well X0 WF WT E). }
  destruct r; try exact P. destruct (li_killed li) as [[t n]|]; [|exact P]. split; [split|].
  - assert (N : no_env (begun (opened cfg g x li))) by reflexivity. set (z := dt l u t n).
    assert (J : jst (o_seen z) (re_ops (opened cfg g x li)) (begun (opened cfg g x li))). { split; [|exact Logic.I]. exists []. split; [cbn; now rewrite app_nil_r|constructor]. }
    assert (KL : lkept (o_seen z) new_loader) by (intros p Bp; discriminate).
    destruct (process_just N J KL E (grow_seen (grow_last t l u n) (incl_refl _))) as (J1 & J2 & J3). apply just_last; auto. apply incl_refl.
  - apply past_last; [apply P|exact WK].
  - intros fin WF. destruct (process_well X0 WF WT E) as [M R]. eapply minds_last; eauto.
Qed.
Lemma live_grow : forall x li, initial cfg g x -> wf_life li -> exists more, re_ops (o_real (live x li)) = re_ops x ++ (Reopen, None) :: more.
Proof.
  intros x li X W. destruct (live_known X W) as [[J _] _]. destruct (jst_justified J) as (more & -> & _). exists more. cbn [opened re_ops]. now rewrite <- app_assoc.
Qed.
Lemma short_app : forall x y more, re_ops y = re_ops x ++ more -> short y -> short x.
Proof. intros x y more E S. unfold short in *. rewrite E, app_length in S. lia. Qed.
Lemma live_initial : forall x li, initial cfg g x -> wf_life li -> short (o_real (live x li)) -> initial cfg g (o_real (live x li)).
Proof.
  intros x li X W SH. destruct (live_known X W) as [R M]. apply (ran_well (opened_initial X W) R SH). apply M.
  apply (proj1 (ran_reach (opened_initial X W) R SH)).
Qed.
End Dying.

(** * All lives *)
Section Lives.
Variable cfg : config.
Variable g : pblock.
Notation lived := (lived cfg g).
Lemma live_more : forall ord cord srt x li, exists more, re_ops (o_real (live cfg g ord cord srt x li)) = re_ops x ++ more.
Proof.
  intros ord cord srt x li. assert (G : grow (begun (opened cfg g x li)) (live cfg g ord cord srt x li)).
  { unfold live. destruct (starts g x); try apply grow_refl. destruct (process cfg g ord cord srt new_loader (begun (opened cfg g x li)) (li_turns li)) as [[l v] r] eqn:E.
    pose proof (process_grow E) as G. destruct r; try exact G. destruct (li_killed li) as [[t n]|]; [|exact G]. eapply grow_trans; [exact G|apply grow_last]. }
  destruct G as [[more E] _]. rewrite E. cbn [begun o_real opened re_ops]. rewrite <- app_assoc. eauto.
Qed.
Lemma lived_initial : forall x seen, lived x seen -> short x -> initial cfg g x.
Proof.
  induction 1 as [x X _ _|x seen li ord cord srt L IH W]; intros SH; [exact X|]. destruct (live_more ord cord srt x li) as [more E].
  apply live_initial; auto. apply IH. eapply short_app; eauto.
Qed.
Lemma initial_reach : forall x, initial cfg g x -> short x -> reachable g (re_ops x) (re_lk x).
Proof. intros x X SH. eapply real_reach; [apply X|exact SH]. Qed.
Lemma initial_rreach : forall x, initial cfg g x -> rreach cfg (re_rops x) (re_reg x).
Proof. intros x ((_ & _ & _ & A & B & _) & _). split; auto. Qed.
Lemma lived_reach : forall x seen, lived x seen -> short x -> dreach cfg g (re_ops x) (re_rops x) {| d_lk := re_lk x; d_reg := re_reg x |}.
Proof. intros x seen L SH. pose proof (lived_initial L SH) as X. split; [now apply initial_reach|now apply initial_rreach]. Qed.
Lemma opened_lk : forall x li, initial cfg g x -> short x -> re_lk (opened cfg g x li) = re_lk x.
Proof. intros x li X SH. cbn [opened re_lk]. now rewrite (reopen_exec None (initial_reach X SH)). Qed.

Lemma lived_leashes_stored : forall x seen a, lived x seen -> short x -> wf_addr a -> exists i, leash (re_lk x) a = Ok i /\ lk_has_block (re_lk x) i = Ok true.
Proof.
  intros x seen a L SH WA. pose proof (lived_initial L SH) as X. destruct (initial_reach X SH) as (WG & WH & l0 & S0 & E).
  destruct X as (_ & MW & _). destruct (leash_points WG S0 WH (MW l0 S0) WA) as (i & A & B & _). exists i. now rewrite E.
Qed.
Lemma lived_leash : forall x seen a i, lived x seen -> short x -> wf_addr a -> leash (re_lk x) a = Ok i -> i = pb_id g \/ ever seen a (names i).
Proof.
  intros x seen a i L. revert i. induction L as [x X O _|x seen li ord cord srt L IH W]; intros i SH WA E.
  - left. destruct (initial_reach X SH) as (WG & WH & l0 & S0 & EL). rewrite EL, O in E. rewrite O in WH. destruct (leash_last WG S0 WH WA) as [Q _]. cbn in Q, E. congruence.
  - destruct (live_more ord cord srt x li) as [more EM]. assert (SX : short x) by (eapply short_app; eauto). pose proof (lived_initial L SX) as X.
    destruct (live_known ord cord srt X W) as [R _]. destruct (ran_leash (opened_initial X W) R SH WA E) as [Q|(from & m & I & A & N)].
    + rewrite (opened_lk li X SX) in Q. destruct (IH i SX WA Q) as [D|(from & m & I & A & N)]; [auto|]. right. exists from, m. split; [apply in_or_app; auto|auto].
    + right. exists from, m. split; [apply in_or_app; auto|auto].
Qed.
Definition wf_all (seen : list arrival) : Prop := Forall (fun a => wf_arrival a /\ wf_ids a) seen.
Lemma lived_wf : forall x seen, lived x seen -> short x -> wf_all seen.
Proof.
  induction 1 as [x X _ _|x seen li ord cord srt L IH W]; intros SH; [constructor|]. destruct (live_more ord cord srt x li) as [more E].
  assert (SX : short x) by (eapply short_app; eauto). pose proof (lived_initial L SX) as X. apply Forall_app. split; [exact (IH SX)|]. destruct (live_known ord cord srt X W) as [[_ (_ & _ & S)] _]. exact S.
Qed.
Lemma ever_more : forall s t a P, ever s a P -> ever (s ++ t) a P.
Proof. intros s t a P (from & m & I & H). exists from, m. split; [apply in_or_app; auto|exact H]. Qed.
Lemma ever_since : forall s t a P, ever t a P -> ever (s ++ t) a P.
Proof. intros s t a P (from & m & I & H). exists from, m. split; [apply in_or_app; auto|exact H]. Qed.
Lemma lived_block : forall x seen i b, lived x seen -> short x -> wf_id i -> block (re_lk x) i = Ok b -> b_id b = pb_id g \/ ever_vouched seen (re_lk x) b.
Proof.
  intros x seen i b L. revert i b. induction L as [x X O _|x seen li ord cord srt L IH W]; intros i b SH WI E.
  - left. destruct (reach_view (initial_reach X SH)) as (s & Es & R & _ & _ & SM). rewrite O in Es. cbn in Es.
    destruct (v_block_Ok R SM WI E) as (e & c & C & _ & ->). cbn [block_of b_id]. rewrite Es in C. cbn in C. destruct (id_eqb_spec (pb_id g) i); [|discriminate]. injection C as <- _. reflexivity.
  - destruct (live_more ord cord srt x li) as [more EM]. assert (SX : short x) by (eapply short_app; eauto). pose proof (lived_initial L SX) as X.
    destruct (live_known ord cord srt X W) as [R _]. pose proof (initial_reach X SX) as R0.
    assert (R1 : reachable g (re_ops x ++ more) (re_lk (o_real (live cfg g ord cord srt x li)))) by (rewrite <- EM; apply initial_reach; [now apply live_initial|exact SH]).
    destruct (ran_block (opened_initial X W) R SH WI E) as [Q|Q].
    + rewrite (opened_lk li X SX) in Q. destruct (IH i b SX WI Q) as [D|D]; [auto|right]. destruct D as [(a & p & T & D)|(a & mi & y & T & D1 & D2 & D3)].
      * left. exists a, p. split; [now apply ever_more|exact D].
      * right. exists a, mi, y. split; [now apply ever_more|]. split; [exact D1|]. split; [|exact D3].
        assert (WR : wf_id (mi_ref mi)). { destruct T as (from & m & I & _ & ->). pose proof (proj1 (Forall_forall _ _) (lived_wf L SX) _ I) as [[_ WM] _]. destruct WM. auto. }
        assert (HB : lk_has_block (re_lk x) (mi_ref mi) = Ok true).
        { destruct (reach_view R0) as (s & Es & RR & _ & _ & SM). apply (v_has_true RR SM WR). destruct (v_block_Ok RR SM WR D2) as (e & c & C & _).
          destruct (stored_dec (st_blocks s) (mi_ref mi)) as [S|S]; [exact S|]. rewrite (chain_nil S) in C. discriminate. }
        destruct (hist_immutable R0 R1 WR HB) as [_ ->]. exact D2.
    + right. destruct Q as [(a & p & T & D)|(a & mi & y & T & D)]; [left; exists a, p|right; exists a, mi, y]; (split; [now apply ever_since|exact D]).
Qed.

(** ** The start *)
Lemma opened_registry : forall x li, initial cfg g x -> wf_life li -> let r := re_reg (opened cfg g x li) in
  r_conns r = [] /\ r_pending r = [] /\ forall a, ip4 a -> known (re_reg x) a -> reg_peer r a = reg_peer (re_reg x) a.
Proof.
  intros x li X [WS _] r. pose proof (initial_rreach X) as [A B].
  assert (RR : rreach cfg (re_rops x ++ [RRestart]) (new_registry (r_db (re_reg x)))). { split; [apply Forall_app; split; [exact A|constructor; [exact Logic.I|constructor]]|]. rewrite B. unfold rrun. now rewrite fold_left_app. }
  unfold r. cbn [opened re_reg rstep]. destruct (q_append_fault cfg (new_registry (r_db (re_reg x))) (li_seeds li) (li_fault li)) as [m ->].
  destruct (append_addresses cfg (new_registry (r_db (re_reg x))) (firstn m (li_seeds li)) None) as [r' n] eqn:E.
  assert (WF : forall a port, In (Some (a, port)) (firstn m (li_seeds li)) -> go_addr a). { intros a port I. apply (WS a port). rewrite <- (firstn_skipn m). apply in_or_app. auto. }
  destruct (q_append RR WF E) as (added & _ & _ & AD & _ & SAME & C & P). cbn [fst]. split; [exact C|]. split; [exact P|].
  intros a I K. rewrite (SAME a I); [reflexivity|]. intros Q. apply in_map_iff in Q as ([a' port] & <- & Q). apply AD in Q as [_ Q]. apply Q. exact K.
Qed.
Lemma starts_is : forall x, initial cfg g x -> short x ->
  starts g x = match initial_stats (re_lk x) with Ok _ | Err _ => Ok tt | Panic => Panic | Diverge => Diverge end.
Proof. intros x X SH. unfold starts. now rewrite (reopen_exec None (initial_reach X SH)). Qed.
End Lives.

Lemma mapM_panic : forall A B (f : A -> outcome B) l x, In x l -> f x = Panic -> (forall y, In y l -> f y = Panic \/ exists z, f y = Ok z) -> mapM f l = Panic.
Proof.
  induction l as [|y l IH]; intros x I P H; [destruct I|]. cbn [mapM]. destruct (H y (or_introl eq_refl)) as [E|[z E]]; rewrite E; [reflexivity|]. cbn [bind].
  destruct I as [->|I]; [congruence|]. rewrite (IH x I P); [reflexivity|]. intros w Iw. apply H. now right.
Qed.
Section Stats.
Variable g : pblock.
Variable ops : list (op * option nat).
Variable l : linkage.
Hypothesis H : reachable g ops l.
Lemma heads_active : exists hs, active_heads l = Ok hs /\ NoDup (map snd hs) /\ forall i, In i (map snd hs) <-> active (hist g ops) l i.
Proof.
  destruct (p_active_heads H) as (hs & p & HD & A & P). destruct (heads_spec H) as (hs' & HD' & _ & ND & Q). assert (hs' = hs) by congruence. subst hs'.
  exists (filter p hs). split; [exact A|]. split.
  - clear - ND. induction hs as [|h hs IH]; [constructor|]. cbn [map] in ND. inversion ND as [|? ? N1 N2]. subst. cbn [filter]. destruct (p h); [|auto]. cbn [map]. constructor; [|auto].
    intros I. apply N1. apply in_map_iff in I as (y & <- & I). apply filter_In in I. now apply in_map.
  - intros i. unfold active. split.
    + intros I. apply in_map_iff in I as ([n j] & <- & I). apply filter_In in I as [I F]. cbn [snd]. apply P in F. assert (K : In j (map snd hs)) by (apply in_map_iff; exists (n, j); auto).
      apply Q in K. tauto.
    + intros (S & NE & L). assert (K : In i (map snd hs)) by (apply Q; auto). apply in_map_iff in K as ([n j] & <- & K). apply in_map_iff. exists (n, j). split; [reflexivity|].
      apply filter_In. split; [exact K|]. now apply P.
Qed.
Lemma stats_exact :
  ((forall i, active (hist g ops) l i -> ~ late (hist g ops) i) -> exists lines ls, initial_stats l = Ok (lines, ls) /\
     NoDup (map fst lines) /\ (forall i h, In (i, h) lines <-> active (hist g ops) l i /\ h = N.of_nat (height (hist g ops) i)) /\
     NoDup (map fst ls) /\ forall a i, In (a, i) ls <-> leashed l a i) /\
  ((exists i, active (hist g ops) l i /\ late (hist g ops) i) -> initial_stats l = Panic).
Proof.
  destruct heads_active as (hs & AH & ND & Q). destruct (ls_view H) as (ls & LS & NL & QL & _). destruct (reach_view H) as (s & Es & R & _ & _ & SM).
  unfold hist in *. rewrite <- Es in *. assert (BL : forall i, active (st_blocks s) l i -> exists e c, chain (st_blocks s) i = e :: c /\ In e (st_blocks s) /\ e_id e = i /\
    block l i = if ts_ok e then Ok (block_of e (e :: c)) else Panic).
  { intros i (S & _). destruct (chain_hd S) as (e & c & C & I & J). exists e, c. split; [exact C|]. split; [exact J|]. split; [exact I|]. exact (v_block R SM C). }
  set (f := fun h : N * id => do b <- block l (snd h); Ok (snd h, b_height b)).
  assert (F : initial_stats l = do lines <- mapM f hs; Ok (lines, ls)). { unfold initial_stats. rewrite AH. cbn [bind]. unfold lk_leashes. rewrite LS. reflexivity. }
  assert (AC : forall h, In h hs -> active (st_blocks s) l (snd h)) by (intros h I; apply Q; now apply in_map). split.
  - intros OK. assert (E : mapM f hs = Ok (map (fun h => (snd h, N.of_nat (height (st_blocks s) (snd h)))) hs)).
    { apply mapM_ok. intros h I. unfold f. destruct (BL _ (AC h I)) as (e & c & C & J & D & ->). unfold ts_ok. destruct (N.ltb_spec (e_ts e) max_int64) as [T|T].
      - cbn [bind]. unfold height. rewrite C. reflexivity.
      - destruct (OK _ (AC h I)). exists e. auto. }
    rewrite F, E. cbn [bind]. eexists _, ls. split; [reflexivity|]. split; [rewrite map_map; exact ND|]. split; [|split; [exact NL|exact QL]].
    intros i h. rewrite in_map_iff, <- Q, in_map_iff. split.
    + intros ([n j] & D & I). injection D as <- <-. split; [exists (n, j); auto|reflexivity].
    + intros (([n j] & <- & I) & ->). exists (n, j). auto.
  - intros (i & A & (e & I & D & T)). rewrite F. apply Q, in_map_iff in A as (h & <- & Ih).
    assert (BP : forall h, In h hs -> f h = Panic \/ exists z, f h = Ok z). { intros h' I'. unfold f. destruct (BL _ (AC h' I')) as (e' & c & C & J & D' & ->). destruct (ts_ok e'); [right; eexists; reflexivity|left; reflexivity]. }
    rewrite (mapM_panic Ih); [reflexivity| |exact BP]. unfold f. destruct (BL _ (AC h Ih)) as (e' & c & C & J & D' & ->).
    assert (e' = e) by (eapply (entry_unique (R_wf R)); [exact J|exact I|congruence]). subst e'. unfold ts_ok. destruct (N.ltb_spec (e_ts e) max_int64); [lia|reflexivity].
Qed.
End Stats.

(** * Starting again *)
Section Again.
Variable cfg : config.
Variable g : pblock.
Lemma stats_times : forall ops l, reachable g ops l -> times_ok g ops -> forall i, active (hist g ops) l i -> ~ late (hist g ops) i.
Proof.
  intros ops l H T i _ (e & I & _ & L). pose proof (proj1 (Forall_forall _ _) (@all_ts g ops T) e I) as Q. unfold ts_ok in Q. apply N.ltb_lt in Q. lia.
Qed.
Lemma starts_times : forall x seen, lived cfg g x seen -> short x -> times_ok g (re_ops x) -> starts g x = Ok tt.
Proof.
  intros x seen L SH T. pose proof (lived_initial L SH) as X. rewrite (starts_is X SH). pose proof (initial_reach X SH) as R.
  destruct (proj1 (stats_exact R) (stats_times R T)) as (a & b & -> & _). reflexivity.
Qed.
Lemma starts_late : forall x seen i, lived cfg g x seen -> short x -> active (hist g (re_ops x)) (re_lk x) i -> late (hist g (re_ops x)) i -> starts g x = Panic.
Proof.
  intros x seen i L SH A B. pose proof (lived_initial L SH) as X. rewrite (starts_is X SH). rewrite (proj2 (stats_exact (initial_reach X SH))); [reflexivity|]. exists i. auto.
Qed.
Lemma stuck_live : forall ord cord srt x li, starts g x = Panic -> live cfg g ord cord srt x li = begun (opened cfg g x li).
Proof. intros ord cord srt x li E. unfold live. now rewrite E. Qed.
Lemma stuck : forall ord cord srt lis x, initial cfg g x -> starts g x = Panic ->
  let y := fold_left (fun x li => o_real (live cfg g ord cord srt x li)) lis x in short y -> re_lk y = re_lk x /\ starts g y = Panic.
Proof.
  intros ord cord srt. assert (M : forall lis x, exists more, re_ops (fold_left (fun x li => o_real (live cfg g ord cord srt x li)) lis x) = re_ops x ++ more).
  { induction lis as [|li lis IH]; intros x; [exists []; now rewrite app_nil_r|]. cbn [fold_left]. destruct (IH (o_real (live cfg g ord cord srt x li))) as [m E].
    destruct (live_more cfg g ord cord srt x li) as [n F]. exists (n ++ m). now rewrite E, F, <- app_assoc. }
  assert (K : forall lis x, reachable g (re_ops x) (re_lk x) -> starts g x = Panic -> let y := fold_left (fun x li => o_real (live cfg g ord cord srt x li)) lis x in
    short y -> re_lk y = re_lk x /\ starts g y = Panic).
  { induction lis as [|li lis IH]; intros x R E y SH; [auto|]. unfold y in *. clear y. cbn [fold_left] in *. rewrite (stuck_live ord cord srt li E) in *. cbn [begun o_real] in *.
    assert (LK : re_lk (opened cfg g x li) = re_lk x) by (cbn [opened re_lk]; now rewrite (reopen_exec None R)).
    destruct (M lis (opened cfg g x li)) as [m F]. assert (S1 : short (opened cfg g x li)) by (eapply short_app; eauto).
    assert (R1 : reachable g (re_ops (opened cfg g x li)) (re_lk (opened cfg g x li))).
    { rewrite LK. destruct R as (WG & [WH WN] & l0 & S0 & EL). split; [exact WG|]. split.
      - unfold short in S1. cbn [opened re_ops] in *. split; [apply Forall_app; split; [exact WH|constructor; [exact Logic.I|constructor]]|]. lia.
      - exists l0. split; [exact S0|]. cbn [opened re_ops]. rewrite run_app, <- EL. cbn [run]. assert (Q : exec g (re_lk x) Reopen None = (re_lk x, Ok tt)) by (apply (@reopen_exec g (re_ops x)); split; [|split]; eauto; split; auto).
        now rewrite Q. }
    assert (E1 : starts g (opened cfg g x li) = Panic). { unfold starts in *. rewrite (reopen_exec None R) in E. rewrite (reopen_exec None R1), LK. exact E. }
    destruct (IH _ R1 E1 SH) as [A B]. split; [congruence|exact B]. }
  intros lis x X E y SH. destruct (M lis x) as [m F]. apply K; auto. apply (initial_reach X). eapply short_app; eauto.
Qed.
End Again.
