(** C76: goroutines calling the registry. *)
From Coq Require Import Permutation.
From Verif Require Import Base Kv ChainModel ChainSpec PeersModel PeersSpec PeersProofs PeersCalls PeersProps
  ChainProofs LockModel LockSpec LockProofs LockLink LockLive LockProps RegModel.
Set Implicit Arguments.

(** * What the methods do when they are alone *)
Definition rdoes (cfg : config) (c : rcall) (r : registry) : registry * ranswer :=
  match c with
  | GRegister a np h now w => match register_peer cfg r now w a np h with (r', e, closed) => (r', ARegistered (e, closed)) end
  | GScore a s w => let (r', e) := update_peer_score r w a s in (r', AUnit e)
  | GUnregister a now w => let (r', e) := unregister_peer r now w a in (r', AUnit e)
  | GHostile a w => let (r', e) := mark_as_hostile r w a in (r', AUnit e)
  | GAppend l fault => let (r', n) := append_addresses cfg r l fault in (r', ACount n)
  | GTake clock => let (r', out) := take_available cfg r clock in (r', AAddrs out)
  | GSuggest a now w => let (r', v) := suggest_version cfg r now w a in (r', AVersion v)
  | GConnections ord srt => (r, APeers (connections ord srt r))
  | GPeer a => (r, APeer (reg_peer r a))
  | GPeers srt => (r, APeers (reg_peers srt r))
  | GFriendly srt => (r, APeers (friendly_peers srt r))
  | GBroadcast ord => (r, ASent (broadcast ord r))
  end.
(** The calls as operations of the registry's histories. *)
Definition rop_of (c : rcall) : option rop :=
  match c with
  | GRegister a np h now w => Some (RRegister a np h now w)
  | GScore a s w => Some (PeersModel.RScore a s w)
  | GUnregister a now w => Some (RUnregister a now w)
  | GHostile a w => Some (RHostile a w)
  | GAppend l fault => Some (RAppend l fault)
  | GTake clock => Some (RTake clock)
  | GSuggest a now w => Some (RSuggest a now w)
  | _ => None
  end.
Definition racted (ms : list (mark rcall ranswer)) : list rop :=
  flat_map (fun m => match m with MAct _ c _ => match rop_of c with Some o => [o] | None => [] end | _ => [] end) ms.

Section Code.
Variable cfg : config.

Lemma gives_alone : forall A (f : A -> ranswer) (c : code registry A) r, alone (gives f c) r = let (r', x) := alone c r in (r', f x).
Proof. intros A f c r. unfold gives. now rewrite alone_bind. Qed.
Lemma gives_wrc : forall A (f : A -> ranswer) (c : code registry A), wrc c -> wrc (gives f c).
Proof. intros A f c H. apply wrc_bind; [exact H|intros; exact Logic.I]. Qed.
Lemma save_alone : forall p w r, alone (c_save p w) r = finish r p w.
Proof.
  intros p w r. unfold c_save, finish, put_peer. destruct (is4 (p_addr p)); cbn [negb]; [|reflexivity].
  destruct (utf8_valid (p_name p)); cbn [negb]; [|reflexivity]. destruct (pkey (p_addr p)); cbn [bind]; try reflexivity. destruct w; reflexivity.
Qed.
Lemma save_wrc : forall p w, wrc (c_save p w).
Proof.
  intros p w. unfold c_save. destruct (negb _); [exact Logic.I|]. destruct (negb _); [exact Logic.I|]. destruct (pkey _); try exact Logic.I. destruct w; exact Logic.I.
Qed.
Lemma closing_alone : forall b c r, alone (closing b c) r = let (r', e) := alone c r in (r', (e, b)).
Proof. intros b c r. unfold closing. now rewrite alone_bind. Qed.
Lemma closing_wrc : forall b c, wrc c -> wrc (closing b c).
Proof. intros b c H. apply wrc_bind; [exact H|intros; exact Logic.I]. Qed.
Lemma regs : forall (x : registry * outcome unit) (b : bool), (let (r', e) := x in (r', (e, b))) = (let '(r', e, c) := (x, b) in (r', (e, c))).
Proof. now intros [] b. Qed.

Lemma register_alone : forall now w a np h r, alone (c_register cfg now w a np h) r =
  match register_peer cfg r now w a np h with (r', e, closed) => (r', (e, closed)) end.
Proof.
  intros now w a np h r. unfold c_register, drop_pending, register_peer. cbn [alone]. fold (set_pending r (del_addr a (r_pending r))).
  set (r1 := set_pending r (del_addr a (r_pending r))).
  destruct (negb (is4 a)); [reflexivity|]. destruct (addr_eqb a (g_declared cfg)); [reflexivity|]. rewrite alone_bind. cbn [c_peer view alone].
  change (r_db r) with (r_db r1).
  destruct (get_peer (r_db r1) a) as [p|[]| |]; cbn [p_state zero_peer]; try reflexivity.
  all: destruct (2 <=? _)%Z;
    [rewrite closing_alone, save_alone; match goal with |- context [finish ?x _ _] => change x with r1 end; now destruct (finish r1 _ w)|];
    (destruct (rev (hs_app (co_hs np))) as [|x t]; [reflexivity|]);
    (destruct (negb (N.eqb _ _)); [rewrite closing_alone, save_alone; now destruct (finish r1 _ w)|]);
    destruct (check_port a h) as [[port|e| |] c]; try reflexivity;
    unfold put_conn; cbn [alone]; rewrite closing_alone, save_alone;
    change {| r_db := r_db r; r_conns := set_conn a np (r_conns r); r_pending := del_addr a (r_pending r) |} with (set_conns r1 (set_conn a np (r_conns r1)));
    now destruct (finish _ _ w).
Qed.
Lemma register_wrc : forall now w a np h, wrc (c_register cfg now w a np h).
Proof.
  intros now w a np h. unfold c_register, drop_pending. cbn [wrc]. destruct (negb _); [exact Logic.I|]. destruct (addr_eqb _ _); [exact Logic.I|].
  apply wrc_bind; [apply wrc_view|]. intros kn. destruct (match kn with Err ENotFound => _ | x => x end) as [p| | |]; try exact Logic.I.
  destruct (2 <=? _)%Z; [apply closing_wrc, save_wrc|]. destruct (rev _); [exact Logic.I|]. destruct (negb _); [apply closing_wrc, save_wrc|].
  destruct (check_port a h) as [[] c]; try exact Logic.I. cbn [put_conn wrc]. apply closing_wrc, save_wrc.
Qed.
Lemma score_alone : forall w a s r, alone (c_score w a s) r = update_peer_score r w a s.
Proof.
  intros w a s r. unfold c_score, update_peer_score, obind, c_peer. rewrite alone_bind. cbn [view alone].
  destruct (get_peer (r_db r) a); try reflexivity. apply save_alone.
Qed.
Lemma unregister_alone : forall now w a r, alone (c_unregister now w a) r = unregister_peer r now w a.
Proof.
  intros now w a r. unfold c_unregister, unregister_peer, obind, c_peer. rewrite alone_bind. cbn [view alone].
  destruct (get_peer (r_db r) a); try reflexivity. unfold drop_pending, drop_conn. cbn [alone]. apply save_alone.
Qed.
Lemma hostile_alone : forall w a r, alone (c_hostile w a) r = mark_as_hostile r w a.
Proof.
  intros w [a|] r; [|reflexivity]. unfold c_hostile, mark_as_hostile, drop_pending, c_peer. cbn [alone]. rewrite alone_bind. cbn [view alone].
  fold (set_pending r (del_addr a (r_pending r))). cbn [r_db set_pending].
  destruct (get_peer (r_db r) a) as [p|[]| |]; try reflexivity; apply save_alone.
Qed.
Lemma append_alone : forall l fault n r, alone (c_append cfg l fault n) r = let '(d, k) := append_loop cfg (r_db r) l fault n in (with_pdb r d, k).
Proof.
  induction l as [|[[a port]|] l IH]; intros fault n r; cbn [c_append append_loop alone]; [now destruct r| |apply IH].
  destruct (negb (is4 a)) eqn:A4; [apply IH|]. destruct (is_loopback a); [apply IH|]. destruct (addr_eqb a (g_declared cfg)); [apply IH|].
  rewrite alone_bind. cbn [view alone]. destruct (has_peer (r_db r) a) as [[|]|e| |]; [apply IH| | | |]; try (now destruct r).
  rewrite alone_bind, save_alone. unfold finish. destruct (put_peer (r_db r) (fresh_peer a port) _) as [d'|e| |]; try (now destruct r).
  rewrite IH. cbn [r_db with_pdb]. destruct (append_loop cfg d' l _ _) as [d2 k]. reflexivity.
Qed.
Lemma append_wrc : forall l fault n, wrc (c_append cfg l fault n).
Proof.
  induction l as [|[[a port]|] l IH]; intros fault n; cbn [c_append]; [exact Logic.I| |apply IH].
  destruct (negb _); [apply IH|]. destruct (is_loopback a); [apply IH|]. destruct (addr_eqb _ _); [apply IH|].
  apply wrc_bind; [apply wrc_view|]. intros [[|]| | |]; try exact Logic.I; [apply IH|]. apply wrc_bind; [apply save_wrc|]. intros []; try exact Logic.I. apply IH.
Qed.
Lemma take_loop_alone : forall clock ps out r, alone (c_take_loop cfg clock ps out) r =
  let '(pend, o) := take_loop cfg clock (r_conns r) ps (r_pending r) out in (set_pending r pend, o).
Proof.
  intros clock. induction ps as [|p ps IH]; intros out r; cbn [c_take_loop take_loop alone]; [now destruct r|].
  rewrite alone_bind. cbn [view alone]. destruct (available cfg clock (r_conns r) (r_pending r) p); [|apply IH].
  unfold put_pending. cbn [alone]. rewrite IH. cbn [r_conns r_pending set_pending]. now destruct (take_loop _ _ _ _ _ _).
Qed.
Lemma take_loop_wrc : forall clock ps out, wrc (c_take_loop cfg clock ps out).
Proof.
  intros clock. induction ps as [|p ps IH]; intros out; [exact Logic.I|]. cbn [c_take_loop]. apply wrc_bind; [apply wrc_view|].
  intros []; [|apply IH]. cbn [put_pending wrc]. apply IH.
Qed.
Lemma take_alone : forall clock r, alone (c_take cfg clock) r = take_available cfg r clock.
Proof.
  intros clock r. unfold c_take, take_available, obind. rewrite alone_bind. cbn [view alone]. destruct (all_peers (r_db r)); try reflexivity.
  rewrite alone_bind, take_loop_alone. now destruct (take_loop _ _ _ _ _ _).
Qed.
Lemma suggest_alone : forall now w a r, alone (c_suggest cfg now w a) r = suggest_version cfg r now w a.
Proof.
  intros now w a r. unfold c_suggest, suggest_version, c_peer. rewrite alone_bind. cbn [view alone].
  assert (S : forall p (v : version), alone (try _ <- c_save p w; Ret (Ok v)) r =
    match finish r p w with (r', Ok _) => (r', Ok v) | (r', Err e) => (r', Err e) | (r', Panic) => (r', Panic) | (r', Diverge) => (r', Diverge) end).
  { intros p v. unfold obind. rewrite alone_bind, save_alone. destruct (finish r p w) as [r' []]; reflexivity. }
  destruct (get_peer (r_db r) a) as [p|[]| |]; try reflexivity.
  - destruct (p_state p); try reflexivity. destruct (next_version _ _); try reflexivity. apply S.
  - destruct (best_version _); try reflexivity. apply S.
Qed.
Lemma suggest_wrc : forall now w a, wrc (c_suggest cfg now w a).
Proof.
  intros now w a. apply wrc_bind; [apply wrc_view|]. intros [p|[]| |]; try exact Logic.I.
  - destruct (p_state p); try exact Logic.I. destruct (next_version _ _); try exact Logic.I. apply wrc_obind; [apply save_wrc|intros; exact Logic.I].
  - destruct (best_version _); try exact Logic.I. apply wrc_obind; [apply save_wrc|intros; exact Logic.I].
Qed.
Lemma connections_alone : forall ord srt r, alone (c_connections ord srt) r = (r, connections ord srt r).
Proof.
  intros ord srt r. unfold c_connections. rewrite alone_bind. cbn [view alone]. unfold connections.
  assert (F : forall x : addr * conn, computes (try p <- c_peer (fst x); Ret (Ok (set_live p (snd x))))
    (fun d => do p <- get_peer (r_db d) (fst x); Ok (set_live p (snd x)))).
  { intros x. apply (computes_obind (y := fun p _ => Ok (set_live p (snd x))) (computes_view (fun d => get_peer (r_db d) (fst x)))). intros p d. reflexivity. }
  apply (computes_obind (y := fun ps _ => Ok (srt ps)) (computes_cmap F (ord (r_conns r)))). intros ps d. reflexivity.
Qed.
Lemma connections_wrc : forall ord srt, wrc (c_connections ord srt).
Proof.
  intros ord srt. apply wrc_bind; [apply wrc_view|]. intros cs. apply wrc_obind; [|intros; exact Logic.I].
  apply wrc_cmap. intros x. apply wrc_obind; [apply wrc_view|intros; exact Logic.I].
Qed.

Lemma locked_alone : forall D A (c : code D A) d, alone (locked c) d = alone c d.
Proof. intros D A c d. unfold locked. cbn [alone]. rewrite alone_bind. now destruct (alone c d). Qed.
Lemma rmethod_alone : forall c r, alone (rmethod cfg c) r = rdoes cfg c r.
Proof.
  intros c r. unfold rmethod. rewrite locked_alone. destruct c; cbn [rbody rdoes]; rewrite gives_alone.
  - rewrite register_alone. now destruct (register_peer cfg r now w a np h) as [[] ?].
  - now rewrite score_alone.
  - now rewrite unregister_alone.
  - now rewrite hostile_alone.
  - rewrite append_alone. unfold append_addresses. now destruct (append_loop _ _ _ _ _).
  - now rewrite take_alone.
  - now rewrite suggest_alone.
  - now rewrite connections_alone.
  - reflexivity.
  - reflexivity.
  - reflexivity.
  - reflexivity.
Qed.
Lemma body_wrc : forall c, wrc (rbody cfg c).
Proof.
  intros c. destruct c; cbn [rbody]; apply gives_wrc; auto using register_wrc, append_wrc, suggest_wrc, connections_wrc, wrc_view.
  - apply wrc_obind; [apply wrc_view|intros; apply save_wrc].
  - apply wrc_obind; [apply wrc_view|intros; cbn [drop_pending drop_conn wrc]; apply save_wrc].
  - destruct a as [a|]; [|exact Logic.I]. cbn [c_hostile drop_pending wrc]. apply wrc_bind; [apply wrc_view|]. intros [p|[]| |]; try exact Logic.I; apply save_wrc.
  - apply wrc_obind; [apply wrc_view|]. intros ps. apply wrc_bind; [apply take_loop_wrc|intros; exact Logic.I].
  - apply wrc_view.
Qed.
Lemma rmethod_well : forall c, well (rmethod cfg c).
Proof. intros c. apply well_locked, body_wrc. Qed.
Lemma rmethod_flat : forall c, flat (rmethod cfg c).
Proof. intros c. apply locked_flat, body_wrc. Qed.

(** The store after the calls that have acted. *)
Lemma rdoes_step : forall c r, fst (rdoes cfg c r) = match rop_of c with Some o => rstep cfg r o | None => r end.
Proof.
  intros c r. destruct c; cbn [rdoes rop_of rstep]; try reflexivity.
  - now destruct (register_peer _ _ _ _ _ _ _) as [[] ?].
  - now destruct (update_peer_score _ _ _ _).
  - now destruct (unregister_peer _ _ _ _).
  - now destruct (mark_as_hostile _ _ _).
  - now destruct (append_addresses _ _ _ _).
  - now destruct (take_available _ _ _).
  - now destruct (suggest_version _ _ _ _ _).
Qed.
Lemma racted_app : forall a b, racted (a ++ b) = racted a ++ racted b.
Proof. intros. apply flat_map_app. Qed.
Lemma explained_run : forall r0 ms ph r, explains (rdoes cfg) r0 ms ph r -> r = fold_left (rstep cfg) (racted ms) r0.
Proof.
  intros r0 ms ph r H. induction H as [|ms ph d g c H IH G|ms ph d g c d' r H IH G E|ms ph d g c r H IH G]; [reflexivity| | |]; rewrite racted_app, fold_left_app, <- IH; try reflexivity.
  pose proof (rdoes_step c d) as S. rewrite E in S. cbn [fst] in S. cbn [racted flat_map]. rewrite app_nil_r. rewrite S. now destruct (rop_of c).
Qed.
(** The calls that have acted were made. *)
Lemma acted_called : forall r0 ms ph r, explains (rdoes cfg) r0 ms ph r ->
  (forall g c, ph g = Called ranswer c -> In (Inv ranswer g c) (erase ms)) /\ forall g c x, In (MAct g c x) ms -> In (Inv ranswer g c) (erase ms).
Proof.
  intros r0 ms ph r H. induction H as [|ms ph d g c H [I1 I2] G|ms ph d g c d' r H [I1 I2] G E|ms ph d g c r H [I1 I2] G].
  - split; [discriminate|intros g c x []].
  - rewrite erase_app. split.
    + intros h c' P. apply in_or_app. destruct (Nat.eq_dec h g) as [->|N]; [rewrite upd_same in P; injection P as ->; right; now left|].
      rewrite upd_other in P by exact N. eauto.
    + intros h c' x I. apply in_app_or in I as [I|[I|[]]]; [apply in_or_app; eauto|discriminate I].
  - rewrite erase_app. cbn [erase flat_map erase1]. rewrite app_nil_r. split.
    + intros h c' P. destruct (Nat.eq_dec h g) as [->|N]; [rewrite upd_same in P; discriminate|]. rewrite upd_other in P by exact N. eauto.
    + intros h c' x I. apply in_app_or in I as [I|[I|[]]]; [eauto|]. injection I as -> -> ->. eauto.
  - rewrite erase_app. split.
    + intros h c' P. destruct (Nat.eq_dec h g) as [->|N]; [rewrite upd_same in P; discriminate|]. rewrite upd_other in P by exact N. apply in_or_app. eauto.
    + intros h c' x I. apply in_app_or in I as [I|[I|[]]]; [apply in_or_app; eauto|discriminate I].
Qed.

(** Where the marks of a call are. *)
Definition of_g (g : nat) (m : mark rcall ranswer) : Prop := match m with MInv _ h _ | MAct h _ _ | MRes h _ _ => h = g end.
Definition free (g : nat) (ms : list (mark rcall ranswer)) : Prop := Forall (fun m => ~ of_g g m) ms.
Lemma free_snoc : forall g ms m, free g ms -> ~ of_g g m -> free g (ms ++ [m]).
Proof. intros. apply Forall_app. split; [assumption|]. constructor; [assumption|constructor]. Qed.
Lemma phases : forall r0 ms ph r, explains (rdoes cfg) r0 ms ph r -> forall g,
  match ph g with
  | Out _ _ => True
  | Called _ c => exists m1 m2, ms = m1 ++ MInv ranswer g c :: m2 /\ free g m2
  | Acted c x => exists m1 m2 m3, ms = m1 ++ MInv ranswer g c :: m2 ++ MAct g c x :: m3 /\ free g m2 /\ free g m3
  end.
Proof.
  intros r0 ms ph r H. induction H as [|ms ph d g c H IH G|ms ph d g c d' r H IH G E|ms ph d g c r H IH G]; intros h; [exact I| | |];
    (destruct (Nat.eq_dec h g) as [->|N]; [rewrite upd_same|rewrite upd_other by exact N; specialize (IH h); destruct (ph h)]); try exact I.
  - exists ms, []. split; [reflexivity|constructor].
  - destruct IH as (m1 & m2 & -> & F). exists m1, (m2 ++ [MInv ranswer g c]). rewrite <- app_assoc. split; [reflexivity|]. apply free_snoc; [exact F|cbn; congruence].
  - destruct IH as (m1 & m2 & m3 & -> & F & F'). exists m1, m2, (m3 ++ [MInv ranswer g c]). rewrite <- app_assoc. cbn [app]. rewrite <- app_assoc. split; [reflexivity|].
    split; [exact F|]. apply free_snoc; [exact F'|cbn; congruence].
  - specialize (IH g). rewrite G in IH. destruct IH as (m1 & m2 & -> & F). exists m1, m2, []. rewrite <- app_assoc. split; [reflexivity|]. split; [exact F|constructor].
  - destruct IH as (m1 & m2 & -> & F). exists m1, (m2 ++ [MAct g c r]). rewrite <- app_assoc. split; [reflexivity|]. apply free_snoc; [exact F|cbn; congruence].
  - destruct IH as (m1 & m2 & m3 & -> & F & F'). exists m1, m2, (m3 ++ [MAct g c r]). rewrite <- app_assoc. cbn [app]. rewrite <- app_assoc. split; [reflexivity|].
    split; [exact F|]. apply free_snoc; [exact F'|cbn; congruence].
  - destruct IH as (m1 & m2 & -> & F). exists m1, (m2 ++ [MRes g c r]). rewrite <- app_assoc. split; [reflexivity|]. apply free_snoc; [exact F|cbn; congruence].
  - destruct IH as (m1 & m2 & m3 & -> & F & F'). exists m1, m2, (m3 ++ [MRes g c r]). rewrite <- app_assoc. cbn [app]. rewrite <- app_assoc. split; [reflexivity|].
    split; [exact F|]. apply free_snoc; [exact F'|cbn; congruence].
Qed.
(** Each act and each return belongs to the last call of its goroutine. *)
Lemma mark_of : forall r0 ms ph r, explains (rdoes cfg) r0 ms ph r -> forall p m q, ms = p ++ m :: q ->
  match m with
  | MInv _ _ _ => True
  | MAct g c _ => exists m1 m2, p = m1 ++ MInv ranswer g c :: m2 /\ free g m2
  | MRes g c x => exists m1 m2 m3, p = m1 ++ MInv ranswer g c :: m2 ++ MAct g c x :: m3 /\ free g m2 /\ free g m3
  end.
Proof.
  intros r0 ms ph r H. induction H as [|ms ph d g c H IH G|ms ph d g c d' r H IH G E|ms ph d g c r H IH G]; intros p m q EQ; [destruct p; discriminate| | |];
    destruct (@exists_last _ (m :: q) ltac:(discriminate)) as (l & z & EL); rewrite EL, app_assoc in EQ; apply app_inj_tail in EQ as [-> <-];
    (destruct l as [|y l]; [injection EL as -> _; rewrite app_nil_r in *|injection EL as <- ->; eapply IH; reflexivity]).
  - exact I.
  - pose proof (phases H g) as P. now rewrite G in P.
  - pose proof (phases H g) as P. now rewrite G in P.
Qed.
Lemma erase_split : forall (ms : list (mark rcall ranswer)) t1 g c x t2, erase ms = t1 ++ Res g c x :: t2 ->
  exists m1 m2, ms = m1 ++ MRes g c x :: m2 /\ erase m1 = t1 /\ erase m2 = t2.
Proof.
  induction ms as [|m ms IH]; intros t1 g c x t2 H; [destruct t1; discriminate|]. destruct m as [g' c'|g' c' x'|g' c' x']; cbn [erase flat_map erase1 app] in H; fold (erase ms) in H.
  - destruct t1 as [|e t1]; [discriminate|]. injection H as <- H. destruct (IH _ _ _ _ _ H) as (m1 & m2 & -> & <- & <-). now exists (MInv ranswer g' c' :: m1), m2.
  - destruct (IH _ _ _ _ _ H) as (m1 & m2 & -> & <- & <-). now exists (MAct g' c' x' :: m1), m2.
  - destruct t1 as [|e t1]; cbn [app] in H.
    + injection H as -> -> -> H. now exists [], ms.
    + injection H as <- H. destruct (IH _ _ _ _ _ H) as (m1 & m2 & -> & <- & <-). now exists (MRes g' c' x' :: m1), m2.
Qed.
Lemma two_places : forall A (x1 y1 x2 y2 : list A) u v, x1 ++ u :: y1 = x2 ++ v :: y2 ->
  (x1 = x2 /\ u = v /\ y1 = y2) \/ (exists w, x2 = x1 ++ u :: w /\ y1 = w ++ v :: y2) \/ (exists w, x1 = x2 ++ v :: w /\ y2 = w ++ u :: y1).
Proof.
  induction x1 as [|a x1 IH]; intros y1 [|b x2] y2 u v H; cbn [app] in H; injection H as E H.
  - now left.
  - subst. right. left. now exists x2.
  - subst. right. right. now exists x1.
  - subst b. destruct (IH _ _ _ _ _ H) as [(-> & -> & ->)|[(w & -> & ->)|(w & -> & ->)]]; [now left|right; left|right; right]; now exists w.
Qed.
(** What a call does when it acts. *)
Lemma acts_does : forall r0 ms ph r, explains (rdoes cfg) r0 ms ph r -> forall m1 g c x m2, ms = m1 ++ MAct g c x :: m2 ->
  snd (rdoes cfg c (fold_left (rstep cfg) (racted m1) r0)) = x.
Proof.
  intros r0 ms ph r H. induction H as [|ms ph d g c H IH G|ms ph d g c d' r H IH G E|ms ph d g c r H IH G]; intros m1 g' c' x' m2 EQ.
  - destruct m1; discriminate.
  - destruct (@exists_last _ (MAct g' c' x' :: m2) ltac:(discriminate)) as (l & z & EL). rewrite EL, app_assoc in EQ. apply app_inj_tail in EQ as [-> <-].
    destruct l as [|y l]; [injection EL as Q; discriminate Q|]. injection EL as <- ->. eapply IH. reflexivity.
  - destruct (@exists_last _ (MAct g' c' x' :: m2) ltac:(discriminate)) as (l & z & EL). rewrite EL, app_assoc in EQ. apply app_inj_tail in EQ as [-> <-].
    destruct l as [|y l].
    + injection EL as -> -> -> _. rewrite app_nil_r in *. rewrite <- (explained_run H), E. reflexivity.
    + injection EL as <- ->. eapply IH. reflexivity.
  - destruct (@exists_last _ (MAct g' c' x' :: m2) ltac:(discriminate)) as (l & z & EL). rewrite EL, app_assoc in EQ. apply app_inj_tail in EQ as [-> <-].
    destruct l as [|y l]; [injection EL as Q; discriminate Q|]. injection EL as <- ->. eapply IH. reflexivity.
Qed.
End Code.

(** * C76 *)
(** Every concurrent use of the registry is explained by one order in which the calls act, each between its start and its end. *)
Theorem C76_registry_atomic : forall cfg r0 tr s, steps (rmethod cfg) (start_of rcall ranswer r0) tr s ->
  exists ms ph, erase ms = tr /\ explains (rdoes cfg) r0 ms ph (fold_left (rstep cfg) (racted ms) r0) /\
    (all_out s -> store s = fold_left (rstep cfg) (racted ms) r0).
Proof.
  intros cfg r0 tr s H. destruct (linearizable (rdoes cfg) (rmethod_alone cfg) (rmethod_well cfg) H) as (ms & ph & r & E & EX & [(O1 & O2 & O3) AL]).
  exists ms, ph. rewrite <- (explained_run EX). split; [exact E|]. split; [exact EX|]. intros AO. apply O1.
  destruct (writer (mx s)) as [h|] eqn:W; [|reflexivity]. pose proof (AL h) as Sh. rewrite (AO h) in Sh. inversion Sh as [(_ & _ & A) EQ1 EQ2| | | | |]. congruence.
Qed.
Print Assumptions C76_registry_atomic.
(** All calls return. *)
Theorem C76_registry_returns : forall cfg r0 tr s, steps (rmethod cfg) (start_of rcall ranswer r0) tr s ->
  inevitably (goes_on (rmethod cfg)) (@all_out registry rcall ranswer) s.
Proof.
  intros cfg r0 tr s H. eapply (@flat_return registry rcall ranswer (rmethod cfg) (rdoes cfg) (rmethod_alone cfg) (rmethod_well cfg)); [exact H|].
  intros g c _. apply rmethod_flat.
Qed.
Print Assumptions C76_registry_returns.
(** When two calls of TakeAvailableAddresses, of any goroutines, both return the address [a], then some goroutine makes a call in between
    that ends the dial of [a]: it registers or unregisters the peer, or marks it as hostile. In between: there is a moment (after the
    events [p]) at which this call is under way, one of the two calls has begun, and the other has not returned. *)
Definition hands_out (a : addr) (c : rcall) (x : ranswer) : Prop :=
  exists clock out, c = GTake clock /\ x = AAddrs (Ok out) /\ In a (map fst out).
Definition under_way (p : list (event rcall ranswer)) (h : nat) (d : rcall) : Prop :=
  exists p1 p2, p = p1 ++ Inv ranswer h d :: p2 /\ forall d' z, ~ In (Res h d' z) p2.
Definition prefix (p q : list (event rcall ranswer)) : Prop := exists w, q = p ++ w.
(** The last call of [g] among the events [t] has begun when the events [p] have happened. *)
Definition has_begun (t : list (event rcall ranswer)) (g : nat) (c : rcall) (p : list (event rcall ranswer)) : Prop :=
  exists n1 n2, t = n1 ++ Inv ranswer g c :: n2 /\ (forall c', ~ In (Inv ranswer g c') n2) /\ prefix (n1 ++ [Inv ranswer g c]) p.

Lemma free_erase : forall g ms, free g ms -> (forall c, ~ In (Inv ranswer g c) (erase ms)) /\ (forall c x, ~ In (Res g c x) (erase ms)).
Proof.
  intros g ms F. split; [intros c I|intros c x I]; unfold erase in I; apply in_flat_map in I as (m & IM & I);
    pose proof (proj1 (Forall_forall _ _) F m IM) as N; destruct m; cbn [erase1 of_g] in *; try (destruct I as [I|[]]; congruence); destruct I.
Qed.
Lemma erase_cat : forall m1 m2 : list (mark rcall ranswer), erase (m1 ++ m2) = erase m1 ++ erase m2.
Proof. intros. apply flat_map_app. Qed.
(** The act of a releasing call lies between two acts that hand out the same address. *)
Lemma released_between : forall cfg ops r0 ms ph r, rreach cfg ops r0 -> explains (rdoes cfg) r0 ms ph r ->
  (forall g c x o, In (MAct g c x) ms -> rop_of c = Some o -> wf_rop o) ->
  forall a m1 h1 c1 x1 m3 h2 c2 x2 m4, ms = m1 ++ MAct h1 c1 x1 :: m3 ++ MAct h2 c2 x2 :: m4 -> hands_out a c1 x1 -> hands_out a c2 x2 ->
  exists w1 h d z w2 o, m3 = w1 ++ MAct h d z :: w2 /\ rop_of d = Some o /\ releases a o.
Proof.
  intros cfg ops r0 ms ph r R EX WF a m1 h1 c1 x1 m3 h2 c2 x2 m4 EM (clock1 & out1 & -> & -> & I1) (clock2 & out2 & -> & -> & I2).
  assert (T1 := acts_does EX m1 h1 _ _ _ EM).
  assert (T2 : snd (rdoes cfg (GTake clock2) (fold_left (rstep cfg) (racted (m1 ++ MAct h1 (GTake clock1) (AAddrs (Ok out1)) :: m3)) r0)) = AAddrs (Ok out2)).
  { eapply (acts_does EX). rewrite EM, <- app_assoc. reflexivity. }
  apply in_map_iff in I1 as ([a1 port1] & Q1 & I1). cbn [fst] in Q1. subst a1.
  destruct (Exists_dec (fun o => releases a o) (racted m3)) as [EXI|NEX].
  { intros o. assert (D : forall b : addr, {b = a} + {b <> a}).
    { intros b. destruct (addr_eqb b a) eqn:Q; [left; now apply addr_eqb_eq|right; intros ->]. pose proof (proj2 (addr_eqb_eq a a) eq_refl). congruence. }
    destruct o as [b| |b|[b|] ?| | | |]; cbn [releases]; auto.
    destruct (D b) as [->|N]; [now left|right; congruence]. right; discriminate. }
  { apply Exists_exists in EXI as (o & I & RE). unfold racted in I. apply in_flat_map in I as (m & IM & IO).
    destruct m as [|h d z|]; try (now destruct IO). destruct (rop_of d) as [o'|] eqn:RO; [|destruct IO]. destruct IO as [->|[]].
    apply in_split in IM as (w1 & w2 & ->). now exists w1, h, d, z, w2, o. }
  exfalso. cbn [rdoes] in T1, T2. set (r1 := fold_left (rstep cfg) (racted m1) r0) in *.
  rewrite racted_app, fold_left_app in T2. fold r1 in T2. cbn [racted flat_map rop_of app fold_left rstep] in T2. fold (racted m3) in T2.
  destruct (take_available cfg r1 clock1) as [r2 o1] eqn:TA. cbn [snd] in T1. injection T1 as ->. cbn [fst] in T2.
  destruct (take_available cfg (fold_left (rstep cfg) (racted m3) r2) clock2) as [r3 o2] eqn:TB. cbn [snd] in T2. injection T2 as ->.
  assert (WO : forall m, incl m ms -> Forall wf_rop (racted m)).
  { intros m IN. apply Forall_forall. intros o I. unfold racted in I. apply in_flat_map in I as (k & IM & IO).
    destruct k as [|h d z|]; try (now destruct IO). destruct (rop_of d) as [o'|] eqn:RO; [|destruct IO]. destruct IO as [->|[]].
    apply (WF h d z); [auto|exact RO]. }
  destruct R as [W0 ->].
  apply (@q_not_again cfg (ops ++ racted m1) r1 clock1 r2 out1 a port1 (racted m3) clock2 r3 out2).
  - split; [apply Forall_app; split; [exact W0|apply WO; rewrite EM; apply incl_appl, incl_refl]|]. unfold r1, rrun. now rewrite fold_left_app.
  - exact TA.
  - exact I1.
  - apply WO. rewrite EM. intros k IK. apply in_or_app. right. right. apply in_or_app. now left.
  - apply Forall_forall. intros o I RE. apply NEX. apply Exists_exists. eauto.
  - exact TB.
  - exact I2.
Qed.
Theorem C76_no_double_dial : forall cfg ops r0 tr s, rreach cfg ops r0 -> steps (rmethod cfg) (start_of rcall ranswer r0) tr s ->
  (forall g c o, In (Inv ranswer g c) tr -> rop_of c = Some o -> wf_rop o) ->
  forall a t1 g c x t2 g' c' x' t3, tr = t1 ++ Res g c x :: t2 ++ Res g' c' x' :: t3 -> hands_out a c x -> hands_out a c' x' ->
  exists p h d o, under_way p h d /\ rop_of d = Some o /\ releases a o /\
    ((has_begun t1 g c p /\ prefix p (t1 ++ Res g c x :: t2)) \/ (has_begun (t1 ++ Res g c x :: t2) g' c' p /\ prefix p t1)).
Proof.
  intros cfg ops r0 tr s R H WF a t1 g c x t2 g' c' x' t3 ET HO HO'.
  destruct (linearizable (rdoes cfg) (rmethod_alone cfg) (rmethod_well cfg) H) as (ms & ph & r & E & EX & _).
  assert (WF' : forall g c x o, In (MAct g c x) ms -> rop_of c = Some o -> wf_rop o).
  { intros g0 c0 x0 o I RO. apply (WF g0 c0); [|exact RO]. rewrite <- E. exact (proj2 (acted_called EX) g0 c0 x0 I). }
  rewrite ET in E. destruct (erase_split _ _ _ _ _ _ E) as (A & BC & EA & <- & E2). destruct (erase_split _ _ _ _ _ _ E2) as (B & C & -> & <- & E3). clear E2 E3 E H WF.
  destruct (mark_of EX A _ _ EA) as (A1 & A2 & A3 & EQ1 & F2 & F3).
  destruct (mark_of EX (A ++ MRes g c x :: B) (MRes g' c' x') C ltac:(rewrite EA, <- app_assoc; reflexivity)) as (B1 & B2 & B3 & EQ2 & G2 & G3).
  assert (TT : erase A ++ Res g c x :: erase B = erase (A ++ MRes g c x :: B)) by (now rewrite erase_cat).
  assert (BEG : forall D1 D2 (m : mark rcall ranswer) D3 gg cc w, m = MAct gg cc w -> free gg D2 -> free gg D3 -> forall pp,
            prefix (erase (D1 ++ MInv ranswer gg cc :: D2)) pp -> has_begun (erase (D1 ++ MInv ranswer gg cc :: D2 ++ m :: D3)) gg cc pp).
  { intros D1 D2 m D3 gg cc w -> FD2 FD3 pp [q ->]. exists (erase D1), (erase (D2 ++ MAct gg cc w :: D3)). split; [now rewrite erase_cat|]. split.
    - intros c0 I. rewrite erase_cat in I. apply in_app_or in I as [I|I]; [exact (proj1 (free_erase FD2) c0 I)|exact (proj1 (free_erase FD3) c0 I)].
    - exists (erase D2 ++ q). rewrite erase_cat. cbn [erase flat_map erase1 app]. fold (erase D2). rewrite <- ?app_assoc. reflexivity. }
  assert (UW : forall m0 h d z mm, ms = m0 ++ MAct h d z :: mm -> under_way (erase m0) h d).
  { intros m0 h d z mm EM. destruct (mark_of EX m0 _ _ EM) as (n1 & n2 & -> & FN). exists (erase n1), (erase n2). split; [now rewrite erase_cat|].
    intros d' z' I. exact (proj2 (free_erase FN) d' z' I). }
  assert (EQ3 : (A1 ++ MInv ranswer g c :: A2) ++ MAct g c x :: (A3 ++ MRes g c x :: B) = (B1 ++ MInv ranswer g' c' :: B2) ++ MAct g' c' x' :: B3).
  { transitivity (A ++ MRes g c x :: B); [rewrite EQ1, <- !app_assoc; cbn [app]; rewrite <- ?app_assoc; reflexivity|rewrite EQ2, <- app_assoc; reflexivity]. }
  assert (EMS : ms = (B1 ++ MInv ranswer g' c' :: B2) ++ MAct g' c' x' :: B3 ++ MRes g' c' x' :: C).
  { rewrite EA, app_comm_cons, app_assoc, EQ2, <- !app_assoc. cbn [app]. rewrite <- ?app_assoc. reflexivity. }
  destruct (two_places _ _ _ _ _ _ EQ3) as [(_ & EE & EB)|[(w & EX2 & EB)|(w & EX2 & EB)]].
  - exfalso. injection EE as <- <- <-. rewrite <- EB in G3. apply Forall_app in G3 as [_ G3]. inversion G3 as [|? ? N _]. now apply N.
  - rewrite EX2, <- app_assoc in EMS. cbn [app] in EMS.
    destruct (@released_between cfg ops r0 ms ph r R EX WF' a _ _ _ _ _ _ _ _ _ EMS HO HO') as (w1 & h & d & z & w2 & o & -> & RO & RE).
    assert (EM : ms = ((A1 ++ MInv ranswer g c :: A2) ++ MAct g c x :: w1) ++ MAct h d z :: w2 ++ MAct g' c' x' :: B3 ++ MRes g' c' x' :: C).
    { rewrite EMS, <- ?app_assoc. cbn [app]. rewrite <- ?app_assoc. reflexivity. }
    exists (erase ((A1 ++ MInv ranswer g c :: A2) ++ MAct g c x :: w1)), h, d, o. split; [exact (UW _ _ _ _ _ EM)|]. split; [exact RO|]. split; [exact RE|]. left. split.
    + rewrite EQ1. apply (BEG A1 A2 (MAct g c x) A3 g c x eq_refl F2 F3). exists (erase (MAct g c x :: w1)). now rewrite <- erase_cat.
    + rewrite TT, EQ2. exists (erase (MAct h d z :: w2 ++ MAct g' c' x' :: B3)). rewrite <- erase_cat. f_equal.
      transitivity ((B1 ++ MInv ranswer g' c' :: B2) ++ MAct g' c' x' :: B3); [now rewrite <- app_assoc|]. rewrite EX2, <- !app_assoc. cbn [app]. rewrite <- ?app_assoc. reflexivity.
  - assert (EM0 : ms = (B1 ++ MInv ranswer g' c' :: B2) ++ MAct g' c' x' :: w ++ MAct g c x :: A3 ++ MRes g c x :: B ++ MRes g' c' x' :: C).
    { rewrite EA, EQ1. change (A1 ++ MInv ranswer g c :: A2 ++ MAct g c x :: A3) with (A1 ++ (MInv ranswer g c :: A2) ++ MAct g c x :: A3).
      rewrite app_assoc, EX2, <- !app_assoc. cbn [app]. rewrite <- ?app_assoc. reflexivity. }
    destruct (@released_between cfg ops r0 ms ph r R EX WF' a _ _ _ _ _ _ _ _ _ EM0 HO' HO) as (w1 & h & d & z & w2 & o & -> & RO & RE).
    assert (EM : ms = ((B1 ++ MInv ranswer g' c' :: B2) ++ MAct g' c' x' :: w1) ++ MAct h d z :: w2 ++ MAct g c x :: A3 ++ MRes g c x :: B ++ MRes g' c' x' :: C).
    { rewrite EM0, <- !app_assoc. cbn [app]. rewrite <- ?app_assoc. reflexivity. }
    exists (erase ((B1 ++ MInv ranswer g' c' :: B2) ++ MAct g' c' x' :: w1)), h, d, o. split; [exact (UW _ _ _ _ _ EM)|]. split; [exact RO|]. split; [exact RE|]. right. split.
    + rewrite TT, EQ2. apply (BEG B1 B2 (MAct g' c' x') B3 g' c' x' eq_refl G2 G3). exists (erase (MAct g' c' x' :: w1)). now rewrite <- erase_cat.
    + rewrite EQ1. exists (erase (MAct h d z :: w2 ++ MAct g c x :: A3)). rewrite <- erase_cat. f_equal.
      change (A1 ++ MInv ranswer g c :: A2 ++ MAct g c x :: A3) with (A1 ++ (MInv ranswer g c :: A2) ++ MAct g c x :: A3).
      rewrite app_assoc, EX2, <- !app_assoc. cbn [app]. rewrite <- ?app_assoc. reflexivity.
Qed.
Print Assumptions C76_no_double_dial.
(** Two goroutines ask for addresses at the same time, while a third one unregisters a peer. *)
Definition gsched : list (action rcall) :=
  [ACall 0 (GTake (at0 (1000 * second)%Z)); AGo 0; ACall 1 (GTake (at0 (2000 * second)%Z)); AGo 1; AGo 0; AGo 0; AGo 0; AGo 1; ACall 2 (GUnregister pb 0%Z true); AGo 2] ++
  repeat (AGo 0) 8 ++ repeat (AGo 2) 10 ++ repeat (AGo 1) 8.
Definition gend : list (event rcall ranswer) * state registry rcall ranswer := acts (rmethod xcfg) (start_of rcall ranswer (rrun xcfg told)) gsched.
Example C76_steps_case : steps (rmethod xcfg) (start_of rcall ranswer (rrun xcfg told)) (fst gend) (snd gend).
Proof. apply acts_steps. Qed.
Example C76_example : map (fun e => match e with Res g _ x => Some (g, x) | Inv _ _ _ => None end) (fst gend) =
  [None; None; None; Some (0, AAddrs (Ok [(pa, 6863%N); (pb, 99%N)])); Some (2, AUnit (Ok tt)); Some (1, AAddrs (Ok [(pb, 99%N)]))] /\
  forallb (fun g => match gs (snd gend) g with None => true | Some _ => false end) [0; 1; 2] = true.
Proof. split; vm_compute; reflexivity. Qed.
