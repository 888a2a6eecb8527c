(** Proofs about the calls of the peers registry. *)
From Coq Require Import Strings.Byte.
From Verif Require Import Base Kv BytesFacts KvFacts ChainModel ChainSpec ChainProofs ChainForks PeersModel PeersSpec PeersProofs.
Set Implicit Arguments.
Unset Strict Implicit.

(** * Records *)
Lemma finish_other : forall r p w b, p_addr p <> A4 b -> kv_get b (r_db (fst (finish r p w))) = kv_get b (r_db r).
Proof.
  intros r p w b N. destruct (finish_cases r p w) as [(c & E & _ & _ & ->)|[-> _]]; auto.
  cbn. apply kv_get_put_neq. congruence.
Qed.
Lemma finish_maps : forall r p w, r_conns (fst (finish r p w)) = r_conns r /\ r_pending (fst (finish r p w)) = r_pending r.
Proof. intros r p w. destruct (finish_cases r p w) as [(c & E & _ & _ & ->)|[-> _]]; auto. Qed.
Definition stored (p : Peer) : Peer := of_value (p_addr p) (to_value p).
Lemma finish_own : forall r p w a, RInv r -> p_addr p = a -> ip4 a ->
  (snd (finish r p w) = Ok tt /\ utf8_valid (p_name p) = true /\ w = true /\ reg_peer (fst (finish r p w)) a = Ok (stored p)) \/
  (snd (finish r p w) = Err EOther /\ fst (finish r p w) = r /\ (utf8_valid (p_name p) = true -> w = false)).
Proof.
  intros r p w a I E (b & -> & L). destruct (finish_cases r p w) as [(c & E' & U & W & ->)|[-> F]].
  - left. split; auto. split; auto. split; auto. unfold reg_peer. rewrite get_peer_A4. cbn [fst with_pdb r_db].
    assert (c = b) by congruence. subst c. rewrite kv_get_put_eq by apply I. unfold stored. now rewrite E.
  - right. split; auto. split; auto. intros U. apply F; auto. rewrite E. exists b. auto.
Qed.
Lemma finish_ok : forall r p a, RInv r -> p_addr p = a -> ip4 a -> utf8_valid (p_name p) = true ->
  exists r', finish r p true = (r', Ok tt) /\ reg_peer r' a = Ok (stored p) /\ r_conns r' = r_conns r /\ r_pending r' = r_pending r /\
    (forall c, ip4 c -> c <> a -> reg_peer r' c = reg_peer r c).
Proof.
  intros r p a I E A U. destruct (finish_maps r p true) as [F1 F2].
  destruct (finish_own true I E A) as [(O & _ & _ & G)|(O & _ & F)]; [|specialize (F U); discriminate].
  exists (fst (finish r p true)). split; [rewrite <- O; apply surjective_pairing|]. split; auto. split; auto. split; auto.
  intros c (x & -> & L) N. unfold reg_peer. rewrite !get_peer_A4. rewrite finish_other; auto. congruence.
Qed.

(** A call that is not about [a] leaves its record alone (AppendAddresses may create one). *)
Lemma rstep_other : forall cfg r o b, RInv r -> wf_rop o -> ~ about (A4 b) o ->
  (forall l f, o <> RAppend l f) \/ (exists v, kv_get b (r_db r) = Some v) ->
  kv_get b (r_db (rstep cfg r o)) = kv_get b (r_db r).
Proof.
  intros cfg r o b I W NA KN. destruct o as [a np h now w|a s w|a now w|[a|] w|l f|clock|a now w|]; cbn [rstep wf_rop about] in *.
  - destruct (register_cases cfg r now w a np h) as [(o & c & E & _)|(IP & ND & [(IC & E)|(_ & _ & _ & _ & E)])]; rewrite E; cbn [fst]; auto.
    + rewrite finish_other; auto. cbn [hostile_peer p_addr]. destruct (get_peer (r_db r) a) eqn:G; try discriminate.
      now rewrite (proj1 (get_peer_fields G)).
    + rewrite finish_other; auto.
  - unfold update_peer_score. destruct (get_peer (r_db r) a) eqn:G; auto. apply finish_other. cbn [set_score p_addr].
    now rewrite (proj1 (get_peer_fields G)).
  - unfold unregister_peer. destruct (get_peer (r_db r) a) eqn:G; auto. rewrite finish_other; auto. cbn [set_next p_addr].
    now rewrite (proj1 (get_peer_fields G)).
  - unfold mark_as_hostile. cbn [r_db]. destruct (get_peer (r_db r) a) as [p|[]| |]; auto; rewrite finish_other; auto;
      cbn [mark_peer p_addr]; congruence.
  - reflexivity.
  - destruct KN as [KN|[v KN]]; [exfalso; eapply KN; eauto|]. unfold append_addresses.
    destruct (append_loop cfg (r_db r) l f 0) as [d n] eqn:A. cbn [fst with_pdb r_db].
    destruct (append_inv (conj (I_sorted I) (conj (I_keys I) (I_names I))) W A) as (_ & A2). rewrite KN. auto.
  - destruct (take_view cfg clock I) as (pend & out & -> & _). reflexivity.
  - unfold suggest_version. destruct (get_peer (r_db r) a) as [p|[]| |] eqn:G; auto.
    + destruct (p_state p); auto. destruct (next_version (g_versions cfg) (p_version p)); auto.
      assert (Q := @finish_other r (set_version p a0 (round_second (now + delay)%Z)) w b).
      cbn [set_version p_addr] in Q. rewrite (proj1 (get_peer_fields G)) in Q. specialize (Q NA).
      destruct (finish r _ w) as [r' [| | |]]; exact Q.
    + destruct (best_version (g_versions cfg)); auto.
      assert (Q := @finish_other r (set_version (fresh_peer a 0) a0 (round_second (now + delay)%Z)) w b NA).
      destruct (finish r _ w) as [r' [| | |]]; exact Q.
  - reflexivity.
Qed.
Lemma known_A4 : forall r b, known r (A4 b) <-> exists v, kv_get b (r_db r) = Some v.
Proof.
  intros. unfold known, reg_peer. rewrite get_peer_A4. destruct (kv_get b (r_db r)); split; intros [x E]; eauto; discriminate.
Qed.
Lemma step_other : forall cfg r o a, RInv r -> wf_rop o -> ip4 a -> known r a -> ~ about a o ->
  reg_peer (rstep cfg r o) a = reg_peer r a.
Proof.
  intros cfg r o a I W (b & -> & L) K NA. unfold reg_peer. rewrite !get_peer_A4. rewrite rstep_other; auto.
  right. now apply known_A4.
Qed.

Lemma run_inv : forall cfg ops r, RInv r -> Forall wf_rop ops -> RInv (fold_left (rstep cfg) ops r).
Proof. intros cfg ops. induction ops; intros r I W; inversion W; subst; cbn [fold_left]; auto. apply IHops; auto. now apply rstep_inv. Qed.
Lemma run_other : forall cfg ops r a, RInv r -> Forall wf_rop ops -> ip4 a -> known r a -> Forall (fun o => ~ about a o) ops ->
  reg_peer (fold_left (rstep cfg) ops r) a = reg_peer r a.
Proof.
  intros cfg ops. induction ops as [|o ops IH]; intros r a I W A K NA; cbn [fold_left]; auto.
  inversion W; inversion NA; subst. assert (E := step_other cfg I H1 A K H5). rewrite IH; auto.
  - now apply rstep_inv.
  - destruct K as [p K]. exists p. now rewrite E.
Qed.

(** * C30 *)
Lemma rstep_pending : forall cfg r o a, RInv r -> ~ releases a o -> pending r a -> pending (rstep cfg r o) a.
Proof.
  intros cfg r o a I NR P. unfold pending in *.
  destruct o as [x np h now w|x s w|x now w|[x|] w|l f|clock|x now w|]; cbn [rstep releases] in *; try tauto.
  - assert (D : In a (del_addr x (r_pending r))) by (apply del_addr_In; auto).
    destruct (register_cases cfg r now w x np h) as [(o & c & E & _)|(IP & ND & [(IC & E)|(_ & _ & _ & _ & E)])]; rewrite E; cbn [fst]; auto;
      rewrite (proj2 (finish_maps _ _ _)); exact D.
  - unfold update_peer_score. destruct (get_peer (r_db r) x); auto. now rewrite (proj2 (finish_maps _ _ _)).
  - unfold unregister_peer. destruct (get_peer (r_db r) x); auto. rewrite (proj2 (finish_maps _ _ _)). apply del_addr_In; auto.
  - assert (D : In a (del_addr x (r_pending r))) by (apply del_addr_In; split; auto; congruence).
    unfold mark_as_hostile. cbn [r_db]. destruct (get_peer (r_db r) x) as [p|[]| |]; auto; rewrite (proj2 (finish_maps _ _ _)); exact D.
  - unfold append_addresses. now destruct (append_loop cfg (r_db r) l f 0).
  - destruct (take_view cfg clock I) as (pend & out & -> & _ & _ & _ & E). cbn. apply E. now left.
  - unfold suggest_version. destruct (get_peer (r_db r) x) as [p|[]| |]; auto.
    + destruct (p_state p); auto. destruct (next_version (g_versions cfg) (p_version p)); auto.
      assert (Q := proj2 (finish_maps r (set_version p a0 (round_second (now + delay)%Z)) w)).
      destruct (finish r _ w) as [r' [| | |]]; cbn [fst] in *; now rewrite Q.
    + destruct (best_version (g_versions cfg)); auto.
      assert (Q := proj2 (finish_maps r (set_version (fresh_peer x 0) a0 (round_second (now + delay)%Z)) w)).
      destruct (finish r _ w) as [r' [| | |]]; cbn [fst] in *; now rewrite Q.
Qed.
Lemma run_pending : forall cfg ops r a, RInv r -> Forall wf_rop ops -> Forall (fun o => ~ releases a o) ops -> pending r a ->
  pending (fold_left (rstep cfg) ops r) a.
Proof.
  intros cfg ops. induction ops as [|o ops IH]; intros r a I W N P; inversion W; inversion N; subst; cbn [fold_left]; auto.
  apply IH; auto; [now apply rstep_inv|now apply rstep_pending].
Qed.
Lemma q_not_again : forall cfg ops0 r clock r1 out a port ops clock' r2 out', rreach cfg ops0 r ->
  take_available cfg r clock = (r1, Ok out) -> In (a, port) out ->
  Forall wf_rop ops -> Forall (fun o => ~ releases a o) ops ->
  take_available cfg (fold_left (rstep cfg) ops r1) clock' = (r2, Ok out') -> ~ In a (map fst out').
Proof.
  intros cfg ops0 r clock r1 out a port ops clock' r2 out' R T IN W N T' Q. apply rreach_inv in R.
  destruct (take_view cfg clock R) as (pend & out0 & T0 & _ & _ & _ & P). rewrite T0 in T. injection T as E1 E2. subst out0.
  assert (I1 : RInv r1). { assert (X := @rstep_inv cfg r (RTake clock) R Logic.I). cbn [rstep] in X. rewrite T0 in X. cbn in X. now rewrite E1 in X. }
  assert (P1 : pending r1 a). { subst r1. unfold pending. cbn. apply P. right. eauto. }
  assert (P2 := run_pending cfg I1 W N P1). assert (I2 := run_inv cfg I1 W).
  destruct (take_view cfg clock' I2) as (pend' & out1 & T1 & _ & D & _). rewrite T1 in T'. injection T' as _ <-.
  apply in_map_iff in Q as ([x port'] & E & Q). cbn in E. subst x. apply D in Q as (_ & _ & _ & _ & Q & _). auto.
Qed.

(** * C31 *)
Lemma append_spec : forall cfg l d n d' n', ksorted d -> (forall a p, In (Some (a, p)) l -> go_addr a) ->
  append_loop cfg d l None n = (d', n') ->
  exists added, NoDup (map fst added) /\ n' = n + length added /\
    (forall a port, In (a, port) added <-> offers cfg l a port /\ forall b v, a = A4 b -> kv_get b d <> Some v) /\
    (forall b port, In (A4 b, port) added -> kv_get b d' = Some (to_value (fresh_peer (A4 b) port))) /\
    (forall b, ~ In (A4 b) (map fst added) -> kv_get b d' = kv_get b d) /\ ksorted d'.
Proof.
  intros cfg l. induction l as [|[[a port]|] l IH]; intros d n d' n' S G H.
  - cbn [append_loop] in H. injection H as <- <-. exists []. split; [constructor|]. split; [cbn; lia|]. split.
    { intros a port. split; [intros []|]. intros [(_ & pre & post & E & _) _]. destruct pre; discriminate. }
    split; [intros b port []|]. auto.
  - assert (GA := G a port (or_introl eq_refl)).
    assert (G' : forall a p, In (Some (a, p)) l -> go_addr a) by (intros; eapply G; right; eauto).
    destruct (append_cases cfg d a port l None n) as [[E SK]|(b & Ea & N & AC & [[F _]|[_ E]])]; [|discriminate F|].
    + rewrite E in H. destruct (IH _ _ _ _ S G' H) as (added & A1 & A2 & A3 & A4 & A5 & A6).
      exists added. split; auto. split; auto. split; [|auto]. intros x px. rewrite A3. split; intros [(AX & pre & post & EL & FR) U]; (split; [|exact U]).
      * split; auto. exists (Some (a, port) :: pre), post. split; [now rewrite EL|]. intros p' [Q|Q]; [|eapply FR, Q].
        injection Q as <- <-. destruct SK as [SK|[(b & v & -> & SK)|SK]]; auto. eapply U; eauto.
      * split; auto. destruct pre as [|y pre].
        { injection EL as -> -> ->. exfalso. destruct SK as [SK|[(b & v & -> & SK)|SK]]; auto. eapply U; eauto. }
        injection EL as <- EL. exists pre, post. split; auto. intros p' Q. apply (FR p'). now right.
    + subst a. rewrite E in H. cbn [option_map] in H. specialize (AC GA).
      destruct (IH _ _ _ _ (ksorted_put b (to_value (fresh_peer (A4 b) port)) S) G' H) as (added & A1 & A2 & A3 & A4' & A5 & A6).
      assert (NI : ~ In (A4 b) (map fst added)).
      { intros Q. apply in_map_iff in Q as ([x px] & Q1 & Q2). cbn in Q1. subst x. apply A3 in Q2 as [_ Q2].
        eapply Q2; [reflexivity|]. now apply kv_get_put_eq. }
      exists ((A4 b, port) :: added). split; [cbn; now constructor|]. split; [cbn [length]; lia|]. split.
      { intros x px. cbn [In]. split.
        - intros [Q|Q].
          + injection Q as <- <-. split; [|intros b' v Q1 Q2; injection Q1 as <-; congruence]. split; auto.
            exists [], l. split; auto.
          + assert (XB : x <> A4 b). { intros ->. apply NI, in_map_iff. exists (A4 b, px). auto. }
            apply A3 in Q as [(AX & pre & post & EL & FR) U]. split.
            * split; auto. exists (Some (A4 b, port) :: pre), post. split; [now rewrite EL|]. intros p' [Q|Q]; [|eapply FR, Q]. congruence.
            * intros b' v Q1 Q2. eapply (U b' v); auto. rewrite kv_get_put_neq; auto. congruence.
        - intros [(AX & pre & post & EL & FR) U]. destruct pre as [|y pre].
          + injection EL as -> -> _. now left.
          + injection EL as <- EL. right. apply A3. split; [split; auto; exists pre, post; split; auto; intros p' Q; apply (FR p'); now right|].
            intros b' v Q1 Q2. assert (b' <> b). { intros ->. apply (FR port). left. congruence. }
            rewrite kv_get_put_neq in Q2 by auto. eapply U; eauto. }
      split.
      { intros b' p' [Q|Q]; [|eauto]. injection Q as <- <-. rewrite A5 by auto. now apply kv_get_put_eq. }
      split; [|exact A6]. intros b' Q. cbn in Q. rewrite A5 by auto. apply kv_get_put_neq. intros ->. apply Q. now left.
  - cbn [append_loop] in H. assert (G' : forall a p, In (Some (a, p)) l -> go_addr a) by (intros; eapply G; right; eauto).
    destruct (IH _ _ _ _ S G' H) as (added & A1 & A2 & A3 & A4 & A5 & A6). exists added. split; auto. split; auto. split; [|auto].
    intros x px. rewrite A3. split; intros [(AX & pre & post & EL & FR) U]; (split; [|exact U]); (split; [exact AX|]).
    + exists (None :: pre), post. split; [now rewrite EL|]. intros p' [Q|Q]; [discriminate|eapply FR, Q].
    + destruct pre as [|y pre]; [discriminate|]. injection EL as <- EL. exists pre, post. split; auto. intros p' Q. apply (FR p'). now right.
Qed.
Lemma append_fault : forall cfg l d f n, exists m, append_loop cfg d l f n = append_loop cfg d (firstn m l) None n.
Proof.
  intros cfg l. induction l as [|[[a port]|] l IH]; intros d f n.
  - exists 0. reflexivity.
  - assert (SKIP : exists m, append_loop cfg d l f n = append_loop cfg d (firstn m l) None n) by apply IH.
    destruct SKIP as [m SK].
    destruct (is4 a) eqn:E1; [|exists (S m); cbn [firstn append_loop]; rewrite E1; exact SK].
    destruct (is_loopback a) eqn:E2; [exists (S m); cbn [firstn append_loop]; rewrite E1, E2; exact SK|].
    destruct (addr_eqb a (g_declared cfg)) eqn:E3; [exists (S m); cbn [firstn append_loop]; rewrite E1, E2, E3; exact SK|].
    destruct a as [|b|]; try discriminate E1.
    destruct (kv_get b d) as [v|] eqn:E4.
    { exists (S m). cbn [firstn append_loop]. rewrite E1, E2, E3. unfold has_peer. cbn [pkey bind negb]. rewrite E4. exact SK. }
    destruct f as [[|k]|].
    + exists 0. cbn [firstn append_loop]. rewrite E1, E2, E3. unfold has_peer. cbn [pkey bind negb]. rewrite E4. reflexivity.
    + rewrite append_new by (auto; discriminate).
      destruct (IH (kv_put b (to_value (fresh_peer (A4 b) port)) d) (option_map pred (Some (S k))) (S n)) as [m' Q].
      exists (S m'). rewrite Q. cbn [firstn]. rewrite append_new by (auto; discriminate). reflexivity.
    + rewrite append_new by (auto; discriminate).
      destruct (IH (kv_put b (to_value (fresh_peer (A4 b) port)) d) None (S n)) as [m' Q].
      exists (S m'). cbn [option_map]. rewrite Q. cbn [firstn]. rewrite append_new by (auto; discriminate). reflexivity.
  - destruct (IH d f n) as [m Q]. exists (S m). cbn [firstn append_loop]. exact Q.
Qed.
Lemma fresh_stored : forall a port, of_value a (to_value (fresh_peer a port)) = new_record a port.
Proof. reflexivity. Qed.
Lemma q_append : forall cfg ops r l r' n, rreach cfg ops r -> (forall a port, In (Some (a, port)) l -> go_addr a) ->
  append_addresses cfg r l None = (r', n) ->
  exists added, NoDup (map fst added) /\ n = length added /\
    (forall a port, In (a, port) added <-> offers cfg l a port /\ ~ known r a) /\
    (forall a port, In (a, port) added -> reg_peer r' a = Ok (new_record a port)) /\
    (forall a, ip4 a -> ~ In a (map fst added) -> reg_peer r' a = reg_peer r a) /\
    r_conns r' = r_conns r /\ r_pending r' = r_pending r.
Proof.
  intros cfg ops r l r' n R G H. apply rreach_inv in R. unfold append_addresses in H.
  destruct (append_loop cfg (r_db r) l None 0) as [d k] eqn:A. injection H as <- <-.
  destruct (append_spec (I_sorted R) G A) as (added & A1 & A2 & A3 & A4' & A5 & A6). exists added. split; auto. split; auto. split.
  { intros a port. rewrite A3. split; intros [O U]; (split; [exact O|]); destruct O as [((b & -> & L) & _) _].
    - intros K. apply known_A4 in K as [v K]. eapply U; eauto.
    - intros b' v Q1 Q2. injection Q1 as <-. apply U, known_A4. eauto. }
  split.
  { intros a port Q. assert (Q' := Q). apply A3 in Q' as [[((b & -> & L) & _) _] _]. unfold reg_peer. rewrite get_peer_A4. cbn [with_pdb r_db].
    rewrite (A4' b port Q). now rewrite fresh_stored. }
  split; [|auto]. intros a (b & -> & L) Q. unfold reg_peer. rewrite !get_peer_A4. cbn [with_pdb r_db]. now rewrite A5.
Qed.
Lemma q_append_fault : forall cfg r l f, exists m, append_addresses cfg r l f = append_addresses cfg r (firstn m l) None.
Proof. intros. unfold append_addresses. destruct (append_fault cfg l (r_db r) f 0) as [m E]. exists m. now rewrite E. Qed.

(** * C32 *)
Lemma register_accepts : forall cfg r now w a np h r', RInv r -> go_addr a -> accepts cfg r a np h now w r' ->
  let old := match get_peer (r_db r) a with Ok p => p | _ => zero_peer end in
  let r1 := {| r_db := r_db r; r_conns := set_conn a np (r_conns r); r_pending := del_addr a (r_pending r) |} in
  ip4 a /\ w = true /\ utf8_valid (hs_name h) = true /\ RInv r1 /\
  finish r1 (connected_peer old a (dial_port a h) h now np) w = (r', Ok tt).
Proof.
  intros cfg r now w a np h r' I G A old r1. unfold accepts in A. unfold old, r1.
  destruct (register_cases cfg r now w a np h) as [(o & c & E & N)|(IP & ND & [(IC & E)|(_ & _ & _ & _ & E)])]; rewrite E in A.
  - injection A as _ A _. congruence.
  - injection A as _ A. discriminate.
  - cbn [r_db r_conns r_pending] in A.
    assert (I4 : ip4 a) by (destruct IP; tauto). injection A as A.
    match type of A with finish ?r1 ?p _ = _ => set (r2 := r1) in *; set (p1 := p) in * end.
    assert (I1 : RInv r2).
    { apply (inv_maps (r := r)); auto; [apply set_conn_NoDup, I| |apply del_addr_NoDup, I].
      intros x X. apply set_conn_keys in X as [X|X]; [now apply (I_conns4 I)|now subst]. }
    split; auto. destruct (finish_own (r := r2) (p := p1) w I1 eq_refl I4) as [(_ & U & W & _)|(O & _)]; [auto|].
    rewrite A in O. discriminate.
Qed.
Lemma stored_connected : forall p a port h now np, stored (connected_peer p a port h now np) =
  {| p_addr := a; p_port := port; p_nonce := hs_nonce h; p_name := hs_name h; p_version := hs_version h;
     p_state := PeerConnected; p_next := round_second now; p_score := p_score p; p_conn := None |}.
Proof. intros. unfold stored, of_value, to_value, connected_peer. cbn. now rewrite round_whole. Qed.
Lemma q_accepted_record : forall cfg ops r now w a np h r', rreach cfg ops r -> go_addr a -> accepts cfg r a np h now w r' ->
  ip4 a /\
  reg_peer r' a = Ok {| p_addr := a; p_port := dial_port a h; p_nonce := hs_nonce h; p_name := hs_name h; p_version := hs_version h;
                        p_state := PeerConnected; p_next := round_second now;
                        p_score := match reg_peer r a with Ok p => p_score p | _ => None end; p_conn := None |} /\
  connected r' a /\ ~ pending r' a /\
  (forall b, ip4 b -> b <> a -> reg_peer r' b = reg_peer r b) /\
  (forall b, b <> a -> (connected r' b <-> connected r b) /\ (pending r' b <-> pending r b)).
Proof.
  intros cfg ops r now w a np h r' R G A. apply rreach_inv in R.
  destruct (register_accepts R G A) as (I4 & -> & U & I1 & F). cbn zeta in F.
  match type of F with finish ?r1 ?p _ = _ => set (r2 := r1) in *; set (p1 := p) in * end.
  destruct (finish_ok (r := r2) (p := p1) I1 eq_refl I4 U) as (rx & F' & G1 & G2 & G3 & G4). rewrite F in F'. injection F' as <-.
  split; auto. split.
  { change (p_addr p1) with a in G1. rewrite G1. unfold p1. rewrite stored_connected. unfold reg_peer.
    destruct (get_peer (r_db r) a); reflexivity. }
  unfold connected, pending. rewrite G2, G3. unfold r2. cbn [r_conns r_pending].
  split; [apply set_conn_keys; auto|]. split; [rewrite del_addr_In; tauto|]. split; [exact G4|].
  intros b N. rewrite set_conn_keys, del_addr_In. tauto.
Qed.

Lemma mapM_total : forall A B (f : A -> outcome B) l, (forall x, In x l -> exists y, f x = Ok y) ->
  exists ys, mapM f l = Ok ys /\ Forall2 (fun x y => f x = Ok y) l ys.
Proof.
  induction l as [|x l IH]; intros H; cbn [mapM]; [exists []; auto|].
  destruct (H x (or_introl eq_refl)) as [y E]. rewrite E. cbn [bind]. destruct IH as (ys & -> & F); [intros; apply H; now right|].
  cbn [bind]. exists (y :: ys). auto.
Qed.
Lemma filter_perm : forall A (f : A -> bool) l l', Permutation l l' -> Permutation (filter f l) (filter f l').
Proof.
  intros A f l l' P. induction P; cbn [filter]; auto.
  - destruct (f x); auto.
  - destruct (f x), (f y); auto. constructor.
  - etransitivity; eauto.
Qed.
Lemma filter_none : forall A (f : A -> bool) l, (forall x, In x l -> f x = false) -> filter f l = [].
Proof.
  induction l as [|x l IH]; intros H; cbn [filter]; auto. rewrite H by now left. apply IH. intros; apply H; now right.
Qed.
Lemma filter_one : forall A (k : A -> addr) l x, NoDup (map k l) -> In x l -> filter (fun y => addr_eqb (k y) (k x)) l = [x].
Proof.
  induction l as [|y l IH]; intros x ND I; [contradiction|]. cbn [map filter] in *. apply NoDup_cons_iff in ND as [NI ND].
  destruct I as [->|I].
  - rewrite addr_eqb_refl. f_equal. apply filter_none. intros z Z. destruct (addr_eqb_spec (k z) (k x)) as [e|]; auto.
    exfalso. apply NI. rewrite <- e. now apply in_map.
  - destruct (addr_eqb_spec (k y) (k x)) as [e|]; [|now apply IH]. exfalso. apply NI. rewrite e. now apply in_map.
Qed.
Lemma perm_one : forall A (x : A) l, Permutation l [x] -> l = [x].
Proof. intros A x l P. apply Permutation_sym, Permutation_length_1_inv in P. exact P. Qed.

Lemma Forall2_imp : forall A B (R S : A -> B -> Prop) l l', (forall x y, R x y -> S x y) -> Forall2 R l l' -> Forall2 S l l'.
Proof. intros A B R S l l' H F. induction F; auto. Qed.
Lemma connections_view : forall r ord srt, RInv r -> permutes ord -> permutes srt -> (forall a, connected r a -> known r a) ->
  exists ps, connections ord srt r = Ok ps /\ Permutation (map p_addr ps) (map fst (r_conns r)) /\
    forall p, In p ps <-> exists q c, In (p_addr p, c) (r_conns r) /\ reg_peer r (p_addr p) = Ok q /\ p = set_live q c.
Proof.
  intros r ord srt I PO PS K. unfold connections.
  destruct (@mapM_total _ _ (fun x => do p <- get_peer (r_db r) (fst x); Ok (set_live p (snd x))) (ord (r_conns r))) as (ps & M & F).
  { intros [a c] Q. cbn [fst snd]. destruct (K a) as [p E].
    { apply in_map_iff. exists (a, c). split; auto. eapply Permutation_in; [apply PO|]. exact Q. }
    unfold reg_peer in E. rewrite E. cbn [bind]. eauto. }
  rewrite M. cbn [bind]. exists (srt ps). split; auto.
  assert (FA : Forall2 (fun x p => p_addr p = fst x /\ exists q, reg_peer r (fst x) = Ok q /\ p = set_live q (snd x)) (ord (r_conns r)) ps).
  { eapply Forall2_imp; [|exact F]. intros [a c] p E. cbn [fst snd] in *. unfold reg_peer. destruct (get_peer (r_db r) a) as [q| | |] eqn:G; try discriminate.
    cbn [bind] in E. injection E as <-. split; [cbn; eapply get_peer_fields, G|]. eauto. }
  split.
  - rewrite (Permutation_map p_addr (PS ps)). rewrite <- (Permutation_map fst (PO (r_conns r))).
    assert (E : map p_addr ps = map fst (ord (r_conns r))); [|now rewrite E].
    clear - FA. induction FA as [|x p l ps [E _] FA IH]; cbn [map]; congruence.
  - intros p. split.
    + intros Q. apply (Permutation_in _ (PS ps)) in Q.
      assert (X : exists x, In x (ord (r_conns r)) /\ p_addr p = fst x /\ exists q, reg_peer r (fst x) = Ok q /\ p = set_live q (snd x)).
      { clear - FA Q. induction FA; [contradiction|]. destruct Q as [<-|Q]; [eexists; split; [now left|auto]|]. destruct (IHFA Q) as (z & Z1 & Z2).
        exists z. split; auto. now right. }
      destruct X as ([a c] & X1 & X2 & q & X3 & X4). cbn [fst snd] in *. exists q, c. rewrite X2. split; auto.
      eapply Permutation_in; [apply PO|exact X1].
    + intros (q & c & Q1 & Q2 & Q3). apply (Permutation_in _ (Permutation_sym (PS ps))).
      apply (Permutation_in _ (Permutation_sym (PO (r_conns r)))) in Q1.
      assert (X : exists p', In p' ps /\ exists q, reg_peer r (p_addr p) = Ok q /\ p' = set_live q c).
      { clear - FA Q1. induction FA as [|x y l ps [E1 (q & E2 & E3)] FA IH]; [contradiction|]. destruct Q1 as [->|Q1].
        - exists y. split; [now left|]. cbn [fst snd] in *. eauto.
        - destruct (IH Q1) as (p' & P1 & P2). exists p'. split; auto. now right. }
      destruct X as (p' & X1 & q' & X2 & X3). assert (q' = q) by congruence. subst. exact X1.
Qed.

Lemma q_accepted_listed : forall cfg ops r now w a np h r' ord srt, rreach cfg ops r -> go_addr a -> accepts cfg r a np h now w r' ->
  permutes ord -> permutes srt -> (forall b, connected r b -> known r b) ->
  exists p cs fs, reg_peer r' a = Ok p /\
    connections ord srt r' = Ok cs /\ filter (has_address a) cs = [set_live p np] /\
    friendly_peers srt r' = Ok fs /\ filter (has_address a) fs = [p].
Proof.
  intros cfg ops r now w a np h r' ord srt R G A PO PS K.
  assert (IR' : RInv r').
  { assert (X := @rstep_inv cfg r (RRegister a np h now w) (rreach_inv R) G). cbn [rstep] in X. unfold accepts in A. now rewrite A in X. }
  destruct (q_accepted_record R G A) as (I4 & RA & C & NP & OT & OC). apply rreach_inv in R.
  destruct (register_accepts R G A) as (_ & _ & _ & I1 & F). cbn zeta in F.
  assert (CE : r_conns r' = set_conn a np (r_conns r)).
  { assert (X := proj1 (finish_maps {| r_db := r_db r; r_conns := set_conn a np (r_conns r); r_pending := del_addr a (r_pending r) |}
      (connected_peer (match get_peer (r_db r) a with Ok p => p | _ => zero_peer end) a (dial_port a h) h now np) w)). now rewrite F in X. }
  match type of RA with _ = Ok ?x => set (p := x) in * end.
  assert (K' : forall b, connected r' b -> known r' b).
  { intros b B. destruct (addr_eqb_spec b a) as [->|N]; [exists p; auto|]. apply (OC b N) in B. destruct (K b B) as [q Q]. exists q.
    rewrite OT; auto. now apply (I_conns4 R). }
  destruct (connections_view IR' PO PS K') as (cs & CS & CP & CI).
  assert (AP := all_peers_view IR'). set (al := map _ (r_db r')) in AP.
  exists p, cs, (srt (filter is_friend al)). split; auto. split; auto.
  assert (NDC : NoDup (map p_addr cs)) by (eapply Permutation_NoDup; [apply Permutation_sym, CP|apply IR']).
  split.
  { assert (IN : In (set_live p np) cs). { apply CI. exists p, np. cbn [set_live p_addr]. split; [|auto]. rewrite CE. apply in_or_app. right. now left. }
    apply (filter_one (k := p_addr) NDC IN). }
  unfold friendly_peers. rewrite AP. cbn [bind]. split; auto.
  apply perm_one. rewrite (filter_perm (has_address a) (PS (filter is_friend al))).
  assert (E : filter (has_address a) (filter is_friend al) = [p]); [|now rewrite E].
  assert (ND : NoDup (map p_addr al)) by (apply (all_peers_NoDup IR' AP)).
  assert (IN : In p al). { apply (all_peers_In p IR' AP). auto. }
  assert (FO := filter_one (k := p_addr) ND IN). cbn [p p_addr] in FO. fold p in FO.
  clear - FO RA. clearbody al. assert (FR : is_friend p = true) by reflexivity. unfold has_address.
  assert (E : filter is_friend (filter (fun y => addr_eqb (p_addr y) a) al) = [p]) by (rewrite FO; cbn [filter]; now rewrite FR).
  rewrite <- E. clear. induction al as [|x al IH]; cbn [filter]; auto.
  destruct (is_friend x) eqn:E1, (addr_eqb (p_addr x) a) eqn:E2; cbn [filter]; rewrite ?E1, ?E2, ?IH; auto.
Qed.

(** * C33, C34 *)
Lemma q_hostile_not_taken : forall cfg ops r clock r' out a, rreach cfg ops r -> hostile r a ->
  take_available cfg r clock = (r', Ok out) -> ~ In a (map fst out).
Proof.
  intros cfg ops r clock r' out a R (p & E & S) T Q. apply rreach_inv in R.
  destruct (take_view cfg clock R) as (pend & out0 & T0 & _ & D & _). rewrite T0 in T. injection T as _ <-.
  apply in_map_iff in Q as ([x port] & X & Q). cbn in X. subst x. apply D in Q as (_ & _ & _ & _ & _ & p' & P1 & P2 & _). congruence.
Qed.
Lemma q_hostile_no_version : forall cfg r now w a, hostile r a -> suggest_version cfg r now w a = (r, Err EOther).
Proof. intros cfg r now w a (p & E & S). unfold suggest_version. unfold reg_peer in E. rewrite E, S. reflexivity. Qed.

Definition keeps (P : Peer -> Prop) (r r' : registry) (a : addr) : Prop := forall p, reg_peer r a = Ok p -> P p -> exists p', reg_peer r' a = Ok p' /\ P p'.
Lemma hostile_finish : forall r r1 p w a, RInv r1 -> r_db r1 = r_db r -> ip4 a -> p_addr p = a -> p_state p = PeerHostile -> hostile r a ->
  hostile (fst (finish r1 p w)) a.
Proof.
  intros r r1 p w a I E A PA PS (q & H1 & H2). destruct (finish_own w I PA A) as [(_ & _ & _ & G)|(_ & G & _)]; rewrite ?G.
  - exists (stored p). split; auto.
  - exists q. split; auto. unfold reg_peer. now rewrite E.
Qed.
Lemma hostile_step : forall cfg r o a, RInv r -> wf_rop o -> ip4 a -> hostile r a ->
  hostile (rstep cfg r o) a \/
  exists np h now w, o = RRegister a np h now w /\ accepts cfg r a np h now w (rstep cfg r o).
Proof.
  intros cfg r o a I W A H.
  assert (DEC : about a o \/ ~ about a o).
  { destruct o as [b np h now w|b s w|b now w|[b|] w|l f|clock|b now w|]; cbn; try tauto;
      try (destruct (addr_eqb_spec b a); tauto). destruct (addr_eqb_spec b a); [left; congruence|right; congruence]. right; discriminate. }
  destruct DEC as [AB|NA].
  2: { left. destruct H as (p & H1 & H2). exists p. split; auto. rewrite step_other; auto. now exists p. }
  assert (H' := H). destruct H' as (p & H1 & H2). assert (H1' := H1). unfold reg_peer in H1'. assert (PA := proj1 (get_peer_fields H1')).
  destruct o as [b np h now w|b s w|b now w|[b|] w|l f|clock|b now w|]; cbn [about] in AB; try contradiction; try discriminate;
    try (injection AB as ->); try subst b; cbn [rstep].
  - destruct (register_cases cfg r now w a np h) as [(o & c & E & _)|(IP & ND & [(IC & E)|(_ & _ & _ & _ & E)])]; rewrite E; cbn [fst].
    + left. exists p. auto.
    + left. apply (hostile_finish (r := r)); auto; [now apply inv_del_pending|]. cbn [hostile_peer p_addr]. now rewrite H1'.
    + cbn [r_db r_conns r_pending] in *.
      match type of E with _ = (finish ?r1 ?p _, _) => set (r2 := r1) in *; set (p1 := p) in * end.
      assert (I1 : RInv r2).
      { apply (inv_maps (r := r)); auto; [apply set_conn_NoDup, I| |apply del_addr_NoDup, I].
        intros x X. apply set_conn_keys in X as [X|X]; [now apply (I_conns4 I)|now subst]. }
      destruct (finish_own (p := p1) w I1 eq_refl A) as [(O & _)|(_ & G & _)].
      * right. exists np, h, now, w. split; auto. unfold accepts. rewrite E. f_equal. rewrite <- O. apply surjective_pairing.
      * left. rewrite G. exists p. auto.
  - left. unfold update_peer_score. rewrite H1'. apply (hostile_finish (r := r)); auto.
  - left. unfold unregister_peer. rewrite H1'. apply (hostile_finish (r := r)); auto.
    apply inv_maps; auto; [apply NoDup_fst_filter, I| |apply del_addr_NoDup, I].
    intros x X. apply del_conn_keys in X as [X _]. now apply (I_conns4 I).
  - left. unfold mark_as_hostile. cbn [r_db]. rewrite H1'. apply (hostile_finish (r := r)); auto. now apply inv_del_pending.
  - left. rewrite q_hostile_no_version; auto.
Qed.
Lemma q_stays_hostile : forall cfg ops0 r ops a, rreach cfg ops0 r -> ip4 a -> hostile r a -> Forall wf_rop ops ->
  hostile (fold_left (rstep cfg) ops r) a \/
  exists pre np h now w post, ops = pre ++ RRegister a np h now w :: post /\
    let r1 := fold_left (rstep cfg) pre r in hostile r1 a /\ accepts cfg r1 a np h now w (rstep cfg r1 (RRegister a np h now w)).
Proof.
  intros cfg ops0 r ops a R A H W. apply rreach_inv in R. revert r R H. induction W as [|o ops WO W IH]; intros r R H; [now left|].
  cbn [fold_left]. destruct (hostile_step cfg R WO A H) as [H'|(np & h & now & w & -> & AC)].
  - destruct (IH _ (rstep_inv cfg R WO) H') as [Q|(pre & np & h & now & w & post & E & Q)]; [now left|right].
    exists (o :: pre), np, h, now, w, post. split; [now rewrite E|]. exact Q.
  - right. exists [], np, h, now, w, ops. split; auto.
Qed.

Lemma register_incompatible : forall cfg r now w a np h p, ip4 a -> a <> g_declared cfg -> reg_peer r a = Ok p ->
  incompatible cfg (p_version p) (co_hs np) ->
  register_peer cfg r now w a np h =
  (finish {| r_db := r_db r; r_conns := r_conns r; r_pending := del_addr a (r_pending r) |} (hostile_peer p (co_hs np)) w, true).
Proof.
  intros cfg r now w a np h p (b & -> & L) ND G IC. unfold reg_peer in G. unfold register_peer. cbn [is4 negb r_db].
  destruct (addr_eqb_spec (A4 b) (g_declared cfg)); [contradiction|]. rewrite G.
  destruct (2 <=? g_cmp cfg (hs_version (co_hs np)) (p_version p))%Z eqn:CV; auto.
  destruct IC as [IC|(app & x & E & N)]; [lia|]. rewrite E, rev_unit.
  destruct (N.eqb_spec (Byte.to_N x) (Byte.to_N (g_scheme cfg))) as [EX|EX]; auto.
  exfalso. apply N. apply (f_equal Byte.of_N) in EX. rewrite !Byte.of_to_N in EX. congruence.
Qed.
Lemma q_incompatible : forall cfg ops r now a np h p, rreach cfg ops r -> ip4 a -> a <> g_declared cfg -> reg_peer r a = Ok p ->
  incompatible cfg (p_version p) (co_hs np) -> utf8_valid (hs_name (co_hs np)) = true -> utf8_valid (hs_app (co_hs np)) = true ->
  exists r', register_peer cfg r now true a np h = (r', Ok tt, true) /\ hostile r' a /\ ~ pending r' a /\
    (connected r' a <-> connected r a) /\
    (forall b, ip4 b -> b <> a -> reg_peer r' b = reg_peer r b).
Proof.
  intros cfg ops r now a np h p R A ND G IC U1 U2. apply rreach_inv in R.
  rewrite (register_incompatible now true h A ND G IC).
  assert (PA : p_addr p = a) by (eapply get_peer_fields, G).
  assert (U : utf8_valid (p_name (hostile_peer p (co_hs np))) = true).
  { cbn [hostile_peer p_name]. apply utf8_app; auto. apply utf8_app; [reflexivity|]. apply utf8_app; auto. }
  destruct (finish_ok (p := hostile_peer p (co_hs np)) (inv_del_pending a R) PA A U) as (r' & E & G1 & G2 & G3 & G4).
  exists r'. rewrite E. split; auto. split; [exists (stored (hostile_peer p (co_hs np))); split; auto|].
  unfold pending, connected. rewrite G2, G3. cbn [r_conns r_pending]. split; [rewrite del_addr_In; tauto|]. split; [tauto|]. exact G4.
Qed.

(** * C35 *)
Lemma stored_next : forall p t, p_conn p = None -> stored (set_next p (round_second t)) = set_next p (round_second t).
Proof. intros p t C. unfold stored, of_value, to_value, set_next. cbn. now rewrite round_whole. Qed.
Lemma q_unregister : forall cfg ops r now a p, rreach cfg ops r -> ip4 a -> reg_peer r a = Ok p ->
  exists r', unregister_peer r now true a = (r', Ok tt) /\ ~ connected r' a /\ ~ pending r' a /\
    reg_peer r' a = Ok {| p_addr := a; p_port := p_port p; p_nonce := p_nonce p; p_name := p_name p; p_version := p_version p;
                          p_state := p_state p; p_next := round_second (now + 600 * second)%Z; p_score := p_score p; p_conn := None |} /\
    (forall b, ip4 b -> b <> a -> reg_peer r' b = reg_peer r b) /\
    (forall b, b <> a -> (connected r' b <-> connected r b) /\ (pending r' b <-> pending r b)).
Proof.
  intros cfg ops r now a p R A G. apply rreach_inv in R. unfold unregister_peer. assert (G' := G). unfold reg_peer in G'. rewrite G'.
  assert (PA : p_addr p = a) by (eapply get_peer_fields, G).
  set (r1 := {| r_db := r_db r; r_conns := del_conn a (r_conns r); r_pending := del_addr a (r_pending r) |}).
  assert (I1 : RInv r1).
  { apply inv_maps; auto; [apply NoDup_fst_filter, R| |apply del_addr_NoDup, R].
    intros x X. apply del_conn_keys in X as [X _]. now apply (I_conns4 R). }
  assert (U : utf8_valid (p_name (set_next p (round_second (now + delay)%Z))) = true) by (cbn; eapply get_peer_name; eauto).
  destruct (finish_ok (p := set_next p (round_second (now + delay)%Z)) I1 PA A U) as (r' & E & G1 & G2 & G3 & G4).
  exists r'. split; auto. unfold connected, pending. rewrite G2, G3. cbn [r1 r_conns r_pending].
  split; [rewrite del_conn_keys; tauto|]. split; [rewrite del_addr_In; tauto|]. split.
  { rewrite G1.
    rewrite stored_next by (eapply get_peer_fields, G). unfold set_next. now rewrite PA. }
  split; [exact G4|]. intros b N. rewrite del_conn_keys, del_addr_In. tauto.
Qed.
(** The record says: hostile, or not to be dialled before [t]. *)
Definition rests (t : time) (p : Peer) : Prop := p_state p = PeerHostile \/ (t <= p_next p)%Z.
Lemma rest_finish : forall r r1 p w a t, RInv r1 -> r_db r1 = r_db r -> ip4 a -> p_addr p = a -> rests t (stored p) ->
  (exists q, reg_peer r a = Ok q /\ rests t q) -> exists q, reg_peer (fst (finish r1 p w)) a = Ok q /\ rests t q.
Proof.
  intros r r1 p w a t I E A PA PS (q & H1 & H2). destruct (finish_own w I PA A) as [(_ & _ & _ & G)|(_ & G & _)]; rewrite ?G; eauto.
  exists q. split; auto. unfold reg_peer. now rewrite E.
Qed.
Lemma whole_seconds : forall r a p, reg_peer r a = Ok p -> (p_next p / second * second)%Z = p_next p.
Proof.
  intros r a p H. unfold reg_peer, get_peer in H. destruct (pkey a); try discriminate. cbn [bind] in H.
  destruct (kv_get a0 (r_db r)); [|discriminate]. injection H as <-. cbn. rewrite Z.div_mul; auto. assert (Q := second_pos). lia.
Qed.
Lemma round_mono : forall s t, (s <= t)%Z -> (round_second s <= round_second t)%Z.
Proof.
  intros s t L. unfold round_second. assert (P := second_pos). apply Z.mul_le_mono_nonneg_r; [lia|]. apply Z.div_le_mono; lia.
Qed.
Lemma rest_step : forall cfg r o a now, RInv r -> wf_rop o -> ip4 a -> leaves a now o ->
  (exists p, reg_peer r a = Ok p /\ rests (round_second (now + delay)%Z) p) ->
  exists p, reg_peer (rstep cfg r o) a = Ok p /\ rests (round_second (now + delay)%Z) p.
Proof.
  intros cfg r o a now I W A LV H.
  assert (DEC : about a o \/ ~ about a o).
  { destruct o as [b np h nw w|b s w|b nw w|[b|] w|l f|clock|b nw w|]; cbn; try tauto;
      try (destruct (addr_eqb_spec b a); tauto). destruct (addr_eqb_spec b a); [left; congruence|right; congruence]. right; discriminate. }
  destruct DEC as [AB|NA].
  2: { destruct H as (p & H1 & H2). exists p. split; auto. rewrite step_other; auto. now exists p. }
  assert (H' := H). destruct H' as (p & H1 & H2). assert (H1' := H1). unfold reg_peer in H1'. assert (PA := proj1 (get_peer_fields H1')).
  assert (WS := whole_seconds H1).
  destruct o as [b np h nw w|b s w|b nw w|[b|] w|l f|clock|b nw w|]; cbn [about] in AB; try contradiction; try discriminate;
    try (injection AB as ->); try subst b; cbn [rstep].
  - unfold update_peer_score. rewrite H1'. apply (rest_finish (r := r)); auto. unfold rests, stored in *. cbn. rewrite WS. exact H2.
  - unfold unregister_peer. rewrite H1'. apply (rest_finish (r := r)); auto.
    { apply inv_maps; auto; [apply NoDup_fst_filter, I| |apply del_addr_NoDup, I].
      intros x X. apply del_conn_keys in X as [X _]. now apply (I_conns4 I). }
    unfold rests, stored. cbn. rewrite round_whole. right. apply round_mono. specialize (LV eq_refl). lia.
  - unfold mark_as_hostile. cbn [r_db]. rewrite H1'. apply (rest_finish (r := r)); auto. { now apply inv_del_pending. } now left.
  - unfold suggest_version. rewrite H1'. destruct (p_state p) eqn:S; [|exists p; auto|exists p; auto].
    destruct (next_version (g_versions cfg) (p_version p)) as [v|e| |]; try (exists p; now auto).
    assert (Q : exists q, reg_peer (fst (finish r (set_version p v (round_second (nw + delay)%Z)) w)) a = Ok q /\ rests (round_second (now + delay)%Z) q).
    { apply (rest_finish (r := r)); auto. unfold rests, stored. cbn. rewrite round_whole. right. apply round_mono. specialize (LV eq_refl). lia. }
    destruct (finish r _ w) as [r' [| | |]]; exact Q.
Qed.
Lemma q_rests : forall cfg ops0 r now a p r1 ops clock r2 out, rreach cfg ops0 r -> ip4 a -> reg_peer r a = Ok p ->
  unregister_peer r now true a = (r1, Ok tt) -> Forall wf_rop ops -> Forall (leaves a now) ops ->
  (clock a < now + 600 * second - second / 2)%Z ->
  take_available cfg (fold_left (rstep cfg) ops r1) clock = (r2, Ok out) -> ~ In a (map fst out).
Proof.
  intros cfg ops0 r now a p r1 ops clock r2 out R A G U W LV CK T Q.
  destruct (q_unregister now R A G) as (r1' & U' & _ & _ & G1 & _). rewrite U in U'. injection U' as <-.
  assert (GA : go_addr a) by (destruct A as (b & -> & L); exact L).
  assert (I1 : RInv r1). { assert (X := @rstep_inv cfg r (RUnregister a now true) (rreach_inv R) GA). cbn [rstep] in X. now rewrite U in X. }
  assert (H : exists q, reg_peer r1 a = Ok q /\ rests (round_second (now + delay)%Z) q).
  { eexists. split; [exact G1|]. right. cbn [p_next]. unfold delay. lia. }
  clear U G1. revert r1 I1 H T. induction W as [|o ops WO W IH]; intros r1 I1 H T; cbn [fold_left] in T.
  - destruct H as (q & H1 & H2). destruct (take_view cfg clock I1) as (pend & out0 & T0 & _ & D & _). rewrite T0 in T. injection T as _ <-.
    apply in_map_iff in Q as ([x port] & X & Q). cbn in X. subst x. apply D in Q as (_ & _ & _ & _ & _ & p' & P1 & P2 & _ & P4).
    assert (p' = q) by congruence. subst. destruct H2 as [H2|H2]; [congruence|].
    assert (X := round_near (now + delay)%Z). unfold delay in *. lia.
  - inversion LV; subst. eapply (IH H3 (rstep cfg r1 o)); auto; [now apply rstep_inv|]. now apply rest_step.
Qed.

(** * C36 *)
Lemma known_step : forall cfg r o a, RInv r -> wf_rop o -> ip4 a -> known r a -> known (rstep cfg r o) a.
Proof.
  intros cfg r o a I W A K.
  assert (DEC : about a o \/ ~ about a o).
  { destruct o as [b np h nw w|b s w|b nw w|[b|] w|l f|clock|b nw w|]; cbn; try tauto;
      try (destruct (addr_eqb_spec b a); tauto). destruct (addr_eqb_spec b a); [left; congruence|right; congruence]. right; discriminate. }
  destruct DEC as [AB|NA].
  2: { destruct K as (p & K). exists p. rewrite step_other; auto. now exists p. }
  destruct K as [p K]. assert (K' := K). unfold reg_peer in K'. assert (PA := proj1 (get_peer_fields K')).
  assert (FIN : forall r1 q w, RInv r1 -> r_db r1 = r_db r -> p_addr q = a -> known (fst (finish r1 q w)) a).
  { intros r1 q w I1 E QA. destruct (finish_own w I1 QA A) as [(_ & _ & _ & G)|(_ & G & _)]; [eexists; exact G|].
    rewrite G. exists p. unfold reg_peer. now rewrite E. }
  destruct o as [b np h nw w|b s w|b nw w|[b|] w|l f|clock|b nw w|]; cbn [about] in AB; try contradiction; try discriminate;
    try (injection AB as ->); try subst b; cbn [rstep].
  - destruct (register_cases cfg r nw w a np h) as [(o & c & E & _)|(IP & ND & [(IC & E)|(_ & _ & _ & _ & E)])]; rewrite E; cbn [fst].
    + exists p. auto.
    + apply FIN; auto; [now apply inv_del_pending|]. cbn [hostile_peer p_addr]. now rewrite K'.
    + cbn [r_db r_conns r_pending]. apply FIN; auto.
      apply (inv_maps (r := r)); auto; [apply set_conn_NoDup, I| |apply del_addr_NoDup, I].
      intros x X. apply set_conn_keys in X as [X|X]; [now apply (I_conns4 I)|now subst].
  - unfold update_peer_score. rewrite K'. apply FIN; auto.
  - unfold unregister_peer. rewrite K'. apply FIN; auto.
    apply inv_maps; auto; [apply NoDup_fst_filter, I| |apply del_addr_NoDup, I].
    intros x X. apply del_conn_keys in X as [X _]. now apply (I_conns4 I).
  - unfold mark_as_hostile. cbn [r_db]. rewrite K'. apply FIN; auto. now apply inv_del_pending.
  - unfold suggest_version. rewrite K'. destruct (p_state p) eqn:S; [|exists p; auto|exists p; auto].
    destruct (next_version (g_versions cfg) (p_version p)) as [v|e| |]; try (exists p; now auto).
    assert (Q := FIN r (set_version p v (round_second (nw + delay)%Z)) w I eq_refl PA).
    destruct (finish r _ w) as [r' [| | |]]; exact Q.
Qed.
Lemma rstep_conns : forall cfg r o a, RInv r -> connected (rstep cfg r o) a -> connected r a \/ exists np h now w, o = RRegister a np h now w.
Proof.
  intros cfg r o a I C. unfold connected in *. destruct o as [x np h now w|x s w|x now w|[x|] w|l f|clock|x now w|]; cbn [rstep] in C; auto.
  - destruct (register_cases cfg r now w x np h) as [(o & c & E & _)|(IP & ND & [(IC & E)|(_ & _ & _ & _ & E)])]; rewrite E in C; cbn [fst] in C;
      rewrite ?(proj1 (finish_maps _ _ _)) in C; cbn [r_conns] in C; auto.
    apply set_conn_keys in C as [C|C]; auto. subst. right. eauto.
  - unfold update_peer_score in C. destruct (get_peer (r_db r) x); auto. rewrite (proj1 (finish_maps _ _ _)) in C. auto.
  - unfold unregister_peer in C. destruct (get_peer (r_db r) x); auto. rewrite (proj1 (finish_maps _ _ _)) in C. apply del_conn_keys in C. tauto.
  - unfold mark_as_hostile in C. cbn [r_db] in C. destruct (get_peer (r_db r) x) as [p|[]| |]; auto; rewrite (proj1 (finish_maps _ _ _)) in C; auto.
  - unfold append_addresses in C. destruct (append_loop cfg (r_db r) l f 0); auto.
  - destruct (take_view cfg clock I) as (pend & out & E & _). rewrite E in C. auto.
  - left. unfold suggest_version in C. destruct (get_peer (r_db r) x) as [p|[]| |]; auto.
    + destruct (p_state p); auto. destruct (next_version (g_versions cfg) (p_version p)); auto.
      assert (Q := proj1 (finish_maps r (set_version p a0 (round_second (now + delay)%Z)) w)).
      destruct (finish r _ w) as [r' [| | |]]; cbn [fst] in *; now rewrite <- Q.
    + destruct (best_version (g_versions cfg)); auto.
      assert (Q := proj1 (finish_maps r (set_version (fresh_peer x 0) a0 (round_second (now + delay)%Z)) w)).
      destruct (finish r _ w) as [r' [| | |]]; cbn [fst] in *; now rewrite <- Q.
  - destruct C.
Qed.
Lemma good_step : forall cfg r a np h now w, RInv r -> ip4 a -> known r a \/ (utf8_valid (hs_name h) = true /\ w = true) ->
  connected (rstep cfg r (RRegister a np h now w)) a -> ~ connected r a -> known (rstep cfg r (RRegister a np h now w)) a.
Proof.
  intros cfg r a np h now w I A [K|[U ->]] C NC.
  { apply known_step; auto. destruct A as (b & -> & L). exact L. }
  cbn [rstep] in *. destruct (register_cases cfg r now true a np h) as [(o & c & E & _)|(IP & ND & [(IC & E)|(_ & _ & _ & _ & E)])]; rewrite E in *;
    cbn [fst] in *; unfold connected in *; rewrite ?(proj1 (finish_maps _ _ _)) in C; cbn [r_conns] in C; try contradiction.
  assert (I1 : RInv {| r_db := r_db r; r_conns := set_conn a np (r_conns r); r_pending := del_addr a (r_pending r) |}).
  { apply (inv_maps (r := r)); auto; [apply set_conn_NoDup, I| |apply del_addr_NoDup, I].
    intros x X. apply set_conn_keys in X as [X|X]; [now apply (I_conns4 I)|now subst]. }
  cbn [r_db r_conns r_pending] in *.
  match goal with |- known (fst (finish ?r1 ?p _)) _ => destruct (finish_own (p := p) true I1 eq_refl A) as [(_ & _ & _ & G)|(_ & _ & G)] end.
  - eexists. exact G.
  - specialize (G U). discriminate.
Qed.
Lemma all_known : forall cfg ops r, RInv r -> Forall wf_rop ops -> good_registers cfg r ops -> (forall a, connected r a -> known r a) ->
  forall a, connected (fold_left (rstep cfg) ops r) a -> known (fold_left (rstep cfg) ops r) a.
Proof.
  intros cfg ops. induction ops as [|o ops IH]; intros r I W G K a C; cbn [fold_left] in *; auto.
  inversion W; subst. destruct G as [G1 G2]. apply IH; auto; [now apply rstep_inv|]. intros x X.
  assert (IX : RInv (rstep cfg r o)) by now apply rstep_inv. assert (X4 := I_conns4 IX X).
  destruct (in_dec (fun x y => match addr_eqb_spec x y with ReflectT _ e => left e | ReflectF _ n => right n end) x (map fst (r_conns r))) as [C'|NC].
  - apply known_step; auto.
  - destruct (rstep_conns I X) as [C'|(np & h & now & w & ->)]; [contradiction|]. apply good_step; auto.
Qed.
Lemma q_connections : forall cfg ops r ord srt, rreach cfg ops r -> good_registers cfg (new_registry []) ops -> permutes ord -> permutes srt ->
  exists ps, connections ord srt r = Ok ps /\ Permutation (map p_addr ps) (map fst (r_conns r)) /\
    forall p, In p ps -> exists q c, In (p_addr p, c) (r_conns r) /\ reg_peer r (p_addr p) = Ok q /\ p = set_live q c.
Proof.
  intros cfg ops r ord srt R G PO PS. assert (I := rreach_inv R). destruct R as [W ->].
  destruct (connections_view I PO PS) as (ps & E & P & Q).
  - unfold rrun in *. apply all_known; auto; [|intros a []]. constructor; cbn; try constructor; intros; contradiction.
  - exists ps. split; auto. split; auto. intros p X. now apply Q.
Qed.

(** * C37 *)
Lemma descending_index : forall vs i v, descending vs -> nth_error vs i = Some v -> index_of v vs = i.
Proof.
  induction vs as [|x vs IH]; intros i v D E; [destruct i; discriminate|]. apply StronglySorted_inv in D as [D F]. destruct i as [|i]; cbn [nth_error index_of] in *.
  - injection E as <-. unfold same_minor. now rewrite !N.eqb_refl.
  - assert (IN := nth_error_In _ _ E). rewrite Forall_forall in F. assert (AB := F _ IN). unfold same_minor. unfold above in AB.
    destruct ((ve_major v =? ve_major x)%N && (ve_minor v =? ve_minor x)%N) eqn:S; [exfalso; lia|]. f_equal. auto.
Qed.
Lemma next_in : forall vs i v, descending vs -> nth_error vs i = Some v ->
  exists w, next_version vs v = Ok w /\ nth_error vs (S i mod length vs) = Some w.
Proof.
  intros vs i v D E. unfold next_version. rewrite (descending_index D E). assert (L : i < length vs) by (apply nth_error_Some; congruence).
  destruct (Z.leb_spec (Z.of_nat (length vs) - 1) (Z.of_nat i)).
  - assert (S i = length vs) by lia. rewrite H0, Nat.mod_same by lia. destruct vs as [|x vs]; [cbn in L; lia|]. cbn [nth_error]. eauto.
  - rewrite Nat.mod_small by lia. destruct (nth_error vs (S i)) as [w|] eqn:N; eauto. apply nth_error_None in N. lia.
Qed.
Lemma next_zero : forall vs, descending vs -> vs <> [] ->
  exists w, next_version vs zero_version = Ok w /\ nth_error vs 0 = Some w.
Proof.
  intros vs D NE. assert (IX : index_of zero_version vs >= length vs - 1).
  { induction vs as [|x vs IH]; [congruence|]. clear NE. apply StronglySorted_inv in D as [D F]. cbn [index_of length].
    destruct (same_minor zero_version x) eqn:S.
    - destruct vs as [|y vs]; [cbn; lia|]. exfalso. inversion F; subst. unfold above in *; unfold same_minor in S. unfold zero_version in S; cbn [ve_major ve_minor] in S. lia.
    - destruct vs as [|y vs]; [cbn; lia|]. specialize (IH D). cbn [length] in *. assert (y :: vs <> []) by discriminate. specialize (IH H). lia. }
  unfold next_version. destruct (Z.leb_spec (Z.of_nat (length vs) - 1) (Z.of_nat (index_of zero_version vs))); [|lia].
  destruct vs as [|x vs]; [congruence|]. cbn [nth_error]. eauto.
Qed.
(** After [k] suggestions. *)
Definition asked (vs : list version) (r : registry) (a : addr) (k : nat) : Prop :=
  match k with
  | O => ~ known r a \/ exists port, reg_peer r a = Ok (new_record a port)
  | S k' => exists p, reg_peer r a = Ok p /\ p_state p = PeerUnknown /\ nth_error vs (k' mod length vs) = Some (p_version p)
  end.
Lemma asked_step : forall cfg r o a k, RInv r -> wf_rop o -> ip4 a -> ~ about a o -> asked (g_versions cfg) r a k ->
  asked (g_versions cfg) (rstep cfg r o) a k.
Proof.
  intros cfg r o a k I W A NA P. destruct k as [|k]; cbn [asked] in *.
  - destruct A as (b & -> & L). destruct P as [P|[port P]].
    + destruct o as [x np h now w|x s w|x now w|x w|l f|clock|x now w|]; try (left; rewrite known_A4 in *; rewrite rstep_other; auto; left; discriminate).
      cbn [rstep wf_rop] in *. destruct f as [k|].
      { destruct (q_append_fault cfg r l (Some k)) as [m E]. rewrite E. clear E.
        assert (W' : forall a port, In (Some (a, port)) (firstn m l) -> go_addr a).
        { intros x p Q. apply (W x p). rewrite <- (firstn_skipn m l). apply in_or_app. now left. }
        unfold append_addresses. destruct (append_loop cfg (r_db r) (firstn m l) None 0) as [d n] eqn:AP. cbn [fst].
        destruct (append_spec (I_sorted I) W' AP) as (added & A1 & A2 & A3 & A4' & A5 & A6).
        destruct (in_dec (fun x y => match addr_eqb_spec x y with ReflectT _ e => left e | ReflectF _ n => right n end) (A4 b) (map fst added)) as [Q|Q].
        - apply in_map_iff in Q as ([x port] & X & Q). cbn in X. subst x. right. exists port. unfold reg_peer. rewrite get_peer_A4.
          cbn [with_pdb r_db]. rewrite (A4' b port Q). reflexivity.
        - left. rewrite known_A4 in *. cbn [with_pdb r_db]. now rewrite A5. }
      unfold append_addresses. destruct (append_loop cfg (r_db r) l None 0) as [d n] eqn:AP. cbn [fst].
      destruct (append_spec (I_sorted I) W AP) as (added & A1 & A2 & A3 & A4' & A5 & A6).
      destruct (in_dec (fun x y => match addr_eqb_spec x y with ReflectT _ e => left e | ReflectF _ n => right n end) (A4 b) (map fst added)) as [Q|Q].
      * apply in_map_iff in Q as ([x port] & X & Q). cbn in X. subst x. right. exists port. unfold reg_peer. rewrite get_peer_A4.
        cbn [with_pdb r_db]. rewrite (A4' b port Q). reflexivity.
      * left. rewrite known_A4 in *. cbn [with_pdb r_db]. now rewrite A5.
    + right. exists port. rewrite step_other; auto; [exists b; auto|eexists; exact P].
  - destruct P as (p & P1 & P2 & P3). exists p. split; auto. rewrite step_other; auto. eexists; exact P1.
Qed.
Lemma save_ok : forall r p a (v : version), RInv r -> p_addr p = a -> ip4 a -> utf8_valid (p_name p) = true ->
  exists r', (match finish r p true with (r', Ok _) => (r', Ok v) | (r', Err e) => (r', Err e)
             | (r', Panic) => (r', Panic) | (r', Diverge) => (r', Diverge) end) = (r', Ok v) /\ reg_peer r' a = Ok (stored p).
Proof.
  intros r p a v I PA A U. destruct (finish_ok I PA A U) as (r' & E & G & _). exists r'. rewrite E. auto.
Qed.
Lemma asked_suggest : forall cfg r a k now, RInv r -> ip4 a -> descending (g_versions cfg) -> g_versions cfg <> [] ->
  asked (g_versions cfg) r a k ->
  exists r' v, suggest_version cfg r now true a = (r', Ok v) /\ nth_error (g_versions cfg) (k mod length (g_versions cfg)) = Some v /\
    asked (g_versions cfg) r' a (S k).
Proof.
  intros cfg r a k now I A D NE P. unfold suggest_version. set (vs := g_versions cfg) in *.
  assert (L : length vs <> 0) by (destruct vs; cbn; congruence).
  assert (FRESH : forall p v, reg_peer r a = Ok p -> p_state p = PeerUnknown -> next_version vs (p_version p) = Ok v ->
    nth_error vs (k mod length vs) = Some v ->
    exists r' v, (match p_state p with
      | PeerUnknown =>
          match next_version vs (p_version p) with
          | Ok v => match finish r (set_version p v (round_second (now + delay)%Z)) true with (r', Ok _) => (r', Ok v) | (r', Err e) => (r', Err e)
             | (r', Panic) => (r', Panic) | (r', Diverge) => (r', Diverge) end
          | Err e => (r, Err e) | Panic => (r, Panic) | Diverge => (r, Diverge)
          end
      | PeerConnected => (r, Ok (p_version p))
      | PeerHostile => (r, Err EOther)
      end) = (r', Ok v) /\ nth_error vs (k mod length vs) = Some v /\ asked vs r' a (S k)).
  { intros p v G S N E. rewrite S, N.
    destruct (save_ok (p := set_version p v (round_second (now + delay)%Z)) v I (proj1 (get_peer_fields G)) A) as (r' & E' & G').
    { cbn. eapply get_peer_name; eauto. }
    exists r', v. split; auto. split; auto. cbn [asked]. eexists. split; [exact G'|]. split; [exact S|exact E]. }
  destruct k as [|k]; cbn [asked] in P.
  - destruct P as [P|[port P]].
    + destruct A as (b & -> & LB). rewrite get_peer_A4. destruct (kv_get b (r_db r)) eqn:G; [exfalso; apply P, known_A4; eauto|].
      destruct vs as [|v vs'] eqn:V; [congruence|]. cbn [best_version].
      destruct (save_ok (p := set_version (fresh_peer (A4 b) 0) v (round_second (now + delay)%Z)) v I eq_refl) as (r' & E' & G'); auto.
      { exists b; auto. }
      exists r', v. split; auto. rewrite Nat.mod_0_l by auto. split; auto. cbn [asked]. eexists. split; [exact G'|]. split; [reflexivity|].
      now rewrite Nat.mod_0_l.
    + assert (P' := P). unfold reg_peer in P. rewrite P. destruct (next_zero D NE) as (w & N & Z).
      apply (FRESH _ w P' eq_refl N). now rewrite Nat.mod_0_l.
  - destruct P as (p & P1 & P2 & P3). destruct (next_in D P3) as (w & N & Z). assert (P' := P1). unfold reg_peer in P1. rewrite P1.
    apply (FRESH _ w P' P2 N). rewrite <- Z. f_equal.
    rewrite <- (Nat.add_1_r k), <- (Nat.add_1_r (k mod length vs)). now rewrite Nat.add_mod_idemp_l.
Qed.
Lemma suggestions_cycle : forall cfg ops r a k, RInv r -> Forall wf_rop ops -> Forall (only_suggests a) ops -> ip4 a ->
  descending (g_versions cfg) -> g_versions cfg <> [] -> asked (g_versions cfg) r a k ->
  forall i o, nth_error (suggestions cfg r a ops) i = Some o ->
    exists v, o = Ok v /\ nth_error (g_versions cfg) ((k + i) mod length (g_versions cfg)) = Some v.
Proof.
  intros cfg ops. induction ops as [|o ops IH]; intros r a k I W OS A D NE P i x E; cbn [suggestions] in E; [destruct i; discriminate|].
  inversion W as [|? ? W1 W2]; inversion OS as [|? ? O1 O2]; subst.
  assert (SAME : ~ about a o -> nth_error (suggestions cfg (rstep cfg r o) a ops) i = Some x ->
    exists v, x = Ok v /\ nth_error (g_versions cfg) ((k + i) mod length (g_versions cfg)) = Some v).
  { intros NA Q. eapply IH; try exact Q; auto. { now apply rstep_inv. } now apply asked_step. }
  destruct o as [b np h nw w|b s w|b nw w|b w|l f|clock|b nw w|]; cbn [only_suggests] in O1;
    try (cbn [app] in E; apply SAME; auto; fail).
  destruct (addr_eqb_spec b a) as [->|N]; [|apply SAME; auto].
  specialize (O1 eq_refl). subst w. destruct (asked_suggest nw I A D NE P) as (r' & v & SV & V & P').
  assert (I' := @rstep_inv cfg r (RSuggest a nw true) I W1). cbn [rstep] in *. rewrite SV in *. cbn [fst snd app] in *.
  destruct i as [|i]; cbn [nth_error] in E.
  - injection E as <-. exists v. split; auto. now rewrite Nat.add_0_r.
  - destruct (IH r' a (S k) I' W2 O2 A D NE P' i x E) as (v' & V1 & V2). exists v'. split; auto. now rewrite Nat.add_succ_r.
Qed.
Lemma q_suggestions : forall cfg ops0 r a ops, rreach cfg ops0 r -> ip4 a ->
  (~ known r a \/ exists port, reg_peer r a = Ok (new_record a port)) ->
  descending (g_versions cfg) -> g_versions cfg <> [] -> Forall wf_rop ops -> Forall (only_suggests a) ops ->
  forall i o, nth_error (suggestions cfg r a ops) i = Some o ->
    exists v, o = Ok v /\ nth_error (g_versions cfg) (i mod length (g_versions cfg)) = Some v.
Proof.
  intros cfg ops0 r a ops R A P D NE W OS i o E. apply rreach_inv in R.
  exact (suggestions_cycle (k := 0) R W OS A D NE P E).
Qed.
Lemma suggest_connected : forall cfg r a p now w, reg_peer r a = Ok p -> p_state p = PeerConnected ->
  suggest_version cfg r now w a = (r, Ok (p_version p)).
Proof. intros cfg r a p now w G S. unfold suggest_version. unfold reg_peer in G. rewrite G, S. reflexivity. Qed.
Lemma suggestions_connected : forall cfg ops r a p, RInv r -> Forall wf_rop ops -> Forall (only_suggests a) ops -> ip4 a ->
  reg_peer r a = Ok p -> p_state p = PeerConnected -> Forall (eq (Ok (p_version p))) (suggestions cfg r a ops).
Proof.
  intros cfg ops. induction ops as [|o ops IH]; intros r a p I W OS A G S; cbn [suggestions]; [constructor|].
  inversion W as [|? ? W1 W2]; inversion OS as [|? ? O1 O2]; subst.
  assert (SAME : ~ about a o -> Forall (eq (Ok (p_version p))) (suggestions cfg (rstep cfg r o) a ops)).
  { intros NA. eapply IH; eauto. { now apply rstep_inv. } rewrite step_other; auto. eexists; exact G. }
  destruct o as [b np h nw w|b s w|b nw w|b w|l f|clock|b nw w|]; cbn [only_suggests] in O1;
    try (cbn [app]; apply SAME; auto; fail).
  destruct (addr_eqb_spec b a) as [->|N]; [|apply SAME; auto].
  cbn [rstep]. rewrite (suggest_connected cfg nw w G S). cbn [fst snd app]. constructor; eauto.
Qed.
Lemma q_suggestions_connected : forall cfg ops0 r a np h now w r' ops, rreach cfg ops0 r -> go_addr a -> accepts cfg r a np h now w r' ->
  Forall wf_rop ops -> Forall (only_suggests a) ops -> Forall (eq (Ok (hs_version h))) (suggestions cfg r' a ops).
Proof.
  intros cfg ops0 r a np h now w r' ops R G A W OS. destruct (q_accepted_record R G A) as (I4 & RA & _).
  assert (IR' : RInv r').
  { assert (X := @rstep_inv cfg r (RRegister a np h now w) (rreach_inv R) G). cbn [rstep] in X. unfold accepts in A. now rewrite A in X. }
  exact (suggestions_connected cfg IR' W OS I4 RA eq_refl).
Qed.
(** NewRegistry turns distinct configured versions into a descending list of the same versions. *)
Lemma q_versions : forall srt vs, sorts_versions srt -> NoDup (map (fun v => (ve_major v, ve_minor v)) vs) ->
  descending (new_versions srt vs) /\
  (forall v, In v (new_versions srt vs) <-> ve_patch v = 0%N /\ exists w, In w vs /\ ve_major w = ve_major v /\ ve_minor w = ve_minor v) /\
  length (new_versions srt vs) = length vs.
Proof.
  intros srt vs S ND. destruct (S vs) as [P SS]. unfold new_versions. split.
  - assert (ND' : NoDup (map (fun v => (ve_major v, ve_minor v)) (srt vs))).
    { eapply Permutation_NoDup; [|exact ND]. apply Permutation_map. now symmetry. }
    clear P ND. unfold descending. induction SS as [|v l SS IH F]; cbn [map] in *; [constructor|]. apply NoDup_cons_iff in ND' as [NI ND'].
    constructor; auto. apply Forall_forall. intros x X. apply in_map_iff in X as (w & <- & X). rewrite Forall_forall in F. specialize (F _ X).
    assert (NE : (ve_major v, ve_minor v) <> (ve_major w, ve_minor w)).
    { intros E. apply NI. rewrite E. apply in_map_iff. exists w. auto. }
    unfold above. cbn [drop_patch ve_major ve_minor]. unfold version_less in F.
    destruct (N.lt_trichotomy (ve_major v) (ve_major w)) as [Q|[Q|Q]]; [lia| |lia].
    destruct (N.lt_trichotomy (ve_minor v) (ve_minor w)) as [Q'|[Q'|Q']]; [lia| |lia]. congruence.
  - split; [|rewrite map_length; now apply Permutation_length].
    intros v. rewrite in_map_iff. split.
    + intros (w & <- & X). split; [reflexivity|]. exists w. split; [eapply Permutation_in; eauto|auto].
    + intros (Z & w & X & E1 & E2). exists w. split; [|eapply Permutation_in; [symmetry|]; eauto]. destruct v. cbn in *. unfold drop_patch. congruence.
Qed.

(** * C38, C39, C40 *)
Lemma q_roundtrip : forall cfg ops r p w d', rreach cfg ops r -> put_peer (r_db r) p w = Ok d' -> (p_next p mod second = 0)%Z ->
  get_peer d' (p_addr p) = Ok {| p_addr := p_addr p; p_port := p_port p; p_nonce := p_nonce p; p_name := p_name p;
                                 p_version := p_version p; p_state := p_state p; p_next := p_next p; p_score := p_score p;
                                 p_conn := None |} /\
  (forall b, ip4 b -> b <> p_addr p -> get_peer d' b = get_peer (r_db r) b).
Proof.
  intros cfg ops r p w d' R E M. apply rreach_inv in R. destruct (put_peer_inv E) as (b & PA & U & W & ->). rewrite PA. split.
  - rewrite get_peer_A4, kv_get_put_eq by apply R. unfold of_value, to_value. cbn. rewrite Z.mul_comm, <- Z_div_exact_full_2; auto.
    assert (Q := second_pos). lia.
  - intros c (x & -> & L) N. rewrite !get_peer_A4, kv_get_put_neq; auto. congruence.
Qed.
Lemma q_put_ok : forall d p, ip4 (p_addr p) -> utf8_valid (p_name p) = true -> exists d', put_peer d p true = Ok d'.
Proof. intros d p (b & E & L) U. eexists. now apply put_peer_ok with (b := b). Qed.
Lemma q_kept : forall cfg ops0 r ops a p, rreach cfg ops0 r -> ip4 a -> reg_peer r a = Ok p -> Forall wf_rop ops ->
  Forall (fun o => ~ about a o) ops -> reg_peer (fold_left (rstep cfg) ops r) a = Ok p.
Proof. intros cfg ops0 r ops a p R A G W N. apply rreach_inv in R. rewrite run_other; auto. eexists; exact G. Qed.
Lemma q_peers : forall cfg ops r srt, rreach cfg ops r -> permutes srt -> exists ps, reg_peers srt r = Ok ps /\
  NoDup (map p_addr ps) /\ forall p, In p ps <-> ip4 (p_addr p) /\ reg_peer r (p_addr p) = Ok p.
Proof.
  intros cfg ops r srt R PS. apply rreach_inv in R. assert (AP := all_peers_view R). set (al := map _ (r_db r)) in AP.
  exists (srt al). unfold reg_peers. rewrite AP. cbn [bind]. split; auto. split.
  - eapply Permutation_NoDup; [apply Permutation_map, Permutation_sym, PS|]. apply (all_peers_NoDup R AP).
  - intros p. rewrite <- (all_peers_In p R AP). split; intros Q; [eapply Permutation_in; [apply PS|]; exact Q|].
    eapply Permutation_in; [apply Permutation_sym, PS|exact Q].
Qed.
Lemma unknown_step : forall cfg r o b, RInv r -> wf_rop o -> ~ stores (A4 b) o -> ~ known r (A4 b) -> ~ known (rstep cfg r o) (A4 b).
Proof.
  intros cfg r o b I W NS K. 
  assert (NK : kv_get b (r_db r) = None). { destruct (kv_get b (r_db r)) eqn:E; auto. exfalso. apply K, known_A4. eauto. }
  destruct o as [x np h now w|x s w|x now w|x w|l f|clock|x now w|]; cbn [stores] in NS;
    try (rewrite known_A4 in *; rewrite rstep_other; auto; left; discriminate).
  - destruct (addr_eqb_spec x (A4 b)) as [->|N].
    + cbn [rstep]. unfold update_peer_score. rewrite get_peer_A4, NK. exact K.
    + rewrite known_A4 in *. rewrite rstep_other; auto. left; discriminate.
  - destruct (addr_eqb_spec x (A4 b)) as [->|N].
    + cbn [rstep]. unfold unregister_peer. rewrite get_peer_A4, NK. exact K.
    + rewrite known_A4 in *. rewrite rstep_other; auto. left; discriminate.
  - cbn [rstep wf_rop] in *. destruct (q_append_fault cfg r l f) as [m E]. rewrite E. clear E.
    assert (SUB : forall a port, In (Some (a, port)) (firstn m l) -> In (Some (a, port)) l).
    { intros x p Q. rewrite <- (firstn_skipn m l). apply in_or_app. now left. }
    unfold append_addresses. destruct (append_loop cfg (r_db r) (firstn m l) None 0) as [d n] eqn:AP. cbn [fst].
    destruct (append_spec (I_sorted I) (fun a p Q => W a p (SUB a p Q)) AP) as (added & A1 & A2 & A3 & A4' & A5 & A6).
    rewrite known_A4 in *. cbn [with_pdb r_db]. rewrite A5; auto. intros Q. apply in_map_iff in Q as ([x port] & X & Q). cbn in X. subst x.
    apply A3 in Q as [(_ & pre & post & EL & _) _]. apply NS. exists port. apply SUB. rewrite EL. apply in_or_app. right. now left.
Qed.
Lemma q_unknown : forall cfg ops r a p, rreach cfg ops r -> ip4 a -> reg_peer r a = Ok p -> exists o, In o ops /\ stores a o.
Proof.
  intros cfg ops r a p [W ->] (b & -> & L) G.
  assert (I0 : RInv (new_registry [])) by (constructor; cbn; try constructor; intros; contradiction).
  assert (DEC : forall o, stores (A4 b) o \/ ~ stores (A4 b) o).
  { intros o. destruct o as [x np h now w|x s w|x now w|[x|] w|l f|clock|x now w|]; cbn; try tauto;
      try (destruct (addr_eqb_spec x (A4 b)); tauto).
    - destruct (addr_eqb_spec x (A4 b)); [left|right]; congruence.
    - right; discriminate.
    - destruct (in_dec (fun x y => match addr_eqb_spec x y with ReflectT _ e => left e | ReflectF _ n => right n end) (A4 b)
        (map (fun x => match x with Some (a, _) => a | None => AZero end) l)) as [Q|Q].
      + left. apply in_map_iff in Q as ([[x port]|] & X & Q); [subst x; eauto|discriminate].
      + right. intros [port X]. apply Q. apply in_map_iff. exists (Some (A4 b, port)). auto. }
  assert (K0 : ~ known (new_registry []) (A4 b)) by (rewrite known_A4; cbn; intros [v E]; discriminate).
  unfold rrun in G. revert I0 K0 G. generalize (new_registry []). induction W as [|o ops WO W IH]; intros r0 I0 K0 G; cbn [fold_left] in G.
  - exfalso. apply K0. eexists; exact G.
  - destruct (DEC o) as [S|NS]; [exists o; split; auto; now left|].
    destruct (IH _ (rstep_inv cfg I0 WO) (unknown_step (cfg := cfg) I0 WO NS K0) G) as (o' & Q1 & Q2). exists o'. split; auto. now right.
Qed.
Lemma finish_returns : forall r p w, snd (finish r p w) = Ok tt \/ snd (finish r p w) = Err EOther.
Proof. intros r p w. destruct (finish_cases r p w) as [(c & E & _ & _ & ->)|[-> _]]; auto. Qed.
Lemma q_register_returns : forall cfg r now w a np h, hs_app (co_hs np) <> [] ->
  exists r' o c, register_peer cfg r now w a np h = (r', o, c) /\ (o = Ok tt \/ exists e, o = Err e).
Proof.
  intros cfg r now w a np h NE. unfold register_peer. destruct a as [|b|b z]; cbn [is4 negb]; [repeat eexists; eauto| |repeat eexists; eauto].
  destruct (addr_eqb (A4 b) (g_declared cfg)); [repeat eexists; eauto|].
  assert (FIN : forall r1 p (c : bool), exists r' o c', (finish r1 p w, c) = (r', o, c') /\ (o = Ok tt \/ exists e, o = Err e)).
  { intros r1 p c. destruct (finish r1 p w) as [r' o] eqn:E. exists r', o, c. split; auto. assert (Q := finish_returns r1 p w). rewrite E in Q.
    cbn in Q. destruct Q as [-> | ->]; eauto. }
  cbn [r_db p_state zero_peer]. rewrite get_peer_A4.
  assert (EX : exists p, match (match kv_get b (r_db r) with Some v => Ok (of_value (A4 b) v) | None => Err ENotFound end) with
     | Ok p => Ok p | Err ENotFound => Ok zero_peer | Err e => Err e | Panic => Panic | Diverge => Diverge end = Ok p).
  { destruct (kv_get b (r_db r)); eauto. }
  destruct EX as [p ->]. destruct (2 <=? g_cmp cfg (hs_version (co_hs np)) (p_version p))%Z; [apply FIN|].
  destruct (rev (hs_app (co_hs np))) as [|x l] eqn:R.
  { exfalso. apply NE. rewrite <- (rev_involutive (hs_app (co_hs np))), R. reflexivity. }
  destruct (negb _); [apply FIN|]. unfold check_port. destruct (hs_decl h) as [| |ha port]; [apply FIN|repeat eexists; eauto|].
  destruct (is_loopback ha); [repeat eexists; eauto|]. destruct (negb (is4 ha)); [repeat eexists; eauto|].
  destruct (addr_eqb ha (A4 b)); apply FIN.
Qed.
