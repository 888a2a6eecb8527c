(** Lemmas about the registry over bytes. *)
From Coq Require Import Strings.Byte.
From Verif Require Import Base Kv KvFacts BytesFacts ChainModel PeersModel ChainSpec PeersSpec PeersProofs CborModel CborProofs CborStore RawModel.
Set Implicit Arguments.
Unset Strict Implicit.

(** * The model of records and the bytes *)
Definition bytes_of (r : registry) : bregistry := {| br_db := encoded enc_value (r_db r); br_conns := r_conns r; br_pending := r_pending r |}.
Lemma finish_bytes : forall r p w, br_finish (bytes_of r) p w = (bytes_of (fst (finish r p w)), snd (finish r p w)).
Proof.
  intros r p w. unfold br_finish, finish. cbn [bytes_of br_db]. rewrite write_peer. destruct (put_peer (r_db r) p w); reflexivity.
Qed.
Section Bytes.
  Variable r : registry.
  Hypothesis V : vals (r_db r).
  Ltac look := cbn [bytes_of br_db]; rewrite (read_peer V).
  Lemma register_bytes : forall cfg now w a np h,
    br_register cfg (bytes_of r) now w a np h =
    (bytes_of (fst (fst (register_peer cfg r now w a np h))), snd (fst (register_peer cfg r now w a np h)), snd (register_peer cfg r now w a np h)).
  Proof.
    intros cfg now w a np h. unfold br_register, register_peer. cbn [bytes_of br_db br_conns br_pending r_db r_conns r_pending].
    destruct (negb (is4 a)); [reflexivity|]. destruct (addr_eqb a (g_declared cfg)); [reflexivity|]. rewrite (read_peer V).
    destruct (match get_peer (r_db r) a with Ok p => Ok p | Err ENotFound => _ | Err e => Err e | Panic => Panic | Diverge => Diverge end) as [p|e| |]; try reflexivity.
    set (r1 := {| r_db := r_db r; r_conns := r_conns r; r_pending := del_addr a (r_pending r) |}).
    change ({| br_db := encoded enc_value (r_db r); br_conns := r_conns r; br_pending := del_addr a (r_pending r) |}) with (bytes_of r1).
    destruct (2 <=? _)%Z; [rewrite finish_bytes; now destruct (finish r1 _ w)|].
    destruct (rev (hs_app (co_hs np))) as [|x l]; [reflexivity|].
    destruct (negb _); [rewrite finish_bytes; now destruct (finish r1 _ w)|].
    destruct (check_port a h) as [[port| | |] c]; try reflexivity.
    set (r2 := {| r_db := r_db r; r_conns := set_conn a np (r_conns r); r_pending := del_addr a (r_pending r) |}).
    change ({| br_db := encoded enc_value (r_db r); br_conns := set_conn a np (r_conns r); br_pending := del_addr a (r_pending r) |}) with (bytes_of r2).
    rewrite finish_bytes; now destruct (finish r2 _ w).
  Qed.
  Lemma score_bytes : forall w a s, br_score (bytes_of r) w a s = (bytes_of (fst (update_peer_score r w a s)), snd (update_peer_score r w a s)).
  Proof. intros w a s. unfold br_score, update_peer_score. look. destruct (get_peer (r_db r) a); try reflexivity. apply finish_bytes. Qed.
  Lemma unregister_bytes : forall now w a, br_unregister (bytes_of r) now w a = (bytes_of (fst (unregister_peer r now w a)), snd (unregister_peer r now w a)).
  Proof.
    intros now w a. unfold br_unregister, unregister_peer. look. destruct (get_peer (r_db r) a) as [p| | |]; try reflexivity. cbn [bytes_of br_conns br_pending].
    set (r2 := {| r_db := r_db r; r_conns := del_conn a (r_conns r); r_pending := del_addr a (r_pending r) |}). apply (finish_bytes r2).
  Qed.
  Lemma hostile_bytes : forall w a, br_hostile (bytes_of r) w a = (bytes_of (fst (mark_as_hostile r w a)), snd (mark_as_hostile r w a)).
  Proof.
    intros w [a|]; [|reflexivity]. unfold br_hostile, mark_as_hostile. cbn [bytes_of br_db br_conns br_pending r_db]. rewrite (read_peer V).
    set (r2 := {| r_db := r_db r; r_conns := r_conns r; r_pending := del_addr a (r_pending r) |}).
    destruct (get_peer (r_db r) a) as [p|[]| |]; try reflexivity; apply (finish_bytes r2).
  Qed.
  Lemma append_bytes : forall cfg l fault, br_append cfg (bytes_of r) l fault = (bytes_of (fst (append_addresses cfg r l fault)), snd (append_addresses cfg r l fault)).
  Proof.
    intros cfg l fault. unfold br_append, append_addresses. cbn [bytes_of br_db].
    assert (L : forall l d f n, br_append_loop cfg (encoded enc_value d) l f n = (encoded enc_value (fst (append_loop cfg d l f n)), snd (append_loop cfg d l f n))).
    { clear. induction l as [|[[a port]|] l IH]; intros d f n; cbn [br_append_loop append_loop]; try reflexivity; try apply IH.
      destruct (negb (is4 a)); [apply IH|]. destruct (is_loopback a); [apply IH|]. destruct (addr_eqb a (g_declared cfg)); [apply IH|].
      rewrite read_has_peer. destruct (has_peer d a) as [[]| | |]; try reflexivity; [apply IH|]. rewrite write_peer.
      destruct (put_peer d (fresh_peer a port) _) as [d'| | |]; cbn [bind]; try reflexivity. apply IH. }
    rewrite L. destruct (append_loop cfg (r_db r) l fault 0) as [d n]. reflexivity.
  Qed.
  Lemma take_bytes : forall cfg clock, br_take cfg (bytes_of r) clock = (bytes_of (fst (take_available cfg r clock)), snd (take_available cfg r clock)).
  Proof.
    intros cfg clock. unfold br_take, take_available. cbn [bytes_of br_db br_conns br_pending]. rewrite (read_peers V). destruct (all_peers (r_db r)) as [ps| | |]; try reflexivity.
    destruct (take_loop cfg clock (r_conns r) ps (r_pending r) []) as [pend out]. reflexivity.
  Qed.
  Lemma suggest_bytes : forall cfg now w a, br_suggest cfg (bytes_of r) now w a = (bytes_of (fst (suggest_version cfg r now w a)), snd (suggest_version cfg r now w a)).
  Proof.
    intros cfg now w a. unfold br_suggest, suggest_version. look. destruct (get_peer (r_db r) a) as [p|[]| |]; try reflexivity.
    - destruct (p_state p); try reflexivity. destruct (next_version _ _) as [v| | |]; try reflexivity. rewrite finish_bytes. now destruct (finish r _ w) as [r' [| | |]].
    - destruct (best_version _) as [v| | |]; try reflexivity. rewrite finish_bytes. now destruct (finish r _ w) as [r' [| | |]].
  Qed.
  Lemma step_bytes : forall cfg o, br_step cfg (bytes_of r) o = bytes_of (rstep cfg r o).
  Proof.
    intros cfg [a np h now w|a s w|a now w|a w|l f|c|a now w|]; cbn [br_step rstep].
    - now rewrite register_bytes.
    - now rewrite score_bytes.
    - now rewrite unregister_bytes.
    - now rewrite hostile_bytes.
    - now rewrite append_bytes.
    - now rewrite take_bytes.
    - now rewrite suggest_bytes.
    - reflexivity.
  Qed.
End Bytes.
Lemma run_bytes : forall cfg ops r, (forall v, In v (g_versions cfg) -> version_fits v) -> vals (r_db r) -> Forall rop_typed ops ->
  br_run cfg (bytes_of r) ops = bytes_of (fold_left (rstep cfg) ops r).
Proof.
  intros cfg ops r GV V T. revert r V. induction T as [|o ops TO T IH]; intros r V; [reflexivity|].
  unfold br_run in *. cbn [fold_left]. rewrite (step_bytes V). apply IH. now apply rstep_fits.
Qed.

(** * Records that cannot be read *)
Definition damaged (r : bregistry) (b s : bytes) : Prop := kv_get b (br_db r) = Some s /\ dec_value s = None.
Lemma damaged_peer : forall r b s, damaged r b s -> raw_peer (br_db r) (A4 b) = Ok zero_peer.
Proof. intros r b s [G D]. unfold raw_peer. cbn [pkey bind]. now rewrite G, D. Qed.
Lemma raw_put_cases : forall d p w d', raw_put_peer d p w = Ok d' -> exists b, p_addr p = A4 b /\ d' = kv_put b (enc_value (to_value p)) d.
Proof.
  intros d p w d' E. unfold raw_put_peer in E. destruct (p_addr p) as [|b|b z]; cbn [is4 negb pkey bind] in E; try discriminate.
  destruct (negb (utf8_valid (p_name p))); [discriminate|]. destruct w; [|discriminate]. injection E as <-. eauto.
Qed.
Lemma br_finish_elsewhere : forall r p w b, p_addr p <> A4 b -> kv_get b (br_db (fst (br_finish r p w))) = kv_get b (br_db r).
Proof.
  intros r p w b N. unfold br_finish. destruct (raw_put_peer (br_db r) p w) as [d'| | |] eqn:E; try reflexivity.
  apply raw_put_cases in E as (c & A & ->). cbn [fst br_with br_db]. apply kv_get_put_neq. congruence.
Qed.
Lemma raw_peer_address : forall d a p, raw_peer d a = Ok p -> p_addr p = a \/ p_addr p = AZero.
Proof.
  intros d a p E. unfold raw_peer in E. destruct (pkey a) as [k| | |]; try discriminate. cbn [bind] in E. destruct (kv_get k d) as [s|]; [|discriminate].
  destruct (dec_value s) as [[v|]|]; try discriminate; injection E as <-; cbn; auto.
Qed.
Lemma damaged_stays : forall cfg r b s o, damaged r b s -> (forall w, o <> RHostile (Some (A4 b)) w) -> (forall np h now w, o <> RRegister (A4 b) np h now w) ->
  damaged (br_step cfg r o) b s.
Proof.
  intros cfg r b s o DM NH NR. pose proof (damaged_peer DM) as Z. destruct DM as [G D].
  enough (Q : kv_get b (br_db (br_step cfg r o)) = kv_get b (br_db r)) by (split; [now rewrite Q|exact D]).
  destruct o as [a np h now w|a z w|a now w|a w|l f|c|a now w|]; cbn [br_step].
  - assert (NA : a <> A4 b) by (intros ->; now apply (NR np h now w)). unfold br_register.
    destruct (negb (is4 a)); [reflexivity|]. destruct (addr_eqb a (g_declared cfg)); [reflexivity|]. cbn [br_db].
    destruct (match raw_peer (br_db r) a with Ok p => Ok p | Err ENotFound => _ | Err e => Err e | Panic => Panic | Diverge => Diverge end) as [p|e| |] eqn:K; try reflexivity.
    assert (PA : p_addr p <> A4 b).
    { destruct (raw_peer (br_db r) a) as [q|[]| |] eqn:RP; try discriminate; injection K as <-; [|discriminate].
      destruct (raw_peer_address RP) as [->| ->]; [exact NA|discriminate]. }
    destruct (2 <=? _)%Z; [cbn [fst]; now rewrite br_finish_elsewhere|]. destruct (rev _) as [|x l]; [reflexivity|].
    destruct (negb _); [cbn [fst]; now rewrite br_finish_elsewhere|]. destruct (check_port a h) as [[port| | |] c]; try reflexivity.
    cbn [fst]. now rewrite br_finish_elsewhere.
  - unfold br_score. destruct (raw_peer (br_db r) a) as [p| | |] eqn:RP; try reflexivity. apply br_finish_elsewhere. cbn [set_score p_addr].
    destruct (raw_peer_address RP) as [E|E]; rewrite E; [|discriminate]. intros ->. rewrite Z in RP. injection RP as <-. discriminate E.
  - unfold br_unregister. destruct (raw_peer (br_db r) a) as [p| | |] eqn:RP; try reflexivity. rewrite br_finish_elsewhere; [reflexivity|]. cbn [set_next p_addr].
    destruct (raw_peer_address RP) as [E|E]; rewrite E; [|discriminate]. intros ->. rewrite Z in RP. injection RP as <-. discriminate E.
  - destruct a as [a|]; [|reflexivity]. assert (NA : a <> A4 b) by (intros ->; now apply (NH w)). unfold br_hostile. cbn [br_db].
    destruct (raw_peer (br_db r) a) as [p|[]| |]; try reflexivity; now rewrite br_finish_elsewhere.
  - unfold br_append. destruct (br_append_loop cfg (br_db r) l f 0) as [d n] eqn:E. cbn [fst br_with br_db].
    enough (L : forall l d f n, kv_get b d <> None -> kv_get b (fst (br_append_loop cfg d l f n)) = kv_get b d).
    { specialize (L l (br_db r) f 0%nat). rewrite E in L. apply L. congruence. }
    clear. induction l as [|[[a port]|] l IH]; intros d f n N; cbn [br_append_loop]; try reflexivity; try now apply IH.
    destruct (negb (is4 a)); [now apply IH|]. destruct (is_loopback a); [now apply IH|]. destruct (addr_eqb a (g_declared cfg)); [now apply IH|].
    destruct (raw_has_peer d a) as [[]| | |] eqn:H; try reflexivity; [now apply IH|].
    destruct (raw_put_peer d (fresh_peer a port) _) as [d'| | |] eqn:P; try reflexivity. apply raw_put_cases in P as (c & A & ->). cbn [fresh_peer p_addr] in A. subst a.
    assert (b <> c). { intros ->. unfold raw_has_peer in H. cbn [pkey bind] in H. destruct (kv_get c d); [discriminate|congruence]. }
    rewrite IH; rewrite kv_get_put_neq; auto.
  - unfold br_take. destruct (raw_peers (br_db r)) as [ps| | |]; try reflexivity. now destruct (take_loop _ _ _ _ _ _).
  - unfold br_suggest.
    assert (F : forall p v, p_addr p <> A4 b -> kv_get b (br_db (fst (match br_finish r p w with (r', Ok _) => (r', Ok v) | (r', Err e) => (r', Err e)
                 | (r', Panic) => (r', Panic) | (r', Diverge) => (r', Diverge) end : bregistry * outcome version))) = kv_get b (br_db r)).
    { intros p v N. rewrite <- (@br_finish_elsewhere r p w b N). now destruct (br_finish r p w) as [r' [| | |]]. }
    destruct (raw_peer (br_db r) a) as [p|[]| |] eqn:RP; try reflexivity.
    + destruct (p_state p); try reflexivity. destruct (next_version _ _); try reflexivity. apply F. cbn [set_version p_addr].
      destruct (raw_peer_address RP) as [E|E]; rewrite E; [|discriminate]. intros ->. rewrite Z in RP. injection RP as <-. discriminate E.
    + destruct (best_version _); try reflexivity. apply F. cbn [set_version p_addr fresh_peer]. intros ->. congruence.
  - reflexivity.
Qed.
Lemma damaged_run : forall cfg ops r b s, damaged r b s ->
  Forall (fun o => (forall w, o <> RHostile (Some (A4 b)) w) /\ forall np h now w, o <> RRegister (A4 b) np h now w) ops ->
  damaged (br_run cfg r ops) b s.
Proof.
  intros cfg ops r b s DM F. revert r DM. induction F as [|o ops [NH NR] F IH]; intros r DM; [exact DM|]. unfold br_run in *. cbn [fold_left].
  apply IH. now apply damaged_stays.
Qed.

(** A database with keys of four bytes, in order. *)
Definition keyed (d : raw) : Prop := ksorted d /\ forall k s, In (k, s) d -> length k = 4%nat.
Lemma keyed_put : forall d k v, keyed d -> length k = 4%nat -> keyed (kv_put k v d).
Proof. intros d k v [S K] L. split; [now apply ksorted_put|]. intros k' s I. apply In_put in I as [I|I]; [injection I as -> ->; exact L|eauto]. Qed.
Lemma damaged_list : forall d b s, keyed d -> kv_get b d = Some s -> dec_value s = None -> raw_peers d = Err EOther.
Proof.
  intros d b s [_ K] G D. apply kv_get_In in G. unfold raw_peers. revert K G. induction d as [|[k s'] d IH]; intros K G; [destruct G|]. cbn [mapM fst snd].
  unfold pkey_addr at 1. rewrite (K k s' (or_introl eq_refl)). cbn [Nat.eqb bind]. destruct G as [G|G].
  - injection G as -> ->. now rewrite D.
  - destruct (dec_value s') as [[v|]|]; cbn [bind]; try reflexivity. rewrite IH; [reflexivity| |exact G]. intros k0 s0 I0. eapply K; right; eassumption.
Qed.
Lemma br_finish_keyed : forall r p w, keyed (br_db r) -> (forall b, p_addr p = A4 b -> length b = 4%nat) -> keyed (br_db (fst (br_finish r p w))).
Proof.
  intros r p w K L. unfold br_finish. destruct (raw_put_peer (br_db r) p w) as [d'| | |] eqn:E; try exact K. apply raw_put_cases in E as (c & A & ->).
  cbn [fst br_with br_db]. apply keyed_put; eauto.
Qed.
Lemma step_keyed : forall cfg r o, keyed (br_db r) -> wf_rop o -> keyed (br_db (br_step cfg r o)).
Proof.
  intros cfg r o K W.
  assert (L : forall a p, go_addr a -> raw_peer (br_db r) a = Ok p -> forall b, p_addr p = A4 b -> length b = 4%nat).
  { intros a p GA RP b PA. destruct (raw_peer_address RP) as [E|E]; rewrite E in PA; [subst a|discriminate]. exact GA. }
  assert (A : forall a : addr, go_addr a -> forall b, a = A4 b -> length b = 4%nat) by (intros a GA b ->; exact GA).
  destruct o as [a np h now w|a z w|a now w|a w|l f|c|a now w|]; cbn [br_step wf_rop] in *.
  - unfold br_register. destruct (negb (is4 a)); [exact K|]. destruct (addr_eqb a (g_declared cfg)); [exact K|]. cbn [br_db].
    destruct (match raw_peer (br_db r) a with Ok p => Ok p | Err ENotFound => _ | Err e => Err e | Panic => Panic | Diverge => Diverge end) as [p|e| |] eqn:E; try exact K.
    assert (PA : forall b, p_addr p = A4 b -> length b = 4%nat).
    { destruct (raw_peer (br_db r) a) as [q|[]| |] eqn:RP; try discriminate; injection E as <-; [|discriminate]. eapply L; eauto. }
    destruct (2 <=? _)%Z; [cbn [fst]; now apply br_finish_keyed|]. destruct (rev _) as [|x l]; [exact K|].
    destruct (negb _); [cbn [fst]; now apply br_finish_keyed|]. destruct (check_port a h) as [[port| | |] c]; try exact K.
    cbn [fst]. apply br_finish_keyed; [exact K|]. cbn [connected_peer p_addr]. exact (A a W).
  - unfold br_score. destruct (raw_peer (br_db r) a) as [p| | |] eqn:RP; try exact K. apply br_finish_keyed; [exact K|]. exact (L a p W RP).
  - unfold br_unregister. destruct (raw_peer (br_db r) a) as [p| | |] eqn:RP; try exact K. apply br_finish_keyed; [exact K|]. exact (L a p W RP).
  - destruct a as [a|]; [|exact K]. unfold br_hostile. cbn [br_db].
    destruct (raw_peer (br_db r) a) as [p|[]| |]; try exact K; (apply br_finish_keyed; [exact K|cbn [mark_peer p_addr]; exact (A a W)]).
  - unfold br_append. destruct (br_append_loop cfg (br_db r) l f 0) as [d n] eqn:E. cbn [fst br_with br_db].
    enough (Q : forall l d f n, keyed d -> (forall a port, In (Some (a, port)) l -> go_addr a) -> keyed (fst (br_append_loop cfg d l f n))).
    { specialize (Q l (br_db r) f 0%nat K W). now rewrite E in Q. }
    clear - A. induction l as [|[[a port]|] l IH]; intros d f n K W; cbn [br_append_loop]; try exact K; [|apply IH; [exact K|intros; eapply W; right; eassumption]].
    assert (W' : forall a port, In (Some (a, port)) l -> go_addr a) by (intros; eapply W; right; eassumption).
    destruct (negb (is4 a)); [now apply IH|]. destruct (is_loopback a); [now apply IH|]. destruct (addr_eqb a (g_declared cfg)); [now apply IH|].
    destruct (raw_has_peer d a) as [[]| | |]; try exact K; [now apply IH|].
    destruct (raw_put_peer d (fresh_peer a port) _) as [d'| | |] eqn:P; try exact K. apply raw_put_cases in P as (c & PA & ->). apply IH; [|exact W'].
    apply keyed_put; [exact K|]. cbn [fresh_peer p_addr] in PA. refine (A a _ c PA). eapply W. left. reflexivity.
  - unfold br_take. destruct (raw_peers (br_db r)) as [ps| | |]; try exact K. now destruct (take_loop _ _ _ _ _ _).
  - unfold br_suggest.
    assert (F : forall p v, (forall b, p_addr p = A4 b -> length b = 4%nat) -> keyed (br_db (fst (match br_finish r p w with (r', Ok _) => (r', Ok v) | (r', Err e) => (r', Err e)
                 | (r', Panic) => (r', Panic) | (r', Diverge) => (r', Diverge) end : bregistry * outcome version)))).
    { intros p v N. pose proof (@br_finish_keyed r p w K N) as Q. now destruct (br_finish r p w) as [r' [| | |]]. }
    destruct (raw_peer (br_db r) a) as [p|[]| |] eqn:RP; try exact K.
    + destruct (p_state p); try exact K. destruct (next_version _ _); try exact K. apply F. exact (L a p W RP).
    + destruct (best_version _); try exact K. apply F. cbn [set_version p_addr fresh_peer]. exact (A a W).
  - exact K.
Qed.
Lemma run_keyed : forall cfg ops r, keyed (br_db r) -> Forall wf_rop ops -> keyed (br_db (br_run cfg r ops)).
Proof.
  intros cfg ops r K F. revert r K. induction F as [|o ops W F IH]; intros r K; [exact K|]. unfold br_run in *. cbn [fold_left]. apply IH. now apply step_keyed.
Qed.

(** Two calls overwrite the record. *)
Lemma raw_put_A4 : forall d p b, p_addr p = A4 b -> utf8_valid (p_name p) = true -> raw_put_peer d p true = Ok (kv_put b (enc_value (to_value p)) d).
Proof. intros d p b A U. unfold raw_put_peer. rewrite A, U. reflexivity. Qed.
Lemma hostile_heals : forall r b s, keyed (br_db r) -> damaged r b s ->
  let r' := fst (br_hostile r true (Some (A4 b))) in
  snd (br_hostile r true (Some (A4 b))) = Ok tt /\ raw_peer (br_db r') (A4 b) = Ok (mark_peer zero_peer (A4 b)) /\
  forall c, c <> b -> kv_get c (br_db r') = kv_get c (br_db r).
Proof.
  intros r b s [S K] DM. cbv zeta. unfold br_hostile. cbn [br_db]. rewrite (damaged_peer DM). unfold br_finish. cbn [br_db].
  rewrite (@raw_put_A4 (br_db r) (mark_peer zero_peer (A4 b)) b eq_refl eq_refl). cbn [fst snd br_with br_db]. split; [reflexivity|]. split.
  - unfold raw_peer. cbn [pkey bind]. rewrite (kv_get_put_eq _ _ S). reflexivity.
  - intros c N. now apply kv_get_put_neq.
Qed.

(** * What does not concern the record *)
Definition agree (b : bytes) (d d' : raw) : Prop :=
  (forall k, k <> b -> kv_get k d = kv_get k d') /\ kv_get b d <> None /\ kv_get b d' <> None /\ ksorted d /\ ksorted d'.
Definition alike (b : bytes) (r r' : bregistry) : Prop := br_conns r = br_conns r' /\ br_pending r = br_pending r' /\ agree b (br_db r) (br_db r').
Definition alike_results {R} (b : bytes) (x x' : bregistry * R) : Prop := snd x = snd x' /\ alike b (fst x) (fst x').
Lemma raw_peer_agree : forall b d d' a, agree b d d' -> pkey a <> Ok b -> raw_peer d a = raw_peer d' a.
Proof. intros b d d' a [A _] N. unfold raw_peer. destruct (pkey a) as [k| | |]; try reflexivity. cbn [bind]. now rewrite (A k) by congruence. Qed.
Lemma raw_has_agree : forall b d d' a, agree b d d' -> raw_has_peer d a = raw_has_peer d' a.
Proof.
  intros b d d' a (A & N & N' & _). unfold raw_has_peer. destruct (pkey a) as [k| | |]; try reflexivity. cbn [bind].
  destruct (list_eq_dec Byte.byte_eq_dec k b) as [->|NK]; [|now rewrite (A k NK)]. destruct (kv_get b d), (kv_get b d'); congruence.
Qed.
Lemma put_agree : forall b d d' c v, agree b d d' -> agree b (kv_put c v d) (kv_put c v d').
Proof.
  intros b d d' c v (A & N & N' & S & S'). split; [|split; [|split; [|split; now apply ksorted_put]]].
  - intros k NK. destruct (list_eq_dec Byte.byte_eq_dec k c) as [->|NC]; [now rewrite !kv_get_put_eq|rewrite !kv_get_put_neq; auto].
  - destruct (list_eq_dec Byte.byte_eq_dec b c) as [->|NC]; [rewrite kv_get_put_eq; [discriminate|assumption]|now rewrite kv_get_put_neq].
  - destruct (list_eq_dec Byte.byte_eq_dec b c) as [->|NC]; [rewrite kv_get_put_eq; [discriminate|assumption]|now rewrite kv_get_put_neq].
Qed.
Lemma raw_put_agree : forall b d d' p w, agree b d d' ->
  match raw_put_peer d p w, raw_put_peer d' p w with Ok x, Ok x' => agree b x x' | Err e, Err e' => e = e' | Panic, Panic => True | _, _ => False end.
Proof.
  intros b d d' p w A. unfold raw_put_peer. destruct (negb (is4 (p_addr p))); [reflexivity|]. destruct (negb (utf8_valid (p_name p))); [reflexivity|].
  unfold pkey. destruct (p_addr p); cbn [bind]; try exact I; (destruct w; [|reflexivity]); now apply put_agree.
Qed.
Lemma finish_alike : forall b r r' p w, alike b r r' -> alike_results b (br_finish r p w) (br_finish r' p w).
Proof.
  intros b r r' p w A. destruct A as (C & P & A). pose proof (raw_put_agree p w A) as Q. unfold br_finish.
  destruct (raw_put_peer (br_db r) p w), (raw_put_peer (br_db r') p w); try contradiction; (split; [cbn; congruence|]); (split; [exact C|]); (split; [exact P|]); assumption.
Qed.
Lemma tables_alike : forall b r r' cs ps, alike b r r' -> alike b {| br_db := br_db r; br_conns := cs; br_pending := ps |} {| br_db := br_db r'; br_conns := cs; br_pending := ps |}.
Proof. intros b r r' cs ps (_ & _ & A). split; [reflexivity|]. split; [reflexivity|exact A]. Qed.
Section Alike.
  Variables (b : bytes) (r r' : bregistry).
  Hypothesis A : alike b r r'.
  Lemma register_alike : forall cfg now w a np h, pkey a <> Ok b ->
    let x := br_register cfg r now w a np h in let x' := br_register cfg r' now w a np h in snd x = snd x' /\ alike_results b (fst x) (fst x').
  Proof.
    intros cfg now w a np h N. cbv zeta. pose proof A as (C & P & D). unfold br_register. cbn [br_db br_conns br_pending].
    rewrite (raw_peer_agree D N), C, P.
    pose proof (tables_alike (br_conns r') (del_addr a (br_pending r')) A) as T. pose proof (tables_alike (set_conn a np (br_conns r')) (del_addr a (br_pending r')) A) as T2.
    destruct (negb (is4 a)); [split; [reflexivity|split; [reflexivity|exact T]]|].
    destruct (addr_eqb a (g_declared cfg)); [split; [reflexivity|split; [reflexivity|exact T]]|].
    destruct (match raw_peer (br_db r') a with Ok p => Ok p | Err ENotFound => _ | Err e => Err e | Panic => Panic | Diverge => Diverge end) as [p|e| |];
      try (split; [reflexivity|split; [reflexivity|exact T]]).
    destruct (2 <=? _)%Z; [split; [reflexivity|]; cbn [fst]; now apply finish_alike|].
    destruct (rev _) as [|x l]; [split; [reflexivity|split; [reflexivity|exact T]]|].
    destruct (negb _); [split; [reflexivity|]; cbn [fst]; now apply finish_alike|].
    destruct (check_port a h) as [[port| | |] c]; try (split; [reflexivity|split; [reflexivity|exact T]]).
    split; [reflexivity|]; cbn [fst]; now apply finish_alike.
  Qed.
  Lemma score_alike : forall w a s, pkey a <> Ok b -> alike_results b (br_score r w a s) (br_score r' w a s).
  Proof.
    intros w a s N. pose proof A as (C & P & D). unfold br_score. rewrite (raw_peer_agree D N).
    destruct (raw_peer (br_db r') a); try (split; [reflexivity|exact A]). now apply finish_alike.
  Qed.
  Lemma unregister_alike : forall now w a, pkey a <> Ok b -> alike_results b (br_unregister r now w a) (br_unregister r' now w a).
  Proof.
    intros now w a N. pose proof A as (C & P & D). unfold br_unregister. rewrite (raw_peer_agree D N), C, P.
    destruct (raw_peer (br_db r') a); try (split; [reflexivity|exact A]). apply finish_alike. now apply tables_alike.
  Qed.
  Lemma hostile_alike : forall w a, (forall x, a = Some x -> pkey x <> Ok b) -> alike_results b (br_hostile r w a) (br_hostile r' w a).
  Proof.
    intros w [a|] N; [|split; [reflexivity|exact A]]. specialize (N a eq_refl). pose proof A as (C & P & D). unfold br_hostile. cbn [br_db].
    rewrite (raw_peer_agree D N), C, P. pose proof (tables_alike (br_conns r') (del_addr a (br_pending r')) A) as T.
    destruct (raw_peer (br_db r') a) as [p|[]| |]; try (split; [reflexivity|exact T]); now apply finish_alike.
  Qed.
  Lemma append_alike : forall cfg l fault, alike_results b (br_append cfg r l fault) (br_append cfg r' l fault).
  Proof.
    intros cfg l fault. pose proof A as (C & P & D). unfold br_append.
    assert (L : forall l d d' f n, agree b d d' -> snd (br_append_loop cfg d l f n) = snd (br_append_loop cfg d' l f n) /\
      agree b (fst (br_append_loop cfg d l f n)) (fst (br_append_loop cfg d' l f n))).
    { clear. induction l as [|[[a port]|] l IH]; intros d d' f n D; cbn [br_append_loop]; [split; [reflexivity|exact D]| |now apply IH].
      destruct (negb (is4 a)); [now apply IH|]. destruct (is_loopback a); [now apply IH|]. destruct (addr_eqb a (g_declared cfg)); [now apply IH|].
      rewrite (raw_has_agree a D). destruct (raw_has_peer d' a) as [[]| | |]; try (split; [reflexivity|exact D]); [now apply IH|].
      pose proof (raw_put_agree (fresh_peer a port) (match f with Some 0%nat => false | _ => true end) D) as Q.
      destruct (raw_put_peer d _ _), (raw_put_peer d' _ _); try contradiction; try (split; [reflexivity|exact D]). now apply IH. }
    destruct (L l (br_db r) (br_db r') fault 0%nat D) as [E F]. destruct (br_append_loop cfg (br_db r) l fault 0), (br_append_loop cfg (br_db r') l fault 0).
    cbn [fst snd] in *. split; [exact E|]. split; [exact C|]. split; [exact P|exact F].
  Qed.
  Lemma suggest_alike : forall cfg now w a, pkey a <> Ok b -> alike_results b (br_suggest cfg r now w a) (br_suggest cfg r' now w a).
  Proof.
    intros cfg now w a N. pose proof A as (C & P & D). unfold br_suggest. rewrite (raw_peer_agree D N).
    assert (F : forall p v, alike_results b
       (match br_finish r p w with (x, Ok _) => (x, Ok v) | (x, Err e) => (x, Err e) | (x, Panic) => (x, Panic) | (x, Diverge) => (x, Diverge) end : bregistry * outcome version)
       (match br_finish r' p w with (x, Ok _) => (x, Ok v) | (x, Err e) => (x, Err e) | (x, Panic) => (x, Panic) | (x, Diverge) => (x, Diverge) end)).
    { intros p v. destruct (finish_alike p w A) as [E F]. destruct (br_finish r p w) as [x [| | |]], (br_finish r' p w) as [y [| | |]]; cbn [fst snd] in *;
        try discriminate; (split; [cbn; congruence|exact F]). }
    destruct (raw_peer (br_db r') a) as [p|[]| |]; try (split; [reflexivity|exact A]).
    - destruct (p_state p); try (split; [reflexivity|exact A]). destruct (next_version _ _); try (split; [reflexivity|exact A]). apply F.
    - destruct (best_version _); try (split; [reflexivity|exact A]). apply F.
  Qed.
End Alike.
