(** The registry over the bytes of its database (C94), and records that cannot be read (C95). *)
From Coq Require Import Strings.Byte.
From Verif Require Import Base Kv KvFacts ChainModel PeersModel ChainSpec PeersSpec PeersProofs PeersProps CborModel CborProofs CborStore CborProps RawModel RawProofs.
Set Implicit Arguments.
Unset Strict Implicit.

(** * C94 *)

(** Starting with an empty database, the bytes on the disk are always those of the records of the model, whatever is called and whichever
    write fails, and across restarts; so are the connections and the pending addresses. *)
Theorem C94_states : forall cfg ops r, rreach cfg ops r -> (forall v, In v (g_versions cfg) -> version_fits v) -> Forall rop_typed ops ->
  br_run cfg (braw_new []) ops = {| br_db := encoded enc_value (r_db r); br_conns := r_conns r; br_pending := r_pending r |}.
Proof.
  intros cfg ops r [_ ->] GV T. change (braw_new []) with (bytes_of (new_registry [])). rewrite run_bytes; [reflexivity|exact GV|intros k v []|exact T].
Qed.
Print Assumptions C94_states.
(** Every call returns over the bytes what it returns over the records. *)
Theorem C94_answers : forall cfg ops r, rreach cfg ops r -> (forall v, In v (g_versions cfg) -> version_fits v) -> Forall rop_typed ops ->
  let b := br_run cfg (braw_new []) ops in
  (forall now w a np h, snd (fst (br_register cfg b now w a np h)) = snd (fst (register_peer cfg r now w a np h)) /\
                        snd (br_register cfg b now w a np h) = snd (register_peer cfg r now w a np h)) /\
  (forall w a s, snd (br_score b w a s) = snd (update_peer_score r w a s)) /\
  (forall now w a, snd (br_unregister b now w a) = snd (unregister_peer r now w a)) /\
  (forall w a, snd (br_hostile b w a) = snd (mark_as_hostile r w a)) /\
  (forall l f, snd (br_append cfg b l f) = snd (append_addresses cfg r l f)) /\
  (forall clock, snd (br_take cfg b clock) = snd (take_available cfg r clock)) /\
  (forall now w a, snd (br_suggest cfg b now w a) = snd (suggest_version cfg r now w a)) /\
  (forall a, br_peer b a = reg_peer r a) /\ (forall srt, br_peers srt b = reg_peers srt r) /\ (forall srt, br_friendly srt b = friendly_peers srt r) /\
  (forall srt, br_addresses srt b = addresses srt r) /\ (forall ord srt, br_connections ord srt b = connections ord srt r).
Proof.
  intros cfg ops r R GV T. cbv zeta. rewrite (C94_states R GV T). pose proof (rreach_fits R GV T) as V. fold (bytes_of r).
  split; [intros; rewrite (register_bytes V); split; reflexivity|]. split; [intros; now rewrite (score_bytes V)|]. split; [intros; now rewrite (unregister_bytes V)|].
  split; [intros; now rewrite (hostile_bytes V)|]. split; [intros; now rewrite append_bytes|]. split; [intros; now rewrite (take_bytes V)|].
  split; [intros; now rewrite (suggest_bytes V)|]. split; [intros; apply (read_peer V)|].
  split; [intros; unfold br_peers, reg_peers; cbn [bytes_of br_db]; now rewrite (read_peers V)|].
  split; [intros; unfold br_friendly, friendly_peers; cbn [bytes_of br_db]; now rewrite (read_peers V)|].
  split; [intros; unfold br_addresses, addresses, br_friendly, friendly_peers; cbn [bytes_of br_db]; now rewrite (read_peers V)|].
  intros ord srt. unfold br_connections, connections. cbn [bytes_of br_conns br_db]. f_equal.
  induction (ord (r_conns r)) as [|x l IH]; [reflexivity|]. cbn [mapM]. now rewrite (read_peer V), IH.
Qed.
Print Assumptions C94_answers.
Example C94_example : rreach xcfg scored (rrun xcfg scored) /\ Forall rop_typed scored /\ (forall v, In v (g_versions xcfg) -> version_fits v) /\
  map fst (br_conns (br_run xcfg (braw_new []) scored)) = [pa] /\ length (br_db (br_run xcfg (braw_new []) scored)) = 2%nat /\
  match br_peer (br_run xcfg (braw_new []) scored) pa with Ok p => p_score p | _ => None end = Some (2 ^ 64 + 1)%Z.
Proof. split; [exact scored_reach|]. split; [exact scored_typed|]. split; [exact xcfg_versions|]. vm_compute. repeat split. Qed.

(** * C95 *)

(** The claim is that a record that cannot be read concerns its own peer only. *)
Definition unreadable (r : bregistry) (a : addr) : Prop := exists b s, a = A4 b /\ kv_get b (br_db r) = Some s /\ dec_value s = None.
(** The database of peers: keys of four bytes, in order. *)
Definition well_keyed (r : bregistry) : Prop := ksorted (br_db r) /\ forall k s, In (k, s) (br_db r) -> length k = 4%nat.

(** It is false: with one such record, no list of peers can be made, and nothing is ever dialled. *)
Theorem C95_lists_refuted : forall cfg r a, well_keyed r -> unreadable r a ->
  (forall clock, br_take cfg r clock = (r, Err EOther)) /\ (forall srt, br_peers srt r = Err EOther) /\
  (forall srt, br_friendly srt r = Err EOther) /\ (forall srt, br_addresses srt r = Err EOther).
Proof.
  intros cfg r a K (b & s & -> & G & D). assert (E : raw_peers (br_db r) = Err EOther) by (eapply damaged_list; eauto).
  unfold br_take, br_addresses, br_peers, br_friendly. rewrite E. repeat split.
Qed.
Print Assumptions C95_lists_refuted.
(** This lasts, restarts included, until the peer is marked as hostile or registers. *)
Theorem C95_lasts : forall cfg r a ops, well_keyed r -> unreadable r a -> Forall wf_rop ops ->
  Forall (fun o => (forall w, o <> RHostile (Some a) w) /\ forall np h now w, o <> RRegister a np h now w) ops ->
  well_keyed (br_run cfg r ops) /\ unreadable (br_run cfg r ops) a.
Proof.
  intros cfg r a ops K (b & s & -> & G & D) W F. split; [now apply run_keyed|].
  exists b, s. split; [reflexivity|]. apply (@damaged_run cfg ops r b s (conj G D) F).
Qed.
Print Assumptions C95_lasts.
Lemma next_total : forall vs v, vs <> [] -> exists x, next_version vs v = Ok x.
Proof.
  intros vs v N. unfold next_version. destruct (nth_error vs _) as [x|] eqn:E; [eauto|exfalso]. apply nth_error_None in E.
  destruct vs as [|y vs]; [now apply N|]. cbn [length] in E. destruct (Z.leb_spec (Z.of_nat (S (length vs)) - 1) (Z.of_nat (index_of v (y :: vs)))); lia.
Qed.
(** No call about the peer reports it, and no call except these two changes the record: a score or a new attempt is not recorded ("invalid
    IP address length"), and the error concerns the address. *)
Theorem C95_own_calls : forall cfg r a, unreadable r a ->
  br_peer r a = Ok zero_peer /\ (forall w s, br_score r w a s = (r, Err EOther)) /\
  (forall now w, snd (br_unregister r now w a) = Err EOther /\ br_db (fst (br_unregister r now w a)) = br_db r) /\
  (forall now w, g_versions cfg <> [] -> br_suggest cfg r now w a = (r, Err EOther)).
Proof.
  intros cfg r a (b & s & -> & G & D). assert (Z : raw_peer (br_db r) (A4 b) = Ok zero_peer) by (eapply damaged_peer; split; eauto).
  split; [exact Z|]. split; [intros w z; unfold br_score; rewrite Z; reflexivity|].
  split; [intros now w; unfold br_unregister; rewrite Z; split; reflexivity|].
  intros now w N. unfold br_suggest. rewrite Z. cbn [zero_peer p_state p_version].
  destruct (next_total zero_version N) as [v ->]. reflexivity.
Qed.
Print Assumptions C95_own_calls.
(** A peer that is not refused replaces the record by a good one, as does the mark of hostility; all that was known is lost. *)
Theorem C95_marked : forall r a, well_keyed r -> unreadable r a ->
  exists r', br_hostile r true (Some a) = (r', Ok tt) /\ br_peer r' a = Ok (mark_peer zero_peer a) /\
    forall c, A4 c <> a -> br_peer r' (A4 c) = br_peer r (A4 c).
Proof.
  intros r a K (b & s & -> & G & D). destruct (@hostile_heals r b s K (conj G D)) as (E & P & O).
  destruct (br_hostile r true (Some (A4 b))) as [r' x]. cbn [fst snd] in *. subst x. exists r'. split; [reflexivity|]. split; [exact P|].
  intros c N. unfold br_peer, raw_peer. cbn [pkey bind]. rewrite O by congruence. reflexivity.
Qed.
Print Assumptions C95_marked.
Theorem C95_registered : forall cfg r a np h now, well_keyed r -> unreadable r a -> a <> g_declared cfg ->
  (g_cmp cfg (hs_version (co_hs np)) zero_version < 2)%Z -> (exists l, hs_app (co_hs np) = l ++ [g_scheme cfg]) -> hs_fits h -> time_fits now ->
  hs_decl h = DeclEmpty -> utf8_valid (hs_name h) = true ->
  exists r', br_register cfg r now true a np h = (r', Ok tt, false) /\ ~ unreadable r' a.
Proof.
  intros cfg r a np h now K (b & s & -> & G & D) ND CM [l APP] HF TF DE U. assert (Z : raw_peer (br_db r) (A4 b) = Ok zero_peer) by (eapply damaged_peer; split; eauto).
  unfold br_register. cbn [is4 negb br_db br_conns br_pending]. destruct (PeersProofs.addr_eqb_spec (A4 b) (g_declared cfg)) as [E|_]; [contradiction|].
  rewrite Z. cbn [zero_peer p_version]. destruct (Z.leb_spec 2 (g_cmp cfg (hs_version (co_hs np)) zero_version)); [lia|]. rewrite APP, rev_unit.
  rewrite N.eqb_refl. cbn [negb]. unfold check_port. rewrite DE. unfold br_finish. cbn [br_db]. rewrite (@raw_put_A4 (br_db r) (connected_peer zero_peer (A4 b) 0 h now np) b eq_refl U).
  eexists. split; [reflexivity|]. intros (b' & s' & EB & G' & D'). injection EB as <-. cbn [fst br_with br_db] in G'. destruct K as [S _]. rewrite (kv_get_put_eq _ _ S) in G'.
  injection G' as <-. assert (PF : peer_fits (connected_peer zero_peer (A4 b) 0 h now np)) by (apply connected_fits; auto using zero_peer_fits; reflexivity).
  destruct PF as (H1 & H2 & H3 & H5 & H6 & H7).
  rewrite dec_enc_value in D'; [discriminate|]. unfold value_fits. cbn [to_value v_port v_nonce v_name v_version v_next v_score]. auto 10.
Qed.
Print Assumptions C95_registered.
(** Missing above is the following, which holds: the calls about other addresses, and AppendAddresses, do what they do when the record
    is in order. Two registries that differ in the record of [a] only: *)
Definition differ_at (a : addr) (r r' : bregistry) : Prop :=
  exists b, a = A4 b /\ br_conns r = br_conns r' /\ br_pending r = br_pending r' /\ (forall k, k <> b -> kv_get k (br_db r) = kv_get k (br_db r')) /\
    kv_get b (br_db r) <> None /\ kv_get b (br_db r') <> None /\ ksorted (br_db r) /\ ksorted (br_db r').
Definition same_result {R} (a : addr) (x x' : bregistry * R) : Prop := snd x = snd x' /\ differ_at a (fst x) (fst x').
(** The records of two addresses have the same key: an IPv6 address is taken for an IPv4 one (C39). *)
Definition same_key (a c : addr) : Prop := pkey a = pkey c.
Theorem C95_elsewhere_partial : forall cfg r r' a c, differ_at a r r' -> ~ same_key a c ->
  br_peer r c = br_peer r' c /\
  (forall now w np h, snd (br_register cfg r now w c np h) = snd (br_register cfg r' now w c np h) /\
                      same_result a (fst (br_register cfg r now w c np h)) (fst (br_register cfg r' now w c np h))) /\
  (forall w s, same_result a (br_score r w c s) (br_score r' w c s)) /\
  (forall now w, same_result a (br_unregister r now w c) (br_unregister r' now w c)) /\
  (forall w, same_result a (br_hostile r w (Some c)) (br_hostile r' w (Some c))) /\
  (forall now w, same_result a (br_suggest cfg r now w c) (br_suggest cfg r' now w c)) /\
  (forall l f, same_result a (br_append cfg r l f) (br_append cfg r' l f)).
Proof.
  intros cfg r r' a c (b & -> & C & P & AG) N. assert (A : alike b r r') by (split; [exact C|]; split; [exact P|exact AG]).
  assert (NK : pkey c <> Ok b) by (intros Q; apply N; unfold same_key; cbn [pkey]; congruence).
  assert (B : forall R (x x' : bregistry * R), alike_results b x x' -> same_result (A4 b) x x').
  { intros R x x' (E & C' & P' & AG'). split; [exact E|]. exists b. split; [reflexivity|]. split; [exact C'|]. split; [exact P'|exact AG']. }
  split; [apply (raw_peer_agree AG NK)|].
  split; [intros now w np h; destruct (register_alike A cfg now w np h NK) as [E F]; split; [exact E|now apply B]|].
  split; [intros; apply B, (score_alike A), NK|]. split; [intros; apply B, (unregister_alike A), NK|].
  split; [intros; apply B, (hostile_alike A); intros x X; injection X as <-; exact NK|]. split; [intros; apply B, (suggest_alike A), NK|].
  intros; apply B, (append_alike A).
Qed.
Print Assumptions C95_elsewhere_partial.

(** Two peers, one connected; nine bytes are left of the record of the other. *)
Definition sound : bregistry := br_run xcfg (braw_new []) joined.
Definition torn_registry : bregistry :=
  {| br_db := match br_db sound with [x; (k, s)] => [x; (k, firstn 9 s)] | d => d end; br_conns := br_conns sound; br_pending := br_pending sound |}.
Definition hzero : handshake := greet zero_version DeclEmpty x57 [x6e].
Example C95_example : well_keyed torn_registry /\ unreadable torn_registry pb /\ differ_at pb sound torn_registry /\ ~ same_key pb pa /\
  snd (br_take xcfg sound (at0 (5000 * second)%Z)) = Ok [] /\ br_take xcfg torn_registry (at0 (5000 * second)%Z) = (torn_registry, Err EOther) /\
  (let r := br_run xcfg torn_registry [RUnregister pb 0%Z true; RRestart; RSuggest pb 0%Z true; RAppend xlist None; RScore pa 7%Z true] in
   unreadable r pb /\ snd (br_take xcfg r (at0 (5000 * second)%Z)) = Err EOther) /\
  (let r := br_run xcfg torn_registry [RHostile (Some pb) true; RRestart] in snd (br_take xcfg r (at0 (5000 * second)%Z)) = Ok [(pa, 6863%N)]) /\
  (let r := br_run xcfg sound [RRestart] in snd (br_take xcfg r (at0 (5000 * second)%Z)) = Ok [(pa, 6863%N); (pb, 99%N)]) /\
  (g_cmp xcfg (hs_version hzero) zero_version < 2)%Z /\ snd (fst (br_register xcfg torn_registry 0%Z true pb (PeersProps.line hzero) hzero)) = Ok tt.
Proof.
  assert (K : forall d : raw, map fst d = [[x01; x02; x03; x04]; [x05; x06; x07; x08]] -> ksorted d /\ forall k s, In (k, s) d -> length k = 4%nat).
  { intros d E. split.
    - destruct d as [|[k1 s1] [|[k2 s2] [|]]]; try discriminate E. injection E as -> ->. repeat constructor.
    - intros k s I. apply (in_map fst) in I. rewrite E in I. cbn in I. destruct I as [<-|[<-|[]]]; reflexivity. }
  assert (U : forall r b, match kv_get b (br_db r) with Some s => match dec_value s with None => true | Some _ => false end | None => false end = true -> unreadable r (A4 b)).
  { intros r b E. destruct (kv_get b (br_db r)) as [s|] eqn:G; [|discriminate E]. destruct (dec_value s) eqn:D; [discriminate E|]. now exists b, s. }
  assert (K1 : well_keyed torn_registry) by (apply K; vm_compute; reflexivity). split; [exact K1|].
  split; [apply (U _ [x05; x06; x07; x08]); vm_compute; reflexivity|]. split.
  { exists [x05; x06; x07; x08]. split; [reflexivity|]. split; [reflexivity|]. split; [reflexivity|]. split; [|split; [|split; [|split; [|apply K1]]]].
    - intros k N. change (br_db torn_registry) with (match br_db sound with [x; (k, s)] => [x; (k, firstn 9 s)] | d => d end).
      destruct (br_db sound) as [|x [|[k2 s2] [|y t]]] eqn:E; [reflexivity..| |reflexivity]. assert (k2 = [x05; x06; x07; x08]).
      { assert (Q : map fst (br_db sound) = [[x01; x02; x03; x04]; [x05; x06; x07; x08]]) by (vm_compute; reflexivity). rewrite E in Q. now injection Q. }
      subst k2. cbn [kv_get]. destruct x as [k1 s1]. destruct (beqb k k1); [reflexivity|]. destruct (beqb k [x05; x06; x07; x08]) eqn:B; [|reflexivity].
      apply BytesFacts.beqb_eq in B. contradiction.
    - vm_compute. discriminate.
    - vm_compute. discriminate.
    - assert (Q : map fst (br_db sound) = [[x01; x02; x03; x04]; [x05; x06; x07; x08]]) by (vm_compute; reflexivity). apply (K _ Q). }
  split; [intros Q; discriminate Q|]. split; [vm_compute; reflexivity|]. split; [vm_compute; reflexivity|].
  split; [split; [apply (U _ [x05; x06; x07; x08]); vm_compute; reflexivity|vm_compute; reflexivity]|].
  repeat split; vm_compute; reflexivity.
Qed.

(** The witness of the refutation: the same registry, but for the record of [pb] the call with it intact takes both peers. *)
Theorem C95_dialled_refuted : exists cfg r r' a c clock, differ_at a r r' /\ ~ same_key a c /\ well_keyed r' /\ unreadable r' a /\
  (exists l, snd (br_take cfg r clock) = Ok l /\ In c (map fst l)) /\ snd (br_take cfg r' clock) = Err EOther.
Proof.
  destruct C95_example as (W & U & (b & Eb & _ & _ & G & N & N' & S & S') & K & _ & _ & _ & _ & T & _).
  exists xcfg, (br_run xcfg sound [RRestart]), (braw_new (br_db torn_registry)), pb, pa, (at0 (5000 * second)%Z).
  split; [exists b; repeat split; auto|]. split; [exact K|]. split; [exact W|]. split; [exact U|].
  split; [exists [(pa, 6863%N); (pb, 99%N)]; split; [exact T|now left]|].
  now rewrite (proj1 (@C95_lists_refuted xcfg (braw_new (br_db torn_registry)) pb W U)).
Qed.
Print Assumptions C95_dialled_refuted.
