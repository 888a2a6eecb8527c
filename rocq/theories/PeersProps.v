(** Properties of the peers registry (C29-C40). *)
From Coq Require Import Strings.Byte.
From Verif Require Import Base Kv ChainModel ChainSpec ForkProofs PeersModel PeersSpec PeersProofs PeersCalls.
Set Implicit Arguments.
Unset Strict Implicit.

(** * A small registry for the examples *)
(** A version comparison for the examples: the distance of the minor numbers, or 2 for different major numbers. *)
Definition xcmp (v w : version) : Z :=
  if (ve_major v =? ve_major w)%N then Z.abs (Z.of_N (ve_minor v) - Z.of_N (ve_minor w)) else 2%Z.
Definition ver (a b c : N) : version := {| ve_major := a; ve_minor := b; ve_patch := c |}.
Definition pa : addr := A4 [x01; x02; x03; x04].
Definition pb : addr := A4 [x05; x06; x07; x08].
Definition pme : addr := A4 [x0a; x00; x00; x01].
Definition plo : addr := A4 [x7f; x00; x00; x01].
Definition palias : addr := A6 ([x01; x02; x03; x04] ++ repeat x00 12) [].
Definition xcfg : config :=
  {| g_scheme := x57; g_versions := [ver 1 5 0; ver 1 4 0; ver 1 3 0]; g_declared := pme; g_cmp := xcmp; g_upper := fun b => b |}.
Definition greet (v : version) (d : decl) (scheme : byte) (name : bytes) : handshake :=
  {| hs_app := [x77; scheme]; hs_version := v; hs_name := name; hs_nonce := 7; hs_decl := d |}.
Definition hgood : handshake := greet (ver 1 5 3) (Decl pa 6863) x57 [x6e].
Definition hforeign : handshake := greet (ver 1 5 3) DeclEmpty x54 [x6e].
Definition hname : handshake := greet (ver 0 0 0) DeclEmpty x57 [xff].
Definition line (h : handshake) : conn := {| co_id := 1; co_hs := h |}.
Definition xlist : list (option (addr * N)) := [Some (pa, 6863%N); None; Some (plo, 1%N); Some (pb, 99%N); Some (pa, 5%N); Some (pme, 7%N)].
Definition at0 (t : time) : addr -> time := fun _ => t.
(** Two addresses heard of, versions suggested for the first, both handed out, the first connected. *)
Definition heard : list rop := [RAppend xlist None].
Definition told : list rop := heard ++ [RSuggest pa 0%Z true].
Definition dialled : list rop := told ++ [RTake (at0 (1000 * second)%Z)].
Definition joined : list rop := dialled ++ [RRegister pa (line hgood) hgood (1001 * second)%Z true].
Ltac wf_ops := repeat constructor; cbn; auto; try (intros ? ? Q; repeat (destruct Q as [Q|Q]; [try discriminate Q; injection Q as <- <-; reflexivity|]); destruct Q).
Lemma heard_reach : rreach xcfg heard (rrun xcfg heard).
Proof. split; [wf_ops|reflexivity]. Qed.
Lemma told_reach : rreach xcfg told (rrun xcfg told).
Proof. split; [wf_ops|reflexivity]. Qed.
Lemma dialled_reach : rreach xcfg dialled (rrun xcfg dialled).
Proof. split; [wf_ops|reflexivity]. Qed.
Lemma joined_reach : rreach xcfg joined (rrun xcfg joined).
Proof. split; [wf_ops|reflexivity]. Qed.
Lemma ip4_pa : ip4 pa. Proof. eexists; split; reflexivity. Qed.
Lemma ip4_pb : ip4 pb. Proof. eexists; split; reflexivity. Qed.

(** * C29 *)
Theorem C29_available : forall cfg ops r clock, rreach cfg ops r ->
  exists r' out, take_available cfg r clock = (r', Ok out) /\
    NoDup (map fst out) /\
    (forall a port, In (a, port) out <-> dialable cfg r clock a port) /\
    (forall a, pending r' a <-> pending r a \/ exists port, In (a, port) out) /\
    (forall a, reg_peer r' a = reg_peer r a) /\ r_conns r' = r_conns r.
Proof.
  intros cfg ops r clock R. destruct (take_view cfg clock (rreach_inv R)) as (pend & out & T & ND & D & _ & P).
  eexists _, out. split; [exact T|]. split; [exact ND|]. split; [exact D|]. split; [exact P|]. auto.
Qed.
Print Assumptions C29_available.
Example C29_example : snd (take_available xcfg (rrun xcfg told) (at0 (10 * second)%Z)) = Ok [(pb, 99%N)] /\
  snd (take_available xcfg (rrun xcfg told) (at0 (1000 * second)%Z)) = Ok [(pa, 6863%N); (pb, 99%N)] /\
  snd (take_available xcfg (rrun xcfg dialled) (at0 (1000 * second)%Z)) = Ok [].
Proof. repeat split; vm_compute; reflexivity. Qed.

(** * C30 *)
Theorem C30_not_dialled_twice : forall cfg ops0 r clock r1 out a port ops clock' r2 out', rreach cfg ops0 r ->
  take_available cfg r clock = (r1, Ok out) -> In (a, port) out ->
  Forall wf_rop ops -> Forall (fun o => ~ releases a o) ops ->
  take_available cfg (fold_left (rstep cfg) ops r1) clock' = (r2, Ok out') -> ~ In a (map fst out').
Proof. exact q_not_again. Qed.
Print Assumptions C30_not_dialled_twice.
Example C30_example :
  let ops := [RUnregister pb 0%Z true; RAppend xlist None; RScore pa 5%Z true; RSuggest pa 0%Z true; RTake (at0 0%Z)] in
  let r1 := rrun xcfg dialled in
  snd (take_available xcfg (rrun xcfg told) (at0 (1000 * second)%Z)) = Ok [(pa, 6863%N); (pb, 99%N)] /\
  Forall (fun o => ~ releases pa o) ops /\
  snd (take_available xcfg (fold_left (rstep xcfg) ops r1) (at0 (5000 * second)%Z)) = Ok [(pb, 99%N)].
Proof.
  split; [vm_compute; reflexivity|]. split; [|vm_compute; reflexivity].
  repeat constructor; cbn; intros Q; try discriminate Q; try destruct Q.
Qed.

(** * C31 *)
Theorem C31_append : forall cfg ops r l r' n, rreach cfg ops r -> (forall a port, In (Some (a, port)) l -> go_addr a) ->
  append_addresses cfg r l None = (r', n) ->
  exists added, NoDup (map fst added) /\ n = length added /\
    (forall a port, In (a, port) added <-> offers cfg l a port /\ ~ known r a) /\
    (forall a port, In (a, port) added -> reg_peer r' a = Ok (new_record a port)) /\
    (forall a, ip4 a -> ~ In a (map fst added) -> reg_peer r' a = reg_peer r a) /\
    r_conns r' = r_conns r /\ r_pending r' = r_pending r.
Proof. exact q_append. Qed.
Print Assumptions C31_append.
(** If a write fails, AppendAddresses stops as if the list ended there. *)
Theorem C31_append_fault : forall cfg r l f, exists m, append_addresses cfg r l f = append_addresses cfg r (firstn m l) None.
Proof. exact q_append_fault. Qed.
Print Assumptions C31_append_fault.
Example C31_example : snd (append_addresses xcfg (rrun xcfg [RAppend [Some (pb, 3%N)] None]) xlist None) = 1 /\
  reg_peer (rrun xcfg heard) pa = Ok (new_record pa 6863%N) /\ reg_peer (rrun xcfg heard) plo = Err ENotFound /\
  snd (append_addresses xcfg (new_registry []) xlist (Some 1)) = 1.
Proof. repeat split; vm_compute; reflexivity. Qed.

(** * C32 *)
Theorem C32_accepted_record : forall cfg ops r now w a np h r', rreach cfg ops r -> go_addr a -> accepts cfg r a np h now w r' ->
  ip4 a /\
  reg_peer r' a = Ok {| p_addr := a; p_port := dial_port a h; p_nonce := hs_nonce h; p_name := hs_name h; p_version := hs_version h;
                        p_state := PeerConnected; p_next := round_second now;
                        p_score := match reg_peer r a with Ok p => p_score p | _ => None end; p_conn := None |} /\
  connected r' a /\ ~ pending r' a /\
  (forall b, ip4 b -> b <> a -> reg_peer r' b = reg_peer r b) /\
  (forall b, b <> a -> (connected r' b <-> connected r b) /\ (pending r' b <-> pending r b)).
Proof. exact q_accepted_record. Qed.
Print Assumptions C32_accepted_record.
(** Connections and FriendlyPeers list it once (if the other connections have records, see C36). *)
Theorem C32_accepted_listed : forall cfg ops r now w a np h r' ord srt, rreach cfg ops r -> go_addr a -> accepts cfg r a np h now w r' ->
  permutes ord -> permutes srt -> (forall b, connected r b -> known r b) ->
  exists p cs fs, reg_peer r' a = Ok p /\
    connections ord srt r' = Ok cs /\ filter (has_address a) cs = [set_live p np] /\
    friendly_peers srt r' = Ok fs /\ filter (has_address a) fs = [p].
Proof. exact q_accepted_listed. Qed.
Print Assumptions C32_accepted_listed.
Example C32_example : accepts xcfg (rrun xcfg dialled) pa (line hgood) hgood (1001 * second)%Z true (rrun xcfg joined) /\
  connected (rrun xcfg joined) pa /\ pending (rrun xcfg dialled) pa /\ ~ pending (rrun xcfg joined) pa /\
  match reg_peer (rrun xcfg joined) pa with Ok p => p_port p | _ => 0%N end = 6863%N.
Proof.
  split; [vm_compute; reflexivity|]. split; [vm_compute; auto|]. split; [vm_compute; auto|]. split; [|vm_compute; reflexivity].
  vm_compute. intros [Q|[]]. discriminate Q.
Qed.

(** * C33 *)
Definition shunned : list rop := dialled ++ [RHostile (Some pa) true].
Theorem C33_hostile_not_dialled : forall cfg ops r clock r' out a, rreach cfg ops r -> hostile r a ->
  take_available cfg r clock = (r', Ok out) -> ~ In a (map fst out).
Proof. exact q_hostile_not_taken. Qed.
Print Assumptions C33_hostile_not_dialled.
Theorem C33_hostile_no_version : forall cfg r now w a, hostile r a -> suggest_version cfg r now w a = (r, Err EOther).
Proof. exact q_hostile_no_version. Qed.
Print Assumptions C33_hostile_no_version.
(** Only an accepted RegisterPeer ends it. What is missing is that RegisterPeer refuses hostile peers. *)
Theorem C33_stays_hostile_partial : forall cfg ops0 r ops a, rreach cfg ops0 r -> ip4 a -> hostile r a -> Forall wf_rop ops ->
  hostile (fold_left (rstep cfg) ops r) a \/
  exists pre np h now w post, ops = pre ++ RRegister a np h now w :: post /\
    let r1 := fold_left (rstep cfg) pre r in hostile r1 a /\ accepts cfg r1 a np h now w (rstep cfg r1 (RRegister a np h now w)).
Proof. exact q_stays_hostile. Qed.
Print Assumptions C33_stays_hostile_partial.
Theorem C33_stays_hostile_refuted : exists cfg ops r o a, rreach cfg ops r /\ ip4 a /\ hostile r a /\ wf_rop o /\ ~ hostile (rstep cfg r o) a.
Proof.
  exists xcfg, shunned, (rrun xcfg shunned), (RRegister pa (line hgood) hgood 0%Z true), pa.
  split; [split; [wf_ops|reflexivity]|]. split; [apply ip4_pa|]. split; [eexists; split; vm_compute; reflexivity|]. split; [reflexivity|].
  intros (p & E & S). vm_compute in E. injection E as <-. discriminate S.
Qed.
Print Assumptions C33_stays_hostile_refuted.
Example C33_example : hostile (rrun xcfg shunned) pa /\
  snd (take_available xcfg (rrun xcfg shunned) (at0 (9999 * second)%Z)) = Ok [] /\
  hostile (fold_left (rstep xcfg) [RUnregister pa 0%Z true; RScore pa 1%Z true; RAppend xlist None; RSuggest pa 0%Z true; RRestart] (rrun xcfg shunned)) pa.
Proof. split; [eexists; split; vm_compute; reflexivity|]. split; [vm_compute; reflexivity|]. eexists; split; vm_compute; reflexivity. Qed.

(** * C34 *)
(** Missing: unknown peers, peers already listed as connected, names that are not UTF-8 (the three theorems below). *)
Theorem C34_incompatible_partial : forall cfg ops r now a np h p, rreach cfg ops r -> ip4 a -> a <> g_declared cfg -> reg_peer r a = Ok p ->
  incompatible cfg (p_version p) (co_hs np) -> utf8_valid (hs_name (co_hs np)) = true -> utf8_valid (hs_app (co_hs np)) = true ->
  exists r', register_peer cfg r now true a np h = (r', Ok tt, true) /\ hostile r' a /\ ~ pending r' a /\
    (connected r' a <-> connected r a) /\
    (forall b, ip4 b -> b <> a -> reg_peer r' b = reg_peer r b).
Proof. exact q_incompatible. Qed.
Print Assumptions C34_incompatible_partial.
(** On first contact nothing is recorded. *)
Theorem C34_first_contact_refuted : exists cfg ops r now a np h, rreach cfg ops r /\ ip4 a /\ a <> g_declared cfg /\
  incompatible cfg zero_version (co_hs np) /\ utf8_valid (hs_name (co_hs np)) = true /\ utf8_valid (hs_app (co_hs np)) = true /\
  ~ known r a /\ let r' := fst (fst (register_peer cfg r now true a np h)) in ~ known r' a.
Proof.
  exists xcfg, [], (new_registry []), 0%Z, pa, (line hforeign), hforeign.
  split; [split; [constructor|reflexivity]|]. split; [apply ip4_pa|]. split; [discriminate|].
  split; [right; exists [x77], x54; split; [reflexivity|discriminate]|]. split; [reflexivity|]. split; [reflexivity|].
  cbv zeta. split; intros [p E]; vm_compute in E; discriminate E.
Qed.
Print Assumptions C34_first_contact_refuted.
(** A connected peer that comes again with a foreign handshake stays listed by Connections. *)
Theorem C34_still_listed_refuted : exists cfg ops r now a np h, rreach cfg ops r /\ ip4 a /\ a <> g_declared cfg /\
  (forall p, reg_peer r a = Ok p -> incompatible cfg (p_version p) (co_hs np)) /\
  let r' := fst (fst (register_peer cfg r now true a np h)) in hostile r' a /\ connected r' a.
Proof.
  exists xcfg, joined, (rrun xcfg joined), 0%Z, pa, (line hforeign), hforeign.
  split; [apply joined_reach|]. split; [apply ip4_pa|]. split; [discriminate|].
  split; [intros p _; right; exists [x77], x54; split; [reflexivity|discriminate]|].
  split; [eexists; split; vm_compute; reflexivity|vm_compute; auto].
Qed.
Print Assumptions C34_still_listed_refuted.
(** A peer whose name is not UTF-8 is not recorded as hostile. *)
Theorem C34_bad_name_refuted : exists cfg ops r now a np h, rreach cfg ops r /\ ip4 a /\ a <> g_declared cfg /\ known r a /\
  (forall p, reg_peer r a = Ok p -> incompatible cfg (p_version p) (co_hs np)) /\
  let r' := fst (fst (register_peer cfg r now true a np h)) in ~ hostile r' a.
Proof.
  exists xcfg, heard, (rrun xcfg heard), 0%Z, pa, (line (greet (ver 1 5 3) DeclEmpty x54 [xff])), hgood.
  split; [apply heard_reach|]. split; [apply ip4_pa|]. split; [discriminate|]. split; [eexists; vm_compute; reflexivity|].
  split; [intros p _; right; exists [x77], x54; split; [reflexivity|discriminate]|].
  cbv zeta. intros (p & E & S). vm_compute in E. injection E as <-. discriminate S.
Qed.
Print Assumptions C34_bad_name_refuted.
Example C34_example : known (rrun xcfg told) pa /\
  (forall p, reg_peer (rrun xcfg told) pa = Ok p -> incompatible xcfg (p_version p) hforeign) /\
  hostile (rstep xcfg (rrun xcfg told) (RRegister pa (line hforeign) hforeign 0%Z true)) pa.
Proof.
  split; [eexists; vm_compute; reflexivity|]. split; [|eexists; split; vm_compute; reflexivity].
  intros p _. right. exists [x77], x54. split; [reflexivity|discriminate].
Qed.

(** * C35 *)
Theorem C35_unregister : forall cfg ops r now a p, rreach cfg ops r -> ip4 a -> reg_peer r a = Ok p ->
  exists r', unregister_peer r now true a = (r', Ok tt) /\ ~ connected r' a /\ ~ pending r' a /\
    reg_peer r' a = Ok {| p_addr := a; p_port := p_port p; p_nonce := p_nonce p; p_name := p_name p; p_version := p_version p;
                          p_state := p_state p; p_next := round_second (now + 600 * second)%Z; p_score := p_score p; p_conn := None |} /\
    (forall b, ip4 b -> b <> a -> reg_peer r' b = reg_peer r b) /\
    (forall b, b <> a -> (connected r' b <-> connected r b) /\ (pending r' b <-> pending r b)).
Proof. exact q_unregister. Qed.
Print Assumptions C35_unregister.
(** It is not dialled during the next 10 minutes, less half a second, unless it registers again. *)
Theorem C35_delay : forall cfg ops0 r now a p r1 ops clock r2 out, rreach cfg ops0 r -> ip4 a -> reg_peer r a = Ok p ->
  unregister_peer r now true a = (r1, Ok tt) -> Forall wf_rop ops -> Forall (leaves a now) ops ->
  (clock a < now + 600 * second - second / 2)%Z ->
  take_available cfg (fold_left (rstep cfg) ops r1) clock = (r2, Ok out) -> ~ In a (map fst out).
Proof. exact q_rests. Qed.
Print Assumptions C35_delay.
Example C35_example : connected (rrun xcfg joined) pa /\
  (let r1 := fst (unregister_peer (rrun xcfg joined) (2000 * second)%Z true pa) in
   snd (take_available xcfg r1 (at0 (2599 * second)%Z)) = Ok [] /\ snd (take_available xcfg r1 (at0 (2600 * second)%Z)) = Ok [(pa, 6863%N)]).
Proof. split; [vm_compute; auto|]. split; vm_compute; reflexivity. Qed.

(** * C36 *)
(** Missing: histories in which a peer without a record connects with a name that is not UTF-8, or a write fails. *)
Theorem C36_connections_partial : forall cfg ops r ord srt, rreach cfg ops r -> good_registers cfg (new_registry []) ops -> permutes ord -> permutes srt ->
  exists ps, connections ord srt r = Ok ps /\ Permutation (map p_addr ps) (map fst (r_conns r)) /\
    forall p, In p ps -> exists q c, In (p_addr p, c) (r_conns r) /\ reg_peer r (p_addr p) = Ok q /\ p = set_live q c.
Proof. exact q_connections. Qed.
Print Assumptions C36_connections_partial.
Theorem C36_connections_refuted : exists cfg ops r, rreach cfg ops r /\
  (forall o, In o ops -> match o with RRegister _ _ _ _ w => w = true | _ => True end) /\
  forall ord srt, permutes ord -> permutes srt -> exists e, connections ord srt r = Err e.
Proof.
  exists xcfg, [RRegister pa (line hname) hname 0%Z true], (rrun xcfg [RRegister pa (line hname) hname 0%Z true]).
  split; [split; [wf_ops|reflexivity]|]. split; [intros o [<-|[]]; reflexivity|].
  intros ord srt PO PS. unfold connections. exists ENotFound.
  assert (E : r_conns (rrun xcfg [RRegister pa (line hname) hname 0%Z true]) = [(pa, line hname)]) by (vm_compute; reflexivity).
  assert (P := PO (r_conns (rrun xcfg [RRegister pa (line hname) hname 0%Z true]))). rewrite E in P. apply perm_one in P.
  rewrite E, P. vm_compute. reflexivity.
Qed.
Print Assumptions C36_connections_refuted.
Example C36_example : good_registers xcfg (new_registry []) joined /\
  match connections (fun l => l) (fun l => l) (rrun xcfg joined) with Ok ps => map p_addr ps | _ => [] end = [pa].
Proof.
  split; [|vm_compute; reflexivity]. cbn [joined dialled told heard app good_registers]. repeat split; try exact Logic.I.
  right. split; reflexivity.
Qed.

(** * C37 *)
Theorem C37_cycle : forall cfg ops0 r a ops, rreach cfg ops0 r -> ip4 a ->
  (~ known r a \/ exists port, reg_peer r a = Ok (new_record a port)) ->
  descending (g_versions cfg) -> g_versions cfg <> [] -> Forall wf_rop ops -> Forall (only_suggests a) ops ->
  forall i o, nth_error (suggestions cfg r a ops) i = Some o ->
    exists v, o = Ok v /\ nth_error (g_versions cfg) (i mod length (g_versions cfg)) = Some v.
Proof. exact q_suggestions. Qed.
Print Assumptions C37_cycle.
(** The configured versions, if distinct in major and minor number, come in descending order. *)
Theorem C37_versions : forall srt vs, sorts_versions srt -> NoDup (map (fun v => (ve_major v, ve_minor v)) vs) ->
  descending (new_versions srt vs) /\
  (forall v, In v (new_versions srt vs) <-> ve_patch v = 0%N /\ exists w, In w vs /\ ve_major w = ve_major v /\ ve_minor w = ve_minor v) /\
  length (new_versions srt vs) = length vs.
Proof. exact q_versions. Qed.
Print Assumptions C37_versions.
Theorem C37_connected : forall cfg ops0 r a np h now w r' ops, rreach cfg ops0 r -> go_addr a -> accepts cfg r a np h now w r' ->
  Forall wf_rop ops -> Forall (only_suggests a) ops -> Forall (eq (Ok (hs_version h))) (suggestions cfg r' a ops).
Proof. exact q_suggestions_connected. Qed.
Print Assumptions C37_connected.
(** Versions that differ only in the patch number: the later ones are never tried. *)
Definition dupcfg : config :=
  {| g_scheme := x57; g_versions := [ver 1 5 0; ver 1 5 0; ver 1 4 0]; g_declared := pme; g_cmp := xcmp; g_upper := fun b => b |}.
Lemma stuck : forall n r, (exists p, reg_peer r pa = Ok p /\ p_state p = PeerUnknown /\ p_version p = ver 1 5 0) -> RInv r ->
  ~ In (Ok (ver 1 4 0)) (suggestions dupcfg r pa (repeat (RSuggest pa 0%Z true) n)).
Proof.
  induction n as [|n IH]; intros r (p & E & S & V) I; cbn [repeat suggestions]; [intros []|].
  rewrite addr_eqb_refl. cbn [rstep]. unfold suggest_version. assert (E' := E). unfold reg_peer in E'. rewrite E', S, V.
  change (next_version (g_versions dupcfg) (ver 1 5 0)) with (Ok (ver 1 5 0)).
  destruct (finish_ok (p := set_version p (ver 1 5 0) (round_second (0 + delay)%Z)) I (proj1 (get_peer_fields E')) ip4_pa) as (r' & F & G & _).
  { cbn. eapply get_peer_name; eauto. }
  assert (I' : RInv r').
  { assert (X := @inv_finish r (set_version p (ver 1 5 0) (round_second (0 + delay)%Z)) true I). rewrite F in X. apply X.
    cbn [set_version p_addr]. rewrite (proj1 (get_peer_fields E')). reflexivity. }
  rewrite F. cbn [fst snd app] in *. intros [Q|Q]; [discriminate Q|]. revert Q. apply IH; [eexists; split; [exact G|]; auto|exact I'].
Qed.
Lemma isort_versions : sorts_versions (isort version_less).
Proof. intros l. apply isort_sorts; unfold version_less; intros; lia. Qed.
Theorem C37_cycle_refuted : exists cfg srt vs v, sorts_versions srt /\ g_versions cfg = new_versions srt vs /\ In v (g_versions cfg) /\
  forall n, ~ In (Ok v) (suggestions cfg (new_registry []) pa (repeat (RSuggest pa 0%Z true) n)).
Proof.
  exists dupcfg, (isort version_less), [ver 1 5 1; ver 1 4 2; ver 1 5 3], (ver 1 4 0).
  split; [exact isort_versions|]. split; [vm_compute; reflexivity|]. split; [cbn; auto|]. intros n.
  assert (I0 : RInv (new_registry [])) by (constructor; cbn; try constructor; intros; contradiction).
  destruct n as [|n]; [intros []|]. cbn [repeat suggestions]. rewrite addr_eqb_refl. intros [Q|Q]; [vm_compute in Q; discriminate Q|].
  revert Q. apply stuck; [eexists; split; [vm_compute; reflexivity|split; reflexivity]|]. apply rstep_inv; auto. reflexivity.
Qed.
Print Assumptions C37_cycle_refuted.
Example C37_example : new_versions (isort version_less) [ver 1 4 9; ver 1 5 3; ver 1 3 1] = g_versions xcfg /\
  suggestions xcfg (new_registry []) pa (repeat (RSuggest pa 0%Z true) 2 ++ heard ++ repeat (RSuggest pa 0%Z true) 2) =
    [Ok (ver 1 5 0); Ok (ver 1 4 0); Ok (ver 1 3 0); Ok (ver 1 5 0)] /\
  suggestions xcfg (rrun xcfg joined) pa [RSuggest pa 0%Z true; RSuggest pa 0%Z true] = [Ok (ver 1 5 3); Ok (ver 1 5 3)].
Proof. repeat split; vm_compute; reflexivity. Qed.

(** * C38 *)
Theorem C38_roundtrip : forall cfg ops r p w d', rreach cfg ops r -> put_peer (r_db r) p w = Ok d' -> (p_next p mod second = 0)%Z ->
  get_peer d' (p_addr p) = Ok {| p_addr := p_addr p; p_port := p_port p; p_nonce := p_nonce p; p_name := p_name p;
                                 p_version := p_version p; p_state := p_state p; p_next := p_next p; p_score := p_score p;
                                 p_conn := None |} /\
  (forall b, ip4 b -> b <> p_addr p -> get_peer d' b = get_peer (r_db r) b).
Proof. exact q_roundtrip. Qed.
Print Assumptions C38_roundtrip.
Theorem C38_can_be_stored : forall d p, ip4 (p_addr p) -> utf8_valid (p_name p) = true -> exists d', put_peer d p true = Ok d'.
Proof. exact q_put_ok. Qed.
Print Assumptions C38_can_be_stored.
Theorem C38_kept : forall cfg ops0 r ops a p, rreach cfg ops0 r -> ip4 a -> reg_peer r a = Ok p -> Forall wf_rop ops ->
  Forall (fun o => ~ about a o) ops -> reg_peer (fold_left (rstep cfg) ops r) a = Ok p.
Proof. exact q_kept. Qed.
Print Assumptions C38_kept.
Theorem C38_peers : forall cfg ops r srt, rreach cfg ops r -> permutes srt -> exists ps, reg_peers srt r = Ok ps /\
  NoDup (map p_addr ps) /\ forall p, In p ps <-> ip4 (p_addr p) /\ reg_peer r (p_addr p) = Ok p.
Proof. exact q_peers. Qed.
Print Assumptions C38_peers.
Example C38_example : match reg_peers (fun l => l) (rrun xcfg joined) with Ok ps => map p_addr ps | _ => [] end = [pa; pb] /\
  reg_peer (fold_left (rstep xcfg) [RHostile (Some pb) true; RAppend xlist None; RRestart] (rrun xcfg joined)) pa = reg_peer (rrun xcfg joined) pa /\
  match reg_peer (rrun xcfg joined) pa with Ok p => p_version p | _ => zero_version end = ver 1 5 3.
Proof. repeat split; vm_compute; reflexivity. Qed.

(** * C39 *)
(** Missing: IPv6 addresses (see the refutation). *)
Theorem C39_only_stored_partial : forall cfg ops r a p, rreach cfg ops r -> ip4 a -> reg_peer r a = Ok p -> exists o, In o ops /\ stores a o.
Proof. exact q_unknown. Qed.
Print Assumptions C39_only_stored_partial.
(** Peer of an IPv6 address returns the record of the IPv4 address with the same first four bytes. *)
Theorem C39_only_stored_refuted : exists cfg ops r a p, rreach cfg ops r /\ go_addr a /\ reg_peer r a = Ok p /\ forall o, In o ops -> ~ stores a o.
Proof.
  exists xcfg, heard, (rrun xcfg heard), palias, (new_record palias 6863%N). split; [apply heard_reach|].
  split; [reflexivity|]. split; [vm_compute; reflexivity|]. intros o [<-|[]] [port Q]. cbn in Q.
  repeat (destruct Q as [Q|Q]; [discriminate Q|]). destruct Q.
Qed.
Print Assumptions C39_only_stored_refuted.
Example C39_example : reg_peer (rrun xcfg heard) pb = Ok (new_record pb 99%N) /\ (exists o, In o heard /\ stores pb o) /\
  reg_peer (rrun xcfg heard) (A4 [x01; x02; x03; x05]) = Err ENotFound.
Proof.
  split; [vm_compute; reflexivity|]. split; [|vm_compute; reflexivity]. eexists. split; [now left|]. exists 99%N. cbn. auto.
Qed.

(** * C40 *)
(** Missing: an empty application name. *)
Theorem C40_returns_partial : forall cfg r now w a np h, hs_app (co_hs np) <> [] ->
  exists r' o c, register_peer cfg r now w a np h = (r', o, c) /\ (o = Ok tt \/ exists e, o = Err e).
Proof. exact q_register_returns. Qed.
Print Assumptions C40_returns_partial.
Theorem C40_returns_refuted : exists cfg ops r now a np h r' c, rreach cfg ops r /\ go_addr a /\ register_peer cfg r now true a np h = (r', Panic, c).
Proof.
  set (h := {| hs_app := []; hs_version := ver 1 5 0; hs_name := []; hs_nonce := 0; hs_decl := DeclEmpty |}).
  exists xcfg, told, (rrun xcfg told), 0%Z, pa, (line h), h. do 2 eexists. split; [apply told_reach|]. split; [reflexivity|].
  vm_compute. reflexivity.
Qed.
Print Assumptions C40_returns_refuted.
Example C40_example : exists r', register_peer xcfg (rrun xcfg dialled) 0%Z true pa (line hgood) hgood = (r', Ok tt, false).
Proof. eexists. vm_compute. reflexivity. Qed.
