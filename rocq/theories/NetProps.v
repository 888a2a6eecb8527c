(** Package main: the distributor, the connection manager, respawn and shutdown (C51-C54, C67-C72). *)
From Coq Require Import Permutation.
From Verif Require Import Base Kv ChainModel ChainSpec ChainExample ChainProps PeersModel PeersSpec PeersProofs PeersCalls PeersProps LockSpec
  NetModel NetSpec NetProofs NetDist.
Set Implicit Arguments.
Unset Strict Implicit.

(** * A small detector for the examples *)
(** The blocks of [xl] and a registry in which [pa] is connected. *)
Definition xd : dist := {| d_lk := xl; d_reg := rrun xcfg joined |}.
Lemma xd_reach : dreach xcfg xg xops joined xd.
Proof. split; [apply xl_reachable|apply joined_reach]. Qed.
Definition on (a : addr) (c : conn) : link := {| ln_addr := Some a; ln_conn := c |}.
Definition fine : fate := {| ft_now := 0%Z; ft_write := true; ft_append := None; ft_fault := None |}.
Definition same {A} (l : list A) : list A := l.
Lemma same_perm : forall A, permutes (@same A).
Proof. intros A l. apply Permutation_refl. Qed.
Definition line2 (h : handshake) : conn := {| co_id := 2; co_hs := h |}.

(** * C51 *)
(** Without storage faults: forwarded exactly if afterwards the block is stored, or its parent was unknown. *)
Theorem C51_forwarded : forall cfg g srt ops rops d x from a m b d' ss o, dreach cfg g ops rops d -> wf_pblock b -> wf_addr a ->
  ln_addr from = Some a -> carries m b -> ft_fault x = None -> handle_message cfg g srt x d from m = (d', ss, o) ->
  (o = Ok (Some (PBlock a b)) <-> lk_has_block (d_lk d') (pb_id b) = Ok true \/
     (lk_has_block (d_lk d) (pb_id b) = Ok false /\ lk_has_block (d_lk d) (pb_parent b) = Ok false)) /\
  (forall p, o = Ok (Some p) -> p = PBlock a b) /\
  (lk_has_block (d_lk d') (pb_id b) = Ok true -> leash (d_lk d') a = Ok (pb_id b)) /\
  d_reg d' = d_reg d /\ ss = [].
Proof. exact d_forwarded. Qed.
Print Assumptions C51_forwarded.
(** The block is offered to the linkage: a new block on top of a stored one is stored. *)
Theorem C51_offered : forall cfg g srt ops rops d x from a m b, dreach cfg g ops rops d -> wf_pblock b -> wf_addr a ->
  ln_addr from = Some a -> carries m b -> ft_fault x = None ->
  lk_has_block (d_lk d) (pb_parent b) = Ok true -> pb_gen b <> None -> (pb_bt b <= max_int64)%N ->
  exists l', handle_message cfg g srt x d from m = ({| d_lk := l'; d_reg := d_reg d |}, [], Ok (Some (PBlock a b))) /\
    lk_has_block l' (pb_id b) = Ok true /\ leash l' a = Ok (pb_id b).
Proof. exact d_offered. Qed.
Print Assumptions C51_offered.
(** With storage faults: what is forwarded is stored or has an unknown parent. *)
Theorem C51_forwarded_faults : forall cfg g srt ops rops d x from a m b d' ss o p, dreach cfg g ops rops d -> wf_pblock b -> wf_addr a ->
  ln_addr from = Some a -> carries m b -> handle_message cfg g srt x d from m = (d', ss, o) -> o = Ok (Some p) ->
  p = PBlock a b /\
  ((lk_has_block (d_lk d') (pb_id b) = Ok true /\ leash (d_lk d') a = Ok (pb_id b)) \/
   (lk_has_block (d_lk d) (pb_id b) = Ok false /\ lk_has_block (d_lk d) (pb_parent b) = Ok false)).
Proof. exact d_forwarded_fault. Qed.
Print Assumptions C51_forwarded_faults.
Example C51_example :
  (let b := xblk 8 3 in snd (handle_message xcfg xg same fine xd (on pa (line hgood)) (MPBBlock (Some b))) = Ok (Some (PBlock pa b))) /\
  (let b := xblk 9 77 in snd (handle_message xcfg xg same fine xd (on pa (line hgood)) (MBlock (Some b))) = Ok (Some (PBlock pa b))) /\
  (let b := {| pb_id := xid 8; pb_parent := xid 3; pb_ts := 5; pb_bt := 100; pb_gen := None |} in
   snd (handle_message xcfg xg same fine xd (on pa (line hgood)) (MBlock (Some b))) = Ok None).
Proof. split; [|split]; vm_compute; reflexivity. Qed.

(** * C52 *)
(** Missing: the two ways in which it does not complete, below. After the signal every schedule ends, after finitely many
    steps, with main returning, with a crash, or with the distributor waiting for a loader that has gone. *)
Theorem C52_shutdown_partial : forall cfg g srt ord s, y_term s = true -> inevitably (next cfg g srt ord) over s.
Proof. exact over_inevitable. Qed.
Print Assumptions C52_shutdown_partial.
Theorem C52_calm_shutdown_partial : forall cfg g srt ord s, y_term s = true -> calm cfg g srt ord s ->
  inevitably (next cfg g srt ord) (fun s => y_main s = Ended) s.
Proof. exact calm_ends. Qed.
Print Assumptions C52_calm_shutdown_partial.
(** The distributor is sending a block when the loader stops: Distributor.Shutdown never returns. *)
Theorem C52_jam_refuted : exists cfg g srt ord ops rops d inbox left s, dreach cfg g ops rops d /\ Forall (fun xa => wf_arrival (snd xa)) inbox /\
  runs cfg g srt ord (started false inbox left d) s /\ y_term s = true /\
  forall s', runs cfg g srt ord s s' -> y_main s' = AtDistributor.
Proof.
  pose (inbox := [(fine, AMessage (on pa (line hgood)) (MPBBlock (Some (xblk 8 3))))]).
  pose (d1 := fst (fst (handle xcfg xg same same fine xd (snd (hd (fine, APing) inbox))))).
  pose (s0 := started false inbox 0 xd).
  pose (s1 := set_procs (NetModel.set_state (set_inbox s0 []) d1) true LSelect (DSending (PBlock pa (xblk 8 3)))).
  pose (s2 := set_term s1). pose (s3 := set_main s2 AtAPI). pose (s4 := set_main s3 AtListener). pose (s5 := set_main s4 AtRespawn).
  pose (s6 := set_procs s5 false LSelect (y_dist s5)). pose (s7 := set_main s6 AtLoader). pose (s8 := set_procs s7 false LStopped (y_dist s7)).
  pose (s9 := set_main s8 AtDistributor).
  assert (AL : forall s, y_main s <> Ended -> y_main s <> Crashed -> alive s) by (intros; split; auto).
  exists xcfg, xg, same, same, xops, joined, xd, inbox, 0, s9. split; [apply xd_reach|]. split.
  { constructor; [|constructor]. cbn. split; [reflexivity|]. apply wf_pblockb_ok. vm_compute. reflexivity. }
  split.
  { fold s0.
    apply runs_next with s8; [|split; [apply AL; discriminate|apply m_loaded; reflexivity]].
    apply runs_next with s7; [|split; [apply AL; discriminate|apply m_load_exit; reflexivity]].
    apply runs_next with s6; [|split; [apply AL; discriminate|apply m_respawned; reflexivity]].
    apply runs_next with s5; [|split; [apply AL; discriminate|apply m_respawn_exit; reflexivity]].
    apply runs_next with s4; [|split; [apply AL; discriminate|apply m_no_listener; reflexivity]].
    apply runs_next with s3; [|split; [apply AL; discriminate|apply m_api; reflexivity]].
    apply runs_next with s2; [|split; [apply AL; discriminate|apply m_done; reflexivity]].
    apply runs_next with s1; [|split; [apply AL; discriminate|apply m_signal; reflexivity]].
    apply runs_next with s0; [apply runs_refl|split; [apply AL; discriminate|]].
    apply (@m_receive xcfg xg same same s0 fine (AMessage (on pa (line hgood)) (MPBBlock (Some (xblk 8 3)))) [] d1 [] (Some (PBlock pa (xblk 8 3)))); try reflexivity. }
  split; [reflexivity|]. intros s' R. apply (@jammed_forever xcfg xg same same s9 s'); [|reflexivity|exact R].
  split; [reflexivity|]. split; [reflexivity|]. split; [reflexivity|]. exists (PBlock pa (xblk 8 3)). reflexivity.
Qed.
Print Assumptions C52_jam_refuted.
(** The server could not be started, or the signal comes before it listens: Listener.Shutdown dereferences nil. *)
Theorem C52_listener_refuted : exists cfg g srt ord ops rops d s, dreach cfg g ops rops d /\
  runs cfg g srt ord (started true [] 0 d) s /\ y_term s = true /\ y_main s = Crashed.
Proof.
  pose (s0 := started true [] 0 xd). pose (s1 := set_listener s0 Refused). pose (s2 := set_term s1). pose (s3 := set_main s2 AtAPI).
  pose (s4 := set_main s3 AtListener). pose (s5 := set_main s4 Crashed).
  assert (AL : forall s, y_main s <> Ended -> y_main s <> Crashed -> alive s) by (intros; split; auto).
  exists xcfg, xg, same, same, xops, joined, xd, s5. split; [apply xd_reach|]. split; [|split; reflexivity]. fold s0.
  apply runs_next with s4; [|split; [apply AL; discriminate|apply m_nil; [reflexivity|now right]]].
  apply runs_next with s3; [|split; [apply AL; discriminate|apply m_api; reflexivity]].
  apply runs_next with s2; [|split; [apply AL; discriminate|apply m_done; reflexivity]].
  apply runs_next with s1; [|split; [apply AL; discriminate|apply m_signal; reflexivity]].
  apply runs_next with s0; [apply runs_refl|split; [apply AL; discriminate|apply m_refused; reflexivity]].
Qed.
Print Assumptions C52_listener_refuted.
Example C52_example :
  let s := set_term (set_listener (started true [(fine, AMessage (on pb (line hgood)) (MPeers xlist)); (fine, APing)] 3 xd) Accepting) in
  y_term s = true /\ calm xcfg xg same same s.
Proof.
  cbv zeta. split; [reflexivity|]. split; [split; discriminate|]. split; [discriminate|]. split; [|discriminate].
  constructor; [|constructor; [|constructor]]; intros d; cbn [fst snd].
  - cbn [handle handle_message]. unfold handle_peers. destruct (append_addresses _ _ _ _) as [r n]. do 2 eexists. reflexivity.
  - do 2 eexists. reflexivity.
Qed.

(** * C53 *)
Theorem C53_filter : forall k, skip k = true <-> inert k /\ forall n, k <> KOther n.
Proof.
  assert (YES : forall k, skip k = true -> inert k /\ forall n, k <> KOther n).
  { intros k S. split; [|intros n ->; discriminate]. intros cfg g srt x d from m K. subst k. destruct m; try discriminate S; reflexivity. }
  intros k. split; [apply YES|]. intros [I N].
  assert (W : forall m, kind_of m = k -> handle_message xcfg xg same fine xd (on pa (line hgood)) m = (xd, [], Ok None)) by (intros; now apply I).
  destruct k; try reflexivity; exfalso.
  - specialize (W MGetPeers eq_refl). apply (f_equal (fun z => length (snd (fst z)))) in W. vm_compute in W. discriminate.
  - specialize (W (MPeers [Some (A4 [x09; x09; x09; x09], 6%N)]) eq_refl).
    apply (f_equal (fun z : handled => length (r_db (d_reg (fst (fst z)))))) in W. vm_compute in W. discriminate.
  - specialize (W (MSignatures [xid 1]) eq_refl). apply (f_equal snd) in W. discriminate.
  - specialize (W (MBlock (Some (xblk 9 77))) eq_refl). apply (f_equal snd) in W. vm_compute in W. discriminate.
  - specialize (W (MScore [x05]) eq_refl).
    apply (f_equal (fun z : handled => match reg_peer (d_reg (fst (fst z))) pa with Ok p => p_score p | _ => None end)) in W. vm_compute in W. discriminate.
  - specialize (W (MMicroBlockInv (Some {| mi_total := xid 9; mi_ref := xid 3 |})) eq_refl).
    apply (f_equal (fun z : handled => lk_has_block (d_lk (fst (fst z))) (xid 9))) in W. vm_compute in W. discriminate.
  - specialize (W (MPBBlock (Some (xblk 9 77))) eq_refl). apply (f_equal snd) in W. vm_compute in W. discriminate.
  - specialize (W (MBlockIds [xid 1]) eq_refl). apply (f_equal snd) in W. discriminate.
  - exact (N n eq_refl).
Qed.
Print Assumptions C53_filter.
Example C53_example : skip KTransaction = true /\ skip KInvMicroblock = false /\ skip (KOther 200) = false /\ inert KTransaction /\ ~ inert KScore.
Proof.
  split; [reflexivity|]. split; [reflexivity|]. split; [reflexivity|]. split; [now apply C53_filter|].
  intros I. assert (Q : skip KScore = true) by (apply C53_filter; split; [exact I|discriminate]). discriminate.
Qed.

(** A notice that is neither a new connection nor an error is ignored. *)
Theorem C53_notice : forall cfg g srt ord x d, handle cfg g srt ord x d (AInfo IOther) = (d, [], Ok None).
Proof. reflexivity. Qed.
Print Assumptions C53_notice.

(** * C54 *)
(** Missing: reading the peers from the storage fails. *)
Theorem C54_keeps_trying_partial : forall cfg rops r hs s' rs, rreach cfg rops r -> Forall healthy hs -> respawn_run cfg (respawn_start r) hs = (s', rs) ->
  rs_armed s' = true /\ length rs = length (filter ten hs) /\ Forall (fun a => exists l, a = Ok l) rs.
Proof.
  intros cfg rops r hs s' rs R H E.
  exact (@respawn_keeps cfg hs (respawn_start r) s' rs eq_refl (rreach_inv R) H E).
Qed.
Print Assumptions C54_keeps_trying_partial.
Theorem C54_stops_refuted : exists cfg rops r hs, rreach cfg rops r /\
  forall more, snd (respawn_run cfg (fst (respawn_run cfg (respawn_start r) hs)) more) = [].
Proof.
  exists xcfg, told, (rrun xcfg told), [HTenSeconds None]. split; [apply told_reach|]. intros more. apply respawn_dead. reflexivity.
Qed.
Print Assumptions C54_stops_refuted.
Example C54_example :
  let hs := [HTenSeconds (Some (at0 0%Z)); HCall (RUnregister pa 0%Z true); HTenSeconds (Some (at0 (1000 * second)%Z))] in
  Forall healthy hs /\ snd (respawn_run xcfg (respawn_start (rrun xcfg told)) hs) = [Ok [(pb, 99%N)]; Ok [(pa, 6863%N)]].
Proof. split; [repeat constructor; try discriminate|vm_compute; reflexivity]. Qed.

(** * C67 *)
(** Missing: the two kinds of input that do crash it; [crashing] says exactly when. *)
Theorem C67_panics_partial : forall cfg g srt ord ops rops d x a d' ss o, dreach cfg g ops rops d -> permutes srt -> wf_arrival a ->
  handle cfg g srt ord x d a = (d', ss, o) ->
  (o = Panic <-> crashing cfg d a) /\ (o = Panic \/ exists p, o = Ok p).
Proof. exact d_panics. Qed.
Print Assumptions C67_panics_partial.
(** A whole run: it ends normally, in a state that is reached by calls on the two stores, or with a crashing arrival. *)
Theorem C67_run_partial : forall cfg g srt ord l ops rops d d' ss ps o, permutes srt -> dreach cfg g ops rops d -> Forall (fun xa => wf_arrival (snd xa)) l ->
  (N.of_nat (length ops) + N.of_nat (length l) < 2 ^ 32 - 10)%N -> handle_all cfg g srt ord d l = (d', ss, ps, o) ->
  (o = Ok tt /\ exists ops' rops', dreach cfg g (ops ++ ops') (rops ++ rops') d') \/
  (o = Panic /\ exists pre x a post d1 ops' rops', l = pre ++ (x, a) :: post /\ fst (fst (fst (handle_all cfg g srt ord d pre))) = d1 /\
     dreach cfg g (ops ++ ops') (rops ++ rops') d1 /\ crashing cfg d1 a).
Proof. exact d_run. Qed.
Print Assumptions C67_run_partial.
Theorem C67_tame_run_partial : forall cfg g srt ord l ops rops d, permutes srt -> dreach cfg g ops rops d ->
  Forall (fun xa => wf_arrival (snd xa) /\ tame (snd xa)) l ->
  (N.of_nat (length ops) + N.of_nat (length l) < 2 ^ 32 - 10)%N -> snd (handle_all cfg g srt ord d l) = Ok tt.
Proof. exact d_run_tame. Qed.
Print Assumptions C67_tame_run_partial.
Theorem C67_block_refuted : exists cfg g srt ord ops rops d x a, dreach cfg g ops rops d /\ permutes srt /\ wf_arrival a /\
  snd (handle cfg g srt ord x d a) = Panic /\ exists from b, a = AMessage from (MPBBlock (Some b)).
Proof.
  exists xcfg, xg, same, same, xops, joined, xd, fine, (AMessage (on pa (line hgood)) (MPBBlock (Some bad_bt))).
  split; [apply xd_reach|]. split; [apply same_perm|]. split; [split; [reflexivity|apply wf_pblockb_ok; vm_compute; reflexivity]|].
  split; [vm_compute; reflexivity|eauto].
Qed.
Print Assumptions C67_block_refuted.
Theorem C67_handshake_refuted : exists cfg g srt ord ops rops d x a, dreach cfg g ops rops d /\ permutes srt /\ wf_arrival a /\
  snd (handle cfg g srt ord x d a) = Panic /\ exists from h, a = AInfo (IConnected from h).
Proof.
  pose (h := {| hs_app := []; hs_version := ver 1 5 0; hs_name := []; hs_nonce := 0; hs_decl := DeclEmpty |}).
  exists xcfg, xg, same, same, xops, joined, xd, fine, (AInfo (IConnected (on pa (line h)) h)).
  split; [apply xd_reach|]. split; [apply same_perm|]. split; [reflexivity|]. split; [vm_compute; reflexivity|eauto].
Qed.
Print Assumptions C67_handshake_refuted.
Example C67_example :
  let l := [(fine, AInfo (IConnected (on pb (line hgood)) hgood)); (fine, AMessage (on pb (line hgood)) (MPBBlock (Some (xblk 8 3))));
            (fine, AMessage (on pb (line hgood)) (MScore [x01; x00])); (fine, AInfo (IError (on pb (line hgood)))); (fine, APing)] in
  Forall (fun xa => wf_arrival (snd xa) /\ tame (snd xa)) l /\
  snd (fst (handle_all xcfg xg same same xd l)) = [PBlock pb (xblk 8 3)] /\
  snd (handle_all xcfg xg same same xd l) = Ok tt.
Proof.
  cbv zeta. split; [|split; vm_compute; reflexivity].
  constructor; [split; [reflexivity|discriminate]|]. constructor.
  { split; [split; [reflexivity|apply wf_pblockb_ok; vm_compute; reflexivity]|]. intros b [Q|Q]; [discriminate Q|]. injection Q as <-. cbn. unfold max_int64. lia. }
  constructor; [split; [split; [reflexivity|exact Logic.I]|intros b [Q|Q]; discriminate Q]|].
  constructor; [split; [reflexivity|exact Logic.I]|]. constructor; [split; exact Logic.I|constructor].
Qed.

(** * C68 *)
Theorem C68_score : forall cfg g srt ops rops d x from a p s, dreach cfg g ops rops d -> ln_addr from = Some a -> ip4 a -> reg_peer (d_reg d) a = Ok p ->
  ft_write x = true ->
  exists r', handle_message cfg g srt x d from (MScore s) = ({| d_lk := d_lk d; d_reg := r' |}, [], Ok None) /\
    reg_peer r' a = Ok {| p_addr := a; p_port := p_port p; p_nonce := p_nonce p; p_name := p_name p; p_version := p_version p; p_state := p_state p;
                          p_next := p_next p; p_score := Some (Z.of_N (number s)); p_conn := None |} /\
    (forall b, ip4 b -> b <> a -> reg_peer r' b = reg_peer (d_reg d) b) /\ r_conns r' = r_conns (d_reg d) /\ r_pending r' = r_pending (d_reg d).
Proof. exact d_score. Qed.
Print Assumptions C68_score.
Theorem C68_score_ignored : forall cfg g srt ops rops d x from s, dreach cfg g ops rops d -> wf_link from ->
  (forall a, ln_addr from = Some a -> ip4 a -> forall p, reg_peer (d_reg d) a <> Ok p) \/ ft_write x = false ->
  handle_message cfg g srt x d from (MScore s) = (d, [], Ok None).
Proof. exact d_score_unknown. Qed.
Print Assumptions C68_score_ignored.
Example C68_example :
  match reg_peer (d_reg (fst (fst (handle_message xcfg xg same fine xd (on pa (line hgood)) (MScore [x01; x02]))))) pa with
  | Ok p => p_score p | _ => None end = Some 258%Z.
Proof. vm_compute. reflexivity. Qed.

(** * C69 *)
Theorem C69_answer : forall cfg g srt ops rops d x from, dreach cfg g ops rops d -> permutes srt ->
  exists l, handle_message cfg g srt x d from MGetPeers = (d, [SPeers (ln_conn from) l], Ok None) /\ NoDup (map fst l) /\
    forall b port, In (b, port) l <-> length b = 4 /\ exists p, reg_peer (d_reg d) (A4 b) = Ok p /\ p_state p = PeerConnected /\ p_port p = port.
Proof. exact d_get_peers. Qed.
Print Assumptions C69_answer.
(** A peer that declares no address is passed on with port 0. *)
Theorem C69_port_refuted : exists cfg g srt ops rops d x from b l, dreach cfg g ops rops d /\ permutes srt /\
  snd (fst (handle_message cfg g srt x d from MGetPeers)) = [SPeers (ln_conn from) l] /\ In (b, 0%N) l.
Proof.
  pose (h := greet (ver 1 5 3) DeclEmpty x57 [x6e]).
  pose (rops := told ++ [RRegister pa (line h) h 0%Z true]).
  exists xcfg, xg, same, xops, rops, {| d_lk := xl; d_reg := rrun xcfg rops |}, fine, (on pb (line hgood)), [x01; x02; x03; x04], [([x01; x02; x03; x04], 0%N)].
  split; [split; [apply xl_reachable|split; [wf_ops|reflexivity]]|]. split; [apply same_perm|]. split; [vm_compute; reflexivity|now left].
Qed.
Print Assumptions C69_port_refuted.
Example C69_example : snd (fst (handle_message xcfg xg same fine xd (on pb (line2 hgood)) MGetPeers)) = [SPeers (line2 hgood) [([x01; x02; x03; x04], 6863%N)]].
Proof. vm_compute. reflexivity. Qed.

(** * C70 *)
(** Missing: peers without a record (they stay listed), and peers with a second connection (it is forgotten, too). *)
Theorem C70_error_partial : forall cfg g srt ord ops rops d x from a p, dreach cfg g ops rops d -> ln_addr from = Some a -> ip4 a -> reg_peer (d_reg d) a = Ok p ->
  exists r', handle cfg g srt ord x d (AInfo (IError from)) = ({| d_lk := d_lk d; d_reg := r' |}, [SClose (ln_conn from)], Ok None) /\
    ~ connected r' a /\ ~ pending r' a /\
    (ft_write x = true -> exists p', reg_peer r' a = Ok p' /\ p_next p' = round_second (ft_now x + 600 * second)%Z) /\
    (forall b, ip4 b -> b <> a -> reg_peer r' b = reg_peer (d_reg d) b) /\
    (forall b, b <> a -> (connected r' b <-> connected (d_reg d) b) /\ (pending r' b <-> pending (d_reg d) b)).
Proof. exact d_error. Qed.
Print Assumptions C70_error_partial.
(** The older of two connections of a peer fails: the newer one, which is not closed, is no longer listed. *)
Theorem C70_newer_refuted : exists cfg g srt ord ops rops d x from a c d', dreach cfg g ops rops d /\ ip4 a /\ ln_addr from = Some a /\
  In (a, c) (r_conns (d_reg d)) /\ co_id c <> co_id (ln_conn from) /\
  handle cfg g srt ord x d (AInfo (IError from)) = (d', [SClose (ln_conn from)], Ok None) /\ ~ connected (d_reg d') a.
Proof.
  pose (rops := joined ++ [RRegister pa (line2 hgood) hgood (1002 * second)%Z true]).
  pose (d := {| d_lk := xl; d_reg := rrun xcfg rops |}).
  exists xcfg, xg, same, same, xops, rops, d, fine, (on pa (line hgood)), pa, (line2 hgood), (fst (fst (handle xcfg xg same same fine d (AInfo (IError (on pa (line hgood))))))).
  split; [split; [apply xl_reachable|split; [wf_ops|reflexivity]]|]. split; [apply ip4_pa|]. split; [reflexivity|]. split; [vm_compute; auto|]. split; [discriminate|].
  split; [|intros Q; vm_compute in Q; exact Q].
  assert (Q : forall z : handled, snd (fst z) = [SClose (line hgood)] -> snd z = Ok None -> z = (fst (fst z), [SClose (line hgood)], Ok None))
      by (intros [[z1 z2] z3]; cbn; now intros -> ->).
  apply Q; vm_compute; reflexivity.
Qed.
Print Assumptions C70_newer_refuted.
(** A peer connected by itself while it was being dialled: when the dial fails, its live connection is forgotten. *)
Theorem C70_dial_refuted : exists cfg rops r x a, rreach cfg rops r /\ ip4 a /\ connected r a /\ exists r', dial cfg r x a false = (r', Ok true) /\ ~ connected r' a.
Proof.
  exists xcfg, joined, (rrun xcfg joined), fine, pa. split; [apply joined_reach|]. split; [apply ip4_pa|]. split; [vm_compute; auto|].
  exists (fst (dial xcfg (rrun xcfg joined) fine pa false)). split; [|intros Q; vm_compute in Q; exact Q].
  assert (Q : forall z : registry * outcome bool, snd z = Ok true -> z = (fst z, Ok true)) by (intros [z1 z2]; cbn; now intros ->).
  apply Q. vm_compute. reflexivity.
Qed.
Print Assumptions C70_dial_refuted.
(** A connected peer whose record could not be stored stays listed when its only connection fails. *)
Theorem C70_listed_refuted : exists cfg g srt ord ops rops d x from a d', dreach cfg g ops rops d /\ ip4 a /\ ln_addr from = Some a /\
  r_conns (d_reg d) = [(a, ln_conn from)] /\ handle cfg g srt ord x d (AInfo (IError from)) = (d', [SClose (ln_conn from)], Ok None) /\
  r_conns (d_reg d') = [(a, ln_conn from)].
Proof.
  pose (rops := [RRegister pa (line hname) hname 0%Z true]). pose (d := {| d_lk := xl; d_reg := rrun xcfg rops |}).
  exists xcfg, xg, same, same, xops, rops, d, fine, (on pa (line hname)), pa, d.
  split; [split; [apply xl_reachable|split; [wf_ops|reflexivity]]|]. split; [apply ip4_pa|]. split; [reflexivity|]. split; [vm_compute; reflexivity|].
  split; [|vm_compute; reflexivity].
  assert (Q : forall z : handled, d_reg (fst (fst z)) = d_reg d -> d_lk (fst (fst z)) = d_lk d -> snd (fst z) = [SClose (line hname)] -> snd z = Ok None ->
    z = (d, [SClose (line hname)], Ok None)) by (intros [[[z1 z1'] z2] z3]; cbn [fst snd d_lk d_reg]; now intros -> -> -> ->).
  apply Q; vm_compute; reflexivity.
Qed.
Print Assumptions C70_listed_refuted.
Example C70_example : connected (d_reg xd) pa /\ (exists p, reg_peer (d_reg xd) pa = Ok p) /\
  ~ connected (d_reg (fst (fst (handle xcfg xg same same fine xd (AInfo (IError (on pa (line hgood)))))))) pa.
Proof. split; [vm_compute; auto|]. split; [eexists; vm_compute; reflexivity|]. intros Q. vm_compute in Q. exact Q. Qed.

(** * C71 *)
(** Missing: connections from our own address, handshakes with a malformed declared address, and hostile peers at Accept. *)
Theorem C71_refused_partial : forall cfg g srt ord x d from h d' ss o a, ln_addr from = Some a ->
  handle cfg g srt ord x d (AInfo (IConnected from h)) = (d', ss, o) ->
  (ss = [] \/ ss = [SClose (ln_conn from)]) /\ d_lk d' = d_lk d /\
  (ss <> [] -> r_conns (d_reg d') = r_conns (d_reg d)) /\
  (o <> Panic -> a <> g_declared cfg -> hs_decl h <> DeclBad -> ~ In (a, ln_conn from) (r_conns (d_reg d')) -> ss = [SClose (ln_conn from)]).
Proof. exact d_refused. Qed.
Print Assumptions C71_refused_partial.
Theorem C71_self_refuted : exists cfg g srt ord ops rops d x from h, dreach cfg g ops rops d /\
  handle cfg g srt ord x d (AInfo (IConnected from h)) = (d, [], Ok None) /\ ~ In (ln_conn from) (map snd (r_conns (d_reg d))).
Proof.
  exists xcfg, xg, same, same, xops, joined, xd, fine, (on pme (line2 hgood)), hgood. split; [apply xd_reach|]. split.
  - assert (Q : forall z : handled, d_reg (fst (fst z)) = d_reg xd -> d_lk (fst (fst z)) = d_lk xd -> snd (fst z) = [] -> snd z = Ok None ->
    z = (xd, [], Ok None)) by (intros [[[z1 z1'] z2] z3]; cbn [fst snd d_lk d_reg]; now intros -> -> -> ->).
    apply Q; vm_compute; reflexivity.
  - intros Q. vm_compute in Q. destruct Q as [Q|[]]. discriminate Q.
Qed.
Print Assumptions C71_self_refuted.
Theorem C71_declared_refuted : exists cfg g srt ord ops rops d x from h a d', dreach cfg g ops rops d /\ ln_addr from = Some a /\ a <> g_declared cfg /\
  handle cfg g srt ord x d (AInfo (IConnected from h)) = (d', [], Ok None) /\ ~ In (ln_conn from) (map snd (r_conns (d_reg d'))).
Proof.
  pose (h := greet (ver 1 5 3) DeclBad x57 [x6e]).
  exists xcfg, xg, same, same, xops, joined, xd, fine, (on pa (line2 h)), h, pa, (fst (fst (handle xcfg xg same same fine xd (AInfo (IConnected (on pa (line2 h)) h))))).
  split; [apply xd_reach|]. split; [reflexivity|]. split; [discriminate|]. split.
  - assert (Q : forall z : handled, snd (fst z) = [] -> snd z = Ok None -> z = (fst (fst z), [], Ok None)) by (intros [[z1 z2] z3]; cbn; now intros -> ->).
    apply Q; vm_compute; reflexivity.
  - intros Q. vm_compute in Q. destruct Q as [Q|[]]. discriminate Q.
Qed.
Print Assumptions C71_declared_refuted.
Theorem C71_accept_refuted : exists cfg rops r now a, rreach cfg rops r /\ hostile r a /\ accept cfg r now true (Some a) = (r, Err EOther, false).
Proof.
  pose (rops := [RHostile (Some pa) true]). exists xcfg, rops, (rrun xcfg rops), 0%Z, pa. split; [split; [wf_ops|reflexivity]|].
  assert (H : hostile (rrun xcfg rops) pa) by (eexists; split; vm_compute; reflexivity).
  split; [exact H|]. unfold accept. now rewrite offer_hostile.
Qed.
Print Assumptions C71_accept_refuted.
Example C71_example : snd (fst (handle xcfg xg same same fine xd (AInfo (IConnected (on pb (line hforeign)) hforeign)))) = [SClose (line hforeign)] /\
  ~ In (pb, line hforeign) (r_conns (d_reg (fst (fst (handle xcfg xg same same fine xd (AInfo (IConnected (on pb (line hforeign)) hforeign))))))).
Proof. split; [vm_compute; reflexivity|]. intros Q. vm_compute in Q. destruct Q as [Q|[]]. discriminate Q. Qed.

(** * C72 *)
Theorem C72_hostile : forall cfg rops r x a up, rreach cfg rops r -> hostile r a ->
  (forall now w, offer cfg r now w (Some a) = (r, Err EOther)) /\
  (exists r', dial cfg r x a up = (r', Ok false) /\ hostile r' a) /\
  (forall clock r' out, take_available cfg r clock = (r', Ok out) -> ~ In a (map fst out)).
Proof.
  intros cfg rops r x a up R H. split; [intros; now apply offer_hostile|]. split; [exact (q_dial_hostile x up R H)|].
  intros clock r' out T. exact (q_hostile_not_taken R H T).
Qed.
Print Assumptions C72_hostile.
Theorem C72_dial : forall cfg rops r x a p, rreach cfg rops r -> g_versions cfg <> [] -> ip4 a -> reg_peer r a = Ok p -> p_state p <> PeerHostile ->
  ft_write x = true ->
  (exists r' v, dial cfg r x a true = (r', Ok true) /\ suggest_version cfg r (ft_now x) true a = (r', Ok v) /\ r_conns r' = r_conns r /\ r_pending r' = r_pending r) /\
  (exists r' p', dial cfg r x a false = (r', Ok true) /\ ~ pending r' a /\ ~ connected r' a /\ reg_peer r' a = Ok p' /\
     p_next p' = round_second (ft_now x + 600 * second)%Z /\ p_port p' = p_port p /\ p_state p' = p_state p /\
     forall b, b <> a -> (pending r' b <-> pending r b) /\ (connected r' b <-> connected r b) /\ (ip4 b -> known r b -> reg_peer r' b = reg_peer r b)).
Proof. exact q_dial. Qed.
Print Assumptions C72_dial.
Theorem C72_delay : forall cfg rops r x a p r1 ops clock r2 out, rreach cfg rops r -> g_versions cfg <> [] -> ip4 a -> reg_peer r a = Ok p ->
  ft_write x = true -> dial cfg r x a false = (r1, Ok true) -> Forall wf_rop ops -> Forall (leaves a (ft_now x)) ops ->
  (clock a < ft_now x + 600 * second - second / 2)%Z ->
  take_available cfg (fold_left (rstep cfg) ops r1) clock = (r2, Ok out) -> ~ In a (map fst out).
Proof. exact q_dial_delay. Qed.
Print Assumptions C72_delay.
Example C72_example :
  let r := rrun xcfg dialled in let r1 := fst (dial xcfg r fine pa false) in
  pending r pa /\ snd (dial xcfg r fine pa false) = Ok true /\ snd (take_available xcfg r1 (at0 (599 * second)%Z)) = Ok [] /\
  snd (take_available xcfg r1 (at0 (600 * second)%Z)) = Ok [(pa, 6863%N)] /\
  snd (dial xcfg (rrun xcfg [RHostile (Some pa) true]) fine pa true) = Ok false.
Proof. cbv zeta. split; [vm_compute; auto|]. split; [vm_compute; reflexivity|]. split; [vm_compute; reflexivity|]. split; vm_compute; reflexivity. Qed.
