(** What the three peer endpoints of the HTTP API answer (C93). *)
From Verif Require Import Base Kv ChainModel ChainSpec ForkProofs PeersModel PeersSpec PeersProofs PeersCalls PeersProps OrderProps NameProps
  ApiModel ApiSpec ApiProps.
Set Implicit Arguments.
Unset Strict Implicit.

(** [ps] are the records of the addresses satisfying [P], each one once, in the order of the names. *)
Definition lists (cfg : config) (r : registry) (P : Peer -> Prop) (ps : list Peer) : Prop :=
  NoDup (map p_addr ps) /\ (forall p, In p ps <-> ip4 (p_addr p) /\ reg_peer r (p_addr p) = Ok p /\ P p) /\ by_name (g_upper cfg) ps.

(** GET /peers *)
Theorem C93_peers : forall cfg ops r o, rreach cfg ops r -> fair o -> sorts (name_less cfg) (or_peers o) ->
  exists ps, api_peers o r = Reply ps /\ lists cfg r (fun _ => True) ps.
Proof.
  intros cfg ops r o R F S. assert (PS : permutes (or_peers o)) by apply F. destruct (C38_peers R PS) as (ps & E & ND & IN).
  exists ps. unfold api_peers. rewrite E. split; [reflexivity|]. split; [exact ND|]. split; [intros p; rewrite IN; tauto|].
  eapply C82_sorted with (ord := fun l => l); [exact S|]. left. exact E.
Qed.
Print Assumptions C93_peers.
(** GET /peers/friendly *)
Theorem C93_friendly : forall cfg ops r o, rreach cfg ops r -> fair o -> sorts (name_less cfg) (or_peers o) ->
  exists ps, api_friendly o r = Reply ps /\ lists cfg r (fun p => p_state p = PeerConnected) ps.
Proof.
  intros cfg ops r o R F S. assert (PS : permutes (or_peers o)) by apply F. destruct (C82_friends R PS) as (ps & E & ND & IN).
  exists ps. unfold api_friendly. rewrite E. split; [reflexivity|]. split; [exact ND|]. split; [exact IN|].
  eapply C82_sorted with (ord := fun l => l); [exact S|]. right. left. exact E.
Qed.
Print Assumptions C93_friendly.
(** GET /connections: the live connections, one entry each, with the recorded data of the peer, if all of them have records. *)
Theorem C93_connections : forall cfg ops r o, rreach cfg ops r -> fair o -> sorts (name_less cfg) (or_peers o) ->
  (forall a, connected r a -> known r a) ->
  exists ps, api_connections o r = Reply ps /\ Permutation (map p_addr ps) (map fst (r_conns r)) /\ NoDup (map p_addr ps) /\
    by_name (g_upper cfg) ps /\
    forall p, In p ps <-> exists q c, In (p_addr p, c) (r_conns r) /\ reg_peer r (p_addr p) = Ok q /\ p = set_live q c.
Proof.
  intros cfg ops r o R F S K. assert (PO : permutes (or_conns o)) by apply F. assert (PS : permutes (or_peers o)) by apply F.
  assert (I := rreach_inv R). destruct (connections_view I PO PS K) as (ps & E & P & Q). exists ps. unfold api_connections. rewrite E.
  split; [reflexivity|]. split; [exact P|]. split; [eapply Permutation_NoDup; [apply Permutation_sym, P|apply I]|].
  split; [eapply C82_sorted; [exact S|]; right; right; exact E|]. exact Q.
Qed.
Print Assumptions C93_connections.
(** Otherwise it answers 500. *)
Theorem C93_connections_fails : forall cfg ops r o a, rreach cfg ops r -> fair o -> connected r a -> ~ known r a ->
  api_connections o r = Code 500.
Proof.
  intros cfg ops r o a R F C K. assert (PO : permutes (or_conns o)) by apply F. unfold api_connections, connections.
  assert (N : forall l : list (addr * conn), In a (map fst l) ->
    match mapM (fun x => do p <- get_peer (r_db r) (fst x); Ok (set_live p (snd x))) l with Ok _ => False | Diverge => False | _ => True end).
  { induction l as [|x l IH]; intros X; [destruct X|]. cbn [mapM]. destruct (get_peer (r_db r) (fst x)) as [q|e| |] eqn:G; cbn [bind]; auto.
    - destruct X as [X|X]; [exfalso; apply K; rewrite <- X; exists q; exact G|]. specialize (IH X).
      destruct (mapM _ l); cbn [bind]; auto.
    - unfold get_peer, bind in G. destruct (pkey (fst x)) eqn:PK; try discriminate; [destruct (kv_get _ _); discriminate|].
      unfold pkey in PK. destruct (fst x); discriminate. }
  assert (X : In a (map fst (or_conns o (r_conns r)))).
  { eapply Permutation_in; [apply Permutation_map, Permutation_sym, PO|]. exact C. }
  specialize (N _ X). destruct (mapM _ _); cbn [bind answer]; tauto || reflexivity.
Qed.
Print Assumptions C93_connections_fails.
(** Three records: [pb] is connected, [pa] was ("friendly", no longer connected) and [pme] is hostile. *)
Definition mixed : list rop := lettered ++ [RUnregister pa 0%Z true].
Definition sorted_orders : orders :=
  {| or_groups := fun m => m; or_forks := isort fork_less; or_gens := fun m => m; or_gensort := isort gen_less;
     or_conns := fun m => m; or_peers := isort (name_less ucfg) |}.
Lemma sorted_orders_fair : fair sorted_orders.
Proof.
  split; [apply same_order|]. split; [apply isort_forks|]. split; [apply same_order|]. split; [apply isort_gens|].
  split; intros m; [apply Permutation_refl|]. destruct (isort_names ucfg m) as [P _]. exact P.
Qed.
Definition shown (x : resp (list Peer)) : list addr := match x with Reply ps => map p_addr ps | _ => [] end.
Example C93_example : rreach ucfg mixed (rrun ucfg mixed) /\ fair sorted_orders /\ sorts (name_less ucfg) (or_peers sorted_orders) /\
  (forall a, connected (rrun ucfg mixed) a -> known (rrun ucfg mixed) a) /\
  shown (api_peers sorted_orders (rrun ucfg mixed)) = [pme; pb; pa] /\ shown (api_friendly sorted_orders (rrun ucfg mixed)) = [pb; pa] /\
  shown (api_connections sorted_orders (rrun ucfg mixed)) = [pb] /\
  (let r := rrun xcfg [RRegister pa (line hname) hname 0%Z true] in
   connected r pa /\ ~ known r pa /\ api_connections sorted_orders r = Code 500).
Proof.
  split; [split; [wf_ops|reflexivity]|]. split; [apply sorted_orders_fair|]. split; [apply isort_names|]. split.
  { intros a A. vm_compute in A. destruct A as [<-|[]]. eexists. vm_compute. reflexivity. }
  do 3 (split; [vm_compute; reflexivity|]). split; [vm_compute; auto|]. split; [|vm_compute; reflexivity].
  intros [p E]. vm_compute in E. discriminate.
Qed.
