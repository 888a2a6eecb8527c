(** The property C102 of /verif/properties.jsonl: addresses on their way between the parts. *)
From Coq Require Import Strings.Byte Strings.String.
From Verif Require Import Base Kv BytesFacts CborModel CborProofs ChainModel ChainSpec PeersModel PeersSpec PeersProofs PeersProps NetModel NetSpec NetProps ApiModel ApiSpec ApiProofs TextModel TextProps
  NetipModel NetipProofs NetipProofs2 NetipProofs3 NetipProps BridgeModel.
Set Implicit Arguments.
Unset Strict Implicit.
Local Open Scope N_scope.

(** The sixteen bytes of an IP in IPv6 form. *)
Definition wide (ip : bytes) : bytes := if Nat.eqb (length ip) 4 then repeat x00 10 ++ [xff; xff] ++ ip else ip.
(** The address without the IPv6 form of IPv4, as text shows it; an IPv4 address has no zone. *)
Definition plain_form (a b : addr) : Prop :=
  match a with
  | A6 x z => (exists t, x = repeat x00 10 ++ [xff; xff] ++ t /\ z = [] /\ b = A4 t) \/ (~ v4 a /\ b = a)
  | _ => b = a
  end.
Definition ip_len (ip : bytes) : Prop := length ip = 4%nat \/ length ip = 16%nat.

Lemma v4_mapped : forall b z, length b = 16%nat -> (is4in6 b = true <-> v4 (A6 b z)).
Proof.
  intros b z L. split.
  - intros M. apply is4in6_eq in M. exists (skipn 12 b). rewrite M at 1. now rewrite <- app_assoc.
  - intros (t & ->). reflexivity.
Qed.
Lemma mapped_inj : forall s t : bytes, repeat x00 10 ++ [xff; xff] ++ s = repeat x00 10 ++ [xff; xff] ++ t -> s = t.
Proof. intros s t E. cbn in E. now inversion E. Qed.

(** * Sockets *)
(** The key of a connection: always an address, never IPv4 in IPv6 form; the same for two sockets exactly if they have the same IP. *)
Theorem C102_sockets : forall ip port c, ip_len ip -> port < 65536 ->
  (exists a, ln_addr (link_of ip [] port c) = Some a /\ go_addr a /\ (v4 a -> ip4 a) /\ (v4 a <-> exists t, wide ip = repeat x00 10 ++ [xff; xff] ++ t)) /\
  forall ip' port' c', ip_len ip' -> port' < 65536 -> (ln_addr (link_of ip [] port c) = ln_addr (link_of ip' [] port' c') <-> wide ip = wide ip').
Proof.
  assert (K : forall ip port c, ip_len ip -> port < 65536 ->
    (exists t, length t = 4%nat /\ wide ip = repeat x00 10 ++ [xff; xff] ++ t /\ ln_addr (link_of ip [] port c) = Some (A4 t)) \/
    (length ip = 16%nat /\ wide ip = ip /\ ~ v4 (A6 ip []) /\ ln_addr (link_of ip [] port c) = Some (A6 ip []))).
  { intros ip port c [L|L] P; unfold link_of, wide; cbn [ln_addr]; rewrite L; cbn [Nat.eqb].
    - left. exists ip. split; [exact L|]. split; [reflexivity|]. now rewrite socket4.
    - destruct (is4in6 ip) eqn:M.
      + left. exists (skipn 12 ip). split; [now apply mapped_length|]. split; [|now rewrite socket_mapped]. apply is4in6_eq in M. rewrite M at 1. now rewrite <- app_assoc.
      + right. split; [reflexivity|]. split; [reflexivity|]. split; [|now rewrite socket6]. intros V. apply (v4_mapped [] L) in V. congruence. }
  intros ip port c L P. split.
  - destruct (K ip port c L P) as [(t & LT & W & E)|(L16 & W & V & E)]; rewrite E.
    + exists (A4 t). split; [reflexivity|]. split; [exact LT|]. split; [intros _; exists t; auto|]. split; [intros _; exists t; exact W|intros _; exact I].
    + exists (A6 ip []). split; [reflexivity|]. split; [exact L16|]. split; [contradiction|]. rewrite W. reflexivity.
  - intros ip' port' c' L' P'. destruct (K ip port c L P) as [(t & LT & W & E)|(L16 & W & V & E)], (K ip' port' c' L' P') as [(t' & LT' & W' & E')|(L16' & W' & V' & E')]; rewrite E, E', W, W'.
    + split; [intros Q; now injection Q as ->|intros Q; now apply mapped_inj in Q as ->].
    + split; [discriminate|]. intros Q. exfalso. apply V'. exists t. now rewrite <- Q.
    + split; [discriminate|]. intros Q. exfalso. apply V. exists t'. exact Q.
    + split; [intros Q; now injection Q as ->|intros ->; reflexivity].
Qed.
Print Assumptions C102_sockets.
Example C102_sockets_example : ln_addr (link_of (map byte_of [10; 0; 0; 1]) [] 6868 (PeersProps.line hgood)) = Some (ipv4 10 0 0 1) /\
  ln_addr (link_of (repeat x00 10 ++ [xff; xff] ++ map byte_of [10; 0; 0; 1]) [] 50123 (PeersProps.line hgood)) = Some (ipv4 10 0 0 1) /\
  ln_addr (link_of (repeat x00 15 ++ [x01]) [] 6868 (PeersProps.line hgood)) = Some (A6 (repeat x00 15 ++ [x01]) []) /\
  ln_addr (link_of [] [] 6868 (PeersProps.line hgood)) = None.
Proof. repeat split; vm_compute; reflexivity. Qed.

(** * To the registry *)
Lemma appended_plain : forall a n, go_addr a -> a <> AZero -> n < 65536 ->
  (forall b, plain_form a b -> appended (a, n) = Some (b, n)) /\ ((forall b, ~ plain_form a b) -> appended (a, n) = None).
Proof.
  intros [|x|x z] n G NZ L; [contradiction| |]; unfold appended; cbn [fst snd slice zone_of go_addr] in *.
  - split; [intros b ->; now apply socket4|]. intros N. destruct (N (A4 x)). reflexivity.
  - split.
    + intros b [(t & E & -> & ->)|[V ->]].
      * subst x. assert (M : is4in6 (repeat x00 10 ++ [xff; xff] ++ t) = true) by reflexivity. exact (socket_mapped G M L).
      * apply socket6; [exact G| |exact L]. destruct (is4in6 x) eqn:M; [|reflexivity]. apply (v4_mapped z G) in M. contradiction.
    + intros N. destruct (is4in6 x) eqn:M.
      * apply socket4_zone; [right; auto| |exact L]. intros ->. apply (v4_mapped [] G) in M as [t E]. apply (N (A4 t)). left. exists t. auto.
      * exfalso. apply (N (A6 x z)). right. split; [|reflexivity]. intros V. apply (v4_mapped z G) in V. congruence.
Qed.
Lemma seeds_proper : forall dir clean o p a n, new_parameters (go_env dir clean) o = Ok p -> In (a, n) (pr_seeds p) -> go_addr a /\ a <> AZero /\ n < 65536.
Proof.
  intros dir clean o p a n E I. unfold new_parameters in E.
  destruct (check_folder _ _); try discriminate. cbn [bind] in E. destruct (op_network o) as [net|]; try discriminate. cbn [bind] in E.
  destruct (parse_seed_peers _ _ _) as [sps| | |] eqn:S; try discriminate. cbn [bind] in E.
  do 6 (match type of E with context [bind ?x _] => destruct x; try discriminate; cbn [bind] in E end). injection E as <-. cbn [pr_seeds] in I.
  unfold parse_seed_peers in S. destruct (builtin net) as [b0| | |] eqn:B; try discriminate. cbn [bind] in S.
  assert (PB : Forall (fun ap => go_addr (fst ap) /\ fst ap <> AZero /\ snd ap < 65536) b0).
  { destruct net; try discriminate B; injection B as <-; repeat (constructor; [split; [reflexivity|split; [discriminate|reflexivity]]|]); constructor. }
  assert (A : forall ws r r', Forall (fun ap => go_addr (fst ap) /\ fst ap <> AZero /\ snd ap < 65536) r -> add_seeds (go_env dir clean) ws r = Ok r' ->
    Forall (fun ap => go_addr (fst ap) /\ fst ap <> AZero /\ snd ap < 65536) r').
  { induction ws as [|w ws IH]; intros r r' F Q; cbn [add_seeds] in Q; [now injection Q as <-|]. destruct (ev_trim _ w) as [|c w']; [exact (IH _ _ F Q)|].
    destruct (ev_addrport _ _) as [ap|] eqn:P; [|discriminate]. eapply IH; [|exact Q]. apply Forall_app. split; [exact F|]. constructor; [|constructor].
    destruct ap as [ax nx]. cbn [go_env ev_addrport] in P. apply parsed_port in P as ((G & NZ) & L). cbn [fst snd]. auto. }
  assert (X := A _ _ _ PB S). rewrite Forall_forall in X. exact (X _ I).
Qed.
Lemma seed_dec : forall (x : option (addr * N)) a, (exists q, x = Some (a, q)) \/ forall q, x <> Some (a, q).
Proof.
  intros [[b q]|] a; [|right; discriminate]. destruct (addr_eqb_spec b a) as [->|N]; [left; eauto|right]. intros q' E. now injection E as -> ->.
Qed.
(** After the start the registry knows what it knew before and the acceptable seeds that are IPv4 addresses, also in IPv6 form. *)
Theorem C102_seeds : forall dir clean o p cfg ops r r' n, new_parameters (go_env dir clean) o = Ok p -> rreach cfg ops r ->
  append_addresses cfg r (seed_list p) None = (r', n) ->
  forall b, length b = 4%nat -> (known r' (A4 b) <-> known r (A4 b) \/
    (acceptable cfg (A4 b) /\ exists port, In (A4 b, port) (pr_seeds p) \/ In (A6 (repeat x00 10 ++ [xff; xff] ++ b) [], port) (pr_seeds p))).
Proof.
  intros dir clean o p cfg ops r r' n NP RR AP b LB.
  assert (SP := fun a port => @seeds_proper dir clean o p a port NP).
  assert (OUT : forall a port, In (Some (a, port)) (seed_list p) <-> exists s, In (s, port) (pr_seeds p) /\ plain_form s a).
  { intros a port. unfold seed_list. rewrite in_map_iff. split.
    - intros ([s sp] & E & I). destruct (SP _ _ I) as (G & NZ & L). destruct (appended_plain G NZ L) as (A1 & A2).
      destruct s as [|x|x z]; [contradiction| |].
      + rewrite (A1 (A4 x)) in E by reflexivity. injection E as <- <-. exists (A4 x). split; [exact I|reflexivity].
      + cbn [go_addr] in G. destruct (is4in6 x) eqn:M.
        * destruct z as [|c z].
          -- assert (V := proj1 (v4_mapped [] G) M). destruct V as [t Ex]. assert (PF : plain_form (A6 x []) (A4 t)) by (left; exists t; auto).
             rewrite (A1 _ PF) in E. injection E as <- <-. eauto.
          -- exfalso. rewrite A2 in E; [discriminate|]. intros q [(t & _ & Z & _)|[V _]]; [discriminate|]. apply V. now apply (v4_mapped (c :: z) G).
        * assert (PF : plain_form (A6 x z) (A6 x z)). { right. split; [|reflexivity]. intros V. apply (v4_mapped z G) in V. congruence. }
          rewrite (A1 _ PF) in E. injection E as <- <-. eauto.
    - intros (s & I & PF). exists (s, port). split; [|exact I]. destruct (SP _ _ I) as (G & NZ & L). now apply (proj1 (appended_plain G NZ L)). }
  assert (GA : forall a port, In (Some (a, port)) (seed_list p) -> go_addr a).
  { intros a port I. apply OUT in I as (s & I & PF). destruct (SP _ _ I) as (G & NZ & L). destruct s as [|x|x z]; [contradiction| |].
    - cbn in PF. now subst a.
    - destruct PF as [(t & -> & _ & ->)|[_ ->]]; [|exact G]. cbn [go_addr] in *. rewrite !app_length, repeat_length in G. cbn [length] in G. lia. }
  destruct (C31_append RR GA AP) as (added & _ & _ & AD & AR & SAME & _).
  assert (I4 : ip4 (A4 b)) by (exists b; auto).
  assert (CH : acceptable cfg (A4 b) -> (exists port, In (Some (A4 b, port)) (seed_list p)) -> exists port, offers cfg (seed_list p) (A4 b) port).
  { intros AC [port I]. clear -AC I. induction (seed_list p) as [|x l IH]; [destruct I|].
    destruct (seed_dec x (A4 b)) as [(q & ->)|NX].
    - exists q. split; [exact AC|]. exists [], l. split; [reflexivity|]. intros _ [].
    - destruct I as [->|I]; [destruct (NX port); reflexivity|]. destruct (IH I) as (q & _ & pre & post & -> & NI). exists q. split; [exact AC|].
      exists (x :: pre), post. split; [reflexivity|]. intros q' [Q|Q]; [exact (NX q' Q)|exact (NI q' Q)]. }
  assert (SEED : (exists port, In (Some (A4 b, port)) (seed_list p)) <-> exists port, In (A4 b, port) (pr_seeds p) \/ In (A6 (repeat x00 10 ++ [xff; xff] ++ b) [], port) (pr_seeds p)).
  { split.
    - intros [port I]. apply OUT in I as (s & I & PF). exists port. destruct s as [|x|x z]; cbn in PF; [discriminate|injection PF as ->; now left|].
      destruct PF as [(t & -> & -> & E)|[_ E]]; [injection E as ->; now right|discriminate].
    - intros [port [I|I]]; exists port; apply OUT; [exists (A4 b)|exists (A6 (repeat x00 10 ++ [xff; xff] ++ b) [])]; (split; [exact I|]); [reflexivity|]. left. exists b. auto. }
  rewrite <- SEED. split.
  - intros [q Q]. destruct (in_dec (fun x y => Bool.reflect_dec _ _ (addr_eqb_spec x y)) (A4 b) (map fst added)) as [I|NI].
    + apply in_map_iff in I as ((a & port) & E & I). cbn [fst] in E. subst a. right. apply AD in I as ((AC & pre & post & E & _) & _). split; [exact AC|].
      exists port. rewrite E. apply in_or_app. right. now left.
    + left. rewrite (SAME _ I4 NI) in Q. exists q. exact Q.
  - intros [K|[AC S]].
    + destruct (in_dec (fun x y => Bool.reflect_dec _ _ (addr_eqb_spec x y)) (A4 b) (map fst added)) as [I|NI].
      * apply in_map_iff in I as ((a & port) & E & I). cbn [fst] in E. subst a. exists (new_record (A4 b) port). now apply AR.
      * destruct K as [q Q]. exists q. now rewrite (SAME _ I4 NI).
    + destruct (CH AC S) as (port & OF). destruct (in_dec (fun x y => Bool.reflect_dec _ _ (addr_eqb_spec x y)) (A4 b) (map fst added)) as [I|NI].
      * apply in_map_iff in I as ((a & q) & E & I). cbn [fst] in E. subst a. exists (new_record (A4 b) q). now apply AR.
      * assert (Q : ~ known r (A4 b) -> False). { intros NK. apply NI. apply in_map_iff. exists (A4 b, port). split; [reflexivity|]. apply AD. auto. }
        destruct (reg_peer r (A4 b)) as [q| | |] eqn:E; [exists q; now rewrite (SAME _ I4 NI)| | |]; exfalso; apply Q; intros [q' Q']; congruence.
Qed.
Print Assumptions C102_seeds.
Example C102_seeds_example : exists p, new_parameters genv {| op_db := text "/data"; op_network := Some MainNet; op_peers := text "[::ffff:10.1.2.3]:6868, 127.0.0.1:1,[2001:db8::1]:6863";
    op_api := text "127.0.0.1:8080"; op_net := text "0.0.0.0:6868"; op_declared := []; op_name := text "fd"; op_versions := text "1.5" |} = Ok p /\
  map (fun x => match x with Some (A4 b, n) => Some (map Byte.to_N b, n) | _ => None end) (skipn 5 (seed_list p)) = [Some ([10; 1; 2; 3], 6868); Some ([127; 0; 0; 1], 1); None] /\
  rreach xcfg [] (new_registry []) /\ snd (append_addresses xcfg (new_registry []) (seed_list p) None) = 6%nat.
Proof.
  eexists. split; [vm_compute; reflexivity|]. split; [vm_compute; reflexivity|]. split; [|vm_compute; reflexivity]. split; [constructor|]. reflexivity.
Qed.
(** A seed with an IPv6 address is accepted on the command line, but no peer is added for it: seven seeds, six new peers. *)
Theorem C102_ipv6_seed_ignored : exists o p, new_parameters genv o = Ok p /\ length (pr_seeds p) = 7%nat /\
  (exists b, ~ v4 (A6 b []) /\ In (A6 b [], 6863) (pr_seeds p)) /\ rreach xcfg [] (new_registry []) /\
  NoDup (pr_seeds p) /\ snd (append_addresses xcfg (new_registry []) (seed_list p) None) = 6%nat.
Proof.
  exists (gopts "0.0.0.0:6868" ""). eexists. split; [vm_compute; reflexivity|]. split; [reflexivity|]. split.
  { exists (map byte_of [32; 1; 13; 184; 0; 0; 0; 0; 0; 0; 0; 0; 0; 0; 0; 1]). split; [intros (t & E); discriminate E|]. vm_compute. do 6 right. now left. }
  split; [split; [constructor|reflexivity]|]. split; [|vm_compute; reflexivity].
  repeat (constructor; [vm_compute; intros Q; repeat (destruct Q as [Q|Q]; [discriminate Q|]); destruct Q|]). constructor.
Qed.
Print Assumptions C102_ipv6_seed_ignored.

(** * Between detectors *)
(** An entry of a Peers message: four bytes are an IPv4 address, sixteen bytes are read only if they are an IPv4 address in IPv6 form. *)
Theorem C102_entries : forall ip port, port < 65536 ->
  (length ip = 4%nat -> peers_message [(ip, port)] = [Some (A4 ip, port)]) /\
  (forall t, length t = 4%nat -> peers_message [(repeat x00 10 ++ [xff; xff] ++ t, port)] = [Some (A4 t, port)]) /\
  (length ip = 16%nat -> ~ v4 (A6 ip []) -> peers_message [(ip, port)] = [None]).
Proof.
  intros ip port P.
  assert (Q4 : forall t, length t = 4%nat -> parse_addrport (print4 t ++ [colon] ++ decimal port) = Some (A4 t, port)).
  { intros t L. apply (@parse_print_port (A4 t) port); [split; [exact L|discriminate]|exact P]. }
  assert (AP : forall t, length t = 4%nat -> appended (A4 t, port) = Some (A4 t, port)) by (intros t L; now apply socket4).
  split; [|split].
  - intros L. unfold peers_message, info_string, ip_string. cbn [map fst snd]. rewrite L, Q4 by exact L. now rewrite AP.
  - intros t L. unfold peers_message, info_string, ip_string. cbn [map fst snd]. rewrite !app_length, repeat_length, L. cbn [length Nat.add].
    change (is4in6 (repeat x00 10 ++ [xff; xff] ++ t)) with true. cbv iota. change (skipn 12 (repeat x00 10 ++ [xff; xff] ++ t)) with t. rewrite Q4 by exact L. now rewrite AP.
  - intros L V. unfold peers_message, info_string, ip_string. cbn [map fst snd]. rewrite L.
    destruct (is4in6 ip) eqn:M; [exfalso; apply V; now apply (v4_mapped [] L)|]. assert (PP : parse_addr (print_addr (A6 ip [])) = Some (A6 ip [])) by (apply parse_print; split; [exact L|discriminate]).
    set (s := print_addr (A6 ip [])) in *. clearbody s. unfold parse_addrport. destruct (octet_plain port) as (_ & ND & _ & _).
    change ([colon] ++ decimal port) with (colon :: decimal port). rewrite last_split by exact ND. rewrite empty_dec.
    destruct s as [|c s]; [discriminate PP|]. cbn [empty orb]. unfold brackets. destruct (is 91 c) eqn:B.
    { apply is_byte in B; [|lia]. subst c. change (byte_of 91) with x5b in PP. rewrite bracket_none in PP. discriminate. }
    rewrite port_decimal by exact P. rewrite PP. reflexivity.
Qed.
Print Assumptions C102_entries.
Lemma tcp_addrs : forall ps infos, mapM tcp_addr ps = Ok infos -> Forall (fun i => length (fst i) = 4%nat /\ snd i < 65536) infos ->
  peers_message infos = map (fun p => Some (p_addr p, p_port p)) ps.
Proof.
  induction ps as [|p ps IH]; intros infos E F; cbn [mapM bind] in E; [now injection E as <-|]. unfold tcp_addr in E at 1.
  destruct (p_addr p) as [|b|b z] eqn:A; try discriminate. cbn [bind] in E. destruct (mapM tcp_addr ps) as [is| | |]; try discriminate. cbn [bind] in E. injection E as <-.
  inversion F as [|? ? [L P] F']; subst. cbn [fst snd] in *. 
  assert (Q := proj1 (@C102_entries b (p_port p) P) L). unfold peers_message in *. cbn [map] in *. rewrite A. f_equal; [now injection Q|now apply IH].
Qed.
(** What one detector answers to GetPeers, another one reads as the same addresses and ports, and it then knows all of them except loopback
    addresses and itself. *)
Theorem C102_exchange : forall srt d from d' c infos o, handle_get_peers srt d from = (d', [SPeers c infos], o) ->
  Forall (fun i => length (fst i) = 4%nat /\ snd i < 65536) infos ->
  exists ps, friendly_peers srt (d_reg d) = Ok ps /\ peers_message infos = map (fun p => Some (p_addr p, p_port p)) ps /\
  forall cfg x e rops, rreach cfg rops (d_reg e) -> ft_append x = None ->
  let '(e', _, _) := handle_peers cfg x e (peers_message infos) in
    (forall p, In p ps -> acceptable cfg (p_addr p) -> known (d_reg e') (p_addr p)) /\
    (forall a, ip4 a -> known (d_reg e') a -> known (d_reg e) a \/ (acceptable cfg a /\ exists p, In p ps /\ p_addr p = a)).
Proof.
  intros srt d from d' c infos o H F. unfold handle_get_peers in H. destruct (friendly_peers srt (d_reg d)) as [ps| | |]; try discriminate H.
  destruct (mapM tcp_addr ps) as [is| | |] eqn:M; try discriminate H. injection H as _ _ -> _. exists ps. split; [reflexivity|].
  assert (PM := tcp_addrs M F). split; [exact PM|]. intros cfg x e rops RR NF. unfold handle_peers. rewrite NF.
  assert (FI : filter (fun p : option (addr * N) => match p with Some _ => true | None => false end) (peers_message infos) = peers_message infos).
  { rewrite PM. clear. induction ps as [|p ps IH]; [reflexivity|]. cbn [map filter]. now rewrite IH. }
  rewrite FI. assert (A4S : forall p, In p ps -> ip4 (p_addr p)).
  { clear -M F. revert infos M F. induction ps as [|p ps IH]; intros infos M F q I; [destruct I|]. cbn [mapM bind] in M. unfold tcp_addr in M at 1.
    destruct (p_addr p) as [|b|b z] eqn:A; try discriminate. cbn [bind] in M. destruct (mapM tcp_addr ps) as [is| | |]; try discriminate. cbn [bind] in M. injection M as <-.
    inversion F as [|? ? [L P] F']; subst. destruct I as [<-|I]; [exists b; auto|]. eapply IH; eauto. }
  assert (GA : forall a port, In (Some (a, port)) (peers_message infos) -> go_addr a).
  { intros a port I. rewrite PM in I. apply in_map_iff in I as (p & E & I). injection E as <- <-. destruct (A4S p I) as (b & -> & L). exact L. }
  destruct (append_addresses cfg (d_reg e) (peers_message infos) None) as [r' n] eqn:AP. cbn [nothing quiet].
  destruct (C31_append RR GA AP) as (added & _ & _ & AD & AR & SAME & _). change (d_reg (with_reg e r')) with r'. split.
  - intros p I AC. assert (I4 := A4S p I). destruct (in_dec (fun x y => Bool.reflect_dec _ _ (addr_eqb_spec x y)) (p_addr p) (map fst added)) as [J|NJ].
    + apply in_map_iff in J as ((a & q) & E & J). cbn [fst] in E. subst a. exists (new_record (p_addr p) q). now apply AR.
    + destruct (reg_peer (d_reg e) (p_addr p)) as [q| | |] eqn:E; [exists q; now rewrite (SAME _ I4 NJ)| | |]; exfalso;
      (assert (NK : ~ known (d_reg e) (p_addr p)) by (intros [q' Q']; congruence));
      (assert (OF : exists port, offers cfg (peers_message infos) (p_addr p) port) by
        (rewrite PM; clear -AC I; induction ps as [|q ps IH]; [destruct I|]; cbn [map];
         destruct (addr_eqb_spec (p_addr q) (p_addr p)) as [E|E];
         [exists (p_port q); split; [exact AC|]; exists [], (map (fun p => Some (p_addr p, p_port p)) ps); rewrite E; split; [reflexivity|intros _ []]
         |destruct I as [->|I]; [congruence|]; destruct (IH I) as (port & _ & pre & post & Q & NI); exists port; split; [exact AC|];
          exists (Some (p_addr q, p_port q) :: pre), post; rewrite Q; split; [reflexivity|]; intros q' [X|X]; [injection X as X _; congruence|exact (NI q' X)]]));
      destruct OF as (port & OF); apply NJ; apply in_map_iff; exists (p_addr p, port); (split; [reflexivity|]); apply AD; auto.
  - intros a I4 [q Q]. destruct (in_dec (fun x y => Bool.reflect_dec _ _ (addr_eqb_spec x y)) a (map fst added)) as [J|NJ].
    + right. apply in_map_iff in J as ((a' & port) & E & J). cbn [fst] in E. subst a'. apply AD in J as ((AC & pre & post & E & _) & _). split; [exact AC|].
      assert (X : In (Some (a, port)) (peers_message infos)) by (rewrite E; apply in_or_app; right; now left). rewrite PM in X. apply in_map_iff in X as (p & X & I).
      injection X as X _. eauto.
    + left. exists q. now rewrite <- (SAME _ I4 NJ).
Qed.
Print Assumptions C102_exchange.

(** * Dialling *)
(** The version that is offered and the failure that is recorded concern the address of the record. *)
Theorem C102_dial : forall a n, ip4 a -> n < 65536 -> dial_key (a, n) = Some a.
Proof.
  intros a n (b & -> & L) P. unfold dial_key. cbn [fst snd]. unfold parse_ip. rewrite parse_print by (split; [exact L|discriminate]).
  assert (M := @socket_mapped (repeat x00 10 ++ [xff; xff] ++ b) n). rewrite M; [reflexivity| |reflexivity|exact P]. rewrite !app_length, L. reflexivity.
Qed.
Print Assumptions C102_dial.

(** Sixteen bytes as IPv4, an IPv6 entry is left out; one detector tells another of a peer; the key of a dialled address. *)
Example C102_entries_example :
  peers_message [(map byte_of [10; 0; 0; 7], 6863); (repeat x00 10 ++ [xff; xff] ++ map byte_of [10; 0; 0; 8], 6863); (map byte_of [32; 1; 13; 184; 0; 0; 0; 0; 0; 0; 0; 0; 0; 0; 0; 1], 6863)] =
  [Some (A4 (map byte_of [10; 0; 0; 7]), 6863); Some (A4 (map byte_of [10; 0; 0; 8]), 6863); None].
Proof. vm_compute. reflexivity. Qed.
Example C102_exchange_example : exists d' c infos, handle_get_peers same xd (on pa c) = (d', [SPeers c infos], Ok None) /\ infos <> [] /\
  Forall (fun i => length (fst i) = 4%nat /\ snd i < 65536) infos /\
  exists e', handle_peers xcfg fine {| d_lk := d_lk xd; d_reg := new_registry [] |} (peers_message infos) = (e', [], Ok None) /\ known (d_reg e') pa.
Proof.
  eexists. exists {| co_id := 7; co_hs := hgood |}. eexists. split; [vm_compute; reflexivity|]. split; [discriminate|]. split; [repeat constructor|].
  eexists. split; [vm_compute; reflexivity|]. eexists. vm_compute. reflexivity.
Qed.
Example C102_dial_example : dial_key (pa, 6863) = Some pa /\ dial_key (A6 (map byte_of [32; 1; 13; 184; 0; 0; 0; 0; 0; 0; 0; 0; 0; 0; 0; 1]) (text "eth0"), 6863) = None.
Proof. split; vm_compute; reflexivity. Qed.
