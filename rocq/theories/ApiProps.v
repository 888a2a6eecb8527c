(** Properties of the HTTP handlers and of the parameters (C55-C63). *)
From Coq Require Import Strings.Byte.
From Verif Require Import Base Kv ChainModel ChainSpec ChainProofs ForkProofs ChainExample ForkProps PeersModel PeersSpec PeersProps
  ApiModel ApiSpec ApiProofs.
Set Implicit Arguments.
Unset Strict Implicit.

(** * An environment for the examples *)
(** Cleaning a path of two bytes drops a slash at the end. A one-byte string [n] is the address 10.0.0.n (255 is refused) and the number n - 10; a 16-byte string is an IPv6 address. *)
Definition xev : env :=
  {| ev_addr := fun s => match s with [x] => if N.eqb (Byte.to_N x) 255 then None else Some (xpeer (Byte.to_N x)) | _ => None end;
     ev_addrport := fun s => match s with
       | [x] => if N.eqb (Byte.to_N x) 255 then None else Some (xpeer (Byte.to_N x), 6868%N)
       | _ => if Nat.eqb (length s) 16 then Some (A6 s [], 6868%N) else None end;
     ev_render := fun ap => match fst ap with A4 [_; _; _; x] => [x] | A6 s _ => s | _ => [] end;
     ev_trim := fun s => s;
     ev_atoi := fun s => match s with [x] => Some (Z.of_N (Byte.to_N x) - 10)%Z | _ => None end;
     ev_version := fun s => match s with [x] => Some (ver 1 (Byte.to_N x) 0) | _ => None end;
     ev_date := fun t => (t <? 253402300800000)%Z; ev_dir := fun s => true; ev_clean := fun s => match s with [x; x2f] => [x] | _ => s end |}.
Definition xord : orders :=
  {| or_groups := fun m => m; or_forks := isort fork_less; or_gens := fun m => m; or_gensort := isort gen_less;
     or_conns := fun m => m; or_peers := fun m => m |}.
Lemma xord_fair : fair xord.
Proof.
  split; [apply same_order|]. split; [apply isort_forks|]. split; [apply same_order|]. split; [apply isort_gens|].
  split; intros m; apply Permutation_refl.
Qed.
Lemma isort_leashes : sorts leash_less (isort leash_less).
Proof.
  apply isort_sorts; unfold leash_less; intros a b; [|intros c]; repeat match goal with |- context [Z.compare ?x ?y] => destruct (Z.compare_spec x y) end;
    intros; try discriminate; try reflexivity; try lia;
    repeat match goal with H : Nat.ltb _ _ = _ |- _ => first [apply Nat.ltb_lt in H | apply Nat.ltb_ge in H] end;
    try (apply Nat.ltb_lt; lia); try (apply Nat.ltb_ge; lia); try lia.
Qed.
(** Peer 3 is connected; peers 1, 2 and 3 are leashed in [xl]. *)
Definition hplain : handshake := greet (ver 1 5 0) DeclEmpty x57 [x6e].
Definition xrops : list rop := [RSuggest (xpeer 3) 0%Z true; RRegister (xpeer 3) (line hplain) hplain 0%Z true].
Definition xr : registry := rrun xcfg xrops.

(** * C55 *)
(** Missing: when no peer is both connected and requested, the forks of all peers are answered (next theorem). *)
Theorem C55_active_forks_partial : forall g ops l ev o r q fs, reachable g ops l -> fair o ->
  api_active_forks ev o l r q = Reply fs -> (exists a, connected r a /\ (asks_all ev q \/ asks ev q a)) ->
  well_formed ev q /\ forks_of l (fun a => connected r a /\ (asks_all ev q \/ asks ev q a)) fs.
Proof. intros g ops l ev o r q fs H O R E. destruct (a_active H O R) as (W & A & _). split; auto. Qed.
Print Assumptions C55_active_forks_partial.
Theorem C55_active_forks_everyone_refuted : forall g ops l ev o r q fs, reachable g ops l -> fair o ->
  api_active_forks ev o l r q = Reply fs -> (forall a, ~ (connected r a /\ (asks_all ev q \/ asks ev q a))) ->
  forks_of l (fun _ => True) fs.
Proof. intros g ops l ev o r q fs H O R E. destruct (a_active H O R) as (W & _ & A). auto. Qed.
Print Assumptions C55_active_forks_everyone_refuted.
(** No peer is connected, or only peer 3 and peer 9 is asked for: peer 1 is reported. *)
Theorem C55_active_forks_refuted :
  (exists fs f, api_active_forks xev xord xl (new_registry []) [] = Reply fs /\ In f fs /\ In (xpeer 1) (f_peers f)) /\
  (exists fs f, api_active_forks xev xord xl xr [x09] = Reply fs /\ In f fs /\ In (xpeer 1) (f_peers f) /\ connected xr (xpeer 3)).
Proof.
  split.
  - eexists _, _. split; [vm_compute; reflexivity|]. split; [left; reflexivity|]. vm_compute. auto.
  - eexists _, _. split; [vm_compute; reflexivity|]. split; [left; reflexivity|]. vm_compute. auto.
Qed.
Print Assumptions C55_active_forks_refuted.
Example C55_example : reachable xg xops xl /\ fair xord /\ rreach xcfg xrops xr /\ connected xr (xpeer 3) /\
  match api_active_forks xev xord xl xr [] with Reply fs => map f_peers fs | _ => [] end = [[xpeer 3]] /\
  match api_active_forks xev xord xl xr [x01; x2c; x03] with Reply fs => map f_peers fs | _ => [] end = [[xpeer 3]].
Proof.
  split; [apply xl_reachable|]. split; [apply xord_fair|]. split; [split; [wf_ops|reflexivity]|].
  split; [vm_compute; auto|]. split; vm_compute; reflexivity.
Qed.

(** * C56 *)
Theorem C56_fork_codes : forall g ops l ev o s, reachable g ops l ->
  (api_fork ev o l s = Code 400 <-> ev_addr ev s = None) /\
  (forall a, ev_addr ev s = Some a -> wf_addr a -> (api_fork ev o l s = Code 404 <-> has_leash l a = Ok false)).
Proof. exact a_fork_codes. Qed.
Print Assumptions C56_fork_codes.
Theorem C56_fork_of_peer : forall g ops l ev o s a f, reachable g ops l -> fair o -> ev_addr ev s = Some a -> wf_addr a -> a <> all_ones ->
  api_fork ev o l s = Reply f -> exists i lg, leashed l a i /\ best_block (hist g ops) l [] lg /\ f_head f = i /\
    NoDup (f_peers f) /\ (forall p, In p (f_peers f) <-> leashed l p i) /\ describes l f /\ (f_longest f = true <-> i = lg) /\
    is_lca (hist g ops) lg i (f_lcb f) /\
    f_length f = (Z.of_N (f_height f) - Z.of_nat (height (hist g ops) (f_lcb f)))%Z.
Proof. exact a_fork. Qed.
Print Assumptions C56_fork_of_peer.
(** Missing: the answer is 500 when a leashed block cannot be read or dated, or the last common block is not computable (C09). *)
Theorem C56_fork_answers_partial : forall g ops l ev o s a i, reachable g ops l -> fair o -> ev_addr ev s = Some a -> leashed l a i ->
  (forall b j, leashed l b j -> exists x, block l j = Ok x /\ ev_date ev (b_ts x) = true) ->
  (forall j k, best_block (hist g ops) l [] j -> is_lca (hist g ops) j i k ->
     safe (Nat.min (height (hist g ops) j) (height (hist g ops) i) - height (hist g ops) k) (height (hist g ops) k)) ->
  exists f, api_fork ev o l s = Reply f.
Proof. exact a_fork_total. Qed.
Print Assumptions C56_fork_answers_partial.
Theorem C56_fork_answers_refuted : exists g ops l ev o s a i, reachable g ops l /\ fair o /\ ev_addr ev s = Some a /\ leashed l a i /\
  api_fork ev o l s = Code 500.
Proof.
  exists xg, two_chains, xl2, xev, xord, [x02], (xpeer 2), (xid 19). split; [apply xl2_reachable|]. split; [apply xord_fair|].
  split; [reflexivity|]. split; [split; [reflexivity|split; [discriminate|]]; vm_compute; auto|]. vm_compute. reflexivity.
Qed.
Print Assumptions C56_fork_answers_refuted.
Theorem C56_generators_codes : forall l ev o s n,
  (api_generators ev o l s n = Code 400 <-> ev_addr ev s = None \/ ev_atoi ev n = None) /\
  (forall a c, ev_addr ev s = Some a -> ev_atoi ev n = Some c -> (api_generators ev o l s n = Code 404 <-> has_leash l a = Ok false)).
Proof. exact a_generators_codes. Qed.
Print Assumptions C56_generators_codes.
(** The counted blocks are the first [m] of the chain of the peer's block. *)
Theorem C56_generators_counted : forall g ops l ev o s n a c st, reachable g ops l -> fair o -> ev_addr ev s = Some a -> wf_addr a ->
  a <> all_ones -> ev_atoi ev n = Some c -> api_generators ev o l s n = Reply st ->
  exists i lg k, leashed l a i /\ best_block (hist g ops) l [] lg /\ is_lca (hist g ops) lg i k /\
    let m := if Z.eqb c 0 then (if id_eqb i lg then 1000 else height (hist g ops) i - height (hist g ops) k) else Z.to_nat c in
    let gs := map e_gen (firstn m (chain (hist g ops) i)) in
    (0 <= c)%Z /\ NoDup (map fst st) /\ (forall x, In x (map fst st) <-> In x gs) /\
    (forall x k, In (x, k) st -> k = occurrences x gs) /\ StronglySorted (fun x y => snd y <= snd x) st.
Proof. exact a_generators. Qed.
Print Assumptions C56_generators_counted.
(** The refusal is a recovered panic (500). *)
Theorem C56_generators_negative : forall g ops l ev o s n a c, reachable g ops l -> fair o -> ev_addr ev s = Some a -> wf_addr a ->
  a <> all_ones -> ev_atoi ev n = Some c -> (c < 0)%Z -> has_leash l a = Ok true ->
  forall st, api_generators ev o l s n <> Reply st.
Proof. exact a_generators_negative. Qed.
Print Assumptions C56_generators_negative.
Example C56_example : reachable xg xops xl /\ api_fork xev xord xl [xff] = Code 400 /\ api_fork xev xord xl [x09] = Code 404 /\
  match api_fork xev xord xl [x03] with Reply f => f_head f | _ => [] end = xid 4 /\
  api_generators xev xord xl [x03] [] = Code 400 /\ api_generators xev xord xl [x09] [x0a] = Code 404 /\
  api_generators xev xord xl [x03] [x0a] = Reply [(xgen 1, 1)] /\
  api_generators xev xord xl [x01] [x0a] = Reply [(xgen 0, 2); (xgen 2, 1); (xgen 1, 1)] /\
  api_generators xev xord xl [x01] [x0c] = Reply [(xgen 0, 1); (xgen 2, 1)] /\
  api_generators xev xord xl [x01] [x09] = Code 500.
Proof. split; [apply xl_reachable|]. repeat split; vm_compute; reflexivity. Qed.

(** * C57 *)
(** Missing: IPv6 addresses crash the start-up, and an unparsable declared address is dropped silently (next theorem). *)
Theorem C57_start_up_returns_partial : forall ev o, renders ev -> only_v4 ev (op_net o) -> only_v4 ev (op_declared o) ->
  returned (new_parameters ev o).
Proof. exact p_start_up. Qed.
Print Assumptions C57_start_up_returns_partial.
Lemma xev_renders : renders xev.
Proof.
  intros s ap E. cbn [xev ev_addrport ev_render] in *. destruct s as [|x [|y s]].
  - discriminate.
  - destruct (N.eqb (Byte.to_N x) 255) eqn:X; [discriminate|]. injection E as <-. destruct x; try discriminate X; reflexivity.
  - destruct (Nat.eqb (length (x :: y :: s)) 16) eqn:L; [|discriminate]. injection E as <-. cbn [fst]. now rewrite L.
Qed.
Definition xopts (net declared : bytes) : options :=
  {| op_db := [x61; x2f]; op_network := Some MainNet; op_peers := [x07]; op_api := [x01]; op_net := net; op_declared := declared;
     op_name := [x6e]; op_versions := [x05; x2c; x04] |}.
(** -net=[::1]:6868 and -declared-address=[::1]:6868 crash; -declared-address=(anything unparsable) is accepted as no address. *)
Definition ip6_one : bytes := repeat x00 15 ++ [x01].
Theorem C57_start_up_refuted : renders xev /\
  new_parameters xev (xopts ip6_one [x02]) = Panic /\ new_parameters xev (xopts [x02] ip6_one) = Panic /\
  (exists p, ev_addrport xev [xff] = None /\ new_parameters xev (xopts [x02] [xff]) = Ok p /\ pr_declared p = None).
Proof.
  split; [apply xev_renders|]. split; [vm_compute; reflexivity|]. split; [vm_compute; reflexivity|].
  eexists. split; [reflexivity|]. split; vm_compute; reflexivity.
Qed.
Print Assumptions C57_start_up_refuted.
Example C57_example : renders xev /\ only_v4 xev [x02] /\ exists p, new_parameters xev (xopts [x02] [x02]) = Ok p /\
  pr_net p = Some ([x0a; x00; x00; x02], 6868%N) /\ length (pr_seeds p) = 6.
Proof.
  split; [apply xev_renders|]. split. { intros a port E. injection E as <- <-. exact Logic.I. }
  eexists. split; [vm_compute; reflexivity|]. split; reflexivity.
Qed.

(** * C58 *)
Theorem C58_selection : forall g ops l ev o q fs, reachable g ops l -> fair o -> api_forks ev o l q = Reply fs ->
  well_formed ev q /\ forks_of l (fun a => asks_all ev q \/ asks ev q a) fs.
Proof. exact a_forks. Qed.
Print Assumptions C58_selection.
Theorem C58_bad_selection : forall l ev o q, api_forks ev o l q = Code 400 <-> ~ well_formed ev q.
Proof. exact a_forks_400. Qed.
Print Assumptions C58_bad_selection.
Theorem C58_items : forall q, items_of q (split_comma q) /\ (forall ws, items_of q ws -> ws = split_comma q) /\
  forall w, In w (split_comma q) <-> item q w.
Proof. intros q. split; [apply split_items|]. split; [apply items_unique|apply split_item]. Qed.
Print Assumptions C58_items.
Example C58_example :
  match api_forks xev xord xl [x01; x2c; x2c; x03] with Reply fs => map f_peers fs | _ => [] end = [[xpeer 1]; [xpeer 3]] /\
  match api_forks xev xord xl [x2c] with Reply fs => length fs | _ => 0 end = 3 /\
  api_forks xev xord xl [x01; x2c; xff] = Code 400.
Proof. repeat split; vm_compute; reflexivity. Qed.

(** * C59 *)
Theorem C59_leashes : forall g ops l ev o srt r, reachable g ops l -> fair o -> sorts leash_less srt ->
  api_leashes ev o srt l = Reply r ->
  NoDup (map li_id r) /\ (forall i, In i (map li_id r) <-> exists a, leashed l a i) /\ StronglySorted leash_ge r /\
  forall e, In e r -> NoDup (li_peers e) /\ (forall a, In a (li_peers e) <-> leashed l a (li_id e)) /\
    li_count e = length (li_peers e) /\
    exists b, block l (li_id e) = Ok b /\ li_height e = b_height b /\ li_score e = b_score b /\ li_ts e = b_ts b /\ li_gen e = b_gen b.
Proof. exact a_leashes. Qed.
Print Assumptions C59_leashes.
Example C59_example : reachable xg xops xl /\ sorts leash_less (isort leash_less) /\
  match api_leashes xev xord (isort leash_less) xl with Reply r => map (fun e => (li_id e, li_peers e)) r | _ => [] end =
    [(xid 3, [xpeer 1]); (xid 5, [xpeer 2]); (xid 4, [xpeer 3])].
Proof. split; [apply xl_reachable|]. split; [apply isort_leashes|]. vm_compute. reflexivity. Qed.

(** * C60 *)
Theorem C60_heads : forall g ops l ev r, reachable g ops l -> api_heads ev l = Reply r ->
  exists hs p, lk_heads l = Ok hs /\ (forall n i, p (n, i) = true <-> exists a, leashed l a i) /\
    Forall2 (head_of l) (filter p hs) r.
Proof. exact a_heads. Qed.
Print Assumptions C60_heads.
Theorem C60_heads_answer : forall g ops l ev, reachable g ops l ->
  (forall a i, leashed l a i -> exists b, block l i = Ok b /\ ev_date ev (b_ts b) = true) ->
  exists r, api_heads ev l = Reply r.
Proof. exact a_heads_total. Qed.
Print Assumptions C60_heads_answer.
Example C60_example : reachable xg xops xl /\
  match api_heads xev xl with Reply r => map (fun e => (hi_number e, hi_id e, hi_height e)) r | _ => [] end = [(1%N, xid 3, 4%N)].
Proof. split; [apply xl_reachable|]. vm_compute. reflexivity. Qed.

(** * C61 *)
Theorem C61_status : forall cfg rops r l o st, rreach cfg rops r -> fair o -> api_status o l r = Reply st ->
  (exists fs, forks (or_groups o) (or_forks o) l [] = Ok fs /\
     s_long st = length (filter (fun f => (5 <? f_length f)%Z) fs) /\ s_short st + s_long st = length fs) /\
  counts (fun a => ip4 a /\ known r a) (s_all st) /\
  counts (fun a => ip4 a /\ exists p, reg_peer r a = Ok p /\ p_state p = PeerConnected) (s_friendly st) /\
  counts (connected r) (s_connected st) /\ s_friendly st <= s_all st /\ s_connected st <= s_all st.
Proof. exact a_status. Qed.
Print Assumptions C61_status.
Example C61_example : rreach xcfg xrops xr /\ fair xord /\
  api_status xord xl xr = Reply {| s_short := 3; s_long := 0; s_all := 1; s_friendly := 1; s_connected := 1 |}.
Proof. split; [split; [wf_ops|reflexivity]|]. split; [apply xord_fair|]. vm_compute. reflexivity. Qed.

(** * C62 *)
Theorem C62_accepted : forall ev o p, renders ev -> trims ev -> new_parameters ev o = Ok p ->
  ev_dir ev (op_db o) = true /\ op_db o <> [] /\ (exists n b, op_network o = Some n /\ supported n /\ builtin n = Ok b /\
    forall ws, items_of (op_peers o) ws -> exists listed, pr_seeds p = b ++ listed /\
      Forall2 (fun w ap => ev_addrport ev (ev_trim ev w) = Some ap) (filter (fun w => negb (blank ev w)) ws) listed) /\
  (forall ws, items_of (op_versions o) ws -> Forall2 (fun w v => ev_version ev w = Some v) ws (pr_versions p)) /\
  bindable ev (op_api o) /\ bindable ev (op_net o) /\ 1 <= length (op_name o) <= 255 /\ pr_name p = op_name o /\
  (forall b port, ev_addrport ev (op_net o) = Some (A4 b, port) -> pr_net p = Some (b, port)) /\
  (forall b port, ev_addrport ev (op_declared o) = Some (A4 b, port) -> pr_declared p = Some (b, port)) /\
  (ev_addrport ev (op_declared o) = None -> pr_declared p = None) /\
  pr_db p = ev_clean ev (op_db o) /\ exists ap, ev_addrport ev (op_api o) = Some ap /\ pr_api p = ev_render ev ap.
Proof. exact p_accepted. Qed.
Print Assumptions C62_accepted.
(** The built-in seeds: five different IPv4 addresses for every network, at the port 6868; no network has a seed of another one. *)
Theorem C62_builtin : (forall n b, builtin n = Ok b -> length b = 5 /\ NoDup (map fst b) /\ Forall (fun ap => ip4 (fst ap) /\ snd ap = 6868%N) b) /\
  (forall n n' b b' a, builtin n = Ok b -> builtin n' = Ok b' -> In a (map fst b) -> In a (map fst b') -> n = n').
Proof.
  split.
  - intros n b H. destruct n; try discriminate H; injection H as <-; vm_compute; (split; [reflexivity|]); (split; [|repeat constructor; eexists; split; reflexivity]);
    repeat constructor; cbn [In]; intros Q; repeat (destruct Q as [Q|Q]; [discriminate Q|]); exact Q.
  - intros n n' b b' a H H' I I'. destruct n; try discriminate H; injection H as <-; destruct n'; try discriminate H'; injection H' as <-; try reflexivity; exfalso;
    vm_compute in I, I'; repeat (destruct I as [<-|I]; [repeat (destruct I' as [I'|I']; [discriminate I'|]); exact I'|]); exact I.
Qed.
Print Assumptions C62_builtin.
Theorem C62_valid_accepted : forall ev o n aps vs ws vws, renders ev -> trims ev ->
  op_db o <> [] -> ev_dir ev (op_db o) = true -> op_network o = Some n -> supported n ->
  items_of (op_peers o) ws -> Forall2 (fun w ap => ev_addrport ev (ev_trim ev w) = Some ap) (filter (fun w => negb (blank ev w)) ws) aps ->
  items_of (op_versions o) vws -> Forall2 (fun w v => ev_version ev w = Some v) vws vs ->
  bindable ev (op_api o) -> bindable ev (op_net o) -> 1 <= length (op_name o) <= 255 ->
  only_v4 ev (op_net o) -> only_v4 ev (op_declared o) ->
  exists p, new_parameters ev o = Ok p.
Proof. exact p_complete. Qed.
Print Assumptions C62_valid_accepted.
Example C62_example : trims xev /\ exists p, new_parameters xev (xopts [x02] [x02]) = Ok p /\
  pr_seeds p = [(ipv4 34 253 153 4, 6868%N); (ipv4 168 119 116 189, 6868%N); (ipv4 135 181 87 72, 6868%N); (ipv4 162 55 39 115, 6868%N);
                (ipv4 168 119 155 201, 6868%N); (xpeer 7, 6868%N)] /\ pr_versions p = [ver 1 5 0; ver 1 4 0] /\ pr_db p = [x61].
Proof. split; [intros w; reflexivity|]. eexists. split; [vm_compute; reflexivity|]. repeat split; vm_compute; reflexivity. Qed.

(** * C63 *)
(** Missing: stores with a leashed block whose timestamp cannot be encoded (next theorem). *)
Theorem C63_leashes_answer_partial : forall g ops l ev o srt, reachable g ops l -> fair o -> sorts leash_less srt ->
  (forall a i, leashed l a i -> exists b, block l i = Ok b /\ ev_date ev (b_ts b) = true) ->
  exists r, api_leashes ev o srt l = Reply r.
Proof. exact a_leashes_total. Qed.
Print Assumptions C63_leashes_answer_partial.
Theorem C63_forks_answer_partial : forall g ops l ev o q, reachable g ops l -> fair o -> well_formed ev q ->
  (exists a i, leashed l a i /\ (asks_all ev q \/ asks ev q a)) ->
  (forall a i, leashed l a i -> exists b, block l i = Ok b /\ ev_date ev (b_ts b) = true) ->
  (forall a i b j k, leashed l a i -> leashed l b j -> is_lca (hist g ops) i j k ->
     safe (Nat.min (height (hist g ops) i) (height (hist g ops) j) - height (hist g ops) k) (height (hist g ops) k)) ->
  exists fs, api_forks ev o l q = Reply fs.
Proof. exact a_forks_total. Qed.
Print Assumptions C63_forks_answer_partial.
(** One peer sends a block dated in the year 10000: the leashes and forks endpoints answer 500 from then on, for every peer
    selection that includes it. *)
Definition far_block : pblock :=
  {| pb_id := xid 7; pb_parent := xid 0; pb_ts := 253402300800000; pb_bt := 100; pb_gen := Some (xgen 1) |}.
Theorem C63_api_disabled_refuted : dates xev /\ exists g ops l b a l', reachable g ops l /\ wf_pblock b /\ wf_addr a /\
  exec g l (Put b a) None = (l', Ok tt) /\
  (exists r, api_leashes xev xord (isort leash_less) l = Reply r) /\ (exists fs, api_forks xev xord l [] = Reply fs) /\
  api_leashes xev xord (isort leash_less) l' = Code 500 /\ api_forks xev xord l' [] = Code 500 /\
  (exists x, block l' (pb_id b) = Ok x).
Proof.
  split; [intros t; reflexivity|]. exists xg, xops, xl, far_block, (xpeer 9), (fst (exec xg xl (Put far_block (xpeer 9)) None)).
  split; [apply xl_reachable|]. split; [apply wf_pblockb_ok; reflexivity|]. split; [reflexivity|].
  split; [vm_compute; reflexivity|]. split; [eexists; vm_compute; reflexivity|]. split; [eexists; vm_compute; reflexivity|].
  split; [vm_compute; reflexivity|]. split; [vm_compute; reflexivity|]. eexists. vm_compute. reflexivity.
Qed.
Print Assumptions C63_api_disabled_refuted.
Example C63_example : (forall a i, leashed xl a i -> exists b, block xl i = Ok b /\ ev_date xev (b_ts b) = true) /\
  exists a i, leashed xl a i.
Proof.
  split.
  - intros a i L. assert (I : In i [xid 3; xid 4; xid 5]) by (apply (@xl_standing a); split; auto).
    repeat (destruct I as [<-|I]; [eexists; split; [vm_compute; reflexivity|vm_compute; reflexivity]|]). destruct I.
  - exists (xpeer 1), (xid 3). split; [reflexivity|]. split; [discriminate|]. vm_compute. auto.
Qed.
