(** The properties C01-C13, C23, C24 and C26 of /verif/properties.jsonl. Every theorem is about every linkage reached by
    any history of calls, crashes, write failures and reopenings ([reachable], ChainSpec.v), unless it says otherwise. *)
From Verif Require Import Base Kv ChainModel ChainSpec ChainProofs ChainLca ChainExample.
Set Implicit Arguments.
Unset Strict Implicit.

(** * C01 *)
(** What PutBlock does with a new block whose parent is stored. Missing for C01: base targets above 2^63-1 and timestamps
    from 2^63-1 on, where the claim is false (next theorem), and generators without address, which are refused. *)
Theorem C01_put_block_new_partial : forall g ops l b a ga, reachable g ops l -> wf_pblock b -> wf_addr a ->
  lk_has_block l (pb_id b) = Ok false -> lk_has_block l (pb_parent b) = Ok true ->
  pb_gen b = Some ga -> (pb_bt b <= max_int64)%N -> (pb_ts b < max_int64)%N ->
  exists l', exec g l (Put b a) None = (l', Ok tt) /\
    block l' (pb_id b) =
      Ok {| b_id := pb_id b; b_parent := pb_parent b; b_height := N.of_nat (height (hist g ops) (pb_parent b)) + 1;
            b_gen := ga; b_score := score (hist g ops) (pb_parent b) + block_score (pb_bt b); b_ts := Z.of_N (pb_ts b) |} /\
    (forall pb, block l (pb_parent b) = Ok pb ->
       b_height pb = N.of_nat (height (hist g ops) (pb_parent b)) /\ b_score pb = score (hist g ops) (pb_parent b)) /\
    (forall i, wf_id i -> i <> pb_id b -> block l' i = block l i) /\
    leash l' a = Ok (pb_id b) /\
    (forall a', wf_addr a' -> a' <> a -> leash l' a' = leash l a').
Proof. exact put_new. Qed.
Print Assumptions C01_put_block_new_partial.
(** The remaining cases: no generator address, base target too large, timestamp too large. *)
Theorem C01_put_block_other_cases : forall g ops l b a, reachable g ops l -> wf_pblock b -> wf_addr a ->
  lk_has_block l (pb_id b) = Ok false -> lk_has_block l (pb_parent b) = Ok true ->
  (pb_gen b = None -> forall f, exec g l (Put b a) f = (l, Err EOther)) /\
  (pb_gen b <> None -> (max_int64 < pb_bt b)%N -> forall f, exec g l (Put b a) f = (l, Panic)) /\
  (pb_gen b <> None -> (pb_bt b <= max_int64)%N -> (max_int64 <= pb_ts b)%N ->
     exists l', exec g l (Put b a) None = (l', Ok tt) /\ lk_has_block l' (pb_id b) = Ok true /\
       leash l' a = Ok (pb_id b) /\ block l' (pb_id b) = Panic).
Proof. exact put_other_cases. Qed.
Print Assumptions C01_put_block_other_cases.
(** A block with base target 2^63 panics instead of being stored. *)
Definition bad_bt : pblock :=
  {| pb_id := xid 7; pb_parent := xid 0; pb_ts := 1; pb_bt := 2 ^ 63; pb_gen := Some (xgen 1) |}.
Theorem C01_put_block_new_refuted : exists g ops l b a, reachable g ops l /\ wf_pblock b /\ wf_addr a /\
  lk_has_block l (pb_id b) = Ok false /\ lk_has_block l (pb_parent b) = Ok true /\ pb_gen b <> None /\
  snd (exec g l (Put b a) None) = Panic.
Proof.
  exists xg, xops, xl, bad_bt, (xpeer 1). split; [apply xl_reachable|]. split; [apply wf_pblockb_ok; reflexivity|].
  split; [reflexivity|]. repeat split; try (vm_compute; reflexivity). discriminate.
Qed.
Print Assumptions C01_put_block_new_refuted.
Example C01_example : reachable xg xops xl /\ wf_pblock (xblk 8 3) /\ wf_addr (xpeer 1) /\
  lk_has_block xl (xid 8) = Ok false /\ lk_has_block xl (xid 3) = Ok true /\
  option_map b_height (match block (fst (exec xg xl (Put (xblk 8 3) (xpeer 1)) None)) (xid 8) with Ok b => Some b | _ => None end)
  = Some 5%N.
Proof. split; [apply xl_reachable|]. split; [apply wf_pblockb_ok; reflexivity|]. vm_compute. auto. Qed.

(** * C02 *)
Theorem C02_unknown_parent_rejected : forall g ops l b a fault, reachable g ops l -> wf_pblock b ->
  lk_has_block l (pb_id b) = Ok false -> lk_has_block l (pb_parent b) = Ok false ->
  exec g l (Put b a) fault = (l, Err EParentNotFound).
Proof. exact put_no_parent. Qed.
Print Assumptions C02_unknown_parent_rejected.
Example C02_example : reachable xg xops xl /\ wf_pblock (xblk 9 8) /\
  lk_has_block xl (xid 9) = Ok false /\ lk_has_block xl (xid 8) = Ok false.
Proof. split; [apply xl_reachable|]. split; [apply wf_pblockb_ok; reflexivity|]. vm_compute. auto. Qed.

(** * C03 *)
Theorem C03_blocks_immutable : forall g ops more l l' i, reachable g ops l -> reachable g (ops ++ more) l' -> wf_id i ->
  lk_has_block l i = Ok true -> lk_has_block l' i = Ok true /\ block l' i = block l i.
Proof. exact hist_immutable. Qed.
Print Assumptions C03_blocks_immutable.
Example C03_example : let more := [(Put (xblk 8 3) (xpeer 1), None); (Put (xblk 9 8) (xpeer 2), Some 0)] in
  reachable xg xops xl /\ reachable xg (xops ++ more) (at_end (xops ++ more)) /\ lk_has_block xl (xid 5) = Ok true /\
  is_ok (block xl (xid 5)) = true.
Proof. split; [apply xl_reachable|]. split; [apply at_end_reachable; vm_compute; reflexivity|]. vm_compute. auto. Qed.

(** * C04 *)
(** Any call for a stored ID, whatever the rest of the message; [kv_get] of every other record is unchanged. *)
Theorem C04_known_block_moves_leash : forall g ops l o a i, reachable g ops l -> wf_op o -> target o = Some (a, i) ->
  lk_has_block l i = Ok true ->
  exists l', exec g l o None = (l', Ok tt) /\
    leash l' a = Ok i /\ (forall a', wf_addr a' -> a' <> a -> leash l' a' = leash l a') /\
    (forall j, wf_id j -> block l' j = block l j) /\ lk_heads l' = lk_heads l /\
    (forall k, k <> addr_key a -> kv_get k (lk_db l') = kv_get k (lk_db l)).
Proof. exact known_block. Qed.
Print Assumptions C04_known_block_moves_leash.
Example C04_example : reachable xg xops xl /\ wf_op (Put (xblk 2 9) (xpeer 2)) /\
  target (Put (xblk 2 9) (xpeer 2)) = Some (xpeer 2, xid 2) /\ lk_has_block xl (xid 2) = Ok true /\
  leash xl (xpeer 2) = Ok (xid 5).
Proof. split; [apply xl_reachable|]. split; [apply wf_opb_ok; reflexivity|]. vm_compute. auto. Qed.

(** * C05 *)
Theorem C05_micro_block_sibling : forall g ops l m a, reachable g ops l -> wf_id (mi_total m) -> wf_id (mi_ref m) -> wf_addr a ->
  lk_has_block l (mi_total m) = Ok false -> lk_has_block l (mi_ref m) = Ok true -> mi_ref m <> pb_id g ->
  exists l', exec g l (Micro m a) None = (l', Ok tt) /\
    lk_has_block l' (mi_total m) = Ok true /\
    (forall rb, block l (mi_ref m) = Ok rb ->
       block l' (mi_total m) =
         Ok {| b_id := mi_total m; b_parent := b_parent rb; b_height := b_height rb; b_gen := b_gen rb;
               b_score := b_score rb; b_ts := b_ts rb |}) /\
    height (hist g (ops ++ [(Micro m a, None)])) (mi_total m) = height (hist g ops) (mi_ref m) /\
    score (hist g (ops ++ [(Micro m a, None)])) (mi_total m) = score (hist g ops) (mi_ref m) /\
    (forall i, wf_id i -> i <> mi_total m -> block l' i = block l i) /\
    leash l' a = Ok (mi_total m) /\
    (forall a', wf_addr a' -> a' <> a -> leash l' a' = leash l a').
Proof. exact micro_new. Qed.
Print Assumptions C05_micro_block_sibling.
Theorem C05_micro_block_refused : forall g ops l m a fault, reachable g ops l -> wf_op (Micro m a) ->
  lk_has_block l (mi_total m) = Ok false ->
  (lk_has_block l (mi_ref m) = Ok false -> exec g l (Micro m a) fault = (l, Err ERefNotFound)) /\
  (mi_ref m = pb_id g -> exec g l (Micro m a) fault = (l, Err EOther)).
Proof. exact micro_refused. Qed.
Print Assumptions C05_micro_block_refused.
Example C05_example : let m := {| mi_total := xid 8; mi_ref := xid 5 |} in
  reachable xg xops xl /\ wf_op (Micro m (xpeer 1)) /\ lk_has_block xl (xid 8) = Ok false /\
  lk_has_block xl (xid 5) = Ok true /\ xid 5 <> pb_id xg /\ is_ok (block xl (xid 5)) = true /\
  (lk_has_block xl (xid 9) = Ok false).
Proof.
  split; [apply xl_reachable|]. split; [apply wf_opb_ok; reflexivity|]. split; [reflexivity|]. split; [reflexivity|].
  split; [discriminate|]. vm_compute. auto.
Qed.

(** * C06 *)
Theorem C06_heads_exact : forall g ops l, reachable g ops l -> exists hs, lk_heads l = Ok hs /\
  map fst hs = map N.of_nat (seq 1 (length hs)) /\ NoDup (map snd hs) /\
  (forall i, In i (map snd hs) <-> stored (hist g ops) i /\ ~ extended (hist g ops) i).
Proof. exact heads_spec. Qed.
Print Assumptions C06_heads_exact.
(** A call changes the heads only if it stores a new block [y] on top of [x]: the head [x] keeps its number, or [y] gets
    the next number. *)
Theorem C06_head_number_kept : forall g ops l o fault hs, reachable g ops l -> wf_op o -> lk_heads l = Ok hs ->
  let l' := fst (exec g l o fault) in
  lk_heads l' = Ok hs \/
  exists a x y, target o = Some (a, y) /\ lk_has_block l y = Ok false /\ lk_has_block l' y = Ok true /\
    match o with Put b _ => x = pb_parent b | Micro m _ => x = mi_ref m | _ => False end /\
    lk_heads l' = Ok (upd_heads x y hs).
Proof. exact heads_step. Qed.
Print Assumptions C06_head_number_kept.
Example C06_example : reachable xg xops xl /\ lk_heads xl = Ok [(1, xid 3); (2, xid 6)]%N /\ wf_op (Put (xblk 8 3) (xpeer 1)) /\
  lk_heads (fst (exec xg xl (Put (xblk 8 3) (xpeer 1)) None)) = Ok [(1, xid 8); (2, xid 6)]%N /\
  lk_heads (fst (exec xg xl (Put (xblk 8 2) (xpeer 1)) None)) = Ok [(1, xid 3); (2, xid 6); (3, xid 8)]%N.
Proof. split; [apply xl_reachable|]. split; [reflexivity|]. split; [apply wf_opb_ok; reflexivity|]. vm_compute. auto. Qed.

(** * C07 *)
Theorem C07_last_ids : forall g ops l i n, reachable g ops l -> wf_id i -> (0 <= n)%Z ->
  (lk_has_block l i = Ok true -> last_ids l i n = Ok (firstn (Z.to_nat n) (chain_ids (hist g ops) i))) /\
  (lk_has_block l i = Ok false -> last_ids l i n = Err ENotFound).
Proof. exact last_ids_spec. Qed.
Print Assumptions C07_last_ids.
(** [chain_ids] is what one gets by following Block(.).Parent down to genesis; its length is the height. *)
Theorem C07_chain_is_parent_walk : forall g ops l i, reachable g ops l -> wf_id i -> lk_has_block l i = Ok true ->
  exists c, chain_ids (hist g ops) i = i :: c /\ last (i :: c) zero_id = pb_id g /\
    NoDup (i :: c) /\
    (forall k x y, nth_error (i :: c) k = Some x -> nth_error (i :: c) (S k) = Some y ->
       forall b, block l x = Ok b -> b_parent b = y) /\
    (forall k x, nth_error (i :: c) k = Some x -> lk_has_block l x = Ok true /\
       forall b, block l x = Ok b -> b_height b = N.of_nat (length (i :: c) - k)).
Proof. exact chain_shape. Qed.
Print Assumptions C07_chain_is_parent_walk.
Example C07_example : reachable xg xops xl /\ lk_has_block xl (xid 6) = Ok true /\
  last_ids xl (xid 6) 3 = Ok [xid 6; xid 5; xid 1] /\ last_ids xl (xid 6) 100 = Ok [xid 6; xid 5; xid 1; xid 0] /\
  last_ids xl (xid 9) 3 = Err ENotFound.
Proof. split; [apply xl_reachable|]. vm_compute. auto. Qed.

(** * C08 *)
Theorem C08_lca_deepest_common_ancestor : forall g ops l i j k, reachable g ops l -> wf_id i -> wf_id j ->
  lca (lk_db l) i j = Ok k -> is_lca (hist g ops) i j k.
Proof. exact lca_sound. Qed.
Print Assumptions C08_lca_deepest_common_ancestor.
Example C08_example : reachable xg xops xl /\ lca (lk_db xl) (xid 3) (xid 6) = Ok (xid 1) /\
  lca (lk_db xl) (xid 2) (xid 3) = Ok (xid 2) /\ lca (lk_db xl) (xid 5) (xid 4) = Ok (xid 1).
Proof. split; [apply xl_reachable|]. vm_compute. auto. Qed.

(** * C09 *)
(** Exactly when the computation returns. Missing for C09: the other case does happen (next theorem). *)
Theorem C09_lca_returns_partial : forall g ops l i j, reachable g ops l ->
  wf_id i -> wf_id j -> lk_has_block l i = Ok true -> lk_has_block l j = Ok true ->
  exists k, is_lca (hist g ops) i j k /\
    let a := height (hist g ops) k in
    let D := Nat.min (height (hist g ops) i) (height (hist g ops) j) - a in
    (safe D a -> lca (lk_db l) i j = Ok k) /\ (~ safe D a -> lca (lk_db l) i j = Panic).
Proof. exact lca_exact. Qed.
Print Assumptions C09_lca_returns_partial.
(** In particular it returns whenever the fork is not longer than twice the height of the last common block plus one. *)
Theorem C09_lca_returns_short_partial : forall g ops l i j k, reachable g ops l ->
  wf_id i -> wf_id j -> lk_has_block l i = Ok true -> lk_has_block l j = Ok true -> is_lca (hist g ops) i j k ->
  Nat.min (height (hist g ops) i) (height (hist g ops) j) <= 3 * height (hist g ops) k + 1 -> lca (lk_db l) i j = Ok k.
Proof. exact lca_short. Qed.
Print Assumptions C09_lca_returns_short_partial.
(** The last common block of the tips of two chains that fork at genesis and have height 10: index out of range. *)
Theorem C09_lca_returns_refuted : exists g ops l i j, reachable g ops l /\
  lk_has_block l i = Ok true /\ lk_has_block l j = Ok true /\ lca (lk_db l) i j = Panic.
Proof.
  exists xg, two_chains, xl2, (xid 9), (xid 19). split; [apply xl2_reachable|]. vm_compute. auto.
Qed.
Print Assumptions C09_lca_returns_refuted.
Example C09_example : reachable xg xops xl /\ lk_has_block xl (xid 3) = Ok true /\ lk_has_block xl (xid 6) = Ok true /\
  safe 2 2 /\ ~ safe 9 1.
Proof.
  split; [apply xl_reachable|]. split; [reflexivity|]. split; [reflexivity|]. split; [apply safe_short; lia|].
  intros H. specialize (H 2). cbn in H. lia.
Qed.

(** * C10 *)
Theorem C10_score_is_chain_sum : forall g ops l i b, reachable g ops l -> wf_id i -> block l i = Ok b ->
  b_score b = score (hist g ops) i /\ b_height b = N.of_nat (height (hist g ops) i) /\
  (0 <= b_score b)%Z /\
  (i <> pb_id g -> exists bt, (bt <= max_int64)%N /\
     forall pb, block l (b_parent b) = Ok pb -> (b_score b = b_score pb + block_score bt)%Z /\ b_height b = (b_height pb + 1)%N).
Proof. exact score_spec. Qed.
Print Assumptions C10_score_is_chain_sum.
(** [e_own] of the stored block is [block_score] of its base target (ChainSpec.effects); micro-blocks inherit it. *)
Theorem C10_score_grows : forall g ops l i e b pb, reachable g ops l -> In e (hist g ops) -> e_id e = i ->
  block l i = Ok b -> block l (b_parent b) = Ok pb -> i <> pb_id g ->
  (b_score b = b_score pb + e_own e)%Z /\ (b_score pb <= b_score b)%Z /\
  (forall bt, (1 <= bt <= max_int64)%N -> e_own e = block_score bt -> (b_score pb < b_score b)%Z).
Proof. exact score_strict. Qed.
Print Assumptions C10_score_grows.
Example C10_example : reachable xg xops xl /\
  match block xl (xid 6), block xl (xid 5), block xl (xid 4) with
  | Ok b6, Ok b5, Ok b4 => b_parent b6 = b_id b5 /\ b_score b5 = b_score b4 /\
      b_score b6 = (120000000219 + 3 * 184467440737095516)%Z
  | _, _, _ => False
  end /\ exists e, In e (hist xg xops) /\ e_id e = xid 6 /\ e_own e = block_score 100.
Proof.
  split; [apply xl_reachable|]. split; [vm_compute; auto|].
  exists {| e_id := xid 6; e_parent := Some (xid 5); e_ext := Some (xid 5); e_own := block_score 100; e_ts := 1006;
            e_gen := xgen 0 |}. vm_compute. auto 10.

Qed.

(** * C11 *)
Theorem C11_leash_is_last_success : forall g l0 ops a, wf_pblock g -> start g = Ok l0 -> wf_hist ops -> wf_addr a ->
  leash (run g l0 ops) a =
  Ok (match last_success a (trace g l0 ops) None with Some i => i | None => pb_id g end) /\
  has_leash (run g l0 ops) a =
  Ok (match last_success a (trace g l0 ops) None with Some _ => true | None => false end).
Proof. exact leash_last. Qed.
Print Assumptions C11_leash_is_last_success.
Example C11_example : wf_pblock xg /\ start xg = Ok xl0 /\ wf_hist xops /\
  last_success (xpeer 2) (trace xg xl0 xops) None = Some (xid 5) /\ last_success (xpeer 4) (trace xg xl0 xops) None = None.
Proof. split; [apply xg_wf|]. split; [apply xg_start|]. split; [apply wf_histb|]; vm_compute; auto. Qed.

(** * C12 *)
(** Missing for C12: the IPv6 address ff..ff, whose leash is not listed (next theorem). *)
Theorem C12_leashes_partial : forall g ops l, reachable g ops l -> exists ls, lk_leashes l = Ok ls /\ NoDup (map fst ls) /\
  (forall a i, In (a, i) ls -> wf_addr a /\ leash l a = Ok i /\ has_leash l a = Ok true) /\
  forall a, wf_addr a -> a <> all_ones ->
    forall i, In (a, i) ls <-> has_leash l a = Ok true /\ leash l a = Ok i.
Proof. exact leashes_full. Qed.
Print Assumptions C12_leashes_partial.
Definition ones_ops : list (op * option nat) := [(Put (xblk 1 0) all_ones, None)].
Theorem C12_leashes_refuted : exists g ops l a, reachable g ops l /\ wf_addr a /\ has_leash l a = Ok true /\ lk_leashes l = Ok [].
Proof.
  exists xg, ones_ops, (at_end ones_ops), all_ones. split; [apply at_end_reachable; vm_compute; reflexivity|].
  split; [apply wf_addrb_ok; reflexivity|]. vm_compute. auto.
Qed.
Print Assumptions C12_leashes_refuted.
Example C12_example : reachable xg xops xl /\
  lk_leashes xl = Ok [(xpeer 1, xid 3); (xpeer 2, xid 5); (xpeer 3, xid 4)].
Proof. split; [apply xl_reachable|]. vm_compute. auto. Qed.

(** * C13 *)
Theorem C13_leash_points_at_stored : forall g l0 ops a, wf_pblock g -> start g = Ok l0 -> wf_hist ops -> good_moves g l0 ops ->
  wf_addr a ->
  exists i, leash (run g l0 ops) a = Ok i /\ lk_has_block (run g l0 ops) i = Ok true /\
    leash_score (run g l0 ops) a = Ok (score (hist g ops) i).
Proof. exact leash_points. Qed.
Print Assumptions C13_leash_points_at_stored.
Example C13_example : let ops := xops ++ [(Move (xid 1) (xpeer 3), None)] in
  wf_pblock xg /\ start xg = Ok xl0 /\ wf_hist ops /\ good_moves xg xl0 ops /\
  leash (run xg xl0 ops) (xpeer 3) = Ok (xid 1) /\ leash_score (run xg xl0 ops) (xpeer 9) = Ok 120000000219%Z.
Proof. split; [apply xg_wf|]. split; [apply xg_start|]. split; [apply wf_histb|]; vm_compute; auto 20. Qed.

(** * C23 *)
(** [l1]: the store after a crash (or failed write) at any point of the call; [l3]: after the uninterrupted call. *)
Theorem C23_crash_then_retry : forall g ops l o l3 k l1 r1, reachable g ops l -> wf_op o ->
  exec g l o None = (l3, Ok tt) -> exec g l o (Some k) = (l1, r1) ->
  exec g l1 Reopen None = (l1, Ok tt) /\ exec g l1 o None = (l3, Ok tt) /\
  (l1 = l \/ l1 = l3 \/
   exists a i, target o = Some (a, i) /\ r1 = Err EOther /\ lk_has_block l1 i = Ok true /\
     (forall key, key <> addr_key a -> kv_get key (lk_db l1) = kv_get key (lk_db l3)) /\
     kv_get (addr_key a) (lk_db l1) = kv_get (addr_key a) (lk_db l)).
Proof. exact crash_retry'. Qed.
Print Assumptions C23_crash_then_retry.
Example C23_example : reachable xg xops xl /\ wf_op (Put (xblk 8 3) (xpeer 1)) /\
  snd (exec xg xl (Put (xblk 8 3) (xpeer 1)) None) = Ok tt /\
  map (fun k => snd (exec xg xl (Put (xblk 8 3) (xpeer 1)) (Some k))) [0; 1; 2] = [Err EOther; Err EOther; Ok tt].
Proof. split; [apply xl_reachable|]. split; [apply wf_opb_ok; reflexivity|]. vm_compute. auto. Qed.

(** * C24 *)
(** [new_linkage] returns the writes it makes; there are none, for whatever genesis block is given. *)
Theorem C24_reopen_changes_nothing : forall g ops l g' fault, reachable g ops l ->
  new_linkage (lk_db l) g' = Ok ([], pb_id g') /\ exec g l Reopen fault = (l, Ok tt).
Proof. exact reopen_both. Qed.
Print Assumptions C24_reopen_changes_nothing.
Example C24_example : reachable xg xops xl /\ new_linkage (lk_db xl) (xblk 9 8) = Ok ([], xid 9).
Proof. split; [apply xl_reachable|]. vm_compute. reflexivity. Qed.

(** * C26 *)
Theorem C26_keys_distinct : forall k1 k2, wf_key k1 -> wf_key k2 -> key_of k1 = key_of k2 -> k1 = k2.
Proof. exact key_inj. Qed.
Print Assumptions C26_keys_distinct.
Theorem C26_keys_ordered : forall p n m, (n < 2 ^ 64)%N -> (m < 2 ^ 64)%N ->
  bcmp (num_key p n) (num_key p m) = N.compare n m.
Proof. exact key_order. Qed.
Print Assumptions C26_keys_ordered.
Theorem C26_writes_independent : forall (d : db) k1 k2 v, wf_key k1 -> wf_key k2 -> k1 <> k2 ->
  kv_get (key_of k2) (kv_put (key_of k1) v d) = kv_get (key_of k2) d /\
  kv_get (key_of k2) (kv_del (key_of k1) d) = kv_get (key_of k2) d.
Proof. exact put_other. Qed.
Print Assumptions C26_writes_independent.
(** The scan of Heads sees the head records (number below 2^64-1) and nothing else, the scan of Leashes the leashes
    (except ff..ff) and nothing else. *)
Theorem C26_scan_heads : forall k, wf_key k ->
  (bleb (num_key headToBlockPrefix 0) (key_of k) && bltb (key_of k) (num_key headToBlockPrefix (2 ^ 64 - 1)) = true <->
   exists n, k = KHead n /\ (n < 2 ^ 64 - 1)%N).
Proof. exact scan_heads. Qed.
Print Assumptions C26_scan_heads.
Theorem C26_scan_leashes : forall k, wf_key k ->
  (bleb leashes_start (key_of k) && bltb (key_of k) leashes_limit = true <-> exists a, k = KLeash a /\ a <> all_ones).
Proof. exact scan_leashes. Qed.
Print Assumptions C26_scan_leashes.
Example C26_example : wf_key (KId (xid 1)) /\ wf_key (KBlock 1) /\ wf_key (KLeash (xpeer 1)) /\ wf_key (KHead 300) /\
  key_of (KBlock 1) <> key_of (KHead 1).
Proof. split; [left; reflexivity|]. split; [reflexivity|]. split; [reflexivity|]. split; [reflexivity|]. discriminate. Qed.
