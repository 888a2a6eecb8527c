(** The properties C14-C22 and C25 of /verif/properties.jsonl. [ord] is any iteration order of a Go map, [srt] any result
    sort.Sort may give. *)
From Verif Require Import Base Kv ChainModel ChainSpec ChainProofs ChainLca ChainExample ForkProofs.
Set Implicit Arguments.
Unset Strict Implicit.

Definition as_is {A} (m : list A) : list A := m.
Definition xforks (l : linkage) (peers : list addr) : list Fork :=
  match forks as_is (isort fork_less) l peers with Ok fs => fs | _ => [] end.

(** * C14 *)
Theorem C14_forks_partition_peers : forall g ops l, reachable g ops l -> forall ord srt peers fs,
  map_order ord -> sorts fork_less srt -> forks ord srt l peers = Ok fs ->
  NoDup (map f_head fs) /\ (forall i, In i (map f_head fs) <-> exists a, standing l peers a i) /\
  (forall f, In f fs -> NoDup (f_peers f) /\ (forall a, In a (f_peers f) <-> standing l peers a (f_head f)) /\
     f_peers_count f = length (f_peers f) /\ describes l f).
Proof. exact p_forks_partition. Qed.
Print Assumptions C14_forks_partition_peers.
Example C14_example : reachable xg xops xl /\ map_order (@as_is group) /\ sorts fork_less (isort fork_less) /\
  forks as_is (isort fork_less) xl [xpeer 1; xpeer 3] = Ok (xforks xl [xpeer 1; xpeer 3]) /\
  map f_head (xforks xl [xpeer 1; xpeer 3]) = [xid 3; xid 4] /\ map f_head (xforks xl []) = [xid 3; xid 5; xid 4].
Proof.
  split; [apply xl_reachable|]. split; [apply same_order|]. split; [apply isort_forks|].
  split; [vm_compute; reflexivity|]. split; vm_compute; reflexivity.
Qed.

(** * C15 *)
Theorem C15_one_longest_fork : forall g ops l, reachable g ops l -> forall ord srt peers fs,
  map_order ord -> sorts fork_less srt -> forks ord srt l peers = Ok fs ->
  StronglySorted fork_ge fs /\
  exists f0 rest, fs = f0 :: rest /\ f_longest f0 = true /\ (forall f, In f rest -> f_longest f = false) /\
    (forall f, In f fs -> fork_ge f0 f) /\ best_block (hist g ops) l peers (f_head f0).
Proof. exact p_forks_longest. Qed.
Print Assumptions C15_one_longest_fork.
Example C15_example : forks as_is (isort fork_less) xl [] = Ok (xforks xl []) /\
  map f_longest (xforks xl []) = [true; false; false].
Proof. split; vm_compute; reflexivity. Qed.

(** * C16 *)
Theorem C16_fork_length : forall g ops l, reachable g ops l -> forall ord srt peers fs,
  map_order ord -> sorts fork_less srt -> forks ord srt l peers = Ok fs ->
  exists lg, In lg fs /\ f_longest lg = true /\ f_length lg = 0%Z /\
    forall f, In f fs -> is_lca (hist g ops) (f_head lg) (f_head f) (f_lcb f) /\
      f_length f = (Z.of_N (f_height f) - Z.of_nat (height (hist g ops) (f_lcb f)))%Z /\ (0 <= f_length f)%Z /\
      forall b, block l (f_lcb f) = Ok b -> b_height b = N.of_nat (height (hist g ops) (f_lcb f)).
Proof. exact p_forks_length. Qed.
Print Assumptions C16_fork_length.
Theorem C16_fork_length_of_peer : forall g ops l, reachable g ops l -> forall ord a i f, map_order ord -> leashed l a i ->
  fork_of ord l a = Ok f ->
  exists lg, best_block (hist g ops) l [] lg /\ is_lca (hist g ops) lg (f_head f) (f_lcb f) /\
    f_length f = (Z.of_N (f_height f) - Z.of_nat (height (hist g ops) (f_lcb f)))%Z /\ (0 <= f_length f)%Z /\
    (f_longest f = true -> f_length f = 0%Z).
Proof.
  intros g ops l H ord a i f OM L F. destruct (p_fork H OM L F) as (lg & B & -> & _ & _ & _ & _ & _ & A1 & A2 & A3 & A4).
  exists lg. auto.
Qed.
Print Assumptions C16_fork_length_of_peer.
(** The chains 1-2-3 and 1-4 (and the sibling 5 of 4): last common block 1, lengths 0, 1 and 1. *)
Example C16_example : map f_length (xforks xl []) = [0; 1; 1]%Z /\ map f_lcb (xforks xl []) = [xid 3; xid 1; xid 1] /\
  option_map f_length (match fork_of as_is xl (xpeer 3) with Ok f => Some f | _ => None end) = Some 1%Z.
Proof. repeat split; vm_compute; reflexivity. Qed.

(** * C17 *)
(** The result of Stats is (Short, Long). *)
Theorem C17_stats : forall l ord srt,
  (forall r, stats ord srt l = Ok r -> exists fs, forks ord srt l [] = Ok fs /\
     snd r = length (filter (fun f => (5 <? f_length f)%Z) fs) /\ fst r + snd r = length fs) /\
  (forall fs, forks ord srt l [] = Ok fs -> exists r, stats ord srt l = Ok r).
Proof. exact p_stats. Qed.
Print Assumptions C17_stats.
(** Two chains of height 9 that part at block 2: one short fork (the longest itself) and one long fork. *)
Definition long_fork : list (op * option nat) :=
  map (fun n => (Put (xblk n (if (n =? 11)%N then 2 else n - 1)) (xpeer (if (n <? 10)%N then 1 else 2)), None))
      [1; 2; 3; 4; 5; 6; 7; 8; 11; 12; 13; 14; 15; 16]%N.
Example C17_example : reachable xg long_fork (at_end long_fork) /\
  stats as_is (isort fork_less) xl = Ok (3, 0) /\ stats as_is (isort fork_less) (at_end long_fork) = Ok (1, 1) /\
  map f_length (xforks (at_end long_fork) []) = [0; 6]%Z.
Proof. split; [apply at_end_reachable; vm_compute; reflexivity|]. repeat split; vm_compute; reflexivity. Qed.

(** * C18 *)
(** When Forks returns. Missing for C18: it crashes when no selected peer is leashed (next theorems), and when the last common
    block of two forks cannot be computed (C09). *)
Theorem C18_forks_return_partial : forall g ops l, reachable g ops l -> forall ord srt peers,
  map_order ord -> sorts fork_less srt ->
  (exists a i, standing l peers a i) ->
  (forall a i, standing l peers a i -> exists b, block l i = Ok b) ->
  (forall a i b j k, standing l peers a i -> standing l peers b j -> is_lca (hist g ops) i j k ->
     safe (Nat.min (height (hist g ops) i) (height (hist g ops) j) - height (hist g ops) k) (height (hist g ops) k)) ->
  exists fs, forks ord srt l peers = Ok fs.
Proof. exact p_forks_total. Qed.
Print Assumptions C18_forks_return_partial.
(** The same from conditions on the history only. *)
Theorem C18_forks_return_history_partial : forall g l0 ops ord srt peers, wf_pblock g -> start g = Ok l0 -> wf_hist ops ->
  good_moves g l0 ops -> times_ok g ops -> map_order ord -> sorts fork_less srt ->
  let l := run g l0 ops in
  (exists a i, standing l peers a i) ->
  (forall a i b j k, standing l peers a i -> standing l peers b j -> is_lca (hist g ops) i j k ->
     Nat.min (height (hist g ops) i) (height (hist g ops) j) <= 3 * height (hist g ops) k + 1) ->
  exists fs, forks ord srt l peers = Ok fs.
Proof. exact p_forks_total_hist. Qed.
Print Assumptions C18_forks_return_history_partial.
(** Whenever no selected peer stands anywhere, Forks crashes. *)
Theorem C18_forks_return_none_refuted : forall g ops l, reachable g ops l -> forall ord srt peers,
  map_order ord -> sorts fork_less srt -> (forall a i, ~ standing l peers a i) -> forks ord srt l peers = Panic.
Proof. exact p_forks_empty. Qed.
Print Assumptions C18_forks_return_none_refuted.
(** A fresh store: Forks and Stats crash. A store with leashes: Forks crashes for a selection of unknown peers. *)
Theorem C18_forks_return_refuted :
  reachable xg [] xl0 /\ forks as_is (isort fork_less) xl0 [] = Panic /\ stats as_is (isort fork_less) xl0 = Panic /\
  reachable xg xops xl /\ forks as_is (isort fork_less) xl [xpeer 77] = Panic /\
  reachable xg two_chains xl2 /\ forks as_is (isort fork_less) xl2 [] = Panic.
Proof.
  split. { change xl0 with (at_end []). apply at_end_reachable. reflexivity. }
  split; [vm_compute; reflexivity|]. split; [vm_compute; reflexivity|]. split; [apply xl_reachable|].
  split; [vm_compute; reflexivity|]. split; [apply xl2_reachable|]. vm_compute. reflexivity.
Qed.
Print Assumptions C18_forks_return_refuted.
(** [xl] meets the premises of the first theorem: peers stand on 3, 4 and 5, whose heights are 4, 3 and 3. *)
Lemma xl_standing : forall a i, standing xl [] a i -> In i [xid 3; xid 4; xid 5].
Proof.
  intros a i [L _]. destruct (ls_view xl_reachable) as (ls & LS & _ & EQ & _). apply EQ in L.
  vm_compute in LS. injection LS as <-. repeat (destruct L as [L|L]; [injection L as _ <-; vm_compute; auto|]). destruct L.
Qed.
Example C18_example : (exists a i, standing xl [] a i) /\
  (forall a i, standing xl [] a i -> exists b, block xl i = Ok b) /\
  (forall a i b j k, standing xl [] a i -> standing xl [] b j -> is_lca (hist xg xops) i j k ->
     safe (Nat.min (height (hist xg xops) i) (height (hist xg xops) j) - height (hist xg xops) k) (height (hist xg xops) k)).
Proof.
  split; [|split].
  - exists (xpeer 1), (xid 3). split; [|auto]. split; [reflexivity|]. split; [discriminate|]. vm_compute. auto.
  - intros a i S. apply xl_standing in S. repeat (destruct S as [<-|S]; [eexists; vm_compute; reflexivity|]). destruct S.
  - intros a i b j k A B L. apply xl_standing in A. apply xl_standing in B. apply safe_short.
    assert (K : 1 <= height (hist xg xops) k).
    { destruct L as (L & _). destruct (one_view xl_reachable) as (s & HE & _). rewrite HE in *.
      apply ChainForks.height_pos. now apply ChainTree.anc_stored in L. }
    cut (height (hist xg xops) i <= 4).
    { intros. apply (Nat.le_trans _ (height (hist xg xops) i - height (hist xg xops) k)); lia. }
    clear - A. repeat (destruct A as [<-|A]; [vm_compute; lia|]). destruct A.
Qed.

(** * C19 *)
Theorem C19_fork_of_peer : forall g ops l, reachable g ops l -> forall ord a i f, map_order ord -> leashed l a i ->
  fork_of ord l a = Ok f ->
  exists lg, best_block (hist g ops) l [] lg /\ f_head f = i /\ NoDup (f_peers f) /\
    (forall p, In p (f_peers f) <-> leashed l p i) /\ f_peers_count f = length (f_peers f) /\
    describes l f /\ (f_longest f = true <-> i = lg) /\ is_lca (hist g ops) lg i (f_lcb f) /\
    f_length f = (Z.of_N (f_height f) - Z.of_nat (height (hist g ops) (f_lcb f)))%Z /\ (0 <= f_length f)%Z /\
    (f_longest f = true -> f_length f = 0%Z).
Proof. exact p_fork. Qed.
Print Assumptions C19_fork_of_peer.
Theorem C19_fork_agrees_with_forks : forall g ops l, reachable g ops l -> forall ord ord' srt a i f fs,
  map_order ord -> map_order ord' -> sorts fork_less srt -> leashed l a i ->
  (forall x y, best_block (hist g ops) l [] x -> best_block (hist g ops) l [] y -> x = y) ->
  fork_of ord l a = Ok f -> forks ord' srt l [] = Ok fs -> In f fs.
Proof. exact p_fork_agrees. Qed.
Print Assumptions C19_fork_agrees_with_forks.
Example C19_example : reachable xg xops xl /\ leashed xl (xpeer 3) (xid 4) /\
  (exists f, fork_of as_is xl (xpeer 3) = Ok f /\ f_longest f = false /\ In f (xforks xl [])) /\
  (exists f, fork_of as_is xl (xpeer 1) = Ok f /\ f_longest f = true /\ In f (xforks xl [])) /\
  (forall x y, best_block (hist xg xops) xl [] x -> best_block (hist xg xops) xl [] y -> x = y).
Proof.
  split; [apply xl_reachable|]. split. { split; [reflexivity|]. split; [discriminate|]. vm_compute. auto. }
  split. { eexists. split; [vm_compute; reflexivity|]. vm_compute. auto. }
  split. { eexists. split; [vm_compute; reflexivity|]. vm_compute. auto. }
  assert (Q : forall x, best_block (hist xg xops) xl [] x -> x = xid 3).
  { intros x [[a A] B]. apply xl_standing in A.
    assert (S3 : exists a, standing xl [] a (xid 3)).
    { exists (xpeer 1). split; [|auto]. split; [reflexivity|]. split; [discriminate|]. vm_compute. auto. }
    destruct (B _ S3) as [C|[C _]]; [exfalso|]; revert C; repeat (destruct A as [<-|A]; [vm_compute; try discriminate; auto|]);
      destruct A. }
  intros x y X Y. rewrite (Q x X), (Q y Y). reflexivity.
Qed.

(** * C20 *)
Theorem C20_last_common_block : forall g ops l, reachable g ops l -> forall ord a i k, map_order ord -> leashed l a i ->
  lcb ord l a = Ok k -> exists lg, best_block (hist g ops) l [] lg /\ is_lca (hist g ops) lg i k.
Proof. exact p_lcb. Qed.
Print Assumptions C20_last_common_block.
Theorem C20_last_common_block_unleashed : forall g ops l, reachable g ops l -> forall ord a, wf_addr a ->
  has_leash l a = Ok false -> lcb ord l a = Ok (pb_id g).
Proof. exact p_lcb_none. Qed.
Print Assumptions C20_last_common_block_unleashed.
Example C20_example : reachable xg xops xl /\ leashed xl (xpeer 3) (xid 4) /\ lcb as_is xl (xpeer 3) = Ok (xid 1) /\
  lcb as_is xl (xpeer 1) = Ok (xid 3) /\ has_leash xl (xpeer 9) = Ok false /\ lcb as_is xl (xpeer 9) = Ok (xid 0).
Proof.
  split; [apply xl_reachable|]. split. { split; [reflexivity|]. split; [discriminate|]. vm_compute. auto. }
  vm_compute. auto.
Qed.

(** * C21 *)
(** [e_gen] is the generator of an accepted block; [chain (hist g ops) i] the blocks from [i] down to genesis. *)
Theorem C21_generators_counted : forall g ops l, reachable g ops l -> forall ord srt i n st,
  map_order ord -> sorts gen_less srt -> wf_id i -> (0 <= n)%Z -> fork_generators ord srt l i n = Ok st ->
  let gs := map e_gen (firstn (Z.to_nat n) (chain (hist g ops) i)) in
  lk_has_block l i = Ok true /\ NoDup (map fst st) /\ (forall x, In x (map fst st) <-> In x gs) /\
  (forall x k, In (x, k) st -> k = occurrences x gs) /\ StronglySorted (fun x y => snd y <= snd x) st.
Proof. exact p_generators. Qed.
Print Assumptions C21_generators_counted.
Example C21_example : reachable xg xops xl /\ sorts gen_less (isort gen_less) /\
  fork_generators as_is (isort gen_less) xl (xid 3) 10 = Ok [(xgen 0, 2); (xgen 2, 1); (xgen 1, 1)] /\
  fork_generators as_is (isort gen_less) xl (xid 3) 2 = Ok [(xgen 0, 1); (xgen 2, 1)].
Proof. split; [apply xl_reachable|]. split; [apply isort_gens|]. vm_compute. auto. Qed.

(** * C22 *)
Theorem C22_active_heads : forall g ops l, reachable g ops l ->
  exists hs p, lk_heads l = Ok hs /\ active_heads l = Ok (filter p hs) /\
    forall n i, p (n, i) = true <-> exists a, leashed l a i.
Proof. exact p_active_heads. Qed.
Print Assumptions C22_active_heads.
Example C22_example : reachable xg xops xl /\ lk_heads xl = Ok [(1%N, xid 3); (2%N, xid 6)] /\
  active_heads xl = Ok [(1%N, xid 3)].
Proof. split; [apply xl_reachable|]. vm_compute. auto. Qed.

(** * C25 *)
(** Missing for C25: base targets above 2^63-1 and timestamps from 2^63-1 on crash (last theorem); Forks, Fork and LCB
    can crash for other reasons (C09, C18). The premises of C25_fork_and_lcb_return_partial hold in [xl] (C18_example). *)
Theorem C25_put_block_returns_partial : forall g ops l b a f, reachable g ops l -> wf_pblock b -> wf_addr a ->
  (pb_bt b <= max_int64)%N -> returned (snd (exec g l (Put b a) f)).
Proof. exact p_put_returns. Qed.
Print Assumptions C25_put_block_returns_partial.
Theorem C25_other_calls_return : forall g ops l o f, reachable g ops l -> wf_op o ->
  match o with Put _ _ => False | _ => True end -> returned (snd (exec g l o f)).
Proof. exact p_micro_move_return. Qed.
Print Assumptions C25_other_calls_return.
Theorem C25_queries_return_partial : forall g ops l, reachable g ops l -> times_ok g ops ->
  (forall i, wf_id i -> returned (lk_has_block l i) /\ returned (block l i)) /\
  returned (lk_heads l) /\ returned (active_heads l) /\ returned (leashes (lk_db l)) /\
  (forall a, wf_addr a -> returned (has_leash l a) /\ returned (leash l a) /\ returned (leash_score l a)) /\
  (forall i n, wf_id i -> (0 <= n)%Z -> returned (last_ids l i n)) /\
  (forall ord srt i n, wf_id i -> (0 <= n)%Z -> returned (fork_generators ord srt l i n)).
Proof. exact t_queries. Qed.
Print Assumptions C25_queries_return_partial.
(** Fork and LCB return when all leashed blocks are readable and the last common block of the peer's block and the longest
    fork can be computed (C09). *)
Theorem C25_fork_and_lcb_return_partial : forall g ops l, reachable g ops l -> forall ord a i, map_order ord -> leashed l a i ->
  (forall b j, leashed l b j -> exists x, block l j = Ok x) ->
  (forall j k, best_block (hist g ops) l [] j -> is_lca (hist g ops) j i k ->
     safe (Nat.min (height (hist g ops) j) (height (hist g ops) i) - height (hist g ops) k) (height (hist g ops) k)) ->
  (exists f, fork_of ord l a = Ok f) /\ exists k, lcb ord l a = Ok k.
Proof. exact p_fork_total. Qed.
Print Assumptions C25_fork_and_lcb_return_partial.
(** One block with base target 2^63 crashes PutBlock; one with timestamp 2^63-1 is stored and crashes Block, Forks and Stats. *)
Definition bad_ts : pblock :=
  {| pb_id := xid 7; pb_parent := xid 0; pb_ts := 2 ^ 63 - 1; pb_bt := 100; pb_gen := Some (xgen 1) |}.
Definition bad_base : pblock :=
  {| pb_id := xid 7; pb_parent := xid 0; pb_ts := 1000; pb_bt := 2 ^ 63; pb_gen := Some (xgen 1) |}.
Theorem C25_peers_cannot_crash_refuted : 
  (exists g ops l b a, reachable g ops l /\ wf_pblock b /\ wf_addr a /\ snd (exec g l (Put b a) None) = Panic) /\
  (exists g ops l b a, reachable g ops l /\ wf_pblock b /\ wf_addr a /\
     let '(l', r) := exec g l (Put b a) None in r = Ok tt /\ lk_has_block l' (pb_id b) = Ok true /\
       block l' (pb_id b) = Panic /\ forks as_is (isort fork_less) l' [] = Panic /\ stats as_is (isort fork_less) l' = Panic /\
       forks as_is (isort fork_less) l [] <> Panic).
Proof.
  split.
  - exists xg, xops, xl, bad_base, (xpeer 1). split; [apply xl_reachable|]. split; [apply wf_pblockb_ok; reflexivity|].
    split; [reflexivity|]. vm_compute. reflexivity.
  - exists xg, xops, xl, bad_ts, (xpeer 1). split; [apply xl_reachable|]. split; [apply wf_pblockb_ok; reflexivity|].
    split; [reflexivity|]. vm_compute. repeat split. discriminate.
Qed.
Print Assumptions C25_peers_cannot_crash_refuted.
Example C25_example : reachable xg xops xl /\ times_ok xg xops /\ wf_pblock (xblk 8 3) /\ (pb_bt (xblk 8 3) <= max_int64)%N.
Proof.
  split; [apply xl_reachable|]. split. { split; [reflexivity|]. repeat constructor. }
  split; [apply wf_pblockb_ok; reflexivity|]. vm_compute. discriminate.
Qed.
