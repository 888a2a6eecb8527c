(** C91: what is read from the databases is what was written, byte for byte. C92: records that were cut. *)
From Coq Require Import Strings.Byte.
From Verif Require Import Base Kv ChainModel PeersModel BytesFacts KvFacts ChainSpec ChainTree ChainRep ChainProofs ChainQueries ChainExample PeersSpec PeersProofs PeersProps.
From Verif Require Import CborModel CborProofs CborStore.
Set Implicit Arguments.
Unset Strict Implicit.
Open Scope N_scope.

(** * C91 *)

(** A record of a block, of a link and of a peer is read back as it was written. *)
Theorem C91_records :
  (forall b, block_fits b -> dec_block (enc_block b) = Some b) /\ (forall l, link_fits l -> dec_link (enc_link l) = Some l) /\
  (forall v, value_fits v -> dec_value (enc_value v) = Some (Some v)).
Proof. split; [exact dec_enc_block|]. split; [exact dec_enc_link|exact dec_enc_value]. Qed.
Print Assumptions C91_records.

Lemma take_length : forall n s x r, take n s = Some (x, r) -> (length s = length x + length r)%nat /\ N.of_nat (length x) = n.
Proof.
  intros n s x r H. unfold take in H. destruct (N.leb_spec n (N.of_nat (length s))); [|discriminate H]. injection H as <- <-.
  rewrite firstn_length, skipn_length. lia.
Qed.
Lemma unbe_below : forall x, unbe x < 256 ^ N.of_nat (length x).
Proof. exact unbe_lt. Qed.
Lemma head_shorter : forall mt mt' m n, m <= n -> (length (head mt m) <= length (head mt' n))%nat.
Proof.
  intros mt mt' m n L. unfold head.
  destruct (N.ltb_spec m 24); [|destruct (N.ltb_spec m (2 ^ 8)); [|destruct (N.ltb_spec m (2 ^ 16)); [|destruct (N.ltb_spec m (2 ^ 32))]]];
  (destruct (N.ltb_spec n 24); [|destruct (N.ltb_spec n (2 ^ 8)); [|destruct (N.ltb_spec n (2 ^ 16)); [|destruct (N.ltb_spec n (2 ^ 32))]]]);
  cbn [length]; rewrite ?be_length; lia.
Qed.
Lemma unhead_shortest : forall s mt n r, unhead s = Some (mt, n, r) -> (forall mt', length (head mt' n) + length r <= length s)%nat.
Proof.
  intros [|b s] mt n r H mt'; [discriminate H|]. cbn [unhead] in H. cbn zeta in H.
  destruct (N.ltb_spec (Byte.to_N b mod 32) 24) as [L|_].
  { injection H as _ <- <-. unfold head. destruct (N.ltb_spec (Byte.to_N b mod 32) 24); [|lia]. reflexivity. }
  assert (W : forall k, (match take (N.of_nat k) s with Some (x, r') => Some (Byte.to_N b / 32, unbe x, r') | None => None end) = Some (mt, n, r) ->
    n < 256 ^ N.of_nat k /\ (length s = k + length r)%nat).
  { intros k Q. destruct (take (N.of_nat k) s) as [[x r']|] eqn:T; [|discriminate Q]. injection Q as _ <- <-. destruct (take_length T) as [T1 T2].
    rewrite <- T2. split; [apply unbe_below|lia]. }
  cbn [length].
  destruct (_ =? 24); [destruct (W 1%nat H) as [B ->]|destruct (_ =? 25); [destruct (W 2%nat H) as [B ->]|destruct (_ =? 26); [destruct (W 4%nat H) as [B ->]|
    destruct (_ =? 27); [destruct (W 8%nat H) as [B ->]|discriminate H]]]]; cbn in B; unfold head;
  (destruct (N.ltb_spec n 24); [|destruct (N.ltb_spec n (2 ^ 8)); [|destruct (N.ltb_spec n (2 ^ 16)); [|destruct (N.ltb_spec n (2 ^ 32))]]]);
  cbn [length]; rewrite ?be_length; lia.
Qed.
Lemma be_min_shortest : forall x, (length (be_min (unbe x)) <= length x)%nat.
Proof.
  intros x. unfold be_min. destruct (N.eqb_spec (unbe x) 0) as [Z|Z]; [cbn; lia|]. rewrite be_length.
  assert (B := unbe_below x). change 256 with (2 ^ 8) in B. rewrite <- N.pow_mul_r in B. apply N.log2_lt_pow2 in B; [|lia].
  assert (N.log2 (unbe x) / 8 < N.of_nat (length x)); [|lia]. apply N.div_lt_upper_bound; lia.
Qed.
Lemma dec_uints_shortest : forall k s l r, dec_uints k s = Some (l, r) -> length l = k /\ (length (flat_map (head 0) l) + length r <= length s)%nat.
Proof.
  induction k as [|k IH]; intros s l r H; cbn [dec_uints] in H; [injection H as <- <-; auto|].
  unfold unuint in H. destruct (unhead s) as [[[[|mt] n] q]|] eqn:U; try discriminate H. destruct (dec_uints k q) as [[l' r']|] eqn:D; [|discriminate H].
  injection H as <- <-. destruct (IH _ _ _ D) as [L1 L2]. pose proof (unhead_shortest U 0). cbn [length flat_map]. rewrite app_length. split; [congruence|lia].
Qed.

(** What is written is the shortest: no bytes that are read as the same item are fewer. The one exception are big integers written for
    numbers that fit 64 bits, which the program never writes. *)
Definition beyond (z : Z) : Prop := (z < - 2 ^ 64 \/ 2 ^ 64 <= z)%Z.
Theorem C91_shortest : forall s i r, dec_item s = Some (i, r) ->
  (forall z b s', i = IInt z -> s = b :: s' -> 192 <= Byte.to_N b -> beyond z) -> (length (enc_item i) + length r <= length s)%nat.
Proof.
  intros [|b s] i r H T; [discriminate H|]. unfold dec_item in H. destruct (_ =? _); [injection H as <- <-; cbn; lia|].
  destruct (unhead (b :: s)) as [[[mt n] q]|] eqn:U; [|discriminate H]. pose proof (unhead_shortest U) as L.
  assert (M : mt = Byte.to_N b / 32).
  { cbn [unhead] in U. cbn zeta in U. destruct (_ <? 24); [congruence|]. repeat (destruct (_ =? _); [destruct (take _ s) as [[? ?]|]; congruence|]). discriminate U. }
  assert (NB : n < 2 ^ 64).
  { clear - U. cbn [unhead] in U. cbn zeta in U. destruct (N.ltb_spec (Byte.to_N b mod 32) 24); [injection U as _ <- _; lia|].
    assert (W : forall k, (k <= 8)%nat -> (match take (N.of_nat k) s with Some (x, r') => Some (Byte.to_N b / 32, unbe x, r') | None => None end) = Some (mt, n, q) -> n < 2 ^ 64).
    { intros k K Q. destruct (take (N.of_nat k) s) as [[x r']|] eqn:T; [|discriminate Q]. injection Q as _ <- _. destruct (take_length T) as [_ E].
      eapply N.lt_le_trans; [apply unbe_below|]. rewrite E. change (2 ^ 64) with (256 ^ 8). apply N.pow_le_mono_r; lia. }
    destruct (_ =? 24); [exact (W 1%nat ltac:(lia) U)|]. destruct (_ =? 25); [exact (W 2%nat ltac:(lia) U)|].
    destruct (_ =? 26); [exact (W 4%nat ltac:(lia) U)|]. destruct (_ =? 27); [exact (W 8%nat ltac:(lia) U)|]. discriminate U. }
  destruct (N.ltb_spec mt 7) as [M7|M7].
  2: { destruct mt as [|[[[|[]|]|[[]|[]|]|]|[[]|[]|]|]]; try discriminate H; lia. }
  assert (C : mt = 0 \/ mt = 1 \/ mt = 2 \/ mt = 3 \/ mt = 4 \/ mt = 5 \/ mt = 6) by lia.
  destruct C as [->|[->|[->|[->|[->|[->| ->]]]]]].
  - injection H as <- <-. cbn [enc_item]. unfold enc_int. destruct (Z.leb_spec 0 (Z.of_N n)); [|lia]. rewrite N2Z.id. destruct (N.ltb_spec n (2 ^ 64)); [apply L|lia].
  - injection H as <- <-. cbn [enc_item]. unfold enc_int. destruct (Z.leb_spec 0 (- Z.of_N n - 1)); [lia|]. cbv zeta.
    replace (Z.to_N (- (- Z.of_N n - 1) - 1)) with n by lia. destruct (N.ltb_spec n (2 ^ 64)); [apply L|lia].
  - destruct (take n q) as [[x q']|] eqn:K; [|discriminate H]. injection H as <- <-. destruct (take_length K) as [K1 K2]. cbn [enc_item]. rewrite app_length, K2. specialize (L 2). lia.
  - destruct (take n q) as [[x q']|] eqn:K; [|discriminate H]. destruct (utf8_valid x); [|discriminate H]. injection H as <- <-. destruct (take_length K) as [K1 K2].
    cbn [enc_item]. rewrite app_length, K2. specialize (L 3). lia.
  - destruct (_ <=? _); [|discriminate H]. destruct (dec_uints (N.to_nat n) q) as [[l q']|] eqn:K; [|discriminate H]. injection H as <- <-.
    destruct (dec_uints_shortest K) as [K1 K2]. cbn [enc_item]. rewrite app_length, K1, N2Nat.id. specialize (L 4). lia.
  - discriminate H.
  - destruct (unhead q) as [[[mt2 n2] q2]|] eqn:U2; [|discriminate H]. pose proof (unhead_shortest U2) as L2.
    assert (B6 : 192 <= Byte.to_N b) by (pose proof (N.div_mod' (Byte.to_N b) 32); lia).
    assert (X : exists x, take n2 q2 = Some (x, r) /\ (i = IInt (Z.of_N (unbe x)) \/ i = IInt (- Z.of_N (unbe x) - 1))).
    { destruct mt2 as [|[|[|[]|]|]]; try discriminate H. destruct (take n2 q2) as [[x q']|]; [|discriminate H].
      destruct (n =? 2); [injection H as <- <-; eauto|]. destruct (n =? 3); [injection H as <- <-; eauto|discriminate H]. }
    destruct X as (x & K & I). destruct (take_length K) as [K1 K2]. pose proof (be_min_shortest x) as BM.
    assert (HS : (length (head 2 (N.of_nat (length (be_min (unbe x))))) <= length (head 2 n2))%nat) by (apply head_shorter; lia).
    specialize (L2 2). pose proof (L 0) as L0. pose proof (head_length 0 n) as L1. cbn [length] in *.
    destruct I as [-> | ->]; specialize (T _ _ _ eq_refl eq_refl B6); unfold beyond in T; cbn [enc_item]; unfold enc_int.
    + destruct (Z.leb_spec 0 (Z.of_N (unbe x))); [|lia]. rewrite N2Z.id. destruct (N.ltb_spec (unbe x) (2 ^ 64)); [lia|]. rewrite !app_length. change (length (head 6 2)) with 1%nat. lia.
    + destruct (Z.leb_spec 0 (- Z.of_N (unbe x) - 1)); [lia|]. cbv zeta. replace (Z.to_N (- (- Z.of_N (unbe x) - 1) - 1)) with (unbe x) by lia.
      destruct (N.ltb_spec (unbe x) (2 ^ 64)); [lia|]. rewrite !app_length. change (length (head 6 3)) with 1%nat. lia.
Qed.
Print Assumptions C91_shortest.
(** 2^64 + 1 with a superfluous zero byte is read, but is one byte longer than what is written; 2^32 is the
    exception: as a big integer it is shorter. *)
Example C91_shortest_example :
  dec_item ([xc2; x4a; x00; x01] ++ repeat x00 7 ++ [x01]) = Some (IInt (2 ^ 64 + 1), []) /\ enc_item (IInt (2 ^ 64 + 1)) = [xc2; x49; x01] ++ repeat x00 7 ++ [x01] /\
  dec_item [xc2; x45; x01; x00; x00; x00; x00] = Some (IInt (2 ^ 32), []) /\ length (enc_item (IInt (2 ^ 32))) = 9%nat.
Proof. vm_compute. repeat split. Qed.

(** Two records with the same bytes are the same record. *)
Theorem C91_injective :
  (forall a b, block_fits a -> block_fits b -> enc_block a = enc_block b -> a = b) /\
  (forall a b, link_fits a -> link_fits b -> enc_link a = enc_link b -> a = b) /\
  (forall a b, value_fits a -> value_fits b -> enc_value a = enc_value b -> a = b).
Proof.
  split; [|split]; intros a b A B E.
  - apply dec_enc_block in A, B. rewrite E in A. congruence.
  - apply dec_enc_link in A, B. rewrite E in A. congruence.
  - apply dec_enc_value in A, B. rewrite E in A. congruence.
Qed.
Print Assumptions C91_injective.

(** After any history of calls, with any write failing and any crash, every read of the chains database through its bytes gives what the
    model of records gives. The timestamps of the blocks are uint64. *)
Theorem C91_chains : forall g ops l, reachable g ops l -> pb_ts g < 2 ^ 64 -> Forall (fun o => op_typed (fst o)) ops ->
  let r := encoded enc_val (lk_db l) in
  (forall c, raw_counter r c = get_counter (lk_db l) c) /\ (forall i, wf_id i -> raw_num r i = get_num_of_block_id (lk_db l) i) /\
  (forall n, raw_block r n = get_block (lk_db l) n) /\ (forall n, raw_link r n = get_link (lk_db l) n) /\
  (forall a, raw_leash r a = get_leash (lk_db l) a) /\ (forall n, raw_head_num r n = get_head_by_block_num (lk_db l) n) /\
  raw_leashes r = leashes (lk_db l) /\ raw_heads r = get_heads (lk_db l).
Proof.
  intros g ops l R TG T. cbv zeta. pose proof (reachable_kinds R TG T) as K.
  split; [apply (read_counter K)|]. split; [apply (read_num K)|]. split; [apply (read_block K)|]. split; [apply (read_link K)|].
  split; [apply (read_leash K)|]. split; [apply (read_head_num K)|]. split; [apply (read_leashes K)|apply (read_heads K)].
Qed.
Print Assumptions C91_chains.

(** The bytes on the disk after a call: those before it with the encoded batches of the call applied. *)
Theorem C91_writes : forall g l o, encoded enc_val (lk_db (fst (exec g l o None))) =
  apply_writes (encoded enc_val (lk_db l)) (map (map enc_bop) (fst (op_writes g l o))).
Proof. intros g l o. unfold exec. destruct (op_writes g l o) as [ws r]. cbn [fst with_db lk_db]. apply writes_encoded. Qed.
Print Assumptions C91_writes.

(** Every block ever put is read back from the bytes: its identifier, timestamp, generator, parent, its height and the sum of the
    scores of its chain. *)
Theorem C91_blocks : forall g ops l, reachable g ops l -> pb_ts g < 2 ^ 64 -> Forall (fun o => op_typed (fst o)) ops ->
  forall i e c, wf_id i -> chain (hist g ops) i = e :: c ->
  exists b, (do n <- raw_num (encoded enc_val (lk_db l)) i; raw_block (encoded enc_val (lk_db l)) n) = Ok b /\
    sb_id b = i /\ sb_height b = N.of_nat (length (e :: c)) /\ sb_score b = sum_own (e :: c) /\ sb_ts b = e_ts e /\ sb_gen b = e_gen e.
Proof.
  intros g ops l R TG T i e c W C. pose proof (reachable_kinds R TG T) as K.
  destruct (reach_view R) as (s & -> & RP & _ & _ & SM). exists (sblock_of e (e :: c)). rewrite (read_num K W).
  pose proof (@rep_block_by_id _ _ RP SM i e c C) as G. unfold get_block_by_id in G. destruct (get_num_of_block_id (lk_db l) i) as [n| | |]; try discriminate. cbn [bind] in *.
  rewrite (read_block K). split; [exact G|]. cbn. split; [|auto]. now apply chain_hd_id in C.
Qed.
Print Assumptions C91_blocks.

(** The same for the database of peers. Ports are uint16, nonces uint64, the numbers of a version uint32, times lie within 2^62 seconds
    of 1970, names are shorter than 2^62 bytes and scores shorter than 2^60 bits. *)
Theorem C91_peers : forall cfg ops r, rreach cfg ops r -> (forall v, In v (g_versions cfg) -> version_fits v) -> Forall rop_typed ops ->
  let d := encoded enc_value (r_db r) in
  (forall a, raw_peer d a = get_peer (r_db r) a) /\ raw_peers d = all_peers (r_db r) /\ (forall a, raw_has_peer d a = has_peer (r_db r) a) /\
  (forall p w, raw_put_peer d p w = do d' <- put_peer (r_db r) p w; Ok (encoded enc_value d')).
Proof.
  intros cfg ops r R GV T. cbv zeta. pose proof (rreach_fits R GV T) as V.
  split; [apply (read_peer V)|]. split; [apply (read_peers V)|]. split; [apply read_has_peer|apply write_peer].
Qed.
Print Assumptions C91_peers.

(** The version of a peer is kept as text. *)
Theorem C91_versions : forall v, version_fits v -> parse_version (version_string v) = Some v /\ utf8_valid (version_string v) = true.
Proof. intros v F. split; [now apply parse_string|apply string_valid]. Qed.
Print Assumptions C91_versions.
(** A text with fewer numbers is read as well: the numbers that are missing are zero; nothing else is read. *)
Theorem C91_short_versions : (forall a, a < 2 ^ 32 -> parse_version (decimal a) = Some {| ve_major := a; ve_minor := 0; ve_patch := 0 |}) /\
  (forall a b, a < 2 ^ 32 -> b < 2 ^ 32 -> parse_version (decimal a ++ [dot] ++ decimal b) = Some {| ve_major := a; ve_minor := b; ve_patch := 0 |}) /\
  parse_version [] = None /\ (forall v s, parse_version (version_string v ++ [dot] ++ s) = None).
Proof.
  assert (D : forall a, Forall (fun b => 48 <= Byte.to_N b <= 57) (decimal a)) by (intros a; apply (decimal_spec a)).
  split; [|split; [|split; [reflexivity|]]].
  - intros a A. unfold parse_version. rewrite split_last by auto. cbn [map]. now rewrite parse_decimal.
  - intros a b A B. unfold parse_version. cbn [app]. rewrite split_digits, split_last by auto. cbn [map]. now rewrite !parse_decimal.
  - intros v s. unfold parse_version, version_string. rewrite <- !app_assoc. cbn [app]. rewrite !split_digits by auto. cbn [map].
    assert (N : split_dot s <> []) by (destruct s as [|c s]; cbn [split_dot]; [discriminate|]; destruct (Byte.to_N c =? 46); [discriminate|]; destruct (split_dot s); discriminate).
    destruct (split_dot s) as [|x t]; [contradiction|]. cbn [map].
    repeat match goal with |- context [parse_uint32 ?z] => destruct (parse_uint32 z) end; destruct t; reflexivity.
Qed.
Print Assumptions C91_short_versions.

Lemma xops_typed : Forall (fun o => op_typed (fst o)) xops.
Proof. repeat constructor. Qed.
(** The history of ChainExample.v: block 3 at height 4 is under number 4, with the bytes of RFC 8949 written out; its link names the
    blocks 3 and 2 (one and two below it). *)
Example C91_example : reachable xg xops xl /\ pb_ts xg < 2 ^ 64 /\ Forall (fun o => op_typed (fst o)) xops /\
  raw_num (encoded enc_val (lk_db xl)) (xid 3) = Ok 4 /\
  kv_get (num_key blockPrefix 4) (encoded enc_val (lk_db xl)) =
    Some ([xa6; x00; x04; x01; x19; x03; xeb; x02; x1b; x07; xae; x14; x96; xd1; xd6; x5e; xef] ++ [x03; x58; x20] ++ xid 3 ++ [x04; x58; x20] ++ xid 2 ++ [x05; x58; x1a] ++ xgen 0) /\
  kv_get (num_key chainPrefix 4) (encoded enc_val (lk_db xl)) = Some ([xa3; x00; x04; x01; x58; x20] ++ xid 3 ++ [x02; x82; x03; x02]) /\
  kv_get (num_key chainPrefix 1) (encoded enc_val (lk_db xl)) = Some ([xa3; x00; x01; x01; x58; x20] ++ xid 0 ++ [x02; xf6]) /\
  raw_link (encoded enc_val (lk_db xl)) 4 = Ok {| sl_height := 4; sl_id := xid 3; sl_parents := [3; 2] |}.
Proof. split; [exact xl_reachable|]. split; [reflexivity|]. split; [exact xops_typed|]. vm_compute. repeat split. Qed.

(** A connected peer: port 6863, nonce 7, name "n", version "1.5.3", state 1, time 1001, no score; and the record of a peer only heard
    of: port 99, everything else zero, the time null; afterwards a score of 2^64 + 1 is a big integer. *)
Definition scored : list rop := joined ++ [RScore pa (2 ^ 64 + 1)%Z true].
Lemma scored_reach : rreach xcfg scored (rrun xcfg scored).
Proof. split; [wf_ops|reflexivity]. Qed.
Lemma scored_typed : Forall rop_typed scored.
Proof.
  unfold scored, joined, dialled, told, heard. cbn [app]. repeat apply Forall_cons; [..|apply Forall_nil]; cbn [rop_typed].
  - intros a port H. repeat (destruct H as [H|H]; [try discriminate H; injection H as <- <-; reflexivity|]). destruct H.
  - vm_compute. split; [discriminate|reflexivity].
  - exact I.
  - unfold hs_fits, version_fits, time_fits. vm_compute. repeat split; discriminate.
  - reflexivity.
Qed.
Lemma xcfg_versions : forall v, In v (g_versions xcfg) -> version_fits v.
Proof. intros v H. repeat (destruct H as [<-|H]; [repeat split|]). destruct H. Qed.
Example C91_peers_example : rreach xcfg scored (rrun xcfg scored) /\ Forall rop_typed scored /\ (forall v, In v (g_versions xcfg) -> version_fits v) /\
  map snd (encoded enc_value (r_db (rrun xcfg joined))) =
    [[xa7; x00; x19; x1a; xcf; x01; x07; x02; x61; x6e; x03; x65; x31; x2e; x35; x2e; x33; x04; x01; x05; x19; x03; xe9; x06; xf6];
     [xa7; x00; x18; x63; x01; x00; x02; x60; x03; x65; x30; x2e; x30; x2e; x30; x04; x00; x05; xf6; x06; xf6]] /\
  map snd (encoded enc_value (r_db (rrun xcfg scored))) =
    [[xa7; x00; x19; x1a; xcf; x01; x07; x02; x61; x6e; x03; x65; x31; x2e; x35; x2e; x33; x04; x01; x05; x19; x03; xe9; x06; xc2; x49; x01; x00; x00; x00; x00; x00; x00; x00; x01];
     [xa7; x00; x18; x63; x01; x00; x02; x60; x03; x65; x30; x2e; x30; x2e; x30; x04; x00; x05; xf6; x06; xf6]] /\
  raw_peer (encoded enc_value (r_db (rrun xcfg scored))) pa = reg_peer (rrun xcfg scored) pa.
Proof.
  split; [exact scored_reach|]. split; [exact scored_typed|]. split; [exact xcfg_versions|]. vm_compute. repeat split.
Qed.

(** * C92 *)

(** A record of which only a beginning is left, or to which anything was added, is never read as a record: not as the one that was
    written, and not as another one. *)
Theorem C92_cut : forall k,
  (forall b, block_fits b -> (k < length (enc_block b))%nat -> dec_block (firstn k (enc_block b)) = None) /\
  (forall l, link_fits l -> (k < length (enc_link l))%nat -> dec_link (firstn k (enc_link l)) = None) /\
  (forall v, value_fits v -> (k < length (enc_value v))%nat -> dec_value (firstn k (enc_value v)) = None).
Proof.
  intros k. split; [|split]; intros x F L.
  - unfold dec_block. now rewrite (dec_map_cut (block_fields F) L).
  - unfold dec_link. now rewrite (dec_map_cut (link_fields F) L).
  - unfold dec_value. now rewrite (dec_map_cut (value_fields F) L).
Qed.
Print Assumptions C92_cut.
Theorem C92_added : forall t, t <> [] ->
  (forall b, block_fits b -> dec_block (enc_block b ++ t) = None) /\ (forall l, link_fits l -> dec_link (enc_link l ++ t) = None) /\
  (forall v, value_fits v -> dec_value (enc_value v ++ t) = None).
Proof.
  intros t T. split; [|split]; intros x F.
  - unfold dec_block. now rewrite (dec_map_ext (block_fields F) T).
  - unfold dec_link. now rewrite (dec_map_ext (link_fields F) T).
  - unfold dec_value. now rewrite (dec_map_ext (value_fields F) T).
Qed.
Print Assumptions C92_added.

(** The claim: a read that meets a record it cannot decode fails. It holds of the chains database and of the list of all peers. *)
Theorem C92_reported_partial :
  (forall (d : raw) n s, kv_get (num_key blockPrefix n) d = Some s -> dec_block s = None -> raw_block d n = Err EOther) /\
  (forall (d : raw) n s, kv_get (num_key chainPrefix n) d = Some s -> dec_link s = None -> raw_link d n = Err EOther) /\
  (forall (d : raw) k s, (forall k' s', In (k', s') d -> length k' = 4%nat) -> In (k, s) d -> dec_value s = None -> raw_peers d = Err EOther).
Proof.
  split; [|split].
  - intros d n s G D. unfold raw_block. now rewrite G, D.
  - intros d n s G D. unfold raw_link. now rewrite G, D.
  - intros d k s L I D. unfold raw_peers. induction d as [|[k' s'] d IH]; [destruct I|]. cbn [mapM fst snd].
    unfold pkey_addr at 1. rewrite (L k' s' (or_introl eq_refl)). cbn [Nat.eqb bind]. destruct I as [I|I].
    + injection I as -> ->. now rewrite D.
    + destruct (dec_value s') as [[v|]|]; cbn [bind]; try reflexivity. rewrite IH; [reflexivity| |exact I]. intros; eapply L; right; eassumption.
Qed.
Print Assumptions C92_reported_partial.
(** It fails for one peer: peers/storage.go:80-82 returns the nil error of an earlier call. Whatever record was there, once it is cut the
    peer is read as a peer of no address, no name and no version that nobody knows; and no error is reported. *)
Theorem C92_peer_silent : forall (d : raw) b v k, kv_get b d = Some (firstn k (enc_value v) : bytes) -> value_fits v -> (k < length (enc_value v))%nat ->
  raw_peer d (A4 b) = Ok zero_peer.
Proof. intros d b v k G F L. unfold raw_peer. cbn [pkey bind]. rewrite G. now rewrite (proj2 (proj2 (C92_cut k)) v F L). Qed.
Print Assumptions C92_peer_silent.
Theorem C92_reported_refuted : exists (d : raw) a s, (do k <- pkey a; Ok (kv_get k d)) = Ok (Some s) /\ dec_value s = None /\ is_ok (raw_peer d a) = true /\ raw_peers d = Err EOther.
Proof. exists [([x01; x02; x03; x04], [xa7; x00; x19])], (A4 [x01; x02; x03; x04]), [xa7; x00; x19]. vm_compute. repeat split. Qed.
Print Assumptions C92_reported_refuted.
(** The record of the connected peer above, cut in the middle of its name. *)
Definition torn : raw := kv_put [x01; x02; x03; x04] (firstn 9 (enc_value {| v_port := 6863; v_nonce := 7; v_name := [x6e]; v_version := ver 1 5 3; v_state := PeerHostile; v_next := 1001; v_score := None |})) [].
Example C92_example : raw_peer torn (A4 [x01; x02; x03; x04]) = Ok zero_peer /\ raw_peers torn = Err EOther /\
  dec_block (firstn 40 (enc_block {| sb_height := 4; sb_ts := 1003; sb_score := 5; sb_id := xid 3; sb_parent := xid 2; sb_gen := xgen 0 |})) = None.
Proof. vm_compute. repeat split. Qed.
