(** The representation relation between the database and the specification state, and its preservation by the writes. *)
From Verif Require Import Base Kv BytesFacts KvFacts ChainModel ChainSpec ChainTree.
Set Implicit Arguments.

(** * Lookup after a batch *)

Definition bop_get {V} (k : bytes) (acc : option (option V)) (o : bop V) : option (option V) :=
  match o with
  | BPut k' v => if beqb k k' then Some (Some v) else acc
  | BDel k' => if beqb k k' then Some None else acc
  end.
Definition batch_get {V} (k : bytes) (b : batch V) : option (option V) := fold_left (bop_get k) b None.
Lemma bop_get_some : forall V (k : bytes) (b : batch V) w, exists r, fold_left (bop_get k) b (Some w) = Some r.
Proof.
  induction b as [|o b IH]; simpl; intros w; eauto.
  destruct o; simpl; destruct (beqb _ _); auto.
Qed.
Lemma get_batch_aux : forall V (k : bytes) (b : batch V) (s : kv V) acc, ksorted s ->
  match acc with Some r => kv_get k s = r | None => True end ->
  kv_get k (apply_batch s b) = match fold_left (bop_get k) b acc with Some r => r | None => kv_get k s end.
Proof.
  intros V k b. induction b as [|o b IH]; intros s acc S A; simpl.
  - destruct acc; auto.
  - assert (S' := ksorted_bop o S).
    destruct o as [k' v|k']; simpl in *; destruct (beqb_spec k k') as [E|E].
    + subst k'. rewrite (IH _ (Some (Some v))); auto.
      2:{ now apply kv_get_put_eq. }
      destruct (bop_get_some k b (Some v)) as [r Z]. now rewrite Z.
    + rewrite (IH _ acc); auto.
      * now rewrite kv_get_put_neq.
      * destruct acc; auto. now rewrite kv_get_put_neq.
    + subst k'. rewrite (IH _ (Some None)); auto.
      2:{ apply kv_get_del_eq. }
      destruct (bop_get_some k b None) as [r Z]. now rewrite Z.
    + rewrite (IH _ acc); auto.
      * now rewrite kv_get_del_neq.
      * destruct acc; auto. now rewrite kv_get_del_neq.
Qed.
Lemma get_batch : forall V (k : bytes) (b : batch V) (s : kv V), ksorted s ->
  kv_get k (apply_batch s b) = match batch_get k b with Some r => r | None => kv_get k s end.
Proof. intros. now apply get_batch_aux. Qed.

(** * Keys *)

Lemma beqb_cons_same : forall p a b, beqb (p :: a) (p :: b) = beqb a b.
Proof. intros. unfold beqb. now rewrite bcmp_cons. Qed.
Lemma beqb_cons_diff : forall p q a b, p <> q -> beqb (p :: a) (q :: b) = false.
Proof. intros. apply beqb_neq. congruence. Qed.
Lemma beqb_be8 : forall n m, (n < 2 ^ 64)%N -> (m < 2 ^ 64)%N -> beqb (be 8 n) (be 8 m) = (n =? m)%N.
Proof.
  intros n m N M. destruct (N.eqb_spec n m).
  - subst. apply beqb_refl.
  - apply beqb_neq. intros E. now apply be8_inj in E.
Qed.
Lemma beqb_length : forall a b, length a <> length b -> beqb a b = false.
Proof. intros. apply beqb_neq. congruence. Qed.
Lemma wf_id_be8 : forall i n, wf_id i -> beqb i (be 8 n) = false.
Proof. intros i n [H|H]; apply beqb_length; rewrite be_length, H; lia. Qed.
Lemma be8_wf_id : forall i n, wf_id i -> beqb (be 8 n) i = false.
Proof. intros i n [H|H]; apply beqb_length; rewrite be_length, H; lia. Qed.

Lemma addr_eqb_spec : forall a b, reflect (a = b) (addr_eqb a b).
Proof.
  intros [|x|x z] [|y|y w]; simpl; try (constructor; congruence).
  - destruct (beqb_spec x y); constructor; congruence.
  - destruct (beqb_spec x y); destruct (beqb_spec z w); simpl; constructor; congruence.
Qed.
Lemma addr_eqb_refl : forall a, addr_eqb a a = true.
Proof. intros. destruct (addr_eqb_spec a a); congruence. Qed.
Lemma addr_bytes_inj : forall a b, wf_addr a -> wf_addr b -> addr_bytes a = addr_bytes b -> a = b.
Proof.
  intros [|x|x z] [|y|y w]; simpl; intros A B E; try tauto.
  - congruence.
  - subst. lia.
  - subst. lia.
  - destruct A as [_ ->], B as [_ ->]. congruence.
Qed.
Lemma beqb_addr : forall a b, wf_addr a -> wf_addr b -> beqb (addr_bytes a) (addr_bytes b) = addr_eqb a b.
Proof.
  intros a b A B. destruct (addr_eqb_spec a b).
  - subst. apply beqb_refl.
  - apply beqb_neq. intros E. now apply addr_bytes_inj in E.
Qed.

(** * The representation relation *)

Definition sblock_of (e : entry) (c : list entry) : sblock :=
  {| sb_height := N.of_nat (length c); sb_ts := e_ts e; sb_score := sum_own c; sb_id := e_id e;
     sb_parent := match e_parent e with Some p => p | None => [] end; sb_gen := e_gen e |}.
Definition link_ok (es : list entry) (i : id) (l : slink) : Prop :=
  sl_height l = N.of_nat (length (chain es i)) /\ sl_id l = i /\
  forall j, nth_error (sl_parents l) j =
            match nth_error (chain es i) (2 ^ j) with Some a => numN es (e_id a) | None => None end.

Record Rep (d : db) (s : state) : Prop := {
  R_sorted : ksorted d;
  R_wf : WF (st_blocks s);
  R_cnt : kv_get (counter_key blocksCounter) d = Some (VBytes (be 8 (N.of_nat (length (st_blocks s)))));
  R_hcnt : kv_get (counter_key headsCounter) d = Some (VBytes (be 8 (N.of_nat (length (sheads (st_blocks s))))));
  R_ent : forall i n e c, num_of (st_blocks s) i = Some n -> chain (st_blocks s) i = e :: c ->
    kv_get (id_key blockPrefix i) d = Some (VBytes (be 8 (N.of_nat n))) /\
    kv_get (num_key blockPrefix (N.of_nat n)) d = Some (VBlock (sblock_of e (e :: c))) /\
    exists l, kv_get (num_key chainPrefix (N.of_nat n)) d = Some (VLink l) /\ link_ok (st_blocks s) i l;
  R_noid : forall i, wf_id i -> ~ stored (st_blocks s) i -> kv_get (id_key blockPrefix i) d = None;
  R_h2b : forall k i n, nth_error (sheads (st_blocks s)) k = Some i -> num_of (st_blocks s) i = Some n ->
    kv_get (num_key headToBlockPrefix (N.of_nat (S k))) d = Some (VBytes (be 8 (N.of_nat n)));
  R_b2h : forall i n, num_of (st_blocks s) i = Some n ->
    kv_get (num_key blockToHeadPrefix (N.of_nat n)) d =
    option_map (fun k => VBytes (be 8 (N.of_nat (S k)))) (index_of i (sheads (st_blocks s)));
  R_leash : forall a, wf_addr a -> kv_get (addr_key a) d = option_map VBytes (st_leash s a);
  R_leash_wf : forall a i, st_leash s a = Some i -> wf_id i;
  R_key3 : forall r v, kv_get (leashPrefix :: r) d = Some v -> exists a, wf_addr a /\ r = addr_bytes a;
  R_key4 : forall r v, kv_get (headToBlockPrefix :: r) d = Some v ->
    exists k, k < length (sheads (st_blocks s)) /\ r = be 8 (N.of_nat (S k))
}.

(** The number of blocks fits uint32 (hence everything fits uint64). *)
Definition small (es : list entry) : Prop := (N.of_nat (length es) < 2 ^ 32 - 1)%N.

Section Reads.
  Variables (d : db) (s : state).
  Hypothesis R : Rep d s.
  Hypothesis SM : small (st_blocks s).
  Notation es := (st_blocks s).

  Lemma small64 : forall n, n <= length es -> (N.of_nat n < 2 ^ 64)%N.
  Proof. intros n H. unfold small in SM. assert (2 ^ 32 < 2 ^ 64)%N by reflexivity. lia. Qed.

  Lemma rep_num : forall i n, num_of es i = Some n -> get_num_of_block_id d i = Ok (N.of_nat n).
  Proof.
    intros i n H. assert (S : stored es i) by (apply num_of_stored; eauto).
    destruct (chain_hd S) as (e & c & C & _). destruct (R_ent R _ H C) as (A & _).
    unfold get_num_of_block_id. rewrite A, be_length. simpl Nat.eqb. cbv iota.
    rewrite unbe_be8; auto. apply small64. apply num_of_bound in H. lia.
  Qed.
  Lemma rep_num_none : forall i, wf_id i -> ~ stored es i -> get_num_of_block_id d i = Err ENotFound.
  Proof. intros i W H. unfold get_num_of_block_id. now rewrite (R_noid R W H). Qed.
  Lemma rep_has_block : forall i, wf_id i -> has_block d i = Ok (if stored_dec es i then true else false).
  Proof.
    intros i W. unfold has_block. destruct (stored_dec es i) as [S|S].
    - destruct (proj1 (num_of_stored _ _) S) as [n N]. now rewrite (rep_num _ N).
    - now rewrite (rep_num_none W S).
  Qed.
  Lemma rep_block : forall i n e c, num_of es i = Some n -> chain es i = e :: c ->
    get_block d (N.of_nat n) = Ok (sblock_of e (e :: c)).
  Proof.
    intros i n e c H C. destruct (R_ent R _ H C) as (_ & A & _). unfold get_block. now rewrite A.
  Qed.
  Lemma rep_link : forall i n, num_of es i = Some n ->
    exists l, get_link d (N.of_nat n) = Ok l /\ link_ok es i l.
  Proof.
    intros i n H. assert (S : stored es i) by (apply num_of_stored; eauto).
    destruct (chain_hd S) as (e & c & C & _). destruct (R_ent R _ H C) as (_ & _ & l & A & L).
    exists l. unfold get_link. rewrite A. auto.
  Qed.
  Lemma rep_block_by_id : forall i e c, chain es i = e :: c -> get_block_by_id d i = Ok (sblock_of e (e :: c)).
  Proof.
    intros i e c C. assert (S : stored es i).
    { destruct (stored_dec es i) as [S|S]; auto. apply chain_nil in S. congruence. }
    destruct (proj1 (num_of_stored _ _) S) as [n N]. unfold get_block_by_id. rewrite (rep_num _ N). simpl.
    eapply rep_block; eauto.
  Qed.
  Lemma rep_link_by_id : forall i, stored es i -> exists l, get_link_by_id d i = Ok l /\ link_ok es i l.
  Proof.
    intros i S. destruct (proj1 (num_of_stored _ _) S) as [n N]. unfold get_link_by_id.
    rewrite (rep_num _ N). simpl. eapply rep_link; eauto.
  Qed.
  Lemma rep_counter_blocks : get_counter d blocksCounter = Ok (N.of_nat (length es)).
  Proof.
    unfold get_counter. rewrite (R_cnt R), be_length. simpl Nat.eqb. cbv iota.
    rewrite unbe_be8; auto. now apply small64.
  Qed.
  Lemma rep_counter_heads : get_counter d headsCounter = Ok (N.of_nat (length (sheads es))).
  Proof.
    unfold get_counter. rewrite (R_hcnt R), be_length. simpl Nat.eqb. cbv iota.
    rewrite unbe_be8; auto. apply small64. apply sheads_length.
  Qed.
  Lemma rep_leash : forall a, wf_addr a ->
    get_leash d a = match st_leash s a with Some i => Ok i | None => Err ENotFound end.
  Proof.
    intros a W. unfold get_leash. rewrite (R_leash R a W). destruct (st_leash s a) as [i|] eqn:E; simpl; auto.
    unfold new_block_id. destruct (R_leash_wf R _ E) as [->| ->]; reflexivity.
  Qed.
  Lemma rep_head_num : forall i n, num_of es i = Some n ->
    get_head_by_block_num d (N.of_nat n) =
    match index_of i (sheads es) with Some k => Ok (N.of_nat (S k)) | None => Err ENotFound end.
  Proof.
    intros i n H. unfold get_head_by_block_num. rewrite (R_b2h R _ H).
    destruct (index_of i (sheads es)) as [k|] eqn:E; cbn [option_map]; auto.
    rewrite be_length. simpl Nat.eqb. cbv iota. rewrite unbe_be8; auto. apply small64.
    apply index_of_bound in E. pose proof (sheads_length es). lia.
  Qed.
End Reads.

(** * New links *)

Lemma nth_error_skipn : forall A (l : list A) n k, nth_error (skipn n l) k = nth_error l (n + k).
Proof.
  induction l as [|x l IH]; intros n k.
  - rewrite skipn_nil. destruct k, n; reflexivity.
  - destruct n; simpl; auto.
Qed.

Lemma log2_up_lt : forall h j, 0 < h -> (j < N.to_nat (N.log2_up (N.of_nat h)) <-> 2 ^ j < h).
Proof.
  intros h j H. destruct (Nat.eq_dec h 1) as [->|N1].
  - simpl. split; intros; [lia|]. pose proof (Nat.pow_nonzero 2 j). lia.
  - assert (L : (1 < N.of_nat h)%N) by lia. pose proof (N.log2_up_spec _ L) as [A B].
    set (k := N.log2_up (N.of_nat h)) in *.
    assert (E : forall j, N.of_nat (2 ^ j) = (2 ^ N.of_nat j)%N) by (intros; rewrite Nat2N.inj_pow; reflexivity).
    split; intros Hj.
    + assert (N.of_nat j <= N.pred k)%N by lia.
      assert (2 ^ N.of_nat j <= 2 ^ N.pred k)%N by (apply N.pow_le_mono_r; lia).
      rewrite <- E in *. lia.
    + destruct (Nat.lt_ge_cases j (N.to_nat k)) as [|Q]; auto. exfalso.
      assert (2 ^ k <= 2 ^ N.of_nat j)%N by (apply N.pow_le_mono_r; lia). rewrite <- E in *. lia.
Qed.

Lemma nth_error_nth_default : forall A (l : list A) n x, nth n l x = match nth_error l n with Some y => y | None => x end.
Proof. induction l as [|y l IH]; destruct n; simpl; auto. Qed.

Lemma collect_parents_spec : forall d s, Rep d s -> small (st_blocks s) ->
  forall p, stored (st_blocks s) p ->
  forall k l pn a, nth_error (chain (st_blocks s) p) (2 ^ l - 1) = Some a ->
    numN (st_blocks s) (e_id a) = Some pn ->
    (forall j, j < k -> 2 ^ (l + j) - 1 < length (chain (st_blocks s) p)) ->
  exists r, collect_parents d k l pn = Ok r /\ length r = k /\
    forall j, j < k -> nth_error r j =
      match nth_error (chain (st_blocks s) p) (2 ^ (l + j) - 1) with
      | Some a => numN (st_blocks s) (e_id a) | None => None end.
Proof.
  intros d s R SM p SP. induction k as [|k IH]; intros l pn a A NA B.
  - exists []. repeat split. intros j J. lia.
  - simpl. unfold numN in NA. destruct (num_of (st_blocks s) (e_id a)) as [n|] eqn:E; [|discriminate].
    simpl in NA. injection NA as <-.
    destruct (rep_link R _ E) as (pl & G & L1 & L2 & L3). rewrite G. cbn [bind].
    specialize (L3 l). rewrite (chain_skip (R_wf R) _ _ A), nth_error_skipn in L3.
    assert (P1 : 2 ^ l >= 1) by (pose proof (Nat.pow_nonzero 2 l); lia).
    replace (2 ^ l - 1 + 2 ^ l) with (2 ^ S l - 1) in L3 by (cbn [Nat.pow]; lia).
    rewrite nth_error_nth_default, L3.
    destruct (nth_error (chain (st_blocks s) p) (2 ^ S l - 1)) as [a'|] eqn:A'.
    + assert (S' : stored (st_blocks s) (e_id a')) by (apply In_stored; eapply chain_In, nth_error_In, A').
      apply num_of_stored in S' as [n' N']. assert (NN : numN (st_blocks s) (e_id a') = Some (N.of_nat n'))
        by (unfold numN; now rewrite N').
      rewrite NN. destruct (IH (S l) (N.of_nat n') a' A' NN) as (r & C & LR & Q).
      { intros j J. replace (S l + j) with (l + S j) by lia. apply B. lia. }
      rewrite C. cbn [bind]. exists (N.of_nat n :: r). repeat split; [cbn; lia|].
      intros [|j] J; simpl.
      * rewrite Nat.add_0_r, A. unfold numN. now rewrite E.
      * replace (l + S j) with (S l + j) by lia. apply Q. lia.
    + destruct k as [|k].
      * simpl. exists [N.of_nat n]. repeat split. intros j J. replace j with 0 by lia. simpl.
        rewrite Nat.add_0_r, A. unfold numN. now rewrite E.
      * exfalso. apply nth_error_None in A'. specialize (B 1). replace (l + 1) with (S l) in B by lia. lia.
Qed.

Lemma new_link_spec : forall d s, Rep d s -> small (st_blocks s) ->
  forall e p, stored (st_blocks s) p -> e_parent e = Some p -> ~ stored (st_blocks s) (e_id e) ->
  forall n, exists l,
    new_link_for_block d n (e_id e) (N.of_nat (S (length (chain (st_blocks s) p)))) p = Ok (put_link_rec n l) /\
    link_ok (e :: st_blocks s) (e_id e) l.
Proof.
  intros d s R SM e p SP P F n. unfold new_link_for_block.
  destruct (proj1 (num_of_stored _ _) SP) as [pn PN]. rewrite (rep_num R SM _ PN). cbn [bind].
  destruct (chain_hd SP) as (pe & c & C & PE & PI).
  set (h := S (length (chain (st_blocks s) p))).
  unfold max_parents. destruct (N.eqb_spec (N.of_nat h) 0) as [|_]; [lia|]. cbn [bind].
  set (k := N.to_nat (N.log2_up (N.of_nat h))).
  assert (K : forall j, j < k <-> 2 ^ j < h) by (intros j; apply log2_up_lt; lia).
  destruct (collect_parents_spec R SM SP (k := k) 0 (pn := N.of_nat pn) (a := pe)) as (r & CR & LR & Q).
  - rewrite C. reflexivity.
  - unfold numN. now rewrite PE, PN.
  - intros j J. apply K in J. simpl. unfold h in J. lia.
  - rewrite CR. cbn [bind]. eexists. split; [reflexivity|].
    unfold link_ok. cbn [sl_height sl_id sl_parents]. rewrite (chain_cons_eq e (st_blocks s) P).
    repeat split. intros j. cbn [length].
    assert (P1 : 2 ^ j >= 1) by (pose proof (Nat.pow_nonzero 2 j); lia).
    replace (2 ^ j) with (S (2 ^ j - 1)) by lia. cbn [nth_error].
    destruct (Nat.lt_ge_cases j k) as [J|J].
    + rewrite (Q j J). simpl (0 + j). apply K in J.
      destruct (nth_error (chain (st_blocks s) p) (2 ^ j - 1)) as [a|] eqn:A; auto.
      unfold numN. rewrite num_of_fresh; auto. apply In_stored. eapply chain_In, nth_error_In, A.
    + replace (nth_error r j) with (@None N) by (symmetry; apply nth_error_None; lia).
      assert (~ 2 ^ j < h) by (rewrite <- K; lia).
      replace (nth_error (chain (st_blocks s) p) (2 ^ j - 1)) with (@None entry); auto.
      symmetry. apply nth_error_None. unfold h in *. lia.
Qed.
