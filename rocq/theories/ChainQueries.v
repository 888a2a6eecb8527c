(** The queries of the linkage in terms of the specification state. *)
From Verif Require Import Base Kv BytesFacts KvFacts ChainModel ChainSpec ChainTree ChainRep.
Set Implicit Arguments. Unset Strict Implicit.

Lemma mapM_ok : forall A B (f : A -> outcome B) (g : A -> B) l,
  (forall x, In x l -> f x = Ok (g x)) -> mapM f l = Ok (map g l).
Proof.
  induction l as [|x l IH]; intros H; simpl; auto.
  rewrite (H x) by now left. simpl. rewrite IH; auto. intros y Y. apply H. now right.
Qed.
Lemma mapM_Ok_inv : forall A B (f : A -> outcome B) l r, mapM f l = Ok r -> Forall2 (fun x y => f x = Ok y) l r.
Proof.
  induction l as [|x l IH]; simpl; intros r H.
  - injection H as <-. constructor.
  - destruct (f x) eqn:E; simpl in H; try discriminate. destruct (mapM f l) eqn:M; simpl in H; try discriminate.
    injection H as <-. constructor; auto.
Qed.

Lemma new_block_id_wf : forall i, wf_id i -> new_block_id i = Ok i.
Proof. intros i W. unfold new_block_id. destruct W as [->| ->]; reflexivity. Qed.

Lemma WF_parent : forall es, WF es -> forall i e c, chain es i = e :: c ->
  match e_parent e with Some p => stored es p /\ c = chain es p | None => c = [] end.
Proof.
  induction 1 as [e0 W1 W2 W3 W4 | e0 older p' x W IH I F P' SP X SX G]; intros i e c C; cbn [chain] in C.
  - destruct (id_eqb_spec (e_id e0) i); [|discriminate]. injection C as <- <-. now rewrite W2.
  - destruct (id_eqb_spec (e_id e0) i) as [E|E].
    + injection C as <- <-. rewrite P'. split; [apply stored_cons; auto|]. symmetry. now apply chain_fresh.
    + specialize (IH _ _ _ C). destruct (e_parent e); auto. destruct IH as [S ->].
      split; [apply stored_cons; auto|]. symmetry. now apply chain_fresh.
Qed.
Lemma WF_gen_len : forall es, WF es -> forall e, In e es -> length (e_gen e) = 26.
Proof. induction 1; intros e' [<-|Q]; auto. destruct Q. Qed.
Lemma stored_chain : forall es i e c, chain es i = e :: c -> stored es i.
Proof. intros es i e c C. destruct (stored_dec es i) as [S|S]; auto. apply chain_nil in S. congruence. Qed.
Lemma chain_hd_id : forall es i e c, chain es i = e :: c -> e_id e = i.
Proof.
  intros es i e c C. destruct (chain_hd (stored_chain C)) as (e' & c' & C' & ID & _). congruence.
Qed.

(** * Block *)

(** The Block value of an entry. *)
Definition block_of (e : entry) (c : list entry) : Block :=
  {| b_id := e_id e; b_parent := match e_parent e with Some p => p | None => zero_id end;
     b_height := N.of_nat (length c); b_gen := e_gen e; b_score := sum_own c; b_ts := Z.of_N (e_ts e) |}.
Definition ts_ok (e : entry) : bool := (e_ts e <? max_int64)%N.

Section Queries.
  Variables (d : db) (s : state).
  Hypothesis R : Rep d s.
  Hypothesis SM : small (st_blocks s).
  Notation es := (st_blocks s).

  Lemma convert_sblock : forall i e c, chain es i = e :: c ->
    convert_block (sblock_of e (e :: c)) = if ts_ok e then Ok (block_of e (e :: c)) else Panic.
  Proof.
    intros i e c C. assert (S := stored_chain C). assert (ID := chain_hd_id C).
    assert (P := WF_parent (R_wf R) C).
    assert (I : In e es) by (eapply chain_In; rewrite C; now left).
    unfold convert_block, sblock_of. cbn [sb_id sb_parent sb_gen sb_ts sb_height sb_score].
    rewrite new_block_id_wf by (rewrite ID; exact (stored_wf (R_wf R) S)). cbn [bind].
    destruct (e_parent e) as [p|] eqn:EP.
    - destruct P as [SP _]. assert (WP := stored_wf (R_wf R) SP).
      replace (Nat.ltb 0 (length p)) with true by (destruct WP as [->| ->]; reflexivity).
      rewrite new_block_id_wf by auto. cbn [bind]. unfold new_address. rewrite (WF_gen_len (R_wf R) I). cbn [Nat.eqb bind].
      unfold safe_timestamp, ts_ok. destruct (N.ltb _ _); auto. cbn [bind]. unfold block_of. now rewrite EP.
    - cbn [length Nat.ltb Nat.leb bind]. unfold new_address. rewrite (WF_gen_len (R_wf R) I). cbn [Nat.eqb bind].
      unfold safe_timestamp, ts_ok. destruct (N.ltb _ _); auto. cbn [bind]. unfold block_of. now rewrite EP.
  Qed.

  Lemma q_block : forall l i e c, lk_db l = d -> chain es i = e :: c ->
    block l i = if ts_ok e then Ok (block_of e (e :: c)) else Panic.
  Proof.
    intros l i e c E C. unfold block. rewrite E, (rep_block_by_id R SM _ C). cbn [bind]. eapply convert_sblock; eauto.
  Qed.
  Lemma q_block_none : forall l i, lk_db l = d -> wf_id i -> ~ stored es i -> block l i = Err ENotFound.
  Proof.
    intros l i E W S. unfold block, get_block_by_id. rewrite E, (rep_num_none R W S). reflexivity.
  Qed.

  (** * LastIDs and getBlocks *)

  Lemma q_ancestors_loop : forall k i n, num_of es i = Some n ->
    ancestors_loop d k (N.of_nat n) = Ok (firstn k (chain_ids es i)).
  Proof.
    induction k as [|k IH]; intros i n N; cbn [ancestors_loop]; auto.
    destruct (rep_link R _ N) as (l & G & L1 & L2 & L3). rewrite G. cbn [bind].
    assert (S : stored es i) by (apply num_of_stored; eauto).
    rewrite L2, new_block_id_wf by exact (stored_wf (R_wf R) S). cbn [bind].
    destruct (chain_hd S) as (e & c & C & ID & I). unfold chain_ids. rewrite C. cbn [map firstn].
    specialize (L3 0). rewrite C in L3. cbn [Nat.pow nth_error] in L3.
    assert (P := WF_parent (R_wf R) C).
    destruct (sl_parents l) as [|p ps]; cbn [nth_error] in L3.
    - destruct c as [|e' c'].
      + cbn [map]. rewrite firstn_nil. congruence.
      + exfalso. assert (I' : In e' es) by (eapply chain_In; rewrite C; right; now left).
        apply In_stored, num_of_stored in I' as [m M]. unfold numN in L3. rewrite M in L3. discriminate.
    - destruct c as [|e' c']; [discriminate|].
      unfold numN in L3. destruct (num_of es (e_id e')) as [m|] eqn:M; [|discriminate].
      injection L3 as ->. rewrite (IH _ _ M). cbn [bind]. rewrite ID. do 2 f_equal.
      replace (map e_id (e' :: c')) with (chain_ids es (e_id e')); auto.
      unfold chain_ids. f_equal. rewrite (chain_skip (R_wf R) i 1 (a := e')); rewrite C; reflexivity.
  Qed.

  Lemma q_last_ids : forall i count, stored es i -> (0 <= count)%Z ->
    get_ancestors d i count = Ok (firstn (Z.to_nat count) (chain_ids es i)).
  Proof.
    intros i count S CN. apply num_of_stored in S as [n N]. unfold get_ancestors. rewrite (rep_num R SM _ N). cbn [bind].
    destruct (Z.ltb_spec count 0); [lia|]. now apply q_ancestors_loop.
  Qed.

  Fixpoint blocks_of (k : nat) (c : list entry) : outcome (list Block) :=
    match k, c with
    | O, _ => Ok []
    | _, [] => Ok []
    | S k', e :: c' => if ts_ok e then do r <- blocks_of k' c'; Ok (block_of e c :: r) else Panic
    end.

  Lemma q_blocks_loop : forall k i n, num_of es i = Some n ->
    blocks_loop d k (N.of_nat n) = blocks_of k (chain es i).
  Proof.
    induction k as [|k IH]; intros i n N; cbn [blocks_loop]; auto.
    assert (S : stored es i) by (apply num_of_stored; eauto).
    destruct (chain_hd S) as (e & c & C & ID & I). rewrite C. cbn [blocks_of].
    rewrite (rep_block R _ N C). cbn [bind]. rewrite (convert_sblock C).
    destruct (ts_ok e) eqn:T; [|reflexivity]. cbn [bind].
    assert (P := WF_parent (R_wf R) C). cbn [sblock_of sb_parent].
    destruct (e_parent e) as [p|] eqn:EP.
    - destruct P as [SP EC]. assert (WP := stored_wf (R_wf R) SP).
      replace (Nat.eqb (length p) 0) with false by (destruct WP as [->| ->]; reflexivity).
      destruct (rep_link R _ N) as (l & G & L1 & L2 & L3). rewrite G. cbn [bind].
      destruct (chain_hd SP) as (e' & c' & C' & ID' & I'). rewrite C' in EC. subst c.
      specialize (L3 0). rewrite C in L3. cbn [Nat.pow nth_error] in L3.
      destruct (proj1 (num_of_stored _ _) SP) as [m M]. unfold numN in L3. rewrite ID', M in L3.
      cbn [option_map] in L3. destruct (sl_parents l) as [|q qs]; [discriminate|]. cbn in L3. injection L3 as ->.
      rewrite (IH _ _ M), C'. reflexivity.
    - subst c. cbn [length Nat.eqb]. destruct k; reflexivity.
  Qed.
  Lemma q_get_blocks : forall i count, stored es i -> (0 <= count)%Z ->
    get_blocks d i count = blocks_of (Z.to_nat count) (chain es i).
  Proof.
    intros i count S CN. apply num_of_stored in S as [n N]. unfold get_blocks. rewrite (rep_num R SM _ N). cbn [bind].
    destruct (Z.ltb_spec count 0); [lia|]. now apply q_blocks_loop.
  Qed.

  (** * Heads *)

  Lemma range_prefix : forall p a b k, bleb (p :: a) k = true -> bltb k (p :: b) = true -> exists r, k = p :: r.
  Proof.
    intros p a b k A B. destruct k as [|q r]; [discriminate A|]. exists r. f_equal.
    unfold bleb, bltb in *. cbn [bcmp] in *. unfold byte_cmp in *.
    destruct (N.compare_spec (Byte.to_N p) (Byte.to_N q)) as [E|E|E]; try discriminate.
    - symmetry. now apply to_N_inj.
    - destruct (N.compare_spec (Byte.to_N q) (Byte.to_N p)); try discriminate; lia.
  Qed.

  (** The bindings of heads, computed from the specification. *)
  Fixpoint head_bindings (k : nat) (hs : list id) : kv val :=
    match hs with
    | [] => []
    | h :: hs' => (num_key headToBlockPrefix (N.of_nat (S k)),
                   VBytes (be 8 match num_of es h with Some n => N.of_nat n | None => 0%N end))
                  :: head_bindings (S k) hs'
    end.
  Lemma head_bindings_In : forall hs k x, In x (head_bindings k hs) ->
    exists j h, nth_error hs j = Some h /\ fst x = num_key headToBlockPrefix (N.of_nat (S (k + j))) /\
      snd x = VBytes (be 8 match num_of es h with Some n => N.of_nat n | None => 0%N end).
  Proof.
    induction hs as [|h hs IH]; intros k x H; [destruct H|]. destruct H as [<-|H].
    - exists 0, h. rewrite Nat.add_0_r. auto.
    - destruct (IH _ _ H) as (j & h' & A & B & C). exists (S j), h'. split; auto. split; auto.
      rewrite B. do 3 f_equal. lia.
  Qed.
  Lemma In_head_bindings : forall hs k j h, nth_error hs j = Some h ->
    In (num_key headToBlockPrefix (N.of_nat (S (k + j))),
        VBytes (be 8 match num_of es h with Some n => N.of_nat n | None => 0%N end)) (head_bindings k hs).
  Proof.
    induction hs as [|h hs IH]; intros k j h' H; [destruct j; discriminate|]. destruct j as [|j]; cbn [head_bindings].
    - left. cbn in H. injection H as <-. now rewrite Nat.add_0_r.
    - right. replace (k + S j) with (S k + j) by lia. now apply IH.
  Qed.
  Lemma num_key_lt : forall p n m, (n < m)%N -> (m < 2 ^ 64)%N -> bcmp (num_key p n) (num_key p m) = Lt.
  Proof. intros p n m A B. unfold num_key. rewrite bcmp_cons, be8_cmp by lia. now apply N.compare_lt_iff. Qed.
  Lemma head_bindings_sorted : forall hs k, (N.of_nat (k + length hs) < 2 ^ 64)%N -> ksorted (head_bindings k hs).
  Proof.
    induction hs as [|h hs IH]; intros k B; cbn [head_bindings]; constructor.
    - apply IH. cbn [length] in B. lia.
    - apply Forall_forall. intros x H. apply head_bindings_In in H as (j & h' & A & E & _). unfold klt.
      cbn [fst]. rewrite E. assert (j < length hs) by (apply nth_error_Some; congruence). cbn [length] in B.
      apply num_key_lt; lia.
  Qed.

  Lemma heads_range : kv_range (num_key headToBlockPrefix 0) (num_key headToBlockPrefix (2 ^ 64 - 1)) d
                      = head_bindings 0 (sheads es).
  Proof.
    assert (HL := sheads_length es). unfold small in SM. assert (2 ^ 32 < 2 ^ 64)%N by reflexivity.
    apply ksorted_ext.
    - apply kv_range_sorted, (R_sorted R).
    - apply head_bindings_sorted. lia.
    - intros [k v]. rewrite kv_range_In. rewrite (kv_In_iff _ _ (R_sorted R)). split.
      + intros (G & A & B). unfold num_key in A, B. destruct (range_prefix A B) as [r ->].
        destruct (R_key4 R _ G) as (j & J & ->). destruct (nth_error (sheads es) j) as [h|] eqn:H0.
        2:{ apply nth_error_None in H0. lia. }
        assert (SH : stored es h) by (apply sheads_stored; eapply nth_error_In, H0).
        apply num_of_stored in SH as [n N]. assert (G' := R_h2b R _ H0 N). unfold num_key in G'.
        assert (IN := In_head_bindings 0 H0). rewrite N in IN. unfold num_key in IN. cbn [Nat.add] in IN.
        replace v with (VBytes (be 8 (N.of_nat n))) by congruence. exact IN.
      + intros I. apply head_bindings_In in I as (j & h & H0 & E & V). cbn [fst snd] in *. cbn [Nat.add] in E.
        assert (J : j < length (sheads es)) by (apply nth_error_Some; congruence).
        assert (SH : stored es h) by (apply sheads_stored; eapply nth_error_In, H0).
        apply num_of_stored in SH as [n N]. rewrite N in V. subst. split; [exact (R_h2b R _ H0 N)|]. split.
        * apply bleb_le. left. apply num_key_lt; lia.
        * apply bltb_lt. apply num_key_lt; lia.
  Qed.

  Fixpoint number (k : N) (hs : list id) : list (N * id) :=
    match hs with [] => [] | h :: hs' => (k, h) :: number (k + 1) hs' end.

  Lemma q_heads : heads d = Ok (number 1 (sheads es)).
  Proof.
    unfold heads, get_heads. rewrite heads_range.
    assert (HL := sheads_length es). unfold small in SM. assert (B64 : (2 ^ 32 < 2 ^ 64)%N) by reflexivity.
    assert (Q : forall hs k, (N.of_nat (k + length hs) < 2 ^ 64)%N -> (forall h, In h hs -> stored es h) ->
       (do hb <- mapM head_of_binding (head_bindings k hs);
        mapM (fun hb => do bl <- get_block d (snd hb); do i <- new_block_id (sb_id bl); Ok (fst hb, i)) hb)
       = Ok (number (N.of_nat (S k)) hs)).
    { induction hs as [|h hs IH]; intros k B ST; cbn [head_bindings mapM]; auto.
      destruct (proj1 (num_of_stored es h) (ST h (or_introl eq_refl))) as [n N]. rewrite N.
      assert (NB := num_of_bound _ _ N). cbn [length] in B.
      unfold head_of_binding at 1. cbn [fst snd]. unfold num_key_from_bytes, num_key at 1. cbn [length].
      rewrite be_length. cbn [Nat.eqb]. unfold num_key. cbn [bind fst snd]. rewrite beqb_refl. cbn [negb].
      rewrite be_length. cbn [Nat.ltb Nat.leb].
      rewrite firstn_all2 by now rewrite be_length. rewrite !unbe_be8 by lia. cbn [bind].
      assert (IH' : (do hb <- mapM head_of_binding (head_bindings (S k) hs);
        mapM (fun hb => do bl <- get_block d (snd hb); do i <- new_block_id (sb_id bl); Ok (fst hb, i)) hb)
       = Ok (number (N.of_nat (S (S k))) hs)).
      { apply IH; [lia|]. intros h' H'. apply ST. now right. }
      destruct (mapM head_of_binding (head_bindings (S k) hs)) as [r| | |]; cbn [bind] in IH'; try discriminate.
      cbn [bind mapM fst snd].
      destruct (chain_hd (ST h (or_introl eq_refl))) as (e & c & C & ID & I). rewrite (rep_block R _ N C). cbn [bind].
      cbn [sblock_of sb_id]. rewrite ID, new_block_id_wf by exact (stored_wf (R_wf R) (ST h (or_introl eq_refl))).
      cbn [bind]. rewrite IH'. cbn [bind number]. do 2 f_equal. f_equal. lia. }
    rewrite Q; [reflexivity|cbn [Nat.add]; lia|]. intros h H. now apply sheads_stored.
  Qed.

  (** * Leashes *)


  Lemma zeros_le : forall k r, k <= length r -> bcmp (repeat x00 k) r <> Gt.
  Proof.
    induction k as [|k IH]; intros [|q r] L; cbn [length repeat bcmp] in *; try lia; try discriminate.
    unfold byte_cmp. change (Byte.to_N x00) with 0%N.
    destruct (N.compare_spec 0 (Byte.to_N q)); try lia; try discriminate. apply IH. lia.
  Qed.
  Lemma ones_lt : forall k r, length r <= k -> r <> repeat xff k -> bcmp r (repeat xff k) = Lt.
  Proof.
    induction k as [|k IH]; intros [|q r] L N; cbn [length repeat bcmp] in *; try lia; try congruence; auto.
    unfold byte_cmp. change (Byte.to_N xff) with 255%N. pose proof (to_N_lt q).
    destruct (N.compare_spec (Byte.to_N q) 255) as [E|E|E]; try lia; auto.
    apply IH; [lia|]. intros ->. apply N. f_equal. now apply to_N_inj.
  Qed.
  Lemma addr_len : forall a, wf_addr a -> length (addr_bytes a) = 4 \/ length (addr_bytes a) = 16.
  Proof. intros [|x|x z]; cbn; tauto. Qed.
  Lemma addr_key_roundtrip : forall a, wf_addr a -> addr_key_from_bytes (addr_key a) = Ok a.
  Proof.
    intros [|x|x z] W; cbn in W; [tauto| |].
    - unfold addr_key_from_bytes, addr_key. cbn [addr_bytes]. rewrite W. cbn [Nat.eqb orb]. now rewrite beqb_refl.
    - destruct W as [W ->]. unfold addr_key_from_bytes, addr_key. cbn [addr_bytes]. rewrite W. cbn [Nat.eqb orb].
      now rewrite beqb_refl.
  Qed.

  Lemma q_leashes : exists ls, leashes d = Ok ls /\ NoDup (map fst ls) /\
    (forall a i, In (a, i) ls <-> wf_addr a /\ st_leash s a = Some i /\ a <> all_ones) /\
    StronglySorted (fun x y => bcmp (addr_bytes (fst x)) (addr_bytes (fst y)) = Lt) ls.
  Proof.
    unfold leashes. set (rg := kv_range leashes_start leashes_limit d).
    assert (SR : ksorted rg) by apply kv_range_sorted, (R_sorted R).
    assert (E : forall k v, In (k, v) rg <->
       exists a i, wf_addr a /\ st_leash s a = Some i /\ a <> all_ones /\ k = addr_key a /\ v = VBytes i).
    { intros k v. unfold rg. rewrite kv_range_In, (kv_In_iff _ _ (R_sorted R)). split.
      - intros (G & A & B). unfold leashes_start, leashes_limit, addr_key in A, B.
        destruct (range_prefix A B) as [r ->]. destruct (R_key3 R _ G) as (a & WA & ->).
        assert (L := R_leash R a WA). unfold addr_key in L. rewrite G in L.
        destruct (st_leash s a) as [i|] eqn:SL; [|discriminate]. injection L as ->.
        exists a, i. repeat split; auto. intros ->. cbn in B. discriminate B.
      - intros (a & i & WA & SL & NA & -> & ->). split; [rewrite (R_leash R a WA), SL; reflexivity|].
        assert (AL := addr_len WA). split.
        + unfold leashes_start, addr_key, bleb. rewrite bcmp_cons. cbn [addr_bytes].
          assert (Z := zeros_le (k := 4) (r := addr_bytes a)). destruct (bcmp _ _); auto. exfalso. apply Z; [lia|reflexivity].
        + unfold leashes_limit, addr_key. apply bltb_lt. rewrite bcmp_cons. cbn [addr_bytes].
          apply ones_lt; [lia|]. intros Q. apply NA. apply addr_bytes_inj; auto; try (cbn; now split). }
    set (conv := fun b : bytes * val => (match addr_key_from_bytes (fst b) with Ok a => a | _ => AZero end,
                                          match snd b with VBytes v => v | _ => [] end) : addr * id).
    assert (CV : forall a i, wf_addr a -> conv (addr_key a, VBytes i) = (a, i)).
    { intros a i WA. unfold conv. cbn [fst snd]. now rewrite addr_key_roundtrip. }
    exists (map conv rg). repeat split.
    - apply mapM_ok. intros [k v] I. apply E in I as (a & i & WA & SL & NA & -> & ->). rewrite CV by auto.
      unfold leash_of_binding. cbn [fst snd]. rewrite addr_key_roundtrip by auto. cbn [bind].
      rewrite new_block_id_wf by exact (R_leash_wf R _ SL). reflexivity.
    - apply NoDup_map_inv with (f := addr_key). rewrite !map_map.
      erewrite map_ext_in; [apply (ksorted_NoDup SR)|]. intros [k v] I. apply E in I as (a & i & WA & SL & NA & -> & ->). now rewrite CV.
    - apply in_map_iff in H as ([k v] & C & I). apply E in I as (a' & i' & WA & SL & NA & -> & ->).
      rewrite CV in C by auto. injection C as <- <-. auto.
    - apply in_map_iff in H as ([k v] & C & I). apply E in I as (a' & i' & WA & SL & NA & -> & ->).
      rewrite CV in C by auto. injection C as <- <-. auto.
    - apply in_map_iff in H as ([k v] & C & I). apply E in I as (a' & i' & WA & SL & NA & -> & ->).
      rewrite CV in C by auto. injection C as <- <-. auto.
    - intros (WA & SL & NA). apply in_map_iff. exists (addr_key a, VBytes i). split; auto. apply E. eauto 10.
    - assert (E' : forall x, In x rg -> fst x = addr_key (fst (conv x))).
      { intros [k v] I. apply E in I as (a' & i' & WA & SL & NA & -> & ->). now rewrite CV. }
      clear E. induction SR as [|x rg' SR IH FA]; cbn [map]; constructor.
      + apply IH. intros y Y. apply E'. now right.
      + rewrite Forall_forall in *. intros y Y. apply in_map_iff in Y as (z & <- & I).
        assert (K := FA _ I). unfold klt in K. rewrite (E' x (or_introl eq_refl)), (E' z (or_intror I)) in K.
        unfold addr_key in K. now rewrite bcmp_cons in K.
  Qed.
End Queries.
