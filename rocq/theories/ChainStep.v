(** Refinement: every call on the database is matched by the specification. *)
From Verif Require Import Base Kv BytesFacts KvFacts ChainModel ChainSpec ChainTree ChainRep.
Set Implicit Arguments. Unset Strict Implicit.

(** * Heads lists *)

Lemma replace_length : forall x y hs k, index_of x hs = Some k -> length (replace_head x y hs) = length hs.
Proof.
  intros x y hs k H. unfold replace_head. apply index_of_nth, nth_error_In, existsb_id in H. rewrite H.
  now rewrite map_length.
Qed.
Lemma replace_nth : forall x y hs k, NoDup hs -> index_of x hs = Some k ->
  forall j, nth_error (replace_head x y hs) j = if Nat.eqb j k then Some y else nth_error hs j.
Proof.
  intros x y hs k ND H j. unfold replace_head.
  assert (E := H). apply index_of_nth in E. assert (I := nth_error_In _ _ E). apply existsb_id in I. rewrite I.
  rewrite nth_error_map. destruct (Nat.eqb_spec j k) as [->|N].
  - rewrite E. simpl. now rewrite id_eqb_refl.
  - destruct (nth_error hs j) as [h|] eqn:J; simpl; auto.
    destruct (id_eqb_spec h x); auto. subst h. apply (nth_index_of ND) in J. congruence.
Qed.
Lemma replace_app : forall x y hs, index_of x hs = None -> replace_head x y hs = hs ++ [y].
Proof. intros x y hs H. apply index_of_None, existsb_id_false in H. unfold replace_head. now rewrite H. Qed.

Lemma index_iff : forall hs i k, NoDup hs -> (index_of i hs = Some k <-> nth_error hs k = Some i).
Proof. intros. split; [apply index_of_nth | now apply nth_index_of]. Qed.

Lemma index_replace : forall x y hs k, NoDup hs -> ~ In y hs -> index_of x hs = Some k ->
  forall i, index_of i (replace_head x y hs) =
            if id_eqb i y then Some k else if id_eqb i x then None else index_of i hs.
Proof.
  intros x y hs k ND NI H i. assert (ND' := NoDup_replace_head x y NI ND).
  assert (Hx := index_of_nth _ _ H).
  destruct (id_eqb_spec i y) as [->|Ny].
  - apply nth_index_of; auto. rewrite (replace_nth y ND H). now rewrite Nat.eqb_refl.
  - assert (Q : forall j, index_of i (replace_head x y hs) = Some j <-> j <> k /\ index_of i hs = Some j).
    { intros j. rewrite (index_iff i j ND'), (index_iff i j ND), (replace_nth y ND H).
      destruct (Nat.eqb_spec j k); split; intros; try tauto; try (split; congruence); try congruence. }
    destruct (id_eqb_spec i x) as [->|Nx].
    + destruct (index_of x (replace_head x y hs)) as [j|] eqn:E; auto.
      destruct (proj1 (Q j) eq_refl) as [A B]. congruence.
    + destruct (index_of i (replace_head x y hs)) as [j|] eqn:E.
      * destruct (proj1 (Q j) eq_refl) as [A B]. auto.
      * destruct (index_of i hs) as [j|] eqn:F; auto.
        assert (None = Some j) as C; [|discriminate C]. apply Q. split; auto.
        intros ->. apply index_of_nth in F. congruence.
Qed.
Lemma index_app : forall y hs i, ~ In y hs ->
  index_of i (hs ++ [y]) = if id_eqb i y then Some (length hs) else index_of i hs.
Proof.
  induction hs as [|h hs IH]; intros i N; simpl.
  - destruct (id_eqb_spec i y); destruct (id_eqb_spec y i); congruence.
  - simpl in N. rewrite (IH i) by tauto. destruct (id_eqb_spec i y) as [->|].
    + destruct (id_eqb_spec h y); [tauto|]. reflexivity.
    + reflexivity.
Qed.

(** * Adding a block *)

Ltac keys :=
  repeat first
    [ rewrite beqb_cons_same
    | rewrite beqb_cons_diff by discriminate
    | rewrite beqb_refl
    | rewrite wf_id_be8 by assumption
    | rewrite be8_wf_id by assumption
    | rewrite beqb_be8 by assumption ].
Ltac bget :=
  unfold batch_get, update_leash, put_counter, put_id, put_num, put_block_rec, put_link_rec, put_leash, id_key, num_key,
    addr_key, counter_key, counterPrefix, blockPrefix, chainPrefix, leashPrefix, headToBlockPrefix, blockToHeadPrefix,
    blocksCounter, headsCounter;
  cbn [fold_left bop_get app]; keys.

Definition entry_batch (n : N) (e : entry) (c : list entry) (l : slink) : batch val :=
  [put_counter blocksCounter n; put_id (e_id e) n; put_block_rec n (sblock_of e c); put_link_rec n l].

Lemma be8_neq : forall n m : nat, n <> m -> (N.of_nat n =? N.of_nat m)%N = false.
Proof. intros. apply N.eqb_neq. lia. Qed.

Lemma rep_add : forall d s e p x xn l, Rep d s -> small (st_blocks s) ->
  wf_id (e_id e) -> ~ stored (st_blocks s) (e_id e) ->
  e_parent e = Some p -> stored (st_blocks s) p ->
  e_ext e = Some x -> num_of (st_blocks s) x = Some xn -> length (e_gen e) = 26 ->
  link_ok (e :: st_blocks s) (e_id e) l ->
  let n := N.of_nat (S (length (st_blocks s))) in
  exists hd, put_head d n (N.of_nat xn) = Ok hd /\
    Rep (apply_batch d (entry_batch n e (e :: chain (st_blocks s) p) l ++ hd)) (st_add e s).
Proof.
  intros d s e p x xn l R SM WI F P SP X XN G L n.
  set (es := st_blocks s) in *.
  assert (SX : stored es x) by (apply num_of_stored; eauto).
  assert (B64 : forall m, m <= S (length es) -> (N.of_nat m < 2 ^ 64)%N).
  { intros m M. unfold small in SM. assert (2 ^ 32 < 2 ^ 64)%N by reflexivity. lia. }
  assert (Bn : (n < 2 ^ 64)%N) by (apply B64; lia).
  assert (Bx : (N.of_nat xn < 2 ^ 64)%N) by (apply B64; apply num_of_bound in XN; lia).
  assert (W' : WF (e :: es)) by (econstructor; eauto; apply (R_wf R)).
  assert (ND : NoDup (sheads es)) by (apply sheads_NoDup, (R_wf R)).
  assert (NI : ~ In (e_id e) (sheads es)) by (intros I; apply sheads_stored in I; contradiction).
  assert (XE : x <> e_id e) by (intros ->; contradiction).
  assert (HL := sheads_length es).
  set (hd := match index_of x (sheads es) with
             | Some k => [BDel (num_key blockToHeadPrefix (N.of_nat xn)); put_num headToBlockPrefix (N.of_nat (S k)) n;
                          put_num blockToHeadPrefix n (N.of_nat (S k))]
             | None => [put_counter headsCounter (N.of_nat (S (length (sheads es))));
                        put_num headToBlockPrefix (N.of_nat (S (length (sheads es)))) n;
                        put_num blockToHeadPrefix n (N.of_nat (S (length (sheads es))))]
             end).
  exists hd. split.
  { unfold put_head. rewrite (rep_head_num R SM _ XN). fold es. unfold hd.
    destruct (index_of x (sheads es)) as [k|]; auto.
    unfold put_new_head. rewrite (rep_counter_heads R SM). cbn [bind]. fold es.
    replace (u64 (N.of_nat (length (sheads es)) + 1)) with (N.of_nat (S (length (sheads es)))); auto.
    unfold u64. rewrite N.mod_small; [lia|]. specialize (B64 (S (length (sheads es)))). lia. }
  set (b := entry_batch n e (e :: chain es p) l ++ hd).
  assert (GB := fun k => get_batch k b (R_sorted R)).
  assert (NUM : forall i m, num_of (e :: es) i = Some m ->
            (i = e_id e /\ m = S (length es)) \/ (i <> e_id e /\ num_of es i = Some m /\ 0 < m <= length es)).
  { intros i m H. simpl in H. destruct (id_eqb_spec (e_id e) i) as [<-|N].
    - left. split; congruence.
    - right. repeat split; auto; apply num_of_bound in H; lia. }
  (* lookups that do not depend on which head update is performed *)
  assert (Hblk : forall m, (m < 2 ^ 64)%N -> kv_get (num_key blockPrefix m) (apply_batch d b) =
     if (m =? n)%N then Some (VBlock (sblock_of e (e :: chain es p))) else kv_get (num_key blockPrefix m) d).
  { intros m M. rewrite GB. unfold b, hd, entry_batch. destruct (index_of x (sheads es)); bget;
    destruct (N.eqb_spec m n); auto. }
  assert (Hlnk : forall m, (m < 2 ^ 64)%N -> kv_get (num_key chainPrefix m) (apply_batch d b) =
     if (m =? n)%N then Some (VLink l) else kv_get (num_key chainPrefix m) d).
  { intros m M. rewrite GB. unfold b, hd, entry_batch. destruct (index_of x (sheads es)); bget;
    destruct (N.eqb_spec m n); auto. }
  assert (Hid : forall i, wf_id i -> kv_get (id_key blockPrefix i) (apply_batch d b) =
     if id_eqb i (e_id e) then Some (VBytes (be 8 n)) else kv_get (id_key blockPrefix i) d).
  { intros i I. rewrite GB. unfold b, hd, entry_batch. destruct (index_of x (sheads es)); bget;
    unfold id_eqb; destruct (beqb i (e_id e)); auto. }
  assert (Hlsh : forall r, kv_get (leashPrefix :: r) (apply_batch d b) = kv_get (leashPrefix :: r) d).
  { intros r. rewrite GB. unfold b, hd, entry_batch. destruct (index_of x (sheads es)); bget; auto. }
  constructor; cbn [st_blocks st_add st_leash]; fold es.
  - apply ksorted_batch, (R_sorted R).
  - exact W'.
  - rewrite GB. unfold b, hd, entry_batch. destruct (index_of x (sheads es)); bget; reflexivity.
  - cbn [sheads]. rewrite X. rewrite GB. unfold b, hd, entry_batch.
    destruct (index_of x (sheads es)) as [k|] eqn:IX; bget.
    + rewrite (replace_length _ IX). apply (R_hcnt R).
    + rewrite (replace_app _ IX), app_length. simpl length. do 3 f_equal. lia.
  - intros i m e' c NM C.
    assert (SI : stored (e :: es) i) by (apply num_of_stored; eauto).
    assert (WI' := stored_wf W' SI).
    rewrite Hid, Hblk, Hlnk by (auto; apply B64; destruct (NUM _ _ NM) as [[_ ->]|(_ & _ & ?)]; lia).
    destruct (NUM _ _ NM) as [[-> ->]|(NE & NM' & BM)].
    + rewrite id_eqb_refl. fold n. rewrite N.eqb_refl.
      rewrite (chain_cons_eq e es P) in C. injection C as <- <-. eauto.
    + destruct (id_eqb_spec i (e_id e)); [contradiction|].
      unfold n. rewrite be8_neq by lia.
      rewrite chain_cons_neq in C by congruence.
      destruct (R_ent R _ NM' C) as (A1 & A2 & l' & A3 & L1 & L2 & L3).
      repeat split; auto. exists l'. split; auto. unfold link_ok.
      rewrite chain_cons_neq by congruence. repeat split; auto. intros j. rewrite L3. fold es.
      destruct (nth_error (chain es i) (2 ^ j)) as [a|] eqn:A; auto. unfold numN. rewrite num_of_fresh; auto.
      apply In_stored. eapply chain_In, nth_error_In, A.
  - intros i WI' NS. rewrite Hid by auto. rewrite stored_cons in NS.
    destruct (id_eqb_spec i (e_id e)) as [->|]; [tauto|]. apply (R_noid R); auto.
  - intros k i m K NM. cbn [sheads] in K. rewrite X in K.
    assert (BK : k <= length (sheads es)).
    { assert (k < length (replace_head x (e_id e) (sheads es))) by (apply nth_error_Some; congruence).
      destruct (index_of x (sheads es)) as [k0|] eqn:IX.
      - rewrite (replace_length _ IX) in *. lia.
      - rewrite (replace_app _ IX), app_length in *. simpl in *. lia. }
    assert (Bk : (N.of_nat (S k) < 2 ^ 64)%N) by (apply B64; lia).
    rewrite GB. unfold b, hd, entry_batch. destruct (index_of x (sheads es)) as [k0|] eqn:IX.
    + assert (Bk0 : (N.of_nat (S k0) < 2 ^ 64)%N) by (apply B64; apply index_of_bound in IX; lia).
      rewrite (replace_nth _ ND IX) in K. bget.
      destruct (Nat.eqb_spec k k0) as [->|NE].
      * injection K as <-. rewrite N.eqb_refl. destruct (NUM _ _ NM) as [[_ ->]|(? & _)]; [reflexivity|tauto].
      * rewrite be8_neq by lia. destruct (NUM _ _ NM) as [[-> ->]|(_ & NM' & _)].
        { apply nth_error_In in K. contradiction. }
        { apply (R_h2b R _ K NM'). }
    + rewrite (replace_app _ IX) in K.
      assert (Bh : (N.of_nat (S (length (sheads es))) < 2 ^ 64)%N) by (apply B64; lia).
      bget. destruct (Nat.eq_dec k (length (sheads es))) as [->|NE].
      * rewrite nth_error_app2, Nat.sub_diag in K by lia. injection K as <-. rewrite N.eqb_refl.
        destruct (NUM _ _ NM) as [[_ ->]|(? & _)]; [reflexivity|tauto].
      * rewrite be8_neq by lia. rewrite nth_error_app1 in K by lia.
        destruct (NUM _ _ NM) as [[-> ->]|(_ & NM' & _)].
        { apply nth_error_In in K. contradiction. }
        { apply (R_h2b R _ K NM'). }
  - intros i m NM. cbn [sheads]. rewrite X.
    assert (Bm : (N.of_nat m < 2 ^ 64)%N) by (apply B64; destruct (NUM _ _ NM) as [[_ ->]|(_ & _ & ?)]; lia).
    rewrite GB. unfold b, hd, entry_batch. destruct (index_of x (sheads es)) as [k0|] eqn:IX.
    + rewrite (index_replace ND NI IX). bget. destruct (NUM _ _ NM) as [[-> ->]|(NE & NM' & BM)].
      * rewrite id_eqb_refl. fold n. now rewrite N.eqb_refl.
      * destruct (id_eqb_spec i (e_id e)); [contradiction|]. unfold n. rewrite be8_neq by lia.
        destruct (id_eqb_spec i x) as [->|NX].
        { replace m with xn by congruence. now rewrite N.eqb_refl. }
        { rewrite be8_neq.
          - apply (R_b2h R _ NM').
          - intros ->. apply NX. eapply num_of_inj; eauto. }
    + rewrite (replace_app _ IX), index_app by auto. bget. destruct (NUM _ _ NM) as [[-> ->]|(NE & NM' & BM)].
      * rewrite id_eqb_refl. fold n. now rewrite N.eqb_refl.
      * destruct (id_eqb_spec i (e_id e)); [contradiction|]. unfold n. rewrite be8_neq by lia.
        apply (R_b2h R _ NM').
  - intros a A. unfold addr_key. rewrite Hlsh. apply (R_leash R _ A).
  - apply (R_leash_wf R).
  - intros r v H. rewrite Hlsh in H. apply (R_key3 R _ H).
  - intros r v H. cbn [sheads]. rewrite X. rewrite GB in H. revert H. unfold b, hd, entry_batch.
    destruct (index_of x (sheads es)) as [k0|] eqn:IX.
    + rewrite (replace_length _ IX). bget. destruct (beqb_spec r (be 8 (N.of_nat (S k0)))) as [->|N].
      * intros _. exists k0. split; auto. eapply index_of_bound, IX.
      * intros H. apply (R_key4 R _ H).
    + rewrite (replace_app _ IX), app_length. cbn [length]. bget.
      destruct (beqb_spec r (be 8 (N.of_nat (S (length (sheads es)))))) as [->|N].
      * intros _. exists (length (sheads es)). split; auto. lia.
      * intros H. destruct (R_key4 R _ H) as (k & K & E). exists k. split; auto. fold es in K. lia.
Qed.

(** * Moving a leash *)

Lemma rep_leash_set : forall d s a i, Rep d s -> wf_addr a -> wf_id i ->
  Rep (apply_batch d (update_leash a i)) (st_set_leash a i s).
Proof.
  intros d s a i R WA WI. assert (GB := fun k => get_batch k (update_leash a i) (R_sorted R)).
  assert (Q : forall p r, p <> leashPrefix -> kv_get (p :: r) (apply_batch d (update_leash a i)) = kv_get (p :: r) d).
  { intros p r N. rewrite GB. unfold batch_get, update_leash, put_leash, addr_key. cbn [fold_left bop_get].
    now rewrite beqb_cons_diff. }
  constructor; cbn [st_blocks st_set_leash st_leash]; unfold id_key, num_key, counter_key;
    try (intros; repeat rewrite Q by discriminate).
  - apply ksorted_batch, (R_sorted R).
  - apply (R_wf R).
  - apply (R_cnt R).
  - apply (R_hcnt R).
  - eapply (R_ent R); eauto.
  - apply (R_noid R); auto.
  - eapply (R_h2b R); eauto.
  - eapply (R_b2h R); eauto.
  - rewrite GB. bget. rewrite beqb_addr by auto. destruct (addr_eqb a0 a); auto. apply (R_leash R _ H).
  - destruct (addr_eqb a0 a); [congruence|]. eapply (R_leash_wf R); eauto.
  - rewrite GB in H. revert H. bget. destruct (beqb_spec r (addr_bytes a)) as [->|].
    + eauto.
    + intros H. apply (R_key3 R _ H).
  - rewrite Q in H by discriminate. apply (R_key4 R _ H).
Qed.

(** * Calls *)

Lemma calculate_score_spec : forall bt,
  calculate_score bt = if (max_int64 <? bt)%N then Panic else Ok (block_score bt).
Proof.
  intros bt. unfold calculate_score, block_score. destruct (N.eqb_spec bt 0) as [->|N]; [reflexivity|].
  destruct (N.ltb max_int64 bt); reflexivity.
Qed.

Lemma u32_succ : forall es i, small es -> u32 (N.of_nat (length (chain es i)) + 1) = N.of_nat (S (length (chain es i))).
Proof.
  intros es i SM. unfold u32. pose proof (chain_length es i). unfold small in SM. rewrite N.mod_small; lia.
Qed.
Lemma u64_succ : forall es : list entry, small es -> u64 (N.of_nat (length es) + 1) = N.of_nat (S (length es)).
Proof.
  intros es SM. unfold u64. unfold small in SM. assert (2 ^ 32 < 2 ^ 64)%N by reflexivity. rewrite N.mod_small; lia.
Qed.

Lemma put_proto_block_spec : forall d s b, Rep d s -> small (st_blocks s) -> wf_pblock b ->
  ~ stored (st_blocks s) (pb_id b) -> stored (st_blocks s) (pb_parent b) ->
  match pb_gen b with
  | None => put_proto_block d b = Err EOther
  | Some ga =>
      if (max_int64 <? pb_bt b)%N then put_proto_block d b = Panic
      else exists bt, put_proto_block d b = Ok bt /\
           Rep (apply_batch d bt)
               (st_add {| e_id := pb_id b; e_parent := Some (pb_parent b); e_ext := Some (pb_parent b);
                          e_own := block_score (pb_bt b); e_ts := pb_ts b; e_gen := ga |} s)
  end.
Proof.
  intros d s b R SM (WI & WP & WG) F SP. unfold put_proto_block.
  rewrite (rep_counter_blocks R SM). cbn [bind].
  destruct (proj1 (num_of_stored _ _) SP) as [pn PN].
  rewrite (rep_num R SM _ PN). cbn [bind].
  destruct (chain_hd SP) as (pe & c & C & PE & PI).
  rewrite (rep_block R _ PN C). cbn [bind]. unfold new_block.
  destruct (pb_gen b) as [ga|]; [|reflexivity].
  unfold calculate_cumulative_score. rewrite calculate_score_spec.
  destruct (max_int64 <? pb_bt b)%N; [reflexivity|]. cbn [bind].
  cbn [sb_height sblock_of sb_score]. rewrite <- C. rewrite (u64_succ SM), (u32_succ _ SM).
  set (e := {| e_id := pb_id b; e_parent := Some (pb_parent b); e_ext := Some (pb_parent b);
               e_own := block_score (pb_bt b); e_ts := pb_ts b; e_gen := ga |}).
  destruct (new_link_spec R SM e SP eq_refl F (N.of_nat (S (length (st_blocks s))))) as (l & NL & L).
  change (e_id e) with (pb_id b) in NL. rewrite NL. cbn [bind].
  destruct (rep_add (e := e) R SM WI F eq_refl SP eq_refl PN WG L) as (hd & H & R').
  rewrite H. cbn [bind]. eexists. split; [reflexivity|]. exact R'.
Qed.

Lemma put_micro_block_spec : forall d s m r c, Rep d s -> small (st_blocks s) -> wf_id (mi_total m) ->
  ~ stored (st_blocks s) (mi_total m) -> chain (st_blocks s) (mi_ref m) = r :: c ->
  match e_parent r with
  | None => put_micro_block_st d m = Err EOther
  | Some p => exists bt, put_micro_block_st d m = Ok bt /\
           Rep (apply_batch d bt)
               (st_add {| e_id := mi_total m; e_parent := Some p; e_ext := Some (mi_ref m);
                          e_own := e_own r; e_ts := e_ts r; e_gen := e_gen r |} s)
  end.
Proof.
  intros d s m r c R SM WI F C. unfold put_micro_block_st.
  rewrite (rep_counter_blocks R SM). cbn [bind].
  assert (SR : stored (st_blocks s) (mi_ref m)).
  { destruct (stored_dec (st_blocks s) (mi_ref m)) as [S|S]; auto. apply chain_nil in S. congruence. }
  destruct (proj1 (num_of_stored _ _) SR) as [rn RN].
  rewrite (rep_num R SM _ RN). cbn [bind]. rewrite (rep_block R _ RN C). cbn [bind].
  cbn [sblock_of sb_parent sb_height sb_ts sb_score sb_gen].
  assert (Q : In r (st_blocks s)) by (eapply chain_In; rewrite C; now left).
  assert (CP : forall p, e_parent r = Some p -> stored (st_blocks s) p /\ c = chain (st_blocks s) p).
  { intros p P. destruct (chain_hd SR) as (r' & c' & C' & ID & _). rewrite C in C'. injection C' as <- <-.
    clear - P C ID R. generalize (R_wf R). revert C. generalize (st_blocks s). intros es C W. revert C.
    induction W as [e W1 W2 W3 W4 | e older p' x W IH I F P' SP X SX G]; intros C; cbn [chain] in C.
    - destruct (id_eqb_spec (e_id e) (mi_ref m)); [|discriminate]. injection C as <- <-. congruence.
    - destruct (id_eqb_spec (e_id e) (mi_ref m)).
      + injection C as <- <-. rewrite P in *. injection P' as <-. split; [apply stored_cons; auto|].
        symmetry. apply chain_fresh; auto.
      + destruct (IH C) as [S E]. split; [apply stored_cons; auto|]. rewrite E. symmetry. apply chain_fresh; auto. }
  assert (GR : length (e_gen r) = 26).
  { clear - Q R. generalize (R_wf R). revert Q. generalize (st_blocks s). intros es Q W.
    induction W as [e W1 W2 W3 W4 | e older p' x W IH I F P' SP X SX G]; destruct Q as [<-|Q]; auto. destruct Q. }
  destruct (e_parent r) as [p|] eqn:P; [|reflexivity].
  destruct (CP p eq_refl) as [SP EC].
  unfold new_block_id. assert (WP := stored_wf (R_wf R) SP).
  replace (Nat.eqb (length p) 32 || Nat.eqb (length p) 64) with true by (destruct WP as [->| ->]; reflexivity).
  cbn [bind]. rewrite (u64_succ SM). cbn [length].
  set (e := {| e_id := mi_total m; e_parent := Some p; e_ext := Some (mi_ref m);
               e_own := e_own r; e_ts := e_ts r; e_gen := e_gen r |}).
  destruct (new_link_spec R SM e SP eq_refl F (N.of_nat (S (length (st_blocks s))))) as (l & NL & L).
  change (e_id e) with (mi_total m) in NL. rewrite <- EC in NL. rewrite NL. cbn [bind].
  destruct (rep_add (e := e) R SM WI F eq_refl SP eq_refl RN GR L) as (hd & H & R').
  rewrite H. cbn [bind]. eexists. split; [reflexivity|].
  unfold entry_batch, sblock_of in R'. cbn [e e_id e_parent e_ext e_own e_ts e_gen sum_own fold_right length] in R'.
  rewrite <- EC in R'. exact R'.
Qed.

(** What a call writes, and what it returns, is what the specification prescribes, step by step. *)
Lemma op_refines : forall g l s o, Rep (lk_db l) s -> small (st_blocks s) -> wf_op o ->
  let '(ws, r) := op_writes g l o in
  let '(fs, r') := effects s o in
  r = r' /\ length ws = length fs /\
  forall k, Rep (apply_writes (lk_db l) (firstn k ws)) (apply_effects s (firstn k fs)).
Proof.
  intros g l s o R SM W. destruct o as [b a|m a|i a|]; cbn [op_writes effects wf_op] in *.
  - destruct W as [WB WA]. destruct WB as (WI & WP & WG) eqn:EWB. clear EWB. unfold put_block.
    rewrite (rep_has_block R SM WI). destruct (stored_dec (st_blocks s) (pb_id b)) as [S|S].
    + destruct (chain_hd S) as (e & c & -> & _). split; [reflexivity|split; [reflexivity|]]. intros [|k]; [exact R|].
      destruct k; cbn; apply rep_leash_set; auto.
    + rewrite (chain_nil S). rewrite (rep_has_block R SM WP).
      destruct (stored_dec (st_blocks s) (pb_parent b)) as [SP|SP].
      * destruct (chain_hd SP) as (e & c & -> & _).
        assert (Q := put_proto_block_spec R SM WB S SP).
        destruct (pb_gen b) as [ga|].
        { destruct (max_int64 <? pb_bt b)%N.
          - rewrite Q. split; [reflexivity|split; [reflexivity|]]. intros [|k]; exact R.
          - destruct Q as (bt & -> & R'). split; [reflexivity|split; [reflexivity|]]. intros [|[|k]]; [exact R|exact R'|].
            destruct k; cbn; apply rep_leash_set; auto. }
        { rewrite Q. split; [reflexivity|split; [reflexivity|]]. intros [|k]; exact R. }
      * rewrite (chain_nil SP). split; [reflexivity|split; [reflexivity|]]. intros [|k]; exact R.
  - destruct W as (WI & WP & WA). unfold put_micro_block.
    rewrite (rep_has_block R SM WI). destruct (stored_dec (st_blocks s) (mi_total m)) as [S|S].
    + destruct (chain_hd S) as (e & c & -> & _). split; [reflexivity|split; [reflexivity|]]. intros [|k]; [exact R|].
      destruct k; cbn; apply rep_leash_set; auto.
    + rewrite (chain_nil S). rewrite (rep_has_block R SM WP).
      destruct (stored_dec (st_blocks s) (mi_ref m)) as [SP|SP].
      * destruct (chain_hd SP) as (e & c & C & _). rewrite C.
        assert (Q := put_micro_block_spec R SM WI S C).
        destruct (e_parent e) as [p|].
        { destruct Q as (bt & -> & R'). split; [reflexivity|split; [reflexivity|]]. intros [|[|k]]; [exact R|exact R'|].
          destruct k; cbn; apply rep_leash_set; auto. }
        { rewrite Q. split; [reflexivity|split; [reflexivity|]]. intros [|k]; exact R. }
      * rewrite (chain_nil SP). split; [reflexivity|split; [reflexivity|]]. intros [|k]; exact R.
  - destruct W as [WI WA]. unfold move_leash. split; [reflexivity|split; [reflexivity|]]. intros [|k]; [exact R|].
    destruct k; cbn; apply rep_leash_set; auto.
  - unfold new_linkage, initialize. rewrite (rep_counter_blocks R SM). cbn [bind].
    assert (N := WF_nonempty (R_wf R)). destruct (N.eqb_spec (N.of_nat (length (st_blocks s))) 0) as [E|E].
    + destruct (st_blocks s); [contradiction|]. simpl in E. lia.
    + cbn. split; [reflexivity|split; [reflexivity|]]. intros [|k]; exact R.
Qed.

Lemma exec_refines : forall g l s o f, Rep (lk_db l) s -> small (st_blocks s) -> wf_op o ->
  Rep (lk_db (fst (exec g l o f))) (fst (sexec s o f)) /\ snd (exec g l o f) = snd (sexec s o f) /\
  lk_genesis (fst (exec g l o f)) = lk_genesis l.
Proof.
  intros g l s o f R SM W. assert (Q := op_refines g R SM W). unfold exec, sexec.
  destruct (op_writes g l o) as [ws r]. destruct (effects s o) as [fs r']. destruct Q as (-> & L & Q).
  destruct f as [k|].
  - rewrite <- L. destruct (Nat.ltb_spec k (length ws)).
    + cbn. auto.
    + cbn. specialize (Q (length ws)). rewrite firstn_all in Q. rewrite L in Q. rewrite firstn_all in Q. auto.
  - cbn. specialize (Q (length ws)). rewrite firstn_all in Q. rewrite L in Q. rewrite firstn_all in Q. auto.
Qed.

Lemma effects_length : forall s o k, length (st_blocks (apply_effects s (firstn k (fst (effects s o))))) <= S (length (st_blocks s)).
Proof.
  intros s o k.
  assert (Q1 : forall a i, length (st_blocks (apply_effects s (firstn k [st_set_leash a i]))) <= S (length (st_blocks s)))
    by (intros; destruct k as [|[|k]]; cbn; lia).
  assert (Q0 : length (st_blocks (apply_effects s (firstn k []))) <= S (length (st_blocks s)))
    by (destruct k as [|[|k]]; cbn; lia).
  assert (Q2 : forall e a i, length (st_blocks (apply_effects s (firstn k [st_add e; st_set_leash a i]))) <= S (length (st_blocks s)))
    by (intros; destruct k as [|[|[|k]]]; cbn; lia).
  destruct o as [b a|m a|i a|]; cbn [effects].
  - destruct (chain _ _); [|apply Q1]. destruct (chain _ _); [apply Q0|].
    destruct (pb_gen b); [|apply Q0]. destruct (N.ltb _ _); [apply Q0|apply Q2].
  - destruct (chain _ _); [|apply Q1]. destruct (chain _ _); [apply Q0|].
    destruct (e_parent e); [apply Q2|apply Q0].
  - apply Q1.
  - apply Q0.
Qed.
Lemma sexec_length : forall s o f, length (st_blocks (fst (sexec s o f))) <= S (length (st_blocks s)).
Proof.
  intros s o f. unfold sexec. assert (Q := effects_length s o). destruct (effects s o) as [fs r]. cbn [fst] in Q.
  destruct f as [k|]; [destruct (Nat.ltb k (length fs))|]; cbn [fst]; auto;
    rewrite <- (firstn_all fs); auto.
Qed.

Lemma run_refines : forall g ops l s, Rep (lk_db l) s -> Forall (fun of => wf_op (fst of)) ops ->
  (N.of_nat (length (st_blocks s) + length ops) < 2 ^ 32 - 1)%N ->
  Rep (lk_db (run g l ops)) (srun s ops) /\ lk_genesis (run g l ops) = lk_genesis l /\ small (st_blocks (srun s ops)).
Proof.
  intros g ops. induction ops as [|[o f] ops IH]; intros l s R FA B; cbn [run srun].
  - split; [exact R|]. split; [reflexivity|]. unfold small. cbn [length] in B. lia.
  - inversion FA; subst. cbn [fst] in *. cbn [length] in B.
    assert (SM : small (st_blocks s)) by (unfold small; lia).
    destruct (exec_refines g f R SM H1) as (R' & _ & G).
    destruct (IH _ _ R' H2) as (A1 & A2 & A3).
    + pose proof (sexec_length s o f). lia.
    + split; [exact A1|]. split; [congruence|exact A3].
Qed.

Lemma start_rep : forall g l, wf_pblock g -> start g = Ok l ->
  Rep (lk_db l) (sstart g) /\ lk_genesis l = pb_id g.
Proof.
  intros g l (WI & WP & WG) H. unfold start, new_linkage, initialize in H.
  change (get_counter [] blocksCounter) with (Ok 0%N) in H. cbn [bind] in H. change (0 =? 0)%N with true in H. cbv iota in H.
  destruct (pb_gen g) as [ga|] eqn:G; [|discriminate].
  rewrite calculate_score_spec in H. destruct (max_int64 <? pb_bt g)%N; [discriminate|].
  cbn [bind fst snd] in H.
  match type of H with Ok ?x = Ok _ =>
    assert (E : x = l) by (change (match Ok x with Ok y => y | _ => x end = l); rewrite H; reflexivity) end.
  clear H. subst l. cbn [lk_db lk_genesis]. split; [|reflexivity].
  unfold apply_writes. cbn [fold_left].
  match goal with |- Rep (apply_batch _ ?x) _ => set (b := x) end.
  assert (S0 : @ksorted val []) by constructor.
  assert (GB := fun k => get_batch k b S0).
  unfold sstart. rewrite G.
  set (e := {| e_id := pb_id g; e_parent := None; e_ext := None; e_own := block_score (pb_bt g); e_ts := pb_ts g; e_gen := ga |}).
  assert (B1 : (1 < 2 ^ 64)%N) by reflexivity.
  assert (W : WF [e]) by (constructor; auto).
  assert (NM : forall i n, num_of [e] i = Some n -> i = pb_id g /\ n = 1).
  { cbn. intros i n. destruct (id_eqb_spec (pb_id g) i); intros E; [split; congruence|discriminate]. }
  constructor; cbn [st_blocks st_leash].
  - now apply ksorted_batch.
  - exact W.
  - rewrite GB. unfold b. bget. reflexivity.
  - rewrite GB. unfold b. bget. reflexivity.
  - intros i n e' c N C. apply NM in N as [-> ->]. cbn in C. rewrite id_eqb_refl in C. injection C as <- <-.
    change (N.of_nat 1) with 1%N. rewrite !GB. unfold b. bget. split; [reflexivity|]. split.
    + unfold sblock_of, e. cbn. rewrite Z.add_0_r. reflexivity.
    + eexists. split; [reflexivity|]. unfold link_ok. cbn. rewrite id_eqb_refl. repeat split.
      intros j. destruct (2 ^ j) as [|[|n]] eqn:P; cbn.
      * exfalso. now apply (Nat.pow_nonzero 2 j).
      * destruct j; reflexivity.
      * destruct j; reflexivity.
  - intros i I N. rewrite GB. unfold b. bget. destruct (beqb_spec i (pb_id g)) as [->|]; [|reflexivity].
    exfalso. apply N. apply stored_cons. auto.
  - intros k i n K N. cbn in K. destruct k as [|k]; [|destruct k; discriminate].
    apply NM in N as [-> ->]. change (N.of_nat 1) with 1%N. rewrite GB. unfold b. bget. reflexivity.
  - intros i n N. apply NM in N as [-> ->]. change (N.of_nat 1) with 1%N. rewrite GB. unfold b. bget.
    cbn [sheads e e_ext e_id index_of]. rewrite id_eqb_refl. reflexivity.
  - intros a _. rewrite GB. unfold b. bget. reflexivity.
  - discriminate.
  - intros r v Hk. rewrite GB in Hk. revert Hk. unfold b. bget. discriminate.
  - intros r v Hk. rewrite GB in Hk. revert Hk. unfold b. bget. destruct (beqb_spec r (be 8 1)) as [->|]; [|discriminate].
    intros _. exists 0. split; [cbn; lia|reflexivity].
Qed.

(** The store reached by any history represents the specification state reached by the same history. *)
Theorem reach_rep : forall g ops l, reachable g ops l ->
  Rep (lk_db l) (srun (sstart g) ops) /\ lk_genesis l = pb_id g /\
  (N.of_nat (length (st_blocks (srun (sstart g) ops))) < 2 ^ 32 - 8)%N.
Proof.
  intros g ops l (W & (F & B) & l0 & S & ->). destruct (start_rep W S) as [R G].
  destruct (run_refines g R F) as (A & C & D).
  - cbn [sstart st_blocks length]. lia.
  - split; [exact A|]. split; [congruence|].
    assert (L : forall ops s, length (st_blocks (srun s ops)) <= length (st_blocks s) + length ops).
    { clear. induction ops as [|[o f] ops IH]; intros s; cbn [srun length]; [lia|].
      specialize (IH (fst (sexec s o f))). pose proof (sexec_length s o f). lia. }
    specialize (L ops (sstart g)). cbn [sstart st_blocks length] in L. cbn [sstart]. lia.
Qed.
