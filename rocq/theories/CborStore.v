(** Databases of bytes against databases of records. *)
From Coq Require Import Strings.Byte.
From Verif Require Import Base Kv ChainModel PeersModel BytesFacts KvFacts ChainSpec ChainProofs PeersSpec PeersProofs CborModel CborProofs.
Set Implicit Arguments.
Unset Strict Implicit.
Open Scope N_scope.

(** * Encoded databases *)
Section Enc.
  Context {V : Type}.
  Variable enc : V -> bytes.
  Lemma get_encoded : forall k d, kv_get k (encoded enc d) = option_map enc (kv_get k d).
  Proof. induction d as [|[k' v] d IH]; cbn; [reflexivity|]. destruct (beqb k k'); [reflexivity|exact IH]. Qed.
  Lemma put_encoded : forall k v d, encoded enc (kv_put k v d) = kv_put k (enc v) (encoded enc d).
  Proof. induction d as [|[k' v'] d IH]; cbn; [reflexivity|]. destruct (bcmp k k'); cbn; [reflexivity..|]. f_equal. exact IH. Qed.
  Lemma filter_encoded : forall (f : bytes -> bool) d, encoded enc (filter (fun b => f (fst b)) d) = filter (fun b => f (fst b)) (encoded enc d).
  Proof. induction d as [|[k v] d IH]; cbn; [reflexivity|]. destruct (f k); cbn; [f_equal|]; exact IH. Qed.
  Lemma del_encoded : forall k d, encoded enc (kv_del k d) = kv_del k (encoded enc d).
  Proof. intros. unfold kv_del. apply (filter_encoded (fun x => negb (beqb k x))). Qed.
  Lemma range_encoded : forall lo hi d, kv_range lo hi (encoded enc d) = encoded enc (kv_range lo hi d).
  Proof. intros. unfold kv_range. symmetry. apply (filter_encoded (fun x => bleb lo x && bltb x hi)). Qed.
  Lemma mapM_encoded : forall B (f : bytes * bytes -> outcome B) (h : bytes * V -> outcome B) d,
    (forall k v, In (k, v) d -> f (k, enc v) = h (k, v)) -> mapM f (encoded enc d) = mapM h d.
  Proof.
    intros B f h d. induction d as [|[k v] d IH]; intros H; [reflexivity|]. cbn [encoded map mapM fst snd]. rewrite (H k v (or_introl eq_refl)).
    destruct (h (k, v)); cbn [bind]; try reflexivity. fold (encoded enc d). rewrite IH; [reflexivity|]. intros; apply H; now right.
  Qed.
End Enc.
Lemma batch_encoded : forall b d, encoded enc_val (apply_batch d b) = apply_batch (encoded enc_val d) (map enc_bop b).
Proof.
  induction b as [|[k v|k] b IH]; intros d; [reflexivity| |]; unfold apply_batch in *; cbn [fold_left map apply_bop enc_bop]; rewrite IH; f_equal; [apply put_encoded|apply del_encoded].
Qed.
Lemma writes_encoded : forall ws d, encoded enc_val (apply_writes d ws) = apply_writes (encoded enc_val d) (map (map enc_bop) ws).
Proof. induction ws as [|b ws IH]; intros d; [reflexivity|]. unfold apply_writes in *. cbn [fold_left map]. rewrite IH. f_equal. apply batch_encoded. Qed.

(** * The kinds of the values of the chains database *)
Definition block_ok (n : N) (b : sblock) : Prop :=
  sb_height b < 2 ^ 32 /\ sb_ts b < 2 ^ 64 /\ (0 <= sb_score b <= 2 ^ 64 * Z.of_N n)%Z /\
  (length (sb_id b) <= 64 /\ length (sb_parent b) <= 64 /\ length (sb_gen b) <= 64)%nat.
Definition link_ok (l : slink) : Prop :=
  sl_height l < 2 ^ 32 /\ (length (sl_id l) <= 64)%nat /\ N.of_nat (length (sl_parents l)) <= 32 /\ Forall (fun n => n < 2 ^ 64) (sl_parents l).
Definition kind (n : N) (k : bytes) (v : val) : Prop :=
  match v with
  | VBytes _ => (exists p r, k = p :: r /\ p <> chainPrefix /\ (p = blockPrefix -> length r <> 8%nat))
  | VBlock b => (exists m, k = num_key blockPrefix m) /\ block_ok n b
  | VLink l => (exists m, k = num_key chainPrefix m) /\ link_ok l
  end.
Definition kinds (n : N) (d : db) : Prop := forall k v, In (k, v) d -> kind n k v.
Definition bop_kind (n : N) (o : bop val) : Prop := match o with BPut k v => kind n k v | BDel _ => True end.

Lemma kind_mono : forall n m k v, n <= m -> kind n k v -> kind m k v.
Proof. intros n m k [x|b|l] H; cbn; auto. intros (E & H1 & H2 & H3 & H4). split; auto. unfold block_ok. split; auto. split; auto. split; [lia|auto]. Qed.
Lemma kinds_bop : forall n d o, kinds n d -> bop_kind n o -> kinds n (apply_bop d o).
Proof.
  intros n d [k v|k] K B x y I; cbn [apply_bop bop_kind] in *.
  - apply In_put in I as [I|I]; [injection I as -> ->; exact B|now apply K].
  - apply In_del in I. now apply K.
Qed.
Lemma kinds_batch : forall n b d, kinds n d -> Forall (bop_kind n) b -> kinds n (apply_batch d b).
Proof. induction b as [|o b IH]; intros d K F; [exact K|]. inversion F; subst. cbn. apply IH; auto. now apply kinds_bop. Qed.
Lemma kinds_writes : forall n ws d, kinds n d -> Forall (Forall (bop_kind n)) ws -> kinds n (apply_writes d ws).
Proof. induction ws as [|b ws IH]; intros d K F; [exact K|]. inversion F; subst. cbn. apply IH; auto. now apply kinds_batch. Qed.

Lemma get_block_kind : forall n d m b, kinds n d -> get_block d m = Ok b -> block_ok n b.
Proof.
  intros n d m b K G. unfold get_block in G. destruct (kv_get (num_key blockPrefix m) d) as [[x|y|l]|] eqn:E; try discriminate. injection G as ->.
  apply kv_get_In in E. exact (proj2 (K _ _ E)).
Qed.
Lemma get_link_kind : forall n d m l, kinds n d -> get_link d m = Ok l -> link_ok l.
Proof.
  intros n d m l K G. unfold get_link in G. destruct (kv_get (num_key chainPrefix m) d) as [[x|y|z]|] eqn:E; try discriminate. injection G as ->.
  apply kv_get_In in E. exact (proj2 (K _ _ E)).
Qed.
Lemma get_num_lt : forall d i n, get_num_of_block_id d i = Ok n -> n < 2 ^ 64.
Proof.
  intros d i n G. unfold get_num_of_block_id in G. destruct (kv_get (id_key blockPrefix i) d) as [[x|y|l]|]; try discriminate.
  destruct (Nat.eqb_spec (length x) 8) as [L|]; [|discriminate]. injection G as <-. pose proof (unbe_lt x) as U. rewrite L in U. exact U.
Qed.
Lemma put_counter_kind : forall n c v, bop_kind n (put_counter c v).
Proof. intros. cbn. exists counterPrefix, [c]. split; [reflexivity|]. split; discriminate. Qed.
Lemma put_id_kind : forall n i v, wf_id i -> bop_kind n (put_id i v).
Proof. intros n i v W. cbn. exists blockPrefix, i. split; [reflexivity|]. split; [discriminate|]. intros _. destruct W as [W|W]; rewrite W; discriminate. Qed.
Lemma put_num_kind : forall n p k v, p <> chainPrefix -> p <> blockPrefix -> bop_kind n (put_num p k v).
Proof. intros n p k v P Q. cbn. exists p, (be 8 k). split; [reflexivity|]. split; [exact P|]. contradiction. Qed.
Lemma put_leash_kind : forall n a i, bop_kind n (put_leash a i).
Proof. intros. cbn. exists leashPrefix, (addr_bytes a). split; [reflexivity|]. split; discriminate. Qed.
Lemma put_head_kind : forall n d x y ws, put_head d x y = Ok ws -> Forall (bop_kind n) ws.
Proof.
  intros n d x y ws H. assert (N : forall ws, put_new_head d x = Ok ws -> Forall (bop_kind n) ws).
  { intros ws' Q. unfold put_new_head in Q. destruct (get_counter d headsCounter); try discriminate. cbn [bind] in Q. injection Q as <-.
    repeat constructor; [apply put_counter_kind|apply put_num_kind; discriminate..]. }
  unfold put_head in H. destruct (get_head_by_block_num d y) as [hn|[]| |]; try discriminate; [|now apply N].
  injection H as <-. repeat constructor; apply put_num_kind; discriminate.
Qed.
Lemma collect_lt : forall n d k l pn ps, kinds n d -> pn < 2 ^ 64 -> collect_parents d k l pn = Ok ps -> length ps = k /\ Forall (fun n => n < 2 ^ 64) ps.
Proof.
  intros n d. induction k as [|k IH]; intros l pn ps K P H; cbn [collect_parents] in H; [injection H as <-; now constructor|].
  destruct (get_link d pn) as [pl| | |] eqn:G; try discriminate. cbn [bind] in H.
  destruct (collect_parents d k (S l) (nth l (sl_parents pl) pn)) as [r| | |] eqn:C; try discriminate. cbn [bind] in H. injection H as <-.
  apply IH in C; auto.
  - destruct C as [C1 C2]. split; [cbn; lia|]. now constructor.
  - apply get_link_kind with (n := n) in G as (_ & _ & _ & F); auto. destruct (Nat.lt_ge_cases l (length (sl_parents pl))).
    + rewrite Forall_forall in F. apply F. now apply nth_In.
    + rewrite nth_overflow; auto.
Qed.
Lemma new_link_kind : forall n d x i h p o, kinds n d -> wf_id i -> h < 2 ^ 32 -> new_link_for_block d x i h p = Ok o -> bop_kind n o.
Proof.
  intros n d x i h p o K W H Q. unfold new_link_for_block in Q. destruct (get_num_of_block_id d p) as [pn| | |] eqn:G; try discriminate. cbn [bind] in Q.
  unfold max_parents in Q. destruct (N.eqb_spec h 0); [discriminate|]. cbn [bind] in Q.
  destruct (collect_parents d (N.to_nat (N.log2_up h)) 0 pn) as [ps| | |] eqn:C; try discriminate. cbn [bind] in Q. injection Q as <-.
  apply collect_lt with (n := n) in C as [L F]; auto; [|eapply get_num_lt; eauto]. cbn. split; [now exists x|].
  unfold link_ok. cbn [sl_height sl_id sl_parents]. split; [exact H|]. split; [destruct W as [W|W]; rewrite W; lia|]. split; [|exact F].
  rewrite L, N2Nat.id. change 32 with (N.log2_up (2 ^ 32)). apply N.log2_up_le_mono. lia.
Qed.
Lemma score_bound : forall bt s, calculate_score bt = Ok s -> (0 <= s <= 2 ^ 64)%Z.
Proof.
  intros bt s H. unfold calculate_score in H. destruct (N.eqb_spec bt 0); [injection H as <-; lia|]. destruct (max_int64 <? bt); [discriminate|].
  injection H as <-. split; [apply Z.div_pos; lia|]. apply Z.div_le_upper_bound; [lia|]. change 18446744073709551616%Z with (2 ^ 64)%Z. nia.
Qed.
Lemma wf_id_le : forall i, wf_id i -> (length i <= 64)%nat.
Proof. intros i [H|H]; rewrite H; lia. Qed.

Definition op_typed (o : op) : Prop := match o with Put b _ => pb_ts b < 2 ^ 64 | _ => True end.
Lemma put_proto_kind : forall n d b ws, kinds n d -> wf_pblock b -> pb_ts b < 2 ^ 64 -> put_proto_block d b = Ok ws -> Forall (bop_kind (n + 1)) ws.
Proof.
  intros n d b ws K (W1 & W2 & W3) T H. assert (K1 : kinds (n + 1) d) by (intros k v I; eapply kind_mono; [|now apply K]; lia).
  unfold put_proto_block in H. destruct (get_counter d blocksCounter) as [cnt| | |]; try discriminate. cbn [bind] in H.
  destruct (get_num_of_block_id d (pb_parent b)) as [pn| | |]; try discriminate. cbn [bind] in H.
  destruct (get_block d pn) as [parent| | |] eqn:G; try discriminate. cbn [bind] in H. apply (get_block_kind K) in G as (G1 & G2 & G3 & G4).
  destruct (new_block b (u32 (sb_height parent + 1)) (sb_score parent)) as [sb| | |] eqn:NB; try discriminate. cbn [bind] in H.
  unfold new_block in NB. destruct (pb_gen b) as [ga|] eqn:PG; [|discriminate]. unfold calculate_cumulative_score in NB.
  destruct (calculate_score (pb_bt b)) as [s| | |] eqn:CS; try discriminate. cbn [bind] in NB. injection NB as <-. cbn [sb_height] in H.
  apply score_bound in CS. assert (UB : u32 (sb_height parent + 1) < 2 ^ 32) by (apply N.mod_lt; discriminate).
  destruct (new_link_for_block d (u64 (cnt + 1)) (pb_id b) (u32 (sb_height parent + 1)) (pb_parent b)) as [lnk| | |] eqn:NL; try discriminate. cbn [bind] in H.
  destruct (put_head d (u64 (cnt + 1)) pn) as [hd| | |] eqn:PH; try discriminate. cbn [bind] in H. injection H as <-.
  cbn [app]. constructor; [apply put_counter_kind|]. constructor; [now apply put_id_kind|]. constructor; [|constructor; [exact (new_link_kind K1 W1 UB NL)|exact (put_head_kind (n + 1) PH)]].
  cbn. split; [now eexists|]. unfold block_ok. cbn [sb_height sb_ts sb_score sb_id sb_parent sb_gen]. split; [exact UB|]. split; [exact T|]. split; [lia|].
  split; [now apply wf_id_le|]. split; [now apply wf_id_le|]. lia.
Qed.
Lemma put_micro_kind : forall n d m ws, kinds n d -> wf_id (mi_total m) -> put_micro_block_st d m = Ok ws -> Forall (bop_kind n) ws.
Proof.
  intros n d m ws K W H. unfold put_micro_block_st in H. destruct (get_counter d blocksCounter) as [cnt| | |]; try discriminate. cbn [bind] in H.
  destruct (get_num_of_block_id d (mi_ref m)) as [rn| | |]; try discriminate. cbn [bind] in H.
  destruct (get_block d rn) as [ref| | |] eqn:G; try discriminate. cbn [bind] in H. apply (get_block_kind K) in G as (G1 & G2 & G3 & G4 & G5 & G6).
  destruct (new_block_id (sb_parent ref)) as [pid| | |]; try discriminate. cbn [bind sb_height] in H.
  destruct (new_link_for_block d (u64 (cnt + 1)) (mi_total m) (sb_height ref) pid) as [lnk| | |] eqn:NL; try discriminate. cbn [bind] in H.
  destruct (put_head d (u64 (cnt + 1)) rn) as [hd| | |] eqn:PH; try discriminate. cbn [bind] in H. injection H as <-.
  cbn [app]. constructor; [apply put_counter_kind|]. constructor; [now apply put_id_kind|]. constructor; [|constructor; [exact (new_link_kind K W G1 NL)|exact (put_head_kind n PH)]].
  cbn. split; [now eexists|]. unfold block_ok. cbn [sb_height sb_ts sb_score sb_id sb_parent sb_gen]. repeat split; auto; try lia. now apply wf_id_le.
Qed.
Lemma init_kind : forall d g ws, kinds 1 d -> wf_pblock g -> pb_ts g < 2 ^ 64 -> initialize d g = Ok ws -> Forall (Forall (bop_kind 1)) ws.
Proof.
  intros d g ws K (W1 & W2 & W3) T H. unfold initialize in H. destruct (get_counter d blocksCounter) as [cnt| | |]; try discriminate. cbn [bind] in H.
  destruct (cnt =? 0); [|injection H as <-; constructor]. destruct (pb_gen g) as [ga|]; [|discriminate].
  destruct (calculate_score (pb_bt g)) as [s| | |] eqn:CS; try discriminate. cbn [bind] in H. injection H as <-. apply score_bound in CS.
  constructor; [|constructor]. assert (L := wf_id_le W1).
  constructor.
  { cbn. split; [now exists 1|]. unfold block_ok. cbn [sb_height sb_ts sb_score sb_id sb_parent sb_gen length]. repeat split; auto; try lia. }
  constructor; [apply put_counter_kind|]. constructor; [now apply put_id_kind|].
  constructor.
  { cbn. split; [now exists 1|]. unfold link_ok. cbn [sl_height sl_id sl_parents length]. repeat split; auto; try lia. }
  constructor; [apply put_counter_kind|]. repeat constructor; apply put_num_kind; discriminate.
Qed.
Lemma op_kind : forall n g l o, 1 <= n -> kinds n (lk_db l) -> wf_pblock g -> pb_ts g < 2 ^ 64 -> wf_op o -> op_typed o ->
  Forall (Forall (bop_kind (n + 1))) (fst (op_writes g l o)).
Proof.
  intros n g l o N1 K WG TG W T. assert (K1 : kinds (n + 1) (lk_db l)) by (intros k v I; eapply kind_mono; [|now apply K]; lia).
  assert (U : forall a i, Forall (bop_kind (n + 1)) (update_leash a i)) by (intros; constructor; [apply put_leash_kind|constructor]).
  destruct o as [b a|m a|i a|]; cbn [op_writes wf_op op_typed] in *.
  - unfold put_block. destruct W as [W _]. destruct (has_block (lk_db l) (pb_id b)) as [[]| | |]; try constructor; auto; try constructor.
    destruct (has_block (lk_db l) (pb_parent b)) as [[]| | |]; try constructor.
    destruct (put_proto_block (lk_db l) b) as [bt| | |] eqn:P; try constructor; [|now constructor; [apply U|]]. exact (put_proto_kind K W T P).
  - unfold put_micro_block. destruct W as (W & _ & _). destruct (has_block (lk_db l) (mi_total m)) as [[]| | |]; try constructor; auto; try constructor.
    destruct (has_block (lk_db l) (mi_ref m)) as [[]| | |]; try constructor.
    destruct (put_micro_block_st (lk_db l) m) as [bt| | |] eqn:P; try constructor; [|now constructor; [apply U|]]. exact (put_micro_kind K1 W P).
  - constructor; [apply U|constructor].
  - unfold new_linkage. destruct (initialize (lk_db l) g) as [ws| | |] eqn:E; cbn; try constructor.
    unfold initialize in E. destruct (get_counter (lk_db l) blocksCounter) as [cnt| | |]; try discriminate. cbn [bind] in E.
    destruct (cnt =? 0) eqn:Z; [|injection E as <-; constructor].
    assert (E2 : initialize [] g = Ok ws) by (unfold initialize, get_counter; cbn [kv_get bind]; exact E).
    apply init_kind in E2; auto; [|intros k v []]. eapply Forall_impl; [|exact E2]. intros x. apply Forall_impl.
    intros [k v|k]; cbn [bop_kind]; [|trivial]. apply kind_mono. lia.
Qed.
Lemma firstn_Forall : forall A (P : A -> Prop) l k, Forall P l -> Forall P (firstn k l).
Proof. intros A P l k F. rewrite <- (firstn_skipn k l) in F. now apply Forall_app in F. Qed.
Lemma exec_kind : forall n g l o f, 1 <= n -> kinds n (lk_db l) -> wf_pblock g -> pb_ts g < 2 ^ 64 -> wf_op o -> op_typed o ->
  kinds (n + 1) (lk_db (fst (exec g l o f))).
Proof.
  intros n g l o f N1 K WG TG W T. pose proof (op_kind N1 K WG TG W T) as F.
  assert (K1 : kinds (n + 1) (lk_db l)) by (intros k v I; eapply kind_mono; [|now apply K]; lia).
  unfold exec. destruct (op_writes g l o) as [ws r]. cbn [fst] in F. destruct f as [k|]; [destruct (Nat.ltb k (length ws))|]; cbn [fst with_db lk_db];
    apply kinds_writes; auto using firstn_Forall.
Qed.
Lemma run_kind : forall g ops l n, 1 <= n -> kinds n (lk_db l) -> wf_pblock g -> pb_ts g < 2 ^ 64 -> Forall (fun o => wf_op (fst o) /\ op_typed (fst o)) ops ->
  kinds (n + N.of_nat (length ops)) (lk_db (run g l ops)).
Proof.
  induction ops as [|[o f] ops IH]; intros l n N1 K WG TG F; cbn [run length]; [now rewrite N.add_0_r|]. inversion F as [|? ? [F1 F2] F3]; subst.
  replace (n + N.of_nat (S (length ops))) with (n + 1 + N.of_nat (length ops)) by lia. apply IH; auto; [lia|]. now apply exec_kind.
Qed.
Lemma reachable_kinds : forall g ops l, reachable g ops l -> pb_ts g < 2 ^ 64 -> Forall (fun o => op_typed (fst o)) ops -> kinds (2 ^ 32) (lk_db l).
Proof.
  intros g ops l (WG & (WO & LO) & l0 & S & ->) TG T. intros k v I.
  assert (K : kinds (1 + N.of_nat (length ops)) (lk_db (run g l0 ops))).
  { apply run_kind; auto; [lia| |].
    - unfold start, new_linkage in S. destruct (initialize [] g) as [ws| | |] eqn:E; try discriminate. cbn [bind fst snd] in S. injection S as <-. cbn [lk_db].
      assert (K0 : kinds 1 []) by (intros ? ? []). apply kinds_writes; auto. exact (init_kind K0 WG TG E).
    - rewrite Forall_forall in *. intros o IO. split; auto. }
  apply (@kind_mono (1 + N.of_nat (length ops))); [lia|]. now apply K.
Qed.

Lemma ok_fits : forall b, block_ok (2 ^ 32) b -> block_fits b.
Proof.
  intros b (H1 & H2 & H3 & H4 & H5 & H6). unfold block_fits, long. repeat split; auto; try lia; unfold be_min; (destruct (_ =? 0); [reflexivity|]); rewrite be_length, N2Nat.id.
  - assert (N.log2 (Z.to_N (sb_score b)) <= N.log2 (2 ^ 96)) by (apply N.log2_le_mono; lia). rewrite N.log2_pow2 in * by lia.
    assert (N.log2 (Z.to_N (sb_score b)) / 8 <= 12) by (apply N.div_le_upper_bound; lia). lia.
  - replace (Z.to_N (- sb_score b - 1)) with 0 by lia. reflexivity.
Qed.
Lemma lok_fits : forall l, link_ok l -> link_fits l.
Proof. intros l (H1 & H2 & H3 & H4). unfold link_fits, long. repeat split; auto; lia. Qed.

Lemma cons_inv : forall A (x y : A) l m, x :: l = y :: m -> x = y /\ l = m.
Proof. intros A x y l m E. now injection E. Qed.
Section Reads.
  Variable d : db.
  Hypothesis K : kinds (2 ^ 32) d.
  Notation r := (encoded enc_val d).
  Lemma read_counter : forall c, raw_counter r c = get_counter d c.
  Proof.
    intros c. unfold raw_counter, get_counter. rewrite get_encoded. destruct (kv_get (counter_key c) d) as [[x|b|l]|] eqn:E; cbn [option_map enc_val]; auto;
      apply kv_get_In in E; destruct (K E) as [[m Q] _]; discriminate Q.
  Qed.
  Lemma read_num : forall i, wf_id i -> raw_num r i = get_num_of_block_id d i.
  Proof.
    intros i W. unfold raw_num, get_num_of_block_id. rewrite get_encoded. destruct (kv_get (id_key blockPrefix i) d) as [[x|b|l]|] eqn:E; cbn [option_map enc_val]; auto;
      apply kv_get_In in E; destruct (K E) as [[m Q] _]; [|discriminate Q].
    apply (f_equal (@length _)) in Q. unfold id_key, num_key in Q. cbn [length] in Q. rewrite be_length in Q. destruct W as [W|W]; rewrite W in Q; discriminate.
  Qed.
  Lemma read_block : forall n, raw_block r n = get_block d n.
  Proof.
    intros n. unfold raw_block, get_block. rewrite get_encoded. destruct (kv_get (num_key blockPrefix n) d) as [[x|b|l]|] eqn:E; cbn [option_map enc_val]; auto;
      apply kv_get_In in E; specialize (K E).
    - destruct K as (p & q & Q & _ & L). unfold num_key in Q. apply cons_inv in Q as [<- <-]. now destruct (L eq_refl (be_length 8 n)).
    - destruct K as [_ F]. now rewrite dec_enc_block by now apply ok_fits.
    - destruct K as [[m Q] _]. discriminate Q.
  Qed.
  Lemma read_link : forall n, raw_link r n = get_link d n.
  Proof.
    intros n. unfold raw_link, get_link. rewrite get_encoded. destruct (kv_get (num_key chainPrefix n) d) as [[x|b|l]|] eqn:E; cbn [option_map enc_val]; auto;
      apply kv_get_In in E; specialize (K E).
    - destruct K as (p & q & Q & L & _). unfold num_key in Q. apply cons_inv in Q as [<- _]. now contradiction L.
    - destruct K as [[m Q] _]. discriminate Q.
    - destruct K as [_ F]. now rewrite dec_enc_link by now apply lok_fits.
  Qed.
  Lemma read_leash : forall a, raw_leash r a = get_leash d a.
  Proof.
    intros a. unfold raw_leash, get_leash. rewrite get_encoded. destruct (kv_get (addr_key a) d) as [[x|b|l]|] eqn:E; cbn [option_map enc_val]; auto;
      apply kv_get_In in E; destruct (K E) as [[m Q] _]; discriminate Q.
  Qed.
  Lemma read_head_num : forall n, raw_head_num r n = get_head_by_block_num d n.
  Proof.
    intros n. unfold raw_head_num, get_head_by_block_num. rewrite get_encoded. destruct (kv_get (num_key blockToHeadPrefix n) d) as [[x|b|l]|] eqn:E; cbn [option_map enc_val]; auto;
      apply kv_get_In in E; destruct (K E) as [[m Q] _]; discriminate Q.
  Qed.
  Lemma read_leashes : raw_leashes r = leashes d.
  Proof.
    unfold raw_leashes, leashes. rewrite range_encoded. apply mapM_encoded. intros k v I. unfold leash_of_binding. cbn [fst snd].
    apply kv_range_In in I as (I & B). specialize (K I). destruct v as [x|b|l]; cbn [enc_val]; [reflexivity|exfalso..].
    all: destruct K as [[m ->] _]; destruct B as [B _]; unfold bleb, leashes_start, addr_key, num_key in B; vm_compute in B; congruence.
  Qed.
  Lemma read_heads : raw_heads r = get_heads d.
  Proof.
    unfold raw_heads, get_heads. rewrite range_encoded. apply mapM_encoded. intros k v I. unfold head_of_binding. cbn [fst snd].
    apply kv_range_In in I as (I & B). specialize (K I). destruct v as [x|b|l]; cbn [enc_val]; [reflexivity|exfalso..].
    all: destruct K as [[m ->] _]; destruct B as [B _]; unfold bleb, num_key in B; cbn in B; congruence.
  Qed.
End Reads.

(** * The peers database *)
Definition time_fits (t : time) : Prop := (- 2 ^ 62 * second <= t < 2 ^ 62 * second)%Z.
Definition score_fits (z : Z) : Prop := N.log2 (Z.abs_N z) < 2 ^ 60.
Definition hs_fits (h : handshake) : Prop :=
  hs_nonce h < 2 ^ 64 /\ N.of_nat (length (hs_name h)) < 2 ^ 62 /\ N.of_nat (length (hs_app h)) < 2 ^ 62 /\ version_fits (hs_version h) /\
  match hs_decl h with Decl _ port => port < 2 ^ 16 | _ => True end.
Definition rop_typed (o : rop) : Prop :=
  match o with
  | RRegister _ np h now _ => hs_fits h /\ hs_fits (co_hs np) /\ time_fits now
  | RScore _ s _ => score_fits s
  | RUnregister _ now _ | RSuggest _ now _ => time_fits now
  | RAppend l _ => forall a port, In (Some (a, port)) l -> port < 2 ^ 16
  | _ => True
  end.
Definition vals (d : pdb) : Prop := forall k v, In (k, v) d -> value_fits v.
Definition peer_fits (p : Peer) : Prop :=
  p_port p < 2 ^ 16 /\ p_nonce p < 2 ^ 64 /\ long (p_name p) /\ version_fits (p_version p) /\ in_int64 (p_next p / second) = true /\
  match p_score p with Some z => int_fits z | None => True end.

Lemma score_int : forall z, score_fits z -> int_fits z.
Proof.
  assert (K : forall n, N.log2 n < 2 ^ 60 -> N.of_nat (length (be_min n)) < 2 ^ 64).
  { intros n H. unfold be_min. destruct (n =? 0); [reflexivity|]. rewrite be_length, N2Nat.id. assert (N.log2 n / 8 <= N.log2 n) by (apply N.div_le_upper_bound; lia). lia. }
  intros z H. unfold score_fits in H. assert (M : forall n, n <= Z.abs_N z -> N.log2 n < 2 ^ 60).
  { intros n L. apply N.log2_le_mono in L. lia. }
  split; apply K, M; lia.
Qed.
Lemma get_fits : forall d a p, vals d -> get_peer d a = Ok p -> peer_fits p.
Proof.
  intros d a p V G. unfold get_peer in G. destruct (pkey a) as [k| | |]; try discriminate. cbn [bind] in G.
  destruct (kv_get k d) as [v|] eqn:E; [|discriminate]. injection G as <-. apply kv_get_In in E. destruct (V _ _ E) as (H1 & H2 & H3 & H4 & H5 & H6 & H7).
  unfold peer_fits. cbn [of_value p_port p_nonce p_name p_version p_next p_score]. rewrite Z.div_mul by discriminate. auto 10.
Qed.
Lemma finish_fits : forall r p w, vals (r_db r) -> peer_fits p -> vals (r_db (fst (finish r p w))).
Proof.
  intros r p w V (H1 & H2 & H3 & H5 & H6 & H7). destruct (finish_cases r p w) as [(b & A & U & _ & ->)|[-> _]]; cbn [fst with_pdb r_db]; [|exact V].
  intros k v I. apply In_put in I as [I|I]; [|exact (V _ _ I)]. injection I as -> ->. unfold value_fits. cbn [to_value v_port v_nonce v_name v_version v_next v_score]. auto 10.
Qed.
Lemma zero_fits : version_fits zero_version.
Proof. repeat split. Qed.
Lemma round_fits : forall t, time_fits t -> in_int64 (round_second t / second) = true /\ in_int64 (round_second (t + delay)%Z / second) = true.
Proof.
  assert (K : forall t, (- 2 ^ 62 * second - delay <= t < 2 ^ 62 * second + delay * 2)%Z -> in_int64 (round_second t / second) = true).
  { intros t H. unfold round_second. rewrite Z.div_mul by discriminate. unfold in_int64.
    assert (L : (- 2 ^ 63 <= (t + second / 2) / second)%Z) by (apply Z.div_le_lower_bound; [reflexivity|]; unfold delay, second in *; lia).
    assert (U : ((t + second / 2) / second < 2 ^ 63)%Z) by (apply Z.div_lt_upper_bound; [reflexivity|]; unfold delay, second in *; lia). lia. }
  intros t H. unfold time_fits in H. split; apply K; unfold delay, second in *; lia.
Qed.
Lemma fresh_fits : forall a port, port < 2 ^ 16 -> peer_fits (fresh_peer a port).
Proof. intros a port H. unfold peer_fits. cbn [fresh_peer p_port p_nonce p_name p_version p_next p_score]. split; [exact H|]. split; [reflexivity|]. split; [reflexivity|]. split; [apply zero_fits|]. now split. Qed.
Lemma zero_peer_fits : peer_fits zero_peer.
Proof. apply (@fresh_fits AZero 0). reflexivity. Qed.
Lemma hostile_fits : forall p h, peer_fits p -> hs_fits h -> peer_fits (hostile_peer p h).
Proof.
  intros p h (H1 & H2 & H3 & H5 & H6 & H7) (N1 & N2 & N3 & N4 & N5). unfold peer_fits, long. cbn [hostile_peer p_port p_nonce p_name p_version p_next p_score].
  repeat split; auto; try apply N4. rewrite !app_length. cbn [length]. lia.
Qed.
Lemma connected_fits : forall p a port h now c, peer_fits p -> port < 2 ^ 16 -> hs_fits h -> time_fits now -> peer_fits (connected_peer p a port h now c).
Proof.
  intros p a port h now c (H1 & H2 & H3 & H5 & H6 & H7) P (N1 & N2 & N3 & N4 & N5) T. unfold peer_fits, long. cbn [connected_peer p_port p_nonce p_name p_version p_next p_score].
  split; [exact P|]. split; [exact N1|]. split; [lia|]. split; [exact N4|]. split; [apply (round_fits T)|exact H7].
Qed.
Lemma check_port_fits : forall a h port c, hs_fits h -> check_port a h = (Ok port, c) -> port < 2 ^ 16.
Proof.
  intros a h port c (_ & _ & _ & _ & N5) H. unfold check_port in H. destruct (hs_decl h) as [| |ha q]; [injection H as <- _; reflexivity|discriminate|].
  destruct (is_loopback ha); [discriminate|]. destruct (negb (is4 ha)); [discriminate|]. destruct (addr_eqb ha a); injection H as <- _; [exact N5|reflexivity].
Qed.
Lemma append_fits : forall cfg l d f c, vals d -> (forall a port, In (Some (a, port)) l -> port < 2 ^ 16) -> vals (fst (append_loop cfg d l f c)).
Proof.
  induction l as [|[[a port]|] l IH]; intros d f c V P; cbn [append_loop]; [exact V| |apply IH; auto; intros a0 q0 I0; apply (P a0 q0); now right].
  assert (P' : forall a port, In (Some (a, port)) l -> port < 2 ^ 16) by (intros a0 q0 I0; apply (P a0 q0); now right).
  destruct (negb (is4 a)); [now apply IH|]. destruct (is_loopback a); [now apply IH|]. destruct (addr_eqb a (g_declared cfg)); [now apply IH|].
  destruct (has_peer d a) as [[]| | |]; try exact V; [now apply IH|].
  destruct (put_peer d (fresh_peer a port) _) as [d'| | |] eqn:Q; try exact V. apply IH; [|exact P'].
  apply put_peer_inv in Q as (b & A & U & _ & ->). intros k v I. apply In_put in I as [I|I]; [|exact (V _ _ I)]. injection I as -> ->.
  destruct (@fresh_fits a port (P a port (or_introl eq_refl))) as (H1 & H2 & H3 & H5 & H6 & H7). unfold value_fits. cbn [to_value v_port v_nonce v_name v_version v_next v_score]. auto 10.
Qed.
Lemma next_version_In : forall vs v x, next_version vs v = Ok x -> In x vs.
Proof. intros vs v x H. unfold next_version in H. destruct (nth_error vs _) eqn:E; [|discriminate]. injection H as <-. now apply nth_error_In in E. Qed.
Lemma set_version_fits : forall p v t, peer_fits p -> version_fits v -> in_int64 (t / second) = true -> peer_fits (set_version p v t).
Proof. intros p v t (H1 & H2 & H3 & H5 & H6 & H7) F T. unfold peer_fits. cbn [set_version p_port p_nonce p_name p_version p_next p_score]. auto 10. Qed.

Lemma rstep_fits : forall cfg r o, (forall v, In v (g_versions cfg) -> version_fits v) -> vals (r_db r) -> rop_typed o -> vals (r_db (rstep cfg r o)).
Proof.
  intros cfg r o GV V T. destruct o as [a np h now w|a s w|a now w|[a|] w|l f|clock|a now w|]; cbn [rstep rop_typed] in *.
  - destruct T as (T1 & T2 & T3). unfold register_peer. destruct (negb (is4 a)); [exact V|]. destruct (addr_eqb a (g_declared cfg)); [exact V|]. cbn [r_db].
    assert (B : forall p, peer_fits p -> vals (r_db (fst (fst
        (if (2 <=? g_cmp cfg (hs_version (co_hs np)) (p_version p))%Z
        then (finish {| r_db := r_db r; r_conns := r_conns r; r_pending := del_addr a (r_pending r) |} (hostile_peer p (co_hs np)) w, true)
        else match rev (hs_app (co_hs np)) with
        | [] => ({| r_db := r_db r; r_conns := r_conns r; r_pending := del_addr a (r_pending r) |}, Panic, false)
        | x :: _ =>
            if negb (N.eqb (Byte.to_N x) (Byte.to_N (g_scheme cfg)))
            then (finish {| r_db := r_db r; r_conns := r_conns r; r_pending := del_addr a (r_pending r) |} (hostile_peer p (co_hs np)) w, true)
            else match check_port a h with
            | (Ok port, c) =>
                let r' := {| r_db := r_db r; r_conns := set_conn a np (r_conns r); r_pending := del_addr a (r_pending r) |} in
                (finish r' (connected_peer p a port h now np) w, c)
            | (Err e, c) => ({| r_db := r_db r; r_conns := r_conns r; r_pending := del_addr a (r_pending r) |}, Err e, c)
            | (Panic, c) => ({| r_db := r_db r; r_conns := r_conns r; r_pending := del_addr a (r_pending r) |}, Panic, c)
            | (Diverge, c) => ({| r_db := r_db r; r_conns := r_conns r; r_pending := del_addr a (r_pending r) |}, Diverge, c)
            end
        end))))).
    { intros p F. destruct (_ <=? _)%Z; [apply finish_fits; [exact V|now apply hostile_fits]|]. destruct (rev (hs_app (co_hs np))); [exact V|].
      destruct (negb _); [apply finish_fits; [exact V|now apply hostile_fits]|]. destruct (check_port a h) as [[port| | |] c] eqn:C; try exact V.
      apply finish_fits; [exact V|]. apply connected_fits; auto. exact (check_port_fits T1 C). }
    destruct (get_peer (r_db r) a) as [p|[]| |] eqn:G; try exact V; [exact (B p (get_fits V G))|exact (B zero_peer zero_peer_fits)].
  - unfold update_peer_score. destruct (get_peer (r_db r) a) as [p| | |] eqn:G; try exact V. apply finish_fits; [exact V|].
    destruct (get_fits V G) as (H1 & H2 & H3 & H5 & H6 & H7). unfold peer_fits. cbn [set_score p_port p_nonce p_name p_version p_next p_score]. apply score_int in T. auto 10.
  - unfold unregister_peer. destruct (get_peer (r_db r) a) as [p| | |] eqn:G; try exact V. apply finish_fits; [exact V|].
    destruct (get_fits V G) as (H1 & H2 & H3 & H5 & H6 & H7). unfold peer_fits. cbn [set_next p_port p_nonce p_name p_version p_next p_score].
    destruct (round_fits T) as [_ R]. auto 10.
  - assert (M : forall p, peer_fits p -> peer_fits (mark_peer p a)).
    { intros p (H1 & H2 & H3 & H5 & H6 & H7). unfold peer_fits. cbn [mark_peer p_port p_nonce p_name p_version p_next p_score]. split; [reflexivity|]. auto 10. }
    unfold mark_as_hostile. cbn [r_db]. destruct (get_peer (r_db r) a) as [p|[]| |] eqn:G; try exact V; (apply finish_fits; [exact V|]); apply M; [exact (get_fits V G)|apply zero_peer_fits].
  - exact V.
  - unfold append_addresses. pose proof (@append_fits cfg l (r_db r) f 0%nat V T) as A. destruct (append_loop cfg (r_db r) l f 0) as [d n]. exact A.
  - unfold take_available. destruct (all_peers (r_db r)); try exact V. destruct (take_loop _ _ _ _ _ _). exact V.
  - destruct (round_fits T) as [_ R]. unfold suggest_version. destruct (get_peer (r_db r) a) as [p|[]| |] eqn:G; try exact V.
    + destruct (p_state p); try exact V. destruct (next_version (g_versions cfg) (p_version p)) as [v| | |] eqn:NV; try exact V.
      assert (Q := @finish_fits r (set_version p v (round_second (now + delay)%Z)) w V (set_version_fits (get_fits V G) (GV _ (next_version_In NV)) R)).
      destruct (finish r _ w) as [r' [| | |]]; exact Q.
    + unfold best_version. destruct (g_versions cfg) as [|v vs] eqn:GE; [exact V|].
      assert (Q := @finish_fits r (set_version (fresh_peer a 0) v (round_second (now + delay)%Z)) w V
                    (set_version_fits (@fresh_fits a 0 eq_refl) (GV v (or_introl eq_refl)) R)).
      destruct (finish r _ w) as [r' [| | |]]; exact Q.
  - exact V.
Qed.
Lemma rreach_fits : forall cfg ops r, rreach cfg ops r -> (forall v, In v (g_versions cfg) -> version_fits v) -> Forall rop_typed ops -> vals (r_db r).
Proof.
  intros cfg ops r [_ ->] GV T. unfold rrun. assert (V : vals (r_db (new_registry []))) by (intros k v []).
  revert V. generalize (new_registry []). induction T as [|o ops TO T IH]; intros r0 V; cbn [fold_left]; [exact V|]. apply IH. now apply rstep_fits.
Qed.

Section PeerReads.
  Variable d : pdb.
  Hypothesis V : vals d.
  Notation r := (encoded enc_value d).
  Lemma read_peer : forall a, raw_peer r a = get_peer d a.
  Proof.
    intros a. unfold raw_peer, get_peer. destruct (pkey a) as [k| | |]; try reflexivity. cbn [bind]. rewrite get_encoded.
    destruct (kv_get k d) as [v|] eqn:E; cbn [option_map]; [|reflexivity]. apply kv_get_In in E. now rewrite (dec_enc_value (V E)).
  Qed.
  Lemma read_peers : raw_peers r = all_peers d.
  Proof. unfold raw_peers, all_peers. apply mapM_encoded. intros k v I. cbn [fst snd]. destruct (pkey_addr k); try reflexivity. cbn [bind]. now rewrite (dec_enc_value (V I)). Qed.
  Lemma read_has_peer : forall a, raw_has_peer r a = has_peer d a.
  Proof. intros a. unfold raw_has_peer, has_peer. destruct (pkey a) as [k| | |]; try reflexivity. cbn [bind]. rewrite get_encoded. now destruct (kv_get k d). Qed.
  Lemma write_peer : forall p w, raw_put_peer r p w = do d' <- put_peer d p w; Ok (encoded enc_value d').
  Proof.
    intros p w. unfold raw_put_peer, put_peer. destruct (negb (is4 (p_addr p))); [reflexivity|]. destruct (negb (utf8_valid (p_name p))); [reflexivity|].
    destruct (pkey (p_addr p)) as [k| | |]; try reflexivity. cbn [bind]. destruct w; [|reflexivity]. cbn [bind]. f_equal. symmetry. apply put_encoded.
  Qed.
End PeerReads.
