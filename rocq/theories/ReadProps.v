(** C98: reads of the blocks database that fail. *)
From Coq Require Import Strings.Byte.
From Verif Require Import Base Kv KvFacts BytesFacts ChainModel ChainSpec ChainProofs ChainExample ReadModel ReadProofs.
Set Implicit Arguments.
Unset Strict Implicit.

(** * C98 *)

(** Every failed read is an error of the call; if nothing fails, the result is [normal]. *)
Definition reports {V A} (d : kv V) (p : prog V A) (normal : outcome A) : Prop :=
  forall fs, (troubles d p fs = [] -> answer d p fs = normal) /\ (In Failed (troubles d p fs) -> answer d p fs = Err EOther).
(** The call iterates over nothing. *)
Definition no_lists {V A} (d : kv V) (p : prog V A) : Prop := forall fs, ~ In Ended (troubles d p fs).
Lemma reports_by : forall V A (d : kv V) (p : prog V A) o, careful p -> plain d p = o -> reports d p o.
Proof.
  intros V A d p o C P fs. unfold troubles, answer. destruct (faulty d p fs) as [[x ts] r] eqn:E. cbn [fst snd]. split.
  - intros ->. rewrite <- P. exact (untroubled E).
  - intros I. exact (careful_failed C E I).
Qed.
Lemma no_lists_by : forall V A (d : kv V) (p : prog V A), pointwise p -> no_lists d p.
Proof. intros V A d p W fs. unfold troubles. destruct (faulty d p fs) as [[x ts] r] eqn:E. exact (pw_not_ended W E). Qed.

(** The calls that write: after a failed read nothing is written (the batches are the result), otherwise they are those of the model
    without failures. *)
Definition result_of (x : list (batch val) * outcome unit) : outcome (list (batch val)) := do _ <- snd x; Ok (fst x).
Theorem C98_writes : forall l,
  (forall b a, reports (lk_db l) (put_block_r b a) (result_of (put_block l b a)) /\ no_lists (lk_db l) (put_block_r b a)) /\
  (forall m a, reports (lk_db l) (put_micro_block_r m a) (result_of (put_micro_block l m a)) /\ no_lists (lk_db l) (put_micro_block_r m a)) /\
  (forall g, reports (lk_db l) (initialize_r g) (initialize (lk_db l) g) /\ no_lists (lk_db l) (initialize_r g)).
Proof.
  intros l. split; [|split]; intros; split.
  - apply reports_by; [apply c_put_block|apply same_put_block].
  - apply no_lists_by, w_put_block.
  - apply reports_by; [apply c_put_micro_block|apply same_put_micro_block].
  - apply no_lists_by, w_put_micro_block.
  - apply reports_by; [apply c_initialize|apply same_initialize].
  - apply no_lists_by, w_initialize.
Qed.
Print Assumptions C98_writes.

(** The queries that look up single records. *)
Theorem C98_lookups : forall l,
  (forall i, reports (lk_db l) (st_has_block_r i) (lk_has_block l i) /\ no_lists (lk_db l) (st_has_block_r i)) /\
  (forall i, reports (lk_db l) (block_r i) (block l i) /\ no_lists (lk_db l) (block_r i)) /\
  (forall a, reports (lk_db l) (has_leash_r a) (has_leash l a) /\ no_lists (lk_db l) (has_leash_r a)) /\
  (forall a, reports (lk_db l) (leash_r (lk_genesis l) a) (leash l a) /\ no_lists (lk_db l) (leash_r (lk_genesis l) a)) /\
  (forall i c, reports (lk_db l) (get_ancestors_r i c) (last_ids l i c) /\ no_lists (lk_db l) (get_ancestors_r i c)) /\
  (forall ord srt i c, reports (lk_db l) (fork_generators_r ord srt i c) (fork_generators ord srt l i c) /\ no_lists (lk_db l) (fork_generators_r ord srt i c)).
Proof.
  intros l. split; [|split; [|split; [|split; [|split]]]]; intros; split; first [apply no_lists_by | apply reports_by].
  all: first [apply c_has_block | apply c_block | apply c_has_leash | apply c_leash | apply c_ancestors | apply c_generators
    | apply w_has_block | apply w_block | apply w_has_leash | apply w_leash | apply w_ancestors | apply w_generators
    | apply same_has_block | apply same_block | apply same_has_leash | apply same_leash | apply same_ancestors | apply same_generators].
Qed.
Print Assumptions C98_lookups.

(** The queries that go through lists: a failed snapshot or a failed lookup is an error as well. Missing: an iteration that ends early. *)
Theorem C98_lists_partial : forall l,
  reports (lk_db l) leashes_r (lk_leashes l) /\ reports (lk_db l) heads_r (lk_heads l) /\ reports (lk_db l) active_heads_r (active_heads l) /\
  (forall ord a, reports (lk_db l) (lcb_r ord (lk_genesis l) a) (lcb ord l a)) /\ (forall ord a, reports (lk_db l) (fork_of_r ord a) (fork_of ord l a)) /\
  (forall ord srt ps, reports (lk_db l) (forks_r ord srt ps) (forks ord srt l ps)) /\ (forall ord srt, reports (lk_db l) (stats_r ord srt) (stats ord srt l)).
Proof.
  intros l. split; [|split; [|split; [|split; [|split; [|split]]]]]; intros; apply reports_by.
  - apply c_leashes. - apply same_leashes. - apply c_heads. - apply same_heads. - apply c_active. - apply same_active.
  - apply c_lcb. - apply same_lcb. - apply c_fork. - apply same_fork. - apply c_forks. - apply same_forks. - apply c_stats. - apply same_stats.
Qed.
Print Assumptions C98_lists_partial.

(** LeashScore does not return the error of a failed read of the leash, but looks for a block with the zero ID: an error all the same,
    as long as there is no such block. *)
Theorem C98_leash_score_partial : forall l a, lk_has_block l zero_id = Ok false ->
  forall fs, (troubles (lk_db l) (leash_score_r (lk_genesis l) a) fs = [] -> answer (lk_db l) (leash_score_r (lk_genesis l) a) fs = leash_score l a) /\
    (In Failed (troubles (lk_db l) (leash_score_r (lk_genesis l) a) fs) -> exists e, answer (lk_db l) (leash_score_r (lk_genesis l) a) fs = Err e).
Proof.
  intros l a H fs. unfold troubles, answer. destruct (faulty (lk_db l) (leash_score_r (lk_genesis l) a) fs) as [[x ts] r] eqn:E. cbn [fst snd]. split.
  - intros ->. rewrite <- same_leash_score. exact (untroubled E).
  - intros I. destruct (leash_score_failed E I) as [-> | ->]; [now exists EOther|]. unfold get_block_by_id. unfold lk_has_block, has_block in H.
    destruct (get_num_of_block_id (lk_db l) zero_id) as [|e| |]; try discriminate H. now exists e.
Qed.
Print Assumptions C98_leash_score_partial.

(** * What is answered when an iteration ended early *)
Lemma mapM_firstn : forall A B (f : A -> outcome B) l r n, mapM f l = Ok r -> mapM f (firstn n l) = Ok (firstn n r).
Proof.
  intros A B f l. induction l as [|x l IH]; intros r n H; cbn [mapM] in H.
  - injection H as <-. now rewrite !firstn_nil.
  - destruct (f x) as [y|e| |] eqn:F; cbn [bind] in H; try discriminate H. destruct (mapM f l) as [ys|e| |] eqn:M; cbn [bind] in H; try discriminate H.
    injection H as <-. destruct n as [|n]; [reflexivity|]. cbn [firstn mapM]. rewrite F. cbn [bind]. now rewrite (IH ys n eq_refl).
Qed.
(** The leashes are then the first few ones. *)
Theorem C98_first_leashes : forall l ls fs, lk_leashes l = Ok ls -> ~ In Failed (troubles (lk_db l) leashes_r fs) ->
  exists n, answer (lk_db l) leashes_r fs = Ok (firstn n ls).
Proof.
  intros l ls fs H N. unfold troubles, answer in *. destruct (faulty (lk_db l) leashes_r fs) as [[x ts] r] eqn:E. cbn [fst snd] in *.
  destruct (cut_run E N) as [[|n cuts] ->]; cbn [with_lists leashes_r snapped].
  - exists (length ls). rewrite firstn_all. exact H.
  - exists n. now apply mapM_firstn.
Qed.
Print Assumptions C98_first_leashes.
Theorem C98_first_heads : forall l hs fs, lk_heads l = Ok hs -> ~ In Failed (troubles (lk_db l) heads_r fs) ->
  exists n, answer (lk_db l) heads_r fs = Ok (firstn n hs).
Proof.
  intros l hs fs H NF. unfold troubles, answer in *. destruct (faulty (lk_db l) heads_r fs) as [[x ts] r] eqn:E. cbn [fst snd] in *.
  set (each_head := fun hb : N * N => reading bl <- get_block_r (snd hb); reading i <- pure (new_block_id (sb_id bl)); Ret (Ok (fst hb, i))).
  assert (P : forall ns cuts, with_lists (lk_db l) (each each_head ns) cuts = mapM (fun hb => plain (lk_db l) (each_head hb)) ns).
  { intros ns cuts. rewrite pw_with_lists, plain_each; [reflexivity|]. apply pw_each. intros h. apply pw_then; [apply w_get_block|]. intros b. apply pw_then; constructor. }
  unfold lk_heads in H. rewrite <- same_heads in H. unfold heads_r in H. rewrite plain_snapped, plain_then in H. unfold get_heads_r in H. cbn [plain] in H.
  fold each_head in H. destruct (mapM head_of_binding _) as [ns|e| |] eqn:M; cbn [bind] in H; try discriminate H. rewrite plain_each in H.
  destruct (cut_run E NF) as [[|n cuts] ->]; unfold heads_r, get_heads_r, snapped, then_; cbn [with_lists attempt]; fold each_head.
  - exists (length hs). rewrite firstn_all, M, P. exact H.
  - exists n. rewrite (mapM_firstn n M), P. now apply mapM_firstn.
Qed.
Print Assumptions C98_first_heads.

(** The calls that use the leashes answer as if the other peers had none: as in a store [l'] with the same records, but only the first
    few leashes. *)
Definition leash_key (key : bytes) : bool := bleb leashes_start key && bltb key leashes_limit.
Definition fewer_leashes (l l' : linkage) : Prop :=
  lk_genesis l' = lk_genesis l /\ (forall key, leash_key key = false -> kv_get key (lk_db l') = kv_get key (lk_db l)) /\
  exists n, kv_range leashes_start leashes_limit (lk_db l') = firstn n (kv_range leashes_start leashes_limit (lk_db l)).

Definition cut_db (n : nat) (d : db) : db := firstn n (kv_range leashes_start leashes_limit d) ++ filter (fun b => negb (leash_key (fst b))) d.
Lemma range_keys : forall (d : db) n b, In b (firstn n (kv_range leashes_start leashes_limit d)) -> leash_key (fst b) = true.
Proof. intros d n b I. assert (J : In b (kv_range leashes_start leashes_limit d)).
  { rewrite <- (firstn_skipn n (kv_range leashes_start leashes_limit d)). apply in_or_app. now left. }
  clear I. rename J into I. unfold kv_range in I. apply filter_In in I as [_ I]. exact I. Qed.
Lemma get_skip : forall (a b : db) key, (forall x, In x a -> fst x <> key) -> kv_get key (a ++ b) = kv_get key b.
Proof.
  induction a as [|[k v] a IH]; intros b key H; [reflexivity|]. cbn [app kv_get]. destruct (beqb key k) eqn:E.
  - apply beqb_eq in E as ->. exfalso. now apply (H (k, v)); [left|].
  - apply IH. intros x I. apply H. now right.
Qed.
Lemma cut_range : forall n (d : db), kv_range leashes_start leashes_limit (cut_db n d) = firstn n (kv_range leashes_start leashes_limit d).
Proof.
  intros n d. unfold cut_db. unfold kv_range at 1. rewrite filter_app.
  assert (E2 : filter (fun b : bytes * val => bleb leashes_start (fst b) && bltb (fst b) leashes_limit) (filter (fun b => negb (leash_key (fst b))) d) = []).
  { induction d as [|[k v] d IH]; [reflexivity|]. cbn [filter fst]. unfold leash_key at 1. destruct (_ && _) eqn:L; cbn [negb]; [exact IH|]. cbn [filter fst]. rewrite L. exact IH. }
  rewrite E2, app_nil_r. assert (F : forall b, In b (firstn n (kv_range leashes_start leashes_limit d)) -> leash_key (fst b) = true) by apply range_keys.
  revert F. generalize (firstn n (kv_range leashes_start leashes_limit d)). intros bs F. induction bs as [|b bs IH]; [reflexivity|]. cbn [filter].
  assert (B : bleb leashes_start (fst b) && bltb (fst b) leashes_limit = true) by (apply F; now left). rewrite B. f_equal. apply IH. intros x I. apply F. now right.
Qed.
Lemma cut_fewer : forall n l, fewer_leashes l (with_db l (cut_db n (lk_db l))).
Proof.
  intros n l. split; [reflexivity|]. cbn [with_db lk_db]. set (d := lk_db l). split.
  - intros key K. unfold cut_db. rewrite get_skip.
    + clearbody d. induction d as [|[k v] d IH]; [reflexivity|]. cbn [filter fst]. destruct (leash_key k) eqn:L; cbn [negb kv_get].
      * destruct (beqb key k) eqn:E; [apply beqb_eq in E; congruence|]. exact IH.
      * now rewrite IH.
    + intros x I E. apply range_keys in I. congruence.
  - exists n. apply cut_range.
Qed.

Section Fewer.
Variables l l' : linkage.
Hypothesis F : fewer_leashes l l'.
Lemma few_num : forall i, get_num_of_block_id (lk_db l') i = get_num_of_block_id (lk_db l) i.
Proof. intros i. unfold get_num_of_block_id. destruct F as (_ & K & _). now rewrite K. Qed.
Lemma few_get_block : forall n, get_block (lk_db l') n = get_block (lk_db l) n.
Proof. intros i. unfold get_block. destruct F as (_ & K & _). now rewrite K. Qed.
Lemma few_link : forall n, get_link (lk_db l') n = get_link (lk_db l) n.
Proof. intros i. unfold get_link. destruct F as (_ & K & _). now rewrite K. Qed.
Lemma few_by_id : forall i, get_block_by_id (lk_db l') i = get_block_by_id (lk_db l) i.
Proof. intros i. unfold get_block_by_id. rewrite few_num. apply bind_ext. intros n. apply few_get_block. Qed.
Lemma few_block : forall i, block l' i = block l i.
Proof. intros i. unfold block. now rewrite few_by_id. Qed.
Lemma few_link_id : forall i, get_link_by_id (lk_db l') i = get_link_by_id (lk_db l) i.
Proof. intros i. unfold get_link_by_id. rewrite few_num. apply bind_ext. intros n. apply few_link. Qed.
Lemma few_backward : forall fuel k f o, fast_backward (lk_db l') fuel k f o = fast_backward (lk_db l) fuel k f o.
Proof.
  induction fuel as [|fuel IH]; intros [|i] f o; try reflexivity. cbn [fast_backward]. destruct (_ <=? _)%N; [|apply IH]. destruct (nth_error _ i); [|reflexivity].
  rewrite few_link. apply bind_ext. intros x. destruct (Nat.leb _ i); apply IH.
Qed.
Lemma few_lca_loop : forall k f o, lca_loop (lk_db l') k f o = lca_loop (lk_db l) k f o.
Proof.
  induction k as [|i IH]; intros f o; [reflexivity|]. cbn [lca_loop]. destruct (nth_error (sl_parents f) i) as [p|]; [|reflexivity].
  destruct (nth_error (sl_parents o) i) as [q|]; [|reflexivity]. destruct (p =? q)%N; [apply IH|]. rewrite few_link. apply bind_ext. intros f'. rewrite few_link. apply bind_ext. intros o'. apply IH.
Qed.
Lemma few_lca : forall i j, lca (lk_db l') i j = lca (lk_db l) i j.
Proof.
  intros i j. unfold lca. rewrite few_link_id. apply bind_ext. intros l1. rewrite few_link_id. apply bind_ext. intros l2.
  destruct (_ <? _)%N; rewrite few_backward; apply bind_ext; intros f; (destruct (beqb _ _); [reflexivity|]);
  rewrite few_lca_loop; apply bind_ext; intros fo; (destruct (sl_parents (fst fo)); [reflexivity|]); now rewrite few_link.
Qed.
Lemma few_finish : forall i f, finish_fork (lk_db l') i f = finish_fork (lk_db l) i f.
Proof. intros i f. unfold finish_fork. rewrite few_lca. apply bind_ext. intros j. now rewrite few_by_id. Qed.
Lemma few_longest : forall m acc, longest_loop l' m acc = longest_loop l m acc.
Proof. induction m as [|g m IH]; intros acc; [reflexivity|]. cbn [longest_loop]. rewrite few_block. apply bind_ext. intros b. apply IH. Qed.
Lemma few_fork_loop : forall p m acc f, fork_loop l' p m acc f = fork_loop l p m acc f.
Proof. induction m as [|g m IH]; intros acc f; [reflexivity|]. cbn [fork_loop]. rewrite few_block. apply bind_ext. intros b. apply IH. Qed.
End Fewer.

(** The part of a program after the leashes have been read. *)
Lemma after_leashes : forall A l (f : list (addr * id) -> prg A) fs, (forall ls, pointwise (f ls)) -> ~ In Failed (troubles (lk_db l) (then_ leashes_r f) fs) ->
  exists l', fewer_leashes l l' /\ answer (lk_db l) (then_ leashes_r f) fs = do ls <- lk_leashes l'; plain (lk_db l) (f ls).
Proof.
  intros A l f fs W N. unfold troubles, answer in *. destruct (faulty (lk_db l) (then_ leashes_r f) fs) as [[x ts] r] eqn:E. cbn [fst snd] in *.
  assert (X : exists n, x = do ls <- mapM leash_of_binding (firstn n (kv_range leashes_start leashes_limit (lk_db l))); plain (lk_db l) (f ls)).
  { destruct (cut_run E N) as [cuts ->]. unfold leashes_r, snapped, then_. cbn [attempt with_lists]. destruct cuts as [|n cuts].
    - exists (length (kv_range leashes_start leashes_limit (lk_db l))). rewrite firstn_all. destruct (mapM _ _); cbn [bind with_lists]; auto. now apply pw_with_lists.
    - exists n. destruct (mapM _ _); cbn [bind with_lists]; auto. now apply pw_with_lists. }
  destruct X as [n ->]. exists (with_db l (cut_db n (lk_db l))). split; [apply cut_fewer|]. unfold lk_leashes, leashes.
  cbn [with_db lk_db]. now rewrite cut_range.
Qed.
Theorem C98_ended : forall l fs,
  (forall ord a, ~ In Failed (troubles (lk_db l) (fork_of_r ord a) fs) -> exists l', fewer_leashes l l' /\ answer (lk_db l) (fork_of_r ord a) fs = fork_of ord l' a) /\
  (forall ord srt ps, ~ In Failed (troubles (lk_db l) (forks_r ord srt ps) fs) ->
     exists l', fewer_leashes l l' /\ answer (lk_db l) (forks_r ord srt ps) fs = forks ord srt l' ps).
Proof.
  intros l fs. split.
  - intros ord a N. destruct (after_leashes (l := l) (fs := fs) (f := fun ls =>
      reading r <- fork_loop_r a (ord (group_leashes ls)) (0%Z, 0, zero_id) zero_fork;
      let longest := snd (fst r) in let f := snd r in
      if id_eqb (f_head f) longest then Ret (Ok (set_length (set_longest f) 0)) else finish_fork_r longest f)) as (l' & FW & E).
    + intros ls. apply pw_then; [apply w_fork_loop|]. intros r. cbv zeta. destruct (id_eqb _ _); [constructor|apply w_finish].
    + exact N.
    + exists l'. split; [exact FW|]. etransitivity; [exact E|]. unfold fork_of, lk_leashes. apply bind_ext. intros ls. rewrite plain_then, same_fork_loop, (few_fork_loop FW).
      apply bind_ext. intros r. cbv zeta. destruct (id_eqb _ _); [reflexivity|]. now rewrite same_finish, (few_finish FW).
  - intros ord srt ps N. destruct (after_leashes (l := l) (fs := fs) (f := fun ls =>
      reading r <- each (fun g => reading b <- block_r (fst g); Ret (Ok (new_fork b (snd g)))) (ord (group_leashes (filter (fun e => selected ps (fst e)) ls)));
      match srt r with [] => Ret Panic | f0 :: rest => each (finish_fork_r (f_head f0)) (set_longest f0 :: rest) end)) as (l' & FW & E).
    + intros ls. apply pw_then; [apply pw_each; intros g; apply pw_then; [apply w_block|constructor]|]. intros r. destruct (srt r); [constructor|]. apply pw_each. intros f0. apply w_finish.
    + exact N.
    + exists l'. split; [exact FW|]. etransitivity; [exact E|]. unfold forks, lk_leashes. apply bind_ext. intros ls. rewrite plain_then, plain_each.
      rewrite (@mapM_same _ _ _ (fun g => do b <- block l' (fst g); Ok (new_fork b (snd g)))).
      * apply bind_ext. intros r. destruct (srt r) as [|f0 rest]; [reflexivity|]. rewrite plain_each. apply mapM_same. intros f. now rewrite same_finish, (few_finish FW).
      * intros g. now rewrite plain_then, same_block, (few_block FW).
Qed.
Print Assumptions C98_ended.
Lemma faulty_then_ret : forall V A B (d : kv V) (p : prog V A) (g : A -> outcome B) fs,
  faulty d (then_ p (fun a => Ret (g a))) fs = (do a <- fst (fst (faulty d p fs)); g a, snd (fst (faulty d p fs)), snd (faulty d p fs)).
Proof.
  intros V A B d p g. unfold then_. induction p as [o|k IH|key k IH|lo hi k IH]; intros fs; cbn [attempt faulty].
  - destruct o; reflexivity.
  - destruct fs as [|[n|] fs]; cbn [tl]; rewrite IH; reflexivity.
  - destruct fs as [|[n|] fs]; cbn [tl]; rewrite IH; reflexivity.
  - destruct fs as [|[n|] fs]; cbn [tl]; rewrite IH; reflexivity.
Qed.
Theorem C98_ended_stats : forall l fs ord srt, ~ In Failed (troubles (lk_db l) (stats_r ord srt) fs) ->
  exists l', fewer_leashes l l' /\ answer (lk_db l) (stats_r ord srt) fs = stats ord srt l'.
Proof.
  intros l fs ord srt H. unfold stats_r, troubles, answer in *. rewrite faulty_then_ret in *. cbn [fst snd] in *.
  destruct (proj2 (C98_ended l fs) ord srt [] H) as (l' & FW & E). exists l'. split; [exact FW|]. unfold answer in E. rewrite E. reflexivity.
Qed.
Print Assumptions C98_ended_stats.

(** * The defects *)
Definition as_is {A} (x : list A) : list A := x.
(** Peer 1 is on a fork of one block, 4; peer 2 is on the longest chain 1-2-3. *)
Definition forked : list (op * option nat) :=
  [(Put (xblk 1 0) (xpeer 1), None); (Put (xblk 2 1) (xpeer 2), None); (Put (xblk 3 2) (xpeer 2), None); (Put (xblk 4 1) (xpeer 1), None)].
Definition yl : linkage := at_end forked.
Lemma yl_reachable : reachable xg forked yl.
Proof. apply at_end_reachable. vm_compute. reflexivity. Qed.

(** Leashes and heads are missing, and the caller is not told (chains/storage.go:427, 673). *)
Theorem C98_lists_refuted : exists g ops l, reachable g ops l /\
  (exists fs ls, ~ In Failed (troubles (lk_db l) leashes_r fs) /\ answer (lk_db l) leashes_r fs = Ok ls /\ lk_leashes l <> Ok ls) /\
  (exists fs hs, ~ In Failed (troubles (lk_db l) heads_r fs) /\ answer (lk_db l) heads_r fs = Ok hs /\ lk_heads l <> Ok hs).
Proof.
  exists xg, forked, yl. split; [apply yl_reachable|]. split.
  - exists [None; Some 1]. eexists. split; [|split; [vm_compute; reflexivity|vm_compute; discriminate]]. vm_compute. intros [H|[]]; discriminate H.
  - exists [None; Some 1]. eexists. split; [|split; [vm_compute; reflexivity|vm_compute; discriminate]]. vm_compute. intros [H|[]]; discriminate H.
Qed.
Print Assumptions C98_lists_refuted.
(** A peer on a fork is reported to be on the longest chain: no fork is seen, and the last common block is its own head. *)
Theorem C98_fork_refuted : exists g ops l a fs fs', reachable g ops l /\
  (exists f f', fork_of as_is l a = Ok f /\ f_longest f = false /\ f_length f = 1%Z /\
    troubles (lk_db l) (fork_of_r as_is a) fs = [Ended] /\ answer (lk_db l) (fork_of_r as_is a) fs = Ok f' /\ f_longest f' = true /\ f_length f' = 0%Z) /\
  (exists i h, lcb as_is l a = Ok i /\ leash l a = Ok h /\ h <> i /\
    troubles (lk_db l) (lcb_r as_is (lk_genesis l) a) fs' = [Ended] /\ answer (lk_db l) (lcb_r as_is (lk_genesis l) a) fs' = Ok h).
Proof.
  exists xg, forked, yl, (xpeer 1), [None; Some 1], [None; None; None; Some 1]. split; [apply yl_reachable|]. split.
  - eexists. eexists. repeat match goal with |- _ /\ _ => split end; vm_compute; reflexivity.
  - exists (xid 1), (xid 4). repeat match goal with |- _ /\ _ => split end; vm_compute; first [reflexivity|discriminate].
Qed.
Print Assumptions C98_fork_refuted.
(** The list of forks and the statistics panic if not even one leash can be read; without the fault they are answered. *)
Theorem C98_forks_refuted : exists g ops l fs, reachable g ops l /\
  (exists r, forks as_is as_is l [] = Ok r) /\ troubles (lk_db l) (forks_r as_is as_is []) fs = [Ended] /\ answer (lk_db l) (forks_r as_is as_is []) fs = Panic /\
  (exists r, stats as_is as_is l = Ok r) /\ troubles (lk_db l) (stats_r as_is as_is) fs = [Ended] /\ answer (lk_db l) (stats_r as_is as_is) fs = Panic.
Proof.
  exists xg, forked, yl, [None; Some 0]. split; [apply yl_reachable|]. split; [eexists; vm_compute; reflexivity|]. split; [vm_compute; reflexivity|].
  split; [vm_compute; reflexivity|]. split; [eexists; vm_compute; reflexivity|]. split; vm_compute; reflexivity.
Qed.
Print Assumptions C98_forks_refuted.
(** A failed read of the leash is answered with the score of the block with the zero ID (linkage.go:163-178). *)
Definition zeroed : list (op * option nat) :=
  [(Put (xblk 1 0) (xpeer 1), None); (Put (xblk 2 1) (xpeer 1), None);
   (Put {| pb_id := zero_id; pb_parent := xid 0; pb_ts := 1001; pb_bt := 1000; pb_gen := Some (xgen 1) |} (xpeer 2), None)].
Theorem C98_leash_score_refuted : exists g ops l a fs s s', reachable g ops l /\
  leash_score l a = Ok s /\ troubles (lk_db l) (leash_score_r (lk_genesis l) a) fs = [Failed] /\
  answer (lk_db l) (leash_score_r (lk_genesis l) a) fs = Ok s' /\ s' <> s.
Proof.
  exists xg, zeroed, (at_end zeroed), (xpeer 1), [None; Some 0]. eexists. eexists. split; [apply at_end_reachable; vm_compute; reflexivity|].
  split; [vm_compute; reflexivity|]. split; [vm_compute; reflexivity|]. split; [vm_compute; reflexivity|]. discriminate.
Qed.
Print Assumptions C98_leash_score_refuted.

(** * Examples *)
(** The third of the reads of PutBlock fails: an error, and no batch; without the fault, two batches. A block whose number cannot be read is
    not taken for a new one. *)
Example C98_writes_example :
  troubles (lk_db yl) (put_block_r (xblk 5 4) (xpeer 3)) [None; None; None; Some 0] = [Failed] /\
  answer (lk_db yl) (put_block_r (xblk 5 4) (xpeer 3)) [None; None; None; Some 0] = Err EOther /\
  (exists b1 b2, answer (lk_db yl) (put_block_r (xblk 5 4) (xpeer 3)) [] = Ok [b1; b2]) /\
  answer (lk_db yl) (put_block_r (xblk 3 2) (xpeer 3)) [None; Some 0] = Err EOther /\
  answer (lk_db yl) (put_block_r (xblk 3 2) (xpeer 3)) [None; None] = Ok [update_leash (xpeer 3) (xid 3)].
Proof. split; [vm_compute; reflexivity|]. split; [vm_compute; reflexivity|]. split; [eexists; eexists; vm_compute; reflexivity|]. split; vm_compute; reflexivity. Qed.
(** A leash that cannot be read is not taken for a missing one. *)
Example C98_lookups_example :
  answer (lk_db yl) (has_leash_r (xpeer 1)) [None; Some 0] = Err EOther /\ answer (lk_db yl) (has_leash_r (xpeer 1)) [] = Ok true /\
  answer (lk_db yl) (has_leash_r (xpeer 7)) [] = Ok false /\ answer (lk_db yl) (leash_r (lk_genesis yl) (xpeer 1)) [Some 0] = Err EOther /\
  answer (lk_db yl) (get_ancestors_r (xid 3) 10) [None; None; None; None; Some 0] = Err EOther /\
  answer (lk_db yl) (get_ancestors_r (xid 3) 10) [] = Ok [xid 3; xid 2; xid 1; xid 0].
Proof. repeat split; vm_compute; reflexivity. Qed.
Example C98_lists_example :
  answer (lk_db yl) leashes_r [Some 0] = Err EOther /\ answer (lk_db yl) heads_r [None; None; None; Some 0] = Err EOther /\
  answer (lk_db yl) heads_r [] = Ok [(1%N, xid 3); (2%N, xid 4)] /\ answer (lk_db yl) (fork_of_r as_is (xpeer 1)) [None; None; None; Some 0] = Err EOther.
Proof. repeat split; vm_compute; reflexivity. Qed.
Example C98_leash_score_example : lk_has_block yl zero_id = Ok false /\
  answer (lk_db yl) (leash_score_r (lk_genesis yl) (xpeer 1)) [Some 0] = Err ENotFound /\
  troubles (lk_db yl) (leash_score_r (lk_genesis yl) (xpeer 1)) [Some 0] = [Failed] /\ (exists s, answer (lk_db yl) (leash_score_r (lk_genesis yl) (xpeer 1)) [] = Ok s).
Proof. split; [vm_compute; reflexivity|]. split; [vm_compute; reflexivity|]. split; [vm_compute; reflexivity|]. eexists. vm_compute. reflexivity. Qed.
Example C98_first_example : lk_leashes yl = Ok [(xpeer 1, xid 4); (xpeer 2, xid 3)] /\
  answer (lk_db yl) leashes_r [None; Some 1] = Ok [(xpeer 1, xid 4)] /\ answer (lk_db yl) heads_r [None; Some 1] = Ok [(1%N, xid 3)].
Proof. repeat split; vm_compute; reflexivity. Qed.
(** The peer 2 is not among the leashes that were read: looking for its fork ends with an error, as for a peer without a leash. *)
Example C98_ended_example : troubles (lk_db yl) (fork_of_r as_is (xpeer 2)) [None; Some 1] = [Ended] /\
  answer (lk_db yl) (fork_of_r as_is (xpeer 2)) [None; Some 1] = Err ENotFound /\ fork_of as_is yl (xpeer 9) = Err ENotFound /\
  answer (lk_db yl) (stats_r as_is as_is) [None; Some 1] = Ok (1, 0)%nat /\ answer (lk_db yl) (stats_r as_is as_is) [] = Ok (2, 0)%nat.
Proof. repeat split; vm_compute; reflexivity. Qed.

(** * Histories with failing reads *)
(** One call; [fault] as in [exec], [fs] the faults of its reads. Moving a leash reads nothing; reopening is NewLinkage. *)
Definition writes_r (g : pblock) (l : linkage) (o : op) (fs : list (option nat)) : list (batch val) :=
  let made (x : outcome (list (batch val))) := match x with Ok ws => ws | _ => [] end in
  match o with
  | Put b a => made (answer (lk_db l) (put_block_r b a) fs)
  | Micro m a => made (answer (lk_db l) (put_micro_block_r m a) fs)
  | Move i a => [update_leash a i]
  | Reopen => made (answer (lk_db l) (initialize_r g) fs)
  end.
Definition exec_r (g : pblock) (l : linkage) (o : op) (fault : option nat) (fs : list (option nat)) : linkage :=
  let ws := writes_r g l o fs in
  with_db l (apply_writes (lk_db l) (match fault with Some k => firstn k ws | None => ws end)).
Fixpoint run_r (g : pblock) (l : linkage) (ops : list (op * option nat * list (option nat))) : linkage :=
  match ops with [] => l | (o, f, fs) :: ops' => run_r g (exec_r g l o f fs) ops' end.

Lemma writes_read : forall g l o fs, writes_r g l o fs = fst (op_writes g l o) \/ writes_r g l o fs = [].
Proof.
  assert (X : forall A d (p : prg A) o fs, reports d p o -> no_lists d p -> answer d p fs = o \/ answer d p fs = Err EOther).
  { intros A d p o fs R W. destruct (R fs) as [R1 R2]. specialize (W fs). destruct (troubles d p fs) as [|[] ts]; [left; auto|right; apply R2; now left|exfalso; apply W; now left]. }
  intros g l [b a|m a|i a|] fs; cbn [writes_r op_writes].
  - destruct (proj1 (C98_writes l) b a) as [R W]. destruct (X _ _ _ _ fs R W) as [-> | ->]; [|now right]. left. unfold result_of, put_block.
    destruct (has_block (lk_db l) (pb_id b)) as [[|]|e| |]; cbn; auto. destruct (has_block (lk_db l) (pb_parent b)) as [[|]|e| |]; cbn; auto. now destruct (put_proto_block (lk_db l) b).
  - destruct (proj1 (proj2 (C98_writes l)) m a) as [R W]. destruct (X _ _ _ _ fs R W) as [-> | ->]; [|now right]. left. unfold result_of, put_micro_block.
    destruct (has_block (lk_db l) (mi_total m)) as [[|]|e| |]; cbn; auto. destruct (has_block (lk_db l) (mi_ref m)) as [[|]|e| |]; cbn; auto. now destruct (put_micro_block_st (lk_db l) m).
  - now left.
  - destruct (proj2 (proj2 (C98_writes l)) g) as [R W]. destruct (X _ _ _ _ fs R W) as [-> | ->]; [|now right]. left. unfold new_linkage. now destruct (initialize (lk_db l) g).
Qed.
(** Whatever fails to be read, the store is one that the same calls lead to, with the failing ones interrupted before their first write: so
    all that is said about reachable stores holds. *)
Theorem C98_history : forall g l ops, exists ops', map fst ops' = map (fun x => fst (fst x)) ops /\ run_r g l ops = run g l ops'.
Proof.
  intros g l ops. revert l. induction ops as [|[[o f] fs] ops IH]; intros l; [exists []; auto|]. cbn [run_r map fst].
  assert (S : exists f', exec_r g l o f fs = fst (exec g l o f')).
  { unfold exec_r. destruct (writes_read g l o fs) as [-> | ->].
    - exists f. unfold exec. destruct (op_writes g l o) as [ws r]. cbn [fst]. destruct f as [k|]; [|reflexivity]. destruct (Nat.ltb_spec k (length ws)); [reflexivity|]. cbn [fst]. now rewrite firstn_all2.
    - exists (Some 0). unfold exec. destruct (op_writes g l o) as [ws r]. destruct ws; destruct f as [[|k]|]; reflexivity. }
  destruct S as [f' ->]. destruct (IH (fst (exec g l o f'))) as (ops' & M & ->). exists ((o, f') :: ops'). cbn [map fst run]. now rewrite M.
Qed.
Print Assumptions C98_history.
(** The first attempt to put block 4 fails, the second one succeeds. *)
Example C98_history_example : run_r xg yl [(Put (xblk 5 4) (xpeer 1), None, [None; None; None; Some 0])] = yl /\
  run_r xg yl [(Put (xblk 5 4) (xpeer 1), None, [None; None; None; Some 0]); (Put (xblk 5 4) (xpeer 1), None, [])] = at_end (forked ++ [(Put (xblk 5 4) (xpeer 1), None)]).
Proof. split; vm_compute; reflexivity. Qed.
