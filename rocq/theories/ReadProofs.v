(** Facts about the programs of ReadModel.v. *)
From Coq Require Import Strings.Byte.
From Verif Require Import Base Kv KvFacts BytesFacts ChainModel ReadModel.
Set Implicit Arguments.
Unset Strict Implicit.

Section Programs.
Variable V : Type.
Variable d : kv V.

(** * Composition *)
Lemma plain_attempt : forall A B (p : prog V A) (f : outcome A -> prog V B), plain d (attempt p f) = plain d (f (plain d p)).
Proof. intros A B p f. induction p as [o|k IH|key k IH|lo hi k IH]; cbn [attempt plain]; auto. Qed.
Lemma plain_then : forall A B (p : prog V A) (f : A -> prog V B), plain d (then_ p f) = do a <- plain d p; plain d (f a).
Proof. intros A B p f. unfold then_. rewrite plain_attempt. now destruct (plain d p). Qed.
Lemma plain_each : forall A B (f : A -> prog V B) l, plain d (each f l) = mapM (fun a => plain d (f a)) l.
Proof.
  intros A B f l. induction l as [|x l IH]; [reflexivity|]. cbn [each mapM]. rewrite plain_then. destruct (plain d (f x)); cbn [bind]; auto.
  rewrite plain_then, IH. now destruct (mapM _ l).
Qed.
(** Without troubles the answer is the plain one. *)
Lemma untroubled : forall A (p : prog V A) fs o r, faulty d p fs = (o, [], r) -> o = plain d p.
Proof.
  intros A p. induction p as [x|k IH|key k IH|lo hi k IH]; intros fs o r E; cbn [faulty] in E.
  - now injection E as <- _.
  - destruct (match fs with [] => None | f :: _ => f end); [discriminate E|]. cbn [plain]. eapply IH; eauto.
  - destruct (match fs with [] => None | f :: _ => f end); [discriminate E|]. cbn [plain]. eapply IH; eauto.
  - destruct (match fs with [] => None | f :: _ => f end); [discriminate E|]. cbn [plain]. eapply IH; eauto.
Qed.

(** * Errors of reads are returned at once *)
Inductive careful {A} : prog V A -> Prop :=
| careful_ret : forall o, careful (Ret o)
| careful_snap : forall k, k (Err EOther) = Ret (Err EOther) -> careful (k (Ok tt)) -> careful (Snap k)
| careful_get : forall key k, k (Err EOther) = Ret (Err EOther) -> (forall v, careful (k (Ok v))) -> careful (k (Err ENotFound)) -> careful (Get key k)
| careful_iter : forall lo hi k, (forall bs, careful (k bs)) -> careful (Iter lo hi k).
Lemma careful_attempt : forall A B (p : prog V A) (f : outcome A -> prog V B), careful p -> f (Err EOther) = Ret (Err EOther) -> (forall o, careful (f o)) -> careful (attempt p f).
Proof.
  intros A B p f C FE FC. induction C as [o|k E C IH|key k E C1 IH1 C2 IH2|lo hi k C IH]; cbn [attempt]; auto.
  - apply careful_snap; auto. now rewrite E.
  - apply careful_get; auto. now rewrite E.
  - apply careful_iter; auto.
Qed.
Lemma careful_then : forall A B (p : prog V A) (f : A -> prog V B), careful p -> (forall a, careful (f a)) -> careful (then_ p f).
Proof. intros A B p f C F. apply careful_attempt; auto. intros []; auto; constructor. Qed.
Lemma careful_each : forall A B (f : A -> prog V B) l, (forall a, careful (f a)) -> careful (each f l).
Proof. intros A B f l F. induction l as [|x l IH]; [constructor|]. cbn [each]. apply careful_then; auto. intros y. apply careful_then; auto. constructor. Qed.
Lemma careful_failed : forall A (p : prog V A), careful p -> forall fs o ts r, faulty d p fs = (o, ts, r) -> In Failed ts -> o = Err EOther.
Proof.
  intros A p C. induction C as [x|k E C IH|key k E C1 IH1 C2 IH2|lo hi k C IH]; intros fs o ts r F I; cbn [faulty] in F.
  - injection F as <- <- _. destruct I.
  - destruct (match fs with [] => None | f :: _ => f end); [|eapply IH; eauto]. rewrite E in F. cbn in F. congruence.
  - destruct (match fs with [] => None | f :: _ => f end); [rewrite E in F; cbn in F; congruence|].
    unfold reads in F. destruct (kv_get key d); [eapply IH1|eapply IH2]; eauto.
  - destruct (match fs with [] => None | f :: _ => f end) as [n|]; [|eapply IH; eauto].
    destruct (faulty d (k (firstn n (range_of lo hi d))) (tl fs)) as [[o1 ts1] r1] eqn:F1. cbn [fst snd] in F. injection F as <- <- <-.
    destruct I as [I|I]; [discriminate I|]. eapply IH; eauto.
Qed.

(** * Programs without iterations *)
Inductive pointwise {A} : prog V A -> Prop :=
| pw_ret : forall o, pointwise (Ret o)
| pw_snap : forall k, (forall o, pointwise (k o)) -> pointwise (Snap k)
| pw_get : forall key k, (forall o, pointwise (k o)) -> pointwise (Get key k).
Lemma pw_attempt : forall A B (p : prog V A) (f : outcome A -> prog V B), pointwise p -> (forall o, pointwise (f o)) -> pointwise (attempt p f).
Proof. intros A B p f C F. induction C; cbn [attempt]; auto; constructor; auto. Qed.
Lemma pw_then : forall A B (p : prog V A) (f : A -> prog V B), pointwise p -> (forall a, pointwise (f a)) -> pointwise (then_ p f).
Proof. intros A B p f C F. apply pw_attempt; auto. intros []; auto; constructor. Qed.
Lemma pw_each : forall A B (f : A -> prog V B) l, (forall a, pointwise (f a)) -> pointwise (each f l).
Proof. intros A B f l F. induction l as [|x l IH]; [constructor|]. cbn [each]. apply pw_then; auto. intros y. apply pw_then; auto. constructor. Qed.
Lemma pw_not_ended : forall A (p : prog V A), pointwise p -> forall fs o ts r, faulty d p fs = (o, ts, r) -> ~ In Ended ts.
Proof.
  intros A p C. induction C as [x|k C IH|key k C IH]; intros fs o ts r F; cbn [faulty] in F.
  - injection F as _ <- _. intros [].
  - destruct (match fs with [] => None | f :: _ => f end); [|eapply IH; eauto].
    destruct (faulty d (k (Err EOther)) (tl fs)) as [[o1 ts1] r1] eqn:F1. cbn [fst snd] in F. injection F as <- <- <-. intros [I|I]; [discriminate I|]. eapply IH; eauto.
  - destruct (match fs with [] => None | f :: _ => f end); [|eapply IH; eauto].
    destruct (faulty d (k (Err EOther)) (tl fs)) as [[o1 ts1] r1] eqn:F1. cbn [fst snd] in F. injection F as <- <- <-. intros [I|I]; [discriminate I|]. eapply IH; eauto.
Qed.

(** * A run in which only iterations end early *)

(** The run with the lists cut is a plain run in which the iterations give those lists. *)
Fixpoint with_lists {A} (p : prog V A) (cuts : list nat) : outcome A :=
  match p with
  | Ret o => o
  | Snap k => with_lists (k (Ok tt)) cuts
  | Get key k => with_lists (k (reads d key)) cuts
  | Iter lo hi k => match cuts with
                    | [] => with_lists (k (range_of lo hi d)) []
                    | n :: cuts' => with_lists (k (firstn n (range_of lo hi d))) cuts'
                    end
  end.
Lemma cut_run : forall A (p : prog V A) fs o ts r, faulty d p fs = (o, ts, r) -> ~ In Failed ts -> exists cuts, o = with_lists p cuts.
Proof.
  intros A p. induction p as [x|k IH|key k IH|lo hi k IH]; intros fs o ts r F N; cbn [faulty] in F.
  - exists []. now injection F as <- _ _.
  - destruct (match fs with [] => None | f :: _ => f end); [|cbn [with_lists]; eapply IH; eauto].
    exfalso. apply N. destruct (faulty d (k (Err EOther)) (tl fs)) as [[o1 ts1] r1]. cbn [fst snd] in F. injection F as _ <- _. now left.
  - destruct (match fs with [] => None | f :: _ => f end); [|cbn [with_lists]; eapply IH; eauto].
    exfalso. apply N. destruct (faulty d (k (Err EOther)) (tl fs)) as [[o1 ts1] r1]. cbn [fst snd] in F. injection F as _ <- _. now left.
  - destruct (match fs with [] => None | f :: _ => f end) as [n|].
    + destruct (faulty d (k (firstn n (range_of lo hi d))) (tl fs)) as [[o1 ts1] r1] eqn:F1. cbn [fst snd] in F. injection F as <- <- <-.
      destruct (IH _ _ _ _ _ F1) as [cuts E]; [intros I; apply N; now right|]. exists (n :: cuts). exact E.
    + destruct (IH _ _ _ _ _ F N) as [cuts E]. exists (length (range_of lo hi d) :: cuts). cbn [with_lists]. now rewrite firstn_all.
Qed.
Lemma pw_with_lists : forall A (p : prog V A), pointwise p -> forall cuts, with_lists p cuts = plain d p.
Proof. intros A p C. induction C; intros cuts; cbn [with_lists plain]; auto. Qed.
End Programs.

(** * The programs are the functions of ChainModel.v *)
Section Same.
Variable d : db.
Lemma plain_snapped : forall A (p : prg A), plain d (snapped p) = plain d p.
Proof. reflexivity. Qed.
Lemma same_counter : forall c, plain d (get_counter_r c) = get_counter d c.
Proof. intros c. unfold get_counter_r, get_counter. cbn [plain]. unfold reads. now destruct (kv_get _ d) as [[]|]. Qed.
Lemma same_num : forall i, plain d (get_num_r i) = get_num_of_block_id d i.
Proof. intros i. unfold get_num_r, get_num_of_block_id. rewrite plain_then. cbn [plain]. unfold reads. now destruct (kv_get _ d) as [[]|]. Qed.
Lemma same_get_block : forall n, plain d (get_block_r n) = get_block d n.
Proof. intros n. unfold get_block_r, get_block. rewrite plain_then. cbn [plain]. unfold reads. now destruct (kv_get _ d) as [[]|]. Qed.
Lemma same_link : forall n, plain d (get_link_r n) = get_link d n.
Proof. intros n. unfold get_link_r, get_link. rewrite plain_then. cbn [plain]. unfold reads. now destruct (kv_get _ d) as [[]|]. Qed.
Lemma same_head : forall n, plain d (get_head_r n) = get_head_by_block_num d n.
Proof. intros n. unfold get_head_r, get_head_by_block_num. rewrite plain_then. cbn [plain]. unfold reads. now destruct (kv_get _ d) as [[]|]. Qed.
Lemma same_st_leash : forall a, plain d (st_leash_r a) = get_leash d a.
Proof. intros a. unfold st_leash_r, get_leash. rewrite plain_snapped, plain_then. cbn [plain]. unfold reads. now destruct (kv_get _ d) as [[]|]. Qed.
Lemma bind_ext : forall A B (x : outcome A) (f g : A -> outcome B), (forall a, f a = g a) -> bind x f = bind x g.
Proof. intros A B [] f g H; cbn [bind]; auto. Qed.
Ltac same := repeat (first [rewrite plain_snapped | rewrite plain_then | rewrite same_counter | rewrite same_num | rewrite same_get_block | rewrite same_link | rewrite same_head | rewrite same_st_leash]); cbn [plain pure].
Lemma same_block_by_id : forall i, plain d (get_block_by_id_r i) = get_block_by_id d i.
Proof. intros i. unfold get_block_by_id_r, get_block_by_id. same. apply bind_ext. intros n. apply same_get_block. Qed.
Lemma same_st_block : forall i, plain d (st_block_r i) = get_block_by_id d i.
Proof. intros i. unfold st_block_r. rewrite plain_snapped. apply same_block_by_id. Qed.
Lemma same_link_by_id : forall i, plain d (get_link_by_id_r i) = get_link_by_id d i.
Proof. intros i. unfold get_link_by_id_r, get_link_by_id. same. apply bind_ext. intros n. apply same_link. Qed.
Lemma same_has_block : forall i, plain d (st_has_block_r i) = has_block d i.
Proof. intros i. unfold st_has_block_r, has_block. rewrite plain_snapped, plain_attempt, same_num. cbn [plain]. reflexivity. Qed.
Lemma same_collect : forall k l pn, plain d (collect_parents_r k l pn) = collect_parents d k l pn.
Proof.
  induction k as [|k IH]; intros l pn; [reflexivity|]. cbn [collect_parents_r collect_parents]. same. apply bind_ext. intros pl. cbv zeta. same. now rewrite IH.
Qed.
Lemma same_new_link : forall n i h p, plain d (new_link_r n i h p) = new_link_for_block d n i h p.
Proof.
  intros n i h p. unfold new_link_r, new_link_for_block. same. apply bind_ext. intros pn. same. apply bind_ext. intros mp. same. now rewrite same_collect.
Qed.
Lemma same_put_head : forall n p, plain d (put_head_r n p) = put_head d n p.
Proof.
  intros n p. unfold put_head_r, put_head. rewrite plain_attempt, same_head. destruct (get_head_by_block_num d p) as [x|[]| |]; cbn [plain]; auto.
  unfold put_new_head_r, put_new_head. same. reflexivity.
Qed.
Lemma same_put_proto : forall b, plain d (put_proto_block_r b) = put_proto_block d b.
Proof.
  intros b. unfold put_proto_block_r, put_proto_block. same. apply bind_ext. intros cnt. same. apply bind_ext. intros pn. same. apply bind_ext. intros parent.
  cbv zeta. same. apply bind_ext. intros sb. same. rewrite same_new_link. apply bind_ext. intros lnk. same. rewrite same_put_head. now apply bind_ext.
Qed.
Lemma same_put_micro : forall m, plain d (put_micro_block_st_r m) = put_micro_block_st d m.
Proof.
  intros m. unfold put_micro_block_st_r, put_micro_block_st. same. apply bind_ext. intros cnt. same. apply bind_ext. intros pn. same. apply bind_ext. intros ref.
  same. apply bind_ext. intros parent. cbv zeta. same. rewrite same_new_link. apply bind_ext. intros lnk. same. rewrite same_put_head. now apply bind_ext.
Qed.
Lemma same_initialize : forall g, plain d (initialize_r g) = initialize d g.
Proof.
  intros g. unfold initialize_r, initialize. same. apply bind_ext. intros cnt. destruct (cnt =? 0)%N; [|reflexivity]. destruct (pb_gen g); [|reflexivity]. same. now apply bind_ext.
Qed.
Lemma same_ancestors : forall i c, plain d (get_ancestors_r i c) = get_ancestors d i c.
Proof.
  intros i c. unfold get_ancestors_r, get_ancestors. same. apply bind_ext. intros n. destruct (c <? 0)%Z; [reflexivity|].
  generalize (Z.to_nat c). intros k. revert n. induction k as [|k IH]; intros n; [reflexivity|]. cbn [ancestors_loop_r ancestors_loop]. same. apply bind_ext. intros l.
  same. apply bind_ext. intros pid. destruct (sl_parents l); [reflexivity|]. same. now rewrite IH.
Qed.
Lemma same_blocks : forall i c, plain d (get_blocks_r i c) = get_blocks d i c.
Proof.
  intros i c. unfold get_blocks_r, get_blocks. same. apply bind_ext. intros n. destruct (c <? 0)%Z; [reflexivity|].
  generalize (Z.to_nat c). intros k. revert n. induction k as [|k IH]; intros n; [reflexivity|]. cbn [blocks_loop_r blocks_loop]. same. apply bind_ext. intros b.
  same. apply bind_ext. intros bb. destruct (Nat.eqb _ 0); [reflexivity|]. same. apply bind_ext. intros l. destruct (sl_parents l); [reflexivity|]. same. now rewrite IH.
Qed.
Lemma same_backward : forall fuel k f o, plain d (fast_backward_r fuel k f o) = fast_backward d fuel k f o.
Proof.
  induction fuel as [|fuel IH]; intros [|i] f o; try reflexivity. cbn [fast_backward_r fast_backward]. destruct (_ <=? _)%N; [|apply IH].
  destruct (nth_error _ i); [|reflexivity]. same. apply bind_ext. intros l. destruct (Nat.leb _ i); apply IH.
Qed.
Lemma same_lca_loop : forall k f o, plain d (lca_loop_r k f o) = lca_loop d k f o.
Proof.
  induction k as [|i IH]; intros f o; [reflexivity|]. cbn [lca_loop_r lca_loop]. destruct (nth_error (sl_parents f) i) as [p|]; [|reflexivity].
  destruct (nth_error (sl_parents o) i) as [q|]; [|reflexivity]. destruct (p =? q)%N; [apply IH|]. same. apply bind_ext. intros f'. same. apply bind_ext. intros o'. apply IH.
Qed.
Lemma same_lca : forall i j, plain d (lca_r i j) = lca d i j.
Proof.
  intros i j. unfold lca_r, lca. rewrite plain_snapped, plain_then, same_link_by_id. apply bind_ext. intros l1. rewrite plain_then, same_link_by_id. apply bind_ext. intros l2.
  destruct (_ <? _)%N; rewrite plain_then, same_backward; apply bind_ext; intros f; (destruct (beqb _ _); [reflexivity|]);
  rewrite plain_then, same_lca_loop; apply bind_ext; intros fo; (destruct (sl_parents (fst fo)); [reflexivity|]); same; reflexivity.
Qed.
Lemma same_leashes : plain d leashes_r = leashes d.
Proof. reflexivity. Qed.
Lemma same_heads : plain d heads_r = heads d.
Proof.
  unfold heads_r, heads. rewrite plain_snapped, plain_then. unfold get_heads_r, get_heads. cbn [plain]. apply bind_ext. intros hs. rewrite plain_each.
  induction hs as [|h hs IH]; [reflexivity|]. cbn [mapM]. rewrite IH. f_equal. same. apply bind_ext. intros bl. now same.
Qed.
End Same.

Section Linkage.
Variable l : linkage.
Let d := lk_db l.
Lemma same_put_block : forall b a, plain d (put_block_r b a) = do _ <- snd (put_block l b a); Ok (fst (put_block l b a)).
Proof.
  intros b a. unfold put_block_r, put_block. fold d. rewrite plain_then, same_has_block. destruct (has_block d (pb_id b)) as [[]|e| |]; cbn [bind fst snd plain]; auto.
  rewrite plain_then, same_has_block. destruct (has_block d (pb_parent b)) as [[]|e| |]; cbn [bind fst snd plain]; auto.
  rewrite plain_then, same_put_proto. destruct (put_proto_block d b); reflexivity.
Qed.
Lemma same_put_micro_block : forall m a, plain d (put_micro_block_r m a) = do _ <- snd (put_micro_block l m a); Ok (fst (put_micro_block l m a)).
Proof.
  intros b a. unfold put_micro_block_r, put_micro_block. fold d. rewrite plain_then, same_has_block. destruct (has_block d (mi_total b)) as [[]|e| |]; cbn [bind fst snd plain]; auto.
  rewrite plain_then, same_has_block. destruct (has_block d (mi_ref b)) as [[]|e| |]; cbn [bind fst snd plain]; auto.
  rewrite plain_then, same_put_micro. destruct (put_micro_block_st d b); reflexivity.
Qed.
Lemma same_has_leash : forall a, plain d (has_leash_r a) = has_leash l a.
Proof. intros a. unfold has_leash_r, has_leash. rewrite plain_attempt, same_st_leash. reflexivity. Qed.
Lemma same_leash : forall a, plain d (leash_r (lk_genesis l) a) = leash l a.
Proof. intros a. unfold leash_r, leash. rewrite plain_attempt, same_st_leash. reflexivity. Qed.
Lemma same_leash_score : forall a, plain d (leash_score_r (lk_genesis l) a) = leash_score l a.
Proof. intros a. unfold leash_score_r, leash_score. rewrite plain_attempt, same_st_leash. fold d. cbv zeta. rewrite plain_then, same_st_block. reflexivity. Qed.
Lemma same_block : forall i, plain d (block_r i) = block l i.
Proof. intros i. unfold block_r, block. rewrite plain_then, same_st_block. reflexivity. Qed.
Lemma same_active : plain d active_heads_r = active_heads l.
Proof. unfold active_heads_r, active_heads. rewrite plain_then, same_heads. apply bind_ext. intros hs. rewrite plain_then, same_leashes. reflexivity. Qed.
Lemma same_longest : forall m acc, plain d (longest_loop_r m acc) = longest_loop l m acc.
Proof. induction m as [|g m IH]; intros acc; [reflexivity|]. cbn [longest_loop_r longest_loop]. rewrite plain_then, same_block. apply bind_ext. intros b. apply IH. Qed.
Lemma same_lcb : forall ord a, plain d (lcb_r ord (lk_genesis l) a) = lcb ord l a.
Proof.
  intros ord a. unfold lcb_r, lcb. rewrite plain_attempt, same_st_leash. fold d. destruct (get_leash d a) as [h|[]| |]; auto.
  rewrite plain_then, same_leashes. apply bind_ext. intros ls. rewrite plain_then, same_longest. apply bind_ext. intros acc. cbv zeta. destruct (id_eqb _ _); [reflexivity|]. apply same_lca.
Qed.
Lemma same_fork_loop : forall p m acc f, plain d (fork_loop_r p m acc f) = fork_loop l p m acc f.
Proof. induction m as [|g m IH]; intros acc f; [reflexivity|]. cbn [fork_loop_r fork_loop]. rewrite plain_then, same_block. apply bind_ext. intros b. apply IH. Qed.
Lemma same_finish : forall i f, plain d (finish_fork_r i f) = finish_fork d i f.
Proof. intros i f. unfold finish_fork_r, finish_fork. rewrite plain_then, same_lca. apply bind_ext. intros j. rewrite plain_then, same_st_block. reflexivity. Qed.
Lemma same_fork : forall ord a, plain d (fork_of_r ord a) = fork_of ord l a.
Proof.
  intros ord a. unfold fork_of_r, fork_of. rewrite plain_then, same_leashes. apply bind_ext. intros ls. rewrite plain_then, same_fork_loop. apply bind_ext. intros r.
  cbv zeta. destruct (id_eqb _ _); [reflexivity|]. apply same_finish.
Qed.
Lemma mapM_same : forall A B (f g : A -> outcome B) xs, (forall a, f a = g a) -> mapM f xs = mapM g xs.
Proof. intros A B f g xs H. induction xs as [|x xs IH]; [reflexivity|]. cbn [mapM]. now rewrite H, IH. Qed.
Lemma same_forks : forall ord srt ps, plain d (forks_r ord srt ps) = forks ord srt l ps.
Proof.
  intros ord srt ps. unfold forks_r, forks. rewrite plain_then, same_leashes. apply bind_ext. intros ls. rewrite plain_then, plain_each.
  rewrite (@mapM_same _ _ _ (fun g => do b <- block l (fst g); Ok (new_fork b (snd g)))).
  - apply bind_ext. intros r. destruct (srt r) as [|f0 rest]; [reflexivity|]. rewrite plain_each. apply mapM_same. intros f. apply same_finish.
  - intros g. rewrite plain_then, same_block. reflexivity.
Qed.
Lemma same_stats : forall ord srt, plain d (stats_r ord srt) = stats ord srt l.
Proof. intros ord srt. unfold stats_r, stats. rewrite plain_then, same_forks. reflexivity. Qed.
Lemma same_generators : forall ord srt i c, plain d (fork_generators_r ord srt i c) = fork_generators ord srt l i c.
Proof. intros. unfold fork_generators_r, fork_generators. rewrite plain_then, same_blocks. reflexivity. Qed.
End Linkage.

(** * Every program but LeashScore is careful *)
Section Careful.
Lemma careful_snapped : forall A (p : prg A), careful p -> careful (snapped p).
Proof. intros A p C. now apply careful_snap. Qed.
Lemma careful_read : forall key A (f : val -> outcome A), careful (reading v <- Get key Ret; Ret (f v)).
Proof. intros key A f. apply careful_then; [|constructor]. apply careful_get; auto; constructor. Qed.
Lemma c_counter : forall c, careful (get_counter_r c).
Proof. intros c. apply careful_get; auto; constructor. Qed.
Lemma c_num : forall i, careful (get_num_r i).
Proof. intros i. apply careful_read. Qed.
Lemma c_get_block : forall n, careful (get_block_r n).
Proof. intros i. apply careful_read. Qed.
Lemma c_link : forall n, careful (get_link_r n).
Proof. intros i. apply careful_read. Qed.
Lemma c_head : forall n, careful (get_head_r n).
Proof. intros i. apply careful_read. Qed.
Lemma c_st_leash : forall a, careful (st_leash_r a).
Proof. intros a. apply careful_snapped, careful_read. Qed.
Ltac step := repeat first [apply careful_snapped | apply c_counter | apply c_num | apply c_get_block | apply c_link | apply c_head | apply c_st_leash | (apply careful_then; [|intro]) | apply careful_ret].
Lemma c_st_block : forall i, careful (st_block_r i).
Proof. intros i. unfold st_block_r, get_block_by_id_r. step. Qed.
Lemma c_link_by_id : forall i, careful (get_link_by_id_r i).
Proof. intros i. unfold get_link_by_id_r. step. Qed.
Lemma c_has_block : forall i, careful (st_has_block_r i).
Proof. intros i. apply careful_snapped, careful_attempt; auto; [apply c_num|constructor]. Qed.
Lemma c_collect : forall k l pn, careful (collect_parents_r k l pn).
Proof. induction k as [|k IH]; intros l pn; cbn [collect_parents_r]; step. apply IH. Qed.
Lemma c_new_link : forall n i h p, careful (new_link_r n i h p).
Proof. intros. unfold new_link_r, pure. step. apply c_collect. Qed.
Lemma c_put_head : forall n p, careful (put_head_r n p).
Proof.
  intros n p. apply careful_attempt; auto; [apply c_head|]. intros [x|[]| |]; try apply careful_ret. unfold put_new_head_r. step.
Qed.
Lemma c_put_proto : forall b, careful (put_proto_block_r b).
Proof. intros b. unfold put_proto_block_r, pure. apply careful_snapped. repeat first [apply c_new_link | apply c_put_head | apply c_counter | apply c_num | apply c_get_block | (apply careful_then; [|intro]) | apply careful_ret]. Qed.
Lemma c_put_micro : forall b, careful (put_micro_block_st_r b).
Proof. intros b. unfold put_micro_block_st_r, pure. apply careful_snapped. repeat first [apply c_new_link | apply c_put_head | apply c_counter | apply c_num | apply c_get_block | (apply careful_then; [|intro]) | apply careful_ret]. Qed.
Lemma c_initialize : forall g, careful (initialize_r g).
Proof. intros g. unfold initialize_r, pure. step. destruct (_ =? 0)%N; [|constructor]. destruct (pb_gen g); step. Qed.
Lemma c_ancestors : forall i c, careful (get_ancestors_r i c).
Proof.
  intros i c. unfold get_ancestors_r. step. destruct (c <? 0)%Z; [constructor|]. generalize (Z.to_nat c). intros k. revert a. induction k as [|k IH]; intros n; cbn [ancestors_loop_r]; unfold pure; step.
  destruct (sl_parents _); step. apply IH.
Qed.
Lemma c_blocks : forall i c, careful (get_blocks_r i c).
Proof.
  intros i c. unfold get_blocks_r. step. destruct (c <? 0)%Z; [constructor|]. generalize (Z.to_nat c). intros k. revert a. induction k as [|k IH]; intros n; cbn [blocks_loop_r]; unfold pure; step.
  destruct (Nat.eqb _ 0); step. destruct (sl_parents _); step. apply IH.
Qed.
Lemma c_backward : forall fuel k f o, careful (fast_backward_r fuel k f o).
Proof.
  induction fuel as [|fuel IH]; intros [|i] f o; try apply careful_ret. cbn [fast_backward_r]. destruct (_ <=? _)%N; [|apply IH]. destruct (nth_error _ i); [|constructor].
  step. destruct (Nat.leb _ i); apply IH.
Qed.
Lemma c_lca_loop : forall k f o, careful (lca_loop_r k f o).
Proof.
  induction k as [|i IH]; intros f o; cbn [lca_loop_r]; [constructor|]. destruct (nth_error (sl_parents f) i); [|constructor]. destruct (nth_error (sl_parents o) i); [|constructor].
  destruct (_ =? _)%N; [apply IH|]. step. apply IH.
Qed.
Lemma c_lca : forall i j, careful (lca_r i j).
Proof.
  intros i j. unfold lca_r. apply careful_snapped. apply careful_then; [apply c_link_by_id|]. intros l1. apply careful_then; [apply c_link_by_id|]. intros l2.
  destruct (_ <? _)%N; (apply careful_then; [apply c_backward|]; intros f; destruct (beqb _ _); [constructor|]; apply careful_then; [apply c_lca_loop|]; intros fo;
  destruct (sl_parents (fst fo)); step).
Qed.
Lemma c_leashes : careful leashes_r.
Proof. apply careful_snapped, careful_iter. constructor. Qed.
Lemma c_heads : careful heads_r.
Proof. apply careful_snapped, careful_then; [apply careful_iter; constructor|]. intros hs. apply careful_each. intros h. unfold pure. step. Qed.
Lemma c_block : forall i, careful (block_r i).
Proof. intros i. unfold block_r. apply careful_then; [apply c_st_block|constructor]. Qed.
Lemma c_put_block : forall b a, careful (put_block_r b a).
Proof.
  intros b a. unfold put_block_r. apply careful_then; [apply c_has_block|]. intros []; [constructor|]. apply careful_then; [apply c_has_block|]. intros []; [|constructor].
  apply careful_then; [apply c_put_proto|constructor].
Qed.
Lemma c_put_micro_block : forall b a, careful (put_micro_block_r b a).
Proof.
  intros b a. unfold put_micro_block_r. apply careful_then; [apply c_has_block|]. intros []; [constructor|]. apply careful_then; [apply c_has_block|]. intros []; [|constructor].
  apply careful_then; [apply c_put_micro|constructor].
Qed.
Lemma c_has_leash : forall a, careful (has_leash_r a).
Proof. intros a. apply careful_attempt; auto; [apply c_st_leash|constructor]. Qed.
Lemma c_leash : forall g a, careful (leash_r g a).
Proof. intros g a. apply careful_attempt; auto; [apply c_st_leash|constructor]. Qed.
Lemma c_active : careful active_heads_r.
Proof. apply careful_then; [apply c_heads|]. intros hs. apply careful_then; [apply c_leashes|constructor]. Qed.
Lemma c_longest : forall m acc, careful (longest_loop_r m acc).
Proof. induction m as [|g m IH]; intros acc; cbn [longest_loop_r]; [constructor|]. apply careful_then; [apply c_block|]. intros b. apply IH. Qed.
Lemma c_lcb : forall ord g a, careful (lcb_r ord g a).
Proof.
  intros ord g a. apply careful_attempt; auto; [apply c_st_leash|]. intros [h|[]| |]; try apply careful_ret. apply careful_then; [apply c_leashes|]. intros ls.
  apply careful_then; [apply c_longest|]. intros acc. cbv zeta. destruct (id_eqb _ _); [constructor|apply c_lca].
Qed.
Lemma c_fork_loop : forall p m acc f, careful (fork_loop_r p m acc f).
Proof. induction m as [|g m IH]; intros acc f; cbn [fork_loop_r]; [constructor|]. apply careful_then; [apply c_block|]. intros b. apply IH. Qed.
Lemma c_finish : forall i f, careful (finish_fork_r i f).
Proof. intros i f. apply careful_then; [apply c_lca|]. intros j. apply careful_then; [apply c_st_block|constructor]. Qed.
Lemma c_fork : forall ord a, careful (fork_of_r ord a).
Proof.
  intros ord a. apply careful_then; [apply c_leashes|]. intros ls. apply careful_then; [apply c_fork_loop|]. intros r. cbv zeta. destruct (id_eqb _ _); [constructor|apply c_finish].
Qed.
Lemma c_forks : forall ord srt ps, careful (forks_r ord srt ps).
Proof.
  intros ord srt ps. apply careful_then; [apply c_leashes|]. intros ls. apply careful_then.
  - apply careful_each. intros g. apply careful_then; [apply c_block|constructor].
  - intros r. destruct (srt r) as [|f0 rest]; [constructor|]. apply careful_each. intros f. apply c_finish.
Qed.
Lemma c_stats : forall ord srt, careful (stats_r ord srt).
Proof. intros ord srt. apply careful_then; [apply c_forks|constructor]. Qed.
Lemma c_generators : forall ord srt i c, careful (fork_generators_r ord srt i c).
Proof. intros. apply careful_then; [apply c_blocks|constructor]. Qed.
End Careful.

(** * The programs that do not iterate *)
Section Pointwise.
Lemma pw_snapped : forall A (p : prg A), pointwise p -> pointwise (snapped p).
Proof. intros A p C. apply pw_snap. intros []; auto; constructor. Qed.
Lemma pw_read : forall key A (f : val -> outcome A), pointwise (reading v <- Get key Ret; Ret (f v)).
Proof. intros key A f. apply pw_then; [|constructor]. apply pw_get. constructor. Qed.
Lemma w_counter : forall c, pointwise (get_counter_r c).
Proof. intros c. apply pw_get. constructor. Qed.
Lemma w_num : forall i, pointwise (get_num_r i).
Proof. intros i. apply pw_read. Qed.
Lemma w_get_block : forall n, pointwise (get_block_r n).
Proof. intros i. apply pw_read. Qed.
Lemma w_link : forall n, pointwise (get_link_r n).
Proof. intros i. apply pw_read. Qed.
Lemma w_head : forall n, pointwise (get_head_r n).
Proof. intros i. apply pw_read. Qed.
Lemma w_st_leash : forall a, pointwise (st_leash_r a).
Proof. intros a. apply pw_snapped, pw_read. Qed.
Ltac step := repeat first [apply pw_snapped | apply w_counter | apply w_num | apply w_get_block | apply w_link | apply w_head | apply w_st_leash | (apply pw_then; [|intro]) | apply pw_ret].
Lemma w_st_block : forall i, pointwise (st_block_r i).
Proof. intros i. unfold st_block_r, get_block_by_id_r. step. Qed.
Lemma w_link_by_id : forall i, pointwise (get_link_by_id_r i).
Proof. intros i. unfold get_link_by_id_r. step. Qed.
Lemma w_has_block : forall i, pointwise (st_has_block_r i).
Proof. intros i. apply pw_snapped, pw_attempt; [apply w_num|constructor]. Qed.
Lemma w_collect : forall k l pn, pointwise (collect_parents_r k l pn).
Proof. induction k as [|k IH]; intros l pn; cbn [collect_parents_r]; step. apply IH. Qed.
Lemma w_new_link : forall n i h p, pointwise (new_link_r n i h p).
Proof. intros. unfold new_link_r, pure. step. apply w_collect. Qed.
Lemma w_put_head : forall n p, pointwise (put_head_r n p).
Proof. intros n p. apply pw_attempt; [apply w_head|]. intros [x|[]| |]; try apply pw_ret. unfold put_new_head_r. step. Qed.
Lemma w_put_proto : forall b, pointwise (put_proto_block_r b).
Proof. intros b. unfold put_proto_block_r, pure. apply pw_snapped. repeat first [apply w_new_link | apply w_put_head | apply w_counter | apply w_num | apply w_get_block | (apply pw_then; [|intro]) | apply pw_ret]. Qed.
Lemma w_put_micro : forall b, pointwise (put_micro_block_st_r b).
Proof. intros b. unfold put_micro_block_st_r, pure. apply pw_snapped. repeat first [apply w_new_link | apply w_put_head | apply w_counter | apply w_num | apply w_get_block | (apply pw_then; [|intro]) | apply pw_ret]. Qed.
Lemma w_initialize : forall g, pointwise (initialize_r g).
Proof. intros g. unfold initialize_r, pure. step. destruct (_ =? 0)%N; [|constructor]. destruct (pb_gen g); step. Qed.
Lemma w_ancestors : forall i c, pointwise (get_ancestors_r i c).
Proof.
  intros i c. unfold get_ancestors_r. step. destruct (c <? 0)%Z; [constructor|]. generalize (Z.to_nat c). intros k. revert a. induction k as [|k IH]; intros n; cbn [ancestors_loop_r]; unfold pure; step.
  destruct (sl_parents _); step. apply IH.
Qed.
Lemma w_blocks : forall i c, pointwise (get_blocks_r i c).
Proof.
  intros i c. unfold get_blocks_r. step. destruct (c <? 0)%Z; [constructor|]. generalize (Z.to_nat c). intros k. revert a. induction k as [|k IH]; intros n; cbn [blocks_loop_r]; unfold pure; step.
  destruct (Nat.eqb _ 0); step. destruct (sl_parents _); step. apply IH.
Qed.
Lemma w_backward : forall fuel k f o, pointwise (fast_backward_r fuel k f o).
Proof.
  induction fuel as [|fuel IH]; intros [|i] f o; try constructor. cbn [fast_backward_r]. destruct (_ <=? _)%N; [|apply IH]. destruct (nth_error _ i); [|constructor].
  step. destruct (Nat.leb _ i); apply IH.
Qed.
Lemma w_lca_loop : forall k f o, pointwise (lca_loop_r k f o).
Proof.
  induction k as [|i IH]; intros f o; cbn [lca_loop_r]; [constructor|]. destruct (nth_error (sl_parents f) i); [|constructor]. destruct (nth_error (sl_parents o) i); [|constructor].
  destruct (_ =? _)%N; [apply IH|]. step. apply IH.
Qed.
Lemma w_lca : forall i j, pointwise (lca_r i j).
Proof.
  intros i j. unfold lca_r. apply pw_snapped. apply pw_then; [apply w_link_by_id|]. intros l1. apply pw_then; [apply w_link_by_id|]. intros l2.
  destruct (_ <? _)%N; (apply pw_then; [apply w_backward|]; intros f; destruct (beqb _ _); [constructor|]; apply pw_then; [apply w_lca_loop|]; intros fo;
  destruct (sl_parents (fst fo)); step).
Qed.
Lemma w_block : forall i, pointwise (block_r i).
Proof. intros i. unfold block_r. apply pw_then; [apply w_st_block|constructor]. Qed.
Lemma w_put_block : forall b a, pointwise (put_block_r b a).
Proof.
  intros b a. unfold put_block_r. apply pw_then; [apply w_has_block|]. intros []; [constructor|]. apply pw_then; [apply w_has_block|]. intros []; [|constructor].
  apply pw_then; [apply w_put_proto|constructor].
Qed.
Lemma w_put_micro_block : forall b a, pointwise (put_micro_block_r b a).
Proof.
  intros b a. unfold put_micro_block_r. apply pw_then; [apply w_has_block|]. intros []; [constructor|]. apply pw_then; [apply w_has_block|]. intros []; [|constructor].
  apply pw_then; [apply w_put_micro|constructor].
Qed.
Lemma w_has_leash : forall a, pointwise (has_leash_r a).
Proof. intros a. apply pw_attempt; [apply w_st_leash|constructor]. Qed.
Lemma w_leash : forall g a, pointwise (leash_r g a).
Proof. intros g a. apply pw_attempt; [apply w_st_leash|constructor]. Qed.
Lemma w_leash_score : forall g a, pointwise (leash_score_r g a).
Proof. intros g a. apply pw_attempt; [apply w_st_leash|]. intros o. cbv zeta. apply pw_then; [apply w_st_block|constructor]. Qed.
Lemma w_longest : forall m acc, pointwise (longest_loop_r m acc).
Proof. induction m as [|g m IH]; intros acc; cbn [longest_loop_r]; [constructor|]. apply pw_then; [apply w_block|]. intros b. apply IH. Qed.
Lemma w_fork_loop : forall p m acc f, pointwise (fork_loop_r p m acc f).
Proof. induction m as [|g m IH]; intros acc f; cbn [fork_loop_r]; [constructor|]. apply pw_then; [apply w_block|]. intros b. apply IH. Qed.
Lemma w_finish : forall i f, pointwise (finish_fork_r i f).
Proof. intros i f. apply pw_then; [apply w_lca|]. intros j. apply pw_then; [apply w_st_block|constructor]. Qed.
Lemma w_generators : forall ord srt i c, pointwise (fork_generators_r ord srt i c).
Proof. intros. apply pw_then; [apply w_blocks|constructor]. Qed.
End Pointwise.

(** LeashScore after a failed read of the leash goes on with the zero ID. *)
Lemma leash_score_failed : forall d g a fs o ts r, faulty d (leash_score_r g a) fs = (o, ts, r) -> In Failed ts ->
  o = Err EOther \/ o = (do b <- get_block_by_id d zero_id; Ok (sb_score b)).
Proof.
  intros d g a fs o ts r E I.
  assert (Z : forall i fs' o' ts' r', faulty d (reading b <- st_block_r i; Ret (Ok (sb_score b))) fs' = (o', ts', r') ->
    o' = Err EOther /\ In Failed ts' \/ ts' = [] /\ o' = do b <- get_block_by_id d i; Ok (sb_score b)).
  { intros i fs' o' ts' r' F. assert (C : careful (reading b <- st_block_r i; Ret (Ok (sb_score b)) : prg Z)) by (apply careful_then; [apply c_st_block|constructor]).
    assert (W : pointwise (reading b <- st_block_r i; Ret (Ok (sb_score b)) : prg Z)) by (apply pw_then; [apply w_st_block|constructor]).
    destruct ts' as [|t ts'].
    - right. split; [reflexivity|]. rewrite (untroubled F), plain_then, same_st_block. reflexivity.
    - left. assert (IF : In Failed (t :: ts')) by (destruct t; [now left|]; exfalso; apply (pw_not_ended W F); now left). split; [|exact IF]. exact (careful_failed C F IF). }
  unfold leash_score_r, st_leash_r, snapped in E. cbn [attempt then_] in E.
  cbn [faulty] in E. destruct (match fs with [] => None | f :: _ => f end) as [n|].
  - cbn [attempt] in E. match type of E with (fst (fst ?X), _, _) = _ => destruct X as [[o1 ts1] r1] eqn:F end. cbn [fst snd] in E. injection E as <- <- <-.
    destruct (Z _ _ _ _ _ F) as [[-> _]|[_ ->]]; auto.
  - cbn [attempt then_] in E. unfold then_ in E at 1. cbn [attempt faulty] in E. destruct (match tl fs with [] => None | f :: _ => f end) as [n|].
    + match type of E with (fst (fst ?X), _, _) = _ => destruct X as [[o1 ts1] r1] eqn:F end. cbn [fst snd] in E. injection E as <- <- <-.
      destruct (Z _ _ _ _ _ F) as [[-> _]|[_ ->]]; auto.
    + match type of E with faulty d ?P _ = _ => assert (X : exists i, P = (reading b <- st_block_r i; Ret (Ok (sb_score b)))) end.
      { destruct (reads d (addr_key a)) as [[v|b|k]|[]| |]; cbn [attempt]; try (destruct (new_block_id v) as [?|[]| |]); eexists; reflexivity. }
      destruct X as [i X]. rewrite X in E. destruct (Z _ _ _ _ _ E) as [[-> _]|[-> _]]; auto. destruct I.
Qed.
