(** The methods of the linkage hold the lock properly, and alone they do what the sequential model says. *)
From Verif Require Import Base Kv ChainModel LockModel LockSpec LockProofs.
Set Implicit Arguments.

(** * Lock discipline *)
(** Code that only reads; it is started with [m] extra read locks held and ends with [n]. *)
Fixpoint rdc D A (m n : nat) (c : code D A) : Prop :=
  match c with
  | Ret _ => m = n
  | Snap k => forall d, rdc m n (k d)
  | RLock k => rdc (S m) n k
  | RUnlock k => match m with O => False | S m' => rdc m' n k end
  | _ => False
  end.
Definition reads D A (c : code D A) : Prop := forall m, rdc m m c.
Lemma rdc_bind : forall D A B (c : code D A) (f : A -> code D B) m n p, rdc m n c -> (forall a, rdc n p (f a)) -> rdc m p (cbind c f).
Proof.
  induction c as [r|k IH|w k IH|k IH|k IH|k IH|k IH|k IH]; intros f m n p H F; cbn [cbind rdc] in *; try contradiction; eauto.
  - now subst.
  - destruct m; [contradiction|eauto].
Qed.
Lemma reading_bind : forall D A B (c : code D A) (f : A -> code D B) m n, rdc m n c -> (forall a, reading n (f a)) -> reading m (cbind c f).
Proof.
  induction c as [r|k IH|w k IH|k IH|k IH|k IH|k IH|k IH]; intros f m n H F; cbn [cbind rdc reading] in *; try contradiction; eauto.
  - now subst.
  - destruct m; [contradiction|eauto].
Qed.
Lemma reads_ret : forall D A (a : A), reads (Ret a : code D A).
Proof. intros D A a m. reflexivity. Qed.
Lemma reads_view : forall D A (f : D -> A), reads (view f).
Proof. intros D A f m d. reflexivity. Qed.
Lemma reads_bind : forall D A B (c : code D A) (f : A -> code D B), reads c -> (forall a, reads (f a)) -> reads (cbind c f).
Proof. intros D A B c f H F m. eapply rdc_bind; [apply H|intros a; apply F]. Qed.
Lemma reads_obind : forall D A B (c : code D (outcome A)) (f : A -> code D (outcome B)), reads c -> (forall a, reads (f a)) -> reads (obind c f).
Proof. intros D A B c f H F. apply reads_bind; [exact H|]. intros [a|e| |]; auto using reads_ret. Qed.
Lemma reads_cmap : forall D A B (f : A -> code D (outcome B)) l, (forall a, reads (f a)) -> reads (cmap f l).
Proof.
  intros D A B f l F. induction l as [|a l IH]; [apply reads_ret|]. cbn [cmap]. apply reads_obind; [apply F|]. intros b.
  apply reads_obind; [exact IH|intros; apply reads_ret].
Qed.
Lemma reads_rlocked : forall D A (c : code D A), reads c -> reads (rlocked c).
Proof. intros D A c H m. unfold rlocked. cbn [rdc]. eapply rdc_bind; [apply H|]. intros a. reflexivity. Qed.
Lemma well_rlocked : forall D A (c : code D A), reads c -> well (rlocked c).
Proof. intros D A c H. unfold rlocked. cbn [well]. eapply reading_bind; [apply H|]. intros a. cbn [reading]. eauto. Qed.

Fixpoint wrc D A (c : code D A) : Prop :=
  match c with Ret _ => True | Snap k => forall d, wrc (k d) | Write _ k => wrc k | _ => False end.
Lemma wrc_bind : forall D A B (c : code D A) (f : A -> code D B), wrc c -> (forall a, wrc (f a)) -> wrc (cbind c f).
Proof. induction c as [r|k IH|w k IH|k IH|k IH|k IH|k IH|k IH]; intros f H F; cbn [cbind wrc] in *; try contradiction; eauto. Qed.
Lemma wrc_obind : forall D A B (c : code D (outcome A)) (f : A -> code D (outcome B)), wrc c -> (forall a, wrc (f a)) -> wrc (obind c f).
Proof. intros D A B c f H F. apply wrc_bind; [exact H|]. intros [a|e| |]; auto; exact Logic.I. Qed.
Lemma well_locked : forall D A (c : code D A), wrc c -> well (locked c).
Proof.
  intros D A c H. unfold locked. cbn [well].
  induction c as [r|k IH|w k IH|k IH|k IH|k IH|k IH|k IH]; cbn [cbind wrc writing] in *; try contradiction; eauto.
Qed.

(** * Results *)
(** Code that reads and computes. *)
Definition computes D A (c : code D A) (f : D -> A) : Prop := forall d, alone c d = (d, f d).
Lemma computes_ret : forall D A (a : A), computes (Ret a : code D A) (fun _ => a).
Proof. intros D A a d. reflexivity. Qed.
Lemma computes_view : forall D A (f : D -> A), computes (view f) f.
Proof. intros D A f d. reflexivity. Qed.
Lemma computes_ext : forall D A (c : code D A) f f', computes c f -> (forall d, f d = f' d) -> computes c f'.
Proof. intros D A c f f' H E d. now rewrite <- E. Qed.
Lemma computes_bind : forall D A B (c : code D A) (k : A -> code D B) x y, computes c x -> (forall a, computes (k a) (y a)) ->
  computes (cbind c k) (fun d => y (x d) d).
Proof. intros D A B c k x y H K d. rewrite alone_bind, (H d). apply K. Qed.
Lemma computes_obind : forall D A B (c : code D (outcome A)) (k : A -> code D (outcome B)) x y, computes c x -> (forall a, computes (k a) (y a)) ->
  computes (obind c k) (fun d => do a <- x d; y a d).
Proof.
  intros D A B c k x y H K d. unfold obind. rewrite alone_bind, (H d). destruct (x d) as [a|e| |]; cbn [bind]; [apply K|reflexivity..].
Qed.
Arguments computes_bind {D A B c k x y}.
Arguments computes_obind {D A B c k x y}.
Lemma computes_cmap : forall D A B (f : A -> code D (outcome B)) y, (forall a, computes (f a) (y a)) -> forall l,
  computes (cmap f l) (fun d => mapM (fun a => y a d) l).
Proof.
  intros D A B f y F. induction l as [|a l IH]; [intros d; reflexivity|]. cbn [cmap mapM].
  apply (computes_obind (F a)). intros b. apply (computes_obind IH). intros bs. apply computes_ret.
Qed.
Arguments computes_cmap {D A B f y}.
Lemma computes_rlocked : forall D A (c : code D A) f, computes c f -> computes (rlocked c) f.
Proof. intros D A c f H d. unfold rlocked. cbn [alone]. rewrite alone_bind, (H d). reflexivity. Qed.

Arguments computes_rlocked {D A c f}.
Section Linkage.
Variables (g : pblock) (gid : id).
Let lk := lk gid.

Lemma block_computes : forall i, computes (c_block i) (fun d => block (lk d) i).
Proof.
  intros i. apply (computes_obind (y := fun b _ => convert_block b) (computes_view (fun d => get_block_by_id d i))). intros b. apply computes_ret.
Qed.
Lemma block_reads : forall i, reads (c_block i).
Proof. intros i. apply reads_obind; [apply reads_view|intros; apply reads_ret]. Qed.
Lemma active_computes : computes c_active_heads (fun d => active_heads (lk d)).
Proof.
  apply (computes_obind (computes_view heads)). intros hs. apply (computes_obind (computes_view leashes)). intros ls. apply computes_ret.
Qed.
Lemma active_reads : reads c_active_heads.
Proof. apply reads_obind; [apply reads_view|]. intros hs. apply reads_obind; [apply reads_view|intros; apply reads_ret]. Qed.
Lemma longest_computes : forall m acc, computes (c_longest m acc) (fun d => longest_loop (lk d) m acc).
Proof.
  induction m as [|x m IH]; intros acc; [intros d; reflexivity|]. cbn [c_longest longest_loop]. apply (computes_obind (block_computes (fst x))). intros b. apply IH.
Qed.
Lemma longest_reads : forall m acc, reads (c_longest m acc).
Proof. induction m as [|x m IH]; intros acc; [apply reads_ret|]. cbn [c_longest]. apply reads_obind; [apply block_reads|intros; apply IH]. Qed.
Lemma fork_loop_computes : forall a m acc f, computes (c_fork_loop a m acc f) (fun d => fork_loop (lk d) a m acc f).
Proof.
  intros a. induction m as [|x m IH]; intros acc f; [intros d; reflexivity|]. cbn [c_fork_loop fork_loop].
  apply (computes_obind (block_computes (fst x))). intros b. apply IH.
Qed.
Lemma fork_loop_reads : forall a m acc f, reads (c_fork_loop a m acc f).
Proof. intros a. induction m as [|x m IH]; intros acc f; [apply reads_ret|]. cbn [c_fork_loop]. apply reads_obind; [apply block_reads|intros; apply IH]. Qed.
Lemma finish_computes : forall i f, computes (c_finish_fork i f) (fun d => finish_fork d i f).
Proof.
  intros i f. apply (computes_obind (computes_view (fun d => lca d i (f_head f)))). intros j.
  apply (computes_obind (computes_view (fun d => get_block_by_id d j))). intros b. apply computes_ret.
Qed.
Lemma finish_reads : forall i f, reads (c_finish_fork i f).
Proof. intros i f. apply reads_obind; [apply reads_view|]. intros j. apply reads_obind; [apply reads_view|intros; apply reads_ret]. Qed.

Lemma lcb_computes : forall ord a, computes (c_lcb gid ord a) (fun d => lcb ord (lk d) a).
Proof.
  intros ord a d. unfold c_lcb, lcb, c_leash. rewrite alone_bind. cbn [view alone].
  change (lk_db (lk d)) with d. change (lk_genesis (lk d)) with gid. destruct (get_leash d a) as [h|[]| |]; try reflexivity.
  revert d. apply (@computes_obind _ _ _ _ _ _ (fun ls d => do acc <- longest_loop (lk d) (ord (group_leashes ls)) (0%Z, 0, zero_id);
    let longest := snd acc in if id_eqb h longest then Ok h else lca (lk_db (lk d)) longest h) (computes_view leashes)).
  intros ls. apply (computes_obind (longest_computes _ _)). intros acc. cbn [lk LockModel.lk lk_db]. destruct (id_eqb h (snd acc)); [apply computes_ret|apply computes_view].
Qed.
Lemma lcb_reads : forall ord a, reads (c_lcb gid ord a).
Proof.
  intros ord a. apply reads_bind; [apply reads_view|]. intros [h|[]| |]; try apply reads_ret.
  apply reads_obind; [apply reads_view|]. intros ls. apply reads_obind; [apply longest_reads|]. intros acc. destruct (id_eqb h (snd acc)); [apply reads_ret|apply reads_view].
Qed.
Lemma fork_computes : forall ord a, computes (c_fork ord a) (fun d => fork_of ord (lk d) a).
Proof.
  intros ord a. apply (computes_obind (computes_view leashes)). intros ls. apply (computes_obind (fork_loop_computes _ _ _ _)). intros r.
  cbv zeta. destruct (id_eqb (f_head (snd r)) (snd (fst r))); [apply computes_ret|apply finish_computes].
Qed.
Lemma fork_reads : forall ord a, reads (c_fork ord a).
Proof.
  intros ord a. apply reads_obind; [apply reads_view|]. intros ls. apply reads_obind; [apply fork_loop_reads|]. intros r.
  destruct (id_eqb (f_head (snd r)) (snd (fst r))); [apply reads_ret|apply finish_reads].
Qed.
Lemma forks_computes : forall ord srt ps, computes (c_forks ord srt ps) (fun d => forks ord srt (lk d) ps).
Proof.
  intros ord srt ps. apply (computes_obind (computes_view leashes)). intros ls. eapply computes_obind.
  - apply (@computes_cmap _ _ _ _ (fun x d => do b <- block (lk d) (fst x); Ok (new_fork b (snd x)))). intros x.
    apply (computes_obind (block_computes (fst x))). intros b. apply computes_ret.
  - intros r. destruct (srt r) as [|f0 rest]; [apply computes_ret|].
    apply (@computes_cmap _ _ _ _ (fun f d => finish_fork d (f_head f0) f)). intros f. apply finish_computes.
Qed.
Lemma forks_reads : forall ord srt ps, reads (c_forks ord srt ps).
Proof.
  intros ord srt ps. apply reads_obind; [apply reads_view|]. intros ls. apply reads_obind.
  - apply reads_cmap. intros x. apply reads_obind; [apply block_reads|intros; apply reads_ret].
  - intros r. destruct (srt r) as [|f0 rest]; [apply reads_ret|]. apply reads_cmap. intros f. apply finish_reads.
Qed.
Lemma stats_computes : forall ord srt, computes (c_stats ord srt) (fun d => stats ord srt (lk d)).
Proof. intros ord srt. apply (computes_obind (forks_computes ord srt [])). intros fs. apply computes_ret. Qed.
Lemma stats_reads : forall ord srt, reads (c_stats ord srt).
Proof. intros ord srt. apply reads_obind; [apply forks_reads|intros; apply reads_ret]. Qed.
Lemma log_heads_computes : forall hs, computes (c_log_heads hs) (fun d => do _ <- mapM (fun h : N * id => block (lk d) (snd h)) hs; Ok tt).
Proof.
  induction hs as [|h hs IH]; [intros d; reflexivity|]. cbn [c_log_heads mapM].
  eapply computes_ext; [apply (computes_obind (y := fun _ d => do _ <- mapM (fun h : N * id => block (lk d) (snd h)) hs; Ok tt) (computes_rlocked (block_computes (snd h)))); intros b; apply IH|].
  intros d. cbn beta. destruct (block (lk d) (snd h)); cbn [bind]; try reflexivity. destruct (mapM _ hs); reflexivity.
Qed.
Lemma log_heads_reads : forall hs, reads (c_log_heads hs).
Proof. induction hs as [|h hs IH]; [apply reads_ret|]. cbn [c_log_heads]. apply reads_obind; [apply reads_rlocked, block_reads|intros; apply IH]. Qed.
Lemma log_stats_computes : computes c_log_stats (fun d => log_stats (lk d)).
Proof.
  unfold c_log_stats. eapply computes_ext.
  - apply (@computes_bind _ _ _ _ _ (fun d => do hs <- active_heads (lk d); do _ <- mapM (fun h : N * id => block (lk d) (snd h)) hs; do _ <- lk_leashes (lk d); Ok tt)
             (fun r _ => match r with Err _ => Ok tt | _ => r end)); [|intros r; apply computes_ret].
    apply (computes_obind active_computes). intros hs.
    eapply computes_ext; [apply (computes_obind (y := fun _ d => do _ <- leashes d; Ok tt) (log_heads_computes hs)); intros []; apply (computes_obind (computes_view leashes)); intros ls; apply computes_ret|].
    intros d. cbn beta. destruct (mapM _ hs); reflexivity.
  - intros d. cbn beta. unfold log_stats. destruct (do hs <- active_heads (lk d); _) as [[]|e| |]; reflexivity.
Qed.
Lemma log_stats_reads : reads c_log_stats.
Proof.
  apply reads_bind; [|intros; apply reads_ret]. apply reads_obind; [apply active_reads|]. intros hs. apply reads_obind; [apply log_heads_reads|].
  intros []. apply reads_obind; [apply reads_view|intros; apply reads_ret].
Qed.

(** Writing methods. *)
Lemma writes_wrc : forall b f k, (forall f', wrc (k f')) -> wrc (writes b f k).
Proof. intros b [[|n]|] k K; cbn [writes wrc]; auto. Qed.
Lemma put_wrc : forall b a f, wrc (c_put_block b a f).
Proof.
  intros b a f. apply wrc_obind; [intros d; exact Logic.I|]. intros []; [apply writes_wrc; intros; exact Logic.I|].
  apply wrc_obind; [intros d; exact Logic.I|]. intros []; [|exact Logic.I]. apply wrc_obind; [intros d; exact Logic.I|]. intros bt.
  apply writes_wrc. intros f'. apply writes_wrc. intros; exact Logic.I.
Qed.
Lemma micro_wrc : forall m a f, wrc (c_put_micro m a f).
Proof.
  intros b a f. apply wrc_obind; [intros d; exact Logic.I|]. intros []; [apply writes_wrc; intros; exact Logic.I|].
  apply wrc_obind; [intros d; exact Logic.I|]. intros []; [|exact Logic.I]. apply wrc_obind; [intros d; exact Logic.I|]. intros bt.
  apply writes_wrc. intros f'. apply writes_wrc. intros; exact Logic.I.
Qed.
Definition on_db (x : linkage * outcome unit) : db * outcome unit := (lk_db (fst x), snd x).
Lemma put_alone : forall b a f d, alone (c_put_block b a f) d = on_db (exec g (lk d) (Put b a) f).
Proof.
  intros b a f d. unfold c_put_block, obind. rewrite alone_bind. cbn [view alone]. unfold on_db, exec, op_writes, put_block. change (lk_db (lk d)) with d.
  destruct (has_block d (pb_id b)) as [[]|e| |]; cbn [alone].
  - destruct f as [[|[|n]]|]; reflexivity.
  - rewrite alone_bind. cbn [view alone]. destruct (has_block d (pb_parent b)) as [[]|e| |]; cbn [alone].
    + rewrite alone_bind. cbn [view alone]. destruct (put_proto_block d b) as [bt|e| |]; cbn [alone].
      * destruct f as [[|[|[|n]]]|]; reflexivity.
      * destruct f as [[|n]|]; reflexivity.
      * destruct f as [[|n]|]; reflexivity.
      * destruct f as [[|n]|]; reflexivity.
    + destruct f as [[|n]|]; reflexivity.
    + destruct f as [[|n]|]; reflexivity.
    + destruct f as [[|n]|]; reflexivity.
    + destruct f as [[|n]|]; reflexivity.
  - destruct f as [[|n]|]; reflexivity.
  - destruct f as [[|n]|]; reflexivity.
  - destruct f as [[|n]|]; reflexivity.
Qed.
Lemma micro_alone : forall m a f d, alone (c_put_micro m a f) d = on_db (exec g (lk d) (Micro m a) f).
Proof.
  intros b a f d. unfold c_put_micro, obind. rewrite alone_bind. cbn [view alone]. unfold on_db, exec, op_writes, put_micro_block. change (lk_db (lk d)) with d.
  destruct (has_block d (mi_total b)) as [[]|e| |]; cbn [alone].
  - destruct f as [[|[|n]]|]; reflexivity.
  - rewrite alone_bind. cbn [view alone]. destruct (has_block d (mi_ref b)) as [[]|e| |]; cbn [alone].
    + rewrite alone_bind. cbn [view alone]. destruct (put_micro_block_st d b) as [bt|e| |]; cbn [alone].
      * destruct f as [[|[|[|n]]]|]; reflexivity.
      * destruct f as [[|n]|]; reflexivity.
      * destruct f as [[|n]|]; reflexivity.
      * destruct f as [[|n]|]; reflexivity.
    + destruct f as [[|n]|]; reflexivity.
    + destruct f as [[|n]|]; reflexivity.
    + destruct f as [[|n]|]; reflexivity.
    + destruct f as [[|n]|]; reflexivity.
  - destruct f as [[|n]|]; reflexivity.
  - destruct f as [[|n]|]; reflexivity.
  - destruct f as [[|n]|]; reflexivity.
Qed.
Lemma move_alone : forall i a f d, alone (c_move_leash i a f) d = on_db (exec g (lk d) (Move i a) f).
Proof. intros i a [[|[|n]]|] d; reflexivity. Qed.

(** * All methods *)
Lemma answers_reads : forall A (h : A -> answer) c, reads c -> reads (answers h c).
Proof. intros A h c H. apply reads_bind; [exact H|intros; apply reads_ret]. Qed.
Lemma answers_wrc : forall A (h : A -> answer) c, wrc c -> wrc (answers h c).
Proof. intros A h c H. apply wrc_bind; [exact H|intros; exact Logic.I]. Qed.
Lemma method_well : forall c, well (method gid c).
Proof.
  intros c. destruct c; cbn [method];
    try (apply well_locked, answers_wrc); try (apply well_rlocked, answers_reads);
    auto using put_wrc, micro_wrc, reads_view, block_reads, active_reads, lcb_reads, fork_reads, forks_reads, stats_reads, log_stats_reads.
  - apply writes_wrc. intros; exact Logic.I.
  - apply reads_bind; [apply reads_view|intros; apply reads_ret].
  - apply reads_bind; [apply reads_view|intros; apply reads_ret].
  - apply reads_bind; [apply reads_view|]. intros r. apply reads_obind; [apply reads_view|intros; apply reads_ret].
  - apply reads_obind; [apply reads_view|intros; apply reads_ret].
Qed.
Lemma locked_alone : forall A (h : A -> answer) c d, alone (locked (answers h c)) d = let (d', r) := alone c d in (d', h r).
Proof. intros A h c d. unfold locked, answers. cbn [alone]. rewrite alone_bind, alone_bind. destruct (alone c d). reflexivity. Qed.
Lemma rlocked_alone : forall A (h : A -> answer) c f d, computes c f -> alone (rlocked (answers h c)) d = (d, h (f d)).
Proof. intros A h c f d H. unfold rlocked, answers. cbn [alone]. rewrite alone_bind, alone_bind, (H d). reflexivity. Qed.
Lemma method_alone : forall c d, alone (method gid c) d = does_db g gid c d.
Proof.
  intros c d. unfold does_db. fold (LockModel.lk gid d). fold lk. destruct c; cbn [method does].
  - rewrite locked_alone, put_alone. unfold on_db. destruct (exec g (lk d) (Put b a) fault). reflexivity.
  - rewrite locked_alone, micro_alone. unfold on_db. destruct (exec g (lk d) (Micro m a) fault). reflexivity.
  - rewrite locked_alone, move_alone. unfold on_db. destruct (exec g (lk d) (Move i a) fault). reflexivity.
  - apply (@rlocked_alone _ RBool _ (fun d => has_leash (lk d) a)).
    intros d'. unfold c_has_leash. rewrite alone_bind. reflexivity.
  - apply (@rlocked_alone _ RId _ (fun d => leash (lk d) a)).
    intros d'. unfold c_leash_or_genesis. rewrite alone_bind. reflexivity.
  - apply (@rlocked_alone _ RScore _ (fun d => leash_score (lk d) a)).
    intros d'. unfold c_leash_score, c_leash. rewrite alone_bind. cbn [view alone]. unfold leash_score. cbn [lk LockModel.lk lk_db lk_genesis].
    revert d'. intros d'. set (i := match get_leash d' a with Ok i => i | Err ENotFound => gid | _ => zero_id end).
    apply (computes_obind (y := fun b _ => Ok (sb_score b)) (computes_view (fun d => get_block_by_id d i))). intros b. apply computes_ret.
  - apply (rlocked_alone RHeads d (computes_view heads)).
  - apply (rlocked_alone RHeads d active_computes).
  - apply (rlocked_alone RIds d (computes_view (fun d => get_ancestors d i n))).
  - apply (rlocked_alone RBool d (computes_view (fun d => has_block d i))).
  - apply (rlocked_alone RBlock d (block_computes i)).
  - apply (rlocked_alone RLeashes d (computes_view leashes)).
  - apply (rlocked_alone RUnit d log_stats_computes).
  - apply (rlocked_alone RCounts d (stats_computes ord srt)).
  - apply (rlocked_alone RId d (lcb_computes ord a)).
  - apply (rlocked_alone RForks d (forks_computes ord srt ps)).
  - apply (rlocked_alone RFork d (fork_computes ord a)).
  - apply (@rlocked_alone _ RGens _ (fun d => fork_generators ord srt (lk d) i n)).
    apply (computes_obind (computes_view (fun d => get_blocks d i n))). intros bs. apply computes_ret.
Qed.

(** The calls that have acted, as a history of the store. *)
Lemma explains_run : forall d0 ms ph d, explains (does_db g gid) d0 ms ph d -> lk d = run g (lk d0) (acted_ops ms).
Proof.
  intros d0 ms ph d H. induction H as [|ms ph d h c H IH P|ms ph d h c d' r H IH P E|ms ph d h c r H IH P]; [reflexivity|..].
  - unfold acted_ops in *. rewrite flat_map_app. cbn [flat_map]. now rewrite !app_nil_r.
  - assert (RA : forall l o f, run g l (acted_ops ms ++ [(o, f)]) = fst (exec g (run g l (acted_ops ms)) o f)).
    { generalize (acted_ops ms). clear. induction l as [|[o f] l IH]; intros x o' f'; cbn [app run]; [reflexivity|apply IH]. }
    assert (WG : forall l o f, o <> Reopen -> lk_genesis (fst (exec g l o f)) = lk_genesis l).
    { intros l o f _. unfold exec. destruct (op_writes g l o) as [ws x]. destruct f as [n|]; [destruct (Nat.ltb n (length ws))|]; reflexivity. }
    assert (LK : forall l, lk_genesis l = gid -> lk (lk_db l) = l) by (intros [i x] Q; cbn in Q; subst; reflexivity).
    unfold does_db in E. fold (LockModel.lk gid d) in E. fold lk in E. rewrite IH in E.
    assert (GI : lk_genesis (run g (lk d0) (acted_ops ms)) = gid) by (rewrite <- IH; reflexivity).
    unfold acted_ops in *. rewrite flat_map_app. cbn [flat_map]. rewrite app_nil_r.
    destruct c; cbn [op_of does] in *;
      try (rewrite RA; destruct (exec g _ _ fault) as [l1 r1] eqn:X; apply (f_equal fst) in X; cbn [fst] in *; injection E as <- _; rewrite LK; [reflexivity|];
           rewrite <- X, WG by discriminate; exact GI);
      (rewrite app_nil_r; injection E as <- _; apply LK; exact GI).
  - unfold acted_ops in *. rewrite flat_map_app. cbn [flat_map]. now rewrite !app_nil_r.
Qed.
End Linkage.
