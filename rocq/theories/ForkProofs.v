(** Proofs about Forks, Fork, LCB, Stats, ForkGenerators and ActiveHeads for every reachable linkage. *)
From Verif Require Import Base Kv KvFacts ChainModel ChainSpec ChainTree ChainRep ChainStep ChainQueries ChainLca ChainProofs ChainForks.
Set Implicit Arguments.
Unset Strict Implicit.

Lemma own_ok_reach : forall g ops l, reachable g ops l -> Forall own_ok (st_blocks (srun (sstart g) ops)).
Proof.
  intros g ops l (_ & _ & l0 & S0 & _). apply own_ok_srun. constructor; [|constructor]. exists (pb_bt g). split; [|reflexivity].
  eapply start_bt, S0.
Qed.
Lemma score_nonneg : forall es i, Forall own_ok es -> (0 <= score es i)%Z.
Proof.
  intros es i OWN. unfold score. assert (F : Forall own_ok (chain es i)).
  { apply Forall_forall. intros x X. rewrite Forall_forall in OWN. apply OWN. eapply chain_In, X. }
  induction F as [|x c' (bt & _ & Ex) F IH]; cbn [sum_own fold_right]; [lia|].
  pose proof (@block_score_nonneg bt). unfold sum_own in IH. lia.
Qed.

Lemma selected_spec : forall peers a, selected peers a = true <-> peers = [] \/ In a peers.
Proof.
  intros [|p peers] a; cbn [selected]; [intuition|]. rewrite existsb_exists. split.
  - intros (x & I & E). apply addr_eqb_eq in E. subst. auto.
  - intros [E|I]; [discriminate|]. exists a. split; auto. now apply addr_eqb_eq.
Qed.

Section One.
  Variables (g : pblock) (ops : list (op * option nat)) (l : linkage).
  Hypothesis H : reachable g ops l.

  Lemma one_view : exists s, hist g ops = st_blocks s /\ Rep (lk_db l) s /\ small (st_blocks s) /\
    (forall i, (0 <= score (hist g ops) i)%Z) /\ lk_genesis l = pb_id g /\ s = srun (sstart g) ops.
  Proof.
    destruct (reach_view H) as (s & Es & R & GE & BD & SM). exists s. unfold hist. rewrite <- Es.
    split; auto. split; auto. split; auto. split; auto. intros i. apply score_nonneg. rewrite Es. eapply own_ok_reach, H.
  Qed.
  Lemma ls_view : exists ls, leashes (lk_db l) = Ok ls /\ NoDup (map fst ls) /\
    (forall a i, In (a, i) ls <-> leashed l a i) /\ (forall a i, In (a, i) ls -> wf_id i).
  Proof.
    destruct one_view as (s & HE & R & SM & _). destruct (leashes_view R) as (ls & A & B & C & D). exists ls. auto.
  Qed.

  Lemma sel_In : forall ls peers a i, (forall a i, In (a, i) ls <-> leashed l a i) ->
    (In (a, i) (filter (fun e => selected peers (fst e)) ls) <-> standing l peers a i).
  Proof. intros ls peers a i E. rewrite filter_In, E. cbn [fst]. rewrite selected_spec. reflexivity. Qed.
  Lemma sel_heads : forall ls peers i, (forall a i, In (a, i) ls <-> leashed l a i) ->
    (In i (map snd (filter (fun e => selected peers (fst e)) ls)) <-> exists a, standing l peers a i).
  Proof.
    intros ls peers i E. rewrite in_map_iff. split.
    - intros ([a j] & Q & I). cbn in Q. subst j. exists a. now apply (sel_In peers a i E).
    - intros [a S]. exists (a, i). split; auto. now apply (sel_In peers a i E).
  Qed.
  Lemma NoDup_filter_map : forall A B (f : A -> B) p (xs : list A), NoDup (map f xs) -> NoDup (map f (filter p xs)).
  Proof.
    induction xs as [|x xs IH]; intros ND; cbn [filter map] in *; [constructor|]. inversion ND; subst.
    destruct (p x); auto. cbn [map]. constructor; auto. intros I. apply H2. apply in_map_iff in I as (y & E & I).
    apply filter_In in I as [I _]. apply in_map_iff. eauto.
  Qed.
  Lemma count_on_list : forall ls peers i, NoDup (map fst ls) -> (forall a i, In (a, i) ls <-> leashed l a i) ->
    count_on l peers i (length (on_block (filter (fun e => selected peers (fst e)) ls) i)).
  Proof.
    intros ls peers i ND E. exists (on_block (filter (fun e => selected peers (fst e)) ls) i). split; [|split; [|reflexivity]].
    - apply on_block_NoDup. now apply NoDup_filter_map.
    - intros a. rewrite on_block_In. apply sel_In, E.
  Qed.
  Lemma count_on_unique : forall peers i m n, count_on l peers i m -> count_on l peers i n -> m = n.
  Proof.
    intros peers i m n (p & N1 & I1 & <-) (q & N2 & I2 & <-). apply Permutation_length, NoDup_Permutation; auto.
    intros a. rewrite I1, I2. reflexivity.
  Qed.
  Lemma best_view : forall es ls peers i, NoDup (map fst ls) -> (forall a i, In (a, i) ls <-> leashed l a i) ->
    (is_best es (filter (fun e => selected peers (fst e)) ls) i <-> best_block es l peers i).
  Proof.
    intros es ls peers i ND E. unfold is_best, best_block. rewrite (sel_heads peers i E). split; intros [A B]; (split; [exact A|]).
    - intros j J. apply (sel_heads peers j E) in J. destruct (B j J) as [Q|[Q1 Q2]]; [auto|right]. split; auto.
      intros m n M N. rewrite (count_on_unique M (count_on_list peers j ND E)).
      rewrite (count_on_unique N (count_on_list peers i ND E)). exact Q2.
    - intros j J. apply (sel_heads peers j E) in J. destruct (B j J) as [Q|[Q1 Q2]]; [auto|right]. split; auto.
      apply Q2; apply count_on_list; auto.
  Qed.

  (** ** Forks *)
  Lemma p_forks_partition : forall ord srt peers fs, map_order ord -> sorts fork_less srt -> forks ord srt l peers = Ok fs ->
    NoDup (map f_head fs) /\ (forall i, In i (map f_head fs) <-> exists a, standing l peers a i) /\
    (forall f, In f fs -> NoDup (f_peers f) /\ (forall a, In a (f_peers f) <-> standing l peers a (f_head f)) /\
       f_peers_count f = length (f_peers f) /\ describes l f).
  Proof.
    intros ord srt peers fs OM SS F. destruct one_view as (s & HE & R & SM & NN & _).
    destruct ls_view as (ls & LS & ND & EQ & _). destruct (forks_view R SM OM SS LS F) as (A & B & C & D & _). cbv zeta in *.
    split; [exact A|]. split. { intros i. rewrite B. apply sel_heads, EQ. }
    intros f I. destruct (D f I) as (P & Q & W). rewrite P. split; [|split; [|split; [congruence|exact W]]].
    - apply on_block_NoDup. now apply NoDup_filter_map.
    - intros a. rewrite on_block_In. apply sel_In, EQ.
  Qed.
  Lemma p_forks_longest : forall ord srt peers fs, map_order ord -> sorts fork_less srt -> forks ord srt l peers = Ok fs ->
    StronglySorted fork_ge fs /\
    exists f0 rest, fs = f0 :: rest /\ f_longest f0 = true /\ (forall f, In f rest -> f_longest f = false) /\
      (forall f, In f fs -> fork_ge f0 f) /\ best_block (hist g ops) l peers (f_head f0).
  Proof.
    intros ord srt peers fs OM SS F. destruct one_view as (s & HE & R & SM & NN & _).
    destruct ls_view as (ls & LS & ND & EQ & _).
    destruct (forks_view R SM OM SS LS F) as (A & B & C & D & f0 & rest & E & L0 & LR & _). cbv zeta in *.
    split; auto. exists f0, rest. split; auto. split; auto. split; auto. split.
    - rewrite E. intros f [<-|I]; [right; split; [reflexivity|lia]|]. rewrite E in C.
      apply StronglySorted_inv in C as [_ C]. rewrite Forall_forall in C. now apply C.
    - rewrite HE. apply (best_view _ _ _ ND EQ). eapply (forks_best R SM); eauto.
  Qed.
  Lemma p_forks_length : forall ord srt peers fs, map_order ord -> sorts fork_less srt -> forks ord srt l peers = Ok fs ->
    exists lg, In lg fs /\ f_longest lg = true /\ f_length lg = 0%Z /\
      forall f, In f fs -> is_lca (hist g ops) (f_head lg) (f_head f) (f_lcb f) /\
        f_length f = (Z.of_N (f_height f) - Z.of_nat (height (hist g ops) (f_lcb f)))%Z /\ (0 <= f_length f)%Z /\
        forall b, block l (f_lcb f) = Ok b -> b_height b = N.of_nat (height (hist g ops) (f_lcb f)).
  Proof.
    intros ord srt peers fs OM SS F. destruct one_view as (s & HE & R & SM & NN & _).
    destruct ls_view as (ls & LS & ND & EQ & _).
    destruct (forks_view R SM OM SS LS F) as (A & B & C & D & f0 & rest & E & L0 & LR & LC & Z0). cbv zeta in *.
    exists f0. split; [rewrite E; now left|]. split; auto. split; auto. rewrite HE. intros f I.
    destruct (LC f I) as (L1 & L2 & L3). split; auto. split; auto. split; auto. intros b BB.
    apply (block_facts R SM) in BB; [apply BB|]. apply (stored_wf (R_wf R)). apply (anc_stored _ _ _ (proj1 L1)).
  Qed.
  Lemma p_fork : forall ord a i f, map_order ord -> leashed l a i -> fork_of ord l a = Ok f ->
    exists lg, best_block (hist g ops) l [] lg /\ f_head f = i /\ NoDup (f_peers f) /\
      (forall p, In p (f_peers f) <-> leashed l p i) /\ f_peers_count f = length (f_peers f) /\
      describes l f /\ (f_longest f = true <-> i = lg) /\ is_lca (hist g ops) lg i (f_lcb f) /\
      f_length f = (Z.of_N (f_height f) - Z.of_nat (height (hist g ops) (f_lcb f)))%Z /\ (0 <= f_length f)%Z /\
      (f_longest f = true -> f_length f = 0%Z).
  Proof.
    intros ord a i f OM L F. destruct one_view as (s & HE & R & SM & NN & _). rewrite HE in *.
    destruct ls_view as (ls & LS & ND & EQ & WFI). assert (I := proj2 (EQ _ _) L).
    destruct (fork_view R SM NN OM LS I F) as (lg & B & F1 & F2 & F3 & F4 & F5 & F6 & F7 & F8).
    exists lg. split. { apply (best_view _ _ _ ND EQ). now rewrite selected_all. }
    split; auto. rewrite F2 in *. split; [now apply on_block_NoDup|].
    split. { intros p. rewrite on_block_In. apply EQ. }
    do 6 (split; [assumption|]). intros T. apply F5 in T. subst lg.
    assert (S : stored (st_blocks s) i) by (destruct F4 as (b & Bk & _); rewrite F1 in Bk; apply (block_facts R SM (WFI _ _ I) Bk)).
    rewrite (is_lca_unique R F6 (is_lca_self S)) in F7.
    destruct F4 as (b & Bk & Hh & _). rewrite F1 in Bk. destruct (block_facts R SM (WFI _ _ I) Bk) as (_ & _ & Q & _).
    rewrite F7, Hh, Q. lia.
  Qed.
  Lemma p_fork_agrees : forall ord ord' srt a i f fs, map_order ord -> map_order ord' -> sorts fork_less srt -> leashed l a i ->
    (forall x y, best_block (hist g ops) l [] x -> best_block (hist g ops) l [] y -> x = y) ->
    fork_of ord l a = Ok f -> forks ord' srt l [] = Ok fs ->
    In f fs.
  Proof.
    intros ord ord' srt a i f fs OM OM' SS L U F FS. destruct one_view as (s & HE & R & SM & NN & _). rewrite HE in *.
    destruct ls_view as (ls & LS & ND & EQ & WFI). assert (I := proj2 (EQ _ _) L).
    eapply (fork_in_forks R SM NN OM OM' SS LS I); eauto.
    intros x y X Y. apply U; apply (best_view _ _ _ ND EQ); now rewrite selected_all.
  Qed.
  Lemma p_lcb : forall ord a i k, map_order ord -> leashed l a i -> lcb ord l a = Ok k ->
    exists lg, best_block (hist g ops) l [] lg /\ is_lca (hist g ops) lg i k.
  Proof.
    intros ord a i k OM L F. destruct one_view as (s & HE & R & SM & NN & _). rewrite HE in *.
    destruct ls_view as (ls & LS & ND & EQ & WFI). assert (I := proj2 (EQ _ _) L).
    destruct (lcb_view R SM NN OM LS I F) as (lg & B & Q). exists lg. split; auto.
    apply (best_view _ _ _ ND EQ). now rewrite selected_all.
  Qed.
  Lemma p_lcb_none : forall ord a, wf_addr a -> has_leash l a = Ok false -> lcb ord l a = Ok (pb_id g).
  Proof.
    intros ord a W F. destruct one_view as (s & HE & R & SM & NN & GE & _). rewrite <- GE. eapply lcb_none; eauto.
  Qed.
  Lemma p_stats : forall ord srt, 
    (forall r, stats ord srt l = Ok r -> exists fs, forks ord srt l [] = Ok fs /\
       snd r = length (filter (fun f => (5 <? f_length f)%Z) fs) /\ fst r + snd r = length fs) /\
    (forall fs, forks ord srt l [] = Ok fs -> exists r, stats ord srt l = Ok r).
  Proof.
    intros ord srt. split; [apply stats_view|]. intros fs F. unfold stats. rewrite F. cbn [bind]. eauto.
  Qed.

  (** ** When Forks returns *)
  Lemma p_forks_total : forall ord srt peers, map_order ord -> sorts fork_less srt ->
    (exists a i, standing l peers a i) ->
    (forall a i, standing l peers a i -> exists b, block l i = Ok b) ->
    (forall a i b j k, standing l peers a i -> standing l peers b j -> is_lca (hist g ops) i j k ->
       safe (Nat.min (height (hist g ops) i) (height (hist g ops) j) - height (hist g ops) k) (height (hist g ops) k)) ->
    exists fs, forks ord srt l peers = Ok fs.
  Proof.
    intros ord srt peers OM SS (a0 & i0 & S0) BL SF. destruct one_view as (s & HE & R & SM & NN & GE & _).
    destruct ls_view as (ls & LS & ND & EQ & WFI). eapply (forks_total R SM OM SS LS).
    - intros E. apply (sel_In peers a0 i0 EQ) in S0. rewrite E in S0. destruct S0.
    - intros i I. apply (sel_heads peers i EQ) in I as [a S]. eauto.
    - intros i j I J. apply (sel_heads peers i EQ) in I as [a A]. apply (sel_heads peers j EQ) in J as [b B].
      destruct (BL _ _ A) as [bi BI]. destruct (BL _ _ B) as [bj BJ].
      assert (WI : wf_id i) by (eapply WFI, EQ, (proj1 A)). assert (WJ : wf_id j) by (eapply WFI, EQ, (proj1 B)).
      assert (HI : lk_has_block l i = Ok true) by (apply (v_has_true R SM WI); apply (block_facts R SM WI BI)).
      assert (HJ : lk_has_block l j = Ok true) by (apply (v_has_true R SM WJ); apply (block_facts R SM WJ BJ)).
      destruct (lca_exact H WI WJ HI HJ) as (k & L & Q & _). exists k. apply Q. eapply SF; eauto.
  Qed.
  Lemma p_forks_empty : forall ord srt peers, map_order ord -> sorts fork_less srt ->
    (forall a i, ~ standing l peers a i) -> forks ord srt l peers = Panic.
  Proof.
    intros ord srt peers OM SS N. destruct ls_view as (ls & LS & ND & EQ & _). eapply forks_empty; eauto.
    destruct (filter _ ls) as [|[a i] r] eqn:E; auto. exfalso. apply (N a i). apply (sel_In peers a i EQ). rewrite E. now left.
  Qed.

  Lemma p_fork_total : forall ord a i, map_order ord -> leashed l a i ->
    (forall b j, leashed l b j -> exists x, block l j = Ok x) ->
    (forall j k, best_block (hist g ops) l [] j -> is_lca (hist g ops) j i k ->
       safe (Nat.min (height (hist g ops) j) (height (hist g ops) i) - height (hist g ops) k) (height (hist g ops) k)) ->
    (exists f, fork_of ord l a = Ok f) /\ exists k, lcb ord l a = Ok k.
  Proof.
    intros ord a i OM L BL SF. destruct one_view as (s & HE & R & SM & NN & GE & _).
    destruct ls_view as (ls & LS & ND & EQ & WFI). assert (I := proj2 (EQ _ _) L).
    assert (LE : forall j, In j (map snd ls) -> exists b, leashed l b j).
    { intros j J. apply in_map_iff in J as ([b j'] & E & J). cbn in E. subst j'. exists b. now apply EQ. }
    assert (HB : forall j, In j (map snd ls) -> wf_id j /\ lk_has_block l j = Ok true).
    { intros j J. destruct (LE _ J) as [b B]. destruct (BL _ _ B) as [x X]. assert (W : wf_id j) by (eapply WFI, EQ, B).
      split; auto. apply (v_has_true R SM W). apply (block_facts R SM W X). }
    eapply (fork_total R SM); eauto.
    - intros i'. rewrite <- HE. apply NN.
    - intros j J. destruct (LE _ J) as [b B]. eauto.
    - intros j J. assert (IJ := proj1 J). destruct (HB _ IJ) as [WJ HJ].
      destruct (HB i) as [WI HI]; [apply in_map_iff; exists (a, i); auto|].
      destruct (lca_exact H WJ WI HJ HI) as (k & K & Q & _). exists k. apply Q. apply (SF _ _); auto.
      apply (best_view _ _ _ ND EQ). rewrite selected_all, HE. exact J.
  Qed.

  (** ** Generators *)
  Lemma p_generators : forall ord srt i n st, map_order ord -> sorts gen_less srt -> wf_id i -> (0 <= n)%Z ->
    fork_generators ord srt l i n = Ok st ->
    let gs := map e_gen (firstn (Z.to_nat n) (chain (hist g ops) i)) in
    lk_has_block l i = Ok true /\ NoDup (map fst st) /\ (forall x, In x (map fst st) <-> In x gs) /\
    (forall x k, In (x, k) st -> k = occurrences x gs) /\ StronglySorted (fun x y => snd y <= snd x) st.
  Proof.
    intros ord srt i n st OM SS W N F. destruct one_view as (s & HE & R & SM & NN & GE & _). rewrite HE in *.
    destruct (generators_view R SM NN OM SS W N F) as (A & B). cbv zeta in *. split; [now apply (v_has_true R SM W)|exact B].
  Qed.

  (** ** ActiveHeads *)
  Lemma p_active_heads : exists hs p, lk_heads l = Ok hs /\ active_heads l = Ok (filter p hs) /\
    forall n i, p (n, i) = true <-> exists a, leashed l a i.
  Proof.
    destruct one_view as (s & HE & R & SM & NN & GE & _). destruct ls_view as (ls & LS & ND & EQ & _).
    destruct (lk_heads l) as [hs|e| |] eqn:HD.
    - destruct (active_heads_view HD LS) as (ah & A & ->). exists hs, (fun h => existsb (fun e => id_eqb (snd e) (snd h)) ls).
      split; auto. split; auto. intros n i. cbn [snd]. rewrite existsb_exists. split.
      + intros ([a j] & I & E). cbn in E. destruct (id_eqb_spec j i); [subst|discriminate]. exists a. now apply EQ.
      + intros [a L]. exists (a, i). split; [now apply EQ|]. cbn. now destruct (id_eqb_spec i i).
    - exfalso. assert (Q := v_heads R SM). congruence.
    - exfalso. assert (Q := v_heads R SM). congruence.
    - exfalso. assert (Q := v_heads R SM). congruence.
  Qed.
End One.

(** * Timestamps *)
Lemma ts_effects : forall s o k, match o with Put b _ => (pb_ts b < max_int64)%N | _ => True end ->
  Forall (fun e => ts_ok e = true) (st_blocks s) ->
  Forall (fun e => ts_ok e = true) (st_blocks (apply_effects s (firstn k (fst (effects s o))))).
Proof.
  intros s o k T F.
  assert (Q0 : Forall (fun e => ts_ok e = true) (st_blocks (apply_effects s (firstn k [])))) by (destruct k; exact F).
  assert (Q1 : forall a i, Forall (fun e => ts_ok e = true) (st_blocks (apply_effects s (firstn k [st_set_leash a i]))))
    by (intros; destruct k as [|[|k]]; exact F).
  assert (Q2 : forall e a i, ts_ok e = true ->
     Forall (fun e => ts_ok e = true) (st_blocks (apply_effects s (firstn k [st_add e; st_set_leash a i]))))
    by (intros; destruct k as [|[|[|k]]]; cbn; auto).
  destruct o as [b a|m a|i a|]; cbn [effects].
  - destruct (chain _ (pb_id b)); [|apply Q1]. destruct (chain _ (pb_parent b)); [apply Q0|].
    destruct (pb_gen b); [|apply Q0]. destruct (N.ltb_spec max_int64 (pb_bt b)); [apply Q0|apply Q2].
    unfold ts_ok. cbn [e_ts]. now apply N.ltb_lt.
  - destruct (chain _ (mi_total m)); [|apply Q1]. destruct (chain _ (mi_ref m)) as [|r c] eqn:C; [apply Q0|].
    destruct (e_parent r); [apply Q2|apply Q0].
    assert (I : In r (st_blocks s)) by (eapply chain_In; rewrite C; now left).
    rewrite Forall_forall in F. exact (F _ I).
  - apply Q1.
  - apply Q0.
Qed.
Lemma ts_srun : forall ops s, Forall (fun of => match fst of with Put b _ => (pb_ts b < max_int64)%N | _ => True end) ops ->
  Forall (fun e => ts_ok e = true) (st_blocks s) -> Forall (fun e => ts_ok e = true) (st_blocks (srun s ops)).
Proof.
  induction ops as [|[o f] ops IH]; intros s T F; cbn [srun]; auto. inversion T; subst. apply IH; auto.
  unfold sexec. assert (Q := fun k => @ts_effects s o k H1 F).
  destruct (effects s o) as [fs r]. cbn [fst] in Q.
  destruct f as [k|]; [destruct (Nat.ltb k (length fs))|]; cbn [fst]; auto; rewrite <- (firstn_all fs); auto.
Qed.

Lemma p_put_returns : forall g ops l b a f, reachable g ops l -> wf_pblock b -> wf_addr a -> (pb_bt b <= max_int64)%N ->
  returned (snd (exec g l (Put b a) f)).
Proof.
  intros g ops l b a f H WB WA BT. destruct (reach_view H) as (s & Es & R & GE & BD & SM).
  destruct (exec_refines g f R SM (o := Put b a) (conj WB WA)) as (_ & -> & _). unfold sexec. cbn [effects].
  assert (Q : forall fs (r : outcome unit), returned r -> returned (snd (match f with
     | Some k => if Nat.ltb k (length fs) then (apply_effects s (firstn k fs), Err EOther) else (apply_effects s fs, r)
     | None => (apply_effects s fs, r) end))).
  { intros fs r Q. destruct f as [k|]; [destruct (Nat.ltb k (length fs))|]; cbn; auto. }
  destruct (chain _ (pb_id b)); [|now apply Q]. destruct (chain _ (pb_parent b)); [now apply Q|].
  destruct (pb_gen b); [|now apply Q]. destruct (N.ltb_spec max_int64 (pb_bt b)); [lia|now apply Q].
Qed.
Lemma p_micro_move_return : forall g ops l o f, reachable g ops l -> wf_op o ->
  match o with Put _ _ => False | _ => True end -> returned (snd (exec g l o f)).
Proof.
  intros g ops l o f H W NP. destruct (reach_view H) as (s & Es & R & GE & BD & SM).
  destruct (exec_refines g f R SM W) as (_ & -> & _). unfold sexec.
  assert (Q : forall fs (r : outcome unit), returned r -> returned (snd (match f with
     | Some k => if Nat.ltb k (length fs) then (apply_effects s (firstn k fs), Err EOther) else (apply_effects s fs, r)
     | None => (apply_effects s fs, r) end))).
  { intros fs r Q. destruct f as [k|]; [destruct (Nat.ltb k (length fs))|]; cbn; auto. }
  destruct o as [b a|m a|i a|]; [destruct NP| | |]; cbn [effects]; try now apply Q.
  destruct (chain _ (mi_total m)); [|now apply Q]. destruct (chain _ (mi_ref m)) as [|r ?]; [now apply Q|].
  destruct (e_parent r); now apply Q.
Qed.

Section Times.
  Variables (g : pblock) (ops : list (op * option nat)) (l : linkage).
  Hypothesis H : reachable g ops l.
  Hypothesis T : times_ok g ops.

  Lemma all_ts : Forall (fun e => ts_ok e = true) (hist g ops).
  Proof.
    destruct T as [T0 TS]. apply ts_srun; auto. constructor; [|constructor]. unfold ts_ok. cbn. now apply N.ltb_lt.
  Qed.
  Lemma t_block : forall i, wf_id i -> lk_has_block l i = Ok true -> exists b, block l i = Ok b.
  Proof.
    intros i W S. destruct (one_view H) as (s & HE & R & SM & _). apply (v_has_true R SM W) in S.
    destruct (chain_hd S) as (e & c & C & _). rewrite (v_block R SM C).
    assert (Q := all_ts). rewrite HE, Forall_forall in Q. rewrite Q; [eauto|]. eapply chain_In. rewrite C. now left.
  Qed.
  Lemma t_queries : 
    (forall i, wf_id i -> returned (lk_has_block l i) /\ returned (block l i)) /\
    returned (lk_heads l) /\ returned (active_heads l) /\ returned (leashes (lk_db l)) /\
    (forall a, wf_addr a -> returned (has_leash l a) /\ returned (leash l a) /\ returned (leash_score l a)) /\
    (forall i n, wf_id i -> (0 <= n)%Z -> returned (last_ids l i n)) /\
    (forall ord srt i n, wf_id i -> (0 <= n)%Z -> returned (fork_generators ord srt l i n)).
  Proof.
    destruct (one_view H) as (s & HE & R & SM & NN & GE & Es). rewrite HE in NN.
    assert (ST : forall i, wf_id i -> (exists x, lk_has_block l i = Ok x) /\ (lk_has_block l i = Ok true \/ ~ stored (st_blocks s) i)).
    { intros i W. destruct (stored_dec (st_blocks s) i) as [S|S].
      - apply (v_has_true R SM W) in S. eauto.
      - split; [|auto]. exists false. now apply (v_has_false R SM W). }
    split; [|split; [|split; [|split; [|split; [|split]]]]].
    - intros i W. destruct (ST i W) as [[x X] [S|S]].
      + destruct (t_block W S) as [b B]. rewrite X, B. cbn. auto.
      + rewrite X, (v_block_none R W S). cbn. auto.
    - rewrite (v_heads R SM). exact I.
    - destruct (p_active_heads H) as (hs & p & _ & E & _). rewrite E. exact I.
    - destruct (leashes_view R) as (ls & E & _). rewrite E. exact I.
    - intros a W. rewrite (v_has_leash R W), (v_leash R W). split; [exact I|]. split; [exact I|].
      unfold leash_score. rewrite (rep_leash R _ W).
      set (i := match match st_leash s a with Some i => Ok i | None => Err ENotFound end with
                | Ok i => i | Err ENotFound => lk_genesis l | _ => zero_id end).
      assert (WI : wf_id i).
      { unfold i. destruct (st_leash s a) eqn:E; [eapply (R_leash_wf R), E|]. rewrite GE. apply H. }
      destruct (stored_dec (st_blocks s) i) as [S|S].
      + destruct (chain_hd S) as (e & c & C & _). rewrite (rep_block_by_id R SM _ C). exact I.
      + unfold get_block_by_id. rewrite (rep_num_none R WI S). exact I.
    - intros i n W N. unfold last_ids. destruct (stored_dec (st_blocks s) i) as [S|S].
      + rewrite (q_last_ids R SM S N). exact I.
      + unfold get_ancestors. rewrite (rep_num_none R W S). exact I.
    - intros ord srt i n W N. destruct (generators_total R SM NN ord srt n W) as (A & B & _).
      destruct (stored_dec (st_blocks s) i) as [S|S].
      + destruct (B N S) as [st E]; [|rewrite E; exact I]. intros e I'. assert (Q := all_ts). rewrite HE, Forall_forall in Q.
        apply Q. eapply chain_In. rewrite <- (firstn_skipn (Z.to_nat n)). apply in_or_app. left. exact I'.
      + rewrite (A N S). exact I.
  Qed.
End Times.

(** In histories where MoveLeash is only called with stored blocks, forks are computed whenever someone selected is leashed and
    no two forks are much longer than their common part. *)
Lemma p_forks_total_hist : forall g l0 ops ord srt peers, wf_pblock g -> start g = Ok l0 -> wf_hist ops ->
  good_moves g l0 ops -> times_ok g ops -> map_order ord -> sorts fork_less srt ->
  let l := run g l0 ops in
  (exists a i, standing l peers a i) ->
  (forall a i b j k, standing l peers a i -> standing l peers b j -> is_lca (hist g ops) i j k ->
     Nat.min (height (hist g ops) i) (height (hist g ops) j) <= 3 * height (hist g ops) k + 1) ->
  exists fs, forks ord srt l peers = Ok fs.
Proof.
  intros g l0 ops ord srt peers WG S0 WH GM TO OM SS l EX SH.
  assert (H : reachable g ops l) by (split; [auto|split; eauto]).
  apply (p_forks_total H OM SS EX).
  - intros a i [(WA & NA & HL & LA) _]. destruct (leash_points WG S0 WH GM WA) as (i' & L & B & _). fold l in L, B.
    assert (i' = i) by congruence. subst i'. destruct (reach_view H) as (s & Es & R & _).
    assert (WI : wf_id i). { destruct (ls_view H) as (ls & _ & _ & EQ & W). eapply W, EQ. split; eauto. }
    eapply t_block; eauto.
  - intros a i b j k A B L. apply safe_short. specialize (SH _ _ _ _ _ A B L). lia.
Qed.

(** * A sort and an iteration order that satisfy the assumptions, for the examples *)
Fixpoint insert {A} (less : A -> A -> bool) (x : A) (r : list A) : list A :=
  match r with [] => [x] | y :: r' => if less y x then y :: insert less x r' else x :: r end.
Definition isort {A} (less : A -> A -> bool) (r : list A) : list A := fold_right (insert less) [] r.
Lemma isort_sorts : forall A (less : A -> A -> bool),
  (forall x y, less x y = true -> less y x = false) ->
  (forall x y z, less y x = false -> less z y = false -> less z x = false) -> sorts less (isort less).
Proof.
  intros A less AS TR r.
  assert (P : forall x r, Permutation (insert less x r) (x :: r)).
  { clear r. intros x r. induction r as [|y r IH]; cbn [insert]; auto. destruct (less y x); auto.
    rewrite IH. apply perm_swap. }
  induction r as [|x r [IH1 IH2]]; cbn [isort fold_right]; [split; constructor|]. split.
  - rewrite P. now constructor.
  - change (fold_right (insert less) [] r) with (isort less r).
    clear IH1. induction IH2 as [|y r' S IH F]; cbn [insert]; [repeat constructor|].
    destruct (less y x) eqn:E.
    + constructor; auto. apply Forall_forall. intros z I. eapply Permutation_in in I; [|apply P].
      destruct I as [<-|I]; [now apply AS|]. rewrite Forall_forall in F. auto.
    + constructor; [constructor; auto|]. constructor; auto. eapply Forall_impl; [|exact F]. cbn. intros z Q. eapply TR; eauto.
Qed.
Lemma isort_forks : sorts fork_less (isort fork_less).
Proof.
  apply isort_sorts; unfold fork_less.
  - intros x y. destruct (Z.compare_spec (f_score x) (f_score y)), (Z.compare_spec (f_score y) (f_score x)); lia.
  - intros x y z. destruct (Z.compare_spec (f_score y) (f_score x)), (Z.compare_spec (f_score z) (f_score y)),
      (Z.compare_spec (f_score z) (f_score x)); lia.
Qed.
Lemma isort_gens : sorts gen_less (isort gen_less).
Proof. apply isort_sorts; unfold gen_less; intros; lia. Qed.
Lemma same_order : forall A, map_order (fun m : list A => m).
Proof. intros A m. reflexivity. Qed.
