(** C75: the answers about forks and Go's unspecified orders (map iteration, sort.Sort of equal elements). *)
From Coq Require Import Permutation Sorted.
From Verif Require Import Base Kv BytesFacts ChainModel ChainSpec ChainQueries ChainLca ChainProofs ChainForks ForkProofs ChainExample ForkProps PeersModel PeersSpec ApiModel.
Set Implicit Arguments.
Unset Strict Implicit.

(** What sort.Sort needs of Less: a strict weak order. *)
Definition strict_weak A (less : A -> A -> bool) : Prop :=
  (forall x, less x x = false) /\ (forall x y z, less x y = true -> less y z = true -> less x z = true) /\
  (forall x y z, less x y = false -> less y x = false -> less y z = false -> less z y = false -> less x z = false /\ less z x = false).
(** No two blocks that selected peers stand on have the same score and the same number of selected peers. *)
Definition no_ties (es : list entry) (l : linkage) (peers : list addr) : Prop :=
  forall i j n, (exists a, standing l peers a i) -> (exists a, standing l peers a j) -> score es i = score es j ->
    count_on l peers i n -> count_on l peers j n -> i = j.

Lemma mapM_perm : forall A B (f : A -> outcome B) l l', Permutation l l' -> forall r, mapM f l = Ok r -> exists r', mapM f l' = Ok r' /\ Permutation r r'.
Proof.
  intros A B f l l' P. induction P as [|x l l' P IH|x y l|l l' l'' P1 IH1 P2 IH2]; intros r H.
  - exists r. split; auto.
  - cbn [mapM] in *. destruct (f x) as [b| | |]; try discriminate. destruct (mapM f l) as [bs| | |]; try discriminate.
    injection H as <-. destruct (IH _ eq_refl) as (r' & -> & Q). eexists. split; [reflexivity|]. now constructor.
  - cbn [mapM] in *. destruct (f y) as [b| | |]; try discriminate. destruct (f x) as [c| | |]; try discriminate.
    destruct (mapM f l) as [bs| | |]; try discriminate. injection H as <-. eexists. split; [reflexivity|]. constructor.
  - destruct (IH1 _ H) as (r1 & E1 & Q1). destruct (IH2 _ E1) as (r2 & E2 & Q2). exists r2. split; auto. now transitivity r1.
Qed.
Lemma sorted_unique : forall A (R : A -> A -> Prop) s1 s2, Permutation s1 s2 -> StronglySorted R s1 -> StronglySorted R s2 ->
  (forall x y, In x s1 -> In y s1 -> R x y -> R y x -> x = y) -> s1 = s2.
Proof.
  intros A R. induction s1 as [|x s1 IH]; intros s2 P S1 S2 AS.
  - symmetry. now apply Permutation_nil.
  - destruct s2 as [|y s2]; [symmetry in P; apply Permutation_nil in P; discriminate|].
    inversion S1 as [|? ? S1' F1]; subst. inversion S2 as [|? ? S2' F2]; subst. rewrite Forall_forall in F1, F2.
    assert (E : x = y).
    { pose proof (Permutation_in x P (or_introl eq_refl)) as I1. symmetry in P. pose proof (Permutation_in y P (or_introl eq_refl)) as I2.
      destruct I1 as [->|I1]; [reflexivity|]. destruct I2 as [->|I2]; [reflexivity|].
      apply AS; [now left|now right|now apply F1|now apply F2]. }
    subst y. f_equal. apply IH; auto; [now apply Permutation_cons_inv in P|]. intros a b Ia Ib. apply AS; now right.
Qed.

Lemma finish_keeps : forall d lg f f', finish_fork d lg f = Ok f' -> f_head f' = f_head f /\ f_score f' = f_score f /\ f_peers f' = f_peers f.
Proof.
  intros d lg f f' H. unfold finish_fork, bind in H. destruct (lca d lg (f_head f)) as [i| | |]; try discriminate.
  destruct (get_block_by_id d i) as [b| | |]; try discriminate. assert (E : set_lcb f i (f_length f - Z.of_N (sb_height b))%Z = f') by congruence.
  subst f'. cbn. auto.
Qed.
Lemma finish_all : forall d lg fs fs', mapM (finish_fork d lg) fs = Ok fs' ->
  map f_head fs' = map f_head fs /\ map f_score fs' = map f_score fs /\ map f_peers fs' = map f_peers fs.
Proof.
  intros d lg. induction fs as [|f fs IH]; intros fs' H; cbn [mapM] in H.
  - injection H as <-. auto.
  - destruct (finish_fork d lg f) as [f'| | |] eqn:E; try discriminate. destruct (mapM (finish_fork d lg) fs) as [r| | |]; try discriminate.
    injection H as <-. destruct (finish_keeps E) as (A & B & C). destruct (IH _ eq_refl) as (A' & B' & C'). cbn [map]. now rewrite A, B, C, A', B', C'.
Qed.
Lemma in_map3 : forall A (h : A -> id) (s : A -> Z) (p : A -> list addr) xs ys x, map h ys = map h xs -> map s ys = map s xs -> map p ys = map p xs ->
  In x xs -> exists y, In y ys /\ h y = h x /\ s y = s x /\ p y = p x.
Proof.
  induction xs as [|a xs IH]; intros ys x H1 H2 H3 I; [destruct I|]. destruct ys as [|b ys]; [discriminate|]. cbn [map] in *.
  injection H1 as E1 H1. injection H2 as E2 H2. injection H3 as E3 H3. destruct I as [->|I].
  - exists b. split; [now left|]. auto.
  - destruct (IH ys x H1 H2 H3 I) as (y & J & Q). exists y. split; [now right|exact Q].
Qed.
Lemma nodup_heads_eq : forall (fs : list Fork) x y, NoDup (map f_head fs) -> In x fs -> In y fs -> f_head x = f_head y -> x = y.
Proof.
  induction fs as [|f fs IH]; intros x y ND I J E; [destruct I|]. cbn [map] in ND. inversion ND as [|? ? N ND']; subst.
  destruct I as [->|I], J as [->|J]; auto.
  - destruct N. rewrite E. now apply in_map.
  - destruct N. rewrite <- E. now apply in_map.
Qed.
Lemma fork_less_tie : forall x y, fork_less x y = false -> fork_less y x = false -> f_score x = f_score y /\ length (f_peers x) = length (f_peers y).
Proof. intros x y. unfold fork_less. destruct (Z.compare_spec (f_score x) (f_score y)), (Z.compare_spec (f_score y) (f_score x)); lia. Qed.

(** * C75 *)
Lemma forks_determined : forall g ops l, reachable g ops l -> forall ord srt ord' srt' peers fs,
  map_order ord -> map_order ord' -> sorts fork_less srt -> sorts fork_less srt' -> no_ties (hist g ops) l peers ->
  forks ord srt l peers = Ok fs -> forks ord' srt' l peers = Ok fs.
Proof.
  intros g ops l H ord srt ord' srt' peers fs O O' SO SO' NT F. pose proof (p_forks_partition H O SO F) as (ND & HEADS & EACH).
  assert (NDS : forall f0 rest fs', mapM (finish_fork (lk_db l) (f_head f0)) (set_longest f0 :: rest) = Ok fs' -> NoDup (map f_head fs') -> NoDup (map f_head (f0 :: rest))).
  { intros f0 rest fs' M N. destruct (finish_all M) as (A & _). rewrite A in N. exact N. }
  unfold forks, group in *. destruct (leashes (lk_db l)) as [ls| | |]; try discriminate. cbn [bind] in F |- *.
  set (m := group_leashes (filter (fun e => selected peers (fst e)) ls)) in *.
  match type of F with context [mapM ?f (ord m)] => set (mk := f) in * end.
  destruct (mapM mk (ord m)) as [r| | |] eqn:E1; try discriminate. cbn [bind] in F.
  assert (P : Permutation (ord m) (ord' m)) by (rewrite (O m), (O' m); reflexivity).
  destruct (mapM_perm P E1) as (r' & E2 & PR). rewrite E2. cbn [bind]. destruct (SO r) as [P1 S1]. destruct (SO' r') as [P2 S2].
  assert (EQ : srt r = srt' r').
  { apply sorted_unique with (R := fun x y => fork_less y x = false); auto.
    - rewrite P1, P2. exact PR.
    - intros x y Ix Iy L1 L2. destruct (fork_less_tie L2 L1) as [TS TP]. destruct (srt r) as [|f0 rest]; [destruct Ix|].
      pose proof (NDS _ _ _ F ND) as ND0. apply (@nodup_heads_eq (f0 :: rest)); auto.
      destruct (finish_all F) as (A1 & A2 & A3).
      assert (A1' : map f_head fs = map f_head (f0 :: rest)) by exact A1. assert (A2' : map f_score fs = map f_score (f0 :: rest)) by exact A2.
      assert (A3' : map f_peers fs = map f_peers (f0 :: rest)) by exact A3.
      destruct (in_map3 A1' A2' A3' Ix) as (x' & Jx & Hx & Sx & Px). destruct (in_map3 A1' A2' A3' Iy) as (y' & Jy & Hy & Sy & Py).
      assert (SC : forall z, In z fs -> f_score z = score (hist g ops) (f_head z) /\ count_on l peers (f_head z) (length (f_peers z)) /\ exists a, standing l peers a (f_head z)).
      { intros z Iz. destruct (EACH z Iz) as (N & S & C & (b & B & _ & Q & _)).
        assert (EX : exists a, standing l peers a (f_head z)) by (apply HEADS, in_map; exact Iz).
        split; [|split; [|exact EX]].
        - rewrite Q. destruct EX as (a & [L _]). destruct (ls_view H) as (ls' & _ & _ & EL & W). apply EL in L. destruct (score_spec H (W _ _ L) B) as (-> & _). reflexivity.
        - exists (f_peers z). auto. }
      destruct (SC _ Jx) as (X1 & X2 & X3). destruct (SC _ Jy) as (Y1 & Y2 & Y3).
      rewrite <- Hx, <- Hy. apply (NT _ _ (length (f_peers x'))); auto.
      + rewrite <- X1, <- Y1, Sx, Sy. exact TS.
      + rewrite Px, TP, <- Py. exact Y2. }
  rewrite <- EQ. exact F.
Qed.
Lemma best_unique : forall es l peers x y, no_ties es l peers ->
  (forall i, (exists a, standing l peers a i) -> exists n, count_on l peers i n) -> best_block es l peers x -> best_block es l peers y -> x = y.
Proof.
  intros es l peers x y NT CN [X1 X2] [Y1 Y2]. destruct (CN x X1) as (n & Cx). destruct (CN y Y1) as (m & Cy).
  destruct (X2 y Y1) as [A|[A B]], (Y2 x X1) as [C|[C D]]; try lia.
  assert (m <= n) by (eapply B; eauto). assert (n <= m) by (eapply D; eauto). assert (n = m) by lia. subst m. eapply NT; eauto.
Qed.
Lemma counted : forall g ops l, reachable g ops l -> forall peers i, (exists a, standing l peers a i) -> exists n, count_on l peers i n.
Proof. intros g ops l H peers i _. destruct (ls_view H) as (ls & _ & ND & EL & _). eexists. eapply count_on_list; eauto. Qed.

Ltac weak := unfold strict_weak; split; [|split]; intros; repeat match goal with H : context [Z.compare ?a ?b] |- _ => destruct (Z.compare_spec a b) | |- context [Z.compare ?a ?b] => destruct (Z.compare_spec a b) end;
  try discriminate; try split; try reflexivity; try lia; try congruence.
(** All Less functions are strict weak orders. *)
Theorem C75_orders : strict_weak fork_less /\ strict_weak gen_less /\ strict_weak leash_less /\ strict_weak version_less /\
  forall cfg, strict_weak (name_less cfg).
Proof.
  split; [|split; [|split; [|split]]].
  - unfold fork_less. weak.
  - unfold gen_less. weak.
  - unfold leash_less. weak.
  - unfold version_less. weak.
  - intros cfg. unfold strict_weak, name_less.
    assert (T : forall a b, bltb a b = false -> bltb b a = false -> a = b).
    { intros a b A B. unfold bltb in *. destruct (bcmp a b) eqn:E; try discriminate; [now apply bcmp_eq|]. apply bcmp_gt_lt in E. rewrite E in B. discriminate. }
    split; [|split].
    + intros x. destruct (bltb _ _) eqn:E; auto. apply bltb_lt in E. now destruct (bcmp_lt_irrefl _ E).
    + intros x y z A B. apply bltb_lt in A. apply bltb_lt in B. apply bltb_lt. eapply bcmp_lt_trans; eauto.
    + intros x y z A B C D. pose proof (T _ _ A B) as E1. pose proof (T _ _ C D) as E2.
      assert (R : forall a, bltb a a = false) by (intros a; destruct (bltb a a) eqn:F; auto; apply bltb_lt in F; now destruct (@bcmp_lt_irrefl _ F)).
      assert (E : g_upper cfg (p_name x) = g_upper cfg (p_name z)) by congruence. rewrite E. auto.
Qed.
Print Assumptions C75_orders.
(** Without ties the answer of Forks, and so of Stats, depends on the store and the selection only. Missing for C75: ties,
    where the claim is false (last theorem). *)
Theorem C75_forks_determined_partial : forall g ops l, reachable g ops l -> forall ord srt ord' srt' peers fs,
  map_order ord -> map_order ord' -> sorts fork_less srt -> sorts fork_less srt' -> no_ties (hist g ops) l peers ->
  forks ord srt l peers = Ok fs -> forks ord' srt' l peers = Ok fs.
Proof. exact forks_determined. Qed.
Print Assumptions C75_forks_determined_partial.
Theorem C75_stats_determined_partial : forall g ops l, reachable g ops l -> forall ord srt ord' srt' r,
  map_order ord -> map_order ord' -> sorts fork_less srt -> sorts fork_less srt' -> no_ties (hist g ops) l [] ->
  stats ord srt l = Ok r -> stats ord' srt' l = Ok r.
Proof.
  intros g ops l H ord srt ord' srt' r O O' SO SO' NT S. unfold stats in *. destruct (forks ord srt l []) as [fs| | |] eqn:F; try discriminate.
  now rewrite (forks_determined H O O' SO SO' NT F).
Qed.
Print Assumptions C75_stats_determined_partial.
(** The same for LCB and for the fork of a peer. *)
Theorem C75_lcb_determined_partial : forall g ops l, reachable g ops l -> forall ord ord' a i k k',
  map_order ord -> map_order ord' -> no_ties (hist g ops) l [] -> leashed l a i -> lcb ord l a = Ok k -> lcb ord' l a = Ok k' -> k = k'.
Proof.
  intros g ops l H ord ord' a i k k' O O' NT L A B. destruct (p_lcb H O L A) as (x & X1 & X2). destruct (p_lcb H O' L B) as (y & Y1 & Y2).
  assert (x = y) by (eapply best_unique; eauto; eapply counted; eauto). subst y. destruct (reach_view H) as (s & Es & R & _).
  unfold hist in *. rewrite <- Es in *. eapply is_lca_unique; eauto.
Qed.
Print Assumptions C75_lcb_determined_partial.
Theorem C75_fork_determined_partial : forall g ops l, reachable g ops l -> forall ord ord' a i f f',
  map_order ord -> map_order ord' -> no_ties (hist g ops) l [] -> leashed l a i -> fork_of ord l a = Ok f -> fork_of ord' l a = Ok f' ->
  f_head f = f_head f' /\ f_longest f = f_longest f' /\ f_lcb f = f_lcb f' /\ f_length f = f_length f' /\ Permutation (f_peers f) (f_peers f').
Proof.
  intros g ops l H ord ord' a i f f' O O' NT L A B. destruct (p_fork H O L A) as (x & X1 & X2 & X3 & X4 & _ & X5 & X6 & X7 & X8 & _).
  destruct (p_fork H O' L B) as (y & Y1 & Y2 & Y3 & Y4 & _ & Y5 & Y6 & Y7 & Y8 & _).
  assert (x = y) by (eapply best_unique; eauto; eapply counted; eauto). subst y.
  assert (LC : f_lcb f = f_lcb f'). { destruct (reach_view H) as (s & Es & R & _). unfold hist in *. rewrite <- Es in *. eapply is_lca_unique; eauto. }
  split; [congruence|]. split; [|split; [exact LC|split]].
  - destruct (f_longest f), (f_longest f'); intuition congruence.
  - rewrite X8, Y8, LC. destruct X5 as (b & B1 & B2 & _), Y5 as (b' & B1' & B2' & _). rewrite X2 in B1. rewrite Y2 in B1'. assert (b = b') by congruence. subst b'. congruence.
  - apply NoDup_Permutation; auto. intros p. now rewrite X4, Y4.
Qed.
Print Assumptions C75_fork_determined_partial.

(** Block 1 (base target 8) and the chain 2-3-..-9 (base target 64) both have the score 2^61 above genesis; one peer is on
    each. The same request answers "one short fork and one long fork" or "two short forks". *)
Definition tied : list (op * option nat) :=
  (Put {| pb_id := xid 1; pb_parent := xid 0; pb_ts := 1001; pb_bt := 8; pb_gen := Some (xgen 1) |} (xpeer 1), None) ::
  map (fun n => (Put {| pb_id := xid n; pb_parent := xid (if (n =? 2)%N then 0 else n - 1); pb_ts := 1000 + n; pb_bt := 64; pb_gen := Some (xgen 2) |} (xpeer 2), None))
      [2; 3; 4; 5; 6; 7; 8; 9]%N.
Theorem C75_ties_refuted : exists g ops l ord ord' srt, reachable g ops l /\ map_order ord /\ map_order ord' /\ sorts fork_less srt /\
  stats ord srt l = Ok (1, 1) /\ stats ord' srt l = Ok (2, 0) /\ forks ord srt l [] <> forks ord' srt l [].
Proof.
  exists xg, tied, (at_end tied), (fun m => m), (@rev group), (isort fork_less).
  split; [apply at_end_reachable; vm_compute; reflexivity|]. split; [apply same_order|]. split; [intros m; symmetry; apply Permutation_rev|].
  split; [apply isort_forks|]. split; [vm_compute; reflexivity|]. split; [vm_compute; reflexivity|].
  intros E. apply (f_equal (fun r => match r with Ok (f :: _) => id_eqb (f_head f) (xid 1) | _ => false end)) in E. vm_compute in E. discriminate E.
Qed.
Print Assumptions C75_ties_refuted.
(** Peer 1 on block 3 of the chain 1-2-3, peers 2 and 3 on block 4 of the chain 1-4: no ties. *)
Definition untied : list (op * option nat) := firstn 5 xops.
Example C75_example : reachable xg untied (at_end untied) /\ no_ties (hist xg untied) (at_end untied) [] /\
  option_map (map f_head) (match forks (fun m => m) (isort fork_less) (at_end untied) [] with Ok fs => Some fs | _ => None end) = Some [xid 3; xid 4] /\
  leashed (at_end untied) (xpeer 2) (xid 4) /\ lcb (fun m => m) (at_end untied) (xpeer 2) = Ok (xid 1).
Proof.
  assert (R : reachable xg untied (at_end untied)) by (apply at_end_reachable; vm_compute; reflexivity).
  assert (ST : forall a i, standing (at_end untied) [] a i -> i = xid 3 \/ i = xid 4).
  { intros a i [L _]. destruct (ls_view R) as (ls & LS & _ & EQ & _). apply EQ in L. vm_compute in LS. injection LS as <-.
    repeat (destruct L as [L|L]; [injection L as _ <-; vm_compute; auto|]). destruct L. }
  assert (D : (score (hist xg untied) (xid 4) < score (hist xg untied) (xid 3))%Z) by (vm_compute; reflexivity).
  split; [exact R|]. split.
  { intros i j n [a A] [b B] S _ _. apply ST in A. apply ST in B. destruct A as [->| ->], B as [->| ->]; auto; lia. }
  split; [vm_compute; reflexivity|]. split; [split; [reflexivity|split; [discriminate|vm_compute; auto]]|vm_compute; reflexivity].
Qed.
