(** Proofs about the exact outcome of Forks, Fork, LCB, Stats and Connections for every reachable store. *)
From Verif Require Import Base Kv KvFacts ChainModel ChainSpec ChainTree ChainRep ChainStep ChainQueries ChainLca ChainProofs ChainForks ForkProofs.
Set Implicit Arguments.
Unset Strict Implicit.

Lemma mapM_err : forall A B (f : A -> outcome B) l e, mapM f l = Err e -> exists x, In x l /\ f x = Err e.
Proof.
  induction l as [|x l IH]; intros e H; cbn [mapM] in H; [discriminate|]. destruct (f x) as [y|e'| |] eqn:F; cbn [bind] in H; try discriminate.
  - destruct (mapM f l) as [ys|e'| |] eqn:M; cbn [bind] in H; try discriminate. injection H as ->. destruct (IH e eq_refl) as (z & I & E). exists z. split; [now right|exact E].
  - injection H as ->. exists x. split; [now left|exact F].
Qed.
Lemma mapM_diverge : forall A B (f : A -> outcome B) l, mapM f l = Diverge -> exists x, In x l /\ f x = Diverge.
Proof.
  induction l as [|x l IH]; intros H; cbn [mapM] in H; [discriminate|]. destruct (f x) as [y|e'| |] eqn:F; cbn [bind] in H; try discriminate.
  - destruct (mapM f l) as [ys|e'| |] eqn:M; cbn [bind] in H; try discriminate. destruct (IH eq_refl) as (z & I & E). exists z. split; [now right|exact E].
  - exists x. split; [now left|exact F].
Qed.
Lemma mapM_crash : forall A B (f : A -> outcome B) l, mapM f l = Panic -> exists x, In x l /\ f x = Panic.
Proof.
  induction l as [|x l IH]; intros H; cbn [mapM] in H; [discriminate|]. destruct (f x) as [y|e'| |] eqn:F; cbn [bind] in H; try discriminate.
  - destruct (mapM f l) as [ys|e'| |] eqn:M; cbn [bind] in H; try discriminate. destruct (IH eq_refl) as (z & I & E). exists z. split; [now right|exact E].
  - exists x. split; [now left|exact F].
Qed.
Lemma mapM_hit : forall A B (f : A -> outcome B) l r x y, mapM f l = Ok r -> In x l -> f x = Ok y -> In y r.
Proof.
  induction l as [|z l IH]; intros r x y H I E; [destruct I|]. cbn [mapM] in H. destruct (f z) as [w| | |] eqn:F; cbn [bind] in H; try discriminate.
  destruct (mapM f l) as [ys| | |] eqn:M; cbn [bind] in H; try discriminate. injection H as <-. destruct I as [->|I]; [left; congruence|right; eapply IH; eauto].
Qed.
Lemma mapM_each : forall A B (f : A -> outcome B) l r, mapM f l = Ok r -> forall x, In x l -> exists y, f x = Ok y.
Proof.
  induction l as [|x l IH]; intros r H z I; [destruct I|]. cbn [mapM] in H. destruct (f x) as [y| | |] eqn:F; cbn [bind] in H; try discriminate.
  destruct (mapM f l) as [ys| | |] eqn:M; cbn [bind] in H; try discriminate. destruct I as [<-|I]; [eauto|]. eapply IH; eauto.
Qed.

Section One.
  Variables (g : pblock) (ops : list (op * option nat)) (l : linkage).
  Hypothesis H : reachable g ops l.
  Let es := hist g ops.

  (** The last common block of [t] and [i] can be computed (C09). *)
  Definition computable (t i : id) : Prop :=
    forall k, is_lca es t i k -> safe (Nat.min (height es t) (height es i) - height es k) (height es k).

  Lemma computes : forall t i, stored es t -> stored es i -> (computable t i /\ exists k, lca (lk_db l) t i = Ok k) \/ (~ computable t i /\ lca (lk_db l) t i = Panic).
  Proof.
    intros t i ST SI. destruct (one_view H) as (s & HE & R & SM & _). unfold es in *. rewrite HE in ST, SI.
    assert (WT := stored_wf (R_wf R) ST). assert (WI := stored_wf (R_wf R) SI).
    destruct (lca_exact H WT WI) as (k & K & A & B); [now apply (v_has_true R SM)|now apply (v_has_true R SM)|]. cbv zeta in *.
    set (D := Nat.min (height (hist g ops) t) (height (hist g ops) i) - height (hist g ops) k) in *.
    destruct (lca (lk_db l) t i) as [k'| | |] eqn:E.
    - left. split; [|eauto]. intros k2 K2. unfold es in K2. rewrite HE in K, K2. assert (k2 = k) by exact (is_lca_unique R K2 K). subst k2.
      assert (X : ~ ~ safe D (height (hist g ops) k)) by (intros N; specialize (B N); discriminate).
      intros u U. destruct (le_lt_dec (2 ^ u) ((D - 1) mod 2 ^ S u + height (hist g ops) k)) as [Q|Q]; [exact Q|exfalso]. apply X. intros Y. specialize (Y u U). lia.
    - exfalso. assert (X : ~ safe D (height (hist g ops) k)) by (intros Y; specialize (A Y); discriminate). specialize (B X). discriminate.
    - right. split; [|reflexivity]. intros C. specialize (A (C k K)). discriminate.
    - exfalso. assert (X : ~ safe D (height (hist g ops) k)) by (intros Y; specialize (A Y); discriminate). specialize (B X). discriminate.
  Qed.

  Section View.
  Variable s : state.
  Hypothesis HE : hist g ops = st_blocks s.
  Hypothesis R : Rep (lk_db l) s.
  Hypothesis SM : small (st_blocks s).

  Lemma block_cases : forall i, wf_id i -> (exists b, block l i = Ok b) \/ (stored es i /\ block l i = Panic /\ exists e, In e es /\ e_id e = i /\ (max_int64 <= e_ts e)%N) \/
    (~ stored es i /\ block l i = Err ENotFound).
  Proof.
    intros i W. unfold es. rewrite HE. destruct (stored_dec (st_blocks s) i) as [S|S].
    - destruct (chain_hd S) as (e & c & C & ID & IN). rewrite (v_block R SM C). destruct (ts_ok e) eqn:T; [left; eauto|right; left].
      split; [exact S|]. split; [reflexivity|]. exists e. split; [exact IN|]. split; [exact ID|]. unfold ts_ok in T. lia.
    - right. right. split; [exact S|]. exact (v_block_none R W S).
  Qed.
  Lemma finish_cases : forall t f, stored es t -> stored es (f_head f) ->
    (computable t (f_head f) /\ exists f', finish_fork (lk_db l) t f = Ok f') \/ (~ computable t (f_head f) /\ finish_fork (lk_db l) t f = Panic).
  Proof.
    intros t f ST SF. destruct (computes ST SF) as [[C [k K]]|[C K]].
    - left. split; [exact C|]. unfold es in *. rewrite HE in ST, SF. eapply (finish_total R SM); eauto.
    - right. split; [exact C|]. unfold finish_fork. now rewrite K.
  Qed.
  (** The sorted list before the last common blocks are looked for. *)
  Lemma sorted_heads : forall ord srt peers ls r f0 rest, map_order ord -> sorts fork_less srt -> leashes (lk_db l) = Ok ls ->
    let sel := filter (fun e => selected peers (fst e)) ls in
    mapM (fun g => do b <- block l (fst g); Ok (new_fork b (snd g))) (ord (group_leashes sel)) = Ok r -> srt r = f0 :: rest ->
    is_best es sel (f_head f0) /\ (forall f, In f (f0 :: rest) -> In (f_head f) (map snd sel) /\ stored es (f_head f)) /\
    (forall i, In i (map snd sel) -> exists f, In f (f0 :: rest) /\ f_head f = i).
  Proof.
    intros ord srt peers ls r f0 rest OM SS LS sel MR SRT. destruct (leashes_view R) as (ls' & LS' & _ & WFI & _). rewrite LS in LS'. injection LS' as <-.
    assert (G : grouped sel (ord (group_leashes sel))) by (eapply grouped_perm; [apply grouped_leashes|apply OM]). set (m := ord (group_leashes sel)) in *.
    destruct G as (GND & GK & GP). destruct (SS r) as [PR SR]. rewrite SRT in PR, SR.
    assert (WM : forall q, In q m -> wf_id (fst q)).
    { intros q I. apply (in_map fst) in I. apply GK in I. apply in_map_iff in I as ([a i] & <- & I). apply filter_In in I as [I _]. eapply WFI, I. }
    assert (EL : forall f, In f (f0 :: rest) -> In (f_head f) (map snd sel) /\ stored es (f_head f) /\ f_score f = score es (f_head f) /\ f_peers f = on_block sel (f_head f)).
    { intros f I. assert (IR : In f r) by (eapply Permutation_in; eauto). destruct (mapM_In MR IR) as ([i ps] & IG & E). cbn [fst snd] in E.
      destruct (block l i) as [b| | |] eqn:B; try discriminate. cbn [bind] in E. injection E as <-. cbn [new_fork f_head f_score f_peers].
      destruct (block_facts R SM (WM _ IG) B) as (B1 & B2 & _ & B4). cbn [fst] in B1, B2, B4. rewrite B1. unfold es. rewrite HE. split; [apply GK; now apply (in_map fst) in IG|].
      split; [exact B4|]. split; [exact B2|]. now apply GP. }
    assert (HD : forall i, In i (map snd sel) -> exists f, In f (f0 :: rest) /\ f_head f = i).
    { intros i I. apply GK in I. apply in_map_iff in I as ([j ps] & E & I). cbn in E. subst j. destruct (mapM_each MR I) as [f F].
      assert (IR : In f r).
      { eapply mapM_hit; eauto. }
      exists f. split; [eapply Permutation_in; [apply Permutation_sym|]; eauto|]. cbn [fst snd] in F. destruct (block l i) as [b| | |] eqn:B; try discriminate. cbn [bind] in F. injection F as <-.
      cbn [new_fork f_head]. apply (block_facts R SM (WM _ I) B). }
    split; [|split; [intros f I; split; apply (EL f I)|exact HD]].
    destruct (EL f0 (or_introl eq_refl)) as (I0 & _ & S0 & P0). split; [exact I0|]. intros j J. destruct (HD j J) as (f & I & <-).
    destruct (EL f I) as (_ & _ & S1 & P1). rewrite <- S0, <- S1, <- P0, <- P1. destruct I as [<-|I]; [right; split; [reflexivity|lia]|].
    apply StronglySorted_inv in SR as [_ SR]. rewrite Forall_forall in SR. specialize (SR _ I). unfold fork_less in SR.
    destruct (Z.compare_spec (f_score f) (f_score f0)) as [E|E|E]; [right; split; [exact E|]|left; exact E|discriminate]. destruct (Nat.ltb_spec (length (f_peers f0)) (length (f_peers f))); [discriminate|lia].
  Qed.
  End View.

  (** Every outcome of Forks. *)
  Lemma forks_cases : forall ord srt peers, map_order ord -> sorts fork_less srt ->
    (exists fs, forks ord srt l peers = Ok fs /\ (exists a i, standing l peers a i) /\ (forall a i, standing l peers a i -> exists b, block l i = Ok b) /\
       exists t, best_block es l peers t /\ forall a i, standing l peers a i -> computable t i) \/
    (forks ord srt l peers = Panic /\ ((forall a i, ~ standing l peers a i) \/
       (exists a i, standing l peers a i /\ block l i = Panic) \/
       ((forall a i, standing l peers a i -> exists b, block l i = Ok b) /\ exists t a i, best_block es l peers t /\ standing l peers a i /\ ~ computable t i))) \/
    (forks ord srt l peers = Err ENotFound /\ exists a i, standing l peers a i /\ ~ stored es i).
  Proof.
    intros ord srt peers OM SS. destruct (one_view H) as (s & HE & R & SM & NN & GE & _). destruct (ls_view H) as (ls & LS & ND & EQ & WFI).
    set (sel := filter (fun e => selected peers (fst e)) ls). assert (HS := fun i => @sel_heads l ls peers i EQ). fold sel in HS.
    assert (G : grouped sel (ord (group_leashes sel))) by (eapply grouped_perm; [apply grouped_leashes|apply OM]).
    assert (U : forks ord srt l peers = do r <- mapM (fun g => do b <- block l (fst g); Ok (new_fork b (snd g))) (ord (group_leashes sel));
      match srt r with [] => Panic | f0 :: rest => mapM (finish_fork (lk_db l) (f_head f0)) (set_longest f0 :: rest) end) by (unfold forks; rewrite LS; reflexivity).
    set (m := ord (group_leashes sel)) in *. destruct G as (GND & GK & GP).
    assert (SG : forall q, In q m -> exists a, standing l peers a (fst q) /\ wf_id (fst q)).
    { intros q I. apply (in_map fst) in I. apply GK, HS in I as [a S]. exists a. split; [exact S|]. eapply WFI, EQ, (proj1 S). }
    destruct (mapM (fun g => do b <- block l (fst g); Ok (new_fork b (snd g))) m) as [r|e| |] eqn:MR; cbn [bind] in U.
    - assert (BL : forall a i, standing l peers a i -> exists b, block l i = Ok b).
      { intros a i S. assert (I : In i (map snd sel)) by (apply HS; eauto). apply GK in I. apply in_map_iff in I as ([j ps] & E & I). cbn in E. subst j.
        destruct (mapM_each MR I) as [f F]. cbn [fst snd] in F. destruct (block l i); [eauto|discriminate..]. }
      destruct (srt r) as [|f0 rest] eqn:SRT.
      + right. left. split; [exact U|]. left. intros a i S. destruct (SS r) as [PR _]. rewrite SRT in PR. apply Permutation_nil in PR. subst r.
        assert (I : In i (map snd sel)) by (apply HS; eauto). apply GK in I. apply in_map_iff in I as (q & _ & I). destruct (mapM_each MR I) as [y Y]. destruct (mapM_hit MR I Y).
      + destruct (sorted_heads HE R SM OM SS LS MR SRT) as (B & EL & HD). fold sel in B, EL, HD.
        assert (BB : best_block es l peers (f_head f0)) by (apply (best_view es peers (f_head f0) ND EQ), B).
        destruct (EL f0 (or_introl eq_refl)) as [I0 S0].
        assert (EX : exists a i, standing l peers a i) by (apply HS in I0 as [a A]; eauto).
        assert (FC : forall f, In f (set_longest f0 :: rest) -> In (f_head f) (map snd sel) /\ stored es (f_head f)).
        { intros f [<-|I]; [split; assumption|]. apply EL. now right. }
        rewrite U. destruct (mapM (finish_fork (lk_db l) (f_head f0)) (set_longest f0 :: rest)) as [fs|e| |] eqn:MF.
        * left. exists fs. split; [reflexivity|]. split; [exact EX|]. split; [exact BL|]. exists (f_head f0). split; [exact BB|].
          intros a i S. assert (I : In i (map snd sel)) by (apply HS; eauto). destruct (HD i I) as (f & If & <-).
          assert (IF : exists f', In f' (set_longest f0 :: rest) /\ f_head f' = f_head f) by (destruct If as [<-|If]; [exists (set_longest f0); split; [now left|reflexivity]|exists f; split; [now right|reflexivity]]).
          destruct IF as (f' & IF & <-). destruct (mapM_each MF IF) as [y Y]. destruct (finish_cases HE R SM S0 (proj2 (FC f' IF))) as [[C _]|[_ C]]; [exact C|rewrite C in Y; discriminate].
        * exfalso. destruct (mapM_err MF) as (f & If & E). destruct (finish_cases HE R SM S0 (proj2 (FC f If))) as [[_ [y C]]|[_ C]]; rewrite C in E; discriminate.
        * right. left. split; [reflexivity|]. right. right. split; [exact BL|]. exists (f_head f0).
          assert (X : exists f, In f (set_longest f0 :: rest) /\ ~ computable (f_head f0) (f_head f)).
          { destruct (mapM_crash MF) as (f & If & E). destruct (finish_cases HE R SM S0 (proj2 (FC f If))) as [[_ [y C]]|[N C]]; [rewrite C in E; discriminate|]. exists f. auto. }
          destruct X as (f & If & N). destruct (FC f If) as [I1 _]. apply HS in I1 as [a A]. exists a, (f_head f). auto.
        * exfalso. destruct (mapM_diverge MF) as (f & If & E). destruct (finish_cases HE R SM S0 (proj2 (FC f If))) as [[_ [y C]]|[_ C]]; rewrite C in E; discriminate.
    - right. right. destruct (mapM_err MR) as (q & I & E). destruct (SG q I) as (a & S & W). destruct (block_cases HE R SM W) as [[b B]|[(_ & B & _)|(NS & B)]]; rewrite B in E; cbn [bind] in E; try discriminate.
      injection E as <-. split; [exact U|]. exists a, (fst q). auto.
    - right. left. split; [exact U|]. right. left. assert (X : exists q, In q m /\ block l (fst q) = Panic).
      { destruct (mapM_crash MR) as (q & I & E). exists q. split; [exact I|]. destruct (block l (fst q)); [discriminate..|reflexivity|discriminate]. }
      destruct X as (q & I & B). destruct (SG q I) as (a & S & _). exists a, (fst q). auto.
    - exfalso. destruct (mapM_diverge MR) as (q & I & E). destruct (SG q I) as (a & S & W). destruct (block_cases HE R SM W) as [[b B]|[(_ & B & _)|(NS & B)]]; rewrite B in E; discriminate.
  Qed.

  (** ** Fork and LCB *)
  Lemma fork_loop_each : forall peer m acc f r, fork_loop l peer m acc f = Ok r -> forall q, In q m -> exists b, block l (fst q) = Ok b.
  Proof.
    induction m as [|q m IH]; intros acc f r E q' I; [destruct I|]. cbn [fork_loop] in E. destruct (block l (fst q)) as [b| | |] eqn:B; cbn [bind] in E; try discriminate.
    destruct I as [<-|I]; [eauto|]. eapply IH; eauto.
  Qed.
  Lemma fork_loop_bad : forall peer m acc f, match fork_loop l peer m acc f with
    | Ok _ => True | Err e => exists q, In q m /\ block l (fst q) = Err e | Panic => exists q, In q m /\ block l (fst q) = Panic | Diverge => exists q, In q m /\ block l (fst q) = Diverge end.
  Proof.
    induction m as [|q m IH]; intros acc f; cbn [fork_loop]; [exact I|]. destruct (block l (fst q)) as [b| | |] eqn:B; cbn [bind].
    - specialize (IH (longest_step acc (b_score b) q) (if existsb (addr_eqb peer) (snd q) then new_fork b (snd q) else f)). cbv zeta in *.
      destruct (fork_loop _ _ m _ _); [exact I| | |]; destruct IH as (q' & I' & E'); exists q'; (split; [now right|exact E']).
    - exists q. split; [now left|exact B].
    - exists q. split; [now left|exact B].
    - exists q. split; [now left|exact B].
  Qed.
  Lemma longest_fork : forall peer m acc f, longest_loop l m acc = match fork_loop l peer m acc f with Ok r => Ok (fst r) | Err e => Err e | Panic => Panic | Diverge => Diverge end.
  Proof.
    induction m as [|q m IH]; intros acc f; cbn [fork_loop longest_loop]; [reflexivity|]. destruct (block l (fst q)) as [b| | |]; cbn [bind]; [|reflexivity..]. apply IH.
  Qed.
  Lemma fork_cases : forall ord a i, map_order ord -> leashed l a i ->
    ((exists f, fork_of ord l a = Ok f) /\ (exists k, lcb ord l a = Ok k) /\ (forall b j, leashed l b j -> exists x, block l j = Ok x) /\
       exists t, best_block es l [] t /\ computable t i) \/
    (fork_of ord l a = Panic /\ lcb ord l a = Panic /\ ((exists b j, leashed l b j /\ block l j = Panic) \/
       ((forall b j, leashed l b j -> exists x, block l j = Ok x) /\ exists t, best_block es l [] t /\ ~ computable t i))) \/
    (fork_of ord l a = Err ENotFound /\ lcb ord l a = Err ENotFound /\ exists b j, leashed l b j /\ ~ stored es j).
  Proof.
    intros ord a i OM L. destruct (one_view H) as (s & HE & R & SM & NN & GE & _). destruct (ls_view H) as (ls & LS & ND & EQ & WFI). assert (I := proj2 (EQ _ _) L).
    assert (G : grouped ls (ord (group_leashes ls))) by (eapply grouped_perm; [apply grouped_leashes|apply OM]). assert (G0 := G). destruct G0 as (GND & GK & GP).
    assert (SG : forall q, In q (ord (group_leashes ls)) -> exists b, leashed l b (fst q) /\ wf_id (fst q)).
    { intros q Q. apply (in_map fst) in Q. apply GK in Q. apply in_map_iff in Q as ([b j] & E & Q). cbn in E. subst j. exists b. split; [now apply EQ|eapply WFI, Q]. }
    assert (UF : fork_of ord l a = do r <- fork_loop l a (ord (group_leashes ls)) (0%Z, 0, zero_id) zero_fork;
      if id_eqb (f_head (snd r)) (snd (fst r)) then Ok (set_length (set_longest (snd r)) 0) else finish_fork (lk_db l) (snd (fst r)) (snd r)) by (unfold fork_of; now rewrite LS).
    assert (GL : get_leash (lk_db l) a = Ok i).
    { destruct L as (WA & NA & HL & LA). rewrite (v_has_leash R WA) in HL. rewrite (v_leash R WA) in LA. rewrite (rep_leash R _ WA). destruct (st_leash s a) as [i'|]; [congruence|discriminate]. }
    assert (UL : lcb ord l a = do acc <- longest_loop l (ord (group_leashes ls)) (0%Z, 0, zero_id); if id_eqb i (snd acc) then Ok i else lca (lk_db l) (snd acc) i) by (unfold lcb; now rewrite GL, LS).
    rewrite (longest_fork a _ _ zero_fork) in UL. assert (FB := fork_loop_bad a (ord (group_leashes ls)) (0%Z, 0, zero_id) zero_fork).
    destruct (fork_loop l a (ord (group_leashes ls)) (0%Z, 0, zero_id) zero_fork) as [r|e| |] eqn:FL; cbn [bind] in UF, UL.
    - assert (BL : forall b j, leashed l b j -> exists x, block l j = Ok x).
      { intros b j Lb. apply EQ in Lb. apply (in_map snd) in Lb. cbn in Lb. apply GK in Lb. apply in_map_iff in Lb as (q & <- & Q). exact (fork_loop_each FL Q). }
      assert (LL := fork_loop_split FL). assert (NN' : forall i0, (0 <= score (st_blocks s) i0)%Z) by (intros i0; rewrite <- HE; apply NN).
      destruct (longest_best R SM NN' G WFI LL) as (ST & [[-> _]|B]); [destruct I|]. rewrite <- HE in B. fold es in B.
      assert (BB : best_block es l [] (snd (fst r))) by (apply (best_view es [] _ ND EQ); rewrite selected_all; exact B).
      assert (II : In i (map snd ls)) by (apply in_map_iff; exists (a, i); auto).
      assert (GI : exists ps, In (i, ps) (ord (group_leashes ls))) by (apply GK in II; apply in_map_iff in II as ([j ps] & E & Q); cbn in E; subst j; eauto).
      destruct GI as [ps GI]. assert (FF : exists b, block l i = Ok b /\ snd r = new_fork b ps).
      { eapply fork_loop_finds; eauto.
        - cbn [snd]. rewrite (GP _ _ GI). now apply on_block_In.
        - intros [j ps'] IJ IP. cbn [fst snd] in *. rewrite (GP _ _ IJ) in IP. apply on_block_In in IP. apply EQ in IP. destruct IP as (_ & _ & _ & Q), L as (_ & _ & _ & Q'). congruence. }
      destruct FF as (b & BI & SR). destruct (block_facts R SM (WFI _ _ I) BI) as (B1 & _ & _ & SI). rewrite SR in UF. cbn [new_fork f_head] in UF. rewrite B1 in UF.
      assert (S1 : stored es (snd (fst r))) by (unfold es; rewrite HE; apply ST, (proj1 B)). assert (S2 : stored es i) by (unfold es; rewrite HE; exact SI).
      destruct (id_eqb i (snd (fst r))) eqn:EI.
      + left. split; [eauto|]. split; [eauto|]. split; [exact BL|]. exists (snd (fst r)). split; [exact BB|]. destruct (id_eqb_spec i (snd (fst r))) as [EQI|]; [|discriminate EI]. rewrite <- EQI.
        intros k K. unfold es in S2. rewrite HE in S2. assert (k = i) as -> by (unfold es in K; rewrite HE in K; exact (is_lca_unique R K (is_lca_self S2))).
        rewrite Nat.min_id, Nat.sub_diag. intros u U. lia.
      + destruct (computes S1 S2) as [[C [k K]]|[C K]].
        * left. assert (FH : f_head (new_fork b ps) = i) by exact B1. assert (S2' : stored es (f_head (new_fork b ps))) by now rewrite FH.
          destruct (finish_cases HE R SM S1 S2') as [[_ [f' F]]|[N _]]; [|rewrite FH in N; contradiction].
          split; [exists f'; now rewrite UF|]. split; [exists k; now rewrite UL|]. split; [exact BL|]. exists (snd (fst r)). auto.
        * right. left. assert (FH : f_head (new_fork b ps) = i) by exact B1. assert (S2' : stored es (f_head (new_fork b ps))) by now rewrite FH.
          destruct (finish_cases HE R SM S1 S2') as [[N _]|[_ F]]; [rewrite FH in N; contradiction|].
          split; [now rewrite UF|]. split; [now rewrite UL|]. right. split; [exact BL|]. exists (snd (fst r)). auto.
    - right. right. destruct FB as (q & Q & E). destruct (SG q Q) as (b & Lb & W). destruct (block_cases HE R SM W) as [[x X]|[(_ & X & _)|(NS & X)]]; rewrite X in E; try discriminate.
      injection E as <-. split; [exact UF|]. split; [exact UL|]. exists b, (fst q). auto.
    - right. left. destruct FB as (q & Q & E). destruct (SG q Q) as (b & Lb & W). split; [exact UF|]. split; [exact UL|]. left. exists b, (fst q). auto.
    - exfalso. destruct FB as (q & Q & E). destruct (SG q Q) as (b & Lb & W). destruct (block_cases HE R SM W) as [[x X]|[(_ & X & _)|(NS & X)]]; rewrite X in E; discriminate.
  Qed.
End One.
