(** Lemmas about grouping of leashes, Forks, Fork, LCB, Stats, ForkGenerators and ActiveHeads. *)
From Verif Require Import Base Kv BytesFacts KvFacts ChainModel ChainSpec ChainTree ChainRep ChainStep ChainQueries ChainLca
  ChainProofs.
Set Implicit Arguments.
Unset Strict Implicit.

(** * Grouping *)

Lemma on_block_app : forall ls a i j, on_block (ls ++ [(a, i)]) j = on_block ls j ++ (if id_eqb i j then [a] else []).
Proof.
  intros. unfold on_block. rewrite filter_app, map_app. cbn [filter snd]. destruct (id_eqb i j); reflexivity.
Qed.
Lemma on_block_In : forall ls a i, In a (on_block ls i) <-> In (a, i) ls.
Proof.
  intros ls a i. unfold on_block. rewrite in_map_iff. split.
  - intros ([a' i'] & E & I). cbn in E. subst a'. apply filter_In in I as [I E]. cbn in E.
    destruct (id_eqb_spec i' i); [subst; auto|discriminate].
  - intros I. exists (a, i). split; auto. apply filter_In. split; auto. cbn. apply id_eqb_refl.
Qed.
Lemma on_block_NoDup : forall ls i, NoDup (map fst ls) -> NoDup (on_block ls i).
Proof.
  induction ls as [|[a j] ls IH]; intros i ND; [constructor|]. cbn [map fst] in ND. inversion ND; subst.
  unfold on_block. cbn [filter snd]. destruct (id_eqb j i); [|now apply IH]. cbn [map fst]. constructor; [|now apply IH].
  fold (on_block ls i). rewrite on_block_In. intros Q. apply H1. apply in_map_iff. exists (a, i). auto.
Qed.

Lemma group_add_keys : forall m i a j, In j (map fst (group_add m i a)) <-> j = i \/ In j (map fst m).
Proof.
  induction m as [|[k l] m IH]; intros i a j; cbn [group_add map fst In].
  - split; intros [H|[]]; auto.
  - destruct (id_eqb_spec i k) as [->|N]; cbn [map fst In]; [|rewrite IH]; split; intros; intuition (subst; auto).
Qed.
Lemma group_add_NoDup : forall m i a, NoDup (map fst m) -> NoDup (map fst (group_add m i a)).
Proof.
  induction m as [|[k l] m IH]; intros i a ND; cbn [group_add map fst] in *.
  - repeat constructor. auto.
  - inversion ND; subst. destruct (id_eqb_spec i k) as [->|N]; cbn [map fst]; constructor; auto.
    rewrite group_add_keys. intros [E|E]; [congruence|contradiction].
Qed.
Lemma group_add_In : forall m i a j ps, NoDup (map fst m) -> In (j, ps) (group_add m i a) ->
  (j <> i /\ In (j, ps) m) \/
  (j = i /\ ((exists ps0, In (i, ps0) m /\ ps = ps0 ++ [a]) \/ (~ In i (map fst m) /\ ps = [a]))).
Proof.
  induction m as [|[k l] m IH]; intros i a j ps ND I; cbn [group_add map fst In] in *.
  - destruct I as [I|[]]. injection I as <- <-. right. split; auto.
  - inversion ND; subst. destruct (id_eqb_spec i k) as [->|N].
    + destruct I as [I|I].
      * injection I as <- <-. right. split; auto. left. exists l. auto.
      * left. split; auto. intros ->. apply H1. apply in_map_iff. exists (k, ps). auto.
    + destruct I as [I|I].
      * injection I as <- <-. left. split; auto.
      * destruct (IH _ _ _ _ H2 I) as [[A B]|[A [(ps0 & B & C)|[B C]]]].
        -- left. auto.
        -- right. split; auto. left. exists ps0. auto.
        -- right. split; auto. right. split; auto. intros [Q|Q]; [congruence|contradiction].
Qed.

Definition grouped (ls : list (addr * id)) (m : list group) : Prop :=
  NoDup (map fst m) /\ (forall i, In i (map fst m) <-> In i (map snd ls)) /\
  (forall i ps, In (i, ps) m -> ps = on_block ls i).

Lemma grouped_add : forall ls m a i, grouped ls m -> grouped (ls ++ [(a, i)]) (group_add m i a).
Proof.
  intros ls m a i (ND & K & P). split; [now apply group_add_NoDup|]. split.
  - intros j. rewrite group_add_keys, K, map_app, in_app_iff. cbn. intuition.
  - intros j ps I. rewrite on_block_app. apply group_add_In in I as [[N I]|[-> [(ps0 & I & ->)|[I ->]]]]; auto.
    + destruct (id_eqb_spec i j); [congruence|]. rewrite app_nil_r. auto.
    + rewrite id_eqb_refl. f_equal. auto.
    + rewrite id_eqb_refl. replace (on_block ls i) with (@nil addr); auto.
      symmetry. destruct (on_block ls i) as [|x xs] eqn:E; auto. exfalso. apply I, K.
      assert (Q : In x (on_block ls i)) by (rewrite E; now left). apply on_block_In in Q. apply in_map_iff. exists (x, i). auto.
Qed.
Lemma grouped_leashes : forall ls, grouped ls (group_leashes ls).
Proof.
  intros ls. unfold group_leashes. rewrite <- (app_nil_l ls) at 1.
  assert (Q : forall ls pre m, grouped pre m ->
     grouped (pre ++ ls) (fold_left (fun m (e : addr * id) => group_add m (snd e) (fst e)) ls m)).
  { clear. induction ls as [|[a i] ls IH]; intros pre m G; cbn [fold_left]; [now rewrite app_nil_r|].
    replace (pre ++ (a, i) :: ls) with ((pre ++ [(a, i)]) ++ ls) by (now rewrite <- app_assoc).
    apply IH. cbn [fst snd]. now apply grouped_add. }
  apply Q. split; [constructor|]. split; [reflexivity|]. intros i ps [].
Qed.
Lemma grouped_perm : forall ls m m', grouped ls m -> Permutation m' m -> grouped ls m'.
Proof.
  intros ls m m' (ND & K & P) PM. split; [|split].
  - eapply Permutation_NoDup; [apply Permutation_map, Permutation_sym, PM|exact ND].
  - intros i. rewrite <- K. split; intros I; eapply Permutation_in; try exact I; apply Permutation_map; auto.
    now apply Permutation_sym.
  - intros i ps I. apply P. eapply Permutation_in; eauto.
Qed.
Lemma grouped_nonempty : forall ls m i ps, grouped ls m -> In (i, ps) m -> 1 <= length ps.
Proof.
  intros ls m i ps (ND & K & P) I. rewrite (P _ _ I).
  assert (Q : In i (map snd ls)) by (apply K, in_map_iff; exists (i, ps); auto).
  apply in_map_iff in Q as ([a j] & E & Q). cbn in E. subst j. apply on_block_In in Q.
  destruct (on_block ls i); [destruct Q|cbn; lia].
Qed.

Lemma mapM_In : forall A B (f : A -> outcome B) l r, mapM f l = Ok r -> forall y, In y r -> exists x, In x l /\ f x = Ok y.
Proof.
  intros A B f l r H. apply mapM_Ok_inv in H. induction H as [|x y l r XY H IH]; intros z I; [destruct I|].
  destruct I as [<-|I]; [exists x; cbn; auto|]. destruct (IH _ I) as (x' & I' & E). exists x'. cbn. auto.
Qed.
Lemma mapM_map : forall A B C (f : A -> outcome B) (p : A -> C) (q : B -> C) l r, mapM f l = Ok r ->
  (forall x y, In x l -> f x = Ok y -> q y = p x) -> map q r = map p l.
Proof.
  intros A B C f p q l r H. apply mapM_Ok_inv in H. induction H as [|x y l r XY H IH]; intros Q; auto.
  cbn [map]. rewrite (Q x y) by (cbn; auto). f_equal. apply IH. intros. apply Q; cbn; auto.
Qed.

Lemma anc_from : forall es i j, anc es i j -> stored es i.
Proof.
  intros es i j A. unfold anc, chain_ids in A. destruct (chain es i) as [|e c] eqn:C; [destruct A|]. eapply stored_chain, C.
Qed.

(** * The view of forks *)
Section Forks.
  Variables (l : linkage) (s : state).
  Hypothesis R : Rep (lk_db l) s.
  Hypothesis SM : small (st_blocks s).
  Notation es := (st_blocks s).

  Lemma leashes_view : exists ls, leashes (lk_db l) = Ok ls /\ NoDup (map fst ls) /\
    (forall a i, In (a, i) ls -> wf_id i) /\ (forall a i, In (a, i) ls <-> leashed l a i).
  Proof.
    destruct (q_leashes R) as (ls & E & ND & I & _). exists ls. split; auto. split; auto. split.
    - intros a i Q. apply I in Q as (_ & Q & _). eapply (R_leash_wf R), Q.
    - intros a i. rewrite I. unfold leashed. split.
      + intros (W & L & N). rewrite (v_has_leash R W), (v_leash R W), L. auto.
      + intros (W & N & HL & L). rewrite (v_has_leash R W) in HL. rewrite (v_leash R W) in L.
        destruct (st_leash s a); [|discriminate]. split; auto. split; auto. congruence.
  Qed.

  Lemma block_facts : forall i b, wf_id i -> block l i = Ok b ->
    b_id b = i /\ b_score b = score es i /\ b_height b = N.of_nat (height es i) /\ stored es i.
  Proof.
    intros i b W H. destruct (v_block_Ok R SM W H) as (e & c & C & T & ->). cbn [block_of b_id b_score b_height].
    unfold score, height. rewrite C. split; [eapply chain_hd_id, C|]. split; [reflexivity|]. split; [reflexivity|].
    eapply stored_chain, C.
  Qed.
  Lemma height_pos : forall i, stored es i -> 1 <= height es i.
  Proof. intros i S. destruct (chain_hd S) as (e & c & C & _). unfold height. rewrite C. cbn. lia. Qed.

  Lemma lca_view : forall i j k, wf_id i -> wf_id j -> lca (lk_db l) i j = Ok k -> is_lca es i j k.
  Proof.
    intros i j k WI WJ E.
    destruct (stored_dec es i) as [SI|SI]; [|rewrite (lca_missing R SM WI WJ) in E by auto; discriminate].
    destruct (stored_dec es j) as [SJ|SJ]; [|rewrite (lca_missing R SM WI WJ) in E by auto; discriminate].
    destruct (lca_total R SM SI SJ) as (k' & D & L & _ & V). rewrite V in E.
    destruct (Nat.eqb D 0 || _); [|discriminate]. injection E as <-. exact L.
  Qed.
  Lemma lca_heights : forall i j k, is_lca es i j k -> 1 <= height es k <= height es j.
  Proof.
    intros i j k (A & B & _). assert (S := anc_stored _ _ _ B). split; [now apply height_pos|].
    apply (anc_height R B).
  Qed.

  Lemma finish_view : forall lg f f', wf_id lg -> wf_id (f_head f) -> finish_fork (lk_db l) lg f = Ok f' ->
    f' = set_lcb f (f_lcb f') (f_length f') /\
    is_lca es lg (f_head f) (f_lcb f') /\ f_length f' = (f_length f - Z.of_nat (height es (f_lcb f')))%Z.
  Proof.
    intros lg f f' W1 W2 H. unfold finish_fork in H.
    destruct (lca (lk_db l) lg (f_head f)) as [k| | |] eqn:E; try discriminate. cbn [bind] in H.
    assert (L := lca_view W1 W2 E). assert (S := anc_stored _ _ _ (proj1 L)).
    destruct (chain_hd S) as (e & c & C & _). rewrite (rep_block_by_id R SM _ C) in H. cbn [bind sblock_of sb_height] in H.
    injection H as <-. cbn [set_lcb f_lcb f_length]. split; [reflexivity|]. split; auto. unfold height. rewrite C. cbn [length]. lia.
  Qed.

  (** ** Forks *)
  Lemma forks_view : forall ord srt peers fs ls, map_order ord -> sorts fork_less srt -> leashes (lk_db l) = Ok ls ->
    forks ord srt l peers = Ok fs ->
    let sel := filter (fun e => selected peers (fst e)) ls in
    NoDup (map f_head fs) /\ (forall i, In i (map f_head fs) <-> In i (map snd sel)) /\
    StronglySorted fork_ge fs /\
    (forall f, In f fs -> f_peers f = on_block sel (f_head f) /\ f_peers_count f = length (f_peers f) /\ describes l f) /\
    exists f0 rest, fs = f0 :: rest /\ f_longest f0 = true /\ (forall f, In f rest -> f_longest f = false) /\
      (forall f, In f fs -> is_lca es (f_head f0) (f_head f) (f_lcb f) /\
         f_length f = (Z.of_N (f_height f) - Z.of_nat (height es (f_lcb f)))%Z /\ (0 <= f_length f)%Z) /\
      f_length f0 = 0%Z.
  Proof.
    intros ord srt peers fs ls OM SS LS H. cbv zeta. unfold forks in H. rewrite LS in H. cbn [bind] in H.
    destruct leashes_view as (ls' & LS' & _ & WFI & _). rewrite LS in LS'. injection LS' as <-.
    set (sel := filter (fun e => selected peers (fst e)) ls) in *.
    assert (G : grouped sel (ord (group_leashes sel))) by (eapply grouped_perm; [apply grouped_leashes|apply OM]).
    set (m := ord (group_leashes sel)) in *.
    assert (WM : forall g, In g m -> wf_id (fst g)).
    { intros [i ps] I. destruct G as (_ & K & _).
      assert (Q : In i (map snd sel)) by (apply K, in_map_iff; exists (i, ps); auto).
      apply in_map_iff in Q as ([a j] & E & Q). cbn in E. subst j. apply filter_In in Q as [Q _]. eapply WFI, Q. }
    destruct (mapM (fun g => do b <- block l (fst g); Ok (new_fork b (snd g))) m) as [r| | |] eqn:MR; try discriminate.
    cbn [bind] in H.
    assert (PRE : forall g f, In g m -> (do b <- block l (fst g); Ok (new_fork b (snd g))) = Ok f ->
       f_head f = fst g /\ f_peers f = snd g /\ f_peers_count f = length (f_peers f) /\ describes l f /\ f_longest f = false /\
       f_length f = Z.of_N (f_height f) /\ f_height f = N.of_nat (height es (f_head f))).
    { intros g f I E. destruct (block l (fst g)) as [b| | |] eqn:B; try discriminate. cbn [bind] in E. injection E as <-.
      destruct (block_facts (WM _ I) B) as (B1 & B2 & B3 & B4).
      cbn [new_fork f_head f_peers f_peers_count f_longest f_length f_height]. split; [exact B1|].
      split; [reflexivity|]. split; [reflexivity|]. split; [|split; [reflexivity|split; [reflexivity|congruence]]].
      exists b. cbn [new_fork f_head]. rewrite B1. auto. }
    assert (HR : map f_head r = map fst m).
    { eapply mapM_map; [exact MR|]. intros g f I E. exact (proj1 (PRE _ _ I E)). }
    assert (INR : forall f, In f r -> exists g, In g m /\ (do b <- block l (fst g); Ok (new_fork b (snd g))) = Ok f).
    { intros f I. eapply mapM_In; eauto. }
    destruct (SS r) as [PR SR]. destruct (srt r) as [|f0 rest] eqn:SRT; [discriminate|].
    set (sr := f0 :: rest) in *.
    assert (INS : forall f, In f sr -> exists g, In g m /\ (do b <- block l (fst g); Ok (new_fork b (snd g))) = Ok f).
    { intros f I. apply INR. eapply Permutation_in; eauto. }
    assert (WS : forall f, In f sr -> wf_id (f_head f)).
    { intros f I. destruct (INS _ I) as (g & IG & E). rewrite (proj1 (PRE _ _ IG E)). auto. }
    assert (W0 : wf_id (f_head f0)) by (apply WS; now left).
    assert (FIN : forall x y, In x (set_longest f0 :: rest) -> finish_fork (lk_db l) (f_head f0) x = Ok y ->
       y = set_lcb x (f_lcb y) (f_length y) /\ is_lca es (f_head f0) (f_head x) (f_lcb y) /\
       f_length y = (f_length x - Z.of_nat (height es (f_lcb y)))%Z).
    { intros x y I E. apply finish_view; auto. destruct I as [<-|I]; [exact W0|]. apply WS. now right. }
    assert (MAPQ : forall C (q : Fork -> C), (forall f i n, q (set_lcb f i n) = q f) -> map q fs = map q (set_longest f0 :: rest)).
    { intros C q Q. eapply mapM_map; [exact H|]. intros x y I E. destruct (FIN _ _ I E) as (-> & _). apply Q. }
    assert (MAPR : forall C (q : Fork -> C), (forall f i n, q (set_lcb f i n) = q f) -> (forall f, q (set_longest f) = q f) ->
       map q fs = map q sr).
    { intros C q Q1 Q2. rewrite (MAPQ C q Q1). unfold sr. cbn [map]. now rewrite Q2. }
    assert (HF : map f_head fs = map f_head sr) by (apply MAPR; reflexivity).
    assert (PH : Permutation (map f_head fs) (map fst m)).
    { rewrite HF, <- HR. apply Permutation_map, PR. }
    destruct G as (GND & GK & GP).
    split. { eapply Permutation_NoDup; [apply Permutation_sym, PH|exact GND]. }
    split. { intros i. rewrite <- GK. split; intros I; eapply Permutation_in; try exact I; auto. now apply Permutation_sym. }
    assert (ELT : forall f, In f fs -> exists x, In x sr /\ f_head f = f_head x /\ f_peers f = f_peers x /\
       f_peers_count f = f_peers_count x /\ f_height f = f_height x /\ f_score f = f_score x /\ f_gen f = f_gen x /\
       f_ts f = f_ts x /\ is_lca es (f_head f0) (f_head f) (f_lcb f) /\
       f_length f = (f_length x - Z.of_nat (height es (f_lcb f)))%Z).
    { intros f I. destruct (mapM_In H I) as (x & IX & E). destruct (FIN _ _ IX E) as (-> & L & LN).
      destruct IX as [<-|IX].
      - exists f0. split; [now left|]. cbn in *. repeat (split; [reflexivity|]). auto.
      - exists x. split; [now right|]. cbn in *. repeat (split; [reflexivity|]). auto. }
    split.
    { (* order *)
      assert (KEY : map (fun f => (f_score f, f_peers f)) fs = map (fun f => (f_score f, f_peers f)) sr)
        by (apply MAPR; reflexivity).
      clear - KEY SR. revert KEY. generalize dependent sr. induction fs as [|f fs IH]; intros sr SR KEY; [constructor|].
      destruct sr as [|x sr]; [discriminate|]. cbn [map] in KEY. injection KEY as K1 K2 K3. inversion SR; subst.
      constructor; [eapply IH; eauto|]. apply Forall_forall. intros f' I'.
      assert (X : exists x', In x' sr /\ f_score f' = f_score x' /\ f_peers f' = f_peers x').
      { apply (in_map (fun f => (f_score f, f_peers f))) in I'. rewrite K3 in I'.
        apply in_map_iff in I' as (x' & E & I'). injection E as E1 E2. exists x'. auto. }
      destruct X as (x' & IX & E1 & E2). rewrite Forall_forall in H2. specialize (H2 _ IX).
      unfold fork_less in H2. unfold fork_ge. rewrite K1, K2, E1, E2.
      destruct (Z.compare_spec (f_score x') (f_score x)); [right; split; [lia|]|left; lia|discriminate].
      destruct (Nat.ltb_spec (length (f_peers x)) (length (f_peers x'))); [discriminate|lia]. }
    split.
    { intros f I. destruct (ELT _ I) as (x & IX & E1 & E2 & E3 & E4 & E5 & E6 & E7 & _).
      destruct (INS _ IX) as ([i ps] & IG & E). destruct (PRE _ _ IG E) as (P1 & P2 & P3 & P4 & _). cbn [fst snd] in *.
      rewrite E2, E3, P2, E1, P1. split; [now apply GP|]. split; [congruence|].
      destruct P4 as (b & B & B1 & B2 & B3 & B4). exists b. rewrite E1, E4, E5, E6, E7. auto. }
    assert (LG : map f_longest fs = true :: map (fun _ => false) rest).
    { rewrite (MAPQ bool f_longest) by reflexivity. cbn [map set_longest f_longest]. f_equal.
      apply map_ext_in. intros f I. destruct (INS f) as (g & IG & E); [now right|]. apply (PRE _ _ IG E). }
    destruct fs as [|h0 hs]; [discriminate|]. exists h0, hs. split; [reflexivity|].
    cbn [map] in LG. injection LG as LG1 LG2. split; [exact LG1|]. split.
    { intros f I. apply (in_map f_longest) in I. rewrite LG2 in I. apply in_map_iff in I as (? & E & _). congruence. }
    assert (H0 : f_head h0 = f_head f0). { unfold sr in HF. cbn [map] in HF. congruence. }
    assert (LEN : forall f, In f (h0 :: hs) -> is_lca es (f_head h0) (f_head f) (f_lcb f) /\
       f_length f = (Z.of_N (f_height f) - Z.of_nat (height es (f_lcb f)))%Z /\ (0 <= f_length f)%Z).
    { intros f I. destruct (ELT _ I) as (x & IX & E1 & _ & _ & E4 & _ & _ & _ & L & LN).
      destruct (INS _ IX) as (g & IG & E). destruct (PRE _ _ IG E) as (_ & _ & _ & _ & _ & P6 & P7).
      rewrite H0. split; [exact L|]. rewrite P6 in LN. rewrite E4. split; [exact LN|].
      apply lca_heights in L. rewrite E1 in L. rewrite LN, P7. lia. }
    split; [exact LEN|].
    assert (I0 : In h0 (h0 :: hs)) by now left.
    destruct (LEN _ I0) as (L & LN & _). destruct (ELT _ I0) as (x & IX & E1 & _ & _ & E4 & _).
    destruct (INS _ IX) as (g & IG & E). destruct (PRE _ _ IG E) as (_ & _ & _ & _ & _ & _ & P7).
    assert (f_lcb h0 = f_head h0).
    { destruct L as (A & _ & M). apply (anc_antisym R).
      - apply M; apply anc_refl; eapply anc_from, A.
      - exact A. }
    rewrite LN, H1, E4, P7, E1. lia.
  Qed.

  (** ** The longest fork *)
  Definition lex_le (x y : Z * nat) : Prop := (fst x < fst y)%Z \/ (fst x = fst y /\ snd x <= snd y).
  Lemma lex_trans : forall x y z, lex_le x y -> lex_le y z -> lex_le x z.
  Proof. unfold lex_le. intros. lia. Qed.
  Lemma lex_refl : forall x, lex_le x x.
  Proof. unfold lex_le. intros. lia. Qed.

  Lemma longest_view : forall m acc r, (forall g, In g m -> wf_id (fst g)) -> longest_loop l m acc = Ok r ->
    (r = acc \/ exists g, In g m /\ r = (score es (fst g), length (snd g), fst g)) /\
    lex_le (fst acc) (fst r) /\ (forall g, In g m -> lex_le (score es (fst g), length (snd g)) (fst r)) /\
    (forall g, In g m -> stored es (fst g)).
  Proof.
    induction m as [|g m IH]; intros acc r W H; cbn [longest_loop] in H.
    - injection H as <-. split; auto. split; [apply lex_refl|]. split; intros g [].
    - destruct (block l (fst g)) as [b| | |] eqn:B; try discriminate. cbn [bind] in H.
      destruct (block_facts (W g (or_introl eq_refl)) B) as (B1 & B2 & B3 & B4).
      destruct (IH _ _ (fun g' I => W g' (or_intror I)) H) as (A1 & A2 & A3 & A4). rewrite B2 in *.
      set (acc' := longest_step acc (score es (fst g)) g) in *.
      assert (Q : (acc' = acc \/ acc' = (score es (fst g), length (snd g), fst g)) /\ lex_le (fst acc) (fst acc') /\
                  lex_le (score es (fst g), length (snd g)) (fst acc')).
      { unfold acc', longest_step. destruct acc as [[s0 p0] lg0].
        destruct (Z.compare_spec s0 (score es (fst g))) as [E|E|E];
          [destruct (Nat.ltb_spec p0 (length (snd g)))| |]; unfold lex_le; cbn [fst snd];
          (split; [auto|]); split; try lia. }
      destruct Q as (Q1 & Q2 & Q3). split; [|split; [eapply lex_trans; eauto|split]].
      + destruct A1 as [->|(g' & I & ->)]; [|right; exists g'; cbn; auto].
        destruct Q1 as [->| ->]; auto. right. exists g. cbn; auto.
      + intros g' [<-|I]; [eapply lex_trans; eauto|auto].
      + intros g' [<-|I]; auto.
  Qed.

  Hypothesis NN : forall i, (0 <= score es i)%Z.

  Lemma longest_best : forall ls m r, grouped ls m -> (forall a i, In (a, i) ls -> wf_id i) ->
    longest_loop l m (0%Z, 0, zero_id) = Ok r -> (forall i, In i (map snd ls) -> stored es i) /\
    ((ls = [] /\ snd r = zero_id) \/ is_best es ls (snd r)).
  Proof.
    intros ls m r G W H.
    assert (WM : forall g, In g m -> wf_id (fst g)).
    { intros [i ps] I. destruct G as (_ & K & _).
      assert (Q : In i (map snd ls)) by (apply K, in_map_iff; exists (i, ps); auto).
      apply in_map_iff in Q as ([a j] & E & Q). cbn in E. subst j. eapply W, Q. }
    destruct (longest_view WM H) as (A1 & A2 & A3 & A4).
    split. { intros i I. apply (proj1 (proj2 G)) in I. apply in_map_iff in I as (g & <- & I). auto. }
    assert (GE := fun i ps => grouped_nonempty (i := i) (ps := ps) G). destruct G as (ND & K & P).
    destruct A1 as [->|([i ps] & I & ->)].
    - left. destruct m as [|[i ps] m].
      + cbn [snd]. split; auto. destruct ls as [|[a j] ls]; auto. exfalso. cbn in K. apply (K j). auto.
      + exfalso. assert (I : In (i, ps) ((i, ps) :: m)) by now left. specialize (A3 _ I). specialize (GE _ _ I).
        assert (NNi := @NN i). unfold lex_le in A3. cbn [fst snd] in A3. lia.
    - right. cbn [fst snd] in *. split. { apply K, in_map_iff. exists (i, ps). auto. }
      intros j J. apply K in J. apply in_map_iff in J as ([j' ps'] & E & J). cbn in E. subst j'.
      specialize (A3 _ J). unfold lex_le in A3. cbn [fst snd] in A3.
      rewrite <- (P _ _ I), <- (P _ _ J). exact A3.
  Qed.

  Lemma head_wf : forall (ls : list (addr * id)) i, (forall a i, In (a, i) ls -> wf_id i) -> In i (map snd ls) -> wf_id i.
  Proof. intros ls i W I. apply in_map_iff in I as ([a j] & E & Q). cbn in E. subst j. eapply W, Q. Qed.
  Lemma is_lca_self : forall i, stored es i -> is_lca es i i i.
  Proof. intros i S. split; [now apply anc_refl|]. split; [now apply anc_refl|]. auto. Qed.

  (** ** LCB *)
  Lemma lcb_view : forall ord a i k ls, map_order ord -> leashes (lk_db l) = Ok ls -> In (a, i) ls ->
    lcb ord l a = Ok k -> exists lg, is_best es ls lg /\ is_lca es lg i k.
  Proof.
    intros ord a i k ls OM LS I H.
    destruct leashes_view as (ls' & LS' & ND & WFI & EQ). rewrite LS in LS'. injection LS' as <-.
    assert (L := proj1 (EQ _ _) I). destruct L as (WA & NA & HL & LA).
    unfold lcb in H. rewrite (rep_leash R _ WA) in H. rewrite (v_has_leash R WA) in HL. rewrite (v_leash R WA) in LA.
    destruct (st_leash s a) as [i'|]; [|discriminate]. injection LA as ->. rewrite LS in H. cbn [bind] in H.
    assert (G : grouped ls (ord (group_leashes ls))) by (eapply grouped_perm; [apply grouped_leashes|apply OM]).
    destruct (longest_loop l (ord (group_leashes ls)) (0%Z, 0, zero_id)) as [r| | |] eqn:LL; try discriminate. cbn [bind] in H.
    destruct (longest_best G WFI LL) as (ST & [[-> _]|B]); [destruct I|].
    exists (snd r). split; [exact B|]. assert (II : In i (map snd ls)) by (apply in_map_iff; exists (a, i); auto).
    destruct (id_eqb_spec i (snd r)) as [E|E].
    - injection H as <-. rewrite <- E. apply is_lca_self. auto.
    - apply lca_view; auto; [eapply head_wf; [exact WFI|apply (proj1 B)]|eapply WFI, I].
  Qed.
  Lemma lcb_none : forall ord a, wf_addr a -> has_leash l a = Ok false -> lcb ord l a = Ok (lk_genesis l).
  Proof.
    intros ord a W H. unfold lcb. rewrite (rep_leash R _ W). rewrite (v_has_leash R W) in H.
    destruct (st_leash s a); [discriminate|reflexivity].
  Qed.

  (** ** Fork *)
  Lemma fork_eq : forall f g, f_longest f = f_longest g -> f_head f = f_head g -> f_ts f = f_ts g -> f_gen f = f_gen g ->
    f_height f = f_height g -> f_score f = f_score g -> f_peers_count f = f_peers_count g -> f_peers f = f_peers g ->
    f_lcb f = f_lcb g -> f_length f = f_length g -> f = g.
  Proof. intros [] []; cbn; intros; subst; reflexivity. Qed.
  Lemma fork_loop_split : forall peer m acc f r, fork_loop l peer m acc f = Ok r -> longest_loop l m acc = Ok (fst r).
  Proof.
    induction m as [|g m IH]; intros acc f r H; cbn [fork_loop longest_loop] in *; [now injection H as <-|].
    destruct (block l (fst g)); try discriminate. cbn [bind] in *. eapply IH, H.
  Qed.
  Lemma fork_loop_keeps : forall peer m acc f r, fork_loop l peer m acc f = Ok r ->
    (forall g, In g m -> ~ In peer (snd g)) -> snd r = f.
  Proof.
    induction m as [|g m IH]; intros acc f r H N; cbn [fork_loop] in *; [now injection H as <-|].
    destruct (block l (fst g)); try discriminate. cbn [bind] in *. apply IH in H; [|intros; apply N; now right].
    rewrite H. destruct (existsb (addr_eqb peer) (snd g)) eqn:E; auto.
    apply existsb_exists in E as (x & I & E). apply addr_eqb_eq in E. subst x. exfalso. apply (N g); cbn; auto.
  Qed.
  Lemma fork_loop_finds : forall peer m acc f r i ps, fork_loop l peer m acc f = Ok r -> NoDup (map fst m) ->
    In (i, ps) m -> In peer ps -> (forall g, In g m -> In peer (snd g) -> fst g = i) ->
    exists b, block l i = Ok b /\ snd r = new_fork b ps.
  Proof.
    induction m as [|g m IH]; intros acc f r i ps H ND I IP U; [destruct I|].
    cbn [fork_loop] in H. destruct (block l (fst g)) as [b| | |] eqn:B; try discriminate. cbn [bind] in H.
    cbn [map] in ND. inversion ND; subst. destruct I as [->|I].
    - cbn [fst snd] in *. exists b. split; auto. apply fork_loop_keeps in H.
      + rewrite H. replace (existsb (addr_eqb peer) ps) with true; auto. symmetry. apply existsb_exists. exists peer.
        split; auto. now apply addr_eqb_eq.
      + intros g I Q. apply H2. assert (E : fst g = i) by (apply U; auto; now right). rewrite <- E. now apply in_map.
    - eapply IH; eauto. intros. apply U; auto. now right.
  Qed.

  Lemma fork_view : forall ord a i f ls, map_order ord -> leashes (lk_db l) = Ok ls -> In (a, i) ls ->
    fork_of ord l a = Ok f ->
    exists lg, is_best es ls lg /\ f_head f = i /\ f_peers f = on_block ls i /\ f_peers_count f = length (f_peers f) /\
      describes l f /\ (f_longest f = true <-> i = lg) /\ is_lca es lg i (f_lcb f) /\
      f_length f = (Z.of_N (f_height f) - Z.of_nat (height es (f_lcb f)))%Z /\ (0 <= f_length f)%Z.
  Proof.
    intros ord a i f ls OM LS I H.
    destruct leashes_view as (ls' & LS' & ND & WFI & EQ). rewrite LS in LS'. injection LS' as <-.
    unfold fork_of in H. rewrite LS in H. cbn [bind] in H.
    assert (G : grouped ls (ord (group_leashes ls))) by (eapply grouped_perm; [apply grouped_leashes|apply OM]).
    destruct (fork_loop l a (ord (group_leashes ls)) (0%Z, 0, zero_id) zero_fork) as [r| | |] eqn:FL; try discriminate.
    cbn [bind] in H. assert (LL := fork_loop_split FL).
    destruct (longest_best G WFI LL) as (ST & [[-> _]|B]); [destruct I|].
    destruct G as (GND & GK & GP).
    assert (II : In i (map snd ls)) by (apply in_map_iff; exists (a, i); auto).
    assert (GI : exists ps, In (i, ps) (ord (group_leashes ls))).
    { apply GK in II. apply in_map_iff in II as ([j ps] & E & Q). cbn in E. subst j. eauto. }
    destruct GI as [ps GI]. assert (PS := GP _ _ GI).
    assert (FF : exists b, block l i = Ok b /\ snd r = new_fork b ps).
    { eapply fork_loop_finds; eauto.
      - rewrite PS. now apply on_block_In.
      - intros [j ps'] IJ IP. cbn [fst snd] in *. rewrite (GP _ _ IJ) in IP. apply on_block_In in IP.
        assert (Q := proj1 (EQ _ _) IP). assert (Q' := proj1 (EQ _ _) I). unfold leashed in Q, Q'.
        destruct Q as (_ & _ & _ & Q), Q' as (_ & _ & _ & Q'). congruence. }
    destruct FF as (b & BI & SR). rewrite SR in H.
    assert (WI : wf_id i) by (eapply WFI, I).
    destruct (block_facts WI BI) as (B1 & B2 & B3 & B4).
    exists (snd (fst r)). split; [exact B|].
    assert (DSC : forall f', f_head f' = i -> f_height f' = b_height b -> f_score f' = b_score b -> f_gen f' = b_gen b ->
       f_ts f' = b_ts b -> describes l f').
    { intros f' E1 E2 E3 E4 E5. exists b. rewrite E1. auto. }
    cbn [new_fork f_head] in H. destruct (id_eqb_spec (b_id b) (snd (fst r))) as [E|E].
    - injection H as <-. cbn [set_length set_longest new_fork f_head f_peers f_peers_count f_longest f_lcb f_length f_height] in *.
      split; [exact B1|]. split; [exact PS|]. split; [reflexivity|]. split; [apply DSC; try reflexivity; exact B1|].
      split; [split; [intros _; congruence|reflexivity]|]. rewrite B1 in *. rewrite <- E.
      split; [now apply is_lca_self|]. split; [|lia]. rewrite B3. lia.
    - apply finish_view in H; [|eapply head_wf; [exact WFI|apply (proj1 B)]|cbn [new_fork f_head]; congruence].
      destruct H as (F & L & LN). cbn [new_fork f_head f_length] in *. rewrite B1 in *.
      assert (HE := lca_heights L).
      rewrite F. cbn [set_lcb new_fork f_head f_peers f_peers_count f_longest f_lcb f_length f_height].
      split; [exact B1|]. split; [exact PS|]. split; [reflexivity|]. split; [apply DSC; try reflexivity; exact B1|].
      split; [split; [discriminate|congruence]|]. split; [exact L|]. split; [exact LN|]. rewrite LN, B3. lia.
  Qed.

  Lemma selected_all : forall ls : list (addr * id), filter (fun e => selected [] (fst e)) ls = ls.
  Proof. induction ls as [|e ls IH]; cbn; [reflexivity|]. f_equal. exact IH. Qed.

  (** The first fork is a best block. *)
  Lemma forks_best : forall ord srt peers fs ls f0 rest, map_order ord -> sorts fork_less srt -> leashes (lk_db l) = Ok ls ->
    forks ord srt l peers = Ok fs -> fs = f0 :: rest ->
    is_best es (filter (fun e => selected peers (fst e)) ls) (f_head f0).
  Proof.
    intros ord srt peers fs ls f0 rest OM SS LS H E.
    destruct (forks_view OM SS LS H) as (ND & K & SO & EL & _). cbv zeta in *.
    destruct leashes_view as (ls' & LS' & _ & WFI & _). rewrite LS in LS'. injection LS' as <-.
    set (sel := filter (fun e => selected peers (fst e)) ls) in *.
    assert (WS : forall f, In f fs -> wf_id (f_head f)).
    { intros f I. apply (in_map f_head) in I. apply K in I. eapply head_wf; [|exact I].
      intros a i Q. apply filter_In in Q as [Q _]. eapply WFI, Q. }
    assert (SC : forall f, In f fs -> f_score f = score es (f_head f) /\ f_peers f = on_block sel (f_head f)).
    { intros f I. destruct (EL _ I) as (P & _ & b & B & _ & S & _). split; auto. rewrite S. now apply (block_facts (WS _ I) B). }
    split. { apply K. rewrite E. now left. }
    intros j J. apply K in J. apply in_map_iff in J as (f & <- & I).
    assert (GE : fork_ge f0 f).
    { rewrite E in I. destruct I as [<-|I]; [right; split; [reflexivity|lia]|]. rewrite E in SO. inversion SO; subst.
      rewrite Forall_forall in H3. now apply H3. }
    destruct (SC f I) as [S1 P1]. destruct (SC f0) as [S0 P0]; [rewrite E; now left|].
    unfold fork_ge in GE. rewrite S1, S0, P1, P0 in GE. destruct GE as [GE|[GE1 GE2]]; [left; exact GE|right; split; [symmetry; exact GE1|exact GE2]].
  Qed.

  Lemma fork_in_forks : forall ord ord' srt a i f fs ls, map_order ord -> map_order ord' -> sorts fork_less srt ->
    leashes (lk_db l) = Ok ls -> In (a, i) ls ->
    (forall x y, is_best es ls x -> is_best es ls y -> x = y) ->
    fork_of ord l a = Ok f -> forks ord' srt l [] = Ok fs -> In f fs.
  Proof.
    intros ord ord' srt a i f fs ls OM OM' SS LS I U HF HS.
    destruct (fork_view OM LS I HF) as (lg & B & F1 & F2 & F3 & F4 & F5 & F6 & F7 & _).
    destruct (forks_view OM' SS LS HS) as (ND & K & SO & EL & f0 & rest & E & L0 & LR & LN & Z0). cbv zeta in *.
    rewrite selected_all in *.
    assert (B0 := forks_best OM' SS LS HS E). rewrite selected_all in B0. assert (E0 := U _ _ B B0). subst lg.
    assert (II : In i (map f_head fs)) by (apply K, in_map_iff; exists (a, i); auto).
    apply in_map_iff in II as (f' & E1 & I'). replace f with f'; auto.
    destruct (EL _ I') as (P1 & P2 & D). destruct (LN _ I') as (LC & LE & _).
    assert (LG : f_longest f' = true <-> i = f_head f0).
    { rewrite E in I', ND. destruct I' as [<-|I']; [split; auto; congruence|].
      rewrite (LR _ I'). split; [discriminate|]. intros Q. exfalso. cbn [map] in ND. apply NoDup_cons_iff in ND as [ND _]. apply ND.
      rewrite <- Q, <- E1. apply in_map. exact I'. }
    assert (CB : f_lcb f' = f_lcb f) by (rewrite E1 in LC; eapply (is_lca_unique R); eauto).
    destruct D as (b & D1 & D2 & D3 & D4 & D5). destruct F4 as (b' & D1' & D2' & D3' & D4' & D5').
    rewrite E1 in D1. rewrite F1 in D1'. assert (b' = b) by congruence. subst b'.
    assert (LGE : f_longest f' = f_longest f) by (apply eq_true_iff_eq; tauto).
    assert (PE : f_peers f' = f_peers f) by congruence.
    apply fork_eq; congruence.
  Qed.

  (** ** Stats *)
  Lemma stats_view : forall ord srt r, stats ord srt l = Ok r -> exists fs, forks ord srt l [] = Ok fs /\
    snd r = length (filter (fun f => (5 <? f_length f)%Z) fs) /\ fst r + snd r = length fs.
  Proof.
    intros ord srt r H. unfold stats in H. destruct (forks ord srt l []) as [fs| | |]; try discriminate. cbn [bind] in H.
    injection H as <-. exists fs. split; auto.
    assert (Q : forall fs x, let r := fold_left (fun (r : nat * nat) f =>
        if (longForkThreshold <? f_length f)%Z then (fst r, S (snd r)) else (S (fst r), snd r)) fs x in
        snd r = snd x + length (filter (fun f => (5 <? f_length f)%Z) fs) /\ fst r + snd r = fst x + snd x + length fs).
    { clear. induction fs as [|f fs IH]; intros x; cbn [fold_left filter length]; [lia|].
      specialize (IH (if (longForkThreshold <? f_length f)%Z then (fst x, S (snd x)) else (S (fst x), snd x))).
      cbv zeta in *. change longForkThreshold with 5%Z in *. destruct (5 <? f_length f)%Z; cbn [fst snd length] in *; lia. }
    specialize (Q fs (0, 0)). cbv zeta in Q. cbn [fst snd] in Q. lia.
  Qed.

  (** ** When Forks returns *)
  Lemma mapM_all : forall A B (f : A -> outcome B) l0, (forall x, In x l0 -> exists y, f x = Ok y) -> exists r, mapM f l0 = Ok r.
  Proof.
    induction l0 as [|x l0 IH]; intros H; [now exists []|]. cbn [mapM]. destruct (H x) as [y Y]; [now left|]. rewrite Y.
    cbn [bind]. destruct IH as [r Q]; [intros; apply H; now right|]. rewrite Q. cbn. eauto.
  Qed.
  Lemma finish_total : forall lg f k, stored es lg -> stored es (f_head f) -> lca (lk_db l) lg (f_head f) = Ok k ->
    exists f', finish_fork (lk_db l) lg f = Ok f'.
  Proof.
    intros lg f k S1 S2 E. unfold finish_fork. rewrite E. cbn [bind].
    assert (L : is_lca es lg (f_head f) k) by (apply lca_view; auto; apply (stored_wf (R_wf R)); auto).
    destruct (chain_hd (anc_stored _ _ _ (proj1 L))) as (e & c & C & _). rewrite (rep_block_by_id R SM _ C). cbn. eauto.
  Qed.
  Lemma forks_total : forall ord srt peers ls, map_order ord -> sorts fork_less srt -> leashes (lk_db l) = Ok ls ->
    let sel := filter (fun e => selected peers (fst e)) ls in
    sel <> [] -> (forall i, In i (map snd sel) -> exists b, block l i = Ok b) ->
    (forall i j, In i (map snd sel) -> In j (map snd sel) -> exists k, lca (lk_db l) i j = Ok k) ->
    exists fs, forks ord srt l peers = Ok fs.
  Proof.
    intros ord srt peers ls OM SS LS sel NE BL LC. unfold forks. rewrite LS. cbn [bind]. fold sel.
    destruct leashes_view as (ls' & LS' & _ & WFI & _). rewrite LS in LS'. injection LS' as <-.
    assert (G : grouped sel (ord (group_leashes sel))) by (eapply grouped_perm; [apply grouped_leashes|apply OM]).
    set (m := ord (group_leashes sel)) in *. destruct G as (GND & GK & GP).
    assert (KM : forall g, In g m -> In (fst g) (map snd sel)) by (intros g I; apply GK; now apply in_map).
    assert (WI : forall i, In i (map snd sel) -> wf_id i).
    { intros i I. eapply head_wf; [|exact I]. intros a j Q. apply filter_In in Q as [Q _]. eapply WFI, Q. }
    destruct (mapM_all (f := fun g => do b <- block l (fst g); Ok (new_fork b (snd g))) (l0 := m)) as [r MR].
    { intros g I. destruct (BL _ (KM _ I)) as [b B]. rewrite B. cbn. eauto. }
    rewrite MR. cbn [bind]. destruct (SS r) as [PR _].
    assert (HR : forall f, In f (srt r) -> In (f_head f) (map snd sel) /\ stored es (f_head f)).
    { intros f I. assert (IR : In f r) by (eapply Permutation_in; eauto). destruct (mapM_In MR IR) as (g & IG & E).
      destruct (block l (fst g)) as [b| | |] eqn:B; try discriminate. cbn [bind] in E. injection E as <-. cbn [new_fork f_head].
      destruct (block_facts (WI _ (KM _ IG)) B) as (-> & _ & _ & S). split; auto. }
    destruct (srt r) as [|f0 rest] eqn:E.
    - exfalso. apply Permutation_nil in PR. subst r. assert (ME : m = []) by (apply mapM_Ok_inv in MR; inversion MR; reflexivity).
      destruct sel as [|[a i] sel']; [now apply NE|]. assert (Q : In i (map fst m)).
      { apply GK. now left. } rewrite ME in Q. destruct Q.
    - apply mapM_all. intros f I. destruct (HR f0 (or_introl eq_refl)) as [K0 S0].
      assert (KF : In (f_head f) (map snd sel) /\ stored es (f_head f)).
      { destruct I as [<-|I]; [split; assumption|]. apply HR. now right. }
      destruct KF as [KF SF]. destruct (LC _ _ K0 KF) as [k E']. eapply finish_total; eauto.
  Qed.
  Lemma forks_empty : forall ord srt peers ls, map_order ord -> sorts fork_less srt -> leashes (lk_db l) = Ok ls ->
    filter (fun e => selected peers (fst e)) ls = [] -> forks ord srt l peers = Panic.
  Proof.
    intros ord srt peers ls OM SS LS E. unfold forks. rewrite LS. cbn [bind]. rewrite E.
    change (group_leashes []) with (@nil group). assert (Q := OM []). apply Permutation_sym, Permutation_nil in Q. rewrite Q.
    cbn [mapM bind]. destruct (SS []) as [P _]. apply Permutation_sym, Permutation_nil in P. now rewrite P.
  Qed.

  (** ** When Fork and LCB return *)
  Lemma fork_loop_total : forall peer m acc f, (forall g, In g m -> exists b, block l (fst g) = Ok b) ->
    exists r, fork_loop l peer m acc f = Ok r.
  Proof.
    induction m as [|g m IH]; intros acc f B; cbn [fork_loop]; [eauto|].
    destruct (B g) as [b E]; [now left|]. rewrite E. cbn [bind]. apply IH. intros; apply B; now right.
  Qed.
  Lemma fork_total : forall ord a i ls, map_order ord -> leashes (lk_db l) = Ok ls -> In (a, i) ls ->
    (forall j, In j (map snd ls) -> exists b, block l j = Ok b) ->
    (forall j, is_best es ls j -> exists k, lca (lk_db l) j i = Ok k) ->
    (exists f, fork_of ord l a = Ok f) /\ exists k, lcb ord l a = Ok k.
  Proof.
    intros ord a i ls OM LS I BL LC. unfold fork_of, lcb. rewrite LS. cbn [bind].
    destruct leashes_view as (ls' & LS' & ND & WFI & EQ). rewrite LS in LS'. injection LS' as <-.
    assert (G : grouped ls (ord (group_leashes ls))) by (eapply grouped_perm; [apply grouped_leashes|apply OM]).
    destruct (fork_loop_total a (m := ord (group_leashes ls)) (0%Z, 0, zero_id) zero_fork) as [r FL].
    { intros g IG. apply BL. apply (proj1 (proj2 G)). now apply in_map. }
    rewrite FL. cbn [bind]. assert (LL := fork_loop_split FL). rewrite LL. cbn [bind].
    destruct (longest_best G WFI LL) as (ST & [[-> _]|B]); [destruct I|].
    destruct (LC _ B) as [k LK].
    assert (L := proj1 (EQ _ _) I). destruct L as (WA & NA & HL & LA).
    rewrite (v_has_leash R WA) in HL. rewrite (v_leash R WA) in LA. rewrite (rep_leash R _ WA).
    destruct (st_leash s a) as [i'|]; [|discriminate]. injection LA as ->.
    split; [|destruct (id_eqb i (snd (fst r))); eauto].
    destruct (id_eqb (f_head (snd r)) (snd (fst r))); [eauto|].
    destruct G as (GND & GK & GP).
    assert (II : In i (map snd ls)) by (apply in_map_iff; exists (a, i); auto).
    assert (GI : exists ps, In (i, ps) (ord (group_leashes ls))).
    { apply GK in II. apply in_map_iff in II as ([j ps] & E & Q). cbn in E. subst j. eauto. }
    destruct GI as [ps GI]. assert (PS := GP _ _ GI).
    assert (FF : exists b, block l i = Ok b /\ snd r = new_fork b ps).
    { eapply fork_loop_finds; eauto.
      - rewrite PS. now apply on_block_In.
      - intros [j ps'] IJ IP. cbn [fst snd] in *. rewrite (GP _ _ IJ) in IP. apply on_block_In in IP.
        assert (Q := proj1 (EQ _ _) IP). assert (Q' := proj1 (EQ _ _) I). unfold leashed in Q, Q'.
        destruct Q as (_ & _ & _ & Q), Q' as (_ & _ & _ & Q'). congruence. }
    destruct FF as (b & BI & SR). destruct (block_facts (WFI _ _ I) BI) as (B1 & _).
    apply finish_total with (k := k).
    - apply ST, (proj1 B).
    - rewrite SR. cbn [new_fork f_head]. rewrite B1. auto.
    - rewrite SR. cbn [new_fork f_head]. now rewrite B1.
  Qed.

  (** ** ActiveHeads *)
  Lemma active_heads_view : forall hs ls, lk_heads l = Ok hs -> leashes (lk_db l) = Ok ls -> exists ah,
    active_heads l = Ok ah /\ ah = filter (fun h => existsb (fun e => id_eqb (snd e) (snd h)) ls) hs.
  Proof.
    intros hs ls H L. unfold active_heads. unfold lk_heads in H. rewrite H, L. cbn. eauto.
  Qed.

  (** ** Generators *)
  Lemma blocks_of_Ok : forall c k r, blocks_of k c = Ok r -> map b_gen r = map e_gen (firstn k c).
  Proof.
    induction c as [|e c IH]; intros [|k] r H; cbn [blocks_of firstn map] in *; try (injection H as <-; reflexivity).
    destruct (ts_ok e); [|discriminate]. destruct (blocks_of k c) as [r'| | |] eqn:E; try discriminate. cbn [bind] in H.
    injection H as <-. cbn [map]. now rewrite (IH _ _ E).
  Qed.
  Lemma count_add_spec : forall m g h, (NoDup (map fst m) -> NoDup (map fst (count_add m g))) /\
    (In h (map fst (count_add m g)) <-> h = g \/ In h (map fst m)).
  Proof.
    induction m as [|[k n] m IH]; intros g h; cbn [count_add map fst In].
    - split; [repeat constructor; auto|intuition].
    - destruct (beqb_spec g k) as [->|N]; cbn [map fst In].
      + split; auto. intuition.
      + destruct (IH g h) as [A B]. split; [|rewrite B; intuition].
        intros ND. inversion ND; subst. constructor; [|apply IH; auto; exact g]. intros Q.
        apply (proj2 (IH g k)) in Q. destruct Q; [congruence|contradiction].
  Qed.
  Definition occ (g : bytes) (gs : list bytes) : nat := length (filter (beqb g) gs).
  Definition counted (gs : list bytes) (m : list (bytes * nat)) : Prop :=
    NoDup (map fst m) /\ (forall g, In g (map fst m) <-> In g gs) /\ forall g n, In (g, n) m -> n = occ g gs.
  Lemma count_add_In : forall m g h n, NoDup (map fst m) -> In (h, n) (count_add m g) ->
    (h <> g /\ In (h, n) m) \/ (h = g /\ ((exists n0, In (g, n0) m /\ n = S n0) \/ (~ In g (map fst m) /\ n = 1))).
  Proof.
    induction m as [|[k c] m IH]; intros g h n ND I; cbn [count_add map fst In] in *.
    - destruct I as [I|[]]. injection I as <- <-. right. split; auto.
    - inversion ND; subst. destruct (beqb_spec g k) as [->|N].
      + destruct I as [I|I].
        * injection I as <- <-. right. split; auto. left. exists c. auto.
        * left. split; auto. intros ->. apply H1. apply in_map_iff. exists (k, n). auto.
      + destruct I as [I|I].
        * injection I as <- <-. left. split; auto.
        * destruct (IH _ _ _ H2 I) as [[A B]|[A [(n0 & B & C)|[B C]]]].
          -- left. auto.
          -- right. split; auto. left. exists n0. auto.
          -- right. split; auto. right. split; auto. intros [Q|Q]; [congruence|contradiction].
  Qed.
  Lemma occ_app : forall h gs g, occ h (gs ++ [g]) = occ h gs + (if beqb h g then 1 else 0).
  Proof. intros. unfold occ. rewrite filter_app, app_length. cbn [filter]. destruct (beqb h g); reflexivity. Qed.
  Lemma occ_none : forall g gs, ~ In g gs -> occ g gs = 0.
  Proof.
    intros g gs N. unfold occ. destruct (filter (beqb g) gs) as [|x xs] eqn:E; auto. exfalso. apply N.
    assert (I : In x (filter (beqb g) gs)) by (rewrite E; now left). apply filter_In in I as [I Q].
    destruct (beqb_spec g x); [subst; auto|discriminate].
  Qed.
  Lemma counted_add : forall gs m g, counted gs m -> counted (gs ++ [g]) (count_add m g).
  Proof.
    intros gs m g (ND & K & P). split; [now apply (count_add_spec m g g)|]. split.
    - intros h. rewrite (proj2 (count_add_spec m g h)), in_app_iff, K. cbn. intuition.
    - intros h n I. rewrite occ_app. apply count_add_In in I as [[N I]|[-> [(n0 & I & ->)|[I ->]]]]; auto.
      + destruct (beqb_spec h g); [congruence|]. rewrite Nat.add_0_r. auto.
      + rewrite beqb_refl. rewrite (P _ _ I). lia.
      + rewrite beqb_refl. rewrite K in I. rewrite (occ_none I). reflexivity.
  Qed.
  Lemma counted_fold : forall bs : list Block, counted (map b_gen bs) (fold_left (fun m b => count_add m (b_gen b)) bs []).
  Proof.
    intros bs. assert (Q : forall (bs : list Block) pre m, counted pre m ->
      counted (pre ++ map b_gen bs) (fold_left (fun m b => count_add m (b_gen b)) bs m)).
    { clear bs. induction bs as [|b bs IH]; intros pre m C; cbn [fold_left map]; [now rewrite app_nil_r|].
      replace (pre ++ b_gen b :: map b_gen bs) with ((pre ++ [b_gen b]) ++ map b_gen bs) by (now rewrite <- app_assoc).
      apply IH. now apply counted_add. }
    apply (Q bs [] []). split; [constructor|]. split; [reflexivity|]. intros g n [].
  Qed.
  Lemma counted_perm : forall gs m m', counted gs m -> Permutation m' m -> counted gs m'.
  Proof.
    intros gs m m' (ND & K & P) PM. split; [|split].
    - eapply Permutation_NoDup; [apply Permutation_map, Permutation_sym, PM|exact ND].
    - intros i. rewrite <- K. split; intros I; eapply Permutation_in; try exact I; apply Permutation_map; auto.
      now apply Permutation_sym.
    - intros i ps I. apply P. eapply Permutation_in; eauto.
  Qed.
  Lemma generators_view : forall ord srt i n st, map_order ord -> sorts gen_less srt -> wf_id i -> (0 <= n)%Z ->
    fork_generators ord srt l i n = Ok st ->
    let gs := map e_gen (firstn (Z.to_nat n) (chain es i)) in
    stored es i /\ NoDup (map fst st) /\ (forall g, In g (map fst st) <-> In g gs) /\ (forall g k, In (g, k) st -> k = occ g gs) /\
    StronglySorted (fun x y => snd y <= snd x) st.
  Proof.
    intros ord srt i n st OM SS W N H gs. unfold fork_generators in H.
    destruct (stored_dec es i) as [S|S]; [|unfold get_blocks in H; rewrite (rep_num_none R W S) in H; discriminate].
    rewrite (q_get_blocks R SM S N) in H. destruct (blocks_of (Z.to_nat n) (chain es i)) as [bs| | |] eqn:B; try discriminate.
    cbn [bind] in H. injection H as <-.
    assert (E : map b_gen bs = gs) by (apply blocks_of_Ok, B).
    assert (C := counted_fold bs). rewrite E in C. set (m := fold_left _ bs []) in *.
    destruct (SS (ord m)) as [PM SO].
    assert (C' : counted gs (srt (ord m))) by (eapply counted_perm; [eapply counted_perm; [exact C|apply OM]|exact PM]).
    destruct C' as (A1 & A2 & A3). split; auto. split; auto. split; auto. split; auto.
    clear - SO. induction SO as [|x r SO IH F]; constructor; auto. eapply Forall_impl; [|exact F].
    intros y Q. unfold gen_less in Q. destruct (Nat.ltb_spec (snd x) (snd y)); [discriminate|lia].
  Qed.
  Lemma generators_total : forall ord srt i n, wf_id i ->
    ((0 <= n)%Z -> ~ stored es i -> fork_generators ord srt l i n = Err ENotFound) /\
    ((0 <= n)%Z -> stored es i -> (forall e, In e (firstn (Z.to_nat n) (chain es i)) -> ts_ok e = true) ->
       exists st, fork_generators ord srt l i n = Ok st) /\
    ((n < 0)%Z -> stored es i -> fork_generators ord srt l i n = Panic).
  Proof.
    intros ord srt i n W. unfold fork_generators. split; [|split].
    - intros N S. unfold get_blocks. now rewrite (rep_num_none R W S).
    - intros N S T. rewrite (q_get_blocks R SM S N).
      assert (Q : forall c k, (forall e, In e (firstn k c) -> ts_ok e = true) -> exists bs, blocks_of k c = Ok bs).
      { clear. induction c as [|e c IH]; intros [|k] T; cbn [blocks_of firstn] in *; eauto. rewrite (T e (or_introl eq_refl)).
        destruct (IH k) as [bs B]; [intros; apply T; now right|]. rewrite B. cbn. eauto. }
      destruct (Q _ _ T) as [bs B]. rewrite B. cbn. eauto.
    - intros N S. apply num_of_stored in S as [k K]. unfold get_blocks. rewrite (rep_num R SM _ K). cbn [bind].
      destruct (Z.ltb_spec n 0); [reflexivity|lia].
  Qed.
End Forks.
