(** The exact outcome of the pages about blocks and forks (C106). *)
From Coq Require Import Strings.Byte.
From Verif Require Import NetModel WholeModel.
From Verif Require Import Base Kv ChainModel ChainSpec ChainTree ChainQueries ChainForks ChainProofs ChainLca ChainExample ForkProofs ChainProps ForkProps PeersModel PeersSpec PeersProofs PeersProps
  ApiModel ApiSpec ApiProofs ApiProps LoadModel LoadSpec LoadReal LifeModel LifeSpec LifeProofs WholeProps LifeProps AlarmProofs AnswerProofs AnswerProps.
Set Implicit Arguments.
Unset Strict Implicit.

(** Block [i] was accepted, with a timestamp that can be read back and written as JSON. *)
Definition shown (ev : env) (es : list entry) (i : id) : Prop :=
  stored es i /\ forall e, In e es -> e_id e = i -> (e_ts e < max_int64)%N /\ ev_date ev (Z.of_N (e_ts e)) = true.

Section Shown.
  Variables (g : pblock) (ops : list (op * option nat)) (l : linkage).
  Hypothesis H : reachable g ops l.
  Variable ev : env.
  Let es := hist g ops.
  Lemma shown_iff : forall i, wf_id i -> ((exists b, block l i = Ok b /\ ev_date ev (b_ts b) = true) <-> shown ev es i).
  Proof.
    intros i W. destruct (one_view H) as (s & HE & R & SM & _). assert (HW := hist_wf H). unfold es. split.
    - intros (b & B & D). rewrite HE in *. destruct (v_block_Ok R SM W B) as (e & c & C & T & ->). cbn [block_of b_ts] in D.
      assert (S : stored (st_blocks s) i) by apply (ChainForks.block_facts R SM W B). split; [exact S|]. intros e' IN ID.
      destruct (chain_hd S) as (e2 & c2 & C2 & ID2 & IN2). rewrite C in C2. injection C2 as <- <-.
      assert (e = e') by (apply (entry_unique HW); congruence). subst e'. unfold ts_ok in T. split; [lia|exact D].
    - intros [S D]. rewrite HE in *. destruct (chain_hd S) as (e & c & C & ID & IN). destruct (D e IN ID) as [T Q].
      rewrite (v_block R SM C). unfold ts_ok. replace (e_ts e <? max_int64)%N with true by lia. eexists. split; [reflexivity|exact Q].
  Qed.
  Lemma readable : forall i, wf_id i -> block l i <> Diverge.
  Proof. intros i W. destruct (one_view H) as (s & HE & R & SM & _). destruct (block_cases HE R SM W) as [[b B]|[(_ & B & _)|(_ & B)]]; congruence. Qed.
  Lemma shown_in_time : forall i, shown ev es i -> stored es i /\ ~ late es i.
  Proof. intros i [S D]. split; [exact S|]. intros (e & IN & ID & T). destruct (D e IN ID). lia. Qed.
  Lemma leashed_wf : forall a i, leashed l a i -> wf_id i.
  Proof. intros a i L. eapply (standing_wf H (peers := [])). split; [exact L|now left]. Qed.
End Shown.

(** A list of entries, each made from one block, is answered exactly if all the blocks can be shown. *)
Lemma listed : forall g ops l ev A (m : list A) (key : A -> id) B (mk : A -> Block -> B) (ts : B -> Z) (fin : list B -> list B),
  reachable g ops l -> (forall x, In x m -> wf_id (key x)) -> (forall x b, ts (mk x b) = b_ts b) -> (forall r, Permutation (fin r) r) ->
  let page := answer (forallb (fun y => ev_date ev (ts y))) (do r <- mapM (fun x => do b <- block l (key x); Ok (mk x b)) m; Ok (fin r)) in
  ((exists r, page = Reply r) <-> forall x, In x m -> shown ev (hist g ops) (key x)) /\ ((exists r, page = Reply r) \/ page = Code 500).
Proof.
  intros g ops l ev A m key B mk ts fin H W T P page. subst page.
  set (f := fun x => do b <- block l (key x); Ok (mk x b)).
  destruct (mapM f m) as [r|e| |] eqn:M; cbn [bind answer].
  - assert (Q : forallb (fun y => ev_date ev (ts y)) (fin r) = true <-> forall x, In x m -> shown ev (hist g ops) (key x)).
    { rewrite forallb_forall. split.
      - intros D x I. apply (shown_iff H ev (W x I)). destruct (mapM_each M I) as [y Y]. assert (IR := mapM_hit M I Y). unfold f in Y.
        destruct (block l (key x)) as [b| | |]; try discriminate. cbn [bind] in Y. injection Y as <-. exists b. split; [reflexivity|]. rewrite <- (T x b).
        apply D. eapply Permutation_in; [apply Permutation_sym, P|exact IR].
      - intros S y I. apply (Permutation_in _ (P r)) in I. destruct (mapM_In M I) as (x & IX & E). destruct (proj2 (shown_iff H ev (W x IX)) (S x IX)) as (b & BB & D).
        unfold f in E. rewrite BB in E. cbn [bind] in E. injection E as <-. now rewrite T. }
    destruct (forallb (fun y => ev_date ev (ts y)) (fin r)).
    + split; [|left; eauto]. split; [intros _; now apply Q|eauto].
    + split; [|now right]. split; [intros [x X]; discriminate|]. intros S. apply Q in S. discriminate.
  - split; [|now right]. split; [intros [x X]; discriminate|]. intros S. exfalso. destruct (mapM_err M) as (x & I & E).
    destruct (proj2 (shown_iff H ev (W x I)) (S x I)) as (b & BB & _). unfold f in E. rewrite BB in E. discriminate.
  - split; [|now right]. split; [intros [x X]; discriminate|]. intros S. exfalso. destruct (mapM_crash M) as (x & I & E).
    destruct (proj2 (shown_iff H ev (W x I)) (S x I)) as (b & BB & _). unfold f in E. rewrite BB in E. discriminate.
  - exfalso. destruct (mapM_diverge M) as (x & I & E). unfold f in E. apply (readable H (W x I)). destruct (block l (key x)); cbn [bind] in E; congruence.
Qed.

(** * Leashes and heads *)
Theorem C106_leashes : forall g ops l ev o srt, reachable g ops l -> fair o -> sorts leash_less srt ->
  ((exists r, api_leashes ev o srt l = Reply r) <-> forall a i, leashed l a i -> shown ev (hist g ops) i) /\
  ((exists r, api_leashes ev o srt l = Reply r) \/ api_leashes ev o srt l = Code 500).
Proof.
  intros g ops l ev o srt H (OM & _) SS. destruct (ls_view H) as (ls & LS & ND & EQ & WFI).
  assert (G : grouped ls (or_groups o (group_leashes ls))) by (eapply ChainForks.grouped_perm; [apply ChainForks.grouped_leashes|apply OM]).
  destruct G as (GND & GK & GP). unfold api_leashes, lk_leashes. rewrite LS. cbn [bind].
  assert (W : forall x, In x (or_groups o (group_leashes ls)) -> exists a, leashed l a (fst x)).
  { intros x I. apply (in_map fst), GK in I. apply in_map_iff in I as ([a j] & E & I). cbn in E. subst j. exists a. now apply EQ. }
  destruct (@listed g ops l ev _ (or_groups o (group_leashes ls)) fst _ (fun q b => {| li_id := b_id b; li_height := b_height b; li_score := b_score b; li_ts := b_ts b;
       li_gen := b_gen b; li_count := length (snd q); li_peers := snd q |}) li_ts srt H) as [A B].
  - intros x I. destruct (W x I) as [a L]. eapply (leashed_wf H), L.
  - reflexivity.
  - intros r. apply SS.
  - split; [|exact B]. rewrite A. split.
    + intros S a i L. apply EQ in L. assert (I : In i (map snd ls)) by (apply (in_map snd) in L; exact L). apply GK in I. apply in_map_iff in I as (x & <- & I). auto.
    + intros S x I. destruct (W x I) as [a L]. eauto.
Qed.
Print Assumptions C106_leashes.
(** Heads: only the heads some peer stands on are listed. *)
Theorem C106_heads : forall g ops l ev, reachable g ops l -> exists hs, lk_heads l = Ok hs /\
  ((exists r, api_heads ev l = Reply r) <-> forall n i a, In (n, i) hs -> leashed l a i -> shown ev (hist g ops) i) /\
  ((exists r, api_heads ev l = Reply r) \/ api_heads ev l = Code 500).
Proof.
  intros g ops l ev H. destruct (p_active_heads H) as (hs & p & A & B & C). exists hs. split; [exact A|].
  unfold api_heads. rewrite B. cbn [bind].
  assert (W : forall x, In x (filter p hs) -> In x hs /\ exists a, leashed l a (snd x)).
  { intros [n i] I. apply filter_In in I as [I Q]. split; [exact I|]. apply C in Q. exact Q. }
  destruct (@listed g ops l ev _ (filter p hs) snd _ (fun h b => {| hi_number := fst h; hi_id := snd h; hi_height := b_height b; hi_score := b_score b; hi_ts := b_ts b |}) hi_ts (fun r => r) H) as [D E].
  - intros x I. destruct (W x I) as (_ & a & L). eapply (leashed_wf H), L.
  - reflexivity.
  - intros r. apply Permutation_refl.
  - assert (X : forall (m : outcome (list head_info)), (do r <- m; Ok r) = m) by (intros [ | | | ]; reflexivity). rewrite X in D, E.
    split; [|exact E]. rewrite D. split.
    + intros S n i a I L. apply (S (n, i)). apply filter_In. split; [exact I|]. apply C. eauto.
    + intros S [n i] I. destruct (W _ I) as (J & a & L). eauto.
Qed.
Print Assumptions C106_heads.

(** * Forks *)
(** What the list of forks of the selected peers needs of the store, for a choice [t] of the best block. *)
Definition presentable (ev : env) (es : list entry) (l : linkage) (peers : list addr) (t : id) : Prop :=
  (exists a i, standing l peers a i) /\ forall a i, standing l peers a i -> shown ev es i /\ searchable es t i.
Lemma forks_page : forall g ops l ev o peers, reachable g ops l -> fair o ->
  let es := hist g ops in let page := answer (forallb (enc_fork ev)) (forks (or_groups o) (or_forks o) l peers) in
  ((exists fs, page = Reply fs) /\ exists t, best_block es l peers t /\ presentable ev es l peers t) \/
  (page = Code 500 /\ ((forall a i, ~ standing l peers a i) \/ (exists a i, standing l peers a i /\ ~ shown ev es i) \/ exists t, best_block es l peers t /\ ~ presentable ev es l peers t)).
Proof.
  intros g ops l ev o peers H O es page. assert (OO := O). destruct OO as (O1 & O2 & _).
  destruct (C104_forks peers H O1 O2) as [(fs & F & EX & BL & t & BT & C)|[(F & C)|(F & a & i & S & N)]]; subst page; rewrite F; cbn [answer].
  - assert (HD : forall f, In f fs -> exists a, standing l peers a (f_head f) /\ describes l f).
    { intros f I. destruct (p_forks_partition H O1 O2 F) as (_ & PB & PC). destruct (PC f I) as (_ & _ & _ & D). destruct (proj1 (PB (f_head f)) (in_map _ _ _ I)) as [a S]. exists a. split; [exact S|exact D]. }
    destruct (forallb (enc_fork ev) fs) eqn:E.
    + left. split; [eauto|]. exists t. split; [exact BT|]. split; [exact EX|]. intros a i S. split; [|eapply C, S].
      destruct (p_forks_partition H O1 O2 F) as (_ & PB & PC). assert (I : In i (map f_head fs)) by (apply PB; eauto). apply in_map_iff in I as (f & <- & I).
      destruct (PC f I) as (_ & _ & _ & b & B1 & _ & _ & _ & B5). apply (shown_iff H ev (standing_wf H S)). exists b. split; [exact B1|]. rewrite <- B5.
      rewrite forallb_forall in E. exact (E f I).
    + right. split; [reflexivity|]. right. left. assert (X : exists f, In f fs /\ enc_fork ev f = false).
      { clear - E. induction fs as [|f fs IH]; cbn [forallb] in E; [discriminate|]. destruct (enc_fork ev f) eqn:Q; [|exists f; split; [now left|exact Q]]. destruct (IH E) as (x & I & X). exists x. split; [now right|exact X]. }
      destruct X as (f & I & D). destruct (HD f I) as (a & S & b & B1 & _ & _ & _ & B5). exists a, (f_head f). split; [exact S|]. intros SH.
      apply (shown_iff H ev (standing_wf H S)) in SH as (b' & B' & D'). unfold enc_fork in D. rewrite B5 in D. assert (b = b') by congruence. subst b'. congruence.
  - right. split; [reflexivity|]. destruct C as [N|[(a & i & S & _ & LT)|(t & a & i & BT & S & N)]]; [left; exact N| |].
    + right. left. exists a, i. split; [exact S|]. intros SH. destruct (shown_in_time SH). contradiction.
    + right. right. exists t. split; [exact BT|]. intros [_ P]. destruct (P a i S). contradiction.
  - right. split; [reflexivity|]. right. left. exists a, i. split; [exact S|]. intros [ST _]. contradiction.
Qed.

Lemma same_standing : forall l ps qs, (forall a, In a ps <-> In a qs) -> forall a i, standing l ps a i <-> standing l qs a i.
Proof.
  intros l ps qs E a i. assert (N : ps = [] <-> qs = []).
  { split; intros ->; [destruct qs as [|q qs]|destruct ps as [|q ps]]; try reflexivity; exfalso; apply (proj2 (E q)) + apply (proj1 (E q)); now left. }
  unfold standing. rewrite N, E. reflexivity.
Qed.
Lemma same_best : forall es l ps qs, (forall a, In a ps <-> In a qs) -> forall t, best_block es l ps t -> best_block es l qs t.
Proof.
  intros es l ps qs E t [[a S] B]. assert (Q := @same_standing l _ _ E).
  assert (CT : forall i n, count_on l qs i n -> count_on l ps i n) by (intros i n (xs & A1 & A2 & A3); exists xs; split; [exact A1|]; split; [|exact A3]; intros b; rewrite A2; symmetry; apply Q).
  split; [exists a; now apply Q|]. intros j [b S']. destruct (B j) as [X|[X Y]]; [exists b; now apply Q|left; exact X|right; split; [exact X|]]. intros m n C1 C2. eapply Y; apply CT; eassumption.
Qed.
(** The list of forks is answered exactly if it can be made, when no two blocks are equally good. *)
Lemma forks_page_exact : forall g ops l ev o ps qs, reachable g ops l -> fair o -> (forall a, In a ps <-> In a qs) ->
  let es := hist g ops in let page := answer (forallb (enc_fork ev)) (forks (or_groups o) (or_forks o) l ps) in
  (forall t u, best_block es l qs t -> best_block es l qs u -> t = u) ->
  ((exists fs, page = Reply fs) <-> (exists a i, standing l qs a i) /\ (forall a i, standing l qs a i -> shown ev es i) /\ forall t a i, best_block es l qs t -> standing l qs a i -> searchable es t i) /\
  ((exists fs, page = Reply fs) \/ page = Code 500).
Proof.
  intros g ops l ev o ps qs H O E es page U. assert (Q := @same_standing l _ _ E). assert (E' : forall a, In a qs <-> In a ps) by (intros a; symmetry; apply E).
  destruct (forks_page ev ps H O) as [(RP & t & BT & (a0 & i0 & S0) & P)|(RP & C)]; fold es page in RP |- *.
  - split; [|now left]. split; [intros _|intros _; exact RP]. split; [exists a0, i0; now apply Q|]. split; [intros a i S; apply (P a i), Q, S|].
    intros u a i BU S. assert (u = t) by (apply U; [exact BU|eapply same_best; eauto]). subst u. apply (P a i), Q, S.
  - split; [|now right]. split; [intros [fs X]; congruence|]. intros ((a0 & i0 & S0) & SH & SE). exfalso. destruct C as [N|[(a & i & S & N)|(t & BT & N)]].
    + apply (N a0 i0), Q, S0.
    + apply N, (SH a i), Q, S.
    + apply N. split; [exists a0, i0; now apply Q|]. intros a i S. apply Q in S. split; [eapply SH, S|]. eapply SE; [eapply same_best; eauto|exact S].
Qed.
(** [ps]: the addresses named in the query. *)
Theorem C106_forks : forall g ops l ev o q ps, reachable g ops l -> fair o -> (forall a, In a ps <-> asks ev q a) ->
  let es := hist g ops in
  (forall t u, best_block es l ps t -> best_block es l ps u -> t = u) ->
  ((exists fs, api_forks ev o l q = Reply fs) <-> well_formed ev q /\ (exists a i, standing l ps a i) /\ (forall a i, standing l ps a i -> shown ev es i) /\
     forall t a i, best_block es l ps t -> standing l ps a i -> searchable es t i) /\
  (~ well_formed ev q -> api_forks ev o l q = Code 400) /\
  (well_formed ev q -> (exists fs, api_forks ev o l q = Reply fs) \/ api_forks ev o l q = Code 500).
Proof.
  intros g ops l ev o q ps H O A es U. unfold api_forks. destruct (get_peers ev q) as [ps0|] eqn:G.
  - destruct (proj1 (get_peers_spec ev q) _ G) as [W A0]. destruct (@forks_page_exact g ops l ev o ps0 ps H O) as [X Y]; [intros a; rewrite A0, A; reflexivity|exact U|].
    split; [|split; [intros N; contradiction|intros _; exact Y]]. rewrite X. split; [intros P; split; [exact W|exact P]|intros [_ P]; exact P].
  - assert (N := proj2 (get_peers_spec ev q) G). split; [|split; [reflexivity|intros W; contradiction]]. split; [intros [fs X]; discriminate|intros [W _]; contradiction].
Qed.
Print Assumptions C106_forks.
(** [ps]: the connected peers the query selects; if there are none, the forks of all peers are listed (C55). *)
Theorem C106_active_forks : forall cfg rops r g ops l ev o q ps, rreach cfg rops r -> reachable g ops l -> fair o ->
  (forall a, In a ps <-> connected r a /\ (asks_all ev q \/ asks ev q a)) ->
  let es := hist g ops in
  (forall t u, best_block es l ps t -> best_block es l ps u -> t = u) ->
  ((exists fs, api_active_forks ev o l r q = Reply fs) <-> well_formed ev q /\ (forall a, connected r a -> known r a) /\ (exists a i, standing l ps a i) /\
     (forall a i, standing l ps a i -> shown ev es i) /\ forall t a i, best_block es l ps t -> standing l ps a i -> searchable es t i) /\
  (~ well_formed ev q -> api_active_forks ev o l r q = Code 400) /\
  (well_formed ev q -> (exists fs, api_active_forks ev o l r q = Reply fs) \/ api_active_forks ev o l r q = Code 500).
Proof.
  intros cfg rops r g ops l ev o q ps RR H O A es U. unfold api_active_forks. destruct (get_peers ev q) as [ps0|] eqn:G.
  - destruct (proj1 (get_peers_spec ev q) _ G) as [W A0]. assert (OO := O). destruct OO as (O1 & O2 & O3 & O4 & O5 & O6).
    destruct (C104_connections RR O5 O6) as [(K & cs & C & _)|((a & CA & NK) & C)]; rewrite C; cbn [bind].
    + destruct (@forks_page_exact g ops l ev o (select_conns ps0 cs) ps H O) as [X Y]; [|exact U|].
      { intros a. rewrite select_In, (connections_addrs O5 O6 C), A, <- A0, <- (asks_nil A0). reflexivity. }
      split; [|split; [intros N; contradiction|intros _; exact Y]]. rewrite X. split; [intros P; split; [exact W|]; split; [exact K|exact P]|intros (_ & _ & P); exact P].
    + cbn [answer]. split; [|split; [intros N; contradiction|intros _; now right]]. split; [intros [fs X]; discriminate|]. intros (_ & K & _). exfalso. exact (NK (K a CA)).
  - assert (N := proj2 (get_peers_spec ev q) G). split; [|split; [reflexivity|intros W; contradiction]]. split; [intros [fs X]; discriminate|intros [W _]; contradiction].
Qed.
Print Assumptions C106_active_forks.

(** * The fork of one peer and its generators *)
Theorem C106_fork : forall g ops l ev o s a i, reachable g ops l -> fair o -> ev_addr ev s = Some a -> leashed l a i ->
  let es := hist g ops in
  (forall t u, best_block es l [] t -> best_block es l [] u -> t = u) ->
  ((exists f, api_fork ev o l s = Reply f) <-> shown ev es i /\ (forall b j, leashed l b j -> stored es j /\ ~ late es j) /\ forall t, best_block es l [] t -> searchable es t i) /\
  ((exists f, api_fork ev o l s = Reply f) \/ api_fork ev o l s = Code 500).
Proof.
  intros g ops l ev o s a i H O EA L es U. subst es. cbv zeta in *. unfold api_fork. rewrite EA. assert (HL := proj1 (proj2 (proj2 L))). rewrite HL. assert (W := leashed_wf H L).
  destruct (C104_fork H (proj1 O) L) as [([f F] & _ & BL & t & BT & SE)|[(F & _ & C)|(F & _ & b & j & Q & N)]]; rewrite F; cbn [answer].
  - destruct (p_fork H (proj1 O) L F) as (lg & _ & A2 & _ & _ & _ & (b & B1 & _ & _ & _ & B5) & _). rewrite A2 in B1.
    assert (X : enc_fork ev f = true <-> shown ev (hist g ops) i).
    { rewrite <- (shown_iff H ev W). unfold enc_fork. rewrite B5. split; [intros D; exists b; auto|intros (b' & B' & D)]. assert (b = b') by congruence. subst b'. exact D. }
    destruct (enc_fork ev f).
    + split; [|left; eauto]. split; [intros _|eauto]. split; [now apply X|]. split; [exact BL|]. intros u BU. rewrite (U u t BU BT). exact SE.
    + split; [|now right]. split; [intros [x Y]; discriminate|]. intros (SH & _). apply X in SH. discriminate.
  - split; [|now right]. split; [intros [x Y]; discriminate|]. intros (_ & BL & SE). exfalso. destruct C as [(b & j & Q & _ & LT)|(t & BT & N)]; [exact (proj2 (BL b j Q) LT)|exact (N (SE t BT))].
  - split; [|now right]. split; [intros [x Y]; discriminate|]. intros (_ & BL & _). exfalso. exact (N (proj1 (BL b j Q))).
Qed.
Print Assumptions C106_fork.
(** The number of blocks the page counts for the number [c] of the query: by default the length of the fork, or 1000 if it is the longest. *)
Definition counted_blocks (es : list entry) (c : Z) (i t k : id) : nat :=
  if Z.eqb c 0 then (if id_eqb i t then 1000 else height es i - height es k) else Z.to_nat c.
Theorem C106_generators : forall g ops l ev o s n a i c, reachable g ops l -> fair o -> ev_addr ev s = Some a -> ev_atoi ev n = Some c -> leashed l a i ->
  let es := hist g ops in
  (forall t u, best_block es l [] t -> best_block es l [] u -> t = u) ->
  ((exists st, api_generators ev o l s n = Reply st) <-> (0 <= c)%Z /\ (forall b j, leashed l b j -> stored es j /\ ~ late es j) /\
     forall t k, best_block es l [] t -> is_lca es t i k -> searchable es t i /\ forall e, In e (firstn (counted_blocks es c i t k) (chain es i)) -> (e_ts e < max_int64)%N) /\
  ((exists st, api_generators ev o l s n = Reply st) \/ api_generators ev o l s n = Code 500).
Proof.
  intros g ops l ev o s n a i c H O EA EN L es U. subst es. cbv zeta in *. unfold api_generators. rewrite EA, EN. assert (HL := proj1 (proj2 (proj2 L))). rewrite HL. assert (W := leashed_wf H L).
  destruct (C104_fork H (proj1 O) L) as [([f F] & _ & BL & t & BT & SE)|[(F & _ & C)|(F & _ & b & j & Q & N)]]; rewrite F; cbn [bind answer].
  - destruct (p_fork H (proj1 O) L F) as (lg & A1 & A2 & A3 & A4 & A5 & A6 & A7 & A8 & A9 & A10 & A11). rewrite A2. cbv zeta.
    set (cc := if Z.eqb c 0 then if f_longest f then 1000%Z else f_length f else c).
    destruct (one_view H) as (s0 & HE & R0 & SM & NN & _). assert (SI := proj1 (BL a i L)). rewrite HE in *.
    assert (HI : f_height f = N.of_nat (height (st_blocks s0) i)).
    { destruct A6 as (b & B & B1 & _). rewrite A2 in B. rewrite B1. apply (block_facts R0 SM W B). }
    assert (LG : lg = t) by (apply U; assumption). subst lg.
    assert (UK : forall k, is_lca (st_blocks s0) t i k -> k = f_lcb f) by (intros k K; exact (is_lca_unique R0 K A8)).
    destruct (Z.ltb_spec c 0) as [NC|NC].
    + assert (X : fork_generators (or_gens o) (or_gensort o) l i cc = Panic).
      { apply (generators_total R0 SM NN (or_gens o) (or_gensort o) cc W); [|exact SI]. unfold cc. destruct (Z.eqb_spec c 0); lia. }
      rewrite X. cbn [answer]. split; [|now right]. split; [intros [x Y]; discriminate|intros [Y _]; lia].
    + assert (CC : (0 <= cc)%Z) by (unfold cc; destruct (Z.eqb c 0); [destruct (f_longest f); lia|exact NC]).
      assert (CE : counted_blocks (st_blocks s0) c i t (f_lcb f) = Z.to_nat cc).
      { unfold counted_blocks, cc. destruct (Z.eqb c 0); [|reflexivity]. destruct (id_eqb_spec i t) as [E|E].
        - apply A7 in E. now rewrite E.
        - destruct (f_longest f); [exfalso; apply E, A7; reflexivity|]. rewrite A9, HI. lia. }
      assert (GB : forall cs k, ((exists bs, blocks_of k cs = Ok bs) /\ forall e, In e (firstn k cs) -> (e_ts e < max_int64)%N) \/ (blocks_of k cs = Panic /\ exists e, In e (firstn k cs) /\ (max_int64 <= e_ts e)%N)).
      { clear. induction cs as [|e cs IH]; intros [|k]; cbn [blocks_of firstn]; try solve [left; split; [eauto|intros e' []]]. unfold ts_ok.
        destruct (N.ltb_spec (e_ts e) max_int64) as [T|T].
        - destruct (IH k) as [[[bs B] D]|[B (e' & I & D)]]; rewrite B; cbn [bind]; [left|right].
          + split; [eauto|]. intros e' [<-|I]; [exact T|exact (D e' I)].
          + split; [reflexivity|]. exists e'. split; [now right|exact D].
        - right. split; [reflexivity|]. exists e. split; [now left|exact T]. }
      unfold fork_generators. rewrite (q_get_blocks R0 SM SI CC). destruct (GB (chain (st_blocks s0) i) (Z.to_nat cc)) as [[[bs B] D]|[B (e & I & D)]]; rewrite B; cbn [bind answer].
      * split; [|left; eauto]. split; [intros _|eauto]. split; [exact NC|]. split; [exact BL|]. intros u k BU K. rewrite (U u t BU BT) in *. split; [exact SE|].
        rewrite (UK k K), CE. exact D.
      * split; [|now right]. split; [intros [x Y]; discriminate|]. intros (_ & _ & X). exfalso. destruct (X t (f_lcb f) BT A8) as [_ Y]. rewrite CE in Y. specialize (Y e I). lia.
  - split; [|now right]. split; [intros [x Y]; discriminate|]. intros (_ & BL & SE). exfalso. destruct C as [(b & j & Q & _ & LT)|(t & BT & N)]; [exact (proj2 (BL b j Q) LT)|].
    apply N. intros k K. apply (proj1 (SE t k BT K) k K).
  - split; [|now right]. split; [intros [x Y]; discriminate|]. intros (_ & BL & _). exfalso. exact (N (proj1 (BL b j Q))).
Qed.
Print Assumptions C106_generators.

(** * The running process *)
(** Under the calendar of JSON (C63: years up to 9999) the pages about leashes and heads fail, whatever was received in this life and the ones before, exactly if a peer stands on a block dated from the year 10000 on. *)
Theorem C106_process : forall cfg g x seen ev o srt, lived cfg g x seen -> short x -> fair o -> sorts leash_less srt -> dates ev ->
  (api_leashes ev o srt (re_lk x) = Code 500 <-> exists a i e, leashed (re_lk x) a i /\ In e (hist g (re_ops x)) /\ e_id e = i /\ (253402300800000 <= e_ts e)%N) /\
  (api_heads ev (re_lk x) = Code 500 -> api_leashes ev o srt (re_lk x) = Code 500).
Proof.
  intros cfg g x seen ev o srt LV SH O SS DT. destruct (C79_stores_reachable LV SH) as [H _]. change (reachable g (re_ops x) (re_lk x)) in H.
  destruct (C104_process LV SH) as (ST & _ & _). set (l := re_lk x) in *. set (es := hist g (re_ops x)) in *.
  assert (HW := hist_wf H).
  destruct (C106_leashes ev H O SS) as [A B]. fold es in A.
  assert (Q : forall i, stored es i -> ~ shown ev es i -> exists e, In e es /\ e_id e = i /\ (253402300800000 <= e_ts e)%N).
  { intros i S N. destruct (chain_hd S) as (e & c & C & ID & IN). exists e. split; [exact IN|]. split; [exact ID|]. destruct (N.le_gt_cases 253402300800000 (e_ts e)) as [X|X]; [exact X|exfalso].
    apply N. split; [exact S|]. intros e' IN' ID'. assert (e' = e) by (apply (@entry_unique _ HW e' e IN' IN); congruence). subst e'. split; [unfold max_int64; lia|]. rewrite DT. lia. }
  assert (NS : forall i e, In e es -> e_id e = i -> (253402300800000 <= e_ts e)%N -> ~ shown ev es i).
  { intros i e IN ID T [_ D]. destruct (D e IN ID) as [_ X]. rewrite DT in X. lia. }
  assert (DEC : forall i, shown ev es i \/ ~ shown ev es i).
  { intros i. destruct (stored_dec es i) as [S|S]; [|right; intros [X _]; contradiction]. destruct (chain_hd S) as (e & c & C & ID & IN).
    destruct (N.le_gt_cases 253402300800000 (e_ts e)) as [X|X]; [right; eapply NS; eauto|left]. split; [exact S|]. intros e' IN' ID'. assert (e' = e) by (apply (@entry_unique _ HW e' e IN' IN); congruence). subst e'.
    split; [unfold max_int64; lia|]. rewrite DT. lia. }
  assert (E : api_leashes ev o srt l = Code 500 <-> exists a i, leashed l a i /\ ~ shown ev es i).
  { split.
    - intros E. destruct (ls_view H) as (ls & LS & _ & EQ & _).
      assert (X : (forall a i, In (a, i) ls -> shown ev es i) \/ exists a i, In (a, i) ls /\ ~ shown ev es i).
      { clear LS EQ. induction ls as [|[a i] ls IH]; [left; intros a i []|]. destruct (DEC i) as [D|D]; [|right; exists a, i; split; [now left|exact D]].
        destruct IH as [IH|(b & j & I & N)]; [left; intros b j [X|I]; [injection X as <- <-; exact D|eauto]|right; exists b, j; split; [now right|exact N]]. }
      destruct X as [X|(a & i & I & N)]; [|exists a, i; split; [now apply EQ|exact N]].
      exfalso. destruct (proj2 A) as [r R]; [intros a i L; eapply X, EQ, L|congruence].
    - intros (a & i & L & N). destruct B as [RP|B]; [exfalso; exact (N (proj1 A RP a i L))|exact B]. }
  split.
  - rewrite E. split.
    + intros (a & i & L & N). destruct (Q i) as (e & IN & ID & T); [eapply (ST []); split; [exact L|now left]|exact N|]. exists a, i, e. auto.
    + intros (a & i & e & L & IN & ID & T). exists a, i. split; [exact L|eapply NS; eauto].
  - intros HC. destruct B as [RP|B]; [exfalso|exact B]. destruct (C106_heads ev H) as (hs & _ & HH & _). destruct (proj2 HH) as [r R]; [intros n i a _ L; exact (proj1 A RP a i L)|congruence].
Qed.
Print Assumptions C106_process.

(** * Examples *)
(** A best block that no other block has the score of. *)
Lemma sole_best : forall g ops l ps t, reachable g ops l ->
  match leashes (lk_db l) with Ok ls => forallb (fun e => id_eqb (snd e) t || (score (hist g ops) (snd e) <? score (hist g ops) t)%Z) ls = true /\ existsb (fun e => id_eqb (snd e) t && match ps with [] => true | _ => existsb (addr_eqb (fst e)) ps end) ls = true | _ => False end ->
  forall u v, best_block (hist g ops) l ps u -> best_block (hist g ops) l ps v -> u = v.
Proof.
  intros g ops l ps t H D. destruct (ls_view H) as (ls & LS & _ & EQ & _). rewrite LS in D. destruct D as [D1 D2]. rewrite forallb_forall in D1.
  apply existsb_exists in D2 as ([a0 t0] & I0 & X0). cbn [fst snd] in X0. apply andb_prop in X0 as [X1 X2]. destruct (id_eqb_spec t0 t) as [->|]; [|discriminate].
  assert (S0 : standing l ps a0 t).
  { split; [now apply EQ|]. destruct ps as [|p ps]; [now left|right]. apply existsb_exists in X2 as (x & I & E). destruct (PeersProofs.addr_eqb_spec a0 x) as [->|]; [exact I|discriminate]. }
  assert (Q : forall u, best_block (hist g ops) l ps u -> u = t).
  { intros u [[a [S _]] B]. apply EQ in S. specialize (D1 _ S). cbn [snd] in D1. destruct (id_eqb_spec u t) as [E|E]; [exact E|]. cbn [orb] in D1. exfalso. destruct (B t) as [X|[X _]]; [eauto|lia|lia]. }
  intros u v BU BV. now rewrite (Q u BU), (Q v BV).
Qed.
Lemma xl_sole : forall u v, best_block (hist xg xops) xl [] u -> best_block (hist xg xops) xl [] v -> u = v.
Proof. apply (@sole_best xg xops xl [] (xid 3)); [apply xl_reachable|]. vm_compute. auto. Qed.
(** All peers stand on blocks that can be shown; then one peer sends a block dated in the year 10000. *)
Definition far_ops : list (op * option nat) := xops ++ [(Put far_block (xpeer 9), None)].
Example C106_leashes_example : reachable xg xops xl /\ reachable xg far_ops (at_end far_ops) /\ fair xord /\ sorts leash_less (isort leash_less) /\
  (forall a i, leashed xl a i -> shown xev (hist xg xops) i) /\ (exists r, api_heads xev xl = Reply r) /\
  leashed (at_end far_ops) (xpeer 9) (xid 7) /\ ~ shown xev (hist xg far_ops) (xid 7) /\ api_leashes xev xord (isort leash_less) (at_end far_ops) = Code 500 /\
  api_heads xev (at_end far_ops) = Code 500.
Proof.
  assert (R1 : reachable xg xops xl) by apply xl_reachable. assert (R2 : reachable xg far_ops (at_end far_ops)) by (apply at_end_reachable; vm_compute; reflexivity).
  assert (SS : sorts leash_less (isort leash_less)) by apply isort_leashes.
  split; [exact R1|]. split; [exact R2|]. split; [apply xord_fair|]. split; [exact SS|].
  split; [apply (proj1 (@C106_leashes xg xops xl xev xord (isort leash_less) R1 xord_fair SS)); eexists; vm_compute; reflexivity|].
  split; [eexists; vm_compute; reflexivity|].
  split; [split; [reflexivity|split; [discriminate|]]; vm_compute; auto|]. split; [|split; vm_compute; reflexivity].
  intros [_ D]. assert (X : existsb (fun e => id_eqb (e_id e) (xid 7) && negb (ev_date xev (Z.of_N (e_ts e)))) (hist xg far_ops) = true) by (vm_compute; reflexivity).
  apply existsb_exists in X as (e & I & Y). apply andb_prop in Y as [Y1 Y2]. destruct (id_eqb_spec (e_id e) (xid 7)) as [E|]; [|discriminate]. destruct (D e I E) as [_ Z]. rewrite Z in Y2. discriminate.
Qed.
(** The forks of everyone, of one peer, and its generators; the registry of C55; a negative number of blocks. *)
Example C106_forks_example : (forall t u, best_block (hist xg xops) xl [] t -> best_block (hist xg xops) xl [] u -> t = u) /\
  (forall a, In a [] <-> asks xev [] a) /\ (exists fs, api_forks xev xord xl [] = Reply fs) /\ rreach xcfg xrops xr /\ (exists fs, api_active_forks xev xord xl xr [] = Reply fs) /\
  leashed xl (xpeer 1) (xid 3) /\ (exists f, api_fork xev xord xl [x01] = Reply f) /\ (exists st, api_generators xev xord xl [x01] [x0a] = Reply st) /\
  api_generators xev xord xl [x01] [x09] = Code 500 /\ ev_atoi xev [x09] = Some (-1)%Z /\ reachable xg two_chains xl2 /\ api_fork xev xord xl2 [x02] = Code 500.
Proof.
  split; [apply xl_sole|]. split.
  { intros a. split; [intros []|]. intros (w & I & N & _). apply split_item in I. cbn [split_comma] in I. destruct I as [<-|[]]. exfalso. apply N. reflexivity. }
  split; [eexists; vm_compute; reflexivity|]. split; [split; [wf_ops|reflexivity]|]. split; [eexists; vm_compute; reflexivity|].
  split; [split; [reflexivity|split; [discriminate|]]; vm_compute; auto|]. split; [eexists; vm_compute; reflexivity|]. split; [eexists; vm_compute; reflexivity|].
  split; [vm_compute; reflexivity|]. split; [vm_compute; reflexivity|]. split; [apply xl2_reachable|]. vm_compute. reflexivity.
Qed.
Example C106_process_example : short (o_real (xlive (after_first 1) second_life)) /\ dates xev /\
  (exists r, api_leashes xev xord (isort leash_less) (re_lk (o_real (xlive (after_first 1) second_life))) = Reply r).
Proof. split; [vm_compute; reflexivity|]. split; [intros t; reflexivity|]. eexists. vm_compute. reflexivity. Qed.
