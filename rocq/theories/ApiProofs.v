(** Proofs about the HTTP handlers and the parameters. *)
From Coq Require Import Strings.Byte.
From Verif Require Import Base Kv BytesFacts ChainModel ChainSpec ChainTree ChainRep ChainQueries ChainProofs ChainForks ForkProofs
  PeersModel PeersSpec PeersProofs PeersCalls ApiModel ApiSpec.
Set Implicit Arguments.
Unset Strict Implicit.

(** * Splitting at commas *)
Lemma comma_eqb : forall x, N.eqb (Byte.to_N x) 44 = true <-> x = comma.
Proof.
  intros x. rewrite N.eqb_eq. split; [|intros ->; reflexivity]. intros E.
  assert (Q : Byte.of_N (Byte.to_N x) = Byte.of_N 44) by now rewrite E. rewrite Byte.of_to_N in Q. now injection Q as ->.
Qed.
Lemma split_items : forall q, items_of q (split_comma q).
Proof.
  induction q as [|x q (NE & E & F)]; cbn [split_comma].
  - split; [discriminate|]. split; [reflexivity|]. repeat constructor. intros [].
  - destruct (N.eqb (Byte.to_N x) 44) eqn:C.
    + apply comma_eqb in C. subst x. split; [discriminate|]. split.
      * destruct (split_comma q) as [|w ws] eqn:S; [now destruct NE|]. cbn [with_commas app]. f_equal. exact E.
      * constructor; auto.
    + destruct (split_comma q) as [|w ws] eqn:S; [now destruct NE|]. split; [discriminate|]. split.
      * destruct ws; cbn [with_commas app] in *; now rewrite E.
      * inversion F; subst. constructor; auto. intros [->|I]; [|contradiction].
        assert (Q : N.eqb (Byte.to_N comma) 44 = true) by now apply comma_eqb. congruence.
Qed.
Lemma item_cons : forall w w0 q, ~ In comma w0 -> (item (w0 ++ comma :: q) w <-> w = w0 \/ item q w).
Proof.
  intros w w0 q N0. split.
  - intros (pre & post & E & NW & P1 & P2). destruct P1 as [->|[pre' ->]].
    + left. cbn [app] in E. destruct P2 as [->|[post' ->]].
      * rewrite app_nil_r in E. exfalso. apply NW. rewrite <- E. apply in_app_iff. right. now left.
      * clear - E N0 NW. revert w0 N0 E. induction w as [|x w IH]; intros [|y w0] N0 E; cbn [app] in E; auto.
        -- injection E as -> _. exfalso. apply N0. now left.
        -- injection E as <- _. exfalso. apply NW. now left.
        -- injection E as <- E. f_equal. apply IH; auto; cbn [In] in *; tauto.
    + right. rewrite <- !app_assoc in E. cbn [app] in E.
      assert (X : exists pre2, pre' = w0 ++ pre2 /\ comma :: q = pre2 ++ comma :: w ++ post).
      { clear - E N0. revert w0 N0 E. induction pre' as [|x pre' IH]; intros [|y w0] N0 E; cbn [app] in *.
        - exists []. auto.
        - injection E as -> _. exfalso. apply N0. now left.
        - exists (x :: pre'). auto.
        - injection E as <- E. destruct (IH w0) as (pre2 & -> & E2); [cbn [In] in *; tauto|exact E|]. exists pre2. auto. }
      destruct X as (pre2 & -> & E2). destruct pre2 as [|c pre2]; cbn [app] in E2.
      * injection E2 as ->. exists [], post. auto.
      * injection E2 as <- ->. exists (pre2 ++ [comma]), post. rewrite <- app_assoc. cbn [app]. split; auto. split; auto. split; auto.
        right. eauto.
  - intros [->|(pre & post & -> & NW & P1 & P2)].
    + exists [], (comma :: q). split; auto. split; auto. split; auto. right. eauto.
    + exists (w0 ++ comma :: pre), post. split; [now rewrite <- app_assoc|]. split; auto. split; auto. right.
      destruct P1 as [->|[pre' ->]]; [exists w0; auto|]. exists (w0 ++ comma :: pre'). now rewrite <- app_assoc.
Qed.
Lemma item_single : forall w w0, ~ In comma w0 -> (item w0 w <-> w = w0).
Proof.
  intros w w0 N0. split.
  - intros (pre & post & -> & NW & P1 & P2). destruct P1 as [->|[pre' ->]].
    + destruct P2 as [->|[post' ->]]; [cbn; now rewrite app_nil_r|]. exfalso. apply N0. cbn [app]. apply in_app_iff. right. now left.
    + exfalso. apply N0. rewrite <- app_assoc. apply in_app_iff. right. now left.
  - intros ->. exists [], []. cbn [app]. rewrite app_nil_r. auto.
Qed.
Lemma item_In : forall q ws w, items_of q ws -> (item q w <-> In w ws).
Proof.
  intros q ws w (NE & E & F). revert q E. induction ws as [|w0 ws IH]; intros q E; [now destruct NE|]. inversion F; subst.
  destruct ws as [|w1 ws].
  - cbn [with_commas In]. rewrite item_single by auto. split; [auto|]. intros [<-|[]]. reflexivity.
  - cbn [with_commas]. change (with_commas (w0 :: w1 :: ws)) with (w0 ++ comma :: with_commas (w1 :: ws)).
    rewrite item_cons by auto. rewrite (IH ltac:(discriminate) H2 _ eq_refl). cbn [In]. split; intros [A|A]; auto.
Qed.
Lemma split_item : forall q w, In w (split_comma q) <-> item q w.
Proof. intros. symmetry. apply item_In, split_items. Qed.

Lemma add_addr_In : forall a l x, In x (add_addr a l) <-> x = a \/ In x l.
Proof.
  intros. unfold add_addr. destruct (has_addr a l) eqn:E.
  - apply has_addr_spec in E. split; [auto|]. intros [->|]; auto.
  - rewrite in_app_iff. cbn. intuition.
Qed.
Lemma collect_spec : forall ev ws m,
  (forall ps, collect_peers ev ws m = Some ps ->
     (forall w, In w ws -> ev_trim ev w <> [] -> exists a, ev_addr ev (ev_trim ev w) = Some a) /\
     forall a, In a ps <-> In a m \/ exists w, In w ws /\ ev_trim ev w <> [] /\ ev_addr ev (ev_trim ev w) = Some a) /\
  (collect_peers ev ws m = None -> exists w, In w ws /\ ev_trim ev w <> [] /\ ev_addr ev (ev_trim ev w) = None).
Proof.
  intros ev ws. induction ws as [|w ws IH]; intros m; cbn [collect_peers].
  - split; [|discriminate]. intros ps E. injection E as <-. split; [intros w []|]. intros a. split; auto.
    intros [A|(w & [] & _)]; auto.
  - destruct (ev_trim ev w) as [|t ts] eqn:T.
    + destruct (IH m) as [A B]. split.
      * intros ps E. destruct (A ps E) as [A1 A2]. split.
        -- intros w' [<-|I] N; [now rewrite T in N|]. auto.
        -- intros a. rewrite A2. split; (intros [I|(w' & I & Q)]; [auto|]).
           ++ right. exists w'. cbn; auto.
           ++ destruct I as [<-|I]; [destruct Q as [Q _]; now rewrite T in Q|]. right. eauto.
      * intros E. destruct (B E) as (w' & I & Q). exists w'. cbn; auto.
    + destruct (ev_addr ev (t :: ts)) as [p|] eqn:P.
      * destruct (IH (add_addr p m)) as [A B]. split.
        -- intros ps E. destruct (A ps E) as [A1 A2]. split.
           ++ intros w' [<-|I] N; [rewrite T, P; eauto|]. auto.
           ++ intros a. rewrite A2, add_addr_In. split.
              ** intros [[->|I]|(w' & I & Q)]; auto; right; [exists w|exists w']; cbn; auto.
                 rewrite T. split; auto. split; [discriminate|auto].
              ** intros [I|(w' & [<-|I] & Q)]; auto; [|right; eauto]. left. left. rewrite T, P in Q. destruct Q as [_ Q]. congruence.
        -- intros E. destruct (B E) as (w' & I & Q). exists w'. cbn; auto.
      * split; [discriminate|]. intros _. exists w. rewrite T. split; [now left|]. split; [discriminate|auto].
Qed.
Lemma get_peers_spec : forall ev q,
  (forall ps, get_peers ev q = Some ps -> well_formed ev q /\ forall a, In a ps <-> asks ev q a) /\
  (get_peers ev q = None -> ~ well_formed ev q).
Proof.
  intros ev q. unfold get_peers. destruct (collect_spec ev (split_comma q) []) as [A B]. split.
  - intros ps E. destruct (A ps E) as [A1 A2]. split.
    + intros w I N. apply A1; auto. now apply split_item.
    + intros a. rewrite A2. unfold asks. split.
      * intros [[]|(w & I & Q)]. exists w. split; auto. now apply split_item.
      * intros (w & I & Q). right. exists w. split; auto. now apply split_item.
  - intros E W. destruct (B E) as (w & I & N & Q). destruct (W w) as [a X]; auto; [now apply split_item|]. congruence.
Qed.

(** * Forks *)
Lemma answer_reply : forall A (enc : A -> bool) o a, answer enc o = Reply a <-> o = Ok a /\ enc a = true.
Proof.
  intros A enc o a. destruct o as [x| | |]; cbn [answer]; try (split; [discriminate|intros [Q _]; discriminate Q]).
  destruct (enc x) eqn:E; split; try discriminate.
  - intros Q. injection Q as ->. auto.
  - intros [Q _]. injection Q as ->. reflexivity.
  - intros [Q1 Q2]. injection Q1 as ->. congruence.
Qed.
Lemma standing_forks : forall g ops l o ps fs (P : addr -> Prop), reachable g ops l -> fair o ->
  forks (or_groups o) (or_forks o) l ps = Ok fs -> (forall a, (ps = [] \/ In a ps) <-> P a) -> forks_of l P fs.
Proof.
  intros g ops l o ps fs P H (O1 & O2 & _) F E. destruct (p_forks_partition H O1 O2 F) as (A & B & C).
  split; auto. split.
  - intros i. rewrite B. unfold standing. split; intros (a & L & Q); exists a; split; auto; now apply E.
  - intros f I. destruct (C f I) as (C1 & C2 & C3 & C4). split; auto. split; auto. intros a. rewrite C2. unfold standing.
    now rewrite E.
Qed.
Lemma asks_nil : forall ev q ps, (forall a, In a ps <-> asks ev q a) -> (ps = [] <-> asks_all ev q).
Proof.
  intros ev q ps A. split.
  - intros -> a Q. now apply A in Q.
  - intros N. destruct ps as [|a ps]; auto. exfalso. apply (N a), A. now left.
Qed.

Lemma a_forks : forall g ops l ev o q fs, reachable g ops l -> fair o -> api_forks ev o l q = Reply fs ->
  well_formed ev q /\ forks_of l (fun a => asks_all ev q \/ asks ev q a) fs.
Proof.
  intros g ops l ev o q fs H O R. unfold api_forks in R. destruct (get_peers ev q) as [ps|] eqn:G; [|discriminate].
  destruct (proj1 (get_peers_spec ev q) _ G) as [W A]. split; auto. apply answer_reply in R as [R _].
  eapply standing_forks; eauto. intros a. rewrite <- A, <- (asks_nil A). reflexivity.
Qed.
Lemma a_forks_400 : forall l ev o q, api_forks ev o l q = Code 400 <-> ~ well_formed ev q.
Proof.
  intros l ev o q. unfold api_forks. destruct (get_peers ev q) as [ps|] eqn:G.
  - destruct (proj1 (get_peers_spec ev q) _ G) as [W A]. split; [|now intros].
    destruct (forks _ _ l ps); cbn [answer]; try discriminate. destruct (forallb _ _); discriminate.
  - split; auto. intros _. now apply (proj2 (get_peers_spec ev q)).
Qed.

(** ** Active forks *)
Lemma connections_addrs : forall r ord srt cs, permutes ord -> permutes srt -> connections ord srt r = Ok cs ->
  forall a, In a (map p_addr cs) <-> connected r a.
Proof.
  intros r ord srt cs PO PS E a. unfold connections in E.
  destruct (mapM _ (ord (r_conns r))) as [ps| | |] eqn:M; try discriminate. cbn [bind] in E. injection E as <-.
  assert (Q : map p_addr ps = map fst (ord (r_conns r))).
  { eapply mapM_map; [exact M|]. intros [b c] p _ X. cbn [fst snd] in *. destruct (get_peer (r_db r) b) as [q| | |] eqn:G; try discriminate.
    cbn [bind] in X. injection X as <-. cbn. eapply get_peer_fields, G. }
  unfold connected. split; intros I.
  - apply (Permutation_in _ (Permutation_map p_addr (PS ps))) in I. rewrite Q in I.
    apply (Permutation_in _ (Permutation_map fst (PO (r_conns r)))) in I. exact I.
  - apply (Permutation_in _ (Permutation_map p_addr (Permutation_sym (PS ps)))). rewrite Q.
    apply (Permutation_in _ (Permutation_map fst (Permutation_sym (PO (r_conns r))))). exact I.
Qed.
Lemma select_In : forall ps cs a, In a (select_conns ps cs) <-> In a (map p_addr cs) /\ (ps = [] \/ In a ps).
Proof.
  intros ps cs a. unfold select_conns.
  assert (Q : forall cs m, In a (fold_left (fun m c => if negb (Nat.eqb (length ps) 0) && negb (has_addr (p_addr c) ps) then m
                        else add_addr (p_addr c) m) cs m) <-> In a m \/ (In a (map p_addr cs) /\ (ps = [] \/ In a ps))).
  { clear cs. induction cs as [|c cs IH]; intros m; cbn [fold_left map In]; [tauto|]. rewrite IH.
    destruct (negb (Nat.eqb (length ps) 0) && negb (has_addr (p_addr c) ps)) eqn:E.
    - assert (NI : ~ (ps = [] \/ In (p_addr c) ps)).
      { intros [->|I]; [discriminate|]. apply has_addr_spec in I. rewrite I, andb_false_r in E. discriminate. }
      split; [tauto|]. intros [A|[[<-|A] B]]; auto. contradiction.
    - assert (YI : ps = [] \/ In (p_addr c) ps).
      { destruct ps as [|x ps]; auto. right. apply has_addr_spec. cbn [length Nat.eqb negb andb] in E. now destruct (has_addr _ _). }
      rewrite add_addr_In. split.
      + intros [[->|A]|[A B]]; auto.
      + intros [A|[[<-|A] B]]; auto. }
  rewrite Q. cbn. tauto.
Qed.
Lemma a_active : forall g ops l ev o r q fs, reachable g ops l -> fair o -> api_active_forks ev o l r q = Reply fs ->
  let P a := connected r a /\ (asks_all ev q \/ asks ev q a) in
  well_formed ev q /\
  ((exists a, P a) -> forks_of l P fs) /\ ((forall a, ~ P a) -> forks_of l (fun _ => True) fs).
Proof.
  intros g ops l ev o r q fs H O R P. unfold api_active_forks in R. destruct (get_peers ev q) as [ps|] eqn:G; [|discriminate].
  destruct (proj1 (get_peers_spec ev q) _ G) as [W A]. split; auto. apply answer_reply in R as [R _].
  destruct (connections (or_conns o) (or_peers o) r) as [cs| | |] eqn:C; try discriminate. cbn [bind] in R.
  assert (PO := O). destruct PO as (_ & _ & _ & _ & O5 & O6).
  assert (E : forall a, In a (select_conns ps cs) <-> P a).
  { intros a. rewrite select_In, (connections_addrs O5 O6 C). unfold P. now rewrite <- A, <- (asks_nil A). }
  split.
  - intros [a0 P0]. eapply standing_forks; eauto. intros a. rewrite E. split; auto. intros [N|]; auto.
    apply E in P0. rewrite N in P0. destruct P0.
  - intros N. eapply standing_forks; eauto. intros a. split; auto. intros _. left.
    destruct (select_conns ps cs) as [|x xs] eqn:S; auto. exfalso. apply (N x), E. now left.
Qed.

(** ** One peer *)
Lemma leashed_of : forall g ops l a, reachable g ops l -> wf_addr a -> a <> all_ones -> has_leash l a = Ok true -> exists i, leashed l a i.
Proof.
  intros g ops l a H W N HL. destruct (reach_view H) as (s & Es & R & _). assert (HL' := HL). rewrite (v_has_leash R W) in HL.
  destruct (st_leash s a) as [i|] eqn:E; [|discriminate]. exists i. split; auto. split; auto. split; auto. rewrite (v_leash R W), E. reflexivity.
Qed.
Lemma leashed_wf_id : forall g ops l a i, reachable g ops l -> leashed l a i -> wf_id i.
Proof. intros g ops l a i H L. destruct (ls_view H) as (ls & _ & _ & EQ & W). eapply W, EQ, L. Qed.

Lemma a_fork_codes : forall g ops l ev o s, reachable g ops l ->
  (api_fork ev o l s = Code 400 <-> ev_addr ev s = None) /\
  (forall a, ev_addr ev s = Some a -> wf_addr a -> (api_fork ev o l s = Code 404 <-> has_leash l a = Ok false)).
Proof.
  intros g ops l ev o s H. unfold api_fork. split.
  - destruct (ev_addr ev s) as [a|]; [|tauto]. split; [|discriminate].
    destruct (has_leash l a) as [[]| | |]; try discriminate.
    destruct (fork_of _ l a) as [f| | |]; cbn [answer]; try discriminate. destruct (enc_fork ev f); discriminate.
  - intros a -> W. destruct (has_leash l a) as [[]| | |]; try (split; discriminate); try tauto.
    split; [|discriminate]. destruct (fork_of _ l a) as [f| | |]; cbn [answer]; try discriminate. destruct (enc_fork ev f); discriminate.
Qed.
Lemma a_fork_reply : forall ev o l s f, api_fork ev o l s = Reply f ->
  exists a, ev_addr ev s = Some a /\ has_leash l a = Ok true /\ fork_of (or_groups o) l a = Ok f.
Proof.
  intros ev o l s f R. unfold api_fork in R. destruct (ev_addr ev s) as [a|]; [|discriminate]. exists a. split; auto.
  destruct (has_leash l a) as [[]| | |]; try discriminate. apply answer_reply in R as [R _]. auto.
Qed.
Lemma a_fork : forall g ops l ev o s a f, reachable g ops l -> fair o -> ev_addr ev s = Some a -> wf_addr a -> a <> all_ones ->
  api_fork ev o l s = Reply f -> exists i lg, leashed l a i /\ best_block (hist g ops) l [] lg /\ f_head f = i /\
    NoDup (f_peers f) /\ (forall p, In p (f_peers f) <-> leashed l p i) /\ describes l f /\ (f_longest f = true <-> i = lg) /\
    is_lca (hist g ops) lg i (f_lcb f) /\
    f_length f = (Z.of_N (f_height f) - Z.of_nat (height (hist g ops) (f_lcb f)))%Z.
Proof.
  intros g ops l ev o s a f H O EA W N R. destruct (a_fork_reply R) as (a' & EA' & HL & F).
  assert (a' = a) by congruence. subst a'. destruct (leashed_of H W N HL) as [i L]. exists i.
  destruct (p_fork H (proj1 O) L F) as (lg & A1 & A2 & A3 & A4 & A5 & A6 & A7 & A8 & A9 & _). exists lg. auto 12.
Qed.
Lemma a_fork_total : forall g ops l ev o s a i, reachable g ops l -> fair o -> ev_addr ev s = Some a -> leashed l a i ->
  (forall b j, leashed l b j -> exists x, block l j = Ok x /\ ev_date ev (b_ts x) = true) ->
  (forall j k, best_block (hist g ops) l [] j -> is_lca (hist g ops) j i k ->
     safe (Nat.min (height (hist g ops) j) (height (hist g ops) i) - height (hist g ops) k) (height (hist g ops) k)) ->
  exists f, api_fork ev o l s = Reply f.
Proof.
  intros g ops l ev o s a i H O EA L BL SF. unfold api_fork. rewrite EA. destruct L as (W & N & HL & LA) eqn:LE. rewrite HL.
  destruct (p_fork_total H (proj1 O) L) as [[f F] _].
  { intros b j B. destruct (BL b j B) as (x & X & _). eauto. }
  { exact SF. }
  rewrite F. exists f. cbn [answer]. destruct (p_fork H (proj1 O) L F) as (lg & A1 & A2 & A3 & A4 & A5 & (b & B1 & B2 & B3 & B4 & B5) & _).
  unfold enc_fork. rewrite B5. rewrite A2 in B1. destruct (BL a i L) as (x & X & D). assert (x = b) by congruence. subst x. now rewrite D.
Qed.

Lemma a_generators_codes : forall l ev o s n,
  (api_generators ev o l s n = Code 400 <-> ev_addr ev s = None \/ ev_atoi ev n = None) /\
  (forall a c, ev_addr ev s = Some a -> ev_atoi ev n = Some c -> (api_generators ev o l s n = Code 404 <-> has_leash l a = Ok false)).
Proof.
  intros l ev o s n. unfold api_generators. split.
  - destruct (ev_addr ev s) as [a|]; [|tauto]. destruct (ev_atoi ev n) as [c|]; [|tauto].
    split; [|intros [Q|Q]; discriminate]. destruct (has_leash l a) as [[]| | |]; try discriminate.
    match goal with |- answer _ ?x = _ -> _ => destruct x; discriminate end.
  - intros a c -> ->. destruct (has_leash l a) as [[]| | |]; try (split; discriminate); try tauto.
    split; [|discriminate]. match goal with |- answer _ ?x = _ -> _ => destruct x; discriminate end.
Qed.
Lemma a_generators : forall g ops l ev o s n a c st, reachable g ops l -> fair o -> ev_addr ev s = Some a -> wf_addr a ->
  a <> all_ones -> ev_atoi ev n = Some c -> api_generators ev o l s n = Reply st ->
  exists i lg k, leashed l a i /\ best_block (hist g ops) l [] lg /\ is_lca (hist g ops) lg i k /\
    let m := if Z.eqb c 0 then (if id_eqb i lg then 1000 else height (hist g ops) i - height (hist g ops) k) else Z.to_nat c in
    let gs := map e_gen (firstn m (chain (hist g ops) i)) in
    (0 <= c)%Z /\ NoDup (map fst st) /\ (forall x, In x (map fst st) <-> In x gs) /\
    (forall x k, In (x, k) st -> k = occurrences x gs) /\ StronglySorted (fun x y => snd y <= snd x) st.
Proof.
  intros g ops l ev o s n a c st H O EA W N EN R. unfold api_generators in R. rewrite EA, EN in R.
  destruct (has_leash l a) as [[]| | |] eqn:HL; try discriminate. destruct (leashed_of H W N HL) as [i L].
  apply answer_reply in R as [R _]. destruct (fork_of (or_groups o) l a) as [f| | |] eqn:F; try discriminate. cbn [bind] in R.
  cbv zeta in R. destruct (p_fork H (proj1 O) L F) as (lg & A1 & A2 & A3 & A4 & A5 & A6 & A7 & A8 & A9 & A10 & A11).
  exists i, lg, (f_lcb f). split; auto. split; auto. split; auto. cbv zeta. rewrite A2 in R.
  destruct O as (O1 & O2 & O3 & O4 & _).
  assert (WI := leashed_wf_id H L).
  assert (HI : f_height f = N.of_nat (height (hist g ops) i)).
  { destruct A6 as (b & B & B1 & _). rewrite A2 in B. destruct (one_view H) as (s0 & HE & R0 & SM & _). rewrite HE.
    rewrite B1. apply (block_facts R0 SM WI B). }
  assert (NNC : (0 <= c)%Z).
  { destruct (Z.eqb_spec c 0) as [->|]; [lia|]. destruct (Z.ltb_spec c 0); [|lia]. exfalso. unfold fork_generators, get_blocks in R.
    destruct (get_num_of_block_id (lk_db l) i); try discriminate. cbn [bind] in R.
    destruct (Z.ltb_spec c 0); [discriminate|lia]. }
  split; auto.
  set (cc := if Z.eqb c 0 then if f_longest f then 1000%Z else f_length f else c) in *.
  assert (CC : (0 <= cc)%Z) by (unfold cc; destruct (Z.eqb c 0); [destruct (f_longest f); lia|auto]).
  destruct (p_generators H O3 O4 WI CC R) as (_ & G). cbv zeta in G.
  replace (if (c =? 0)%Z then if id_eqb i lg then 1000 else height (hist g ops) i - height (hist g ops) (f_lcb f) else Z.to_nat c)
    with (Z.to_nat cc); [exact G|].
  unfold cc. destruct (Z.eqb c 0); [|reflexivity]. destruct (id_eqb_spec i lg) as [E|E].
  - apply A7 in E. now rewrite E.
  - destruct (f_longest f); [exfalso; apply E, A7; reflexivity|]. rewrite A9, HI. lia.
Qed.
Lemma a_generators_negative : forall g ops l ev o s n a c, reachable g ops l -> fair o -> ev_addr ev s = Some a -> wf_addr a ->
  a <> all_ones -> ev_atoi ev n = Some c -> (c < 0)%Z -> has_leash l a = Ok true ->
  forall st, api_generators ev o l s n <> Reply st.
Proof.
  intros g ops l ev o s n a c H O EA W N EN NC HL st R.
  destruct (a_generators H O EA W N EN R) as (i & lg & k & _ & _ & _ & NN & _). lia.
Qed.

(** ** Leashes *)
Lemma a_leashes : forall g ops l ev o srt r, reachable g ops l -> fair o -> sorts leash_less srt ->
  api_leashes ev o srt l = Reply r ->
  NoDup (map li_id r) /\ (forall i, In i (map li_id r) <-> exists a, leashed l a i) /\ StronglySorted leash_ge r /\
  forall e, In e r -> NoDup (li_peers e) /\ (forall a, In a (li_peers e) <-> leashed l a (li_id e)) /\
    li_count e = length (li_peers e) /\
    exists b, block l (li_id e) = Ok b /\ li_height e = b_height b /\ li_score e = b_score b /\ li_ts e = b_ts b /\ li_gen e = b_gen b.
Proof.
  intros g ops l ev o srt r H (OM & _) SS R. unfold api_leashes in R. apply answer_reply in R as [R _]. unfold lk_leashes in R.
  destruct (one_view H) as (s & HE & R0 & SM & _). destruct (ls_view H) as (ls & LS & ND & EQ & WFI). rewrite LS in R. cbn [bind] in R.
  match type of R with context [mapM ?f ?m] => destruct (mapM f m) as [r0| | |] eqn:M end; try discriminate. cbn [bind] in R.
  injection R as <-. destruct (SS r0) as [PM SO].
  assert (G : grouped ls (or_groups o (group_leashes ls))) by (eapply grouped_perm; [apply grouped_leashes|apply OM]).
  destruct G as (GND & GK & GP).
  assert (EL : forall x y, In x (or_groups o (group_leashes ls)) ->
    (do b <- block l (fst x); Ok {| li_id := b_id b; li_height := b_height b; li_score := b_score b; li_ts := b_ts b;
       li_gen := b_gen b; li_count := length (snd x); li_peers := snd x |}) = Ok y ->
    li_id y = fst x /\ li_peers y = snd x /\ li_count y = length (snd x) /\
    exists b, block l (fst x) = Ok b /\ li_height y = b_height b /\ li_score y = b_score b /\ li_ts y = b_ts b /\ li_gen y = b_gen b).
  { intros x y I E. destruct (block l (fst x)) as [b| | |] eqn:B; try discriminate. cbn [bind] in E. injection E as <-. cbn.
    assert (W : wf_id (fst x)).
    { eapply head_wf; [exact WFI|]. apply GK. now apply in_map. }
    split; [apply (block_facts R0 SM W B)|]. split; auto. split; auto. exists b. auto. }
  assert (IDS : map li_id r0 = map fst (or_groups o (group_leashes ls))).
  { eapply mapM_map; [exact M|]. intros x y I E. apply (EL x y I E). }
  assert (PI : Permutation (map li_id (srt r0)) (map fst (or_groups o (group_leashes ls)))).
  { rewrite <- IDS. now apply Permutation_map. }
  split. { eapply Permutation_NoDup; [apply Permutation_sym, PI|exact GND]. }
  split.
  { intros i. transitivity (In i (map fst (or_groups o (group_leashes ls)))).
    - split; apply Permutation_in; auto. now apply Permutation_sym.
    - rewrite GK. rewrite in_map_iff. split.
      + intros ([a j] & E & I). cbn in E. subst j. exists a. now apply EQ.
      + intros [a L]. exists (a, i). split; auto. now apply EQ. }
  split.
  { clear - SO. induction SO as [|x xs SO IH F]; constructor; auto. eapply Forall_impl; [|exact F]. intros y Y. cbv beta in Y.
    unfold leash_less in Y. unfold leash_ge. destruct (Z.compare_spec (li_score y) (li_score x)); [right|left; lia|discriminate].
    split; [lia|]. apply Nat.ltb_ge in Y. exact Y. }
  intros e I. apply (Permutation_in _ PM) in I. destruct (mapM_In M I) as (x & IX & E). destruct (EL x e IX E) as (E1 & E2 & E3 & E4).
  destruct x as [i ps]. cbn [fst snd] in *. rewrite E1, E2, E3. rewrite (GP _ _ IX). split; [now apply on_block_NoDup|].
  split; [intros a; rewrite on_block_In; apply EQ|]. split; auto.
Qed.
Lemma a_leashes_total : forall g ops l ev o srt, reachable g ops l -> fair o -> sorts leash_less srt ->
  (forall a i, leashed l a i -> exists b, block l i = Ok b /\ ev_date ev (b_ts b) = true) ->
  exists r, api_leashes ev o srt l = Reply r.
Proof.
  intros g ops l ev o srt H (OM & _) SS BL. destruct (ls_view H) as (ls & LS & ND & EQ & WFI).
  assert (G : grouped ls (or_groups o (group_leashes ls))) by (eapply grouped_perm; [apply grouped_leashes|apply OM]).
  destruct G as (GND & GK & GP).
  set (f := fun g => do b <- block l (fst g); Ok {| li_id := b_id b; li_height := b_height b; li_score := b_score b; li_ts := b_ts b;
       li_gen := b_gen b; li_count := length (snd g); li_peers := snd g |}).
  assert (BX : forall x, In x (or_groups o (group_leashes ls)) -> exists b, block l (fst x) = Ok b /\ ev_date ev (b_ts b) = true).
  { intros x I. assert (Q : In (fst x) (map snd ls)) by (apply GK; now apply in_map).
    apply in_map_iff in Q as ([a j] & E & Q). cbn in E. subst j. apply EQ in Q. eauto. }
  destruct (@mapM_all _ _ f (or_groups o (group_leashes ls))) as [r0 M].
  { intros x I. destruct (BX x I) as (b & B & _). unfold f. rewrite B. cbn. eauto. }
  exists (srt r0). unfold api_leashes. apply answer_reply. unfold lk_leashes. rewrite LS. cbn [bind]. fold f. rewrite M. cbn [bind].
  split; auto. apply forallb_forall. intros y I. apply (Permutation_in _ (proj1 (SS r0))) in I.
  destruct (mapM_In M I) as (x & IX & E). destruct (BX x IX) as (b & B & D). unfold f in E. rewrite B in E. cbn [bind] in E.
  injection E as <-. exact D.
Qed.
Lemma a_forks_total : forall g ops l ev o q, reachable g ops l -> fair o -> well_formed ev q ->
  (exists a i, leashed l a i /\ (asks_all ev q \/ asks ev q a)) ->
  (forall a i, leashed l a i -> exists b, block l i = Ok b /\ ev_date ev (b_ts b) = true) ->
  (forall a i b j k, leashed l a i -> leashed l b j -> is_lca (hist g ops) i j k ->
     safe (Nat.min (height (hist g ops) i) (height (hist g ops) j) - height (hist g ops) k) (height (hist g ops) k)) ->
  exists fs, api_forks ev o l q = Reply fs.
Proof.
  intros g ops l ev o q H O W (a0 & i0 & L0 & P0) BL SF. unfold api_forks.
  destruct (get_peers ev q) as [ps|] eqn:G; [|now apply (proj2 (get_peers_spec ev q)) in G].
  destruct (proj1 (get_peers_spec ev q) _ G) as [_ A]. destruct O as (O1 & O2 & _).
  destruct (@p_forks_total _ _ _ H (or_groups o) (or_forks o) ps O1 O2) as [fs F].
  - exists a0, i0. split; auto. rewrite <- A, <- (asks_nil A) in P0. exact P0.
  - intros a i [L _]. destruct (BL a i L) as (b & B & _). eauto.
  - intros a i b j k [L1 _] [L2 _]. eauto.
  - exists fs. apply answer_reply. split; auto. apply forallb_forall. intros f I.
    destruct (p_forks_partition H O1 O2 F) as (_ & PB & PC). destruct (PC f I) as (_ & _ & _ & b & B1 & B2 & B3 & B4 & B5).
    destruct (proj1 (PB (f_head f)) (in_map _ _ _ I)) as (a & L & _). destruct (BL _ _ L) as (b' & B' & D).
    unfold enc_fork. rewrite B5. congruence.
Qed.

(** ** Heads *)
Lemma a_heads : forall g ops l ev r, reachable g ops l -> api_heads ev l = Reply r ->
  exists hs p, lk_heads l = Ok hs /\ (forall n i, p (n, i) = true <-> exists a, leashed l a i) /\
    Forall2 (head_of l) (filter p hs) r.
Proof.
  intros g ops l ev r H R. destruct (p_active_heads H) as (hs & p & A & B & C). exists hs, p. split; auto. split; auto.
  unfold api_heads in R. apply answer_reply in R as [R _]. rewrite B in R. cbn [bind] in R. apply mapM_Ok_inv in R.
  eapply Forall2_imp; [|exact R]. intros h e E. cbv beta in E. destruct (block l (snd h)) as [b| | |] eqn:BB; try discriminate. cbn [bind] in E.
  injection E as <-. split; [reflexivity|]. split; [reflexivity|]. exists b. auto.
Qed.
Lemma a_heads_total : forall g ops l ev, reachable g ops l ->
  (forall a i, leashed l a i -> exists b, block l i = Ok b /\ ev_date ev (b_ts b) = true) ->
  exists r, api_heads ev l = Reply r.
Proof.
  intros g ops l ev H BL. destruct (p_active_heads H) as (hs & p & A & B & C). 
  assert (BX : forall h, In h (filter p hs) -> exists b, block l (snd h) = Ok b /\ ev_date ev (b_ts b) = true).
  { intros [n i] I. apply filter_In in I as [_ I]. apply C in I as [a L]. eauto. }
  set (f := fun h => do b <- block l (snd h); Ok {| hi_number := fst h; hi_id := snd h; hi_height := b_height b; hi_score := b_score b; hi_ts := b_ts b |}).
  destruct (@mapM_all _ _ f (filter p hs)) as [r M].
  { intros x I. destruct (BX x I) as (b & E & _). unfold f. rewrite E. cbn. eauto. }
  exists r. unfold api_heads. apply answer_reply. rewrite B. cbn [bind]. fold f. rewrite M. split; auto.
  apply forallb_forall. intros y I. destruct (mapM_In M I) as (x & IX & E). destruct (BX x IX) as (b & BB & D). unfold f in E. rewrite BB in E.
  cbn [bind] in E. injection E as <-. exact D.
Qed.

(** ** Status *)
Lemma counts_le : forall (P Q : addr -> Prop) m n, counts P m -> counts Q n -> (forall a, P a -> Q a) -> m <= n.
Proof.
  intros P Q m n (xs & N1 & I1 & <-) (ys & N2 & I2 & <-) S. apply NoDup_incl_length; auto. intros a A. apply I2, S, I1, A.
Qed.
Lemma a_status : forall cfg rops r l o st, rreach cfg rops r -> fair o -> api_status o l r = Reply st ->
  (exists fs, forks (or_groups o) (or_forks o) l [] = Ok fs /\
     s_long st = length (filter (fun f => (5 <? f_length f)%Z) fs) /\ s_short st + s_long st = length fs) /\
  counts (fun a => ip4 a /\ known r a) (s_all st) /\
  counts (fun a => ip4 a /\ exists p, reg_peer r a = Ok p /\ p_state p = PeerConnected) (s_friendly st) /\
  counts (connected r) (s_connected st) /\ s_friendly st <= s_all st /\ s_connected st <= s_all st.
Proof.
  intros cfg rops r l o st RR O R. destruct O as (O1 & O2 & O3 & O4 & O5 & O6).
  unfold api_status in R. apply answer_reply in R as [R _].
  destruct (stats (or_groups o) (or_forks o) l) as [sl| | |] eqn:S; try discriminate. cbn [bind] in R.
  destruct (q_peers RR O6) as (al & A & ND & AI). rewrite A in R. cbn [bind] in R.
  destruct (friendly_peers (or_peers o) r) as [fr| | |] eqn:F; try discriminate. cbn [bind] in R.
  destruct (connections (or_conns o) (or_peers o) r) as [cs| | |] eqn:C; try discriminate. cbn [bind] in R. injection R as <-.
  cbn [s_short s_long s_all s_friendly s_connected].
  assert (INV := rreach_inv RR).
  assert (CA : counts (fun a => ip4 a /\ known r a) (length al)).
  { exists (map p_addr al). split; auto. split; [|apply map_length]. intros a. rewrite in_map_iff. split.
    - intros (p & <- & I). apply AI in I as [I1 I2]. split; auto. now exists p.
    - intros [I4 [p E]]. exists p. assert (PA : p_addr p = a) by (eapply get_peer_fields, E). split; auto. apply AI. now rewrite PA. }
  assert (CF : counts (fun a => ip4 a /\ exists p, reg_peer r a = Ok p /\ p_state p = PeerConnected) (length fr)).
  { unfold friendly_peers in F. rewrite (all_peers_view INV) in F. cbn [bind] in F. injection F as <-.
    set (ps := map _ (r_db r)). assert (AP : all_peers (r_db r) = Ok ps) by apply (all_peers_view INV).
    assert (P := O6 (filter is_friend ps)). exists (map p_addr (filter is_friend ps)). split; [|split].
    - apply NoDup_filter_map. apply (all_peers_NoDup INV AP).
    - intros a. rewrite in_map_iff. split.
      + intros (p & <- & I). apply filter_In in I as [I B]. apply (all_peers_In p INV AP) in I as [I1 I2]. split; auto. exists p. split; auto.
        unfold is_friend in B. now destruct (p_state p).
      + intros [I4 (p & E & ST)]. exists p. assert (PA : p_addr p = a) by (eapply get_peer_fields, E). split; auto. apply filter_In.
        split; [apply (all_peers_In p INV AP); now rewrite PA|]. unfold is_friend. now rewrite ST.
    - rewrite map_length. symmetry. now apply Permutation_length. }
  assert (CC : counts (connected r) (length cs)).
  { exists (map p_addr cs). split; [|split].
    - unfold connections in C. destruct (mapM _ (or_conns o (r_conns r))) as [ps| | |] eqn:M; try discriminate. cbn [bind] in C. injection C as <-.
      assert (Q : map p_addr ps = map fst (or_conns o (r_conns r))).
      { eapply mapM_map; [exact M|]. intros [b c] p _ X. cbn [fst snd] in *. destruct (get_peer (r_db r) b) as [q| | |] eqn:G; try discriminate.
        cbn [bind] in X. injection X as <-. cbn. eapply get_peer_fields, G. }
      eapply Permutation_NoDup; [apply Permutation_map, Permutation_sym, O6|]. rewrite Q.
      eapply Permutation_NoDup; [apply Permutation_map, Permutation_sym, O5|]. apply INV.
    - exact (connections_addrs O5 O6 C).
    - apply map_length. }
  split. { destruct (proj1 (p_stats l (or_groups o) (or_forks o)) _ S) as (fs & FS & Q1 & Q2). exists fs. auto. }
  split; auto. split; auto. split; auto. split; eapply counts_le; eauto.
  - intros a (I4 & p & E & _). split; auto. now exists p.
  - intros a I. split; [now apply (I_conns4 INV)|]. apply (connections_addrs O5 O6 C) in I. apply in_map_iff in I as (p & <- & I).
    unfold connections in C. destruct (mapM _ (or_conns o (r_conns r))) as [ps| | |] eqn:M; try discriminate. cbn [bind] in C. injection C as <-.
    apply (Permutation_in _ (O6 ps)) in I. destruct (mapM_In M I) as ([b c] & _ & X). cbn [fst snd] in X.
    destruct (get_peer (r_db r) b) as [q| | |] eqn:G; try discriminate. cbn [bind] in X. injection X as <-. cbn [set_live p_addr].
    assert (PA : p_addr q = b) by (eapply get_peer_fields, G). rewrite PA. now exists q.
Qed.

(** * Parameters *)
Lemma split_no_comma : forall w, ~ In comma w -> split_comma w = [w].
Proof.
  induction w as [|x w IH]; intros N; auto. cbn [split_comma]. rewrite IH by (cbn [In] in N; tauto).
  destruct (N.eqb (Byte.to_N x) 44) eqn:C; auto. apply comma_eqb in C. subst. exfalso. apply N. now left.
Qed.
Lemma split_app : forall w q, ~ In comma w -> split_comma (w ++ comma :: q) = w :: split_comma q.
Proof.
  induction w as [|x w IH]; intros q N.
  - cbn [app split_comma]. replace (N.eqb (Byte.to_N comma) 44) with true; auto. 
  - cbn [app split_comma]. rewrite IH by (cbn [In] in N; tauto).
    destruct (N.eqb (Byte.to_N x) 44) eqn:C; auto. apply comma_eqb in C. subst. exfalso. apply N. now left.
Qed.
Lemma items_unique : forall q ws, items_of q ws -> ws = split_comma q.
Proof.
  intros q ws (NE & E & F). revert q E. induction ws as [|w ws IH]; intros q E; [now destruct NE|]. inversion F; subst.
  destruct ws as [|w1 ws]; cbn [with_commas].
  - now rewrite split_no_comma.
  - rewrite split_app by auto. f_equal. apply IH; auto. discriminate.
Qed.
Lemma add_seeds_spec : forall ev ws r, trims ev ->
  (forall aps, Forall2 (fun w ap => ev_addrport ev (ev_trim ev w) = Some ap) (filter (fun w => negb (blank ev w)) ws) aps ->
     add_seeds ev ws r = Ok (r ++ aps)) /\
  ((forall aps, ~ Forall2 (fun w ap => ev_addrport ev (ev_trim ev w) = Some ap) (filter (fun w => negb (blank ev w)) ws) aps) ->
     exists e, add_seeds ev ws r = Err e).
Proof.
  intros ev ws r T. revert r. induction ws as [|w ws IH]; intros r; cbn [add_seeds filter].
  - split; [|intros N; exfalso; eapply N; constructor]. intros aps F. inversion F. now rewrite app_nil_r.
  - assert (BW : blank ev w = match ev_trim ev w with [] => true | _ => false end) by reflexivity.
    destruct (ev_trim ev w) as [|t ts] eqn:E; rewrite BW; cbn [negb].
    + apply IH.
    + rewrite <- E, T. destruct (ev_addrport ev (ev_trim ev w)) as [ap|] eqn:P.
      * destruct (IH (r ++ [ap])) as [A B]. split.
        -- intros aps F. inversion F as [|? y ? aps' Y F']; subst. assert (y = ap) by congruence. subst. rewrite (A _ F'). now rewrite <- app_assoc.
        -- intros N. apply B. intros aps F. apply (N (ap :: aps)). constructor; auto.
      * split; [|eauto]. intros aps F. inversion F; subst. congruence.
Qed.
Lemma mapM_Err : forall A B (f : A -> outcome B) l, (forall x, In x l -> (exists y, f x = Ok y) \/ (exists e, f x = Err e)) ->
  (exists r, mapM f l = Ok r) \/ (exists e, mapM f l = Err e).
Proof.
  induction l as [|x l IH]; intros H; cbn [mapM]; [left; eauto|].
  destruct (H x (or_introl eq_refl)) as [[y ->]|[e ->]]; [|right; exists e; reflexivity]. cbn [bind].
  destruct IH as [[r ->]|[e ->]]; [intros; apply H; now right| |]; cbn [bind]; [left|right]; eauto.
Qed.
Lemma versions_cases : forall ev s, (exists r, parse_versions ev s = Ok r) \/ (exists e, parse_versions ev s = Err e).
Proof. intros. apply mapM_Err. intros w _. destruct (ev_version ev w); eauto. Qed.
Lemma as4_v4 : forall a, v4 a -> exists b, as4 a = Ok b.
Proof.
  intros [|b|b z] V; cbn in *; [contradiction|eauto|]. destruct V as [t ->].
  exists t. reflexivity.
Qed.
Lemma as4_not : forall a, ~ v4 a -> as4 a = Panic.
Proof.
  intros [|b|b z] V; cbn [as4 v4] in *; auto; [now destruct V|]. destruct (beqb (firstn 12 b) (repeat x00 10 ++ [xff; xff])) eqn:E; auto. exfalso. apply V.
  apply beqb_eq in E. exists (skipn 12 b). rewrite <- (firstn_skipn 12 b) at 1. rewrite E. reflexivity.
Qed.
Lemma parse_address_cases : forall ev s,
  (only_v4 ev s -> exists x, parse_address ev s = Ok x) /\ (~ only_v4 ev s -> parse_address ev s = Panic).
Proof.
  intros ev s. unfold parse_address, only_v4. destruct (ev_addrport ev s) as [[a port]|]; split.
  - intros V. destruct (as4_v4 (V _ _ eq_refl)) as [b ->]. cbn. eauto.
  - intros N. rewrite as4_not; auto. intros V. apply N. intros a' p' E. injection E as <- <-. exact V.
  - eauto.
  - intros N. exfalso. apply N. discriminate.
Qed.
Lemma bind_cases : forall ev s, renders ev ->
  (bindable ev s -> exists x, check_bind ev s = Ok x /\ ev_addrport ev x = ev_addrport ev s) /\
  (~ bindable ev s -> exists e, check_bind ev s = Err e).
Proof.
  intros ev s RD. unfold check_bind, bindable. destruct s as [|c s]; [split; [intros [N _]; now destruct N|eauto]|].
  destruct (ev_addrport ev (c :: s)) as [ap|] eqn:E; split; eauto.
  - intros N. exfalso. apply N. split; [discriminate|eauto].
  - intros [_ [ap Q]]. discriminate.
Qed.
Lemma builtin_supported : forall n, (supported n -> exists r, builtin n = Ok r /\ length r = 5) /\ (~ supported n -> builtin n = Err EOther).
Proof. unfold supported. intros []; split; cbn; eauto; try (intros N; exfalso; apply N; auto); intros [Q|[Q|Q]]; discriminate. Qed.
Lemma seeds_cases : forall ev s n, (exists r, parse_seed_peers ev s n = Ok r) \/ (exists e, parse_seed_peers ev s n = Err e).
Proof.
  intros ev s n. unfold parse_seed_peers. destruct (builtin n) as [r|e| |] eqn:B; try (destruct n; discriminate B); cbn [bind]; [|eauto].
  revert r B. generalize (split_comma s). intros ws r _. revert r. induction ws as [|w ws IH]; intros r; cbn [add_seeds]; eauto.
  destruct (ev_trim ev w) as [|t ts]; auto. destruct (ev_addrport ev (ev_trim ev (t :: ts))); eauto.
Qed.

Lemma p_start_up : forall ev o, renders ev -> only_v4 ev (op_net o) -> only_v4 ev (op_declared o) -> returned (new_parameters ev o).
Proof.
  intros ev o RD V1 V2. unfold new_parameters.
  assert (CF : (exists x, check_folder ev (op_db o) = Ok x) \/ exists e, check_folder ev (op_db o) = Err e).
  { unfold check_folder. destruct (op_db o); eauto. destruct (ev_dir ev _); eauto. }
  destruct CF as [[x ->]|[e ->]]; [|exact I]. cbn [bind]. destruct (op_network o) as [n|]; [|exact I]. cbn [bind].
  destruct (seeds_cases ev (op_peers o) n) as [[sp ->]|[e ->]]; [|exact I]. cbn [bind].
  destruct (versions_cases ev (op_versions o)) as [[vs ->]|[e ->]]; [|exact I]. cbn [bind].
  assert (BD : forall s, (exists x, check_bind ev s = Ok x /\ ev_addrport ev x = ev_addrport ev s) \/ exists e, check_bind ev s = Err e).
  { intros s. unfold check_bind. destruct s as [|c s]; eauto. destruct (ev_addrport ev (c :: s)) as [ap|] eqn:EP; eauto. }
  destruct (BD (op_api o)) as [(aa & -> & _)|[e ->]]; [|exact I]. cbn [bind].
  destruct (BD (op_net o)) as [(na & -> & EN)|[e ->]]; [|exact I]. cbn [bind].
  assert (CN : (exists x, check_name (op_name o) = Ok x) \/ exists e, check_name (op_name o) = Err e).
  { unfold check_name. destruct (op_name o); eauto. destruct (Nat.ltb _ _); eauto. }
  destruct CN as [[nm ->]|[e ->]]; [|exact I]. cbn [bind].
  destruct (proj1 (parse_address_cases ev na)) as [x1 ->]; [unfold only_v4 in *; now rewrite EN|]. cbn [bind].
  destruct (proj1 (parse_address_cases ev (op_declared o)) V2) as [x2 ->]. exact I.
Qed.
Lemma p_accepted : forall ev o p, renders ev -> trims ev -> new_parameters ev o = Ok p ->
  ev_dir ev (op_db o) = true /\ op_db o <> [] /\ (exists n b, op_network o = Some n /\ supported n /\ builtin n = Ok b /\
    forall ws, items_of (op_peers o) ws -> exists listed, pr_seeds p = b ++ listed /\
      Forall2 (fun w ap => ev_addrport ev (ev_trim ev w) = Some ap) (filter (fun w => negb (blank ev w)) ws) listed) /\
  (forall ws, items_of (op_versions o) ws -> Forall2 (fun w v => ev_version ev w = Some v) ws (pr_versions p)) /\
  bindable ev (op_api o) /\ bindable ev (op_net o) /\ 1 <= length (op_name o) <= 255 /\ pr_name p = op_name o /\
  (forall b port, ev_addrport ev (op_net o) = Some (A4 b, port) -> pr_net p = Some (b, port)) /\
  (forall b port, ev_addrport ev (op_declared o) = Some (A4 b, port) -> pr_declared p = Some (b, port)) /\
  (ev_addrport ev (op_declared o) = None -> pr_declared p = None) /\
  pr_db p = ev_clean ev (op_db o) /\ exists ap, ev_addrport ev (op_api o) = Some ap /\ pr_api p = ev_render ev ap.
Proof.
  intros ev o p RD T H. unfold new_parameters in H.
  destruct (check_folder ev (op_db o)) as [x| | |] eqn:CF; try discriminate. cbn [bind] in H.
  destruct (op_network o) as [n|]; [|discriminate]. cbn [bind] in H.
  destruct (parse_seed_peers ev (op_peers o) n) as [sp| | |] eqn:SP; try discriminate. cbn [bind] in H.
  destruct (parse_versions ev (op_versions o)) as [vs| | |] eqn:VS; try discriminate. cbn [bind] in H.
  destruct (check_bind ev (op_api o)) as [aa| | |] eqn:BA; try discriminate. cbn [bind] in H.
  destruct (check_bind ev (op_net o)) as [na| | |] eqn:BN; try discriminate. cbn [bind] in H.
  destruct (check_name (op_name o)) as [nm| | |] eqn:CN; try discriminate. cbn [bind] in H.
  destruct (parse_address ev na) as [nb| | |] eqn:PN; try discriminate. cbn [bind] in H.
  destruct (parse_address ev (op_declared o)) as [da| | |] eqn:PD; try discriminate. cbn [bind] in H.
  injection H as <-. cbn [pr_seeds pr_versions pr_name pr_net pr_declared pr_db pr_api].
  assert (FD : op_db o <> [] /\ ev_dir ev (op_db o) = true /\ x = ev_clean ev (op_db o)).
  { unfold check_folder in CF. destruct (op_db o); [discriminate|]. split; [discriminate|]. destruct (ev_dir ev _); [|discriminate]. split; [reflexivity|]. now injection CF as <-. }
  assert (AP : exists ap, ev_addrport ev (op_api o) = Some ap /\ aa = ev_render ev ap).
  { unfold check_bind in BA. destruct (op_api o); [discriminate|]. destruct (ev_addrport ev _) as [ap|]; [|discriminate]. injection BA as <-. eauto. }
  assert (BD : forall s y, check_bind ev s = Ok y -> bindable ev s /\ ev_addrport ev y = ev_addrport ev s).
  { intros s y E. unfold check_bind in E. destruct s as [|c s]; [discriminate|]. destruct (ev_addrport ev (c :: s)) as [ap|] eqn:EP; [|discriminate].
    injection E as <-. split; [|eapply RD, EP]. split; [discriminate|]. rewrite EP. eauto. }
  split; [apply FD|]. split; [apply FD|]. split.
  { unfold parse_seed_peers in SP. destruct (builtin n) as [b| | |] eqn:B; try discriminate. cbn [bind] in SP. exists n, b. split; auto. split.
    { unfold supported. destruct n; auto; discriminate. }
    split; auto. intros ws IW. rewrite (items_unique IW).
    assert (DEC : forall xs, (exists aps, Forall2 (fun w ap => ev_addrport ev (ev_trim ev w) = Some ap) xs aps) \/
       (forall aps, ~ Forall2 (fun w ap => ev_addrport ev (ev_trim ev w) = Some ap) xs aps)).
    { induction xs as [|w xs [[aps F]|N]]; [left; exists []; constructor| |].
      - destruct (ev_addrport ev (ev_trim ev w)) as [ap|] eqn:E; [left; exists (ap :: aps); constructor; auto|].
        right. intros aps' F'. inversion F'; subst. congruence.
      - right. intros aps F. inversion F; subst. eapply N; eauto. }
    destruct (add_seeds_spec (split_comma (op_peers o)) b T) as [A1 A2].
    destruct (DEC (filter (fun w => negb (blank ev w)) (split_comma (op_peers o)))) as [[aps F]|N].
    - exists aps. split; auto. rewrite (A1 _ F) in SP. now injection SP as <-.
    - destruct (A2 N) as [e E]. congruence. }
  split.
  { intros ws IW. rewrite (items_unique IW). unfold parse_versions in VS. apply mapM_Ok_inv in VS.
    eapply Forall2_imp; [|exact VS]. intros w v E. cbv beta in E. destruct (ev_version ev w); [now injection E as ->|discriminate]. }
  destruct (BD _ _ BA) as [B1 _]. destruct (BD _ _ BN) as [B2 EN]. split; auto. split; auto.
  unfold check_name in CN. destruct (op_name o) as [|c nm0] eqn:NM; [discriminate|]. destruct (Nat.ltb_spec 255 (length (c :: nm0))); [discriminate|].
  injection CN as <-. split; [cbn [length] in *; lia|]. split; auto. unfold parse_address in PN, PD. rewrite EN in PN. split.
  - intros b port E. rewrite E in PN. cbn in PN. now injection PN as <-.
  - split; [intros b port E; rewrite E in PD; cbn in PD; now injection PD as <-|]. split; [|split; [apply FD|exact AP]].
    intros E. rewrite E in PD. now injection PD as <-.
Qed.
Lemma p_complete : forall ev o n aps vs ws vws, renders ev -> trims ev ->
  op_db o <> [] -> ev_dir ev (op_db o) = true -> op_network o = Some n -> supported n ->
  items_of (op_peers o) ws -> Forall2 (fun w ap => ev_addrport ev (ev_trim ev w) = Some ap) (filter (fun w => negb (blank ev w)) ws) aps ->
  items_of (op_versions o) vws -> Forall2 (fun w v => ev_version ev w = Some v) vws vs ->
  bindable ev (op_api o) -> bindable ev (op_net o) -> 1 <= length (op_name o) <= 255 ->
  only_v4 ev (op_net o) -> only_v4 ev (op_declared o) ->
  exists p, new_parameters ev o = Ok p.
Proof.
  intros ev o n aps vs ws vws RD T D1 D2 EN SU IW F IV V BA BN NM V1 V2. unfold new_parameters.
  destruct (check_folder ev (op_db o)) as [x| | |] eqn:CF; [|unfold check_folder in CF; destruct (op_db o); [now destruct D1|rewrite D2 in CF; discriminate]..].
  cbn [bind]. rewrite EN. cbn [bind]. unfold parse_seed_peers. destruct (proj1 (builtin_supported n) SU) as (b & -> & _). cbn [bind].
  rewrite (items_unique IW) in F. rewrite (proj1 (add_seeds_spec _ b T) _ F). cbn [bind].
  assert (PV : parse_versions ev (op_versions o) = Ok vs).
  { unfold parse_versions. rewrite <- (items_unique IV). clear - V. induction V as [|w v ws vs E V IH]; cbn [mapM]; auto. rewrite E. cbn [bind]. now rewrite IH. }
  rewrite PV. cbn [bind]. destruct (proj1 (bind_cases (op_api o) RD) BA) as (aa & -> & _). cbn [bind].
  destruct (proj1 (bind_cases (op_net o) RD) BN) as (na & -> & E). cbn [bind].
  destruct (check_name (op_name o)) as [nm| | |] eqn:CN.
  2-4: exfalso; unfold check_name in CN; destruct (op_name o) as [|c nm0]; [cbn in NM; lia|]; destruct (Nat.ltb_spec 255 (length (c :: nm0))); [lia|discriminate].
  cbn [bind]. destruct (proj1 (parse_address_cases ev na)) as [x1 ->]; [unfold only_v4 in *; now rewrite E|]. cbn [bind].
  destruct (proj1 (parse_address_cases ev (op_declared o)) V2) as [x2 ->]. cbn. eauto.
Qed.
