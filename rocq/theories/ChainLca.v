(** The common-ancestor search: partial correctness, and the exact condition under which it panics. *)
From Verif Require Import Base Kv BytesFacts KvFacts ChainModel ChainSpec ChainTree ChainRep ChainQueries.
Set Implicit Arguments. Unset Strict Implicit.

Lemma pow2_pos : forall j, 1 <= 2 ^ j.
Proof. intros. pose proof (Nat.pow_nonzero 2 j). lia. Qed.

(** * Where two chains meet *)

Lemma meet_exists : forall l1 l2 : list entry, length l1 = length l2 ->
  (forall t a b, nth_error l1 t = Some a -> nth_error l2 t = Some b -> e_id a = e_id b -> skipn t l1 = skipn t l2) ->
  (exists t a, nth_error l1 t = Some a /\ nth_error l2 t = Some a) ->
  exists D a, nth_error l1 D = Some a /\ nth_error l2 D = Some a /\ skipn D l1 = skipn D l2 /\
    forall t x y, t < D -> nth_error l1 t = Some x -> nth_error l2 t = Some y -> e_id x <> e_id y.
Proof.
  induction l1 as [|x l1 IH]; intros l2 L S (t & a & A & B).
  - destruct t; discriminate.
  - destruct l2 as [|y l2]; [discriminate|].
    destruct (id_eqb_spec (e_id x) (e_id y)) as [E|E].
    + assert (Q := S 0 x y eq_refl eq_refl E). cbn in Q. injection Q as -> ->.
      exists 0, y. cbn. repeat split; auto. intros; lia.
    + destruct t as [|t]; [cbn in A, B; congruence|].
      destruct (IH l2) as (D & a' & A' & B' & C' & M).
      * cbn in L. lia.
      * intros t' a' b' P Q. apply (S (Datatypes.S t')); auto.
      * exists t, a. auto.
      * exists (Datatypes.S D), a'. cbn. repeat split; auto. intros t' x' y' T X Y. destruct t' as [|t']; cbn in X, Y.
        { congruence. }
        { eapply M; eauto. lia. }
Qed.

Lemma chain_eq_len : forall es, WF es -> forall i j t t' a,
  nth_error (chain es i) t = Some a -> nth_error (chain es j) t' = Some a ->
  length (chain es i) - t = length (chain es j) - t'.
Proof.
  intros es W i j t t' a A B. rewrite <- !skipn_length, <- (chain_skip W _ _ A), <- (chain_skip W _ _ B). reflexivity.
Qed.

Lemma meet : forall es, WF es -> forall i j, stored es i -> stored es j ->
  length (chain es i) = length (chain es j) ->
  exists D a, nth_error (chain es i) D = Some a /\ nth_error (chain es j) D = Some a /\
    (forall t x y, t < D -> nth_error (chain es i) t = Some x -> nth_error (chain es j) t = Some y -> e_id x <> e_id y).
Proof.
  intros es W i j SI SJ L. destruct (chain_last W) as (g & GP & GI & _ & Q).
  destruct (Q _ SI) as (ci & CI & _). destruct (Q _ SJ) as (cj & CJ & _).
  destruct (meet_exists (l1 := chain es i) (l2 := chain es j)) as (D & a & A & B & _ & M); auto.
  - intros t a b A B E.
    assert (a = b).
    { apply (entry_unique W); auto; eapply chain_In, nth_error_In; eauto. }
    subst b. now rewrite <- (chain_skip W _ _ A), <- (chain_skip W _ _ B).
  - exists (length ci), g. rewrite CI, CJ. rewrite CI, CJ, !app_length in L. cbn in L.
    rewrite !nth_error_app2 by lia. replace (length ci - length cj) with 0 by lia. rewrite Nat.sub_diag. auto.
  - exists D, a. auto.
Qed.

(** * Links *)

Lemma link_len : forall es i l, link_ok es i l -> forall j, j < length (sl_parents l) <-> 2 ^ j < length (chain es i).
Proof.
  intros es i l (_ & _ & L) j. rewrite <- nth_error_Some, L.
  destruct (nth_error (chain es i) (2 ^ j)) as [a|] eqn:A.
  - assert (S : stored es (e_id a)) by (apply In_stored; eapply chain_In, nth_error_In, A).
    apply num_of_stored in S as [n N]. unfold numN. rewrite N. cbn.
    assert (2 ^ j < length (chain es i)) by (apply nth_error_Some; congruence). split; auto. discriminate.
  - apply nth_error_None in A. split; [congruence|lia].
Qed.
Lemma link_parent : forall d s, Rep d s -> forall i l, link_ok (st_blocks s) i l -> forall j a,
  nth_error (chain (st_blocks s) i) (2 ^ j) = Some a ->
  exists n l', nth_error (sl_parents l) j = Some (N.of_nat n) /\ num_of (st_blocks s) (e_id a) = Some n /\
    get_link d (N.of_nat n) = Ok l' /\ link_ok (st_blocks s) (e_id a) l'.
Proof.
  intros d s R i l (_ & _ & L) j a A. rewrite L, A.
  assert (S : stored (st_blocks s) (e_id a)) by (apply In_stored; eapply chain_In, nth_error_In, A).
  apply num_of_stored in S as [n N]. destruct (rep_link R _ N) as (l' & G & K). exists n, l'.
  unfold numN. rewrite N. auto.
Qed.

Lemma u32_sub_small : forall a b, (b <= a)%N -> (a < 2 ^ 32)%N -> u32_sub a b = (a - b)%N.
Proof.
  intros a b B A. unfold u32_sub, u32. rewrite (N.mod_small b) by lia.
  replace (a + 2 ^ 32 - b)%N with ((a - b) + 1 * 2 ^ 32)%N by lia.
  rewrite N.mod_add by discriminate. apply N.mod_small. lia.
Qed.

Lemma of_nat_pow2 : forall j, N.of_nat (2 ^ j) = (2 ^ N.of_nat j)%N.
Proof. intros. rewrite Nat2N.inj_pow. reflexivity. Qed.

Section Lca.
  Variables (d : db) (s : state).
  Hypothesis R : Rep d s.
  Hypothesis SM : small (st_blocks s).
  Notation es := (st_blocks s).
  Let W : WF es := R_wf R.
  Let ln (i : id) := length (chain es i).

  Lemma ln_small : forall i, (N.of_nat (ln i) < 2 ^ 32)%N.
  Proof. intros i. unfold ln. pose proof (chain_length es i). unfold small in SM. lia. Qed.
  Lemma chain_head_nth : forall i, stored es i -> exists e, nth_error (chain es i) 0 = Some e /\ e_id e = i.
  Proof. intros i S. destruct (chain_hd S) as (e & c & C & ID & _). rewrite C. exists e. auto. Qed.
  Lemma ln_pos : forall i, stored es i -> 1 <= ln i.
  Proof. intros i S. unfold ln. destruct (chain_hd S) as (e & c & -> & _). cbn. lia. Qed.
  Lemma ln_anc : forall i t a, nth_error (chain es i) t = Some a -> ln (e_id a) = ln i - t /\ stored es (e_id a) /\ t < ln i.
  Proof.
    intros i t a A. unfold ln. rewrite (chain_skip W _ _ A), skipn_length. split; auto. split.
    - apply In_stored. eapply chain_In, nth_error_In, A.
    - apply nth_error_Some. congruence.
  Qed.
  Lemma nth_anc : forall i t a u, nth_error (chain es i) t = Some a ->
    nth_error (chain es (e_id a)) u = nth_error (chain es i) (t + u).
  Proof. intros i t a u A. now rewrite (chain_skip W _ _ A), nth_error_skipn. Qed.

  (** ** fastBackwardFarthest *)
  Lemma fast_backward_spec : forall k fuel i j f o, k <= fuel -> stored es i -> stored es j ->
    link_ok es i f -> link_ok es j o -> ln j <= ln i -> k <= length (sl_parents f) -> ln i - ln j < 2 ^ k ->
    exists a f', nth_error (chain es i) (ln i - ln j) = Some a /\ link_ok es (e_id a) f' /\
      fast_backward d fuel k f o = Ok f'.
  Proof.
    induction k as [k IH] using lt_wf_ind. intros fuel i j f o KF SI SJ LF LO HL KL D.
    destruct k as [|t].
    - cbn in D. replace (ln i - ln j) with 0 by lia. destruct (chain_head_nth SI) as (e & E & ID).
      exists e, f. rewrite ID. destruct fuel; auto.
    - destruct fuel as [|fuel]; [lia|]. cbn [fast_backward].
      assert (T : 2 ^ t < ln i) by (apply (link_len LF); lia).
      rewrite (proj1 LF), (proj1 LO). fold (ln i) (ln j).
      rewrite <- of_nat_pow2, u32_sub_small by (pose proof (ln_small i); lia).
      destruct (N.leb_spec (N.of_nat (ln j)) (N.of_nat (ln i) - N.of_nat (2 ^ t))) as [J|J].
      + destruct (nth_error (chain es i) (2 ^ t)) as [a|] eqn:A.
        2:{ apply nth_error_None in A. unfold ln in T. lia. }
        destruct (link_parent R LF A) as (n & l' & P & N & G & L'). rewrite P, G. cbn [bind].
        destruct (ln_anc A) as (LA & SA & _). cbn [Nat.pow] in D.
        destruct (Nat.leb_spec (length (sl_parents l')) t) as [Q|Q].
        * assert (D' : ln (e_id a) - ln j < 2 ^ length (sl_parents l')).
          { pose proof (ln_pos SJ). assert (~ 2 ^ length (sl_parents l') < ln (e_id a)).
            { intros C. apply (link_len L') in C. lia. } lia. }
          destruct (IH (length (sl_parents l'))) with (fuel := fuel) (i := e_id a) (j := j) (f := l') (o := o)
            as (b & f' & B & LB & E); auto; try lia.
          exists b, f'. rewrite E. split; auto. rewrite (nth_anc _ A) in B. rewrite <- B. f_equal. lia.
        * destruct (IH t) with (fuel := fuel) (i := e_id a) (j := j) (f := l') (o := o)
            as (b & f' & B & LB & E); auto; try lia.
          exists b, f'. rewrite E. split; auto. rewrite (nth_anc _ A) in B. rewrite <- B. f_equal. lia.
      + apply IH; auto; lia.
  Qed.

  (** ** The second loop *)

  (** [meets i j D a]: the chains of [i] and [j] have the same length and agree from position [D] on, where [a] is. *)
  Definition meets (i j : id) (D : nat) (a : entry) : Prop :=
    ln i = ln j /\ nth_error (chain es i) D = Some a /\ nth_error (chain es j) D = Some a /\
    forall t x y, t < D -> nth_error (chain es i) t = Some x -> nth_error (chain es j) t = Some y -> e_id x <> e_id y.

  (** No index is out of range during the loop: [k] iterations left, distance [D] to the meeting point, length [m]. *)
  Fixpoint lca_ok (k D m : nat) : bool :=
    match k with
    | O => true
    | S t => Nat.ltb (2 ^ t) m && (if Nat.ltb (2 ^ t) D then lca_ok t (D - 2 ^ t) (m - 2 ^ t) else lca_ok t D m)
    end.

  Lemma meets_step : forall i j D a t x y, meets i j D a -> t < D ->
    nth_error (chain es i) t = Some x -> nth_error (chain es j) t = Some y -> meets (e_id x) (e_id y) (D - t) a.
  Proof.
    intros i j D a t x y (L & A & B & M) T X Y. destruct (ln_anc X) as (LX & _), (ln_anc Y) as (LY & _).
    split; [lia|]. rewrite !(nth_anc _ X), !(nth_anc _ Y). replace (t + (D - t)) with D by lia.
    repeat split; auto. intros u p q U P Q. rewrite (nth_anc _ X) in P. rewrite (nth_anc _ Y) in Q.
    eapply M; [|exact P|exact Q]. lia.
  Qed.

  Lemma meets_same : forall i j D a t, meets i j D a -> D <= t -> nth_error (chain es i) t = nth_error (chain es j) t.
  Proof.
    intros i j D a t (L & A & B & M) T. replace t with (D + (t - D)) by lia.
    now rewrite <- (nth_anc _ A), <- (nth_anc _ B).
  Qed.

  Lemma lca_loop_spec : forall k i j f o D a, stored es i -> stored es j -> link_ok es i f -> link_ok es j o ->
    meets i j D a -> 1 <= D <= 2 ^ k ->
    if lca_ok k D (ln i)
    then exists f' o' i', lca_loop d k f o = Ok (f', o') /\ link_ok es i' f' /\ nth_error (chain es i') 1 = Some a
    else lca_loop d k f o = Panic.
  Proof.
    induction k as [|t IH]; intros i j f o D a SI SJ LF LO M B; cbn [lca_ok lca_loop].
    - cbn in B. exists f, o, i. repeat split; auto; try apply LF. replace 1 with D by lia. apply M.
    - cbn [Nat.pow] in B. destruct (Nat.ltb_spec (2 ^ t) (ln i)) as [T|T]; cbn [andb].
      + destruct (nth_error (chain es i) (2 ^ t)) as [x|] eqn:X.
        2:{ apply nth_error_None in X. unfold ln in T. lia. }
        destruct (nth_error (chain es j) (2 ^ t)) as [y|] eqn:Y.
        2:{ apply nth_error_None in Y. destruct M as (L & _). unfold ln in *. lia. }
        destruct (link_parent R LF X) as (n & l1 & P1 & N1 & G1 & K1).
        destruct (link_parent R LO Y) as (m & l2 & P2 & N2 & G2 & K2). rewrite P1, P2.
        destruct (Nat.ltb_spec (2 ^ t) D) as [TD|TD].
        * assert (NE : e_id x <> e_id y) by (destruct M as (_ & _ & _ & M); eapply M; eauto).
          destruct (N.eqb_spec (N.of_nat n) (N.of_nat m)) as [E|E].
          { exfalso. apply NE. assert (n = m) by lia. subst m. eapply num_of_inj; eauto. }
          rewrite G1. cbn [bind]. rewrite G2. cbn [bind].
          destruct (ln_anc X) as (LX & SX & _), (ln_anc Y) as (LY & SY & _). rewrite <- LX.
          apply IH with (j := e_id y) (a := a); auto; [|lia]. eapply meets_step; eauto.
        * assert (E := meets_same M TD). rewrite X, Y in E. injection E as ->.
          replace m with n by congruence. rewrite N.eqb_refl. apply IH with (j := j) (a := a); auto. lia.
      + assert (Q : nth_error (sl_parents f) t = None).
        { apply nth_error_None. destruct (Nat.lt_ge_cases t (length (sl_parents f))) as [Q|Q]; auto.
          apply (link_len LF) in Q. unfold ln in *. lia. }
        now rewrite Q.
  Qed.

  Lemma meets_lca : forall i j i' D a, stored es i -> stored es j ->
    nth_error (chain es i) (ln i - ln j) = Some i' -> ln j <= ln i -> meets (e_id i') j D a ->
    is_lca es i j (e_id a).
  Proof.
    intros i j i' D a SI SJ I' HL M. destruct (ln_anc I') as (LI & SI' & _). destruct M as (L & A & B & M).
    split; [|split].
    - apply (anc_trans W) with (j := e_id i'); apply anc_nth; eauto.
    - apply anc_nth; eauto.
    - intros m Hm Hm'. apply anc_nth in Hm as (t & x & X & E). apply anc_nth in Hm' as (u & y & Y & E').
      assert (x = y). { apply (entry_unique W); try congruence; eapply chain_In, nth_error_In; eauto. }
      subst y. assert (Q := chain_eq_len W X Y). fold (ln i) (ln j) in Q.
      assert (X2 := X). apply ln_anc in X2 as (_ & _ & X2). assert (Y2 := Y). apply ln_anc in Y2 as (_ & _ & Y2).
      assert (X3 : nth_error (chain es (e_id i')) u = Some x).
      { rewrite (nth_anc _ I'). rewrite <- X. f_equal. lia. }
      assert (D <= u).
      { destruct (Nat.lt_ge_cases u D) as [C|C]; auto. exfalso. eapply M; eauto. }
      apply anc_nth. exists (u - D), x. split; auto. rewrite (nth_anc _ B). rewrite <- Y. f_equal. lia.
  Qed.

  (** ** lca *)

  Lemma is_lca_sym : forall i j k, is_lca es i j k -> is_lca es j i k.
  Proof. intros i j k (A & B & C). repeat split; auto. Qed.

  Lemma anc_height : forall i j, anc es i j -> ln j <= ln i.
  Proof. intros i j A. apply anc_nth in A as (t & a & A & <-). apply ln_anc in A as (A & _). lia. Qed.
  Lemma anc_antisym : forall i j, anc es i j -> anc es j i -> i = j.
  Proof.
    intros i j A B. assert (H1 := anc_height A). assert (H2 := anc_height B).
    assert (S := anc_stored _ _ _ B). apply anc_nth in A as (t & a & A & <-). destruct (ln_anc A) as (LA & _ & T).
    assert (t = 0) by lia. subst t. destruct (chain_head_nth S) as (e & E & ID). congruence.
  Qed.
  Lemma is_lca_unique : forall i j k k', is_lca es i j k -> is_lca es i j k' -> k = k'.
  Proof. intros i j k k' (A & B & C) (A' & B' & C'). apply anc_antisym; auto. Qed.

  Lemma lca_sorted : forall i j, stored es i -> stored es j -> ln j <= ln i ->
    forall f o, link_ok es i f -> link_ok es j o ->
    exists k D, is_lca es i j k /\ D + ln k = ln j /\
     (do farthest <- fast_backward d (length (sl_parents f)) (length (sl_parents f)) f o;
      if beqb (sl_id farthest) (sl_id o) then new_block_id (sl_id farthest)
      else
        do fo <- lca_loop d (length (sl_parents farthest)) farthest o;
        match sl_parents (fst fo) with
        | [] => Panic
        | p :: _ => do l <- get_link d p; new_block_id (sl_id l)
        end)
     = if Nat.eqb D 0 || lca_ok (N.to_nat (N.log2_up (N.of_nat (ln j)))) D (ln j) then Ok k else Panic.
  Proof.
    intros i j SI SJ HL f o LF LO.
    assert (DB : ln i - ln j < 2 ^ length (sl_parents f)).
    { pose proof (ln_pos SJ). assert (~ 2 ^ length (sl_parents f) < ln i).
      { intros C. apply (link_len LF) in C. lia. } lia. }
    destruct (fast_backward_spec (Nat.le_refl _) SI SJ LF LO HL (Nat.le_refl _) DB) as (a & f' & A & LA & E).
    rewrite E. cbn [bind]. destruct (ln_anc A) as (HA & SA & _).
    assert (HA' : ln (e_id a) = ln j) by (unfold ln in *; lia).
    destruct (meet W SA SJ HA') as (D & m & M1 & M2 & M3).
    assert (M : meets (e_id a) j D m) by (repeat split; auto).
    destruct (ln_anc M2) as (HM & SMM & DL).
    exists (e_id m), D. split; [eapply meets_lca; eauto|]. split; [lia|].
    rewrite (proj1 (proj2 LA)), (proj1 (proj2 LO)).
    destruct (beqb_spec (e_id a) j) as [EA|EA].
    - assert (D = 0).
      { destruct D as [|D]; auto. exfalso. destruct (chain_head_nth SJ) as (e & H0 & ID).
        rewrite EA in M3. eapply (M3 0 e e); auto. lia. }
      subst D. rewrite new_block_id_wf by (rewrite EA; exact (stored_wf W SJ)). cbn [Nat.eqb orb]. f_equal.
      destruct (chain_head_nth SJ) as (e & H0 & ID). rewrite EA. congruence.
    - assert (D <> 0).
      { intros ->. destruct (chain_head_nth SJ) as (e & H0 & ID). destruct (chain_head_nth SA) as (e' & H0' & ID').
        congruence. }
      replace (Nat.eqb D 0) with false by (symmetry; now apply Nat.eqb_neq). cbn [orb].
      assert (LP : length (sl_parents f') = N.to_nat (N.log2_up (N.of_nat (ln j)))).
      { assert (Q : forall t, t < length (sl_parents f') <-> t < N.to_nat (N.log2_up (N.of_nat (ln j)))).
        { intros t. rewrite (link_len LA), log2_up_lt by (pose proof (ln_pos SJ); lia).
          fold (ln (e_id a)). rewrite HA'. reflexivity. }
        destruct (Nat.lt_trichotomy (length (sl_parents f')) (N.to_nat (N.log2_up (N.of_nat (ln j))))) as [C|[C|C]]; auto.
        - apply Q in C. lia.
        - apply Q in C. lia. }
      assert (DB' : 1 <= D <= 2 ^ length (sl_parents f')).
      { assert (~ 2 ^ length (sl_parents f') < ln (e_id a)).
        { intros C. apply (link_len LA) in C. lia. } lia. }
      assert (Q := lca_loop_spec SA SJ LA LO M DB'). rewrite HA', LP in Q. rewrite LP.
      destruct (lca_ok (N.to_nat (N.log2_up (N.of_nat (ln j)))) D (ln j)).
      + destruct Q as (f2 & o2 & i2 & E2 & L2 & P2). rewrite E2. cbn [bind fst].
        destruct (link_parent R L2 (j := 0) (a := m) P2) as (n & l' & P & N & G & K).
        destruct (sl_parents f2) as [|p ps]; [discriminate|]. cbn in P. injection P as ->. rewrite G. cbn [bind].
        rewrite (proj1 (proj2 K)). apply new_block_id_wf. exact (stored_wf W SMM).
      + now rewrite Q.
  Qed.

  Lemma lca_total : forall i j, stored es i -> stored es j ->
    exists k D, is_lca es i j k /\ D + height es k = Nat.min (height es i) (height es j) /\
      lca d i j = if Nat.eqb D 0 || lca_ok (N.to_nat (N.log2_up (N.of_nat (D + height es k)))) D (D + height es k)
                  then Ok k else Panic.
  Proof.
    intros i j SI SJ. unfold lca, height. fold (ln i) (ln j).
    destruct (rep_link_by_id R SM SI) as (l1 & G1 & L1). destruct (rep_link_by_id R SM SJ) as (l2 & G2 & L2).
    rewrite G1. cbn [bind]. rewrite G2. cbn [bind]. rewrite (proj1 L1), (proj1 L2). fold (ln i) (ln j).
    destruct (N.ltb_spec (N.of_nat (ln i)) (N.of_nat (ln j))) as [C|C]; cbv beta zeta.
    - destruct (lca_sorted SJ SI (Nat.lt_le_incl (ln i) (ln j) ltac:(lia)) L2 L1) as (k & D & K & E & Q).
      exists k, D. fold (ln k). rewrite Q, E. split; [now apply is_lca_sym|]. split; [lia|reflexivity].
    - destruct (lca_sorted SI SJ (i := i) (j := j) ltac:(lia) L1 L2) as (k & D & K & E & Q).
      exists k, D. fold (ln k). rewrite Q, E. split; auto. split; [lia|reflexivity].
  Qed.

  Lemma lca_missing : forall i j, wf_id i -> wf_id j -> ~ stored es i \/ ~ stored es j -> lca d i j = Err ENotFound.
  Proof.
    intros i j WI WJ H. unfold lca, get_link_by_id. destruct (stored_dec es i) as [SI|SI].
    - destruct H as [H|H]; [contradiction|]. destruct (rep_link_by_id R SM SI) as (l1 & G1 & L1).
      unfold get_link_by_id in G1. rewrite G1. cbn [bind]. rewrite (rep_num_none R WJ H). reflexivity.
    - rewrite (rep_num_none R WI SI). reflexivity.
  Qed.
End Lca.

(** * The panic condition *)


Lemma lca_ok_iff : forall k D a, 1 <= D <= 2 ^ k ->
  (lca_ok k D (D + a) = true <-> forall t, t < k -> 2 ^ t < (D - 1) mod 2 ^ S t + 1 + a).
Proof.
  induction k as [|k IH]; intros D a B; cbn [lca_ok].
  - split; [intros _ t T; lia|reflexivity].
  - cbn [Nat.pow] in B. pose proof (pow2_pos k) as PK. rewrite andb_true_iff, Nat.ltb_lt.
    assert (MK : (D - 1) mod 2 ^ S k = D - 1) by (apply Nat.mod_small; cbn [Nat.pow]; lia).
    destruct (Nat.ltb_spec (2 ^ k) D) as [C|C].
    + replace (D + a - 2 ^ k) with ((D - 2 ^ k) + a) by lia. rewrite IH by lia.
      assert (E : forall t, t < k -> (D - 2 ^ k - 1) mod 2 ^ S t = (D - 1) mod 2 ^ S t).
      { intros t T. replace (D - 1) with ((D - 2 ^ k - 1) + 2 ^ (k - S t) * 2 ^ S t).
        - rewrite Nat.mod_add; auto. apply Nat.pow_nonzero. lia.
        - rewrite <- Nat.pow_add_r. replace (k - S t + S t) with k by lia. lia. }
      split.
      * intros [H H'] t T. destruct (Nat.eq_dec t k) as [->|N]; [rewrite MK; lia|].
        rewrite <- E by lia. apply H'. lia.
      * intros H. split; [specialize (H k); rewrite MK in H; lia|]. intros t T. rewrite E by lia. apply H. lia.
    + rewrite IH by lia. split.
      * intros [H H'] t T. destruct (Nat.eq_dec t k) as [->|N]; [rewrite MK; lia|]. apply H'. lia.
      * intros H. split; [specialize (H k); rewrite MK in H; lia|]. intros t T. apply H. lia.
Qed.

Lemma lca_ok_safe : forall D a, 1 <= D -> 1 <= a ->
  (lca_ok (N.to_nat (N.log2_up (N.of_nat (D + a)))) D (D + a) = true <-> safe D a).
Proof.
  intros D a HD HA. set (k := N.to_nat (N.log2_up (N.of_nat (D + a)))).
  assert (K : forall j, j < k <-> 2 ^ j < D + a) by (intros; apply log2_up_lt; lia).
  assert (B : 1 <= D <= 2 ^ k).
  { split; auto. destruct (Nat.lt_ge_cases (2 ^ k) (D + a)) as [C|C]; [apply K in C|]; lia. }
  rewrite (lca_ok_iff a B). unfold safe. split.
  - intros H t T. cbn [Nat.pow] in T. assert (t < k) by (apply K; pose proof (pow2_pos t); lia). specialize (H t). lia.
  - intros H t T. apply K in T. destruct (Nat.lt_ge_cases (2 ^ S t) D) as [C|C].
    + specialize (H t C). lia.
    + rewrite Nat.mod_small by lia. lia.
Qed.

Lemma safe_short : forall D a, D <= 2 * a + 1 -> safe D a.
Proof. intros D a H t T. cbn [Nat.pow] in T. lia. Qed.
