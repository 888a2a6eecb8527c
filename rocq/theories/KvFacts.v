(** Facts about the ordered key-value store. *)
From Verif Require Import Base Kv BytesFacts.
Set Implicit Arguments.

Section KvFacts.
  Context {V : Type}.
  Implicit Types (s : kv V) (k : bytes).

  Definition klt (a b : bytes * V) : Prop := bcmp (fst a) (fst b) = Lt.
  Definition ksorted s : Prop := StronglySorted klt s.

  Lemma kv_get_put_eq : forall k v s, ksorted s -> kv_get k (kv_put k v s) = Some v.
  Proof.
    intros k v s H. induction s as [|[k' v'] s IH]; simpl.
    - now rewrite beqb_refl.
    - destruct (bcmp k k') eqn:E; simpl; rewrite ?beqb_refl; auto.
      apply StronglySorted_inv in H as [H _].
      unfold beqb. rewrite E. auto.
  Qed.

  Lemma kv_get_put_neq : forall k k' v s, k <> k' -> kv_get k (kv_put k' v s) = kv_get k s.
  Proof.
    intros k k' v s N. induction s as [|[k2 v2] s IH]; simpl.
    - destruct (beqb_spec k k'); congruence.
    - destruct (bcmp k' k2) eqn:E; simpl.
      + apply bcmp_eq in E. subst k2. destruct (beqb_spec k k'); congruence.
      + destruct (beqb_spec k k'); congruence.
      + rewrite IH. reflexivity.
  Qed.

  Lemma kv_get_del_eq : forall k s, kv_get k (kv_del k s) = None.
  Proof.
    intros k s. induction s as [|[k' v'] s IH]; simpl; auto.
    destruct (beqb k k') eqn:E; simpl; rewrite ?E; auto.
  Qed.
  Lemma kv_get_del_neq : forall k k' s, k <> k' -> kv_get k (kv_del k' s) = kv_get k s.
  Proof.
    intros k k' s N. induction s as [|[k2 v2] s IH]; simpl; auto.
    destruct (beqb_spec k' k2); simpl.
    - subst. destruct (beqb_spec k k2); congruence.
    - now rewrite IH.
  Qed.

  Lemma In_put : forall k v s x, In x (kv_put k v s) -> x = (k, v) \/ In x s.
  Proof.
    intros k v s x. induction s as [|[k' v'] s IH]; simpl.
    - intuition.
    - destruct (bcmp k k'); simpl; intuition.
  Qed.
  Lemma In_del : forall k s x, In x (kv_del k s) -> In x s.
  Proof. intros k s x H. apply filter_In in H. tauto. Qed.

  Lemma ksorted_put : forall k v s, ksorted s -> ksorted (kv_put k v s).
  Proof.
    intros k v s H. induction s as [|[k' v'] s IH]; simpl.
    - repeat constructor.
    - apply StronglySorted_inv in H as [H F]. destruct (bcmp k k') eqn:E.
      + apply bcmp_eq in E. subst. constructor; auto.
      + constructor; [constructor; auto|].
        constructor; [exact E|].
        rewrite Forall_forall in *. intros x Hx. unfold klt in *. simpl in *.
        eapply bcmp_lt_trans; [exact E|]. exact (F _ Hx).
      + constructor; [now apply IH|]. rewrite Forall_forall in *. intros x Hx.
        apply In_put in Hx as [->|Hx]; auto. unfold klt. simpl. now apply bcmp_gt_lt.
  Qed.

  Lemma ksorted_filter : forall f s, ksorted s -> ksorted (filter f s).
  Proof.
    intros f s H. induction H as [|x s H IH F]; simpl; [constructor|].
    destruct (f x); auto. constructor; auto.
    rewrite Forall_forall in *. intros y Hy. apply filter_In in Hy. now apply F.
  Qed.
  Lemma ksorted_del : forall k s, ksorted s -> ksorted (kv_del k s).
  Proof. intros. now apply ksorted_filter. Qed.
  Lemma ksorted_bop : forall s o, ksorted s -> ksorted (apply_bop s o).
  Proof. intros s [k v|k] H; simpl; [now apply ksorted_put | now apply ksorted_del]. Qed.
  Lemma ksorted_batch : forall b s, ksorted s -> ksorted (apply_batch s b).
  Proof. induction b as [|o b IH]; simpl; intros s H; auto. apply IH. now apply ksorted_bop. Qed.
  Lemma ksorted_writes : forall ws s, ksorted s -> ksorted (apply_writes s ws).
  Proof. induction ws as [|o b IH]; simpl; intros s H; auto. apply IH. now apply ksorted_batch. Qed.

  Lemma kv_get_In : forall k v s, kv_get k s = Some v -> In (k, v) s.
  Proof.
    intros k v s. induction s as [|[k' v'] s IH]; simpl; [discriminate|].
    destruct (beqb_spec k k'); intros H; [left; congruence | right; auto].
  Qed.
  Lemma In_kv_get : forall k v s, ksorted s -> In (k, v) s -> kv_get k s = Some v.
  Proof.
    intros k v s H. induction H as [|[k' v'] s H IH F]; simpl; [tauto|].
    intros [E|I].
    - injection E as -> ->. now rewrite beqb_refl.
    - destruct (beqb_spec k k'); auto. subst k'. rewrite Forall_forall in F. apply F in I.
      unfold klt in I. simpl in I. now apply bcmp_lt_irrefl in I.
  Qed.
  Lemma kv_In_iff : forall k v s, ksorted s -> (In (k, v) s <-> kv_get k s = Some v).
  Proof. split; [now apply In_kv_get | apply kv_get_In]. Qed.

  Lemma ksorted_NoDup : forall s, ksorted s -> NoDup (map fst s).
  Proof.
    intros s H. induction H as [|[k v] s H IH F]; simpl; constructor; auto.
    intros I. apply in_map_iff in I as [[k' v'] [E I]]. simpl in E. subst.
    rewrite Forall_forall in F. apply F in I. unfold klt in I. simpl in I. now apply bcmp_lt_irrefl in I.
  Qed.

  Lemma kv_range_In : forall lo hi s k v,
    In (k, v) (kv_range lo hi s) <-> In (k, v) s /\ bleb lo k = true /\ bltb k hi = true.
  Proof. intros. unfold kv_range. rewrite filter_In. simpl. rewrite andb_true_iff. tauto. Qed.
  Lemma kv_range_sorted : forall lo hi s, ksorted s -> ksorted (kv_range lo hi s).
  Proof. intros. now apply ksorted_filter. Qed.

  (** Two sorted stores with the same bindings are equal. *)
  Lemma ksorted_ext : forall s s', ksorted s -> ksorted s' ->
    (forall x, In x s <-> In x s') -> s = s'.
  Proof.
    intros s. induction s as [|x s IH]; intros s' H H' E.
    - destruct s' as [|y s']; auto. exfalso. now apply (E y); left.
    - destruct s' as [|y s']; [exfalso; now apply (E x); left|].
      apply StronglySorted_inv in H as [H F]. apply StronglySorted_inv in H' as [H' F'].
      rewrite Forall_forall in *.
      assert (x = y).
      { destruct (proj1 (E x) (or_introl eq_refl)) as [|I]; auto.
        destruct (proj2 (E y) (or_introl eq_refl)) as [|I']; auto.
        exfalso. apply F' in I. apply F in I'. unfold klt in *.
        eapply bcmp_lt_irrefl. eapply bcmp_lt_trans; eauto. }
      subst y. f_equal. apply IH; auto. intros z. split; intros I.
      + destruct (proj1 (E z) (or_intror I)); auto. subst. exfalso. apply F in I. unfold klt in I.
        now apply bcmp_lt_irrefl in I.
      + destruct (proj2 (E z) (or_intror I)); auto. subst. exfalso. apply F' in I. unfold klt in I.
        now apply bcmp_lt_irrefl in I.
  Qed.
End KvFacts.
