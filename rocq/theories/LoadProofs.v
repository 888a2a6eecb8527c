(** Proofs about the queue, the peer loader and the loader in an arbitrary world. *)
From Verif Require Import Base Kv BytesFacts ChainModel ChainSpec PeersModel PeersSpec LoadModel LoadSpec.
Set Implicit Arguments.
Unset Strict Implicit.

(** * The queue *)
Lemma id_eqb_eq : forall i j, id_eqb i j = true <-> i = j.
Proof. exact beqb_eq. Qed.
Lemma id_eqb_neq : forall i j, id_eqb i j = false <-> i <> j.
Proof.
  intros i j. split.
  - intros E H. apply id_eqb_eq in H. congruence.
  - intros H. destruct (id_eqb i j) eqn:E; auto. apply id_eqb_eq in E. contradiction.
Qed.

(** The item of [i] after the receipt of [bs]. *)
Definition holds (bs : list pblock) (i : id) : item := {| it_req := i; it_rcv := find (fun b => id_eqb i (pb_id b)) (rev bs) |}.
Lemma holds_app : forall bs b i, holds (bs ++ [b]) i = if id_eqb i (pb_id b) then {| it_req := i; it_rcv := Some b |} else holds bs i.
Proof. intros. unfold holds. rewrite rev_app_distr. cbn [rev app find]. destruct (id_eqb i (pb_id b)); reflexivity. Qed.
Lemma put_map : forall ids bs b, NoDup ids ->
  queue_put (map (holds bs) ids) b = map (holds (bs ++ [b])) ids.
Proof.
  induction ids as [|i ids IH]; intros bs b N; [reflexivity|]. inversion_clear N as [|? ? NI N'].
  cbn [map queue_put]. rewrite holds_app. change (it_req (holds bs i)) with i. destruct (id_eqb i (pb_id b)) eqn:E.
  - f_equal. apply id_eqb_eq in E. subst i. apply map_ext_in. intros j J. rewrite holds_app.
    destruct (id_eqb j (pb_id b)) eqn:E; [|reflexivity]. apply id_eqb_eq in E. subst j. contradiction.
  - f_equal. now apply IH.
Qed.
Lemma after_app : forall ids bs b, after ids (bs ++ [b]) = queue_put (after ids bs) b.
Proof. intros. unfold after. now rewrite fold_left_app. Qed.
Lemma after_map : forall ids bs, NoDup ids -> after ids bs = map (holds bs) ids.
Proof.
  intros ids bs N. induction bs as [|b bs IH] using rev_ind; [reflexivity|]. rewrite after_app, IH. now apply put_map.
Qed.
Lemma got_find : forall bs i, got bs i <-> exists b, find (fun b => id_eqb i (pb_id b)) (rev bs) = Some b.
Proof.
  intros bs i. split.
  - intros (b & B & E). destruct (find (fun b => id_eqb i (pb_id b)) (rev bs)) as [x|] eqn:F; [eauto|].
    apply in_rev in B. pose proof (find_none _ _ F b B) as X. cbv beta in X. apply id_eqb_neq in X. congruence.
  - intros (b & F). apply find_some in F as [F E]. exists b. split; [now apply in_rev|]. apply id_eqb_eq in E. auto.
Qed.
Lemma find_newest : forall bs i b, find (fun b => id_eqb i (pb_id b)) (rev bs) = Some b -> newest bs i b.
Proof.
  intros bs i b. induction bs as [|x bs IH] using rev_ind; [discriminate|]. rewrite rev_app_distr. cbn [rev app find].
  destruct (id_eqb i (pb_id x)) eqn:E.
  - intros H. injection H as <-. apply id_eqb_eq in E. split; auto. exists bs, []. split; auto. intros (b & [] & _).
  - intros H. destruct (IH H) as (I & pre & post & -> & NG). split; auto. exists pre, (post ++ [x]).
    rewrite <- app_assoc. split; auto. intros (y & Y & YE). apply in_app_or in Y as [Y|[<-|[]]].
    + apply NG. exists y. auto.
    + apply id_eqb_neq in E. congruence.
Qed.
Lemma arrived_holds : forall bs i, arrived (holds bs i) = true <-> got bs i.
Proof.
  intros bs i. unfold arrived, holds. cbn [it_rcv it_req]. rewrite got_find.
  destruct (find (fun b => id_eqb i (pb_id b)) (rev bs)) as [b|] eqn:F.
  - split; [eauto|]. intros _. apply find_some in F as [_ E]. apply id_eqb_eq in E. subst i. now apply id_eqb_eq.
  - split; [discriminate|]. intros (b & E). discriminate.
Qed.
Lemma arrived_holds_false : forall bs i, arrived (holds bs i) = false <-> ~ got bs i.
Proof. intros bs i. rewrite <- arrived_holds. destruct (arrived (holds bs i)); split; congruence. Qed.

Lemma q_ready : forall ids bs, NoDup ids -> (queue_ready (after ids bs) = true <-> Forall (got bs) ids).
Proof.
  intros ids bs N. rewrite (after_map bs N). unfold queue_ready. rewrite forallb_forall, Forall_forall. split.
  - intros H i I. apply arrived_holds. apply H. now apply in_map.
  - intros H x X. apply in_map_iff in X as (i & <- & I). apply arrived_holds. auto.
Qed.
Lemma put_unknown : forall q b, (forall it, In it q -> it_req it <> pb_id b) -> queue_put q b = q.
Proof.
  induction q as [|it q IH]; intros b H; [reflexivity|]. cbn [queue_put].
  destruct (id_eqb (it_req it) (pb_id b)) eqn:E.
  - apply id_eqb_eq in E. destruct (H it (or_introl eq_refl) E).
  - f_equal. apply IH. intros x X. apply H. now right.
Qed.
Lemma put_reqs : forall q b, map it_req (queue_put q b) = map it_req q.
Proof.
  induction q as [|it q IH]; intros b; [reflexivity|]. cbn [queue_put]. destruct (id_eqb (it_req it) (pb_id b)); cbn [map it_req]; congruence.
Qed.
Lemma after_reqs : forall ids bs, map it_req (after ids bs) = ids.
Proof.
  intros ids bs. induction bs as [|b bs IH] using rev_ind.
  - unfold after, new_queue. cbn [fold_left]. rewrite map_map. cbn [it_req]. apply map_id.
  - now rewrite after_app, put_reqs.
Qed.
Lemma q_unrequested : forall ids bs b, ~ In (pb_id b) ids -> queue_put (after ids bs) b = after ids bs.
Proof.
  intros ids bs b H. apply put_unknown. intros it I E. apply H. rewrite <- E, <- (after_reqs ids bs). now apply in_map.
Qed.
Lemma q_duplicates : forall ids bs, ~ NoDup ids -> queue_ready (after ids bs) = false.
Proof.
  assert (P : forall q b i, it_rcv i = None ->
    (exists q1 q2, q = q1 ++ i :: q2 /\ In (it_req i) (map it_req q1)) ->
    exists q1 q2, queue_put q b = q1 ++ i :: q2 /\ In (it_req i) (map it_req q1)).
  { intros q b i R (q1 & q2 & -> & I). induction q1 as [|x q1 IH]; [destruct I|]. cbn [app queue_put].
    destruct (id_eqb (it_req x) (pb_id b)) eqn:E.
    - exists ({| it_req := it_req x; it_rcv := Some b |} :: q1), q2. split; auto.
    - destruct I as [I|I].
      + assert (F : forall q1, exists q1' q2', queue_put (q1 ++ i :: q2) b = q1' ++ i :: q2').
        { clear -I E. induction q1 as [|y q1 IH]; cbn [app queue_put].
          - destruct (id_eqb (it_req i) (pb_id b)) eqn:F; [apply id_eqb_eq in F; apply id_eqb_neq in E; congruence|].
            exists [], (queue_put q2 b). reflexivity.
          - destruct (id_eqb (it_req y) (pb_id b)); [exists ({| it_req := it_req y; it_rcv := Some b |} :: q1), q2; reflexivity|].
            destruct IH as (a1 & a2 & ->). exists (y :: a1), a2. reflexivity. }
        destruct (F q1) as (a1 & a2 & ->). exists (x :: a1), a2. split; auto. left. auto.
      + destruct (IH I) as (a1 & a2 & -> & J). exists (x :: a1), a2. split; auto. now right. }
  intros ids bs D. assert (X : exists i q1 q2, it_rcv i = None /\ after ids bs = q1 ++ i :: q2 /\ In (it_req i) (map it_req q1)).
  { induction bs as [|b bs IH] using rev_ind.
    - assert (Y : exists i l1 l2, ids = l1 ++ i :: l2 /\ In i l1).
      { clear -D. induction ids as [|x ids IH]; [destruct D; constructor|].
        destruct (in_dec (list_eq_dec Byte.byte_eq_dec) x ids) as [I|I].
        - apply in_split in I as (l1 & l2 & ->). exists x, (x :: l1), l2. split; auto. now left.
        - destruct IH as (i & l1 & l2 & -> & J). { intros N. apply D. now constructor. }
          exists i, (x :: l1), l2. split; auto. now right. }
      destruct Y as (i & l1 & l2 & -> & J). exists {| it_req := i; it_rcv := None |}, (new_queue l1), (new_queue l2).
      split; [reflexivity|]. split; [unfold after, new_queue; cbn [fold_left]; now rewrite map_app|].
      cbn [it_req]. unfold new_queue. rewrite map_map. cbn [it_req]. now rewrite map_id.
    - destruct IH as (i & q1 & q2 & R & E & J). rewrite after_app. exists i.
      destruct (P (after ids bs) b i R) as (a1 & a2 & X & Y); eauto. }
  destruct X as (i & q1 & q2 & R & -> & _). unfold queue_ready. apply not_true_is_false. intros H. rewrite forallb_forall in H.
  specialize (H i). rewrite in_app_iff in H. unfold arrived in H. rewrite R in H. discriminate H. right. now left.
Qed.

Lemma arrived_prefix_cons : forall it q, arrived_prefix (it :: q) =
  if arrived it then match it_rcv it with Some b => b :: arrived_prefix q | None => [] end else [].
Proof. intros it q. cbn [arrived_prefix]. unfold arrived. destruct (it_rcv it); reflexivity. Qed.
Lemma prefix_spec : forall ids bs, exists pre, longest_received bs ids pre /\
  Forall2 (newest bs) pre (arrived_prefix (map (holds bs) ids)) /\
  forall last, last_received_loop (map (holds bs) ids) last = match pre with [] => last | _ => last_received_loop (map (holds bs) pre) None end.
Proof.
  induction ids as [|i ids IH]; intros bs.
  - exists []. split; [exists []; auto|]. split; [constructor|reflexivity].
  - cbn [map last_received_loop]. rewrite arrived_prefix_cons. destruct (arrived (holds bs i)) eqn:A.
    + pose proof A as A'. apply arrived_holds in A'. destruct (IH bs) as (pre & (post & -> & G & P) & F & L).
      exists (i :: pre). split; [exists post; split; [reflexivity|]; split; [now constructor|auto]|].
      apply got_find in A' as (b & Fb). change (it_rcv (holds bs i)) with (find (fun b => id_eqb i (pb_id b)) (rev bs)).
      rewrite Fb. split.
      * constructor; [now apply find_newest|exact F].
      * intros last. rewrite L. cbn [map last_received_loop]. rewrite A.
        change (it_rcv (holds bs i)) with (find (fun b => id_eqb i (pb_id b)) (rev bs)). rewrite Fb.
        destruct pre as [|j pre]; [reflexivity|]. inversion_clear G as [|? ? G0 _]. apply arrived_holds in G0.
        cbn [map last_received_loop]. rewrite G0. reflexivity.
    + exists []. apply arrived_holds_false in A as A'. split; [exists (i :: ids); auto|]. split; [constructor|reflexivity].
Qed.
Lemma newest_fun : forall bs i b b', newest bs i b -> newest bs i b' -> b = b'.
Proof.
  intros bs i b b' (E & p & q & -> & N) (E' & p' & q' & H & N').
  revert p' H. induction p as [|x p IH]; intros [|y p'] H; cbn [app] in H.
  - now injection H.
  - injection H as -> ->. destruct N. exists b'. split; auto. apply in_or_app. right. now left.
  - injection H as -> <-. destruct N'. exists b. split; auto. apply in_or_app. right. now left.
  - injection H as -> H. eauto.
Qed.
Lemma holds_newest : forall bs i b, it_rcv (holds bs i) = Some b -> newest bs i b.
Proof. intros bs i b. apply find_newest. Qed.
Lemma q_last : forall ids bs, NoDup ids -> exists pre, longest_received bs ids pre /\
  match last_received (after ids bs) with
  | Some b => exists pre' i, pre = pre' ++ [i] /\ newest bs i b
  | None => pre = []
  end.
Proof.
  intros ids bs N. rewrite (after_map bs N). destruct (prefix_spec ids bs) as (pre & L & F & R). exists pre. split; [exact L|].
  unfold last_received. rewrite R. destruct L as (post & _ & G & _). clear -G. destruct pre as [|i0 pre0]; [reflexivity|].
  assert (X : forall last, last_received_loop (map (holds bs) (i0 :: pre0)) last <> None /\
    forall b, last_received_loop (map (holds bs) (i0 :: pre0)) last = Some b -> exists pre' i, i0 :: pre0 = pre' ++ [i] /\ newest bs i b).
  { revert i0 G. induction pre0 as [|i1 pre0 IH]; intros i0 G last; inversion_clear G as [|? ? G0 G'].
    - cbn [map last_received_loop]. replace (arrived (holds bs i0)) with true by (symmetry; now apply arrived_holds).
      split. { apply got_find in G0 as (b & E). cbn [holds it_rcv]. congruence. }
      intros b H. exists [], i0. split; [reflexivity|]. now apply holds_newest.
    - change (map (holds bs) (i0 :: i1 :: pre0)) with (holds bs i0 :: map (holds bs) (i1 :: pre0)). cbn [last_received_loop].
      replace (arrived (holds bs i0)) with true by (symmetry; now apply arrived_holds).
      destruct (IH i1 G' (it_rcv (holds bs i0))) as (A & B). split; auto. intros b H. destruct (B b H) as (pre' & i & -> & Q).
      exists (i0 :: pre'), i. auto. }
  destruct (X None) as (A & B). destruct (last_received_loop _ None) as [b|]; [auto|congruence].
Qed.
Lemma q_prefix : forall ids bs, NoDup ids -> exists pre, longest_received bs ids pre /\ Forall2 (newest bs) pre (arrived_prefix (after ids bs)).
Proof. intros ids bs N. rewrite (after_map bs N). destruct (prefix_spec ids bs) as (pre & L & F & _). eauto. Qed.
Lemma q_received : forall ids bs, NoDup ids -> Forall (got bs) ids -> Forall2 (newest bs) ids (received (after ids bs)).
Proof.
  intros ids bs N G. rewrite (after_map bs N). clear N. induction G as [|i ids G0 G IH]; [constructor|].
  cbn [map received flat_map]. apply got_find in G0 as (b & E). cbn [holds it_rcv]. rewrite E. constructor; [now apply find_newest|exact IH].
Qed.
