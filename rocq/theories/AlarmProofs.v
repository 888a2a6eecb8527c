(** Proofs about alarms: when the peers stand on one line of blocks, and when their chains diverge. *)
From Verif Require Import Base Kv BytesFacts ChainModel ChainSpec ChainTree ChainRep ChainForks ChainProofs ForkProofs.
Set Implicit Arguments.
Unset Strict Implicit.

(** The block [i], the block it was put on top of, and so on: a block extends its parent, a micro-block the block it refers to. *)
Fixpoint on_line (es : list entry) (i : id) : list id :=
  match es with
  | [] => []
  | e :: older =>
      if id_eqb (e_id e) i
      then i :: match e_ext e with Some x => on_line older x | None => [] end
      else on_line older i
  end.
(** No base target is zero. *)
Definition targets_ok (g : pblock) (ops : list (op * option nat)) : Prop :=
  pb_bt g <> 0%N /\ Forall (fun of => match fst of with Put b _ => pb_bt b <> 0%N | _ => True end) ops.

(** * Ancestors *)
Section Tree.
  Variable es : list entry.
  Hypothesis W : WF es.

  Lemma anc_split : forall i j, anc es i j -> exists own, chain es i = own ++ chain es j /\ stored es j /\ stored es i.
  Proof.
    intros i j A. unfold anc, chain_ids in A. apply in_map_iff in A as (a & E & I). assert (I' := I).
    apply In_nth_error in I as [k K]. exists (firstn k (chain es i)). rewrite <- E, (chain_skip W _ _ K), firstn_skipn.
    split; auto. split; [apply In_stored; eapply chain_In, I'|]. destruct (stored_dec es i) as [S|S]; auto.
    rewrite (chain_nil S) in I'. destruct I'.
  Qed.
  Lemma anc_self : forall i, stored es i -> anc es i i.
  Proof. intros i S. unfold anc, chain_ids. destruct (chain_hd S) as (e & c & -> & E & _). left. exact E. Qed.
  Lemma anc_of : forall i j own, chain es i = own ++ chain es j -> stored es j -> anc es i j.
  Proof.
    intros i j own E S. unfold anc, chain_ids. rewrite E, map_app. apply in_or_app. right. apply (anc_self S).
  Qed.
  Lemma anc_mid : forall i e c own, chain es i = own ++ e :: c -> anc es i (e_id e) /\ chain es (e_id e) = e :: c.
  Proof.
    intros i e c own E. assert (K : nth_error (chain es i) (length own) = Some e).
    { rewrite E, nth_error_app2 by lia. now rewrite Nat.sub_diag. }
    split. { unfold anc, chain_ids. apply in_map. eapply nth_error_In, K. }
    rewrite (chain_skip W _ _ K), E, skipn_app, skipn_all, Nat.sub_diag. reflexivity.
  Qed.
  Lemma anc_le : forall i j, anc es i j -> height es j <= height es i.
  Proof. intros i j A. destruct (anc_split A) as (own & E & _). unfold height. rewrite E, app_length. lia. Qed.
  Lemma anc_through : forall i j k, anc es i j -> anc es j k -> anc es i k.
  Proof.
    intros i j k A B. destruct (anc_split A) as (o1 & E1 & _). destruct (anc_split B) as (o2 & E2 & S & _).
    eapply anc_of with (own := o1 ++ o2); auto. now rewrite E1, E2, app_assoc.
  Qed.
  Lemma head_id : forall i e c, chain es i = e :: c -> e_id e = i.
  Proof.
    intros i e c E. destruct (stored_dec es i) as [S|S].
    - destruct (chain_hd S) as (x & d & F & X & _). congruence.
    - rewrite (chain_nil S) in E. discriminate.
  Qed.
  Lemma anc_same : forall i j, anc es i j -> height es j = height es i -> i = j.
  Proof.
    intros i j A H. destruct (anc_split A) as (own & E & S & _). unfold height in H. rewrite E, app_length in H.
    assert (own = []) by (destruct own; cbn in H; [auto|lia]). subst own. cbn [app] in E.
    destruct (chain_hd S) as (e & c & C & X & _). rewrite C in E. apply head_id in E. congruence.
  Qed.
  Lemma anc_comparable : forall t i j, anc es t i -> anc es t j -> height es i <= height es j -> anc es j i.
  Proof.
    intros t i j A B H. destruct (anc_split A) as (o1 & E1 & S1 & _). destruct (anc_split B) as (o2 & E2 & S2 & _).
    assert (E := E1). rewrite E2 in E. unfold height in H.
    assert (L : length o2 <= length o1).
    { apply (f_equal (@length _)) in E. rewrite !app_length in E. lia. }
    apply (f_equal (skipn (length o2))) in E. rewrite !skipn_app, skipn_all, Nat.sub_diag in E. cbn [skipn app] in E.
    replace (length o2 - length o1) with 0 in E by lia. cbn [skipn] in E. eapply anc_of; eauto.
  Qed.
  (** The root has no parent, and it is the only such block. *)
  Lemma root_unique : forall i j e f, chain es i = [e] -> chain es j = [f] -> i = j.
  Proof.
    intros i j e f A B. destruct (chain_last W) as (r & _ & _ & _ & L).
    assert (SI : stored es i) by (destruct (stored_dec es i) as [S|S]; auto; rewrite (chain_nil S) in A; discriminate).
    assert (SJ : stored es j) by (destruct (stored_dec es j) as [S|S]; auto; rewrite (chain_nil S) in B; discriminate).
    destruct (L _ SI) as (c & C & _). destruct (L _ SJ) as (d & D & _). assert (X := head_id A). assert (Y := head_id B).
    rewrite A in C. rewrite B in D. apply (app_inj_tail [] c) in C as [_ C]. apply (app_inj_tail [] d) in D as [_ D]. congruence.
  Qed.
  (** Two blocks with the same chain below them. *)
  Lemma siblings : forall i j e f c, chain es i = e :: c -> chain es j = f :: c ->
    i = j \/ exists p, anc es i p /\ anc es j p /\ S (height es p) = height es i /\ height es i = height es j.
  Proof.
    intros i j e f c A B. destruct c as [|p c].
    - left. eapply root_unique; eauto.
    - right. destruct (@anc_mid i p c [e] A) as [P CP]. destruct (@anc_mid j p c [f] B) as [Q _]. exists (e_id p).
      split; auto. split; auto. unfold height. rewrite CP, A, B. cbn. lia.
  Qed.
End Tree.

(** * Micro-blocks *)
(** Every block was put on its parent, or took over parent and own score from the block it refers to. *)
Inductive micro_ok : list entry -> Prop :=
| micro_root : forall e, e_ext e = None -> micro_ok [e]
| micro_block : forall e older, micro_ok older -> e_ext e = e_parent e -> micro_ok (e :: older)
| micro_micro : forall e older r, micro_ok older -> In r older -> e_ext e = Some (e_id r) -> e_parent e = e_parent r ->
    e_own e = e_own r -> micro_ok (e :: older).
Lemma micro_effects : forall s o k, micro_ok (st_blocks s) ->
  micro_ok (st_blocks (apply_effects s (firstn k (fst (effects s o))))).
Proof.
  intros s o k F.
  assert (Q0 : micro_ok (st_blocks (apply_effects s (firstn k [])))) by (destruct k; exact F).
  assert (Q1 : forall a i, micro_ok (st_blocks (apply_effects s (firstn k [st_set_leash a i]))))
    by (intros; destruct k as [|[|k]]; exact F).
  assert (Q2 : forall e a i, micro_ok (e :: st_blocks s) -> micro_ok (st_blocks (apply_effects s (firstn k [st_add e; st_set_leash a i]))))
    by (intros; destruct k as [|[|[|k]]]; cbn; auto).
  destruct o as [b a|m a|i a|]; cbn [effects].
  - destruct (chain _ (pb_id b)); [|apply Q1]. destruct (chain _ (pb_parent b)); [apply Q0|].
    destruct (pb_gen b); [|apply Q0]. destruct (N.ltb_spec max_int64 (pb_bt b)); [apply Q0|apply Q2].
    apply micro_block; auto.
  - destruct (chain _ (mi_total m)); [|apply Q1]. destruct (chain _ (mi_ref m)) as [|r c] eqn:C; [apply Q0|].
    destruct (e_parent r) eqn:P; [apply Q2|apply Q0].
    apply micro_micro with r; auto; cbn [e_ext e_parent e_own]; auto.
    + eapply chain_In. rewrite C. now left.
    + f_equal. symmetry. eapply head_id, C.
  - apply Q1.
  - apply Q0.
Qed.
Lemma micro_srun : forall ops s, micro_ok (st_blocks s) -> micro_ok (st_blocks (srun s ops)).
Proof.
  induction ops as [|[o f] ops IH]; intros s F; cbn [srun]; auto. apply IH.
  unfold sexec. assert (Q := fun k => micro_effects o k F).
  destruct (effects s o) as [fs r]. cbn [fst] in Q.
  destruct f as [k|]; [destruct (Nat.ltb k (length fs))|]; cbn [fst]; auto; rewrite <- (firstn_all fs); auto.
Qed.
Lemma micro_hist : forall g ops, micro_ok (hist g ops).
Proof. intros g ops. apply micro_srun. now apply micro_root. Qed.

Definition pos (e : entry) : Prop := (0 < e_own e)%Z.
Lemma pos_effects : forall s o k, match o with Put b _ => pb_bt b <> 0%N | _ => True end -> Forall pos (st_blocks s) ->
  Forall pos (st_blocks (apply_effects s (firstn k (fst (effects s o))))).
Proof.
  intros s o k T F.
  assert (Q0 : Forall pos (st_blocks (apply_effects s (firstn k [])))) by (destruct k; exact F).
  assert (Q1 : forall a i, Forall pos (st_blocks (apply_effects s (firstn k [st_set_leash a i]))))
    by (intros; destruct k as [|[|k]]; exact F).
  assert (Q2 : forall e a i, pos e -> Forall pos (st_blocks (apply_effects s (firstn k [st_add e; st_set_leash a i]))))
    by (intros; destruct k as [|[|[|k]]]; cbn; auto).
  destruct o as [b a|m a|i a|]; cbn [effects].
  - destruct (chain _ (pb_id b)); [|apply Q1]. destruct (chain _ (pb_parent b)); [apply Q0|].
    destruct (pb_gen b); [|apply Q0]. destruct (N.ltb_spec max_int64 (pb_bt b)); [apply Q0|apply Q2].
    unfold pos. cbn [e_own]. assert (B : (1 <= pb_bt b <= max_int64)%N) by lia. apply block_score_pos in B. lia.
  - destruct (chain _ (mi_total m)); [|apply Q1]. destruct (chain _ (mi_ref m)) as [|r c] eqn:C; [apply Q0|].
    destruct (e_parent r); [apply Q2|apply Q0].
    assert (I : In r (st_blocks s)) by (eapply chain_In; rewrite C; now left).
    rewrite Forall_forall in F. exact (F _ I).
  - apply Q1.
  - apply Q0.
Qed.
Lemma pos_srun : forall ops s, Forall (fun of => match fst of with Put b _ => pb_bt b <> 0%N | _ => True end) ops ->
  Forall pos (st_blocks s) -> Forall pos (st_blocks (srun s ops)).
Proof.
  induction ops as [|[o f] ops IH]; intros s T F; cbn [srun]; auto. inversion T; subst. apply IH; auto.
  unfold sexec. assert (Q := fun k => @pos_effects s o k H1 F).
  destruct (effects s o) as [fs r]. cbn [fst] in Q.
  destruct f as [k|]; [destruct (Nat.ltb k (length fs))|]; cbn [fst]; auto; rewrite <- (firstn_all fs); auto.
Qed.
Lemma pos_hist : forall g ops l, reachable g ops l -> targets_ok g ops -> Forall pos (hist g ops).
Proof.
  intros g ops l (_ & _ & l0 & S0 & _) [TG TO]. apply pos_srun; auto. constructor; [|constructor]. apply start_bt in S0.
  unfold pos. cbn [e_own]. assert (B : (1 <= pb_bt g <= max_int64)%N) by lia. apply block_score_pos in B. lia.
Qed.

(** * Lines *)
Lemma line_fresh : forall e es i, ~ stored es (e_id e) -> stored es i -> on_line (e :: es) i = on_line es i.
Proof. intros e es i F S. cbn [on_line]. destruct (id_eqb_spec (e_id e) i) as [<-|]; [contradiction|reflexivity]. Qed.
Lemma line_stored : forall es i j, In j (on_line es i) -> stored es j /\ stored es i.
Proof.
  induction es as [|e es IH]; cbn [on_line]; intros i j I; [destruct I|]. destruct (id_eqb_spec (e_id e) i) as [E|E].
  - rewrite !stored_cons. split; auto. destruct I as [<-|I]; auto. destruct (e_ext e); [right; exact (proj1 (IH _ _ I))|destruct I].
  - rewrite !stored_cons. apply IH in I. tauto.
Qed.
(** A block of a line is an ancestor of its tip, up to the last of the micro-blocks with the same parent. *)
Lemma line_anc : forall es, WF es -> micro_ok es -> forall i j, In j (on_line es i) ->
  exists c ce je t, anc es i c /\ chain es c = ce :: t /\ chain es j = je :: t /\ e_own ce = e_own je.
Proof.
  induction 1 as [e WI P X G | e older p x W IH WI F P SP X SX G]; intros M i j I.
  - cbn [on_line] in I. rewrite X in I. destruct (id_eqb_spec (e_id e) i) as [E|E]; [|destruct I]. destruct I as [<-|[]].
    subst i. exists (e_id e), e, e, []. unfold anc, chain_ids. cbn [chain]. rewrite id_eqb_refl, P. cbn. auto.
  - assert (WE : WF (e :: older)) by (econstructor; eauto).
    assert (MO : micro_ok older) by (inversion M; subst; auto; destruct (WF_nonempty W); reflexivity).
    assert (LIFT : forall c ce t, chain older c = ce :: t -> chain (e :: older) c = ce :: t).
    { intros c ce t C. rewrite chain_fresh; auto. destruct (stored_dec older c) as [S|S]; auto. rewrite (chain_nil S) in C. discriminate. }
    assert (AL : forall a b, anc older a b -> anc (e :: older) a b).
    { intros a b A. unfold anc, chain_ids in *. rewrite chain_fresh; auto. destruct (stored_dec older a) as [S|S]; auto.
      rewrite (chain_nil S) in A. destruct A. }
    cbn [on_line] in I. destruct (id_eqb_spec (e_id e) i) as [E|E].
    + subst i. rewrite X in I. destruct I as [<-|I].
      { exists (e_id e), e, e, (chain older p). assert (C := chain_cons_eq e older P).
        split; [apply anc_self, stored_cons; auto|]. auto. }
      destruct (IH MO _ _ I) as (c & ce & je & t & A & C & J & O).
      assert (CASES : x = p \/ exists r, In r older /\ e_id r = x /\ e_parent r = Some p /\ e_own r = e_own e).
      { remember (e :: older) as full eqn:EF. destruct M as [e' M1|e' o' M0 M1|e' o' r M0 M1 M2 M3 M4]; injection EF as -> <-.
        - congruence.
        - left. congruence.
        - right. exists r. split; auto. split; [congruence|]. split; congruence. }
      assert (UP : forall b, anc older p b -> anc (e :: older) (e_id e) b).
      { intros b B. unfold anc, chain_ids in *. rewrite (chain_cons_eq e older P). right. exact B. }
      destruct CASES as [->|(r & R1 & R2 & R3 & R4)].
      { exists c, ce, je, t. split; auto. }
      assert (CX : chain older x = r :: chain older p).
      { destruct (chain_hd SX) as (r' & c' & CX & R' & IR). assert (r' = r) as -> by (apply (entry_unique W r' r IR R1); congruence).
        rewrite CX. f_equal. clear -W CX R3 R2. revert x r c' p CX R3 R2. induction W as [e0 WI0 P0 X0 G0 | e0 o0 p0 x0 W0 IH0 WI0 F0 P0 SP0 X0 SX0 G0]; intros.
        - cbn [chain] in CX. destruct (id_eqb (e_id e0) x); [|discriminate]. injection CX as <- _. congruence.
        - cbn [chain] in CX. destruct (id_eqb (e_id e0) x) eqn:Q.
          + injection CX as <- <-. rewrite P0 in *. injection R3 as ->. symmetry. apply chain_fresh; auto.
          + rewrite (IH0 _ _ _ _ CX R3 R2). symmetry. apply chain_fresh; auto.
            destruct (stored_dec o0 p) as [S|S]; auto. exfalso.
            assert (IR : In r o0) by (eapply chain_In; rewrite CX; now left). clear -W0 IR R3 S.
            apply S. clear S. induction W0 as [? ? P1 ? ?|? ? ? ? ? IH1 ? ? P1 S1 ? ? ?].
            * destruct IR as [<-|[]]. congruence.
            * apply stored_cons. destruct IR as [<-|IR]; [right; congruence|right; auto]. }
      unfold anc, chain_ids in A. rewrite CX in A. destruct A as [A|A].
      * exists (e_id e), e, je, t. assert (CC : chain older c = r :: chain older p) by (rewrite <- A, R2; exact CX).
        rewrite CC in C. injection C as <- <-.
        split; [apply anc_self, stored_cons; auto|]. split; [apply chain_cons_eq, P|]. split; auto. congruence.
      * exists c, ce, je, t. split; [apply UP, A|]. auto.
    + destruct (IH MO _ _ I) as (c & ce & je & t & A & C & J & O). exists c, ce, je, t. auto.
Qed.
Lemma line_total : forall es, WF es -> forall t i j, In i (on_line es t) -> In j (on_line es t) ->
  In i (on_line es j) \/ In j (on_line es i).
Proof.
  induction 1 as [e WI P X G | e older p x W IH WI F P SP X SX G]; intros t i j I J.
  - cbn [on_line] in *. rewrite X in *. destruct (id_eqb_spec (e_id e) t) as [E|E]; [|destruct I].
    destruct I as [<-|[]]. destruct J as [<-|[]]. left. subst t. rewrite id_eqb_refl. now left.
  - destruct (id_eqb_spec (e_id e) t) as [E|E].
    + subst t. assert (I' := I). assert (J' := J). cbn [on_line] in I, J. rewrite id_eqb_refl, X in I, J.
      destruct I as [<-|I]; [now right|]. destruct J as [<-|J]; [now left|].
      destruct (line_stored I) as [SI _]. destruct (line_stored J) as [SJ _]. rewrite !line_fresh by auto. eauto.
    + assert (forall k, on_line (e :: older) k = if id_eqb (e_id e) k then on_line (e :: older) k else on_line older k) as Q
        by (intros k; cbn [on_line]; destruct (id_eqb (e_id e) k); reflexivity).
      rewrite Q in I, J. destruct (id_eqb_spec (e_id e) t); [contradiction|].
      destruct (line_stored I) as [SI _]. destruct (line_stored J) as [SJ _]. rewrite !line_fresh by auto. eauto.
Qed.

(** * Two blocks *)
Section Two.
  Variable es : list entry.
  Hypothesis W : WF es.
  Hypothesis M : micro_ok es.
  Hypothesis PO : Forall pos es.

  Lemma sum_pos : forall c, Forall pos c -> (0 <= sum_own c)%Z /\ (sum_own c = 0%Z -> c = []).
  Proof.
    induction 1 as [|e c P F [IH1 IH2]]; cbn [sum_own fold_right]; [split; [lia|auto]|]. unfold pos in P. unfold sum_own in IH1. split; [lia|].
    intros Q. lia.
  Qed.
  Lemma sum_app : forall a b, sum_own (a ++ b) = (sum_own a + sum_own b)%Z.
  Proof. induction a as [|e a IH]; intros b; cbn [app sum_own fold_right]; [reflexivity|]. unfold sum_own in *. rewrite IH. lia. Qed.
  Lemma near : forall i j k e f c, chain es i = e :: c -> chain es j = f :: c -> is_lca es i j k ->
    height es j <= S (height es k).
  Proof.
    intros i j k e f c A B (K1 & K2 & K3). destruct (siblings W A B) as [->|(p & P1 & P2 & P3 & P4)].
    - destruct (anc_split W K2) as (_ & _ & _ & S). assert (Q := anc_le W (K3 j (anc_self S) (anc_self S))). lia.
    - assert (Q := anc_le W (K3 _ P1 P2)). lia.
  Qed.
  (** On one line: a block that is no heavier is at most one block away from the last common block. *)
  Lemma line_near : forall t i j k, In i (on_line es t) -> In j (on_line es t) -> (score es j <= score es i)%Z -> is_lca es i j k ->
    height es j <= S (height es k).
  Proof.
    intros t i j k I J S L. destruct (line_total W I J) as [Q|Q].
    - (* i below j *) destruct (line_anc W M Q) as (c & ce & ie & u & A & C & E & O).
      destruct (anc_split W A) as (own & EJ & _). unfold score in S. rewrite EJ, sum_app, C, E in S. cbn [sum_own fold_right] in S.
      assert (F : Forall pos own).
      { apply Forall_forall. intros y Y. rewrite Forall_forall in PO. apply PO. eapply chain_In with (i := j). rewrite EJ. apply in_or_app. auto. }
      destruct (sum_pos F) as [F1 F2]. unfold sum_own in *. rewrite O in S. rewrite (F2 ltac:(lia)), C in EJ. cbn [app] in EJ.
      exact (near E EJ L).
    - destruct (line_anc W M Q) as (c & ce & je & u & A & C & E & O). destruct L as (L1 & L2 & L3).
      destruct (siblings W C E) as [->|(p & P1 & P2 & P3 & P4)].
      + assert (SJ : stored es j) by (apply line_stored in J; tauto). assert (X := anc_le W (L3 j A (anc_self SJ))). lia.
      + assert (X := anc_le W (L3 p (anc_through W A P1) P2)). lia.
  Qed.
  (** Two blocks that diverge are not both close to a third. *)
  Lemma far : forall z i j k x y n, is_lca es i j k -> is_lca es z i x -> is_lca es z j y ->
    height es k + n < height es i -> height es k + n < height es j ->
    height es x + n < height es i \/ height es y + n < height es j.
  Proof.
    intros z i j k x y n (K1 & K2 & K3) (X1 & X2 & X3) (Y1 & Y2 & Y3) HI HJ.
    destruct (Nat.le_ge_cases (height es x) (height es y)) as [C|C].
    - assert (A := anc_comparable W X1 Y1 C). assert (B := anc_le W (K3 x X2 (anc_through W Y2 A))). left. lia.
    - assert (A := anc_comparable W Y1 X1 C). assert (B := anc_le W (K3 y (anc_through W X2 A) Y2)). right. lia.
  Qed.
End Two.

(** * Forks *)
Section Forks.
  Variable (g : pblock) (ops : list (op * option nat)) (l : linkage).
  Hypothesis H : reachable g ops l.
  Variable (ord : list group -> list group) (srt : list Fork -> list Fork) (peers : list addr) (fs : list Fork).
  Hypothesis OM : map_order ord.
  Hypothesis SS : sorts fork_less srt.
  Hypothesis F : forks ord srt l peers = Ok fs.
  Let es := hist g ops.
  Lemma hist_wf : WF es.
  Proof. unfold es, hist. destruct (one_view H) as (s & HE & R & _). unfold hist in HE. rewrite HE. apply (R_wf R). Qed.
  Lemma forks_facts : exists lg, In lg fs /\ f_longest lg = true /\ (forall f, In f fs -> f_longest f = true -> f = lg) /\
    best_block es l peers (f_head lg) /\
    forall f, In f fs -> is_lca es (f_head lg) (f_head f) (f_lcb f) /\
      f_length f = (Z.of_nat (height es (f_head f)) - Z.of_nat (height es (f_lcb f)))%Z /\ (exists a, standing l peers a (f_head f)).
  Proof.
    destruct (p_forks_longest H OM SS F) as (_ & f0 & rest & E & L0 & LR & _ & B).
    destruct (p_forks_length H OM SS F) as (lg & I & L & _ & LC).
    destruct (p_forks_partition H OM SS F) as (_ & HD & FP).
    assert (lg = f0) as ->.
    { rewrite E in I. destruct I as [->|I]; auto. rewrite (LR _ I) in L. discriminate. }
    exists f0. split; auto. split; auto. split.
    { intros f J LJ. rewrite E in J. destruct J as [->|J]; auto. rewrite (LR _ J) in LJ. discriminate. }
    split; auto. intros f J. destruct (LC f J) as (A & A1 & _). split; auto. split.
    - rewrite A1. f_equal. destruct (FP f J) as (_ & _ & _ & b & BB & -> & _).
      destruct (one_view H) as (s & HE & R & SM & _). unfold es. rewrite HE in *.
      apply (block_facts R SM) in BB; [|apply (stored_wf (R_wf R)); destruct (anc_split (R_wf R) (proj1 (proj2 A))) as (_ & _ & _ & Q); exact Q].
      destruct BB as (_ & _ & -> & _). lia.
    - apply HD. now apply in_map.
  Qed.
  Lemma head_of : forall a i, standing l peers a i -> exists f, In f fs /\ f_head f = i.
  Proof.
    intros a i S. destruct (p_forks_partition H OM SS F) as (_ & HD & _).
    assert (I : In i (map f_head fs)) by (apply HD; eauto). apply in_map_iff in I as (f & E & I). eauto.
  Qed.
End Forks.
