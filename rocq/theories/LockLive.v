(** Proofs about locks: no deadlock, and calls return. *)
From Verif Require Import Base Kv ChainModel LockModel LockSpec LockProofs LockLink.
Set Implicit Arguments.

(** * Termination *)
Section Falls.
Variables D C R : Type.
(** One step down in the code of a goroutine. *)
Inductive sub : code D R -> code D R -> Prop :=
| sub_snap k d : sub (k d) (Snap k)
| sub_write f k : sub k (Write f k)
| sub_rlock k : sub k (RLock k)
| sub_runlock k : sub k (RUnlock k)
| sub_announce k : sub k (Announce k)
| sub_enter k : sub k (Enter k)
| sub_unlock k : sub k (Unlock k).
Inductive below : option (C * code D R) -> option (C * code D R) -> Prop :=
| below_sub c k k' : sub k' k -> below (Some (c, k')) (Some (c, k))
| below_ret c r : below None (Some (c, Ret r)).
Lemma below_acc : forall o, Acc below o.
Proof.
  assert (N : Acc below None) by (constructor; intros o H; inversion H).
  intros [[c k]|]; [|exact N]. induction k as [r|k IH|w k IH|k IH|k IH|k IH|k IH|k IH]; constructor; intros o H; inversion H as [c' k1 k2 S E1 E2|]; subst; try exact N; inversion S; subst; auto.
Qed.
Inductive falls : list (option (C * code D R)) -> list (option (C * code D R)) -> Prop :=
| falls_here x y l : below y x -> falls (y :: l) (x :: l)
| falls_there x l l' : falls l' l -> falls (x :: l') (x :: l).
Lemma falls_acc : forall l, Acc falls l.
Proof.
  induction l as [|x l IH]; [constructor; intros l' H; inversion H|].
  revert l IH. induction (below_acc x) as [x _ IHx]. intros l Al. induction Al as [l Al IHl].
  constructor. intros l' H. inversion H; subst.
  - apply IHx; [assumption|]. constructor. exact Al.
  - apply IHl. assumption.
Qed.

Lemma map_upd_out : forall l (f : nat -> option (C * code D R)) g x, ~ In g l -> map (upd f g x) l = map f l.
Proof.
  intros l f g x N. apply map_ext_in. intros h I. apply upd_other. intros ->. contradiction.
Qed.
Lemma map_upd_falls : forall l (f : nat -> option (C * code D R)) g x, In g l -> NoDup l -> below x (f g) -> falls (map (upd f g x) l) (map f l).
Proof.
  induction l as [|h l IH]; intros f g x I ND B; [destruct I|]. inversion ND; subst. cbn [map]. destruct (Nat.eq_dec h g) as [->|N].
  - rewrite upd_same, map_upd_out by assumption. now constructor.
  - rewrite (upd_other f x N). constructor. apply IH; auto. destruct I as [->|I]; [contradiction|exact I].
Qed.
Variable body : C -> code D R.
Lemma goes_falls : forall (s s' : state D C R) n, (forall g, n <= g -> gs s g = None) -> goes_on body s s' ->
  (forall g, n <= g -> gs s' g = None) /\ falls (map (gs s') (seq 0 n)) (map (gs s) (seq 0 n)).
Proof.
  intros s s' n B (es & ST & NI).
  assert (K : forall g x, gs s g <> None -> below x (gs s g) -> gs s' = upd (gs s) g x ->
    (forall h, n <= h -> gs s' h = None) /\ falls (map (gs s') (seq 0 n)) (map (gs s) (seq 0 n))).
  { intros g x A L E. rewrite E. assert (G : g < n) by (destruct (Nat.lt_ge_cases g n) as [|H]; [assumption|now apply B in H]). split.
    - intros h H. rewrite upd_other by lia. now apply B.
    - apply map_upd_falls; [apply in_seq; lia|apply seq_NoDup|exact L]. }
  destruct ST as [g c G|g c r G|g s' IN]; [now contradiction (NI g c)|..].
  - apply (K g None); [congruence|rewrite G; constructor|reflexivity].
  - destruct IN as [c k G|c f k G|c k G P W|c k G I|c k G P W|c k G P W|c k G W]; (eapply (K g); [congruence|rewrite G; constructor; constructor|reflexivity]).
Qed.
Lemma goes_acc : forall n (s : state D C R), (forall g, n <= g -> gs s g = None) -> Acc (fun y x => goes_on body x y) s.
Proof.
  intros n s. remember (map (gs s) (seq 0 n)) as l eqn:E. revert s E. induction (falls_acc l) as [l _ IH]. intros s -> B.
  constructor. intros s' H. destruct (goes_falls B H) as [B' F]. apply (IH _ F); auto.
Qed.

(** * Calls in progress were made *)
Lemma called : forall d0 tr (s : state D C R), steps body (start_of C R d0) tr s -> forall g c k, gs s g = Some (c, k) -> In (Inv R g c) tr.
Proof.
  intros d0 tr s H. induction H as [|tr s1 es s2 _ IH ST]; intros g c k G; [discriminate|]. apply in_or_app.
  assert (K : forall h x, gs s2 = upd (gs s1) h x -> (forall c' k', x = Some (c', k') -> exists k0, gs s1 h = Some (c', k0)) -> In (Inv R g c) tr).
  { intros h x E F. rewrite E in G. destruct (Nat.eq_dec g h) as [->|N]; [rewrite upd_same in G|rewrite upd_other in G by exact N; eauto].
    destruct (F _ _ G) as (k0 & G0). eauto. }
  destruct ST as [h c' G'|h c' r G'|h s2 IN].
  - cbn [gs] in G. destruct (Nat.eq_dec g h) as [->|N]; [rewrite upd_same in G; injection G as -> _; right; now left|rewrite upd_other in G by exact N; left; eauto].
  - left. apply (K h None); [reflexivity|discriminate].
  - left. destruct IN as [c' k' G'|c' f k' G'|c' k' G' P W|c' k' G' I|c' k' G' P W|c' k' G' P W|c' k' G' W]; (eapply (K h); [reflexivity|intros ? ? [= <- _]; eauto]).
Qed.
Lemma steps_app : forall (s : state D C R) tr1 s1 tr2 s2, steps body s tr1 s1 -> steps body s1 tr2 s2 -> steps body s (tr1 ++ tr2) s2.
Proof.
  intros s tr1 s1 tr2 s2 H1 H2. induction H2; [now rewrite app_nil_r|]. rewrite app_assoc. econstructor; eauto.
Qed.
End Falls.

Lemma bounded : forall C R (tr : list (event C R)), exists n, forall g c, In (Inv R g c) tr -> g < n.
Proof.
  intros C R. induction tr as [|e tr (n & IH)]; [exists 0; intros g c []|]. exists (S (n + match e with Inv _ g _ => g | Res g _ _ => g end)).
  intros g c [->|I]; [lia|]. apply IH in I. lia.
Qed.

(** * Progress *)
Section Progress.
Variables D C R : Type.
Variable body : C -> code D R.
Variable does : C -> D -> D * R.
Hypothesis ALONE : forall c d, alone (body c) d = does c d.
Hypothesis WELL : forall c, well (body c).

(** No goroutine that holds a read lock waits for another while a writer is waiting. *)
Definition unobstructed (s : state D C R) : Prop :=
  pending (mx s) = None \/ forall g c k, gs s g = Some (c, RLock k) -> ~ In g (readers (mx s)).
Lemma progress : forall s ph abs g c k, linv body does s ph abs -> unobstructed s -> gs s g = Some (c, k) -> exists s', goes_on body s s'.
Proof.
  intros s ph abs g c k [(O1 & O2 & O3) AL] U G.
  assert (IN : forall h s', inside s h s' -> exists s', goes_on body s s').
  { intros h s' H. exists s', []. split; [now apply (st_inside _ H)|discriminate]. }
  destruct (writer (mx s)) as [w|] eqn:W.
  { pose proof (AL w) as Sw. remember (gs s w) as q eqn:Q. symmetry in Q.
    destruct Sw as [(_ & _ & A)|c' (_ & _ & A)|c' k' _ _ _ _ A|c' n k' r _ _ _ _ A|c' k' r S1 S2 S3 S4 S5|c' r (_ & _ & A)]; try congruence.
    destruct k'; try contradiction; eapply IN; [eapply in_snap|eapply in_write|eapply in_unlock]; eauto. }
  destruct (readers (mx s)) as [|h rs] eqn:RD.
  - destruct (pending (mx s)) as [w|] eqn:P.
    + pose proof (AL w) as Sw. remember (gs s w) as q eqn:Q. symmetry in Q.
      destruct Sw as [(_ & A & _)|c' (_ & A & _)|c' k' S1 S2 S3 S4 S5|c' n k' r _ _ S3 _ _|c' k' r S1 S2 S3 S4 S5|c' r (_ & A & _)]; try congruence.
      * eapply IN. eapply in_enter; eauto.
      * rewrite RD in S3. discriminate.
    + pose proof (AL g) as Sg. rewrite G in Sg.
      inversion Sg as [|c' AW EQ1 EQ2|c' k' S1 S2 S3 S4 S5 EQ1 EQ2|c' n k' r' S1 S2 S3 S4 S5 EQ1 EQ2|c' k' r' S1 S2 S3 S4 S5 EQ1 EQ2|c' r' AW EQ1 EQ2]; subst.
      * pose proof (WELL c) as WE. destruct (body c) as [| | |k'| |k'| |] eqn:E; try contradiction; eapply IN; [eapply in_rlock|eapply in_announce]; eauto.
      * congruence.
      * rewrite RD in S3. discriminate.
      * congruence.
      * exists {| mx := mx s; store := store s; gs := upd (gs s) g None |}, [Res g c r']. split; [constructor; exact G|discriminate].
  - pose proof (AL h) as Sh. assert (HH : holds (readers (mx s)) h <> 0) by (rewrite RD; rewrite count_occ_cons_eq by reflexivity; discriminate).
    remember (gs s h) as q eqn:Q. symmetry in Q.
    destruct Sh as [(A & _ & _)|c' (A & _ & _)|c' k' _ _ A _ _|c' n k' r S1 S2 S3 S4 S5|c' k' r S1 S2 A S4 S5|c' r (A & _ & _)]; try congruence.
    destruct k' as [r'|k'|f k'|k'|k'|k'|k'|k']; try contradiction; eapply IN.
    + eapply in_snap; eauto.
    + eapply in_rlock; eauto. destruct U as [U|U]; [exact U|]. exfalso. apply (U h c' k' Q). rewrite RD. now left.
    + eapply in_runlock; eauto. rewrite RD. now left.
Qed.

Lemma all_return : forall (good : list (event C R) -> Prop), (forall tr g c r, good tr -> good (tr ++ [Res g c r])) ->
  (forall d0 tr s, steps body (start_of C R d0) tr s -> good tr -> unobstructed s) ->
  forall d0 tr s, steps body (start_of C R d0) tr s -> good tr -> inevitably (goes_on body) (@all_out D C R) s.
Proof.
  intros good GR GU d0 tr s H GD. destruct (bounded tr) as (n & B).
  assert (BN : forall g, n <= g -> gs s g = None).
  { intros g L. destruct (gs s g) as [[c k]|] eqn:G; [|reflexivity]. pose proof (called H _ G) as I. apply B in I. lia. }
  pose proof (@goes_acc _ _ _ body n s BN) as A. revert tr H GD B BN. induction A as [s _ IH]. intros tr H GD B BN.
  assert (DEC : all_out s \/ exists g c k, gs s g = Some (c, k)).
  { assert (X : forall m, (forall g, g < m -> gs s g = None) \/ exists g c k, gs s g = Some (c, k)).
    { induction m as [|m [IHm|IHm]]; [left; lia| |now right]. destruct (gs s m) as [[c k]|] eqn:G; [right; eauto|].
      left. intros g L. destruct (Nat.eq_dec g m) as [->|]; [exact G|apply IHm; lia]. }
    destruct (X n) as [X'|X']; [left|now right]. intros g. destruct (Nat.lt_ge_cases g n) as [L|L]; auto. }
  destruct DEC as [O|(g & c & k & G)]; [now apply iv_now|]. apply iv_later.
  - destruct (linearizable does ALONE WELL H) as (ms & ph & abs & _ & _ & L). eapply progress; eauto.
  - intros s' GO. destruct (goes_falls BN GO) as [BN' _]. pose proof GO as GO'. destruct GO as (es & ST & NI).
    assert (GD' : good (tr ++ es)).
    { destruct ST as [h c' G'|h c' r G'|h s' IN]; [now contradiction (NI h c')|now apply GR|now rewrite app_nil_r]. }
    apply (IH s' GO' (tr ++ es)); auto.
    + econstructor; eauto.
    + intros h c' I. apply in_app_or in I as [I|I]; [eauto|]. destruct ST as [x c0 G'|x c0 r G'|x s' IN]; [now contradiction (NI x c0)|destruct I as [I|[]]; discriminate I|destruct I].
Qed.
End Progress.

(** * No nested read locks *)
Fixpoint no_rlock D R (c : code D R) : Prop :=
  match c with
  | Ret _ => True
  | Snap k => forall d, no_rlock (k d)
  | RLock _ => False
  | Write _ k | RUnlock k | Announce k | Enter k | Unlock k => no_rlock k
  end.
Definition flat D R (c : code D R) : Prop := match c with RLock k => no_rlock k | _ => no_rlock c end.
Lemma no_rlock_flat : forall D R (c : code D R), no_rlock c -> flat c.
Proof. intros D R [] H; try exact H. destruct H. Qed.
Lemma leave_in : forall g h l, In h (leave g l) -> In h l.
Proof. intros g h. induction l as [|x l IH]; intros I; [exact I|]. cbn [leave] in I. destruct (Nat.eqb g x); [now right|]. destruct I as [->|I]; [now left|right; auto]. Qed.
Lemma leave_in_other : forall g h l, h <> g -> In h l -> In h (leave g l).
Proof.
  intros g h. induction l as [|x l IH]; intros N I; [exact I|]. cbn [leave]. destruct (Nat.eqb_spec g x) as [->|NE].
  - destruct I as [->|I]; [contradiction|exact I].
  - destruct I as [->|I]; [now left|right; auto].
Qed.
Section Flat.
Variables D C R : Type.
Variable body : C -> code D R.
Variable does : C -> D -> D * R.
Hypothesis ALONE : forall c d, alone (body c) d = does c d.
Hypothesis WELL : forall c, well (body c).

Lemma out_away : forall d0 tr s g, steps body (start_of C R d0) tr s -> gs s g = None -> ~ In g (readers (mx s)).
Proof.
  intros d0 tr s g H G I. destruct (linearizable does ALONE WELL H) as (ms & ph & abs & _ & _ & [_ AL]). pose proof (AL g) as Sg. rewrite G in Sg.
  inversion Sg as [(A & _) EQ1 EQ2| | | | |]. apply (count_occ_not_In Nat.eq_dec) in A. contradiction.
Qed.
Lemma flat_inv : forall d0 tr (s : state D C R), steps body (start_of C R d0) tr s -> (forall g c, In (Inv R g c) tr -> flat (body c)) ->
  forall g c k, gs s g = Some (c, k) -> flat k /\ (In g (readers (mx s)) -> no_rlock k).
Proof.
  intros d0 tr s H. induction H as [|tr s1 es s2 H IH ST]; intros F g c k G; [discriminate|].
  assert (IH' : forall g c k, gs s1 g = Some (c, k) -> flat k /\ (In g (readers (mx s1)) -> no_rlock k)) by (apply IH; intros g' c' I; apply (F g'); apply in_or_app; now left).
  clear IH. destruct ST as [h c' G'|h c' r G'|h s2 IN].
  - cbn [gs mx] in *. destruct (Nat.eq_dec g h) as [->|N]; [rewrite upd_same in G|rewrite upd_other in G by exact N; eauto].
    injection G as -> <-. split; [apply (F h); apply in_or_app; right; now left|]. intros I. now apply (@out_away _ _ _ h H G') in I.
  - cbn [gs mx] in *. destruct (Nat.eq_dec g h) as [->|N]; [rewrite upd_same in G; discriminate|rewrite upd_other in G by exact N; eauto].
  - destruct IN as [c' k' G'|c' f k' G'|c' k' G' P W|c' k' G' I|c' k' G' P W|c' k' G' P W|c' k' G' W]; cbn [gs mx set_readers set_writers readers] in *;
      (destruct (Nat.eq_dec g h) as [->|N]; [rewrite upd_same in G; injection G as -> <-; destruct (IH' _ _ _ G') as [X Y]|rewrite upd_other in G by exact N; destruct (IH' _ _ _ G) as [X Y]]);
      try (split; [apply no_rlock_flat|]; intros; cbn [flat no_rlock] in X; auto; fail).
    all: split; auto.
    + intros [<-|J]; [contradiction|auto].
    + intros J. apply Y. now apply leave_in in J.
Qed.
Theorem flat_return : forall d0 tr s, steps body (start_of C R d0) tr s -> (forall g c, In (Inv R g c) tr -> flat (body c)) ->
  inevitably (goes_on body) (@all_out D C R) s.
Proof.
  apply (@all_return _ _ _ body does ALONE WELL (fun tr => forall g c, In (Inv R g c) tr -> flat (body c))).
  - intros tr g c r H g' c' I. apply in_app_or in I as [I|[I|[]]]; [eauto|discriminate].
  - intros d0 tr s H F. right. intros g c k G I. destruct (flat_inv H F _ G) as [_ X]. exact (X I).
Qed.

(** Only readers: nobody announces. *)
Fixpoint no_writer (c : code D R) : Prop :=
  match c with
  | Ret _ => True
  | Snap k => forall d, no_writer (k d)
  | RLock k | RUnlock k => no_writer k
  | _ => False
  end.
Lemma reading_no_writer : forall c n, reading n c -> no_writer c.
Proof.
  induction c as [r|k IH|w k IH|k IH|k IH|k IH|k IH|k IH]; intros n H; cbn [reading no_writer] in *; try contradiction; eauto.
  destruct n; [destruct H as (r & ->); exact Logic.I|eauto].
Qed.
Lemma readers_inv : forall d0 tr (s : state D C R), steps body (start_of C R d0) tr s -> (forall g c, In (Inv R g c) tr -> no_writer (body c)) ->
  pending (mx s) = None /\ forall g c k, gs s g = Some (c, k) -> no_writer k.
Proof.
  intros d0 tr s H. induction H as [|tr s1 es s2 H IH ST]; intros F; [split; [reflexivity|discriminate]|].
  destruct IH as [P1 IH]; [intros g' c' I; apply (F g'); apply in_or_app; now left|].
  destruct ST as [h c' G'|h c' r G'|h s2 IN].
  - split; [exact P1|]. intros g c k G. cbn [gs] in G. destruct (Nat.eq_dec g h) as [->|N]; [rewrite upd_same in G|rewrite upd_other in G by exact N; eauto].
    injection G as -> <-. apply (F h). apply in_or_app. right. now left.
  - split; [exact P1|]. intros g c k G. cbn [gs] in G. destruct (Nat.eq_dec g h) as [->|N]; [rewrite upd_same in G; discriminate|rewrite upd_other in G by exact N; eauto].
  - destruct IN as [c' k' G'|c' f k' G'|c' k' G' P W|c' k' G' I|c' k' G' P W|c' k' G' P W|c' k' G' W]; pose proof (IH _ _ _ G') as X; cbn [no_writer] in X; try contradiction;
      (split; [exact P1|]; intros g c k G; cbn [gs] in G; destruct (Nat.eq_dec g h) as [->|N]; [rewrite upd_same in G; injection G as -> <-; auto|rewrite upd_other in G by exact N; eauto]).
Qed.
Theorem readers_return : forall d0 tr s, steps body (start_of C R d0) tr s -> (forall g c, In (Inv R g c) tr -> no_writer (body c)) ->
  inevitably (goes_on body) (@all_out D C R) s.
Proof.
  apply (@all_return _ _ _ body does ALONE WELL (fun tr => forall g c, In (Inv R g c) tr -> no_writer (body c))).
  - intros tr g c r H g' c' I. apply in_app_or in I as [I|[I|[]]]; [eauto|discriminate].
  - intros d0 tr s H F. left. apply (readers_inv H F).
Qed.
End Flat.

(** * The linkage *)
Lemma wrc_no_rlock : forall D A B (c : code D A) (f : A -> code D B), wrc c -> (forall a, no_rlock (f a)) -> no_rlock (cbind c f).
Proof. induction c as [r|k IH|w k IH|k IH|k IH|k IH|k IH|k IH]; intros f H F; cbn [cbind wrc no_rlock] in *; try contradiction; eauto. Qed.
Lemma rlocked_flat : forall D A (c : code D A), wrc c -> flat (rlocked c).
Proof. intros D A c H. unfold rlocked. cbn [flat]. apply wrc_no_rlock; [exact H|intros; exact Logic.I]. Qed.
Lemma locked_flat : forall D A (c : code D A), wrc c -> flat (locked c).
Proof. intros D A c H. unfold locked. cbn [flat no_rlock]. apply wrc_no_rlock; [exact H|intros; exact Logic.I]. Qed.
Lemma wrc_view : forall D A (f : D -> A), wrc (view f). Proof. intros D A f d. exact Logic.I. Qed.
Lemma wrc_ret : forall D A (a : A), wrc (Ret a : code D A). Proof. intros. exact Logic.I. Qed.
Lemma wrc_cmap : forall D A B (f : A -> code D (outcome B)) l, (forall a, wrc (f a)) -> wrc (cmap f l).
Proof.
  intros D A B f l F. induction l as [|a l IH]; [exact Logic.I|]. cbn [cmap]. apply wrc_obind; [apply F|]. intros b. apply wrc_obind; [exact IH|intros; exact Logic.I].
Qed.
Lemma block_wrc : forall i, wrc (c_block i).
Proof. intros i. apply wrc_obind; [apply wrc_view|intros; apply wrc_ret]. Qed.
Lemma active_wrc : wrc c_active_heads.
Proof. apply wrc_obind; [apply wrc_view|]. intros hs. apply wrc_obind; [apply wrc_view|intros; apply wrc_ret]. Qed.
Lemma longest_wrc : forall m acc, wrc (c_longest m acc).
Proof. induction m as [|x m IH]; intros acc; [exact Logic.I|]. cbn [c_longest]. apply wrc_obind; [apply block_wrc|intros; apply IH]. Qed.
Lemma fork_loop_wrc : forall a m acc f, wrc (c_fork_loop a m acc f).
Proof. intros a. induction m as [|x m IH]; intros acc f; [exact Logic.I|]. cbn [c_fork_loop]. apply wrc_obind; [apply block_wrc|intros; apply IH]. Qed.
Lemma finish_wrc : forall i f, wrc (c_finish_fork i f).
Proof. intros i f. apply wrc_obind; [apply wrc_view|]. intros j. apply wrc_obind; [apply wrc_view|intros; apply wrc_ret]. Qed.
Lemma forks_wrc : forall ord srt ps, wrc (c_forks ord srt ps).
Proof.
  intros ord srt ps. apply wrc_obind; [apply wrc_view|]. intros ls. apply wrc_obind.
  - apply wrc_cmap. intros x. apply wrc_obind; [apply block_wrc|intros; apply wrc_ret].
  - intros r. destruct (srt r) as [|f0 rest]; [exact Logic.I|]. apply wrc_cmap. intros f. apply finish_wrc.
Qed.
Lemma method_flat : forall gid c, c <> KLogStats -> flat (method gid c).
Proof.
  intros gid c N. destruct c; cbn [method]; try congruence; try apply locked_flat; try apply rlocked_flat; apply answers_wrc;
    auto using put_wrc, micro_wrc, wrc_view, block_wrc, active_wrc, forks_wrc.
  - apply writes_wrc. intros; exact Logic.I.
  - apply wrc_bind; [apply wrc_view|intros; apply wrc_ret].
  - apply wrc_bind; [apply wrc_view|intros; apply wrc_ret].
  - apply wrc_bind; [apply wrc_view|]. intros r. apply wrc_obind; [apply wrc_view|intros; apply wrc_ret].
  - apply wrc_obind; [apply forks_wrc|intros; apply wrc_ret].
  - apply wrc_bind; [apply wrc_view|]. intros [h|[]| |]; try apply wrc_ret.
    apply wrc_obind; [apply wrc_view|]. intros ls. apply wrc_obind; [apply longest_wrc|]. intros acc. destruct (id_eqb h (snd acc)); [apply wrc_ret|apply wrc_view].
  - apply wrc_obind; [apply wrc_view|]. intros ls. apply wrc_obind; [apply fork_loop_wrc|]. intros r.
    destruct (id_eqb (f_head (snd r)) (snd (fst r))); [apply wrc_ret|apply finish_wrc].
  - apply wrc_obind; [apply wrc_view|intros; apply wrc_ret].
Qed.
Lemma method_no_writer : forall gid c, op_of c = None -> no_writer (method gid c).
Proof.
  intros gid c O. pose proof (method_well gid c) as W. destruct c; try discriminate O; cbn [method] in *; unfold rlocked in *; cbn [well] in W; cbn [no_writer];
    eapply reading_no_writer; exact W.
Qed.

(** * A recursive read lock *)
(** Goroutine 0 holds the read lock and waits for a second one; goroutine 1 waits as a writer. Everything stays as it is. *)
Section Deadlock.
Variables D C R : Type.
Variable body : C -> code D R.
Hypothesis WELL : forall c, well (body c).
Definition wedged (s : state D C R) : Prop :=
  (exists n, readers (mx s) = repeat 0 (S n)) /\ pending (mx s) = Some 1 /\ writer (mx s) = None /\
  (exists c k, gs s 0 = Some (c, RLock k)) /\ (exists c k, gs s 1 = Some (c, Enter k)) /\
  forall g c k, g <> 0 -> g <> 1 -> gs s g = Some (c, k) -> k = body c.
Lemma wedged_step : forall s es s', wedged s -> step body s es s' -> wedged s' /\ forall g c r, es <> [Res g c r].
Proof.
  intros s es s' ((n & RD) & P & W & (c0 & k0 & G0) & (c1 & k1 & G1) & OT) ST.
  assert (BL : forall g c k, gs s g = Some (c, k) -> (exists k', k = RLock k') \/ (exists k', k = Announce k') \/ (g = 1 /\ exists k', k = Enter k')).
  { intros g c k G. destruct (Nat.eq_dec g 0) as [->|N0]; [rewrite G0 in G; injection G as <- <-; eauto|].
    destruct (Nat.eq_dec g 1) as [->|N1]; [rewrite G1 in G; injection G as <- <-; eauto 6|]. rewrite (OT g c k N0 N1 G).
    pose proof (WELL c) as WE. destruct (body c); try contradiction; eauto. }
  destruct ST as [g c G|g c r G|g s' IN].
  - split; [|discriminate]. assert (N0 : g <> 0) by congruence. assert (N1 : g <> 1) by congruence.
    split; [now exists n|]. split; [exact P|]. split; [exact W|]. cbn [gs]. split; [rewrite upd_other by congruence; eauto|]. split; [rewrite upd_other by congruence; eauto|].
    intros h c' k' H0 H1 G'. destruct (Nat.eq_dec h g) as [->|N]; [rewrite upd_same in G'; now injection G' as -> <-|rewrite upd_other in G' by exact N; eauto].
  - destruct (BL _ _ _ G) as [(k' & E)|[(k' & E)|(_ & k' & E)]]; discriminate E.
  - exfalso. destruct IN as [c k G|c f k G|c k G P' W'|c k G I|c k G P' W'|c k G P' W'|c k G W'];
      try (destruct (BL _ _ _ G) as [(k' & E)|[(k' & E)|(_ & k' & E)]]; discriminate E); try congruence. rewrite RD in W'. discriminate W'.
Qed.
Lemma wedged_forever : forall s tr s', wedged s -> steps body s tr s' -> wedged s' /\ forall g c r, ~ In (Res g c r) tr.
Proof.
  intros s tr s' WD H. induction H as [|tr s1 es s2 H [IH NR] ST]; [split; auto|].
  destruct (wedged_step IH ST) as [WD2 NE]. split; [exact WD2|]. intros g c r I. apply in_app_or in I as [I|I]; [now apply (NR g c r)|].
  destruct ST as [h c' G|h c' r' G|h s2 IN]; [destruct I as [I|[]]; discriminate I|now apply (NE h c' r')|destruct I].
Qed.
End Deadlock.
