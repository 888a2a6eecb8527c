(** C27, C28, C66: goroutines calling the linkage. *)
From Coq Require Import Permutation.
From Verif Require Import Base Kv ChainModel ChainSpec ChainExample LockModel LockSpec LockProofs LockLink LockLive.
Set Implicit Arguments.

(** * Schedules, for the examples *)
Section Schedule.
Variables D C R : Type.
Variable body : C -> code D R.
Inductive action := ACall (g : nat) (c : C) | AGo (g : nat).
Definition go (s : state D C R) (g : nat) : option (list (event C R) * state D C R) :=
  match gs s g with
  | None => None
  | Some (c, k) =>
      let next := fun m d k' => Some ([], {| mx := m; store := d; gs := upd (gs s) g (Some (c, k')) |}) in
      let free := match pending (mx s), writer (mx s) with None, None => true | _, _ => false end in
      match k with
      | Ret r => Some ([Res g c r], {| mx := mx s; store := store s; gs := upd (gs s) g None |})
      | Snap k' => next (mx s) (store s) (k' (store s))
      | Write f k' => next (mx s) (f (store s)) k'
      | RLock k' => if free then next (set_readers (mx s) (g :: readers (mx s))) (store s) k' else None
      | RUnlock k' => if existsb (Nat.eqb g) (readers (mx s)) then next (set_readers (mx s) (leave g (readers (mx s)))) (store s) k' else None
      | Announce k' => if free then next (set_writers (mx s) (Some g) None) (store s) k' else None
      | Enter k' => match pending (mx s), readers (mx s) with
                    | Some h, [] => if Nat.eqb h g then next (set_writers (mx s) None (Some g)) (store s) k' else None
                    | _, _ => None
                    end
      | Unlock k' => match writer (mx s) with
                     | Some h => if Nat.eqb h g then next (set_writers (mx s) (pending (mx s)) None) (store s) k' else None
                     | None => None
                     end
      end
  end.
Definition act (s : state D C R) (a : action) : option (list (event C R) * state D C R) :=
  match a with
  | ACall g c => match gs s g with
                 | None => Some ([Inv R g c], {| mx := mx s; store := store s; gs := upd (gs s) g (Some (c, body c)) |})
                 | Some _ => None
                 end
  | AGo g => go s g
  end.
Fixpoint acts (s : state D C R) (al : list action) : list (event C R) * state D C R :=
  match al with
  | [] => ([], s)
  | a :: al' => match act s a with
                | None => acts s al'
                | Some (es, s1) => let (tr, s2) := acts s1 al' in (es ++ tr, s2)
                end
  end.
Lemma go_step : forall s g es s', go s g = Some (es, s') -> step body s es s'.
Proof.
  intros s g es s' H. unfold go in H. destruct (gs s g) as [[c k]|] eqn:G; [|discriminate].
  destruct k as [r|k|f k|k|k|k|k|k].
  - injection H as <- <-. now constructor.
  - injection H as <- <-. eapply st_inside, in_snap; eauto.
  - injection H as <- <-. eapply st_inside, in_write; eauto.
  - destruct (pending (mx s)) eqn:P, (writer (mx s)) eqn:W; try discriminate. injection H as <- <-. eapply st_inside, in_rlock; eauto.
  - destruct (existsb _ _) eqn:E; [|discriminate]. injection H as <- <-. apply existsb_exists in E as (h & I & E). apply Nat.eqb_eq in E. subst h.
    eapply st_inside, in_runlock; eauto.
  - destruct (pending (mx s)) eqn:P, (writer (mx s)) eqn:W; try discriminate. injection H as <- <-. eapply st_inside, in_announce; eauto.
  - destruct (pending (mx s)) as [h|] eqn:P, (readers (mx s)) eqn:RD; try discriminate. destruct (Nat.eqb_spec h g) as [->|]; [|discriminate].
    injection H as <- <-. eapply st_inside, in_enter; eauto.
  - destruct (writer (mx s)) as [h|] eqn:W; [|discriminate]. destruct (Nat.eqb_spec h g) as [->|]; [|discriminate].
    injection H as <- <-. eapply st_inside, in_unlock; eauto.
Qed.
Lemma act_step : forall s a es s', act s a = Some (es, s') -> step body s es s'.
Proof.
  intros s [g c|g] es s' H; cbn [act] in H; [|eapply go_step; eauto]. destruct (gs s g) eqn:G; [discriminate|]. injection H as <- <-. now constructor.
Qed.
Lemma acts_steps : forall al s, steps body s (fst (acts s al)) (snd (acts s al)).
Proof.
  induction al as [|a al IH]; intros s; cbn [acts]; [constructor|]. destruct (act s a) as [[es s1]|] eqn:A; [|apply IH].
  specialize (IH s1). destruct (acts s1 al) as [tr s2]. cbn [fst snd] in *. apply (@steps_app _ _ _ body s es s1 tr s2); [|exact IH].
  replace es with ([] ++ es) by reflexivity. econstructor; [constructor|]. eapply act_step; eauto.
Qed.
Definition actor (a : action) : nat := match a with ACall g _ => g | AGo g => g end.
Lemma go_untouched : forall s g es s' h, go s g = Some (es, s') -> h <> g -> gs s' h = gs s h.
Proof.
  intros s g es s' h H N. unfold go in H. destruct (gs s g) as [[c k]|]; [|discriminate]. destruct k.
  - injection H as <- <-. now apply upd_other.
  - injection H as <- <-. now apply upd_other.
  - injection H as <- <-. now apply upd_other.
  - destruct (pending (mx s)), (writer (mx s)); try discriminate. injection H as <- <-. now apply upd_other.
  - destruct (existsb _ _); [|discriminate]. injection H as <- <-. now apply upd_other.
  - destruct (pending (mx s)), (writer (mx s)); try discriminate. injection H as <- <-. now apply upd_other.
  - destruct (pending (mx s)), (readers (mx s)); try discriminate. destruct (Nat.eqb _ _); [|discriminate]. injection H as <- <-. now apply upd_other.
  - destruct (writer (mx s)); [|discriminate]. destruct (Nat.eqb _ _); [|discriminate]. injection H as <- <-. now apply upd_other.
Qed.
Lemma acts_untouched : forall al s h, ~ In h (map actor al) -> gs (snd (acts s al)) h = gs s h.
Proof.
  induction al as [|a al IH]; intros s h N; cbn [acts]; [reflexivity|]. cbn [map] in N. apply not_in_cons in N as [N1 N2].
  destruct (act s a) as [[es s1]|] eqn:A; [|now apply IH]. specialize (IH s1 h N2). destruct (acts s1 al) as [tr s2]. cbn [snd] in *. rewrite IH.
  destruct a as [g c|g]; cbn [act actor] in *; [|eapply go_untouched; eauto]. destruct (gs s g); [discriminate|]. injection A as <- <-. now apply upd_other.
Qed.
End Schedule.
Arguments ACall {C}.
Arguments AGo {C}.

(** * C27 *)
Theorem C27_atomic : forall g gid d0 tr s, steps (method gid) (start_of call answer d0) tr s ->
  exists ms ph d, erase ms = tr /\ explains (does_db g gid) d0 ms ph d /\ (writer (mx s) = None -> store s = d).
Proof.
  intros g gid d0 tr s H. destruct (linearizable (does_db g gid) (method_alone g gid) (method_well gid) H) as (ms & ph & d & E & EX & [(O & _) _]).
  eauto 7.
Qed.
Print Assumptions C27_atomic.

(** Nothing of a query writes or takes the write lock. *)
Lemma queries_no_writer : forall gid d0 tr s, steps (method gid) (start_of call answer d0) tr s ->
  forall h c k, gs s h = Some (c, k) -> op_of c = None -> no_writer k.
Proof.
  intros gid d0 tr s H. induction H as [|tr s1 es s2 H IH ST]; intros h c k G O; [discriminate|].
  destruct ST as [x c' G'|x c' r G'|x s2 IN].
  - cbn [gs] in G. destruct (Nat.eq_dec h x) as [->|N]; [rewrite upd_same in G; injection G as -> <-; now apply method_no_writer|rewrite upd_other in G by exact N; eauto].
  - cbn [gs] in G. destruct (Nat.eq_dec h x) as [->|N]; [rewrite upd_same in G; discriminate|rewrite upd_other in G by exact N; eauto].
  - destruct IN as [c' k' G'|c' f k' G'|c' k' G' P W|c' k' G' I|c' k' G' P W|c' k' G' P W|c' k' G' W]; cbn [gs] in G;
      (destruct (Nat.eq_dec h x) as [->|N]; [rewrite upd_same in G; injection G as -> <-|rewrite upd_other in G by exact N; eauto]);
      specialize (IH _ _ _ G' O); cbn [no_writer] in IH; try contradiction; auto.
Qed.
Lemma no_writer_writing : forall D R (d : D) (c : code D R), no_writer c -> writing c -> False.
Proof. intros D R d. induction c as [r|k IH|w k IH|k IH|k IH|k IH|k IH|k IH]; cbn [no_writer writing]; intros N W; try contradiction; apply (IH d); auto. Qed.
(** No step of a query changes the store. *)
Theorem C27_queries_never_write : forall gid d0 tr s h c k s', steps (method gid) (start_of call answer d0) tr s ->
  gs s h = Some (c, k) -> op_of c = None -> inside s h s' -> store s' = store s.
Proof.
  intros gid d0 tr s h c k s' H G O IN. pose proof (queries_no_writer H h G O) as NW.
  destruct IN as [c' k' G'|c' f k' G'|c' k' G' P W|c' k' G' I|c' k' G' P W|c' k' G' P W|c' k' G' W]; try reflexivity.
  rewrite G in G'. injection G' as <- ->. destruct NW.
Qed.
Print Assumptions C27_queries_never_write.
(** Every snapshot that a query takes is the store after a sequence of complete calls. *)
Theorem C27_queries_see_complete_calls : forall g gid d0 tr s h c k, steps (method gid) (start_of call answer d0) tr s ->
  gs s h = Some (c, Snap k) -> op_of c = None ->
  exists ms ph, erase ms = tr /\ explains (does_db g gid) d0 ms ph (store s) /\ lk gid (store s) = run g (lk gid d0) (acted_ops ms).
Proof.
  intros g gid d0 tr s h c k H G O. destruct (linearizable (does_db g gid) (method_alone g gid) (method_well gid) H) as (ms & ph & d & E & EX & [(O1 & O2 & O3) AL]).
  assert (W : writer (mx s) = None).
  { pose proof (AL h) as Sh. rewrite G in Sh.
    inversion Sh as [|c' AW EQ1 EQ2|c' k' S1 S2 S3 S4 S5 EQ1 EQ2|c' n k' r' S1 S2 S3 S4 S5 EQ1 EQ2|c' k' r' S1 S2 S3 S4 S5 EQ1 EQ2|c' r' AW EQ1 EQ2]; subst.
    - pose proof (method_well gid c) as WE. match goal with Q : method gid c = _ |- _ => rewrite Q in WE | Q : _ = method gid c |- _ => rewrite <- Q in WE end. destruct WE.
    - apply O2. apply (holds_some _ _ S3).
    - exfalso. exact (no_writer_writing (store s) _ (queries_no_writer H h G O) S1). }
  rewrite (O1 W). exists ms, ph. split; [exact E|]. split; [exact EX|]. exact (explains_run EX).
Qed.
Print Assumptions C27_queries_see_complete_calls.
(** While a call writes, no other call is inside: it has not begun, or it only has to return. *)
Theorem C27_writers_alone : forall gid d0 tr s h c f k, steps (method gid) (start_of call answer d0) tr s ->
  gs s h = Some (c, Write f k) -> forall h' c' k', h' <> h -> gs s h' = Some (c', k') -> k' = method gid c' \/ exists r, k' = Ret r.
Proof.
  intros gid d0 tr s h c f k H G h' c' k' N G'.
  destruct (linearizable (does_db xg gid) (method_alone xg gid) (method_well gid) H) as (ms & ph & d & E & EX & [(O1 & O2 & O3) AL]).
  assert (W : writer (mx s) = Some h).
  { pose proof (AL h) as Sh. rewrite G in Sh.
    inversion Sh as [|c1 AW EQ1 EQ2|c1 k1 S1 S2 S3 S4 S5 EQ1 EQ2|c1 n k1 r1 S1 S2 S3 S4 S5 EQ1 EQ2|c1 k1 r1 S1 S2 S3 S4 S5 EQ1 EQ2|c1 r1 AW EQ1 EQ2]; subst.
    - pose proof (method_well gid c) as WE. match goal with Q : method gid c = _ |- _ => rewrite Q in WE | Q : _ = method gid c |- _ => rewrite <- Q in WE end. destruct WE.
    - destruct S1.
    - exact S5. }
  pose proof (AL h') as Sh. rewrite G' in Sh.
  inversion Sh as [|c1 AW EQ1 EQ2|c1 k1 S1 S2 S3 S4 S5 EQ1 EQ2|c1 n k1 r1 S1 S2 S3 S4 S5 EQ1 EQ2|c1 k1 r1 S1 S2 S3 S4 S5 EQ1 EQ2|c1 r1 AW EQ1 EQ2]; subst.
  - now left.
  - exfalso. assert (P : pending (mx s) = None) by (apply O3; congruence). congruence.
  - exfalso. assert (P : writer (mx s) = None) by (apply O2; apply (holds_some _ _ S3)). congruence.
  - congruence.
  - eauto.
Qed.
Print Assumptions C27_writers_alone.

(** The writing calls of a trace. *)
Definition called_ops (tr : list (event call answer)) : list (op * option nat) :=
  flat_map (fun e => match e with Inv _ _ c => match op_of c with Some o => [o] | None => [] end | Res _ _ _ => [] end) tr.
Definition invoked (ms : list (mark call answer)) : list (nat * (op * option nat)) :=
  flat_map (fun m => match m with MInv _ g c => match op_of c with Some o => [(g, o)] | None => [] end | _ => [] end) ms.
Definition acted_by (ms : list (mark call answer)) : list (nat * (op * option nat)) :=
  flat_map (fun m => match m with MAct g c _ => match op_of c with Some o => [(g, o)] | None => [] end | _ => [] end) ms.
Lemma acted_were_invoked : forall does d0 ms ph (d : db), explains does d0 ms ph d ->
  exists rest, Permutation (invoked ms) (acted_by ms ++ rest) /\ forall g c o, ph g = Called answer c -> op_of c = Some o -> In (g, o) rest.
Proof.
  intros does d0 ms ph d H. induction H as [|ms ph d g c H (rest & P & IN) G|ms ph d g c d' r H (rest & P & IN) G E|ms ph d g c r H (rest & P & IN) G].
  - exists []. split; [constructor|discriminate].
  - unfold invoked, acted_by in *. rewrite !flat_map_app. cbn [flat_map]. rewrite !app_nil_r. destruct (op_of c) as [o|] eqn:O.
    + exists (rest ++ [(g, o)]). split; [rewrite app_assoc; now apply Permutation_app_tail|].
      intros h c' o' Hh Ho. apply in_or_app. destruct (Nat.eq_dec h g) as [->|N]; [right; left; rewrite upd_same in Hh; congruence|rewrite upd_other in Hh by exact N; eauto].
    + exists rest. rewrite app_nil_r. split; [exact P|]. intros h c' o' Hh Ho.
      destruct (Nat.eq_dec h g) as [->|N]; [rewrite upd_same in Hh; congruence|rewrite upd_other in Hh by exact N; eauto].
  - unfold invoked, acted_by in *. rewrite !flat_map_app. cbn [flat_map]. rewrite !app_nil_r. destruct (op_of c) as [o|] eqn:O.
    + destruct (in_split _ _ (IN _ _ _ G O)) as (r1 & r2 & ->). exists (r1 ++ r2). split.
      * rewrite <- app_assoc. eapply perm_trans; [exact P|]. apply Permutation_app_head. apply Permutation_sym. exact (Permutation_middle r1 r2 (g, o)).
      * intros h c' o' Hh Ho. destruct (Nat.eq_dec h g) as [->|N]; [rewrite upd_same in Hh; discriminate|rewrite upd_other in Hh by exact N].
        specialize (IN _ _ _ Hh Ho). apply in_app_or in IN as [I|[I|I]]; [apply in_or_app; now left|congruence|apply in_or_app; now right].
    + exists rest. rewrite app_nil_r. split; [exact P|]. intros h c' o' Hh Ho.
      destruct (Nat.eq_dec h g) as [->|N]; [rewrite upd_same in Hh; discriminate|rewrite upd_other in Hh by exact N; eauto].
  - exists rest. unfold invoked, acted_by in *. rewrite !flat_map_app. cbn [flat_map]. rewrite !app_nil_r. split; [exact P|].
    intros h c' o' Hh Ho. destruct (Nat.eq_dec h g) as [->|N]; [rewrite upd_same in Hh; discriminate|rewrite upd_other in Hh by exact N; eauto].
Qed.
Lemma invoked_called : forall ms, map snd (invoked ms) = called_ops (erase ms).
Proof.
  induction ms as [|[g c|g c r|g c r] ms IH]; [reflexivity| | |]; unfold invoked, called_ops, erase in *; cbn [flat_map erase1 app]; auto.
  destruct (op_of c); cbn [app map snd]; [now f_equal|exact IH].
Qed.
Lemma acted_by_ops : forall ms, map snd (acted_by ms) = acted_ops ms.
Proof.
  induction ms as [|[g c|g c r|g c r] ms IH]; [reflexivity| | |]; unfold acted_by, acted_ops in *; cbn [flat_map app]; auto.
  destruct (op_of c); cbn [app map snd]; [now f_equal|exact IH].
Qed.
Lemma run_app : forall g a l b, run g l (a ++ b) = run g (run g l a) b.
Proof. intros g. induction a as [|[o f] a IH]; intros l b; [reflexivity|]. cbn [app run]. apply IH. Qed.
(** A query that runs next to any other calls sees, at each of its snapshots, a store reached by a history: the calls before and those of the
    calls so far that have acted. All the theorems about reachable linkages hold of it. *)
Theorem C27_queries_see_reachable : forall g ops l0 tr s h c k, reachable g ops l0 -> wf_hist (ops ++ called_ops tr) ->
  steps (method (lk_genesis l0)) (start_of call answer (lk_db l0)) tr s -> gs s h = Some (c, Snap k) -> op_of c = None ->
  exists more, incl more (called_ops tr) /\ reachable g (ops ++ more) (lk (lk_genesis l0) (store s)).
Proof.
  intros g ops l0 tr s h c k (WG & WO & l1 & S1 & ->) [WF LEN] ST G O.
  destruct (C27_queries_see_complete_calls g h ST G O) as (ms & ph & E & EX & RUN). exists (acted_ops ms).
  destruct (acted_were_invoked EX) as (rest & P & _). apply (Permutation_map snd) in P. rewrite map_app, invoked_called, acted_by_ops, E in P.
  assert (IN : incl (acted_ops ms) (called_ops tr)).
  { intros x I. apply (Permutation_in x (Permutation_sym P)). apply in_or_app. now left. }
  split; [exact IN|]. split; [exact WG|]. split.
  - split.
    + apply Forall_app in WF as [W1 W2]. apply Forall_app. split; [exact W1|]. rewrite Forall_forall in *. auto.
    + apply Permutation_length in P. rewrite app_length in P. rewrite app_length in *. lia.
  - exists l1. split; [exact S1|]. rewrite run_app. rewrite RUN. f_equal. now destruct (run g l1 ops).
Qed.
Print Assumptions C27_queries_see_reachable.

(** An example: goroutine 1 puts block 2 for peer 1 while goroutine 0 asks for the leash of peer 1 and goroutine 2 asks for the heads. *)
Definition xd1 : db := lk_db (at_end [(Put (xblk 1 0) (xpeer 1), None)]).
Definition xgid : id := pb_id xg.
Definition xsched : list (action call) :=
  [ACall 0 (KLeash (xpeer 1)); AGo 0; ACall 1 (KPut (xblk 2 1) (xpeer 1) None); AGo 1; ACall 2 KHeads; AGo 2; AGo 1; AGo 0; AGo 0; AGo 0]
  ++ repeat (AGo 1) 12 ++ repeat (AGo 2) 4.
Definition xend : list (event call answer) * state db call answer := acts (method xgid) (start_of call answer xd1) xsched.
Definition quiet (s : state db call answer) (n : nat) : bool := forallb (fun g => match gs s g with None => true | Some _ => false end) (seq 0 n).
Example C27_steps_case : steps (method xgid) (start_of call answer xd1) (fst xend) (snd xend).
Proof. apply acts_steps. Qed.
Example C27_case :
  fst xend = [Inv answer 0 (KLeash (xpeer 1)); Inv answer 1 (KPut (xblk 2 1) (xpeer 1) None); Inv answer 2 KHeads;
              Res 0 (KLeash (xpeer 1)) (RId (Ok (xid 1))); Res 1 (KPut (xblk 2 1) (xpeer 1) None) (RUnit (Ok tt));
              Res 2 KHeads (RHeads (Ok [(1%N, xid 2)]))] /\ quiet (snd xend) 3 = true.
Proof. split; vm_compute; reflexivity. Qed.
(** In the same schedule a query is about to take a snapshot, and the call of goroutine 1 about to write. *)
Definition at_snap (x : option (call * code db answer)) : bool := match x with Some (_, Snap _) => true | _ => false end.
Definition at_write (x : option (call * code db answer)) : bool := match x with Some (_, Write _ _) => true | _ => false end.
Example C27_snapshot_case : at_snap (gs (snd (acts (method xgid) (start_of call answer xd1) (firstn 7 xsched))) 0) = true.
Proof. vm_compute. reflexivity. Qed.
Example C27_write_case : exists n, at_write (gs (snd (acts (method xgid) (start_of call answer xd1) (firstn n xsched))) 1) = true /\
  gs (snd (acts (method xgid) (start_of call answer xd1) (firstn n xsched))) 0 = None.
Proof. exists 14. split; vm_compute; reflexivity. Qed.

(** * C66 *)
(** Once no new calls are made, all calls that are under way return, whatever the schedule: there is no deadlock and nothing runs forever. *)
Theorem C66_calls_return : forall gid d0 tr s, steps (method gid) (start_of call answer d0) tr s -> (forall g, ~ In (Inv answer g KLogStats) tr) ->
  inevitably (goes_on (method gid)) (@all_out db call answer) s.
Proof.
  intros gid d0 tr s H N. eapply (@flat_return db call answer (method gid) (does_db xg gid) (method_alone xg gid) (method_well gid)); [exact H|].
  intros g c I. apply method_flat. intros ->. now apply (N g).
Qed.
Print Assumptions C66_calls_return.
(** While calls are under way, one of them can go on. *)
Theorem C66_no_deadlock : forall gid d0 tr s g c k, steps (method gid) (start_of call answer d0) tr s -> (forall h, ~ In (Inv answer h KLogStats) tr) ->
  gs s g = Some (c, k) -> exists es s', step (method gid) s es s' /\ forall h c', es <> [Inv answer h c'].
Proof.
  intros gid d0 tr s g c k H N G. destruct (C66_calls_return H N) as [A|(s' & es & ST & NI) _]; [now rewrite A in G|eauto].
Qed.
Print Assumptions C66_no_deadlock.
Example C66_case : quiet (snd (acts (method xgid) (start_of call answer xd1) (firstn 8 xsched))) 3 = false /\
  forallb (fun e => match e with Inv _ _ KLogStats => false | _ => true end) (fst (acts (method xgid) (start_of call answer xd1) (firstn 8 xsched))) = true.
Proof. split; vm_compute; reflexivity. Qed.

(** * C28 *)
(** What holds: [LogInitialStats] returns when no writing call runs next to it (forkdetector.go:75 calls it before it starts any goroutine). *)
Theorem C28_returns_among_queries_partial : forall gid d0 tr s, steps (method gid) (start_of call answer d0) tr s ->
  (forall g c, In (Inv answer g c) tr -> op_of c = None) -> inevitably (goes_on (method gid)) (@all_out db call answer) s.
Proof.
  intros gid d0 tr s H N. eapply (@readers_return db call answer (method gid) (does_db xg gid) (method_alone xg gid) (method_well gid)); [exact H|].
  intros g c I. apply method_no_writer. eauto.
Qed.
Print Assumptions C28_returns_among_queries_partial.
(** What does not: it takes the read lock again while it holds it; when a writer arrives in between, all calls are blocked forever. *)
Definition xdead : list (action call) :=
  [ACall 0 KLogStats; AGo 0; AGo 0; AGo 0; ACall 1 (KPut (xblk 2 1) (xpeer 1) None); AGo 1].
Definition xwedged : list (event call answer) * state db call answer := acts (method xgid) (start_of call answer xd1) xdead.
Definition at_rlock (x : option (call * code db answer)) : bool := match x with Some (_, RLock _) => true | _ => false end.
Definition at_enter (x : option (call * code db answer)) : bool := match x with Some (_, Enter _) => true | _ => false end.
Lemma xwedged_wedged : wedged (method xgid) (snd xwedged).
Proof.
  assert (M : mx (snd xwedged) = {| readers := [0]; pending := Some 1; writer := None |}) by (vm_compute; reflexivity).
  assert (A0 : at_rlock (gs (snd xwedged) 0) = true) by (vm_compute; reflexivity).
  assert (A1 : at_enter (gs (snd xwedged) 1) = true) by (vm_compute; reflexivity).
  split; [exists 0; now rewrite M|]. split; [now rewrite M|]. split; [now rewrite M|].
  split; [destruct (gs (snd xwedged) 0) as [[c [| | | | | | |]]|]; try discriminate; eauto|].
  split; [destruct (gs (snd xwedged) 1) as [[c [| | | | | | |]]|]; try discriminate; eauto|].
  intros g c k N0 N1 G. unfold xwedged in G. rewrite acts_untouched in G; [discriminate|]. cbn. intuition.
Qed.
(** [KLogStats] of goroutine 0 and [KPut] of goroutine 1 never return, and neither does any call that is made later. *)
Theorem C28_log_stats_deadlock_refuted : exists ops l tr s, reachable xg ops l /\
  steps (method (lk_genesis l)) (start_of call answer (lk_db l)) tr s /\
  tr = [Inv answer 0 KLogStats; Inv answer 1 (KPut (xblk 2 1) (xpeer 1) None)] /\
  forall tr' s', steps (method (lk_genesis l)) s tr' s' ->
    gs s' 0 <> None /\ gs s' 1 <> None /\ forall g c r, ~ In (Res g c r) tr'.
Proof.
  exists [(Put (xblk 1 0) (xpeer 1), None)], (at_end [(Put (xblk 1 0) (xpeer 1), None)]), (fst xwedged), (snd xwedged).
  assert (GI : lk_genesis (at_end [(Put (xblk 1 0) (xpeer 1), None)]) = xgid) by (vm_compute; reflexivity). rewrite GI.
  split; [apply at_end_reachable; vm_compute; reflexivity|]. split; [apply acts_steps|]. split; [vm_compute; reflexivity|].
  intros tr' s' H. destruct (wedged_forever (method_well xgid) xwedged_wedged H) as [(_ & _ & _ & (c0 & k0 & G0) & (c1 & k1 & G1) & _) NR].
  split; [congruence|]. split; [congruence|exact NR].
Qed.
Print Assumptions C28_log_stats_deadlock_refuted.
Example C28_case : let s := acts (method xgid) (start_of call answer xd1) ([ACall 0 KLogStats; ACall 1 KHeads; AGo 0; AGo 1] ++ repeat (AGo 0) 12 ++ repeat (AGo 1) 4) in
  fst s = [Inv answer 0 KLogStats; Inv answer 1 KHeads; Res 0 KLogStats (RUnit (Ok tt)); Res 1 KHeads (RHeads (Ok [(1%N, xid 1)]))] /\
  quiet (snd s) 2 = true.
Proof. split; vm_compute; reflexivity. Qed.
