(** A world whose other goroutines have a state of their own is followed by a world in which they do what a list says: there is
    a list with which the loader does the same. *)
From Verif Require Import Base Kv BytesFacts ChainModel ChainSpec PeersModel PeersSpec LoadModel LoadSpec LoadProofs LoadFire LoadSim.
Set Implicit Arguments.
Unset Strict Implicit.

Section Lift.
Variables U W E : Type.
Variable x : world U.
Variable y : world W.
Variable f : U -> list E -> W.
(** The computation [q] of the one world does what [p] does in the other. *)
Definition along A (p : U * A) (q : list E -> W * A) : Prop := exists es, forall rest, q (es ++ rest) = (f (fst p) rest, snd p).
Definition follows : Prop := forall c u, along (x c u) (fun l => y c (f u l)).
Hypothesis fol : follows.

Lemma along_ret : forall A u (a : A), along (u, a) (fun l => (f u l, a)).
Proof. intros. exists []. reflexivity. Qed.
Lemma along_bind : forall A B (p : U * A) (q : list E -> W * A) (k : U -> A -> U * B) (K : W -> A -> W * B), along p q ->
  along (k (fst p) (snd p)) (fun l => K (f (fst p) l) (snd p)) ->
  along (let (u, a) := p in k u a) (fun l => let (w, a) := q l in K w a).
Proof.
  intros A B [u a] q k K [es H] [es' H']. exists (es ++ es'). intros rest. rewrite <- app_assoc, H. cbn [fst snd] in *. apply H'.
Qed.
Lemma along_call : forall c u, along (x c u) (fun l => y c (f u l)).
Proof. exact fol. Qed.
Lemma along_then : forall B c u (k : U -> reply c -> U * B) (K : W -> reply c -> W * B),
  (forall u1 r, along (k u1 r) (fun l => K (f u1 l) r)) -> along (let (u, a) := x c u in k u a) (fun l => let (w, a) := y c (f u l) in K w a).
Proof. intros B c u k K H. apply along_bind; [apply along_call|apply H]. Qed.

Ltac ret := apply along_ret.
Ltac call := apply along_then; intros ? ?.
Lemma put_all_lift : forall a bs u, along (put_all x a bs u) (fun l => put_all y a bs (f u l)).
Proof. intros a. induction bs as [|b bs IH]; intros u; [ret|]. cbn [put_all]. call. destruct r; try ret. apply IH. Qed.
Lemma skip_known_lift : forall a ids u, along (skip_known x a ids u) (fun l => skip_known y a ids (f u l)).
Proof.
  intros a. induction ids as [|i ids IH]; intros u; [ret|]. cbn [skip_known]. call. destruct r as [[|]| | |]; try ret.
  call. destruct r as [j| | |]; try ret. destruct (id_eqb i j); [apply IH|]. call. destruct r; try ret. apply IH.
Qed.
Lemma ask_blocks_lift : forall a ids u, exists es, forall rest, ask_blocks y a ids (f u (es ++ rest)) = f (ask_blocks x a ids u) rest.
Proof.
  intros a. induction ids as [|i ids IH]; intros u; [exists []; reflexivity|]. cbn [ask_blocks]. destruct (fol (CAskBlock a i) u) as [e H].
  destruct (IH (fst (x (CAskBlock a i) u))) as [es H']. exists (e ++ es). intros rest. rewrite <- app_assoc, H. apply H'.
Qed.
Lemma ask_from_lift : forall i p u, along (ask_from x i p u) (fun l => ask_from y i p (f u l)).
Proof. intros i p u. unfold ask_from. call. destruct r as [[|j ids]| | |]; try ret. call. call. ret. Qed.
Lemma ask_then : forall B a ids u (k : U -> U * B) (K : W -> W * B), (forall u1, along (k u1) (fun l => K (f u1 l))) ->
  along (k (ask_blocks x a ids u)) (fun l => K (ask_blocks y a ids (f u l))).
Proof.
  intros B a ids u k K H. destruct (ask_blocks_lift a ids u) as [es H1]. destruct (H (ask_blocks x a ids u)) as [es' H2].
  exists (es ++ es'). intros rest. now rewrite <- app_assoc, H1.
Qed.
Lemma fire_one_lift : forall t p u, along (fire_one x t p u) (fun l => fire_one y t p (f u l)).
Proof.
  intros t p u. unfold fire_one. destruct (pl_state p), t; cbn [behave on_entry]; try ret.
  - unfold request_ids. call. destruct r; try ret. apply ask_from_lift.
  - unfold request_ids_from_lca. call. destruct r; try ret. apply ask_from_lift.
  - unfold request_blocks. apply along_bind; [apply skip_known_lift|]. destruct (skip_known x _ ids u) as [u1 [[|i rest]| | |]]; cbn [fst snd]; try ret.
    cbv zeta. apply (@ask_then _ _ _ u1 (fun u2 => let (v3, t) := x CNow u2 in _) (fun w2 => let (v3, t) := y CNow w2 in _)). intros u2. call. ret.
  - unfold handle_failure. apply along_bind; [apply put_all_lift|]. destruct (put_all x _ _ u) as [u1 [|e| |]]; cbn [fst snd]; try ret. call. ret.
  - unfold append_block. cbv zeta. destruct (queue_ready _); try ret. apply along_bind; [apply put_all_lift|].
    destruct (put_all x _ _ u) as [u1 [|e| |]]; cbn [fst snd]; ret.
  - unfold handle_failure. apply along_bind; [apply put_all_lift|]. destruct (put_all x _ _ u) as [u1 [|e| |]]; cbn [fst snd]; try ret. call. ret.
  - unfold report_ok. call. destruct r as [[|]| | |]; ret.
Qed.
Lemma fire_loop_lift : forall n p u, along (fire_loop x n p u) (fun l => fire_loop y n p (f u l)).
Proof.
  induction n as [|n IH]; intros p u; cbn [fire_loop]; destruct (pl_triggers p) as [|t ts]; try ret.
  apply along_bind; [apply fire_one_lift|]. destruct (fire_one x t _ u) as (u1 & p1 & [more|e| |]); cbn [fst snd]; try ret. apply IH.
Qed.
Lemma fire_lift : forall t p u, along (fire x t p u) (fun l => fire y t p (f u l)).
Proof. intros. apply fire_loop_lift. Qed.
End Lift.

(** The part of begin_sync after the log line. *)
Definition restart V (w : world V) (a : addr) (l : loader) (v0 : V) : (loader * V) * outcome unit :=
  match drive w ERestart (new_ploader a) (with_pl l (new_ploader a) (fc_reset (l_fc l) a)) v0 with
  | ((l1, v1), (Ok _ | Err _)) =>
      match l_pl l1 with
      | Some p => drive w EStart p {| l_pl := Some p; l_prev := l_prev l1; l_fc := l_fc l1; l_ticker := true; l_timer := l_timer l1 |} v1
      | None => ((l1, v1), Panic)
      end
  | r => r
  end.
Lemma begin_sync_eq : forall V (w : world V) a l v, begin_sync w a l v =
  if Nat.leb restartThreshold (fc_count (l_fc l) a) then restart w a l (fst (w (CLog (LRestart a)) v))
  else drive w EStart (new_ploader a) (with_pl l (new_ploader a) (l_fc l)) v.
Proof. reflexivity. Qed.

Section LiftLoader.
Variables U W E : Type.
Variable x : world U.
Variable y : world W.
Variable f : U -> list E -> W.
Hypothesis fol : follows x y f.
Definition hf (hu : held * U) (l : list E) : held * W := (fst hu, f (snd hu) l).
Ltac ret := apply along_ret.
Ltac call := apply (along_then fol); intros ? ?.

(** Results of the shape of the loader: the state is the second part of a pair. *)
Definition lalong A H (p : (H * U) * A) (q : list E -> (H * W) * A) : Prop :=
  exists es, forall rest, q (es ++ rest) = ((fst (fst p), f (snd (fst p)) rest), snd p).
Lemma lret : forall A H (h : H) u (a : A), lalong ((h, u), a) (fun l => ((h, f u l), a)).
Proof. intros. exists []. reflexivity. Qed.
Lemma lbind : forall A B H H' (p : (H * U) * A) q (k : H -> U -> A -> (H' * U) * B) (K : H -> W -> A -> (H' * W) * B), lalong p q ->
  lalong (k (fst (fst p)) (snd (fst p)) (snd p)) (fun l => K (fst (fst p)) (f (snd (fst p)) l) (snd p)) ->
  lalong (let '((h, u), a) := p in k h u a) (fun l => let '((h, w), a) := q l in K h w a).
Proof.
  intros A B H H' [[h u] a] q k K [es X] [es' X']. exists (es ++ es'). intros rest. rewrite <- app_assoc, X. cbn [fst snd] in *. apply X'.
Qed.
Lemma lstart : forall A B H (p : U * A) q (k : U -> A -> (H * U) * B) (K : W -> A -> (H * W) * B), along f p q ->
  lalong (k (fst p) (snd p)) (fun l => K (f (fst p) l) (snd p)) -> lalong (let (u, a) := p in k u a) (fun l => let (w, a) := q l in K w a).
Proof.
  intros A B H [u a] q k K [es X] [es' X']. exists (es ++ es'). intros rest. rewrite <- app_assoc, X. cbn [fst snd] in *. apply X'.
Qed.
Lemma lthen : forall B H c u (k : U -> reply c -> (H * U) * B) (K : W -> reply c -> (H * W) * B),
  (forall u1 r, lalong (k u1 r) (fun l => K (f u1 l) r)) -> lalong (let (u, a) := x c u in k u a) (fun l => let (w, a) := y c (f u l) in K w a).
Proof. intros B H c u k K X. apply lstart; [apply (along_call fol)|apply X]. Qed.
(** The call, its result unused. *)
Lemma lfst : forall B H c u (k : U -> (H * U) * B) (K : W -> (H * W) * B), (forall u1, lalong (k u1) (fun l => K (f u1 l))) ->
  lalong (k (fst (x c u))) (fun l => K (fst (y c (f u l)))).
Proof.
  intros B H c u k K X. destruct (along_call fol c u) as [es Y]. destruct (X (fst (x c u))) as [es' Y']. exists (es ++ es'). intros rest.
  rewrite <- app_assoc, Y. apply Y'.
Qed.
Lemma loader_ok_lift : forall a s h u, lalong (loader_ok x a s h u) (fun l => loader_ok y a s h (f u l)).
Proof.
  intros a s h u. unfold loader_ok. destruct (h_pl h), s; try apply lret. cbv zeta. apply lthen. intros u1 r.
  destruct r as [sc| | |]; try apply lret.
  - apply lthen. intros u2 r. destruct r as [leash| | |]; try apply lret.
    + destruct sc as [pe|]; try apply lret. destruct (is_lagging _ pe leash) as [d [|]];
        apply (@lfst _ _ _ u2 (fun u3 => ((_, u3), _)) (fun w3 => ((_, w3), _))); intros; apply lret.
    + apply (@lfst _ _ _ u2 (fun u3 => ((_, u3), _)) (fun w3 => ((_, w3), _))); intros; apply lret.
  - apply (@lfst _ _ _ u1 (fun u3 => ((_, u3), _)) (fun w3 => ((_, w3), _))); intros; apply lret.
Qed.
Lemma inner_follows : follows (inner x) (inner y) hf.
Proof.
  intros c [h u]. unfold hf at 2. cbn [fst snd].
  assert (P : forall c, along hf (let (v', r) := x c u in ((h, v'), r)) (fun l => let (v', r) := y c (f u l) in ((h, v'), r))).
  { intros d. destruct (fol d u) as [es X]. exists es. intros rest. rewrite X. destruct (x d u) as [u1 r]. reflexivity. }
  destruct c; cbn [inner fst snd]; try exact (P _).
  - destruct (loader_ok_lift a s h u) as [es X]. exists es. intros rest. rewrite X. reflexivity.
  - unfold loader_fail. destruct (h_pl h), s; try (exists []; reflexivity).
    destruct (fol (CLog (LFailed a)) u) as [es X]. exists es. intros rest. rewrite X. reflexivity.
Qed.
Lemma drive_lift : forall t p l u, lalong (drive x t p l u) (fun e => drive y t p l (f u e)).
Proof.
  intros t p l u. unfold drive. set (h := {| h_pl := true; h_prev := l_prev l; h_fc := l_fc l; h_ticker := l_ticker l |}).
  destruct (fire_lift inner_follows t p (h, u)) as [es X]. exists es. intros rest. change (h, f u (es ++ rest)) with (hf (h, u) (es ++ rest)). rewrite X.
  destruct (fire (inner x) t p (h, u)) as ((h1 & u1) & p1 & r). reflexivity.
Qed.
Lemma find_lagging_lift : forall cs u, along f (find_lagging x cs u) (fun l => find_lagging y cs (f u l)).
Proof.
  induction cs as [|[a [s|]] cs IH]; intros u; cbn [find_lagging]; [ret| |apply IH]. call.
  destruct r; try ret; [|apply IH]. apply along_bind; [apply IH|]. destruct (find_lagging x cs u1) as [u2 [|e| |]]; cbn [fst snd]; ret.
Qed.
Lemma begin_sync_lift : forall a l u, lalong (begin_sync x a l u) (fun e => begin_sync y a l (f u e)).
Proof.
  intros a l u.
  assert (X : lalong (begin_sync x a l u) (fun e => if Nat.leb restartThreshold (fc_count (l_fc l) a) then restart y a l (fst (y (CLog (LRestart a)) (f u e)))
    else drive y EStart (new_ploader a) (with_pl l (new_ploader a) (l_fc l)) (f u e))); [|exact X].
  rewrite begin_sync_eq. destruct (Nat.leb _ _); [|apply drive_lift]. apply lfst. intros u1. unfold restart.
  apply lbind; [apply drive_lift|]. destruct (drive x ERestart _ _ u1) as ((l1 & u2) & [|e| |]); cbn [fst snd]; try apply lret;
    destruct (l_pl l1); try apply lret; apply drive_lift.
Qed.
Lemma loader_step_lift : forall i l u, lalong (loader_step x i l u) (fun e => loader_step y i l (f u e)).
Proof.
  intros i l u. destruct i as [a ids|a b| |]; cbn [loader_step].
  - unfold handle_ids. destruct (l_pl l); [|apply lret]. destruct ids; [apply lret|]. destruct (addr_eqb _ _); [apply drive_lift|apply lret].
  - unfold handle_block. destruct (l_pl l); [|apply lret]. destruct (addr_eqb _ _); [apply drive_lift|apply lret].
  - apply lbind.
    + unfold loader_tick. destruct (l_pl (stop_ticker l)); [|apply lret]. apply lthen. intros u1 r. apply drive_lift.
    + destruct (loader_tick x _ _) as ((l1 & u1) & [|e| |]); cbn [fst snd]; apply lret.
  - apply lbind.
    + unfold loader_sync. destruct (l_pl (stop_timer l)); [apply lret|]. apply lthen. intros u1 r. destruct r as [cs| | |]; try apply lret.
      destruct cs as [|c cs]; [apply lret|]. apply lstart; [apply find_lagging_lift|].
      destruct (find_lagging x (c :: cs) u1) as [u2 [lag|e| |]]; cbn [fst snd]; try apply lret.
      destruct lag as [|a lag]; [apply lret|]. apply lthen. intros u3 k. destruct (nth_error _ _); [|apply lret]. apply begin_sync_lift.
    + destruct (loader_sync x _ _) as ((l1 & u1) & [|e| |]); cbn [fst snd]; apply lret.
Qed.
End LiftLoader.
