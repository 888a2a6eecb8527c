(** Lemmas about the loader as a whole: timeouts, messages that change nothing, and the current batch. *)
From Verif Require Import Base Kv BytesFacts ChainModel ChainSpec ChainProofs PeersModel PeersSpec LoadModel LoadSpec LoadProofs LoadFire LoadSim LoadCalm LoadLoop LoadRule.
Set Implicit Arguments.
Unset Strict Implicit.

(** * Calls that are passed on to the world *)
Section Inner.
Variable V : Type.
Variable w : world V.
Lemma put_all_inner : forall a bs h v, put_all (inner w) a bs (h, v) = let (v', r) := put_all w a bs v in ((h, v'), r).
Proof.
  intros a. induction bs as [|b bs IH]; intros h v; cbn [put_all]; [reflexivity|]. cbn [inner fst snd].
  destruct (w (CPut b a) v) as [v1 r]. destruct r; try reflexivity. apply IH.
Qed.
Lemma skip_known_inner : forall a ids h v, skip_known (inner w) a ids (h, v) = let (v', r) := skip_known w a ids v in ((h, v'), r).
Proof.
  intros a. induction ids as [|i ids IH]; intros h v; cbn [skip_known]; [reflexivity|]. cbn [inner fst snd].
  destruct (w (CHas i) v) as [v1 r]. destruct r as [[|]|e| |]; try reflexivity.
  cbn [fst snd]. destruct (w (CLeash a) v1) as [v2 r]. destruct r as [j|e| |]; try reflexivity. cbn [fst snd]. destruct (id_eqb i j); [apply IH|]. cbn [fst snd].
  destruct (w (CMove i a) v2) as [v3 r]. destruct r; try reflexivity. apply IH.
Qed.
Lemma ask_from_inner : forall i p h v, ask_from (inner w) i p (h, v) = let '(v', pr) := ask_from w i p v in ((h, v'), pr).
Proof.
  intros i p h v. unfold ask_from. cbn [inner fst snd]. destruct (w (CLast i idsBatchSize) v) as [v1 r].
  destruct r as [[|j ids]|e| |]; try reflexivity. cbn [fst snd]. destruct (w (CAskIDs _ _) v1) as [v2 ?]. cbn [fst snd].
  destruct (w CNow v2) as [v3 t]. reflexivity.
Qed.
Lemma ids_inner : forall p h v, request_ids (inner w) p (h, v) = let '(v', pr) := request_ids w p v in ((h, v'), pr).
Proof.
  intros p h v. unfold request_ids. cbn [inner fst snd]. destruct (w (CLeash (pl_peer p)) v) as [v1 r].
  destruct r as [i|e| |]; try reflexivity. apply ask_from_inner.
Qed.
Lemma lca_inner : forall p h v, request_ids_from_lca (inner w) p (h, v) = let '(v', pr) := request_ids_from_lca w p v in ((h, v'), pr).
Proof.
  intros p h v. unfold request_ids_from_lca. cbn [inner fst snd]. destruct (w (CLcb (pl_peer p)) v) as [v1 r].
  destruct r as [i|e| |]; try reflexivity. apply ask_from_inner.
Qed.

End Inner.

(** * Timeouts *)
Section Ticks.
Variable V : Type.
Variable w : world V.
Notation lw := (logging w).
Definition with_state (l : loader) (p : option ploader) : loader :=
  {| l_pl := p; l_prev := l_prev l; l_fc := l_fc l; l_ticker := l_ticker l; l_timer := l_timer l |}.
Lemma tick_log : forall l v p l' v' new r, resting l -> busy l p -> pl_state p = WaitIDs \/ pl_state p = WaitBlocks -> l_ticker l = true ->
  loader_step lw InTick l (v, []) = ((l', (v', new)), r) ->
  exists t rest, new = (CNow ==> t) :: rest /\
    if (timeoutDuration <? t - pl_ts p)%Z
    then (r = Ok tt /\ l_pl l' = None /\ rest = map (puts (pl_peer p)) (arrived_prefix (pl_queue p)) ++ [CLog (LFailed (pl_peer p)) ==> tt]) \/
         (r <> Ok tt /\ l_pl l' = Some (set_state p Done) /\ exists pre b post, arrived_prefix (pl_queue p) = pre ++ b :: post /\
            rest = map (puts (pl_peer p)) pre ++ [CPut b (pl_peer p) ==> r])
    else r = Ok tt /\ l' = l /\ rest = [].
Proof.
  intros l v p l' v' new r RS B S TK E. assert (T := RS p B). unfold busy in B. cbn [loader_step] in E. unfold loader_tick in E. cbn [stop_ticker l_pl] in E.
  rewrite B in E. rewrite log_call in E. destruct (w CNow v) as [v1 t]. cbn [app] in E. unfold drive in E. cbn [stop_ticker l_prev l_fc l_ticker l_timer] in E.
  set (h := {| h_pl := true; h_prev := l_prev l; h_fc := l_fc l; h_ticker := false |}) in E.
  match type of E with context [fire _ _ _ (_, (_, ?e))] => set (es1 := e) in E end.
  assert (ES : es1 = [CNow ==> t]) by reflexivity. clearbody es1.
  rewrite (@fire_rest _ (inner lw) (ETick t) p _ T) in E. unfold fire_one at 1 in E.
  replace (behave (inner lw) (pl_state p) (ETick t)) with (Internal (@on_tick (held * (V * list event)) t)) in E by (destruct S as [-> | ->]; reflexivity).
  unfold on_tick in E. cbn beta iota in E. rewrite T in E. cbn [app] in E. exists t.
  destruct (timeoutDuration <? t - pl_ts p)%Z.
  - match type of E with context [fire_loop _ _ ?q ?s] => rewrite (@loop_one _ (inner lw) 6 q s ETimeout eq_refl) in E end.
    cbn [set_triggers] in E. rewrite fire_one_timeout in E by (cbn [pl_state]; exact S). unfold handle_failure in E.
    cbn [set_triggers set_state pl_peer pl_queue pl_state pl_ts pl_triggers] in E. rewrite put_all_inner in E.
    destruct (put_all_log w (pl_peer p) (arrived_prefix (pl_queue p)) v1 es1) as (v2 & new2 & r2 & PA & A1 & A2). rewrite PA in E. clear PA.
    assert (F : forall (q : outcome unit), q = Ok tt \/ q <> Ok tt) by (intros [[]|e| |]; [left; reflexivity|right; discriminate..]).
    destruct (F r2) as [->|NE].
    + cbn [inner loader_fail h_pl h fst snd] in E. rewrite log_call in E. destruct (w (CLog (LFailed (pl_peer p))) v2) as [v3 []]. cbn [fails] in E.
      rewrite loop_rest in E by reflexivity. cbn [h_pl h_prev h_fc h_ticker reset_ticker l_pl l_prev l_fc l_ticker l_timer] in E.
      injection E as <- <- <- <-. rewrite ES. exists (new2 ++ [CLog (LFailed (pl_peer p)) ==> tt]). split; [reflexivity|]. left.
      split; [reflexivity|]. split; [reflexivity|]. now rewrite (A1 eq_refl).
    + destruct (A2 NE) as (pre & b & post & E1 & E2). exists new2.
      assert (X : p = {| pl_peer := pl_peer p; pl_state := pl_state p; pl_ts := pl_ts p; pl_queue := pl_queue p; pl_triggers := [] |}) by (rewrite <- T; destruct p; reflexivity).
      destruct r2 as [[]|e| |]; [congruence|..]; cbn [fails to_unit h_pl h_prev h_fc h_ticker h reset_ticker l_pl l_prev l_fc l_ticker l_timer] in E;
        injection E as <- <- <- <-; rewrite ES; (split; [reflexivity|]); right; (split; [discriminate|]);
        (split; [cbn [l_pl]; f_equal; unfold set_state; rewrite T; reflexivity|]); exists pre, b, post; split; auto.
  - rewrite loop_rest in E by reflexivity. cbn [h_pl h_prev h_fc h_ticker h reset_ticker l_pl l_prev l_fc l_ticker l_timer] in E.
    injection E as <- <- <- <-. rewrite ES. exists []. split; [reflexivity|]. split; [reflexivity|]. split; [|reflexivity].
    destruct l as [lp lprev lfc ltk ltm]. cbn [l_pl l_prev l_fc l_ticker l_timer] in *. subst lp ltk. unfold reset_ticker. cbn [l_pl l_prev l_fc l_timer]. now rewrite at_rest.
Qed.

(** * Messages that change nothing *)
Lemma drive_still : forall t p l (v : V), l_pl l = Some p -> pl_triggers p = [] ->
  match pl_state p, t with
  | Idle, (EIDs _ | EBlock _ | ETick _) | WaitIDs, (EBlock _ | EStart) | WaitBlocks, (EIDs _ | EStart)
  | Done, (EIDs _ | EBlock _ | ETick _ | EStart) => drive w t p l v = ((l, v), Ok tt)
  | _, _ => True
  end.
Proof.
  intros t p l v B T. pose proof (fun h => @fire_ignored _ (inner w) t p (h, v) T) as F.
  destruct (pl_state p), t; auto; apply drive_ignored; auto.
Qed.
Lemma other_messages : forall l (v : V), resting l ->
  (forall a ids, (forall p, busy l p -> a <> pl_peer p \/ pl_state p <> WaitIDs) \/ ids = [] -> loader_step w (InIDs a ids) l v = ((l, v), Ok tt)) /\
  (forall a b, (forall p, busy l p -> a <> pl_peer p \/ pl_state p <> WaitBlocks) -> loader_step w (InBlock a b) l v = ((l, v), Ok tt)).
Proof.
  intros l v RS. split.
  - intros a ids H. cbn [loader_step]. unfold handle_ids. destruct (l_pl l) as [p|] eqn:B; [|reflexivity].
    destruct ids as [|i ids]; [reflexivity|]. destruct H as [H|H]; [|discriminate]. specialize (H p B).
    destruct (addr_eqb a (pl_peer p)) eqn:A; [|reflexivity]. apply addr_eqb_eq in A. destruct H as [H|H]; [contradiction|].
    pose proof (@drive_still (EIDs (i :: ids)) p l v B (RS p B)) as D. destruct (pl_state p); auto; congruence.
  - intros a b H. cbn [loader_step]. unfold handle_block. destruct (l_pl l) as [p|] eqn:B; [|reflexivity]. specialize (H p B).
    destruct (addr_eqb a (pl_peer p)) eqn:A; [|reflexivity]. apply addr_eqb_eq in A. destruct H as [H|H]; [contradiction|].
    pose proof (@drive_still (EBlock b) p l v B (RS p B)) as D. destruct (pl_state p); auto; congruence.
Qed.

(** * A loader that is stuck stays stuck *)
Definition stuck (l : loader) (p : ploader) : Prop := busy l p /\ pl_triggers p = [] /\ (pl_state p = Idle \/ pl_state p = Done).
Lemma loader_same : forall l, l_timer l = true -> l_ticker l = true ->
  {| l_pl := l_pl l; l_prev := l_prev l; l_fc := l_fc l; l_ticker := true; l_timer := true |} = l.
Proof. intros [a b c d e]. cbn. now intros -> ->. Qed.
Lemma stuck_step : forall i l v es p, stuck l p -> l_timer l = true -> l_ticker l = true ->
  exists v' new, loader_step lw i l (v, es) = ((l, (v', es ++ new)), Ok tt) /\ Forall (fun e : event => projT1 e = CNow) new.
Proof.
  intros i l v es p (B & T & S) TM TK. assert (RS : resting l) by (intros q Q; unfold busy in B; congruence).
  destruct i as [a ids|a b| |].
  - exists v, []. rewrite app_nil_r. split; [|constructor]. destruct (addr_eqb a (pl_peer p)) eqn:A.
    + cbn [loader_step]. unfold handle_ids. unfold busy in B. rewrite B. destruct ids; [reflexivity|]. rewrite A.
      pose proof (fun h => @fire_ignored _ (inner lw) (EIDs (i :: ids)) p (h, (v, es)) T) as F. apply drive_ignored; auto.
      destruct S as [S|S]; rewrite S in F; exact F.
    + cbn [loader_step]. unfold handle_ids. unfold busy in B. rewrite B. destruct ids; [reflexivity|]. now rewrite A.
  - exists v, []. rewrite app_nil_r. split; [|constructor]. cbn [loader_step]. unfold handle_block. unfold busy in B. rewrite B.
    destruct (addr_eqb a (pl_peer p)) eqn:A; [|reflexivity].
    pose proof (fun h => @fire_ignored _ (inner lw) (EBlock b) p (h, (v, es)) T) as F. apply drive_ignored; auto.
    destruct S as [S|S]; rewrite S in F; exact F.
  - cbn [loader_step]. unfold loader_tick. unfold busy in B. cbn [stop_ticker l_pl]. rewrite B. rewrite log_call.
    destruct (w CNow v) as [v1 t]. exists v1, [CNow ==> t]. split; [|repeat constructor].
    pose proof (fun h => @fire_ignored _ (inner lw) (ETick t) p (h, (v1, es ++ [CNow ==> t])) T) as F.
    match goal with |- context [drive _ _ _ ?l0 ?s0] => assert (D : drive lw (ETick t) p l0 s0 = ((l0, s0), Ok tt)) end.
    { apply drive_ignored; [exact B|]. destruct S as [S|S]; rewrite S in F; exact F. }
    rewrite D. unfold reset_ticker, stop_ticker. cbn [l_pl l_prev l_fc l_timer]. rewrite TM, (loader_same TM TK). reflexivity.
  - exists v, []. rewrite app_nil_r. split; [|constructor]. cbn [loader_step]. unfold loader_sync. unfold busy in B. cbn [stop_timer l_pl]. rewrite B.
    unfold reset_timer, stop_timer. cbn [l_pl l_prev l_fc l_ticker]. rewrite TK, (loader_same TM TK). reflexivity.
Qed.
Lemma stuck_forever : forall ins l v es p, stuck l p -> l_timer l = true -> l_ticker l = true ->
  exists v' new, feeds lw ins l (v, es) = ((l, (v', es ++ new)), Ok tt) /\ Forall (fun e : event => projT1 e = CNow) new.
Proof.
  induction ins as [|i ins IH]; intros l v es p ST TM TK; cbn [feeds].
  - exists v, []. rewrite app_nil_r. auto.
  - destruct (@stuck_step i l v es p ST TM TK) as (v1 & n1 & E & F). rewrite E.
    destruct (IH l v1 (es ++ n1) p ST TM TK) as (v2 & n2 & E2 & F2). rewrite E2. exists v2, (n1 ++ n2).
    rewrite app_assoc. split; [reflexivity|]. now apply Forall_app.
Qed.
End Ticks.

(** * The batch *)
Section Asks.
Variable U : Type.
Variable x : world U.
Variable ask : U -> list id.
Hypothesis asks : forall c u, ask (fst (x c u)) = ask u ++ match c with CAskBlock _ i => [i] | _ => [] end.
Ltac one := match goal with |- context [x ?c ?u] => let K := fresh "K" in pose proof (@asks c u) as K; destruct (x c u) as [? ?]; cbn [fst snd] in *; rewrite ?app_nil_r in K end.
Lemma put_all_asks : forall a bs u, ask (fst (put_all x a bs u)) = ask u.
Proof. induction bs as [|b bs IH]; intros u; cbn [put_all]; auto. one. destruct r; auto. now rewrite IH. Qed.
Lemma skip_known_asks : forall a ids u, ask (fst (skip_known x a ids u)) = ask u.
Proof.
  induction ids as [|i ids IH]; intros u; cbn [skip_known]; auto. one. destruct r as [[|]|e| |]; auto. one.
  destruct r as [j|e| |]; cbn [fst]; try congruence. destruct (id_eqb i j); [rewrite IH; congruence|]. one.
  destruct r; cbn [fst]; rewrite ?IH; congruence.
Qed.
Lemma ask_blocks_asks : forall a ids u, ask (ask_blocks x a ids u) = ask u ++ ids.
Proof.
  induction ids as [|i ids IH]; intros u; cbn [ask_blocks]; [now rewrite app_nil_r|]. rewrite IH, asks, <- app_assoc. reflexivity.
Qed.
Lemma ask_from_asks : forall i p u, ask (fst (ask_from x i p u)) = ask u.
Proof. intros i p u. unfold ask_from. one. destruct r as [[|j ids]|e| |]; cbn [fails fst]; auto. one. one. cbn [fst]. congruence. Qed.
Definition kept_queue (p : ploader) (t : trigger) : queue :=
  match pl_state p, t with WaitBlocks, EBlock b => queue_put_ptr (pl_queue p) b | _, _ => pl_queue p end.
Definition batched (p : ploader) (t : trigger) (u u' : U) (p' : ploader) : Prop :=
  exists ids, ask u' = ask u ++ ids /\ match ids with [] => pl_queue p' = kept_queue p t | _ => pl_queue p' = new_queue ids end.
Lemma batched_none : forall p t u u' p', ask u' = ask u -> pl_queue p' = kept_queue p t -> batched p t u u' p'.
Proof. intros. exists []. rewrite app_nil_r. auto. Qed.
Lemma failure_asks : forall p u, let '(u', (p', r)) := handle_failure x p u in ask u' = ask u /\ p' = p.
Proof.
  intros p u. unfold handle_failure. pose proof (put_all_asks (pl_peer p) (arrived_prefix (pl_queue p)) u) as K.
  destruct (put_all x _ _ u) as [u1 r]. cbn [fst] in K. destruct r; cbn [fails]; auto. one. split; [congruence|reflexivity].
Qed.
Lemma fire_one_asks : forall t p u, let '(u', (p', r)) := fire_one x t p u in batched p t u u' p'.
Proof.
  intros t p u. unfold fire_one, kept_queue. destruct (pl_state p) eqn:S, t; cbn [behave on_entry]; try (apply batched_none; [reflexivity|unfold kept_queue; rewrite S; reflexivity]).
  - pose proof (@ids_queue _ x (set_state p WaitIDs) u) as Q. destruct (request_ids x (set_state p WaitIDs) u) as (u' & p' & r) eqn:E. cbn [fst snd] in Q.
    apply batched_none; [|unfold kept_queue; rewrite S; exact Q]. change u' with (fst (u', (p', r))). rewrite <- E. unfold request_ids. one.
    destruct r0 as [i|e| |]; cbn [fails fst]; auto. rewrite ask_from_asks. assumption.
  - pose proof (@lca_queue _ x (set_state p WaitIDs) u) as Q. destruct (request_ids_from_lca x (set_state p WaitIDs) u) as (u' & p' & r) eqn:E. cbn [fst snd] in Q.
    apply batched_none; [|unfold kept_queue; rewrite S; exact Q]. change u' with (fst (u', (p', r))). rewrite <- E. unfold request_ids_from_lca. one.
    destruct r0 as [i|e| |]; cbn [fails fst]; auto. rewrite ask_from_asks. assumption.
  - unfold request_blocks. cbn [set_state pl_peer]. pose proof (skip_known_asks (pl_peer p) ids u) as K. destruct (skip_known x (pl_peer p) ids u) as [u1 r]. cbn [fst] in K.
    destruct r as [[|i rest]|e| |]; cbn [fails]; try (apply batched_none; [exact K|unfold kept_queue; rewrite S; reflexivity]).
    pose proof (ask_blocks_asks (pl_peer p) (i :: rest) u1) as K1. set (u2 := ask_blocks x (pl_peer p) (i :: rest) u1) in *. one.
    exists (i :: rest). split; [congruence|reflexivity].
  - pose proof (failure_asks (set_state p Done) u) as K. destruct (handle_failure x (set_state p Done) u) as (u' & p' & r). destruct K as [K ->].
    apply batched_none; [exact K|unfold kept_queue; rewrite S; reflexivity].
  - unfold append_block. pose proof (put_all_asks (pl_peer p) (received (queue_put_ptr (pl_queue p) b)) u) as K. cbn [set_queue pl_queue] in *.
    destruct (queue_ready _); [|apply batched_none; [reflexivity|unfold kept_queue; rewrite S; reflexivity]].
    destruct (put_all x _ _ u) as [u1 r]. cbn [fst] in K. destruct r; cbn [fails]; (apply batched_none; [exact K|unfold kept_queue; rewrite S; reflexivity]).
  - pose proof (failure_asks (set_state p Done) u) as K. destruct (handle_failure x (set_state p Done) u) as (u' & p' & r). destruct K as [K ->].
    apply batched_none; [exact K|unfold kept_queue; rewrite S; reflexivity].
  - unfold report_ok. one. destruct r as [v|e| |]; cbn [fails]; (apply batched_none; [assumption|unfold kept_queue; rewrite S; reflexivity]).
Qed.
Lemma more_kept : forall s t s' more t' p, next_ok s t s' more -> In t' more -> kept_queue p t' = pl_queue p.
Proof.
  intros s t s' more t' p N H. unfold kept_queue. destruct s, t; cbn in N; destruct N as [_ N]; subst; try contradiction; destruct N as [-> | ->];
    try contradiction; destruct H as [<-|[]]; destruct (pl_state p); reflexivity.
Qed.
Lemma behave_asks : forall s t, (exists f, behave x s t = Internal f) \/ ~ (exists f, behave x s t = Internal f).
Proof. intros s t. destruct s, t; cbn [behave]; try (left; eexists; reflexivity); right; intros [f F]; discriminate. Qed.
(** After the first trigger nothing is asked for any more. *)
Definition tame (s : lstate) (t : trigger) : Prop := match s, t with WaitIDs, EIDs _ => False | WaitBlocks, EBlock _ => False | _, _ => True end.
Lemma tame_one : forall t p u, tame (pl_state p) t -> let '(u', (p', r)) := fire_one x t p u in ask u' = ask u /\ pl_queue p' = pl_queue p.
Proof.
  intros t p u TM. pose proof (fire_one_asks t p u) as K. destruct (fire_one x t p u) as (u' & p' & r) eqn:E. destruct K as (ids & A & B).
  destruct ids as [|i ids].
  - rewrite app_nil_r in A. split; [exact A|]. rewrite B. unfold kept_queue. destruct (pl_state p), t; cbn in TM; tauto || reflexivity.
  - exfalso. assert (X : ask u' = ask u); [|rewrite X in A; symmetry in A; apply (f_equal (@length id)) in A; rewrite app_length in A; cbn [length] in A; lia].
    clear A B. revert E. unfold fire_one. destruct (pl_state p), t; cbn in TM; try contradiction; cbn [behave on_entry]; intros E;
      try (injection E as <- <- <-; reflexivity).
    + pose proof (ask_from_asks) as K. unfold request_ids in E. revert E. one. destruct r0 as [j|e| |]; cbn [fails]; intros E; try (injection E as <- <- <-; assumption).
      pose proof (K j (set_state p WaitIDs) u0) as K2. rewrite E in K2. cbn [fst] in K2. congruence.
    + pose proof (ask_from_asks) as K. unfold request_ids_from_lca in E. revert E. one. destruct r0 as [j|e| |]; cbn [fails]; intros E; try (injection E as <- <- <-; assumption).
      pose proof (K j (set_state p WaitIDs) u0) as K2. rewrite E in K2. cbn [fst] in K2. congruence.
    + pose proof (failure_asks (set_state p Done) u) as K. rewrite E in K. apply K.
    + pose proof (failure_asks (set_state p Done) u) as K. rewrite E in K. apply K.
    + revert E. unfold report_ok. one. destruct r0; cbn [fails]; intros E; injection E as <- <- <-; assumption.
Qed.
Lemma next_tame : forall s t s' more, next_ok s t s' more -> forall t', In t' more -> tame s' t'.
Proof.
  intros s t s' more N t' H. destruct s, t; cbn in N; destruct N as [-> N]; subst; try contradiction; destruct N as [-> | ->];
    try contradiction; destruct H as [<-|[]]; exact I.
Qed.
Lemma tame_loop : forall n p u t, pl_triggers p = [t] -> tame (pl_state p) t -> depth (pl_state p) t < n ->
  let '(u', (p', r)) := fire_loop x n p u in ask u' = ask u /\ pl_queue p' = pl_queue p.
Proof.
  induction n as [|n IH]; intros p u t T TM D; [lia|]. rewrite (@loop_one _ x n p u t T).
  pose proof (@tame_one t (set_triggers p []) u TM) as K. pose proof (fire_one_next x t (set_triggers p []) u) as N.
  destruct (fire_one x t (set_triggers p []) u) as (u1 & p1 & r). destruct K as [K1 K2]. destruct N as [N1 N2].
  cbn [set_triggers pl_queue pl_triggers pl_state] in *. destruct r as [more|e| |]; auto. rewrite N1. cbn [app].
  pose proof (next_tame N2) as TT. destruct (next_depth N2) as [->|(t' & -> & DD & _)].
  - rewrite loop_rest by reflexivity. auto.
  - specialize (IH (set_triggers p1 [t']) u1 t' eq_refl (TT t' (or_introl eq_refl)) ltac:(cbn [set_triggers pl_state]; lia)).
    destruct (fire_loop x n (set_triggers p1 [t']) u1) as (u' & p' & r). cbn [set_triggers pl_queue] in IH. destruct IH. split; congruence.
Qed.
Lemma fire_batch : forall t p u, pl_triggers p = [] -> let '(u', (p', r)) := fire x t p u in batched p t u u' p'.
Proof.
  intros t p u T. rewrite (@fire_rest _ x t p u T). pose proof (fire_one_asks t p u) as K. pose proof (fire_one_next x t p u) as N.
  destruct (fire_one x t p u) as (u1 & p1 & r). destruct N as [N1 N2]. rewrite T in N1. destruct r as [more|e| |]; auto. rewrite N1. cbn [app].
  pose proof (next_tame N2) as TT. destruct (next_depth N2) as [->|(t' & -> & DD & _)].
  - rewrite loop_rest by reflexivity. exact K.
  - pose proof (@tame_loop 7 (set_triggers p1 [t']) u1 t' eq_refl (TT t' (or_introl eq_refl))) as L.
    assert (D7 : depth (pl_state (set_triggers p1 [t'])) t' < 7).
    { cbn [set_triggers pl_state]. assert (Q := depth_max (pl_state p) t). lia. }
    specialize (L D7). destruct (fire_loop x 7 (set_triggers p1 [t']) u1) as (u' & p' & r). destruct L as [L1 L2].
    destruct K as (ids & A & B). exists ids. split; [congruence|]. cbn [set_triggers pl_queue] in L2. rewrite L2. exact B.
Qed.
Lemma fire_tame : forall t p u, pl_triggers p = [] -> tame (pl_state p) t -> let '(u', (p', r)) := fire x t p u in ask u' = ask u /\ pl_queue p' = pl_queue p.
Proof.
  intros t p u T TM. pose proof (@tame_loop 8 (set_triggers p [t]) u t eq_refl TM) as L. unfold fire. rewrite T. cbn [app].
  cbn [set_triggers pl_state pl_queue] in L. apply L. assert (Q := depth_max (pl_state p) t). lia.
Qed.
End Asks.

Section Batch.
Variable V : Type.
Variable w : world V.
Notation lw := (logging w).
Lemma asked_app : forall a b, asked_ids (a ++ b) = asked_ids a ++ asked_ids b.
Proof. intros. apply flat_map_app. Qed.
Definition askh (u : held * (V * list event)) : list id := asked_ids (snd (snd u)).
Lemma lw_asks : forall c u, asked_ids (snd (fst (lw c u))) = asked_ids (snd u) ++ match c with CAskBlock _ i => [i] | _ => [] end.
Proof.
  intros c [v es]. rewrite log_call. destruct (w c v) as [v1 r]. cbn [fst snd]. rewrite asked_app. f_equal. destruct c; reflexivity.
Qed.
Lemma inner_asks : forall c u, askh (fst (inner lw c u)) = askh u ++ match c with CAskBlock _ i => [i] | _ => [] end.
Proof.
  intros c u. unfold askh. destruct c; cbn [inner];
    try (match goal with |- context [lw ?c ?v] => pose proof (lw_asks c v) as K; destruct (lw c v) as [? ?]; exact K end).
  - unfold loader_ok. destruct (h_pl (fst u)); [|now rewrite app_nil_r]. destruct s; try (now rewrite app_nil_r).
    pose proof (lw_asks (CPeer a) (snd u)) as K. destruct (lw (CPeer a) (snd u)) as [u1 r]. cbn [fst snd] in K.
    destruct r as [sc|e| |]; cbn [fst snd]; auto.
    + pose proof (lw_asks (CScore a) u1) as K1. destruct (lw (CScore a) u1) as [u2 r]. cbn [fst snd] in K1.
      rewrite K, !app_nil_r in K1. rewrite app_nil_r. destruct r as [z|e| |]; cbn [fst snd]; auto.
      * destruct sc as [k|]; [|exact K1]. destruct (is_lagging _ k z) as [diff [|]]; cbn [fst snd]; rewrite lw_asks, app_nil_r; exact K1.
      * rewrite lw_asks, app_nil_r. exact K1.
    + rewrite lw_asks, app_nil_r. exact K.
  - unfold loader_fail. destruct (h_pl (fst u)); [|now rewrite app_nil_r]. destruct s; try (now rewrite app_nil_r). cbn [fst snd]. apply lw_asks.
Qed.
Lemma drive_batch : forall t p l v es l' v' es' r, pl_triggers p = [] -> drive lw t p l (v, es) = ((l', (v', es')), r) ->
  exists ids, asked_ids es' = asked_ids es ++ ids /\
    forall p', busy l' p' -> match ids with [] => pl_queue p' = kept_queue p t | _ => pl_queue p' = new_queue ids end.
Proof.
  intros t p l v es l' v' es' r T E. unfold drive in E. match type of E with context [fire _ _ _ ?s] =>
    pose proof (@fire_batch _ (inner lw) askh inner_asks t p s T) as K; destruct (fire (inner lw) t p s) as [[h1 [v1 es1]] [p1 r1]] end.
  injection E as <- <- <- <-. destruct K as (ids & A & B). exists ids. split; [exact A|]. intros p' Bp. unfold busy in Bp. cbn [l_pl] in Bp.
  destruct (h_pl h1); [|discriminate]. injection Bp as <-. exact B.
Qed.
Lemma find_lagging_asks : forall cs v es v' es' r, find_lagging lw cs (v, es) = ((v', es'), r) -> asked_ids es' = asked_ids es.
Proof.
  intros cs v es v' es' r E. destruct (find_lagging_log w cs v es) as (v1 & new & r1 & E1 & F & _). rewrite E in E1. injection E1 as -> -> ->.
  rewrite asked_app. replace (asked_ids new) with (@nil id); [apply app_nil_r|]. clear E. induction F as [|e new [a H] F IH]; [reflexivity|].
  cbn [asked_ids flat_map]. rewrite H. exact IH.
Qed.
Lemma drive_tame : forall t p l v es l' v' es' r, pl_triggers p = [] -> tame (pl_state p) t -> drive lw t p l (v, es) = ((l', (v', es')), r) ->
  asked_ids es' = asked_ids es /\ forall p', busy l' p' -> pl_queue p' = pl_queue p.
Proof.
  intros t p l v es l' v' es' r T TM E. unfold drive in E. match type of E with context [fire _ _ _ ?s] =>
    pose proof (@fire_tame _ (inner lw) askh inner_asks t p s T TM) as K; destruct (fire (inner lw) t p s) as [[h1 [v1 es1]] [p1 r1]] end.
  injection E as <- <- <- <-. destruct K as (A & B). split; [exact A|]. intros p' Bp. unfold busy in Bp. cbn [l_pl] in Bp.
  destruct (h_pl h1); [|discriminate]. injection Bp as <-. exact B.
Qed.
Lemma begin_asks : forall a l v es l' v' es' r, begin_sync lw a l (v, es) = ((l', (v', es')), r) ->
  asked_ids es' = asked_ids es /\ forall p', busy l' p' -> pl_queue p' = [].
Proof.
  intros a l v es l' v' es' r E. unfold begin_sync in E. destruct (Nat.leb _ _).
  - cbv zeta in E. pose proof (lw_asks (CLog (LRestart a)) (v, es)) as K0.
    destruct (lw (CLog (LRestart a)) (v, es)) as [[v0 es0] u0]. cbn [fst snd] in K0, E. rewrite app_nil_r in K0.
    destruct (drive lw ERestart (new_ploader a) _ (v0, es0)) as [[l1 [v1 es1]] r1] eqn:D1.
    destruct (drive_at D1 eq_refl ltac:(discriminate) ltac:(discriminate)) as [_ D']. apply drive_tame in D1; [|reflexivity|exact I]. destruct D1 as [A B].
    rewrite K0 in A. unfold busy in B. destruct r1 as [u|e| |]; try (injection E as <- <- <- <-; auto; fail);
      (destruct (l_pl l1) as [p|] eqn:L; [|injection E as <- <- <- <-; split; [exact A|intros p' Bp; unfold busy in Bp; congruence]]);
      (apply drive_tame in E; [|apply D'; reflexivity|destruct (pl_state p); exact I]); destruct E as [E1 E2]; (split; [congruence|]);
      intros p' Bp; rewrite (E2 p' Bp); apply B; reflexivity.
  - apply drive_tame in E; [|reflexivity|exact I]. exact E.
Qed.
Lemma batch_inv : forall l b, batch w l b -> resting l /\ forall p, busy l p -> pl_queue p = after (fst b) (snd b).
Proof.
  induction 1 as [|l b i v l' v' new r BT [RS Q] E RET].
  - split; intros p B; unfold busy in *; discriminate.
  - split. { destruct (l_pl l) as [p|] eqn:B; [apply (step_busy RS B E)|apply (step_free B E)]. }
    unfold next_batch. destruct (l_pl l) as [p|] eqn:B.
    + assert (T := RS p B). specialize (Q p B).
      destruct i as [a ids|a x| |]; cbn [loader_step] in E.
      * unfold handle_ids in E. rewrite B in E. destruct ids as [|i ids]; [injection E as <- <- <- <-; intros p' Bp; assert (p' = p) by (unfold busy in *; congruence); subst; exact Q|].
        destruct (addr_eqb a (pl_peer p)); [|injection E as <- <- <- <-; intros p' Bp; assert (p' = p) by (unfold busy in *; congruence); subst; exact Q].
        apply drive_batch in E; [|exact T]. destruct E as (ask & A & K). cbn [asked_ids flat_map app] in A. fold asked_ids in A. rewrite A.
        intros p' Bp. specialize (K p' Bp). destruct ask; [|exact K]. rewrite K. unfold kept_queue. destruct (pl_state p); exact Q.
      * unfold handle_block in E. rewrite B in E. destruct (addr_eqb a (pl_peer p)).
        -- apply drive_batch in E; [|exact T]. destruct E as (ask & A & K). cbn [asked_ids flat_map app] in A. rewrite A.
           intros p' Bp. specialize (K p' Bp). destruct ask; [|exact K]. rewrite K. unfold kept_queue.
           destruct x as [x|]; destruct (pl_state p); cbn [queue_put_ptr fst snd]; try exact Q. rewrite after_app, <- Q. reflexivity.
        -- injection E as <- <- <- <-. cbn [asked_ids flat_map]. intros p' Bp. assert (p' = p) by (unfold busy in *; congruence). subst p'.
           destruct x; [|exact Q]. destruct (pl_state p); exact Q.
      * unfold loader_tick in E. cbn [stop_ticker l_pl] in E. rewrite B in E. pose proof (lw_asks CNow (v, [])) as K0.
        destruct (lw CNow (v, [])) as [[v1 es1] t]. cbn [fst snd] in K0. destruct (drive lw (ETick t) p (stop_ticker l) (v1, es1)) as [[l1 [v2 es2]] r1] eqn:D.
        apply drive_batch in D; [|exact T]. destruct D as (ask & A & K). rewrite K0 in A. cbn [app asked_ids flat_map] in A.
        assert (Z : new = es2 /\ l_pl l' = l_pl l1) by (destruct r1; injection E as <- <- <- <-; auto). destruct Z as [-> Z]. rewrite A.
        intros p' Bp. unfold busy in *. rewrite Z in Bp. specialize (K p' Bp). destruct ask; [|exact K]. rewrite K. unfold kept_queue. destruct (pl_state p); exact Q.
      * unfold loader_sync in E. cbn [stop_timer l_pl] in E. rewrite B in E. injection E as <- <- <- <-. intros p' Bp. unfold busy in Bp. cbn [reset_timer stop_timer l_pl] in Bp.
        assert (p' = p) by congruence. subst. exact Q.
    + intros p' Bp. assert (F := step_free B E). destruct F as [_ F]. destruct (F p' Bp) as [-> _]. cbn [loader_step] in E.
      unfold loader_sync in E. cbn [stop_timer l_pl] in E. rewrite B in E.
      assert (NO : l_pl l' <> None) by (unfold busy in Bp; congruence).
      pose proof (lw_asks CConns (v, [])) as K0. destruct (lw CConns (v, [])) as [[v1 es1] [[|c cs]|e| |]]; try (injection E as <- <- <- <-; cbn in NO; congruence).
      cbn [fst snd] in K0. destruct (find_lagging lw (c :: cs) (v1, es1)) as [[v2 es2] [[|a lag]|e| |]] eqn:FL; try (injection E as <- <- <- <-; cbn in NO; congruence).
      apply find_lagging_asks in FL. pose proof (lw_asks (CPick (length (a :: lag))) (v2, es2)) as K2.
      destruct (lw (CPick (length (a :: lag))) (v2, es2)) as [[v3 es3] k]. cbn [fst snd] in K2. rewrite app_nil_r in K2.
      destruct (nth_error (a :: lag) k) as [y|]; [|injection E as <- <- <- <-; cbn in NO; congruence].
      destruct (begin_sync lw y (stop_timer l) (v3, es3)) as [[l1 [v4 es4]] r1] eqn:D. apply begin_asks in D. destruct D as [D1 D2].
      assert (Z : new = es4 /\ l_pl l' = l_pl l1) by (destruct r1; injection E as <- <- <- <-; auto). destruct Z as [-> Z].
      unfold busy in *. rewrite Z in Bp. rewrite D1, K2, FL, K0. rewrite (D2 p' Bp). reflexivity.
Qed.
End Batch.
