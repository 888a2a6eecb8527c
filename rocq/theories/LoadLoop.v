(** The loader: invariants of its runs. *)
From Verif Require Import Base Kv BytesFacts ChainModel ChainSpec ChainRep ChainProofs PeersModel PeersSpec LoadModel LoadSpec LoadProofs LoadFire LoadSim LoadCalm.
Set Implicit Arguments.
Unset Strict Implicit.

(** * The machine inside the loader *)
Definition resting (l : loader) : Prop := forall p, l_pl l = Some p -> pl_triggers p = [].

Lemma drive_at : forall V (w : world V) t p l v l' v' r, drive w t p l v = ((l', v'), r) ->
  pl_triggers p = [] -> t <> EQueueReady -> t <> ETimeout ->
  l_timer l' = l_timer l /\
  forall p', l_pl l' = Some p' -> pl_triggers p' = [] /\ pl_peer p' = pl_peer p /\ landing (pl_state p) t (pl_state p').
Proof.
  intros V w t p l v l' v' r E T N1 N2. unfold drive in E.
  set (h := {| h_pl := true; h_prev := l_prev l; h_fc := l_fc l; h_ticker := l_ticker l |}) in E.
  pose proof (@fire_end _ (inner w) t p (h, v) T) as A. pose proof (@fire_state _ (inner w) t p (h, v) T N1 N2) as B.
  destruct (fire (inner w) t p (h, v)) as ((h1 & v1) & p1 & r1). injection E as <- <- <-. split; [reflexivity|].
  cbn [l_pl fst snd] in *. destruct (h_pl h1); [|discriminate]. intros p' [= <-]. destruct A. auto.
Qed.

Lemma drive_start : forall V (w : world V) t p l v l' v' r p', pl_triggers p = [] -> pl_state p = Idle -> t = EStart \/ t = ERestart ->
  drive w t p l v = ((l', v'), r) -> l_pl l' = Some p' -> pl_state p' = WaitIDs.
Proof.
  intros V w t p l v l' v' r p' T S Q E B. unfold drive in E.
  set (h := {| h_pl := true; h_prev := l_prev l; h_fc := l_fc l; h_ticker := l_ticker l |}) in E.
  assert (A : pl_state (fst (snd (fire (inner w) t p (h, v)))) = WaitIDs).
  { unfold fire. apply loop_start_state with t; auto. cbn [set_triggers pl_triggers]. now rewrite T. }
  destruct (fire (inner w) t p (h, v)) as ((h1 & v1) & p1 & r1). injection E as <- <- <-. cbn [l_pl fst snd] in *.
  destruct (h_pl h1); [|discriminate]. now injection B as <-.
Qed.
Lemma ignored_state : forall V (w : world V) p v t, pl_triggers p = [] -> pl_state p = WaitIDs -> t = EStart -> fire w t p v = (v, (p, Ok tt)).
Proof. intros V w p v t T S ->. pose proof (@fire_ignored _ w EStart p v T) as H. rewrite S in H. exact H. Qed.
Lemma drive_ignored : forall V (w : world V) p l v t, l_pl l = Some p -> (forall h, fire (inner w) t p (h, v) = ((h, v), (p, Ok tt))) ->
  drive w t p l v = ((l, v), Ok tt).
Proof.
  intros V w p l v t B H. unfold drive. rewrite H. destruct l as [pl prev fc tk tm]. cbn in B |- *. now subst.
Qed.

(** * What one input can do, in any world *)
Lemma step_busy : forall V (w : world V) i l v p l' v' r, resting l -> busy l p -> loader_step w i l v = ((l', v'), r) ->
  resting l' /\ forall p', busy l' p' -> pl_peer p' = pl_peer p /\ moves_to i (pl_state p) (pl_state p').
Proof.
  intros V w i l v p l' v' r R B E. pose proof (R _ B) as T. unfold busy in *.
  assert (ID : l' = l -> resting l' /\ forall p', l_pl l' = Some p' -> pl_peer p' = pl_peer p /\ moves_to i (pl_state p) (pl_state p')).
  { intros ->. split; auto. intros p' H. assert (p' = p) by congruence. subst. split; auto. now left. }
  destruct i as [a ids|a b| |]; cbn [loader_step] in E.
  - unfold handle_ids in E. rewrite B in E. destruct ids as [|i ids]; [apply ID; congruence|].
    destruct (addr_eqb a (pl_peer p)); [|apply ID; congruence].
    destruct (drive_at E T ltac:(discriminate) ltac:(discriminate)) as [_ D]. split; [intros p' H; apply (D p' H)|].
    intros p' H. destruct (D p' H) as (_ & P & L). split; auto. unfold landing in L. unfold moves_to. destruct (pl_state p); intuition.
  - unfold handle_block in E. rewrite B in E.
    destruct (addr_eqb a (pl_peer p)); [|apply ID; congruence].
    destruct (drive_at E T ltac:(discriminate) ltac:(discriminate)) as [_ D]. split; [intros p' H; apply (D p' H)|].
    intros p' H. destruct (D p' H) as (_ & P & L). split; auto.
  - unfold loader_tick in E. cbn [stop_ticker l_pl] in E. rewrite B in E. destruct (w CNow v) as [v1 t].
    destruct (drive w (ETick t) p (stop_ticker l) v1) as [[l1 v2] r1] eqn:D.
    destruct (drive_at D T ltac:(discriminate) ltac:(discriminate)) as [_ D'].
    assert (Q : forall p', l_pl l' = Some p' -> l_pl l1 = Some p') by (destruct r1; injection E as <- <- <-; auto).
    split; [intros p' H; apply (D' p' (Q _ H))|]. intros p' H. destruct (D' p' (Q _ H)) as (_ & P & L). split; auto.
  - unfold loader_sync in E. cbn [stop_timer l_pl] in E. rewrite B in E. injection E as <- <- <-. cbn [reset_timer stop_timer l_pl].
    split; [exact R|]. intros p' H. assert (p' = p) by congruence. subst. split; auto. now left.
Qed.

Lemma begin_at : forall V (w : world V) a l v l' v' r, begin_sync w a l v = ((l', v'), r) ->
  l_timer l' = l_timer l /\ forall p', busy l' p' -> pl_triggers p' = [] /\ pl_peer p' = a /\ pl_state p' = WaitIDs.
Proof.
  intros V w a l v l' v' r E. unfold begin_sync in E. destruct (Nat.leb _ _).
  - set (l0 := with_pl l (new_ploader a) (fc_reset (l_fc l) a)) in E.
    destruct (drive w ERestart (new_ploader a) l0 _) as [[l1 v1] r1] eqn:D.
    destruct (drive_at D eq_refl ltac:(discriminate) ltac:(discriminate)) as [TM D'].
    assert (Q : forall p', l_pl l1 = Some p' -> pl_triggers p' = [] /\ pl_peer p' = a /\ pl_state p' = WaitIDs).
    { intros p' H. destruct (D' p' H) as (A & B & _). split; auto. split; auto. eapply drive_start; [| | |exact D|exact H]; auto. }
    assert (DD : forall p, l_pl l1 = Some p -> drive w EStart p {| l_pl := Some p; l_prev := l_prev l1; l_fc := l_fc l1; l_ticker := true; l_timer := l_timer l1 |} v1 = ((l', v'), r) ->
       l_timer l' = l_timer l /\ forall p', busy l' p' -> pl_triggers p' = [] /\ pl_peer p' = a /\ pl_state p' = WaitIDs).
    { intros p B F. destruct (Q _ B) as (A1 & A2 & A3). rewrite drive_ignored in F by (intros; try apply ignored_state; auto).
      injection F as <- <- <-. split; [exact TM|]. intros p' H. unfold busy in H. cbn [l_pl] in H. injection H as <-. auto. }
    destruct r1 as [u|e| |].
    1-2: destruct (l_pl l1) as [p|] eqn:B; [eapply DD; eauto|injection E as <- <- <-; split; [exact TM|intros p' H; unfold busy in H; congruence]].
    1-2: injection E as <- <- <-; split; [exact TM|exact Q].
  - destruct (drive_at E eq_refl ltac:(discriminate) ltac:(discriminate)) as [TM D']. split; [exact TM|].
    intros p' H. destruct (D' p' H) as (A & B & L). split; auto. split; auto. eapply drive_start; [| | |exact E|exact H]; auto.
Qed.
Lemma step_free : forall V (w : world V) i l v l' v' r, l_pl l = None -> loader_step w i l v = ((l', v'), r) ->
  resting l' /\ forall p', busy l' p' -> i = InSync /\ pl_state p' = WaitIDs.
Proof.
  intros V w i l v l' v' r B E. unfold busy.
  assert (NO : l_pl l' = None -> resting l' /\ forall p', l_pl l' = Some p' -> i = InSync /\ pl_state p' = WaitIDs).
  { intros N. split; intros p' H; congruence. }
  destruct i as [a ids|a b| |]; cbn [loader_step] in E.
  - unfold handle_ids in E. rewrite B in E. apply NO. congruence.
  - unfold handle_block in E. rewrite B in E. apply NO. congruence.
  - unfold loader_tick in E. cbn [stop_ticker l_pl] in E. rewrite B in E. apply NO. injection E as <- <- <-. exact B.
  - unfold loader_sync in E. cbn [stop_timer l_pl] in E. rewrite B in E.
    destruct (w CConns v) as [v1 [[|c cs]|e| |]]; try (apply NO; injection E as <- <- <-; exact B).
    destruct (find_lagging w (c :: cs) v1) as [v2 [[|a lag]|e| |]]; try (apply NO; injection E as <- <- <-; exact B).
    destruct (w (CPick (length (a :: lag))) v2) as [v3 k].
    destruct (nth_error (a :: lag) k) as [x|]; [|apply NO; injection E as <- <- <-; exact B].
    destruct (begin_sync w x (stop_timer l) v3) as [[l1 v4] r1] eqn:D. destruct (begin_at D) as [_ Q]. unfold busy in Q.
    assert (Q' : forall p', l_pl l' = Some p' -> l_pl l1 = Some p') by (destruct r1; injection E as <- <- <-; auto).
    split; [intros p' H; apply (Q _ (Q' _ H))|]. intros p' H. split; auto. apply (Q _ (Q' _ H)).
Qed.

(** * Timers and the failure counter *)
Lemma addr_refl : forall a, addr_eqb a a = true.
Proof. intros [|b|b z]; cbn; rewrite ?beqb_refl; auto. Qed.
Lemma fc_set_count : forall m a n b, fc_count (fc_set m a n) b = if addr_eqb b a then n else fc_count m b.
Proof.
  intros m a n b. unfold fc_set, fc_count. cbn [find fst]. destruct (addr_eqb b a) eqn:E; [reflexivity|].
  induction m as [|[c k] m IH]; [reflexivity|]. cbn [filter fst]. destruct (addr_eqb a c) eqn:F; cbn [negb].
  - rewrite IH. cbn [find fst]. destruct (addr_eqb b c) eqn:G; [|reflexivity]. apply addr_eqb_eq in F; apply addr_eqb_eq in G. subst. now rewrite addr_refl in E.
  - cbn [find fst]. destruct (addr_eqb b c); auto.
Qed.
Definition counts (m m' : counter) (new : list event) : Prop := forall b, fc_count m' b = fold_left (fail_step b) new (fc_count m b).
Lemma counts_app : forall m1 m2 m3 n1 n2, counts m1 m2 n1 -> counts m2 m3 n2 -> counts m1 m3 (n1 ++ n2).
Proof. intros m1 m2 m3 n1 n2 H1 H2 b. rewrite fold_left_app, <- H1. apply H2. Qed.
Definition is_line (c : call) : Prop := match c with CLog _ => True | _ => False end.
Lemma counts_other : forall m (e : event), ~ is_line (projT1 e) -> counts m m [e].
Proof. intros m [c r] N b. cbn [fold_left]. unfold fail_step. cbn [projT1] in *. destruct c; try reflexivity. destruct N. exact Logic.I. Qed.
Lemma counts_nil : forall m, counts m m [].
Proof. intros m b. reflexivity. Qed.

(** While there is a peer, the ticker runs. *)
Definition busy_ticker (l : loader) : Prop := l_pl l <> None -> l_ticker l = true.

Section Counting.
Variable V : Type.
Variable w : world V.
Notation lw := (logging w).
Definition tracks (x y : held * (V * list event)) : Prop :=
  (h_ticker (fst x) = true -> h_ticker (fst y) = true) /\
  exists new, snd (snd y) = snd (snd x) ++ new /\ counts (h_fc (fst x)) (h_fc (fst y)) new.
Lemma tracks_refl : forall x, tracks x x.
Proof. intros x. split; auto. exists []. rewrite app_nil_r. split; auto. apply counts_nil. Qed.
Lemma tracks_trans : forall x y z, tracks x y -> tracks y z -> tracks x z.
Proof.
  intros x y z (A & n1 & A1 & A2) (B & n2 & B1 & B2). split; auto. exists (n1 ++ n2). rewrite B1, A1, app_assoc. split; auto. eapply counts_app; eauto.
Qed.
Lemma addr_eqb_sym : forall a b, addr_eqb a b = addr_eqb b a.
Proof.
  intros a b. destruct (addr_eqb a b) eqn:E; [apply addr_eqb_eq in E; subst; now rewrite addr_refl|].
  destruct (addr_eqb b a) eqn:F; auto. apply addr_eqb_eq in F. subst. now rewrite addr_refl in E.
Qed.
Lemma counts_reset : forall m a pre x, Forall (fun e : event => ~ is_line (projT1 e)) pre ->
  (x = LNoPeer a \/ x = LNoScore a \/ x = LStill a \/ x = LNoMore a \/ x = LRestart a) -> counts m (fc_reset m a) (pre ++ [CLog x ==> tt]).
Proof.
  intros m a pre x F E. apply counts_app with m.
  - induction F as [|e pre N F IH]; [apply counts_nil|]. change (e :: pre) with ([e] ++ pre). eapply counts_app; [apply counts_other; exact N|exact IH].
  - intros b. cbn [fold_left]. unfold fail_step, fc_reset. cbn [projT1]. rewrite fc_set_count. destruct E as [->|[->|[->|[->| ->]]]]; reflexivity.
Qed.
Lemma inner_tracks : forall a c x, pl_call a c -> ret_reply (snd (inner lw c x)) -> tracks x (fst (inner lw c x)).
Proof.
  intros a c [h [v es]] P. assert (O : match c with COk _ _ | CFail _ _ => False | _ => True end -> tracks (h, (v, es)) (fst (inner lw c (h, (v, es))))).
  { intros Q. assert (inner lw c (h, (v, es)) = let (v', r) := w c v in ((h, (v', es ++ [c ==> r])), r)) as ->.
    { destruct c; try contradiction; cbn [inner fst snd]; rewrite log_call; destruct (w _ v); reflexivity. }
    destruct (w c v) as [v' r]. cbn [fst]. split; auto. exists [c ==> r]. split; auto. apply counts_other. cbn [projT1].
    destruct c; cbn [pl_call] in P; try contradiction; intros []. }
  destruct c; try (intros _; apply O; exact Logic.I); clear O; cbn [pl_call] in P; destruct P as [-> ->]; cbn [inner fst snd].
  - unfold loader_ok. destruct (h_pl h) eqn:HP; [|intros _; apply tracks_refl]. rewrite log_call. destruct (w (CPeer a) v) as [v1 [sc|e| |]] eqn:E1; cbn [ret_reply snd returned]; try contradiction.
    + rewrite log_call. destruct (w (CScore a) v1) as [v2 [ls|e| |]] eqn:E2; cbn [ret_reply snd returned]; try contradiction.
      * destruct sc as [pe|]; cbn [ret_reply snd returned]; try contradiction. destruct (is_lagging _ pe ls) as [d [|]]; rewrite log_call;
          match goal with |- context [w (CLog ?x) v2] => destruct (w (CLog x) v2) as [v3 []] end; intros _; cbn [fst snd];
          (split; [cbn; auto|]); eexists; (split; [rewrite <- !app_assoc; reflexivity|]); cbn [h_fc fst];
          (apply counts_reset with (pre := [CPeer a ==> Ok (Some pe); CScore a ==> Ok ls]); [repeat constructor; intros []|auto]).
      * rewrite log_call. match goal with |- context [w (CLog ?x) v2] => destruct (w (CLog x) v2) as [v3 []] end. intros _. cbn [fst snd].
        split; [cbn; auto|]. eexists. split; [rewrite <- !app_assoc; reflexivity|]. cbn [h_fc fst].
        apply counts_reset with (pre := [CPeer a ==> Ok sc; CScore a ==> Err e]); [repeat constructor; intros []|auto].
    + rewrite log_call. match goal with |- context [w (CLog ?x) v1] => destruct (w (CLog x) v1) as [v3 []] end. intros _. cbn [fst snd].
      split; [cbn; auto|]. eexists. split; [rewrite <- !app_assoc; reflexivity|]. cbn [h_fc fst].
      apply counts_reset with (pre := [CPeer a ==> Err e]); [repeat constructor; intros []|auto].
  - unfold loader_fail. destruct (h_pl h); [|intros _; apply tracks_refl]. rewrite log_call.
    destruct (w (CLog (LFailed a)) v) as [v1 []]. intros _. cbn [fst snd]. split; [cbn; auto|]. eexists. split; [reflexivity|]. cbn [h_fc fst].
    intros b. cbn [fold_left]. unfold fail_step, fc_inc. cbn [projT1]. rewrite fc_set_count. destruct (addr_eqb b a) eqn:E; auto.
    apply addr_eqb_eq in E. now subst.
Qed.
Lemma drive_tracks : forall t p l v es l' v' es' r, drive lw t p l (v, es) = ((l', (v', es')), r) -> returned r ->
  (l_ticker l = true -> l_ticker l' = true) /\ exists new, es' = es ++ new /\ counts (l_fc l) (l_fc l') new.
Proof.
  intros t p l v es l' v' es' r E R. unfold drive in E.
  set (h := {| h_pl := true; h_prev := l_prev l; h_fc := l_fc l; h_ticker := l_ticker l |}) in E.
  pose proof (@fire_keep _ (inner lw) (pl_peer p) tracks tracks_refl tracks_trans (@inner_tracks (pl_peer p)) t p (h, (v, es)) eq_refl) as K. cbv zeta in K.
  destruct (fire (inner lw) t p (h, (v, es))) as ((h1 & v1) & p1 & r1). injection E as <- -> <-. exact (K R).
Qed.
Lemma find_lagging_log : forall cs v es, exists v' new r, find_lagging lw cs (v, es) = ((v', es ++ new), r) /\
  Forall (fun e : event => exists a, projT1 e = CScore a) new /\ (forall lag, r = Ok lag -> incl lag (map fst cs)).
Proof.
  induction cs as [|[a [s|]] cs IH]; intros v es; cbn [find_lagging].
  - exists v, [], (Ok []). rewrite app_nil_r. split; auto. split; [constructor|]. intros lag [= <-] b [].
  - rewrite log_call. destruct (w (CScore a) v) as [v1 [x|e| |]].
    + destruct (IH v1 (es ++ [CScore a ==> Ok x])) as (v' & new & r & -> & F & L). exists v', ([CScore a ==> Ok x] ++ new).
      destruct r as [lag|e| |]; eexists; (split; [rewrite <- app_assoc; reflexivity|]); (split; [constructor; [exists a; reflexivity|auto]|]); intros lag' EQ; try discriminate EQ; injection EQ as <-.
      pose proof (L _ eq_refl) as L'. cbn [map fst]. destruct (_ <? _)%Z; [apply incl_cons; [now left|]|]; apply incl_tl; exact L'.
    + destruct (IH v1 (es ++ [CScore a ==> Err e])) as (v' & new & r & -> & F & L). exists v', ([CScore a ==> Err e] ++ new), r.
      split; [rewrite <- app_assoc; reflexivity|]. split; [constructor; [exists a; reflexivity|auto]|]. intros lag E. apply incl_tl. now apply L.
    + exists v1, [CScore a ==> Panic], Panic. split; auto. split; [constructor; [exists a; reflexivity|auto]|]. intros lag [=].
    + exists v1, [CScore a ==> Diverge], Diverge. split; auto. split; [constructor; [exists a; reflexivity|auto]|]. intros lag [=].
  - destruct (IH v es) as (v' & new & r & -> & F & L). exists v', new, r. split; auto. split; auto. intros lag E. apply incl_tl. now apply L.
Qed.

(** * Sessions *)
Lemma counts_others : forall m es, Forall (fun e : event => ~ is_line (projT1 e)) es -> counts m m es.
Proof.
  intros m es F. induction F as [|e es N F IH]; [apply counts_nil|]. change (e :: es) with ([e] ++ es). eapply counts_app; [apply counts_other; exact N|exact IH].
Qed.
Lemma scores_others : forall es, Forall (fun e : event => exists a, projT1 e = CScore a) es -> Forall (fun e : event => ~ is_line (projT1 e)) es.
Proof. intros es. apply Forall_impl. intros e [a ->] []. Qed.

Lemma begin_tracks : forall a l v es l' v' es' r, begin_sync lw a l (v, es) = ((l', (v', es')), r) -> returned r ->
  l_ticker l' = true /\ exists new, es' = es ++ new /\ counts (l_fc l) (l_fc l') new.
Proof.
  intros a l v es l' v' es' r E R. unfold begin_sync in E. destruct (Nat.leb _ _).
  - rewrite log_call in E. destruct (w (CLog (LRestart a)) v) as [v1 []]. cbn [fst] in E.
    destruct (drive lw ERestart _ _ _) as [[l1 [v2 es2]] r1] eqn:D.
    assert (RR : returned r1) by (destruct r1; try exact Logic.I; exfalso; injection E as _ _ _ <-; exact R).
    destruct (drive_tracks D RR) as (T1 & n1 & -> & C1). cbn [with_pl l_fc l_ticker] in T1, C1.
    assert (C0 : counts (l_fc l) (fc_reset (l_fc l) a) ([] ++ [CLog (LRestart a) ==> tt])) by (apply counts_reset; [constructor|auto 6]).
    assert (FIN : forall p, drive lw EStart p {| l_pl := Some p; l_prev := l_prev l1; l_fc := l_fc l1; l_ticker := true; l_timer := l_timer l1 |} (v2, (es ++ [CLog (LRestart a) ==> tt]) ++ n1) = ((l', (v', es')), r) ->
      l_ticker l' = true /\ exists new, es' = es ++ new /\ counts (l_fc l) (l_fc l') new).
    { intros p D2. destruct (drive_tracks D2 R) as (T2 & n2 & -> & C2). split; [apply T2; reflexivity|].
      exists ([CLog (LRestart a) ==> tt] ++ n1 ++ n2). split; [rewrite <- !app_assoc; reflexivity|].
      eapply counts_app; [exact C0|]. eapply counts_app; [exact C1|exact C2]. }
    destruct r1 as [u|e| |]; try contradiction; destruct (l_pl l1) as [p|]; try (apply (FIN p); exact E); injection E as <- <- <- <-; destruct R.
  - destruct (drive_tracks E R) as (T & new & -> & C). split; [apply T; reflexivity|]. exists new. auto.
Qed.

Lemma step_tracks : forall i l v l' v' new r, loader_step lw i l (v, []) = ((l', (v', new)), r) -> returned r ->
  (busy_ticker l -> busy_ticker l') /\ (l_timer l = true -> l_timer l' = true) /\ counts (l_fc l) (l_fc l') new.
Proof.
  intros i l v l' v' new r E R.
  assert (ID : ((l, (v, [])), Ok tt) = ((l', (v', new)), r) -> (busy_ticker l -> busy_ticker l') /\ (l_timer l = true -> l_timer l' = true) /\ counts (l_fc l) (l_fc l') new).
  { intros [= <- <- <- <-]. split; auto. split; auto. apply counts_nil. }
  assert (DR : forall t p, l_pl l = Some p -> drive lw t p l (v, []) = ((l', (v', new)), r) ->
    (busy_ticker l -> busy_ticker l') /\ (l_timer l = true -> l_timer l' = true) /\ counts (l_fc l) (l_fc l') new).
  { intros t p B D. destruct (drive_tracks D R) as (T & n & E' & C). cbn [app] in E'. subst n. split; [|split; auto].
    - intros BT _. apply T. apply BT. rewrite B. discriminate.
    - unfold drive in D. destruct (fire _ _ _ _) as ((h1 & v1) & p1 & r1). injection D as <- _ _. auto. }
  destruct i as [a ids|a b| |]; cbn [loader_step] in E.
  - unfold handle_ids in E. destruct (l_pl l) as [p|] eqn:B; [|now apply ID]. destruct ids; [now apply ID|]. destruct (addr_eqb _ _); [|now apply ID].
    eapply DR; eauto.
  - unfold handle_block in E. destruct (l_pl l) as [p|] eqn:B; [|now apply ID]. destruct (addr_eqb _ _); [|now apply ID].
    eapply DR; eauto.
  - clear DR ID. unfold loader_tick in E. cbn [stop_ticker l_pl] in E. destruct (l_pl l) as [p|] eqn:B.
    + rewrite log_call in E. destruct (w CNow v) as [v1 t]. destruct (drive lw _ _ _ _) as [[l1 [v2 es2]] r1] eqn:D.
      assert (RR : returned r1) by (destruct r1; try exact Logic.I; exfalso; injection E as _ _ _ <-; exact R).
      destruct (drive_tracks D RR) as (T & n & E' & C). cbn [stop_ticker l_fc] in C.
      assert (TM : l_timer l1 = l_timer l) by (unfold drive in D; destruct (fire _ _ _ _) as ((h1 & v3) & p1 & r2); injection D as <- _ _; reflexivity).
      assert (CC : counts (l_fc l) (l_fc l1) es2) by (subst es2; eapply counts_app; [apply counts_others; repeat constructor; intros []|exact C]).
      destruct r1; try contradiction; injection E as <- <- <- <-; cbn [reset_ticker l_timer l_fc l_pl]; (split; [intros _ _; reflexivity|]); (split; [rewrite TM; auto|exact CC]).
    + injection E as <- <- <- <-. cbn [reset_ticker stop_ticker l_timer l_fc]. split; [intros _ _; reflexivity|]. split; auto. apply counts_nil.
  - clear DR ID. unfold loader_sync in E. cbn [stop_timer l_pl] in E. destruct (l_pl l) as [p|] eqn:B.
    { injection E as <- <- <- <-. cbn [reset_timer stop_timer l_timer l_fc l_pl l_ticker]. split; [auto|]. split; auto. apply counts_nil. }
    rewrite log_call in E. destruct (w CConns v) as [v1 [cs|e| |]] eqn:E1.
    3-4: injection E as _ _ _ <-; destruct R.
    2: { injection E as <- <- <- <-. cbn [reset_timer stop_timer l_timer l_fc l_pl l_ticker]. split; [auto|]. split; auto. apply counts_others. repeat constructor. intros []. }
    destruct cs as [|c cs].
    { injection E as <- <- <- <-. cbn [reset_timer stop_timer l_timer l_fc l_pl l_ticker]. split; [auto|]. split; auto. apply counts_others. repeat constructor. intros []. }
    destruct (find_lagging_log (c :: cs) v1 ([] ++ [CConns ==> Ok (c :: cs)])) as (v2 & n2 & r2 & E2 & F2 & _). cbn [app] in E, E2. rewrite E2 in E.
    assert (C2 : counts (l_fc l) (l_fc l) ((CConns ==> Ok (c :: cs)) :: n2)).
    { apply counts_others. constructor; [intros []|]. now apply scores_others. }
    destruct r2 as [lag|e| |]; try (injection E as _ _ _ <-; destruct R; fail).
    2: { injection E as <- <- <- <-. cbn [reset_timer stop_timer l_timer l_fc l_pl l_ticker]. split; [auto|]. split; auto. }
    destruct lag as [|a lag]. { injection E as <- <- <- <-. cbn [reset_timer stop_timer l_timer l_fc l_pl l_ticker]. split; [auto|]. split; auto. }
    rewrite log_call in E. destruct (w (CPick (length (a :: lag))) v2) as [v3 k] eqn:E3.
    destruct (nth_error (a :: lag) k) as [x|] eqn:NE; [|injection E as _ _ _ <-; destruct R].
    destruct (begin_sync lw x (stop_timer l) _) as [[l1 [v4 es4]] r1] eqn:D.
    assert (RR : returned r1) by (destruct r1; try exact Logic.I; exfalso; injection E as _ _ _ <-; exact R).
    destruct (begin_tracks D RR) as (T & n & -> & C). cbn [stop_timer l_fc] in C.
    destruct r1; try contradiction; injection E as <- <- <- <-; cbn [reset_timer l_timer l_fc l_pl l_ticker]; (split; [intros _ _; exact T|]); (split; [reflexivity|]);
      cbn [app]; rewrite <- app_assoc; rewrite app_comm_cons; (eapply counts_app; [exact C2|]); (eapply counts_app; [|exact C]); apply counts_others; repeat constructor; intros [].
Qed.
Lemma new_counts : forall b, fc_count (l_fc new_loader) b = 0.
Proof. reflexivity. Qed.

Lemma unlogged : forall i l v, loader_step w i l v = let '((l', (v', _)), r) := loader_step lw i l (v, []) in ((l', v'), r).
Proof.
  intros i l v. change v with (fst (v, @nil event)) at 1. rewrite (loader_step_sim (logging_sim w)).
  destruct (loader_step lw i l (v, [])) as ((l' & v' & es) & r). reflexivity.
Qed.
(** The invariant of a session. *)
Lemma session_inv : forall l es, session w l es ->
  resting l /\ busy_ticker l /\ l_timer l = true /\ forall a, fc_count (l_fc l) a = failures a es.
Proof.
  intros l es H. induction H as [|l es i v l' v' new r H (IR & IB & IT & IC) E R].
  - split; [intros p [=]|]. split; [intros N; now destruct N|]. split; reflexivity.
  - destruct (step_tracks E R) as (A & B & C). split; [|split; [auto|split; [auto|]]].
    + destruct (l_pl l) as [p|] eqn:Q; [eapply step_busy; eauto|eapply step_free; eauto].
    + intros a. unfold failures. rewrite fold_left_app. change (fold_left (fail_step a) es 0) with (failures a es). rewrite <- IC. apply C.
Qed.

(** * Where a synchronisation starts *)
Definition asks_leash (e : event) : Prop := match projT1 e with CLeash _ | CLcb _ => True | _ => False end.
Lemma ask_held : forall i p h v es, exists v' new p' r, ask_from (inner lw) i p (h, (v, es)) = ((h, (v', es ++ new)), (p', r)) /\
  Forall (fun e => ~ asks_leash e) new /\ pl_triggers p' = pl_triggers p /\ match r with Ok more => more = [] | _ => True end.
Proof.
  intros i p h v es. unfold ask_from. cbn [inner fst snd]. rewrite log_call. destruct (w (CLast i idsBatchSize) v) as [v1 [ids|e| |]].
  - destruct ids as [|j ids].
    + eexists _, _, _, _. split; [reflexivity|]. split; [repeat constructor; intros []|auto].
    + cbn [inner fst snd]. rewrite log_call. destruct (w (CAskIDs (pl_peer p) (j :: ids)) v1) as [v2 []]. cbn [inner fst snd]. rewrite log_call.
      destruct (w CNow v2) as [v3 t]. eexists _, _, _, _. split; [rewrite <- !app_assoc; reflexivity|]. split; [repeat constructor; intros []|auto].
  - eexists _, _, _, _. split; [reflexivity|]. split; [repeat constructor; intros []|auto].
  - eexists _, _, _, _. split; [reflexivity|]. split; [repeat constructor; intros []|auto].
  - eexists _, _, _, _. split; [reflexivity|]. split; [repeat constructor; intros []|auto].
Qed.
Lemma start_held : forall (lcb : bool) p h v es, pl_state p = Idle -> pl_triggers p = [] -> exists v' x new p' r,
  fire (inner lw) (if lcb then ERestart else EStart) p (h, (v, es)) =
    ((h, (v', es ++ (if lcb then existT reply (CLcb (pl_peer p)) x else existT reply (CLeash (pl_peer p)) x) :: new)), (p', r)) /\
  Forall (fun e => ~ asks_leash e) new.
Proof.
  intros lcb p h v es S T. rewrite (@fire_rest _ (inner lw) _ p _ T). rewrite (@fire_one_start _ (inner lw) lcb p _ S). destruct lcb.
  - unfold request_ids_from_lca. cbn [inner fst snd]. rewrite log_call. cbn [set_state pl_peer].
    destruct (w (CLcb (pl_peer p)) v) as [v1 x]. destruct x as [i|e| |].
    + destruct (ask_held i (set_state p WaitIDs) h v1 (es ++ [CLcb (pl_peer p) ==> Ok i])) as (v' & new & p' & r & -> & F & T' & M).
      destruct r as [more|e| |]; [subst more; rewrite loop_rest by (cbn [set_triggers pl_triggers]; rewrite T'; cbn [set_state pl_triggers]; now rewrite T)| | |];
        exists v', (Ok i), new; eexists _, _; (split; [rewrite <- app_assoc; reflexivity|exact F]).
    + exists v1, (Err e), []. eexists _, _. split; [reflexivity|constructor].
    + exists v1, Panic, []. eexists _, _. split; [reflexivity|constructor].
    + exists v1, Diverge, []. eexists _, _. split; [reflexivity|constructor].
  - unfold request_ids. cbn [inner fst snd]. rewrite log_call. cbn [set_state pl_peer].
    destruct (w (CLeash (pl_peer p)) v) as [v1 x]. destruct x as [i|e| |].
    + destruct (ask_held i (set_state p WaitIDs) h v1 (es ++ [CLeash (pl_peer p) ==> Ok i])) as (v' & new & p' & r & -> & F & T' & M).
      destruct r as [more|e| |]; [subst more; rewrite loop_rest by (cbn [set_triggers pl_triggers]; rewrite T'; cbn [set_state pl_triggers]; now rewrite T)| | |];
        exists v', (Ok i), new; eexists _, _; (split; [rewrite <- app_assoc; reflexivity|exact F]).
    + exists v1, (Err e), []. eexists _, _. split; [reflexivity|constructor].
    + exists v1, Panic, []. eexists _, _. split; [reflexivity|constructor].
    + exists v1, Diverge, []. eexists _, _. split; [reflexivity|constructor].
Qed.

Lemma drive_held : forall (lcb : bool) p l v es, pl_state p = Idle -> pl_triggers p = [] -> exists v' x new p' r,
  drive lw (if lcb then ERestart else EStart) p l (v, es) =
    (({| l_pl := Some p'; l_prev := l_prev l; l_fc := l_fc l; l_ticker := l_ticker l; l_timer := l_timer l |},
      (v', es ++ (if lcb then existT reply (CLcb (pl_peer p)) x else existT reply (CLeash (pl_peer p)) x) :: new)), r) /\
  pl_triggers p' = [] /\ pl_peer p' = pl_peer p /\ pl_state p' = WaitIDs /\ Forall (fun e => ~ asks_leash e) new.
Proof.
  intros lcb p l v es S T. set (h := {| h_pl := true; h_prev := l_prev l; h_fc := l_fc l; h_ticker := l_ticker l |}).
  destruct (@start_held lcb p h v es S T) as (v' & x & new & p' & r & E & F).
  exists v', x, new, p', r.
  assert (D : drive lw (if lcb then ERestart else EStart) p l (v, es) =
    (({| l_pl := Some p'; l_prev := l_prev l; l_fc := l_fc l; l_ticker := l_ticker l; l_timer := l_timer l |},
      (v', es ++ (if lcb then existT reply (CLcb (pl_peer p)) x else existT reply (CLeash (pl_peer p)) x) :: new)), r)).
  { unfold drive. fold h. rewrite E. reflexivity. }
  split; [exact D|]. destruct (drive_at D T ltac:(destruct lcb; discriminate) ltac:(destruct lcb; discriminate)) as [_ Q].
  destruct (Q p' eq_refl) as (A & B & _). split; auto. split; auto. split; auto.
  eapply drive_start; [exact T|exact S| |exact D|reflexivity]. destruct lcb; auto.
Qed.
Lemma begin_held : forall a l v es l' v' es' r, begin_sync lw a l (v, es) = ((l', (v', es')), r) -> returned r ->
  exists p' pre x post, l_pl l' = Some p' /\ pl_peer p' = a /\ pl_state p' = WaitIDs /\
    es' = es ++ pre ++ (if Nat.leb 10 (fc_count (l_fc l) a) then existT reply (CLcb a) x else existT reply (CLeash a) x) :: post /\
    Forall (fun e => ~ asks_leash e) pre /\ Forall (fun e => ~ asks_leash e) post.
Proof.
  intros a l v es l' v' es' r E R. unfold begin_sync in E. change restartThreshold with 10 in E. destruct (Nat.leb 10 (fc_count (l_fc l) a)).
  - rewrite log_call in E. destruct (w (CLog (LRestart a)) v) as [v1 []]. cbn [fst] in E.
    destruct (@drive_held true (new_ploader a) (with_pl l (new_ploader a) (fc_reset (l_fc l) a)) v1 (es ++ [CLog (LRestart a) ==> tt]) eq_refl eq_refl)
      as (v2 & x & new & p' & r1 & D & T & P & S & F). rewrite D in E.
    exists p', [CLog (LRestart a) ==> tt], x, new.
    assert (FF : l_pl l' = Some p' /\ es' = (es ++ [CLog (LRestart a) ==> tt]) ++ existT reply (CLcb a) x :: new).
    { destruct r1 as [u|e| |]; try (injection E as _ _ _ <-; destruct R; fail); cbn [l_pl] in E;
        rewrite drive_ignored in E by (intros; try apply ignored_state; auto); injection E as <- <- <- <-; auto. }
    destruct FF as [-> ->]. rewrite <- app_assoc. repeat split; auto.
  - destruct (@drive_held false (new_ploader a) (with_pl l (new_ploader a) (l_fc l)) v es eq_refl eq_refl) as (v2 & x & new & p' & r1 & D & T & P & S & F).
    rewrite D in E. injection E as <- <- <- <-. exists p', [], x, new. repeat split; auto.
Qed.
Lemma sync_starts : forall l v l' v' new r, loader_step lw InSync l (v, []) = ((l', (v', new)), r) -> returned r -> l_pl l = None ->
  (l_pl l' = None /\ Forall (fun e => ~ asks_leash e) new) \/
  exists p' pre x post, l_pl l' = Some p' /\ pl_state p' = WaitIDs /\
    new = pre ++ (if Nat.leb 10 (fc_count (l_fc l) (pl_peer p')) then existT reply (CLcb (pl_peer p')) x else existT reply (CLeash (pl_peer p')) x) :: post /\
    Forall (fun e => ~ asks_leash e) pre /\ Forall (fun e => ~ asks_leash e) post.
Proof.
  intros l v l' v' new r E R B. cbn [loader_step] in E. unfold loader_sync in E. cbn [stop_timer l_pl] in E. rewrite B in E.
  rewrite log_call in E. destruct (w CConns v) as [v1 [cs|e| |]] eqn:E1.
  3-4: injection E as _ _ _ <-; destruct R.
  2: { injection E as <- <- <- <-. left. split; [exact B|]. repeat constructor. intros []. }
  destruct cs as [|c cs]. { injection E as <- <- <- <-. left. split; [exact B|]. repeat constructor. intros []. }
  destruct (find_lagging_log (c :: cs) v1 ([] ++ [CConns ==> Ok (c :: cs)])) as (v2 & n2 & r2 & E2 & F2 & _). cbn [app] in E, E2. rewrite E2 in E.
  assert (C2 : Forall (fun e => ~ asks_leash e) ((CConns ==> Ok (c :: cs)) :: n2)).
  { constructor; [intros []|]. revert F2. apply Forall_impl. intros [c0 r0] [a H]. cbn [projT1] in H. subst. intros []. }
  destruct r2 as [lag|e| |]; try (injection E as _ _ _ <-; destruct R; fail).
  2: { injection E as <- <- <- <-. left. split; [exact B|auto]. }
  destruct lag as [|a lag]. { injection E as <- <- <- <-. left. split; [exact B|auto]. }
  rewrite log_call in E. destruct (w (CPick (length (a :: lag))) v2) as [v3 k] eqn:E3.
  destruct (nth_error (a :: lag) k) as [x|] eqn:NE; [|injection E as _ _ _ <-; destruct R].
  destruct (begin_sync lw x (stop_timer l) _) as [[l1 [v4 es4]] r1] eqn:D.
  assert (RR : returned r1) by (destruct r1; try exact Logic.I; exfalso; injection E as _ _ _ <-; exact R).
  destruct (begin_held D RR) as (p' & pre & y & post & L & P & S & ES & F1 & F3). right.
  exists p', ((((CConns ==> Ok (c :: cs)) :: n2) ++ [CPick (length (a :: lag)) ==> k]) ++ pre), y, post.
  assert (Q : l_pl l' = Some p' /\ new = es4) by (destruct r1; try contradiction; injection E as <- <- <- <-; auto).
  destruct Q as [Q1 Q2]. split; auto. split; auto. split.
  { subst x new. rewrite ES. cbn [stop_timer l_fc]. rewrite <- !app_assoc. reflexivity. }
  split; auto. apply Forall_app. split; auto. apply Forall_app. split; auto.
Qed.
End Counting.

(** C50 *)
Lemma restart_rule : forall V (w : world V) l es v l' v' new r, session w l es -> l_pl l = None ->
  loader_step (logging w) InSync l (v, []) = ((l', (v', new)), r) -> returned r ->
  match l_pl l' with
  | None => forall a x, ~ In (CLcb a ==> x) new /\ ~ In (CLeash a ==> x) new
  | Some p => if Nat.leb 10 (failures (pl_peer p) es)
              then (exists x, In (CLcb (pl_peer p) ==> x) new) /\ (forall a x, ~ In (CLeash a ==> x) new)
              else (exists x, In (CLeash (pl_peer p) ==> x) new) /\ (forall a x, ~ In (CLcb a ==> x) new)
  end.
Proof.
  intros V w l es v l' v' new r SS B E R. destruct (session_inv SS) as (_ & _ & _ & C).
  assert (NO : forall evs, Forall (fun e => ~ asks_leash e) evs -> forall a x, ~ In (CLcb a ==> x) evs /\ ~ In (CLeash a ==> x) evs).
  { intros evs F a x. rewrite Forall_forall in F. split; intros H; apply (F _ H); exact Logic.I. }
  destruct (sync_starts E R B) as [[-> F]|(p' & pre & x & post & -> & S & -> & F1 & F2)]; [now apply NO|].
  rewrite <- C. destruct (Nat.leb 10 _); (split; [exists x; apply in_elt|]); intros a y H; apply in_app_or in H; destruct H as [H|[H|H]]; try discriminate H;
    destruct (NO _ F1 a y), (NO _ F2 a y); auto.
Qed.

(** * Calm worlds *)
Section CalmLoader.
Variable V : Type.
Variable w : world V.
Variable I : V -> Prop.
Hypothesis calm : calm_on (fun c => match c with CLast _ n => n = 100%Z | _ => True end) I w.
Lemma inner_calm : forall a, calm_on (pl_call a) (fun hv => I (snd hv)) (inner w).
Proof.
  intros a c [h v] P H. cbn [snd] in H.
  assert (O : match c with COk _ _ | CFail _ _ => False | _ => True end -> I (snd (fst (inner w c (h, v)))) /\ calm_reply (snd (inner w c (h, v)))).
  { intros Q. assert (inner w c (h, v) = let (v', r) := w c v in ((h, v'), r)) as -> by (destruct c; try contradiction; reflexivity).
    destruct (@calm c v) as [A B]; [destruct c; auto|exact H|]. destruct (w c v) as [v' r]. auto. }
  destruct c; try (apply O; exact Logic.I); clear O; cbn [inner fst snd].
  - unfold loader_ok. destruct (h_pl h), s; try (split; [exact H|split; [exact Logic.I|discriminate]]).
    destruct (@calm (CPeer a0) v Logic.I H) as [A1 [B1 B1']]. destruct (w (CPeer a0) v) as [v1 [sc|e| |]]; cbn [fst snd] in *; try contradiction.
    + destruct (@calm (CScore a0) v1 Logic.I A1) as [A2 B2]. destruct (w (CScore a0) v1) as [v2 [ls|e| |]]; cbn [fst snd calm_reply returned] in *; try contradiction.
      * destruct sc as [pe|]; [|congruence]. destruct (is_lagging _ pe ls) as [d [|]]; cbn [fst snd];
          (split; [match goal with |- I (fst (w ?c ?u)) => apply (@calm c u Logic.I A2) end|split; [exact Logic.I|discriminate]]).
      * split; [match goal with |- I (fst (w ?c ?u)) => apply (@calm c u Logic.I A2) end|split; [exact Logic.I|discriminate]].
    + split; [match goal with |- I (fst (w ?c ?u)) => apply (@calm c u Logic.I A1) end|split; [exact Logic.I|discriminate]].
  - unfold loader_fail. destruct (h_pl h), s; try (split; [exact H|split; [exact Logic.I|discriminate]]). cbn [fst snd].
    split; [match goal with |- I (fst (w ?c ?u)) => apply (@calm c u Logic.I H) end|split; [exact Logic.I|discriminate]].
Qed.
Lemma drive_calm : forall t p l v l' v' r, I v -> pl_triggers p = [] -> t <> EQueueReady -> drive w t p l v = ((l', v'), r) -> I v' /\ good r.
Proof.
  intros t p l v l' v' r H T N E. unfold drive in E.
  set (h := {| h_pl := true; h_prev := l_prev l; h_fc := l_fc l; h_ticker := l_ticker l |}) in E.
  pose proof (@fire_calm _ _ _ _ (@inner_calm (pl_peer p)) t p (h, v) H eq_refl T N) as K.
  destruct (fire (inner w) t p (h, v)) as ((h1 & v1) & p1 & r1). injection E as <- <- <-. exact K.
Qed.
Lemma find_lagging_calm : forall cs v v' r, I v -> find_lagging w cs v = (v', r) -> I v' /\ exists lag, r = Ok lag.
Proof.
  induction cs as [|[a [s|]] cs IH]; intros v v' r H E; cbn [find_lagging] in E.
  - injection E as <- <-. eauto.
  - destruct (@calm (CScore a) v Logic.I H) as [A1 B1]. destruct (w (CScore a) v) as [v1 [x|e| |]]; cbn [fst snd calm_reply returned] in *; try contradiction.
    + destruct (find_lagging w cs v1) as [v2 r2] eqn:F. destruct (IH _ _ _ A1 F) as [A2 [lag ->]]. injection E as <- <-. eauto.
    + eauto.
  - eauto.
Qed.
Lemma begin_calm : forall a l v l' v' r, I v -> begin_sync w a l v = ((l', v'), r) -> I v' /\ good r.
Proof.
  intros a l v l' v' r H E. unfold begin_sync in E. destruct (Nat.leb _ _).
  - destruct (@calm (CLog (LRestart a)) v Logic.I H) as [A _]. destruct (w (CLog (LRestart a)) v) as [v0 []]. cbn [fst] in *.
    destruct (drive w ERestart _ _ v0) as [[l1 v1] r1] eqn:D. assert (DC : I v1 /\ good r1) by (eapply drive_calm; [exact A| | |exact D]; [reflexivity|discriminate]). destruct DC as [A1 [G1 G2]].
    assert (B : exists p, l_pl l1 = Some p).
    { change v0 with (fst (v0, @nil event)) in D. rewrite (drive_sim (logging_sim w)) in D.
      destruct (@drive_held V w true (new_ploader a) (with_pl l (new_ploader a) (fc_reset (l_fc l) a)) v0 [] eq_refl eq_refl) as (v2 & x & new & p' & r' & Q & _).
      rewrite Q in D. unfold lonto in D. cbn [fst snd] in D. injection D as <- _ _. exists p'. reflexivity. }
    destruct B as [p B]. rewrite B in E. assert (T : pl_triggers p = []) by (eapply drive_at; [exact D|reflexivity|discriminate|discriminate|exact B]).
    destruct r1; try contradiction; eapply drive_calm in E; eauto; discriminate.
  - eapply drive_calm in E; eauto. discriminate.
Qed.
Lemma step_calm : forall i l v l' v' r, resting l -> I v -> loader_step w i l v = ((l', v'), r) -> I v' /\ good r.
Proof.
  intros i l v l' v' r R H E.
  assert (ID : ((l, v), Ok tt) = ((l', v'), r) -> I v' /\ good r) by (intros [= <- <- <-]; split; [exact H|apply good_ok]).
  destruct i as [a ids|a b| |]; cbn [loader_step] in E.
  - unfold handle_ids in E. destruct (l_pl l) as [p|] eqn:B; [|now apply ID]. destruct ids; [now apply ID|]. destruct (addr_eqb _ _); [|now apply ID].
    eapply drive_calm in E; eauto. discriminate.
  - unfold handle_block in E. destruct (l_pl l) as [p|] eqn:B; [|now apply ID]. destruct (addr_eqb _ _); [|now apply ID].
    eapply drive_calm in E; eauto. discriminate.
  - unfold loader_tick in E. cbn [stop_ticker l_pl] in E. destruct (l_pl l) as [p|] eqn:B; [|injection E as <- <- <-; split; [exact H|apply good_ok]].
    destruct (@calm CNow v Logic.I H) as [A _]. destruct (w CNow v) as [v1 t]. cbn [fst] in A.
    destruct (drive w _ _ _ _) as [[l1 v2] r1] eqn:D. eapply drive_calm in D; eauto; [|discriminate].
    destruct r1; injection E as <- <- <-; exact D.
  - unfold loader_sync in E. cbn [stop_timer l_pl] in E. destruct (l_pl l) as [p|] eqn:B; [injection E as <- <- <-; split; [exact H|apply good_ok]|].
    destruct (@calm CConns v Logic.I H) as [A1 B1]. destruct (w CConns v) as [v1 [cs|e| |]]; cbn [fst snd calm_reply returned] in *; try contradiction.
    2: { injection E as <- <- <-. split; [exact A1|apply good_ok]. }
    destruct cs as [|c cs]; [injection E as <- <- <-; split; [exact A1|apply good_ok]|].
    destruct (find_lagging w (c :: cs) v1) as [v2 r2] eqn:F. destruct (find_lagging_calm A1 F) as [A2 [lag ->]].
    destruct lag as [|a lag]; [injection E as <- <- <-; split; [exact A2|apply good_ok]|].
    destruct (@calm (CPick (length (a :: lag))) v2 Logic.I A2) as [A3 B3]. destruct (w (CPick (length (a :: lag))) v2) as [v3 k]. cbn [fst snd calm_reply] in *.
    destruct (nth_error (a :: lag) k) as [x|] eqn:NE; [|exfalso; apply nth_error_None in NE; cbn [length] in *; lia].
    destruct (begin_sync w x _ v3) as [[l1 v4] r1] eqn:D. apply begin_calm in D; auto. destruct r1; injection E as <- <- <-; exact D.
Qed.
End CalmLoader.
