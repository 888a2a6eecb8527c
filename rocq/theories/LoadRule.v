(** Rules for the events of a peer loader: an invariant kept by its calls is kept by every event, and an event only fails to
    return when one of its calls does, with an excuse [E]. *)
From Verif Require Import Base Kv BytesFacts ChainModel ChainSpec PeersModel PeersSpec LoadModel LoadSpec LoadProofs LoadFire LoadSim LoadCalm.
Set Implicit Arguments.
Unset Strict Implicit.

Section Post.
Variable U : Type.
Variable I E : U -> Prop.
Definition post A (u : U) (r : outcome A) : Prop := (I u /\ returned r) \/ (E u /\ ~ returned r).
Lemma post_ok : forall A u (a : A), I u -> post u (Ok a).
Proof. intros. left. split; [assumption|exact Logic.I]. Qed.
Lemma post_inv : forall A u (r : outcome A), post u r -> returned r -> I u.
Proof. intros A u r [[H _]|[_ H]] G; tauto. Qed.
Lemma post_as : forall A B u (r : outcome A) (s : outcome B), post u r -> (returned r <-> returned s) -> post u s.
Proof. intros A B u r s [[H G]|[H G]] EQ; [left|right]; tauto. Qed.
End Post.

Section Rule.
Variable U : Type.
Variable x : world U.
Variable a : addr.
Variable I E : U -> Prop.
Variable Pb : pblock -> Prop.
Variable Pi : id -> Prop.
Notation post := (post I E).
Record safe_calls : Prop := {
  s_put : forall b u, I u -> Pb b -> let (u', r) := x (CPut b a) u in post u' r;
  s_ask : forall i u, I u -> I (fst (x (CAskBlock a i) u));
  s_now : forall u, I u -> I (fst (x CNow u));
  s_ok : forall u, I u -> let (u', r) := x (COk a Idle) u in post u' r;
  s_fail : forall u, I u -> let (u', r) := x (CFail a Done) u in post u' r;
  s_skip : forall ids u, I u -> Forall Pi ids -> let (u', r) := skip_known x a ids u in post u' r;
  s_ids : forall p u, I u -> pl_peer p = a -> let '(u', (_, r)) := request_ids x p u in post u' r;
  s_lca : forall p u, I u -> pl_peer p = a -> let '(u', (_, r)) := request_ids_from_lca x p u in post u' r
}.
Hypothesis sc : safe_calls.

Definition items_ok (q : queue) : Prop := Forall (fun it => match it_rcv it with Some b => Pb b | None => True end) q.
Definition trig_ok (t : trigger) : Prop := match t with EIDs ids => Forall Pi ids | EBlock (Some b) => Pb b | _ => True end.

Lemma items_new : forall ids, items_ok (new_queue ids).
Proof. intros ids. unfold items_ok, new_queue. apply Forall_map, Forall_forall. cbn. auto. Qed.
Lemma items_put : forall q b, items_ok q -> Pb b -> items_ok (queue_put q b).
Proof.
  intros q b F P. induction F as [|it q H F IH]; cbn [queue_put]; [constructor|]. destruct (id_eqb _ _); constructor; auto.
Qed.
Lemma items_received : forall q, items_ok q -> Forall Pb (received q).
Proof.
  intros q F. induction F as [|it q H F IH]; cbn [received flat_map]; [constructor|]. apply Forall_app. split; auto. destruct (it_rcv it); auto.
Qed.
Lemma items_prefix : forall q, items_ok q -> Forall Pb (arrived_prefix q).
Proof.
  intros q F. induction F as [|it q H F IH]; cbn [arrived_prefix]; [constructor|]. destruct (it_rcv it) as [b|]; auto. destruct (id_eqb _ _); auto.
Qed.

Lemma put_all_rule : forall bs u, I u -> Forall Pb bs -> let (u', r) := put_all x a bs u in post u' r.
Proof.
  induction bs as [|b bs IH]; intros u H F; cbn [put_all]; [now apply post_ok|]. inversion F as [|? ? B FB]; subst.
  pose proof (s_put sc H B) as K. destruct (x (CPut b a) u) as [u1 r]. destruct r as [v|e| |]; auto. apply IH; auto. eapply post_inv; [exact K|exact Logic.I].
Qed.
Lemma ask_blocks_rule : forall ids u, I u -> I (ask_blocks x a ids u).
Proof. induction ids as [|i ids IH]; intros u H; cbn [ask_blocks]; auto. apply IH. now apply (s_ask sc). Qed.
Lemma ask_from_queue : forall i p u, pl_queue (fst (snd (ask_from x i p u))) = pl_queue p.
Proof.
  intros i p u. unfold ask_from. destruct (x (CLast i idsBatchSize) u) as [u1 r]. destruct r as [[|j ids]|e| |]; cbn [fails fst snd]; auto.
  destruct (x (CAskIDs (pl_peer p) (j :: ids)) u1) as [u2 ?]. destruct (x CNow u2) as [u3 ?]. reflexivity.
Qed.
Lemma ids_queue : forall p u, pl_queue (fst (snd (request_ids x p u))) = pl_queue p.
Proof.
  intros p u. unfold request_ids. destruct (x (CLeash (pl_peer p)) u) as [u1 r]. destruct r as [i|e| |]; cbn [fails fst snd]; auto. apply ask_from_queue.
Qed.
Lemma lca_queue : forall p u, pl_queue (fst (snd (request_ids_from_lca x p u))) = pl_queue p.
Proof.
  intros p u. unfold request_ids_from_lca. destruct (x (CLcb (pl_peer p)) u) as [u1 r]. destruct r as [i|e| |]; cbn [fails fst snd]; auto. apply ask_from_queue.
Qed.
Lemma handle_failure_rule : forall p u, I u -> pl_peer p = a -> pl_state p = Done -> items_ok (pl_queue p) ->
  let '(u', (p', r)) := handle_failure x p u in post u' r /\ items_ok (pl_queue p').
Proof.
  intros p u H P S Q. unfold handle_failure. rewrite P, S. pose proof (put_all_rule H (items_prefix Q)) as K.
  destruct (put_all x a _ u) as [u0 [v|e| |]]; cbn [fails]; try (split; [exact K|exact Q]).
  pose proof (s_fail sc (post_inv K Logic.I)) as K1. destruct (x (CFail a Done) u0) as [u2 r]. cbn [fails]. split; [|exact Q].
  destruct r; exact K1.
Qed.
Lemma fire_one_rule : forall t p u, I u -> pl_peer p = a -> trig_ok t -> items_ok (pl_queue p) ->
  let '(u', (p', r)) := fire_one x t p u in post u' r /\ items_ok (pl_queue p').
Proof.
  intros t p u H P T Q. unfold fire_one. destruct (pl_state p) eqn:S, t; cbn [behave on_entry]; try (split; [now apply post_ok|exact Q]).
  - pose proof (s_ids sc (p := set_state p WaitIDs) H P) as A. pose proof (@ids_queue (set_state p WaitIDs) u) as B.
    destruct (request_ids x (set_state p WaitIDs) u) as (u' & p' & r). cbn [fst snd] in B. rewrite B. auto.
  - pose proof (s_lca sc (p := set_state p WaitIDs) H P) as A. pose proof (@lca_queue (set_state p WaitIDs) u) as B.
    destruct (request_ids_from_lca x (set_state p WaitIDs) u) as (u' & p' & r). cbn [fst snd] in B. rewrite B. auto.
  - unfold request_blocks. cbn [set_state pl_peer]. rewrite P. pose proof (s_skip sc H T) as K.
    destruct (skip_known x a ids u) as [u0 [[|i rest]|e| |]]; cbn [fails]; try (split; [exact K|exact Q]).
    pose proof (@ask_blocks_rule (i :: rest) u0 (post_inv K Logic.I)) as K1. pose proof (s_now sc K1) as K2.
    destruct (x CNow _) as [u3 t]. cbn [fst set_ts set_queue pl_queue] in *. split; [now apply post_ok|apply items_new].
  - apply handle_failure_rule; auto.
  - unfold append_block. cbn [set_queue pl_queue]. assert (Q' : items_ok (queue_put_ptr (pl_queue p) b)) by (destruct b; cbn [queue_put_ptr]; [apply items_put; auto|auto]).
    destruct (queue_ready _); [|split; [now apply post_ok|exact Q']]. rewrite P.
    pose proof (put_all_rule H (items_received Q')) as K.
    destruct (put_all x a _ u) as [u0 [v|e| |]]; cbn [fails]; (split; [exact K|exact Q']).
  - apply handle_failure_rule; auto.
  - unfold report_ok. cbn [set_state pl_peer pl_state]. rewrite P. pose proof (s_ok sc H) as K. destruct (x (COk a Idle) u) as [u1 r].
    destruct r as [v'|e| |]; cbn [fails]; (split; [exact K|exact Q]).
  - split; [left; split; [exact H|exact Logic.I]|exact Q].
Qed.
Lemma next_trig_ok : forall s t s' more, next_ok s t s' more -> Forall trig_ok more.
Proof. intros s t s' more N. destruct s, t; cbn in N; destruct N as [_ N]; subst; auto; destruct N as [->| ->]; repeat constructor. Qed.
Lemma fire_loop_rule : forall n p u t, I u -> pl_peer p = a -> pl_triggers p = [t] -> trig_ok t -> items_ok (pl_queue p) -> depth (pl_state p) t < n ->
  let '(u', (p', r)) := fire_loop x n p u in post u' r /\ items_ok (pl_queue p').
Proof.
  induction n as [|n IH]; intros p u t H P T O Q D; [lia|]. rewrite (@loop_one _ x n p u t T).
  pose proof (@fire_one_rule t (set_triggers p []) u H P O Q) as K. pose proof (@fire_one_peer _ x t (set_triggers p []) u) as PP.
  pose proof (fire_one_next x t (set_triggers p []) u) as N.
  destruct (fire_one x t (set_triggers p []) u) as (u1 & p1 & r). cbn [fst snd] in *. destruct K as [K1 K2]. destruct N as [N1 N2].
  cbn [set_triggers pl_triggers pl_state pl_peer] in *.
  destruct r as [more|e| |]; cbn [to_unit]; try (split; [exact K1|exact K2]).
  rewrite N1. cbn [app]. assert (I1 := post_inv K1 Logic.I). pose proof (next_trig_ok N2) as NT. destruct (next_depth N2) as [->|(t' & -> & DD & _)].
  - rewrite loop_rest by reflexivity. split; [now apply post_ok|exact K2].
  - apply IH with (t := t'); auto; cbn [set_triggers pl_state pl_peer pl_queue]; try congruence; [|lia]. now apply Forall_inv in NT.
Qed.
Lemma fire_rule : forall t p u, I u -> pl_peer p = a -> pl_triggers p = [] -> trig_ok t -> items_ok (pl_queue p) ->
  let '(u', (p', r)) := fire x t p u in post u' r /\ items_ok (pl_queue p').
Proof.
  intros t p u H P T O Q. unfold fire. apply fire_loop_rule with (t := t); auto; cbn [set_triggers pl_triggers pl_state].
  - now rewrite T.
  - apply depth_max.
Qed.

(** When the machine ends in Idle, the last thing that happened was a report of success that did not start another round. *)
Lemma loop_ready_idle : forall n p u, pl_peer p = a -> pl_state p = WaitBlocks -> pl_triggers p = [EQueueReady] ->
  let '(u', (p', r)) := fire_loop x (S (S n)) p u in pl_state p' = Idle ->
  u' = fst (x (COk a Idle) u) /\ snd (x (COk a Idle) u) <> Ok true.
Proof.
  intros n p u P S T. rewrite (@loop_one _ x _ p u _ T). rewrite fire_one_ready by exact S. unfold report_ok.
  cbn [set_triggers set_state pl_peer pl_state]. rewrite P. destruct (x (COk a Idle) u) as [u1 r]. cbn [fst snd].
  destruct r as [[|]|e| |]; cbn [fails].
  - cbn [set_triggers set_state pl_triggers app]. match goal with |- context [fire_loop x (Datatypes.S n) ?q u1] =>
      pose proof (@loop_start_state _ x n q u1 EStart eq_refl (or_introl eq_refl) eq_refl) as X;
      destruct (fire_loop x (Datatypes.S n) q u1) as (u' & p' & r) end. cbn [fst snd] in X. congruence.
  - rewrite loop_rest by reflexivity. intros _. split; [reflexivity|discriminate].
  - intros _. split; [reflexivity|discriminate].
  - intros _. split; [reflexivity|discriminate].
  - intros _. split; [reflexivity|discriminate].
Qed.
Lemma fire_idle : forall t p u, I u -> pl_peer p = a -> pl_triggers p = [] -> trig_ok t -> items_ok (pl_queue p) -> pl_state p <> Idle ->
  t <> EQueueReady -> t <> ETimeout ->
  let '(u', (p', _)) := fire x t p u in pl_state p' = Idle ->
  exists u0, I u0 /\ u' = fst (x (COk a Idle) u0) /\ snd (x (COk a Idle) u0) <> Ok true.
Proof.
  intros t p u H P T O Q NI N1 N2. rewrite (@fire_rest _ x t p u T). pose proof (fire_one_next x t p u) as N.
  pose proof (@fire_one_rule t p u H P O Q) as K. pose proof (@fire_one_peer _ x t p u) as PP.
  destruct (fire_one x t p u) as (u1 & p1 & r) eqn:F. destruct N as [E1 E2]. rewrite T in E1. destruct K as [K _]. cbn [fst snd] in PP.
  assert (NS : forall more, more = [] -> next_ok (pl_state p) t (pl_state p1) more -> pl_state p1 <> Idle).
  { intros more M X. destruct (pl_state p), t; cbn in X; destruct X as [X _]; rewrite X; congruence. }
  destruct r as [more|e| |]; try (intros HI; exfalso; exact (NS [] eq_refl E2 HI)).
  assert (I1 := post_inv K Logic.I).
  rewrite E1. cbn [app]. destruct (next_depth E2) as [->|(t' & -> & _ & _)].
  { rewrite loop_rest by reflexivity. cbn [set_triggers pl_state]. intros HI. exfalso. exact (NS [] eq_refl E2 HI). }
  assert (C : (t' = EQueueReady /\ pl_state p1 = WaitBlocks) \/ (t' = ETimeout /\ (pl_state p1 = WaitIDs \/ pl_state p1 = WaitBlocks))).
  { destruct (pl_state p), t; cbn [next_ok] in E2; destruct E2 as [S X]; try discriminate X; try congruence; destruct X as [X|X]; try discriminate X; injection X as ->; auto. }
  destruct C as [[-> S]|[-> S]].
  - pose proof (@loop_ready_idle 5 (set_triggers p1 [EQueueReady]) u1) as L. cbn [set_triggers pl_peer pl_state pl_triggers] in L.
    specialize (L ltac:(congruence) S eq_refl).
    match goal with |- context [fire_loop x ?n ?q u1] => destruct (fire_loop x n q u1) as (u' & p' & r) end.
    intros HI. destruct (L HI) as [L1 L2]. exists u1. auto.
  - pose proof (@loop_timeout_state _ x 6 (set_triggers p1 [ETimeout]) u1 S eq_refl) as L.
    match goal with |- context [fire_loop x ?n ?q u1] => destruct (fire_loop x n q u1) as (u' & p' & r) end.
    cbn [fst snd] in L. congruence.
Qed.
End Rule.

(** A relation kept by every call of a world is kept by every event and every step. *)
Section All.
Variable V : Type.
Variable w : world V.
Variable R : V -> V -> Prop.
Hypothesis refl : forall v, R v v.
Hypothesis trans : forall v1 v2 v3, R v1 v2 -> R v2 v3 -> R v1 v3.
Hypothesis keep : forall c v, R v (fst (w c v)).

Ltac call c := match goal with |- context [w c ?v] => let K := fresh "K" in pose proof (@keep c v) as K; destruct (w c v) as [? ?]; cbn [fst snd] in * end.
Ltac one := match goal with |- context [w ?c ?v] => call c end.
Ltac chain := repeat first [assumption | apply refl | match goal with H : R ?a ?b |- R ?a ?c => apply (@trans a b c H); clear H end].

Lemma put_all_all : forall a bs v, R v (fst (put_all w a bs v)).
Proof. induction bs as [|b bs IH]; intros v; cbn [put_all]; [apply refl|]. one. destruct r; auto. eapply trans; eauto. Qed.
Lemma skip_known_all : forall a ids v, R v (fst (skip_known w a ids v)).
Proof.
  induction ids as [|i ids IH]; intros v; cbn [skip_known]; [apply refl|]. one. destruct r as [[|]|e| |]; auto. one.
  assert (R v v1) by chain. destruct r as [j|e| |]; auto. destruct (id_eqb i j); [eapply trans; eauto|]. one.
  assert (R v v2) by chain. destruct r; auto. eapply trans; eauto.
Qed.
Lemma ask_blocks_all : forall a ids v, R v (ask_blocks w a ids v).
Proof. induction ids as [|i ids IH]; intros v; cbn [ask_blocks]; [apply refl|]. one. eapply trans; eauto. Qed.
Lemma ask_from_all : forall i p v, R v (fst (ask_from w i p v)).
Proof. intros i p v. unfold ask_from. one. destruct r as [[|j ids]|e| |]; cbn [fails fst]; auto. one. one. cbn [fst]. chain. Qed.
Lemma fire_one_all : forall t p v, R v (fst (fire_one w t p v)).
Proof.
  intros t p v. unfold fire_one. destruct (pl_state p), t; cbn [behave on_entry]; try (apply refl).
  - unfold request_ids. one. destruct r as [i|e| |]; cbn [fails fst]; auto. eapply trans; [exact K|apply ask_from_all].
  - unfold request_ids_from_lca. one. destruct r as [i|e| |]; cbn [fails fst]; auto. eapply trans; [exact K|apply ask_from_all].
  - unfold request_blocks. match goal with |- context [skip_known w ?a ids v] => pose proof (skip_known_all a ids v) as K; destruct (skip_known w a ids v) as [v1 r] end.
    cbn [fst] in K. destruct r as [[|i rest]|e| |]; cbn [fails fst]; auto.
    match goal with |- context [ask_blocks w ?a ?l v1] => pose proof (ask_blocks_all a l v1) as K1; set (v2 := ask_blocks w a l v1) in * end. one. chain.
  - unfold handle_failure. match goal with |- context [put_all w ?a ?l v] => pose proof (put_all_all a l v) as K; destruct (put_all w a l v) as [v1 r] end.
    cbn [fst] in K. destruct r; cbn [fails fst]; auto. one. chain.
  - unfold append_block. destruct (queue_ready _); [|apply refl]. match goal with |- context [put_all w ?a ?l v] => pose proof (put_all_all a l v) as K; destruct (put_all w a l v) as [v1 r] end.
    cbn [fst] in K. destruct r; cbn [fails fst]; auto.
  - unfold handle_failure. match goal with |- context [put_all w ?a ?l v] => pose proof (put_all_all a l v) as K; destruct (put_all w a l v) as [v1 r] end.
    cbn [fst] in K. destruct r; cbn [fails fst]; auto. one. chain.
  - unfold report_ok. one. destruct r; cbn [fails fst]; auto.
Qed.
Lemma fire_loop_all : forall n p v, R v (fst (fire_loop w n p v)).
Proof.
  induction n as [|n IH]; intros p v; cbn [fire_loop]; destruct (pl_triggers p) as [|t ts]; try apply refl.
  pose proof (fire_one_all t (set_triggers p ts) v) as K. destruct (fire_one w t (set_triggers p ts) v) as (v1 & p1 & r). cbn [fst] in K.
  destruct r; auto. eapply trans; eauto.
Qed.
Lemma fire_all : forall t p v, R v (fst (fire w t p v)).
Proof. intros. apply fire_loop_all. Qed.
End All.

Section AllSteps.
Variable V : Type.
Variable w : world V.
Variable R : V -> V -> Prop.
Hypothesis refl : forall v, R v v.
Hypothesis trans : forall v1 v2 v3, R v1 v2 -> R v2 v3 -> R v1 v3.
Hypothesis keep : forall c v, R v (fst (w c v)).

Ltac call c := match goal with |- context [w c ?v] => let K := fresh "K" in pose proof (@keep c v) as K; destruct (w c v) as [? ?]; cbn [fst snd] in * end.
Ltac one := match goal with |- context [w ?c ?v] => call c end.
Ltac chain := repeat first [assumption | apply refl | match goal with H : R ?a ?b |- R ?a ?c => apply (@trans a b c H); clear H end].

Lemma loader_ok_all : forall a s h v, R v (snd (fst (loader_ok w a s h v))).
Proof.
  intros a s h v. unfold loader_ok. destruct (h_pl h); [|apply refl]. destruct s; try apply refl. one.
  destruct r as [sc|e| |]; auto; [|one; cbn [fst snd]; chain].
  one. assert (R v v1) by chain. destruct r as [z|e| |]; auto; [|one; cbn [fst snd]; chain]. destruct sc as [k|]; auto.
  destruct (is_lagging _ k z) as [diff [|]]; one; cbn [fst snd]; chain.
Qed.
Lemma inner_all : forall c hv, R (snd hv) (snd (fst (inner w c hv))).
Proof.
  intros c hv. destruct c; cbn [inner]; try (one; assumption).
  - apply loader_ok_all.
  - unfold loader_fail. destruct (h_pl (fst hv)); [|apply refl]. destruct s; try apply refl. one. assumption.
Qed.
Lemma drive_all : forall t p l v, R v (snd (fst (drive w t p l v))).
Proof.
  intros t p l v. unfold drive. match goal with |- context [fire (inner w) t p ?s] =>
    pose proof (@fire_all _ (inner w) (fun a b => R (snd a) (snd b)) (fun v => refl (snd v)) (fun a b c => @trans _ _ _) inner_all t p s) as K;
    destruct (fire (inner w) t p s) as [[h1 v1] [p1 r]] end. exact K.
Qed.
Lemma find_lagging_all : forall cs v, R v (fst (find_lagging w cs v)).
Proof.
  induction cs as [|[a [s|]] cs IH]; intros v; cbn [find_lagging]; [apply refl| |apply IH]. one. destruct r as [z|e| |]; auto.
  - pose proof (IH v0) as K0. destruct (find_lagging w cs v0) as [v2 r2]. cbn [fst] in K0. destruct r2; cbn [fst]; chain.
  - eapply trans; eauto.
Qed.
Lemma begin_all : forall a l v, R v (snd (fst (begin_sync w a l v))).
Proof.
  intros a l v. unfold begin_sync. destruct (Nat.leb _ _); [|apply drive_all]. cbv zeta. one.
  match goal with |- context [drive w ERestart ?p ?q v0] => pose proof (drive_all ERestart p q v0) as K0; destruct (drive w ERestart p q v0) as [[l1 v1] r1] end.
  cbn [fst snd] in K0. assert (K1 : R v v1) by chain.
  assert (X : forall p q, R v (snd (fst (drive w EStart p q v1)))) by (intros p q; eapply trans; [exact K1|apply drive_all]).
  destruct r1; try (destruct (l_pl l1); [apply X|exact K1]); exact K1.
Qed.
Lemma step_all : forall i l v, R v (snd (fst (loader_step w i l v))).
Proof.
  intros i l v. destruct i as [a ids|a b| |]; cbn [loader_step].
  - unfold handle_ids. destruct (l_pl l); [|apply refl]. destruct ids; [apply refl|]. destruct (addr_eqb _ _); [apply drive_all|apply refl].
  - unfold handle_block. destruct (l_pl l); [|apply refl]. destruct (addr_eqb _ _); [apply drive_all|apply refl].
  - assert (X : R v (snd (fst (loader_tick w (stop_ticker l) v)))).
    { unfold loader_tick. destruct (l_pl (stop_ticker l)); [|apply refl]. one. eapply trans; [exact K|apply drive_all]. }
    destruct (loader_tick w (stop_ticker l) v) as [[l1 v1] r1]. destruct r1; exact X.
  - assert (X : R v (snd (fst (loader_sync w (stop_timer l) v)))).
    { unfold loader_sync. destruct (l_pl (stop_timer l)); [apply refl|]. one. destruct r as [[|c cs]|e| |]; auto.
      pose proof (find_lagging_all (c :: cs) v0) as K0. destruct (find_lagging w (c :: cs) v0) as [v2 r2]. cbn [fst] in K0.
      assert (K1 : R v v2) by chain. destruct r2 as [[|b bs]|e| |]; auto. one. assert (K9 : R v v1) by chain.
      destruct (nth_error _ r) as [b'|]; [|exact K9]. eapply trans; [exact K9|apply begin_all]. }
    destruct (loader_sync w (stop_timer l) v) as [[l1 v1] r1]. destruct r1; exact X.
Qed.
End AllSteps.
