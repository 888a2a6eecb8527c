(** Where the blocks and the IDs come from with which the loader calls the linkage (C78). *)
From Verif Require Import Base Kv BytesFacts ChainModel ChainSpec PeersModel PeersSpec LoadModel LoadSpec LoadProofs LoadFire LoadSim ChainProofs LoadCalm LoadLoop LoadRule LoadBatch LoadReal.
Set Implicit Arguments.
Unset Strict Implicit.

Section Source.
Variable V : Type.
Variable w : world V.
Variable Pb : addr -> pblock -> Prop.
Variable Pi : addr -> id -> Prop.
(** [St v i]: in the state [v], the call HasBlock(i) has just returned true. *)
Variable St : V -> id -> Prop.
Definition sourced (c : call) (v : V) : Prop := match c with CPut b a => Pb a b | CMove i a => Pi a i /\ St v i | _ => True end.
Variable K : V -> Prop.
Hypothesis keep : forall c v, K v -> sourced c v -> K (fst (w c v)).
Hypothesis found : forall i v, K v -> snd (w (CHas i) v) = Ok true -> St (fst (w (CHas i) v)) i.
Hypothesis still : forall a i v, K v -> St v i -> St (fst (w (CLeash a) v)) i.
Let Ku (u : held * V) : Prop := K (snd u).
Lemma both : forall U (Q : U -> Prop) A (u : U) (r : outcome A), Q u -> post Q Q u r.
Proof. intros U Q A u r H. destruct r; [left|left|right|right]; (split; [exact H|]); cbn; auto. Qed.
Lemma go_call : forall c v, K v -> sourced c v -> exists v' r, w c v = (v', r) /\ K v'.
Proof. intros c v H S. pose proof (keep H S) as G. destruct (w c v) as [v' r]. eauto. Qed.
Lemma skip_source : forall a ids v, K v -> Forall (Pi a) ids -> K (fst (skip_known w a ids v)).
Proof.
  intros a. induction ids as [|i ids IH]; intros v H F; cbn [skip_known]; [exact H|]. assert (P := Forall_inv F). apply Forall_inv_tail in F.
  pose proof (@found i v H) as S1. destruct (@go_call (CHas i) v H Logic.I) as (v1 & r1 & E1 & H1). rewrite E1 in S1 |- *. cbn in r1. destruct r1 as [[|]| | |]; try exact H1.
  specialize (S1 eq_refl). pose proof (@still a i v1 H1 S1) as S2.
  destruct (@go_call (CLeash a) v1 H1 Logic.I) as (v2 & r2 & E2 & H2). rewrite E2 in S2 |- *. cbn in r2. destruct r2 as [j| | |]; try exact H2.
  destruct (id_eqb i j); [now apply IH|]. destruct (@go_call (CMove i a) v2 H2 (conj P S2)) as (v3 & r3 & -> & H3). cbn in r3. destruct r3; try exact H3. now apply IH.
Qed.
Lemma ask_source : forall i p v, K v -> K (fst (ask_from w i p v)).
Proof.
  intros i p v H. unfold ask_from. destruct (@go_call (CLast i idsBatchSize) v H Logic.I) as (v1 & r1 & -> & H1). cbn in r1. destruct r1 as [[|j ids]| | |]; try exact H1.
  destruct (@go_call (CAskIDs (pl_peer p) (j :: ids)) v1 H1 Logic.I) as (v2 & r2 & -> & H2).
  destruct (@go_call CNow v2 H2 Logic.I) as (v3 & r3 & -> & H3). exact H3.
Qed.
Lemma ids_source : forall p v, K v -> K (fst (request_ids w p v)).
Proof.
  intros p v H. unfold request_ids. destruct (@go_call (CLeash (pl_peer p)) v H Logic.I) as (v1 & r1 & -> & H1). cbn in r1. destruct r1; try exact H1. now apply ask_source.
Qed.
Lemma lca_source : forall p v, K v -> K (fst (request_ids_from_lca w p v)).
Proof.
  intros p v H. unfold request_ids_from_lca. destruct (@go_call (CLcb (pl_peer p)) v H Logic.I) as (v1 & r1 & -> & H1). cbn in r1. destruct r1; try exact H1. now apply ask_source.
Qed.
Lemma source_safe : forall a, safe_calls (inner w) a Ku Ku (Pb a) (Pi a).
Proof.
  intros a. constructor.
  - intros b [h v] H P. cbn [inner fst snd]. destruct (@go_call (CPut b a) v H P) as (v1 & r1 & -> & H1). now apply both.
  - intros i [h v] H. cbn [inner fst snd]. destruct (@go_call (CAskBlock a i) v H Logic.I) as (v1 & r1 & -> & H1). exact H1.
  - intros [h v] H. cbn [inner fst snd]. destruct (@go_call CNow v H Logic.I) as (v1 & r1 & -> & H1). exact H1.
  - intros [h v] H. change (K v) in H. cbn [inner fst snd]. unfold loader_ok. destruct (h_pl h); [|now apply both].
    destruct (@go_call (CPeer a) v H Logic.I) as (v1 & r1 & -> & H1). cbn in r1. destruct r1 as [sc| | |]; try (now apply both).
    + destruct (@go_call (CScore a) v1 H1 Logic.I) as (v2 & r2 & -> & H2). cbn in r2. destruct r2 as [k|e| |]; try (now apply both).
      * destruct sc as [z|]; [|now apply both]. destruct (is_lagging (h_prev _) z k) as [diff [|]]; apply both; now apply keep.
      * apply both. now apply keep.
    + apply both. now apply keep.
  - intros [h v] H. change (K v) in H. cbn [inner fst snd]. unfold loader_fail. destruct (h_pl h); [|now apply both].
    destruct (@go_call (CLog (LFailed a)) v H Logic.I) as (v1 & r1 & -> & H1). now apply both.
  - intros ids [h v] H F. rewrite skip_known_inner. pose proof (@skip_source a ids v H F) as G. destruct (skip_known w a ids v) as [v' r]. now apply both.
  - intros p [h v] H P. rewrite ids_inner. pose proof (@ids_source p v H) as G. destruct (request_ids w p v) as [v' [p' r]]. now apply both.
  - intros p [h v] H P. rewrite lca_inner. pose proof (@lca_source p v H) as G. destruct (request_ids_from_lca w p v) as [v' [p' r]]. now apply both.
Qed.
(** The blocks of the queue come from the peer. *)
Definition kept (l : loader) : Prop := forall p, busy l p -> pl_triggers p = [] /\ items_ok (Pb (pl_peer p)) (pl_queue p).
Definition gives (i : input) : Prop := match i with InIDs a ids => Forall (Pi a) ids | InBlock a (Some b) => Pb a b | _ => True end.
Lemma drive_source : forall t p l v, K v -> pl_triggers p = [] -> items_ok (Pb (pl_peer p)) (pl_queue p) -> trig_ok (Pb (pl_peer p)) (Pi (pl_peer p)) t ->
  t <> EQueueReady -> t <> ETimeout -> let '((l', v'), _) := drive w t p l v in K v' /\ kept l'.
Proof.
  intros t p l v H T Q TO N1 N2. destruct (drive w t p l v) as [[l' v'] r] eqn:D. destruct (drive_at D T N1 N2) as [_ DA].
  unfold drive in D. set (h := {| h_pl := true; h_prev := l_prev l; h_fc := l_fc l; h_ticker := l_ticker l |}) in D.
  assert (HI : Ku (h, v)) by exact H. pose proof (fire_rule (source_safe (pl_peer p)) HI eq_refl T TO Q) as F.
  destruct (fire (inner w) t p (h, v)) as [[h1 v1] [p1 r1]]. destruct F as [F1 F2]. injection D as <- <- <-.
  split; [destruct F1 as [[F1 _]|[F1 _]]; exact F1|]. intros p' B. destruct (DA p' B) as (T' & PP & _). split; [exact T'|]. rewrite PP.
  unfold busy in B. cbn [l_pl] in B. destruct (h_pl h1); [|discriminate]. now injection B as <-.
Qed.
Lemma begin_source : forall a l v, K v -> let '((l', v'), _) := begin_sync w a l v in K v' /\ kept l'.
Proof.
  intros a l v H. unfold begin_sync. destruct (Nat.leb _ _).
  - cbv zeta. pose proof (@keep (CLog (LRestart a)) v H Logic.I) as H1. set (v1 := fst (w (CLog (LRestart a)) v)) in *.
    pose proof (@drive_source ERestart (new_ploader a) (with_pl l (new_ploader a) (fc_reset (l_fc l) a)) v1 H1 eq_refl (Forall_nil _) Logic.I ltac:(discriminate) ltac:(discriminate)) as D.
    destruct (drive w ERestart _ _ v1) as [[l2 v2] r2]. destruct D as [D1 D2].
    destruct r2; try (split; assumption); (destruct (l_pl l2) as [p|] eqn:B; [|split; assumption]); destruct (D2 p B) as [T Q]; apply drive_source; auto; try exact Logic.I; discriminate.
  - apply drive_source; auto; try exact Logic.I; try discriminate. constructor.
Qed.
Lemma lagging_source : forall cs v, K v -> K (fst (find_lagging w cs v)).
Proof.
  induction cs as [|[a [s|]] cs IH]; intros v H; cbn [find_lagging]; auto.
  destruct (@go_call (CScore a) v H Logic.I) as (v1 & r1 & -> & H1). cbn in r1. specialize (IH v1 H1). destruct r1; auto.
  destruct (find_lagging w cs v1) as [v2 [lag| | |]]; exact IH.
Qed.
Lemma step_source : forall i l v, K v -> kept l -> gives i -> let '((l', v'), _) := loader_step w i l v in K v' /\ kept l'.
Proof.
  intros i l v H KL G.
  assert (RS : forall (f : loader -> loader) (m : (loader * V) * outcome unit), (forall l, l_pl (f l) = l_pl l) -> (let '((l', v'), _) := m in K v' /\ kept l') ->
    let '((l', v'), _) := (let (p, r) := m in let (l1, v1) := p in match r with Panic => ((l1, v1), Panic) | Diverge => ((l1, v1), Diverge) | _ => ((f l1, v1), r) end) in K v' /\ kept l').
  { intros f [[l1 v1] r] E [M1 M2]. assert (kept (f l1)) by (intros p B; apply M2; unfold busy in *; now rewrite E in B). destruct r; auto. }
  destruct i as [a ids|a b| |]; cbn [loader_step].
  - unfold handle_ids. destruct (l_pl l) as [p|] eqn:B; [|auto]. destruct ids as [|i ids]; [auto|]. destruct (addr_eqb a (pl_peer p)) eqn:A; [|auto].
    apply addr_eqb_eq in A. subst a. destruct (KL p B). apply drive_source; auto; discriminate.
  - unfold handle_block. destruct (l_pl l) as [p|] eqn:B; [|auto]. destruct (addr_eqb a (pl_peer p)) eqn:A; [|auto].
    apply addr_eqb_eq in A. subst a. destruct (KL p B). apply drive_source; auto; discriminate.
  - apply (RS reset_ticker); [reflexivity|]. unfold loader_tick. cbn [stop_ticker l_pl]. destruct (l_pl l) as [p|] eqn:B; [|split; [exact H|intros p Bp; unfold busy in Bp; cbn in Bp; congruence]].
    destruct (@go_call CNow v H Logic.I) as (v1 & r1 & -> & H1). destruct (KL p B). apply drive_source; auto; try exact Logic.I; discriminate.
  - apply (RS reset_timer); [reflexivity|]. unfold loader_sync. cbn [stop_timer l_pl]. destruct (l_pl l) as [p|] eqn:B.
    { split; [exact H|]. intros q Bq. unfold busy in Bq. cbn in Bq. now apply KL. }
    assert (N : kept (stop_timer l)) by (intros p Bp; unfold busy in Bp; cbn in Bp; congruence).
    destruct (@go_call CConns v H Logic.I) as (v1 & r1 & -> & H1). cbn in r1. destruct r1 as [[|c cs]| | |]; auto.
    pose proof (lagging_source (c :: cs) H1) as H2. destruct (find_lagging w (c :: cs) v1) as [v2 [[|a lag]| | |]]; cbn [fst] in H2; auto.
    destruct (@go_call (CPick (length (a :: lag))) v2 H2 Logic.I) as (v3 & r3 & -> & H3). destruct (nth_error (a :: lag) r3); [now apply begin_source|auto].
Qed.
End Source.

(** Every block that the loader stores for a peer was in a message from this peer, and so was every ID to which it moves the leash. *)
Definition from_inputs (ins : list input) (e : event) : Prop :=
  match projT1 e with
  | CPut b a => In (InBlock a (Some b)) ins
  | CMove i a => exists ids, In (InIDs a ids) ins /\ In i ids
  | _ => True
  end.
Lemma feeds_source : forall V (w : world V) ins l v es l' v' es' r ins0,
  (forall p, busy l p -> pl_triggers p = [] /\ items_ok (fun b => In (InBlock (pl_peer p) (Some b)) (ins0 ++ ins)) (pl_queue p)) ->
  Forall (from_inputs (ins0 ++ ins)) es -> feeds (logging w) ins l (v, es) = ((l', (v', es')), r) -> Forall (from_inputs (ins0 ++ ins)) es'.
Proof.
  intros V w. induction ins as [|i ins IH]; intros l v es l' v' es' r ins0 KL F E; cbn [feeds] in E.
  - now injection E as _ _ <- _.
  - set (all := ins0 ++ i :: ins) in *. set (Pb := fun a b => In (InBlock a (Some b)) all). set (Pi := fun a j => exists ids, In (InIDs a ids) all /\ In j ids).
    assert (II : In i all) by (apply in_or_app; right; now left).
    assert (KP : forall c (x : V * list event), Forall (from_inputs all) (snd x) -> sourced Pb Pi (fun _ _ => True) c x -> Forall (from_inputs all) (snd (fst (logging w c x)))).
    { intros c [x e] FX SC. rewrite log_call. destruct (w c x). cbn [fst snd] in *. apply Forall_app. split; [exact FX|]. constructor; [|constructor]. destruct c; exact SC || exact (proj1 SC) || exact Logic.I. }
    pose proof (@step_source _ (logging w) Pb Pi (fun _ _ => True) (fun x => Forall (from_inputs all) (snd x)) KP (fun _ _ _ _ => Logic.I) (fun _ _ _ _ _ => Logic.I) i l (v, es) F KL) as S. assert (G : gives Pb Pi i).
    { destruct i as [a ids|a [b|]| |]; cbn; auto. apply Forall_forall. intros j J. exists ids. auto. }
    specialize (S G). destruct (loader_step (logging w) i l (v, es)) as [[l1 [v1 es1]] r1]. destruct S as [S1 S2]. cbn [snd] in S1.
    assert (AA : (ins0 ++ [i]) ++ ins = all) by (unfold all; now rewrite <- app_assoc).
    destruct r1; try (injection E as _ _ <- _; exact S1); specialize (IH l1 v1 es1 l' v' es' r (ins0 ++ [i])); rewrite AA in IH; exact (IH S2 S1 E).
Qed.
Lemma loader_source : forall V (w : world V) ins v l' v' es' r, feeds (logging w) ins new_loader (v, []) = ((l', (v', es')), r) -> Forall (from_inputs ins) es'.
Proof. intros V w ins v l' v' es' r E. apply (@feeds_source _ w ins new_loader v [] l' v' es' r []) ; auto. intros p B. discriminate. Qed.
