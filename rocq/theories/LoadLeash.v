(** Where the loader puts the leash of a peer, in the real world (C43, C44, C47). *)
From Coq Require Import ListDec.
From Verif Require Import Base Kv BytesFacts KvFacts ChainModel ChainSpec ChainTree ChainRep ChainStep ChainLca ChainProofs ForkProofs
  PeersModel PeersSpec PeersProofs LoadModel LoadSpec LoadProofs LoadFire LoadSim LoadCalm LoadLoop LoadRule LoadBatch LoadReal.
Set Implicit Arguments.
Unset Strict Implicit.

(** * A log determines the calls made *)
Fixpoint replays V (w : world V) (v : V) (es : list event) (v' : V) : Prop :=
  match es with
  | [] => v' = v
  | e :: es' => snd (w (projT1 e) v) = projT2 e /\ replays w (fst (w (projT1 e) v)) es' v'
  end.
Lemma replays_app : forall V (w : world V) e1 e2 v v', replays w v (e1 ++ e2) v' <-> exists v1, replays w v e1 v1 /\ replays w v1 e2 v'.
Proof.
  induction e1 as [|e e1 IH]; intros e2 v v'; cbn [app replays].
  - split; [eauto|]. intros (v1 & -> & H). exact H.
  - rewrite IH. split; [intros (A & v1 & B & C); eauto|intros (v1 & (A & B) & C); eauto].
Qed.
Definition grown V (w : world V) (x y : V * list event) : Prop := exists new, snd y = snd x ++ new /\ replays w (fst x) new (fst y).
Lemma grown_refl : forall V (w : world V) x, grown w x x.
Proof. intros V w x. exists []. split; [now rewrite app_nil_r|reflexivity]. Qed.
Lemma grown_trans : forall V (w : world V) x y z, grown w x y -> grown w y z -> grown w x z.
Proof.
  intros V w x y z (n & E & A) (m & F & B). exists (n ++ m). split; [now rewrite F, E, app_assoc|]. apply replays_app. eauto.
Qed.
Lemma grown_call : forall V (w : world V) c x, grown w x (fst (logging w c x)).
Proof.
  intros V w c [v es]. rewrite log_call. destruct (w c v) as [v' r] eqn:E. exists [c ==> r]. split; [reflexivity|]. cbn. now rewrite E.
Qed.
Lemma fire_replays : forall V (w : world V) t p v v' new pr, fire (logging w) t p (v, []) = ((v', new), pr) -> replays w v new v'.
Proof.
  intros V w t p v v' new pr E. pose proof (@fire_all _ (logging w) (grown w) (@grown_refl _ w) (@grown_trans _ w) (@grown_call _ w) t p (v, [])) as G.
  rewrite E in G. destruct G as (n & F & G). cbn [fst snd app] in *. now subst.
Qed.
Lemma step_replays : forall V (w : world V) i l v l' v' new r, loader_step (logging w) i l (v, []) = ((l', (v', new)), r) -> replays w v new v'.
Proof.
  intros V w i l v l' v' new r E. pose proof (@step_all _ (logging w) (grown w) (@grown_refl _ w) (@grown_trans _ w) (@grown_call _ w) i l (v, [])) as G.
  rewrite E in G. destruct G as (n & F & G). cbn [fst snd app] in *. now subst.
Qed.

Section Leash.
Variable cfg : config.
Variable g : pblock.
Variable ord : list group -> list group.
Variable cord : list (addr * conn) -> list (addr * conn).
Variable srt : list Peer -> list Peer.
Notation rw := (real_world cfg g ord cord srt).
Variable a : addr.
Hypothesis WA : wf_addr a.

(** * Calls on the linkage and the leash *)
Lemma exec_leash : forall x o f, sound cfg g x -> short x -> wf_op o ->
  leash (fst (exec g (re_lk x) o f)) a =
  match target o, snd (exec g (re_lk x) o f) with
  | Some (b, i), Ok _ => if addr_eqb a b then Ok i else leash (re_lk x) a
  | _, _ => leash (re_lk x) a
  end.
Proof.
  intros x o f S SH W. destruct (reach_view (real_reach S SH)) as (s & _ & R & _ & BD & _).
  destruct (step_view g f R BD W) as (R' & E & GE & _). rewrite (v_leash R' WA), (v_leash R WA), GE, E, sexec_leash.
  destruct (target o) as [[b i]|]; [|reflexivity]. destruct (snd (sexec s o f)); try reflexivity. now destruct (addr_eqb a b).
Qed.
(** What holds of the world while nobody else calls for peer [a]. *)
Definition calm (x : real) : Prop := sound cfg g x /\ undisturbed a x.
Definition keeps (x y : real) : Prop := calm y /\ later x y /\ (no_faults x -> no_faults y).
Definition stays (x y : real) : Prop := keeps x y /\ (short y -> leash (re_lk y) a = leash (re_lk x) a).
Lemma keeps_refl : forall x, calm x -> keeps x x.
Proof. intros x C. split; [exact C|]. split; [apply later_refl|auto]. Qed.
Lemma keeps_trans : forall x y z, keeps x y -> keeps y z -> keeps x z.
Proof. intros x y z (A & B & C) (D & E & F). split; [exact D|]. split; [eapply later_trans; eauto|auto]. Qed.
Lemma stays_refl : forall x, calm x -> stays x x.
Proof. intros x C. split; [now apply keeps_refl|auto]. Qed.
Lemma stays_trans : forall x y z, stays x y -> stays y z -> stays x z.
Proof.
  intros x y z (A & B) (C & D). split; [eapply keeps_trans; eauto|]. intros SH. rewrite D by exact SH. apply B.
  eapply later_short; [|exact SH]. apply C.
Qed.
Lemma op_sound : forall x y o f, sound cfg g x -> wf_op o -> re_lk y = fst (exec g (re_lk x) o f) -> re_ops y = re_ops x ++ [(o, f)] ->
  re_reg y = re_reg x -> re_rops y = re_rops x -> re_env y = re_env x -> sound cfg g y.
Proof.
  intros x y o f (WG & (l0 & S0 & E) & F & RF & RE & EV) W LK OPS RG RO EN. split; [exact WG|]. split.
  { exists l0. split; [exact S0|]. rewrite LK, OPS, run_app, <- E. reflexivity. }
  split; [rewrite OPS; apply Forall_app; auto|]. rewrite RO, RG, EN. auto.
Qed.
Lemma happens_stays : forall x e, calm x -> wf_happening e -> spares a e -> stays x (happens cfg g x e).
Proof.
  intros x e [S U] W SP. destruct e as [o f|o|t].
  - destruct W as [W _]. assert (LT : later x (happens cfg g x (HOp o f))) by (exists [(o, f)]; reflexivity).
    split; [split; [split; [|exact U]|split; [exact LT|auto]]|].
    + eapply (@op_sound x _ o f S W); try reflexivity. cbn [happens re_rops]. now rewrite app_nil_r.
    + intros SH. cbn [happens re_lk]. rewrite exec_leash; auto; [|eapply later_short; eauto]. cbn [spares] in SP.
      destruct (target o) as [[b i]|]; [|reflexivity]. destruct (snd _); try reflexivity. destruct (addr_eqb a b) eqn:A; [|reflexivity].
      apply addr_eqb_eq in A. subst b. exfalso. now apply (SP i).
  - split; [split; [split; [|exact U]|split; [exists []; reflexivity|auto]]|reflexivity].
    destruct S as (WG & (l0 & S0 & E) & F & RF & RE & EV). split; [exact WG|]. cbn [happens re_lk re_ops re_rops re_reg re_env]. rewrite app_nil_r.
    split; [eauto|]. split; [exact F|]. split; [apply Forall_app; auto|]. split; [|exact EV]. unfold rrun. rewrite fold_left_app, RE. reflexivity.
  - split; [split; [split; [|exact U]|split; [exists []; reflexivity|auto]]|reflexivity].
    destruct S as (WG & (l0 & S0 & E) & F & RF & RE & EV). split; [exact WG|]. cbn [happens re_lk re_ops re_rops re_reg re_env]. rewrite !app_nil_r. eauto 10.
Qed.
Lemma same_stays : forall x y, calm x -> re_lk y = re_lk x -> re_ops y = re_ops x -> re_reg y = re_reg x -> re_rops y = re_rops x ->
  Forall (Forall wf_happening) (re_env y) -> undisturbed a y -> re_faults y = re_faults x -> stays x y.
Proof.
  intros x y [(WG & (l0 & S0 & E) & F & RF & RE & EV) U] LK OPS RG RO EN U' FA.
  split; [split; [split; [|exact U']|split]|].
  - split; [exact WG|]. rewrite LK, OPS, RO, RG. eauto 10.
  - exists []. now rewrite OPS, app_nil_r.
  - unfold no_faults. now rewrite FA.
  - intros _. now rewrite LK.
Qed.
Lemma meanwhile_stays : forall x, calm x -> stays x (meanwhile cfg g x).
Proof.
  intros x [S U]. assert (EV : Forall (Forall wf_happening) (re_env x)) by apply S.
  assert (K : forall hs y, calm y -> Forall wf_happening hs -> Forall (spares a) hs -> stays y (fold_left (happens cfg g) hs y)).
  { induction hs as [|h hs IH]; intros y OY W SP; cbn [fold_left]; [now apply stays_refl|].
    pose proof (happens_stays OY (Forall_inv W) (Forall_inv SP)) as C. eapply stays_trans; [exact C|].
    apply IH; [apply C|now apply Forall_inv_tail in W|now apply Forall_inv_tail in SP]. }
  assert (W : Forall wf_happening (hd [] (re_env x))) by (destruct EV; cbn; auto).
  assert (P : Forall (spares a) (hd [] (re_env x))) by (unfold undisturbed in U; destruct U; cbn; auto).
  specialize (K _ x (conj S U) W P). unfold meanwhile. eapply stays_trans; [exact K|].
  apply same_stays; try reflexivity; [apply K| |].
  - cbn [re_env]. destruct EV; cbn; auto.
  - unfold undisturbed in *. cbn [re_env]. destruct U; cbn; auto.
Qed.
Lemma plain_stays : forall c x, calm x -> plain c -> stays x (fst (rw c x)).
Proof.
  intros c x C P. pose proof (meanwhile_stays C) as M. destruct c; try contradiction; try exact M;
    (eapply stays_trans; [exact M|]; apply same_stays; try reflexivity; apply M).
Qed.
(** A write of the loader for its peer. *)
Lemma write_keeps : forall x o i, calm x -> wf_op o -> target o = Some (a, i) -> keeps x (fst (writes g x o)) /\
  (short (fst (writes g x o)) -> snd (writes g x o) = Ok tt -> leash (re_lk (fst (writes g x o))) a = Ok i).
Proof.
  intros x o i [S U] W T. unfold writes. pose proof (@exec_leash x o (hd None (re_faults x)) S) as L.
  destruct (exec g (re_lk x) o (hd None (re_faults x))) as [l r] eqn:E. cbn [fst snd] in *.
  match goal with |- keeps x ?y /\ _ => assert (LT : later x y) by (eexists; reflexivity); split; [split; [split|split; [exact LT|]]|] end.
  - eapply (@op_sound x _ o (hd None (re_faults x)) S W); try reflexivity. cbn [re_lk]. now rewrite E.
  - exact U.
  - unfold no_faults. cbn [re_faults]. intros N. destruct N; cbn; auto.
  - intros SH ->. cbn [re_lk]. rewrite L; auto; [|eapply later_short; eauto]. rewrite T, addr_refl. reflexivity.
Qed.
Lemma has_stored : forall x i, sound cfg g x -> short x -> wf_id i -> (lk_has_block (re_lk x) i = Ok true <-> ChainSpec.stored (hist g (re_ops x)) i).
Proof.
  intros x i S SH W. destruct (reach_view (real_reach S SH)) as (s & Es & R & _ & _ & SM). rewrite (v_has_true R SM W). unfold hist. now rewrite Es.
Qed.
Definition linkable (x : real) (b : pblock) : Prop :=
  lk_has_block (re_lk x) (pb_id b) = Ok true \/
  (lk_has_block (re_lk x) (pb_parent b) = Ok true /\ pb_gen b <> None /\ (pb_bt b <= max_int64)%N).
Lemma put_step : forall x b, calm x -> wf_pblock b -> let (x', r) := rw (CPut b a) x in keeps x x' /\
  (short x' -> r = Ok tt -> leash (re_lk x') a = Ok (pb_id b) /\ lk_has_block (re_lk x') (pb_id b) = Ok true) /\
  (short x' -> no_faults x -> linkable x b -> r = Ok tt).
Proof.
  intros x b C W. cbn [real_world]. pose proof (meanwhile_stays C) as [M _]. set (y := meanwhile cfg g x) in *.
  assert (WO : wf_op (Put b a)) by (split; auto). destruct (@write_keeps y (Put b a) (pb_id b) (proj1 M) WO eq_refl) as [K L].
  destruct (writes g y (Put b a)) as [x' r] eqn:E. cbn [fst snd] in *. assert (K2 := keeps_trans M K). split; [exact K2|].
  assert (X : r = snd (exec g (re_lk y) (Put b a) (hd None (re_faults y))) /\ re_lk x' = fst (exec g (re_lk y) (Put b a) (hd None (re_faults y)))).
  { unfold writes in E. destruct (exec g (re_lk y) (Put b a) (hd None (re_faults y))) as [l1 r1]. injection E as <- <-. auto. }
  destruct X as [-> X2].
  assert (ST : short x' -> exists s, Rep (lk_db (re_lk y)) s /\ (N.of_nat (length (st_blocks s)) < 2 ^ 32 - 8)%N /\ small (st_blocks s) /\ calm y).
  { intros SH. assert (SY : short y) by (eapply later_short; [|exact SH]; apply K).
    destruct (reach_view (real_reach (proj1 (proj1 M)) SY)) as (s & _ & R & _ & BD & SM). exists s. split; [exact R|]. split; [exact BD|]. split; [exact SM|apply M]. }
  assert (LI : no_faults x -> hd None (re_faults y) = None).
  { intros N. assert (NY : no_faults y) by (apply M; exact N). unfold no_faults in NY. destruct NY; cbn; auto. }
  split.
  - intros SH RO. split; [now apply L|]. destruct (ST SH) as (s & R & BD & SM & _).
    destruct (step_view g (hd None (re_faults y)) R BD WO) as (R' & EE & _ & SM'). rewrite X2. rewrite EE in RO.
    apply (v_has_true R' SM' (proj1 W)). revert RO. unfold sexec. cbn [effects].
    destruct (chain (st_blocks s) (pb_id b)) as [|e0 c0] eqn:CH.
    + destruct (chain (st_blocks s) (pb_parent b)) as [|e1 c1]; [destruct (hd None (re_faults y)); discriminate|].
      destruct (pb_gen b) as [ga|]; [|destruct (hd None (re_faults y)); discriminate].
      destruct (max_int64 <? pb_bt b)%N; [destruct (hd None (re_faults y)); discriminate|].
      destruct (hd None (re_faults y)) as [k|]; cbn [length]; [destruct (Nat.ltb k 2); [discriminate|]|]; intros _;
        cbn [apply_effects fold_left fst st_set_leash st_add st_blocks]; eexists; (split; [left; reflexivity|reflexivity]).
    + assert (SS : ChainSpec.stored (st_blocks s) (pb_id b)).
      { destruct (stored_dec (st_blocks s) (pb_id b)) as [Y|N]; [exact Y|]. rewrite (chain_nil N) in CH. discriminate. }
      destruct (hd None (re_faults y)) as [k|]; cbn [length]; [destruct (Nat.ltb k 1); [discriminate|]|]; intros _; exact SS.
  - intros SH N LK. destruct (ST SH) as (s & R & BD & SM & _). rewrite (LI N).
    destruct (step_view g None R BD WO) as (_ & -> & _ & _).
    assert (SY : short y) by (eapply later_short; [|exact SH]; apply K).
    assert (KN : forall i, wf_id i -> lk_has_block (re_lk x) i = Ok true -> ChainSpec.stored (st_blocks s) i).
    { intros i WI H. apply (v_has_true R SM WI). eapply has_kept; [apply C|apply M|apply M|exact SY|exact WI|exact H]. }
    unfold sexec. cbn [effects]. destruct LK as [H|(H & GN & BT)].
    + destruct (chain_hd (KN _ (proj1 W) H)) as (e0 & c0 & -> & _). reflexivity.
    + destruct (chain (st_blocks s) (pb_id b)) as [|e0 c0]; [|reflexivity].
      destruct (chain_hd (KN _ (proj1 (proj2 W)) H)) as (e0 & c0 & -> & _). destruct (pb_gen b); [|congruence].
      destruct (N.ltb_spec max_int64 (pb_bt b)); [lia|]. reflexivity.
Qed.

(** * The calls of a peer loader *)
Notation iw := (inner rw).
Lemma inner_stays : forall c (u : held * real), calm (snd u) -> plain c -> stays (snd u) (snd (fst (iw c u))).
Proof.
  intros c [h x] C P. cbn [snd] in C |- *.
  assert (PL : forall c0 y, plain c0 -> stays x y -> stays x (fst (rw c0 y))).
  { intros c0 y P0 Y. eapply stays_trans; [exact Y|]. apply plain_stays; [apply Y|exact P0]. }
  assert (SIMPLE : forall c0, plain c0 -> stays x (snd (fst (let (v', r) := rw c0 x in ((h, v'), r))))).
  { intros c0 P0. pose proof (plain_stays C P0) as Q. destruct (rw c0 x) as [x' r]. exact Q. }
  destruct c as [b|b|i n|i|i b|p b|b ids|b i| |b s|b s|b|b| |n|y]; try contradiction; try (apply SIMPLE; exact Logic.I).
  - cbn [inner fst snd]. unfold loader_ok. destruct (h_pl h); [|now apply stays_refl]. destruct s; try now apply stays_refl.
    pose proof (@PL (CPeer b) x Logic.I (stays_refl C)) as S1. destruct (rw (CPeer b) x) as [x1 r1]. cbn [fst] in S1.
    destruct r1 as [sc|e| |]; cbn [fst snd]; try exact S1; [|now apply (@PL (CLog (LNoPeer b)) x1)].
    pose proof (@PL (CScore b) x1 Logic.I S1) as S2. destruct (rw (CScore b) x1) as [x2 r2]. cbn [fst] in S2.
    destruct r2 as [z|e| |]; cbn [fst snd]; try exact S2; [|now apply (@PL (CLog (LNoScore b)) x2)].
    destruct sc as [q|]; [|exact S2]. destruct (is_lagging _ _ _) as [d [|]]; cbn [fst snd]; [now apply (@PL (CLog (LStill b)) x2)|now apply (@PL (CLog (LNoMore b)) x2)].
  - cbn [inner fst snd]. unfold loader_fail. destruct (h_pl h); [|now apply stays_refl]. destruct s; try now apply stays_refl.
    now apply (@PL (CLog (LFailed b)) x); [|apply stays_refl].
Qed.
Lemma plain_replays : forall es (u u' : held * real), Forall (fun e : event => plain (projT1 e)) es -> calm (snd u) -> replays iw u es u' -> stays (snd u) (snd u').
Proof.
  induction es as [|e es IH]; intros u u' P C R; cbn [replays] in R; [subst; now apply stays_refl|]. destruct R as [_ R].
  pose proof (inner_stays C (Forall_inv P)) as S1. eapply stays_trans; [exact S1|]. eapply IH; [now apply Forall_inv_tail in P|apply S1|exact R].
Qed.
Lemma inner_put : forall b h x, iw (CPut b a) (h, x) = let (x', r) := rw (CPut b a) x in ((h, x'), r). Proof. reflexivity. Qed.
Lemma puts_replays : forall bs (u u' : held * real), Forall wf_pblock bs -> calm (snd u) -> replays iw u (map (puts a) bs) u' ->
  keeps (snd u) (snd u') /\
  (short (snd u') -> match rev bs with [] => leash (re_lk (snd u')) a = leash (re_lk (snd u)) a | b :: _ => leash (re_lk (snd u')) a = Ok (pb_id b) end) /\
  (short (snd u') -> forall (known : id -> Prop) (post : list pblock), (forall i, wf_id i -> known i -> lk_has_block (re_lk (snd u)) i = Ok true) ->
     links_up known (bs ++ post) -> exists known', links_up known' post /\ forall i, wf_id i -> known' i -> lk_has_block (re_lk (snd u')) i = Ok true).
Proof.
  intros bs u u' W C R. revert u W C R. induction bs as [|b bs IH]; intros [h x] W C R; cbn [map replays puts projT1 projT2] in R.
  - subst u'. cbn [rev snd app]. split; [now apply keeps_refl|]. split; [reflexivity|]. intros _ known post K L. exists known. auto.
  - destruct R as [E R]. rewrite inner_put in E, R. cbn [snd] in *. pose proof (put_step C (Forall_inv W)) as P. destruct (rw (CPut b a) x) as [x1 r1].
    cbn [fst snd] in *. subst r1. destruct P as (K1 & L1 & _). destruct (IH (h, x1) (Forall_inv_tail W) (proj1 K1) R) as (K2 & L2 & L3). cbn [snd] in *.
    assert (SH1 : short (snd u') -> short x1) by (intros SH; eapply later_short; [|exact SH]; apply K2).
    split; [eapply keeps_trans; eauto|]. split.
    + intros SH. cbn [rev]. specialize (L2 SH). destruct (rev bs) as [|b0 l0]; cbn [app]; [|exact L2]. rewrite L2. apply L1; auto.
    + intros SH known post K [_ L]. apply (L3 SH (fun i => known i \/ i = pb_id b) post); [|exact L]. intros i WI [KI | ->].
      * eapply has_kept; [apply C|apply K1|apply K1|auto|exact WI|now apply K].
      * apply L1; auto.
Qed.

(** * C44: a complete batch *)
Lemma drive_log : forall V (w : world V) t p l v l' v' r, drive w t p l v = ((l', v'), r) -> exists h h' log p',
  fire (logging (inner w)) t p ((h, v), []) = (((h', v'), log), (p', r)) /\ h_pl h = true /\ l_pl l' = (if h_pl h' then Some p' else None).
Proof.
  intros V w t p l v l' v' r E. unfold drive in E.
  set (h := {| h_pl := true; h_prev := l_prev l; h_fc := l_fc l; h_ticker := l_ticker l |}) in E.
  pose proof (@fire_sim _ _ _ _ _ (@logging_sim _ (inner w)) t p ((h, v), [])) as F. cbn [fst] in F. rewrite F in E. unfold onto in E.
  destruct (fire (logging (inner w)) t p ((h, v), [])) as [[[h1 v1] log] [p1 r1]] eqn:D. cbn [fst snd] in E.
  assert (X1 : l_pl l' = if h_pl h1 then Some p1 else None) by (apply (f_equal fst), (f_equal fst) in E; cbn [fst] in E; now rewrite <- E).
  assert (X2 : v1 = v') by (apply (f_equal fst), (f_equal snd) in E; exact E). assert (X3 : r1 = r) by (apply (f_equal snd) in E; exact E).
  subst v1 r1. exists h, h1, log, p1. auto.
Qed.
Lemma quiet_plain : forall e, quiet e -> plain (projT1 e).
Proof. intros [c r]. unfold quiet, plain. cbn [projT1]. destruct c; tauto. Qed.
Lemma addr_same : forall p, addr_eqb (pl_peer p) (pl_peer p) = true. Proof. intros. apply addr_refl. Qed.
Lemma puts_rev : forall (bs : list pblock) b, rev (bs ++ [b]) = b :: rev bs. Proof. intros. now rewrite rev_app_distr. Qed.

Lemma replays_held : forall es (u u' : held * real), Forall (fun e : event => ~ is_report e) es -> replays iw u es u' -> fst u' = fst u.
Proof.
  induction es as [|[c r] es IH]; intros u u' P R; cbn [replays] in R; [now subst|]. destruct R as [_ R]. rewrite (IH _ _ (Forall_inv_tail P) R).
  apply Forall_inv in P. destruct u as [h x]. cbn [projT1]. destruct c; try (exfalso; apply P; exact Logic.I); cbn [inner fst snd];
    match goal with |- context [rw ?c x] => now destruct (rw c x) end.
Qed.
Lemma puts_report : forall bs, Forall (fun e : event => ~ is_report e) (map (puts a) bs).
Proof. induction bs; constructor; auto. Qed.

Lemma batch_leash : forall l p x ids j bs b blks l' x' r, busy l p -> pl_peer p = a -> waiting p WaitBlocks -> calm x ->
  pl_queue p = after (ids ++ [j]) bs -> NoDup (ids ++ [j]) -> Forall wf_pblock (bs ++ [b]) -> Forall (got (bs ++ [b])) (ids ++ [j]) ->
  Forall2 (newest (bs ++ [b])) (ids ++ [j]) blks ->
  loader_step rw (InBlock a (Some b)) l x = ((l', x'), r) -> short x' ->
  (* all puts succeed, or one of them fails *)
  (leash (re_lk x') a = Ok j) \/
  (~ (no_faults x /\ links_up (fun i => lk_has_block (re_lk x) i = Ok true) blks) /\ exists p', busy l' p' /\ pl_state p' = WaitBlocks).
Proof.
  intros l p x ids j bs b blks l' x' r B PA WT C Q ND WF G F2 E SH. cbn [loader_step] in E. unfold handle_block in E. unfold busy in B.
  rewrite B, PA, addr_refl in E. apply drive_log in E as (h & h' & log & p' & FE & HP & LP).
  destruct (@fire_block _ iw p (h, x) (Some b) WT) as (v1 & log1 & p1 & r1 & FE1 & A1 & A2 & A3 & A4).
  rewrite FE in FE1. injection FE1 as <- <- <- <-. apply fire_replays in FE.
  assert (QP : queue_put_ptr (pl_queue p) (Some b) = after (ids ++ [j]) (bs ++ [b])).
  { cbn [queue_put_ptr]. rewrite Q. unfold after. now rewrite fold_left_app. }
  rewrite QP in *. assert (RD := proj2 (@q_ready (ids ++ [j]) (bs ++ [b]) ND) G). rewrite RD in A4. cbn zeta in A4.
  assert (RB := q_received ND G). assert (BE : received (after (ids ++ [j]) (bs ++ [b])) = blks).
  { clear - RB F2. revert RB F2. generalize (received (after (ids ++ [j]) (bs ++ [b]))) as l1. revert blks. generalize (ids ++ [j]) as is.
    induction is as [|i is IH]; intros l1 l2 H1 H2; inversion H1; inversion H2; subst; [reflexivity|]. f_equal; [|now apply IH].
    eapply newest_fun; eauto. }
  rewrite BE in A4. clear BE RB.
  assert (WB : Forall wf_pblock blks).
  { clear - F2 WF. induction F2 as [|i y is ys N F2 IH]; constructor; auto. destruct N as (_ & pre & post & EQ & _). rewrite Forall_forall in WF. apply WF.
    rewrite EQ. apply in_or_app. right. now left. }
  assert (LST : exists bl y, blks = bl ++ [y] /\ pb_id y = j).
  { apply Forall2_app_inv_l in F2 as (bl & yl & _ & F2 & ->). inversion F2 as [|? y ? ? N F3]; subst. inversion F3; subst. exists bl, y. split; [reflexivity|apply N]. }
  destruct LST as (bl & y & EB & IY).
  destruct A4 as [(r0 & more & -> & QM & _)|(NR & SB & pre & z & post & EZ & ->)].
  - left. apply replays_app in FE as (u1 & R1 & R2). rewrite PA in R1, R2.
    destruct (@puts_replays blks (h, x) u1 WB C R1) as (K & L & _). cbn [snd] in *.
    assert (ST : stays (snd u1) x').
    { apply (@plain_replays ((COk a Idle ==> r0) :: more) u1 (h', x')); [|apply K|exact R2]. constructor; [exact Logic.I|].
      eapply Forall_impl; [|exact QM]. intros e. apply quiet_plain. }
    destruct ST as [K2 SL]. rewrite SL by exact SH. assert (SH1 : short (snd u1)) by (eapply later_short; [|exact SH]; apply K2).
    specialize (L SH1). rewrite EB, puts_rev in L. now rewrite L, IY.
  - right. rewrite PA in FE. apply replays_app in FE as (u1 & R1 & R2). cbn [replays projT1 projT2] in R2. destruct R2 as [R2 R3].
    assert (WP : Forall wf_pblock pre /\ wf_pblock z).
    { rewrite EZ in WB. apply Forall_app in WB as [W1 W2]. split; [exact W1|]. now apply Forall_inv in W2. }
    destruct (@puts_replays pre (h, x) u1 (proj1 WP) C R1) as (K & L & L3). cbn [snd] in *.
    destruct u1 as [h1 x1]. rewrite inner_put in R2, R3. cbn [snd] in *. pose proof (put_step (proj1 K) (proj2 WP)) as P.
    destruct (rw (CPut z a) x1) as [x2 r2]. cbn [fst snd] in *. subst r2. injection R3 as -> ->. destruct P as (K1 & P1 & P2).
    split.
    + intros [N LU]. apply NR. apply P2; [exact SH|apply K; exact N|]. rewrite EZ in LU.
      destruct (L3 (later_short (proj1 (proj2 K1)) SH) _ (z :: post) (fun i _ H => H) LU) as (known' & [[H|(H & GN & BT)] _] & KK).
      * left. apply KK; [apply WP|exact H].
      * right. split; [|auto]. apply KK; [apply WP|exact H].
    + exists p'. split; [|exact SB]. unfold busy. rewrite LP.
      assert (H1 : h1 = h) by (apply (replays_held (puts_report pre) R1)).
      rewrite H1, HP. reflexivity.
Qed.

(** * C43: the leash after an IDs message *)
Lemma walk_replays : forall known es, walk a known es -> forall (u u' : held * real), Forall wf_id known -> calm (snd u) -> replays iw u es u' ->
  keeps (snd u) (snd u') /\
  (short (snd u') -> match rev known with [] => leash (re_lk (snd u')) a = leash (re_lk (snd u)) a | i :: _ => leash (re_lk (snd u')) a = Ok i end).
Proof.
  induction 1 as [|i ids es W IH|i j ids es NE W IH]; intros u u' WF C R.
  - cbn in R. subst. split; [now apply keeps_refl|reflexivity].
  - cbn [app replays projT1 projT2] in R. destruct R as (_ & E2 & R). pose proof (@inner_stays (CHas i) u C Logic.I) as S1.
    set (u1 := fst (iw (CHas i) u)) in *. pose proof (@inner_stays (CLeash a) u1 (proj1 (proj1 S1)) Logic.I) as S2.
    assert (LE : leash (re_lk (snd (fst (iw (CLeash a) u1)))) a = Ok i).
    { rewrite <- E2. destruct u1 as [h1 x1]. reflexivity. }
    set (u2 := fst (iw (CLeash a) u1)) in *. destruct (IH u2 u' (Forall_inv_tail WF) (proj1 (proj1 S2)) R) as [K L].
    split; [eapply keeps_trans; [apply S1|]; eapply keeps_trans; [apply S2|exact K]|].
    intros SH. specialize (L SH). cbn [rev]. destruct (rev ids) as [|i0 l0]; cbn [app]; [|exact L]. now rewrite L.
  - cbn [app replays projT1 projT2] in R. destruct R as (_ & _ & E3 & R). pose proof (@inner_stays (CHas i) u C Logic.I) as S1.
    set (u1 := fst (iw (CHas i) u)) in *. pose proof (@inner_stays (CLeash a) u1 (proj1 (proj1 S1)) Logic.I) as S2.
    set (u2 := fst (iw (CLeash a) u1)) in *. clearbody u2. destruct u2 as [h2 x2]. cbn [inner fst snd real_world] in E3, R.
    pose proof (meanwhile_stays (proj1 (proj1 S2))) as S3. cbn [snd] in *. set (y := meanwhile cfg g x2) in *.
    assert (WO : wf_op (Move i a)) by (split; [now apply Forall_inv in WF|exact WA]).
    destruct (@write_keeps y (Move i a) i (proj1 (proj1 S3)) WO eq_refl) as [K4 L4].
    destruct (writes g y (Move i a)) as [x4 r4]. cbn [fst snd] in *. subst r4.
    destruct (IH (h2, x4) u' (Forall_inv_tail WF) (proj1 K4) R) as [K L]. cbn [snd] in *.
    split; [eapply keeps_trans; [apply S1|]; eapply keeps_trans; [apply S2|]; eapply keeps_trans; [apply S3|]; eapply keeps_trans; eauto|].
    intros SH. specialize (L SH). cbn [rev]. destruct (rev ids) as [|i0 l0]; cbn [app]; [|exact L]. rewrite L. apply L4; auto.
    eapply later_short; [|exact SH]; apply K.
Qed.
Lemma walk_has : forall known es, walk a known es -> forall (u u' : held * real), Forall wf_id known -> calm (snd u) -> replays iw u es u' ->
  short (snd u') -> Forall (fun i => lk_has_block (re_lk (snd u')) i = Ok true) known.
Proof.
  induction 1 as [|i ids es W IH|i j ids es NE W IH]; intros u u' WF C R SH.
  - constructor.
  - cbn [app replays projT1 projT2] in R. destruct R as (E1 & E2 & R). pose proof (@inner_stays (CHas i) u C Logic.I) as S1.
    assert (HI : lk_has_block (re_lk (snd (fst (iw (CHas i) u)))) i = Ok true) by (rewrite <- E1; destruct u as [h x]; reflexivity).
    set (u1 := fst (iw (CHas i) u)) in *. pose proof (@inner_stays (CLeash a) u1 (proj1 (proj1 S1)) Logic.I) as S2.
    set (u2 := fst (iw (CLeash a) u1)) in *. destruct (walk_replays W (Forall_inv_tail WF) (proj1 (proj1 S2)) R) as [K _].
    constructor; [|exact (IH u2 u' (Forall_inv_tail WF) (proj1 (proj1 S2)) R SH)].
    eapply has_kept; [apply S1|apply K|eapply later_trans; [apply S2|apply K]|exact SH|now apply Forall_inv in WF|exact HI].
  - cbn [app replays projT1 projT2] in R. destruct R as (E1 & _ & E3 & R). pose proof (@inner_stays (CHas i) u C Logic.I) as S1.
    assert (HI : lk_has_block (re_lk (snd (fst (iw (CHas i) u)))) i = Ok true) by (rewrite <- E1; destruct u as [h x]; reflexivity).
    set (u1 := fst (iw (CHas i) u)) in *. pose proof (@inner_stays (CLeash a) u1 (proj1 (proj1 S1)) Logic.I) as S2.
    set (u2 := fst (iw (CLeash a) u1)) in *. clearbody u2. destruct u2 as [h2 x2]. cbn [inner fst snd real_world] in E3, R.
    pose proof (meanwhile_stays (proj1 (proj1 S2))) as S3. cbn [snd] in *. set (y := meanwhile cfg g x2) in *.
    assert (WO : wf_op (Move i a)) by (split; [now apply Forall_inv in WF|exact WA]).
    destruct (@write_keeps y (Move i a) i (proj1 (proj1 S3)) WO eq_refl) as [K4 _].
    destruct (writes g y (Move i a)) as [x4 r4]. cbn [fst snd] in *.
    destruct (walk_replays W (Forall_inv_tail WF) (u := (h2, x4)) (proj1 K4) R) as [K _]. cbn [snd] in K.
    constructor; [|exact (IH (h2, x4) u' (Forall_inv_tail WF) (proj1 K4) R SH)].
    eapply has_kept; [apply S1|apply K|eapply later_trans; [apply S2|]; eapply later_trans; [apply S3|]; eapply later_trans; [apply K4|apply K]|exact SH|now apply Forall_inv in WF|exact HI].
Qed.
Lemma ids_leash : forall l p x ids l' x' r, busy l p -> pl_peer p = a -> waiting p WaitIDs -> calm x -> Forall wf_id ids ->
  loader_step rw (InIDs a ids) l x = ((l', x'), r) -> short x' -> ids <> [] ->
  (exists known rest, ids = known ++ rest /\ Forall (fun i => lk_has_block (re_lk x') i = Ok true) known /\
     match rest with [] => True | i :: _ => lk_has_block (re_lk x) i <> Ok true end /\
     match rev known with [] => leash (re_lk x') a = leash (re_lk x) a | i :: _ => leash (re_lk x') a = Ok i end) \/
  (r <> Ok tt /\ exists p', busy l' p' /\ pl_state p' = WaitBlocks).
Proof.
  intros l p x ids l' x' r B PA WT C WF E SH NE. cbn [loader_step] in E. unfold handle_ids in E. unfold busy in B.
  rewrite B, PA, addr_refl in E. replace (drive rw (EIDs ids) p l x) with (match ids with [] => ((l, x), Ok tt) | _ => drive rw (EIDs ids) p l x end) in E by (destruct ids; congruence).
  assert (E' : drive rw (EIDs ids) p l x = ((l', x'), r)) by (destruct ids; [congruence|exact E]). clear E.
  apply drive_log in E' as (h & h' & log & p' & FE & HP & LP).
  destruct (@fire_ids _ iw p (h, x) ids WT) as (v1 & log1 & p1 & r1 & FE1 & A1 & A2 & A4).
  rewrite FE in FE1. injection FE1 as <- <- <- <-. apply fire_replays in FE. rewrite PA in A4.
  destruct A4 as [(known & rest & es & EI & WK & A4)|(NR & SB & _ & _ & SI)].
  2: { right. split; [exact NR|]. exists p'. split; [|exact SB]. unfold busy. rewrite LP.
       assert (H1 : h' = h) by (apply (@replays_held log (h, x) (h', x')); [|exact FE]; eapply Forall_impl; [|exact SI]; intros e [_ Q]; exact Q).
       now rewrite H1, HP. }
  left. exists known, rest. split; [exact EI|]. assert (WF' := WF). rewrite EI in WF'. apply Forall_app in WF' as [WF1 WF2].
  assert (X : exists u1 more, replays iw (h, x) es u1 /\ replays iw u1 more (h', x') /\ Forall (fun e : event => plain (projT1 e)) more /\
    match rest with [] => True | i :: _ => exists m, more = (CHas i ==> Ok false) :: m end).
  { destruct rest as [|i rest'].
    - destruct A4 as (_ & r0 & more & -> & QM & _). apply replays_app in FE as (u1 & R1 & R2). exists u1. eexists. split; [exact R1|]. split; [exact R2|].
      split; [|exact Logic.I]. constructor; [exact Logic.I|]. eapply Forall_impl; [|exact QM]. intros e. apply quiet_plain.
    - destruct A4 as (t & -> & _). apply replays_app in FE as (u1 & R1 & R2). exists u1. eexists. split; [exact R1|]. split; [exact R2|].
      split; [|cbn [app]; eauto]. constructor; [exact Logic.I|]. apply Forall_app. split; [|constructor; [exact Logic.I|constructor]].
      apply Forall_map. apply Forall_forall. intros; exact Logic.I. }
  destruct X as (u1 & more & R1 & R2 & PL & RE). destruct (walk_replays WK WF1 (u := (h, x)) C R1) as [K L]. cbn [snd] in *.
  destruct (plain_replays PL (proj1 K) R2) as [K2 L2]. cbn [snd] in *. assert (SH1 : short (snd u1)) by (eapply later_short; [|exact SH]; apply K2).
  split; [|split].
  - pose proof (walk_has WK WF1 (u := (h, x)) C R1 SH1) as Q. rewrite Forall_forall in *. intros i IN. eapply has_kept; [apply K|apply K2|apply K2|exact SH|now apply WF1|now apply Q].
  - destruct rest as [|i rest']; [exact Logic.I|]. destruct RE as (m & ->). cbn [replays projT1 projT2] in R2. destruct R2 as [R2 R3].
    intros HA. pose proof (@inner_stays (CHas i) u1 (proj1 K) Logic.I) as S1.
    pose proof (plain_replays (Forall_inv_tail PL) (proj1 (proj1 S1)) R3) as [PM _]. destruct u1 as [h1 x1]. cbn [snd] in *.
    assert (SM : short (meanwhile cfg g x1)).
    { eapply later_short; [|exact SH]. apply PM. }
    assert (HA1 : lk_has_block (re_lk (meanwhile cfg g x1)) i = Ok true).
    { eapply has_kept; [apply C|apply S1|eapply later_trans; [apply K|apply S1]|exact SM|now apply Forall_inv in WF2|exact HA]. }
    cbn [inner real_world snd fst] in R2. rewrite HA1 in R2. discriminate.
  - rewrite L2 by exact SH. exact (L SH1).
Qed.

(** * Timeouts *)
Lemma replays_inner : forall es h x x', Forall (fun e : event => ~ is_report e) es -> replays rw x es x' -> replays iw (h, x) es (h, x').
Proof.
  induction es as [|[c r] es IH]; intros h x x' P R; cbn [replays projT1 projT2] in *; [now subst|]. destruct R as [E R].
  assert (X : iw c (h, x) = ((h, fst (rw c x)), snd (rw c x))).
  { apply Forall_inv in P. destruct c; try (exfalso; apply P; exact Logic.I); cbn [inner fst snd]; match goal with |- context [rw ?c x] => now destruct (rw c x) end. }
  rewrite X. cbn [fst snd]. split; [exact E|]. apply IH; [now apply Forall_inv_tail in P|exact R].
Qed.
Lemma tick_leash : forall l p x l' x' r, resting l -> busy l p -> pl_peer p = a -> pl_state p = WaitIDs \/ pl_state p = WaitBlocks -> l_ticker l = true ->
  calm x -> Forall wf_pblock (arrived_prefix (pl_queue p)) -> loader_step rw InTick l x = ((l', x'), r) -> short x' ->
  (l' = l /\ r = Ok tt /\ leash (re_lk x') a = leash (re_lk x) a) \/
  (r = Ok tt /\ l_pl l' = None /\
     match rev (arrived_prefix (pl_queue p)) with [] => leash (re_lk x') a = leash (re_lk x) a | b :: _ => leash (re_lk x') a = Ok (pb_id b) end) \/
  (r <> Ok tt /\ l_pl l' = Some (set_state p Done) /\
   ~ (no_faults x /\ links_up (fun i => lk_has_block (re_lk x) i = Ok true) (arrived_prefix (pl_queue p)))).
Proof.
  intros l p x l' x' r RS B PA S TK C WF E SH. rewrite (@unlogged _ rw) in E. destruct (loader_step (logging rw) InTick l (x, [])) as [[l1 [x1 new]] r1] eqn:E1.
  assert (X1 : l1 = l') by (apply (f_equal fst), (f_equal fst) in E; exact E). assert (X2 : x1 = x') by (apply (f_equal fst), (f_equal snd) in E; exact E).
  assert (X3 : r1 = r) by (apply (f_equal snd) in E; exact E). subst l1 x1 r1. clear E.
  destruct (tick_log RS B S TK E1) as (t & rest & EN & Q). apply step_replays in E1. rewrite EN in E1. cbn [replays projT1 projT2] in E1. destruct E1 as [_ R].
  pose proof (@plain_stays CNow x C Logic.I) as S0. set (x0 := fst (rw CNow x)) in *. set (h := {| h_pl := true; h_prev := None; h_fc := []; h_ticker := true |}). rewrite PA in Q.
  assert (KN : short x0 -> forall i, wf_id i -> lk_has_block (re_lk x) i = Ok true -> lk_has_block (re_lk x0) i = Ok true).
  { intros SH0 i W H. eapply has_kept; [apply C|apply S0|apply S0|exact SH0|exact W|exact H]. }
  destruct (timeoutDuration <? t - pl_ts p)%Z.
  - right. destruct Q as [(-> & L & ->)|(NR & L & pre & b & post & EQ & ->)].
    + left. split; [reflexivity|]. split; [exact L|]. apply (@replays_inner _ h) in R.
      2: { apply Forall_app. split; [apply puts_report|]. constructor; [intros []|constructor]. }
      apply replays_app in R as (u1 & R1 & R2). destruct (@puts_replays _ (h, x0) u1 WF (proj1 (proj1 S0)) R1) as (K & L1 & _). cbn [snd] in *.
      destruct (@plain_replays [CLog (LFailed a) ==> tt] u1 (h, x')) as [K2 L2]; [constructor; [exact Logic.I|constructor]|apply K|exact R2|]. cbn [snd] in *.
      assert (SH1 : short (snd u1)) by (eapply later_short; [|exact SH]; apply K2). specialize (L1 SH1).
      assert (SH0 : short x0) by (eapply later_short; [|exact SH1]; apply K).
      rewrite L2 by exact SH. destruct (rev (arrived_prefix (pl_queue p))); [|exact L1]. rewrite L1. now apply S0.
    + right. split; [exact NR|]. split; [exact L|]. intros [N LU]. apply NR. apply (@replays_inner _ h) in R.
      2: { apply Forall_app. split; [apply puts_report|]. constructor; [intros []|constructor]. }
      apply replays_app in R as ([h1 x1] & R1 & R2). cbn [replays projT1 projT2] in R2. destruct R2 as [R2 R3].
      assert (WP : Forall wf_pblock pre /\ wf_pblock b).
      { rewrite EQ in WF. apply Forall_app in WF as [W1 W2]. split; [exact W1|]. now apply Forall_inv in W2. }
      destruct (@puts_replays pre (h, x0) (h1, x1) (proj1 WP) (proj1 (proj1 S0)) R1) as (K & _ & L3). cbn [snd] in *.
      rewrite inner_put in R2, R3. cbn [snd] in *. pose proof (put_step (proj1 K) (proj2 WP)) as P.
      destruct (rw (CPut b a) x1) as [x2 r2]. cbn [fst snd] in *. subst r2. injection R3 as _ ->. destruct P as (K1 & P1 & P2).
      assert (SH1 : short x1) by (eapply later_short; [|exact SH]; apply K1). assert (SH0 : short x0) by (eapply later_short; [|exact SH1]; apply K).
      apply P2; [exact SH|apply K, S0; exact N|]. rewrite EQ in LU.
      destruct (L3 SH1 (fun i => lk_has_block (re_lk x) i = Ok true) (b :: post) (KN SH0) LU) as (known' & [[H|(H & GN & BT)] _] & KK).
      * left. apply KK; [apply WP|exact H].
      * right. split; [|auto]. apply KK; [apply WP|exact H].
  - left. destruct Q as (-> & -> & ->). cbn [replays] in R. subst x'. split; [reflexivity|]. split; [reflexivity|]. now apply S0.
Qed.
End Leash.

(** * The batch is complete while the loader waits for IDs *)
Section Ready.
Variable V : Type.
Variable w : world V.
Notation lw := (logging w).
Lemma batch_session : forall l b, batch w l b -> exists es, session w l es.
Proof. induction 1 as [|l b i v l' v' new r _ [es S] E R]; [exists []; constructor|]. exists (es ++ new). econstructor; eauto. Qed.
Lemma free_queue : forall i l v l' v' new r, l_pl l = None -> loader_step lw i l (v, []) = ((l', (v', new)), r) -> forall p', busy l' p' -> pl_queue p' = [].
Proof.
  intros i l v l' v' new r B E p' Bp. assert (F := step_free B E). destruct F as [_ F]. destruct (F p' Bp) as [-> _]. cbn [loader_step] in E.
  unfold loader_sync in E. cbn [stop_timer l_pl] in E. rewrite B in E.
  assert (NO : l_pl l' <> None) by (unfold busy in Bp; congruence).
  destruct (lw CConns (v, [])) as [[v1 es1] [[|c cs]|e| |]]; try (injection E as <- <- <- <-; cbn in NO; congruence).
  destruct (find_lagging lw (c :: cs) (v1, es1)) as [[v2 es2] [[|a lag]|e| |]] eqn:FL; try (injection E as <- <- <- <-; cbn in NO; congruence).
  destruct (lw (CPick (length (a :: lag))) (v2, es2)) as [[v3 es3] k].
  destruct (nth_error (a :: lag) k) as [y|]; [|injection E as <- <- <- <-; cbn in NO; congruence].
  destruct (begin_sync lw y (stop_timer l) (v3, es3)) as [[l1 [v4 es4]] r1] eqn:D. apply begin_asks in D. destruct D as [_ D2].
  assert (Z : l_pl l' = l_pl l1) by (destruct r1; injection E as <- <- <- <-; auto). unfold busy in *. rewrite Z in Bp. auto.
Qed.
Definition between (s : lstate) : Prop := s = WaitIDs \/ s = Idle.
Lemma batch_ready : forall l b, batch w l b -> forall p, busy l p -> between (pl_state p) -> queue_ready (pl_queue p) = true.
Proof.
  induction 1 as [|l b i v l' v' new r BT IH E RET].
  - intros p B. unfold busy in B. discriminate.
  - intros p' Bp BS. destruct (batch_inv BT) as [RS _]. destruct (l_pl l) as [p|] eqn:B.
    2: { now rewrite (free_queue B E Bp). }
    assert (T := RS p B). unfold busy in *. assert (SAME : l_pl l' = l_pl l -> queue_ready (pl_queue p') = true).
    { intros Z. apply (IH p'); [congruence|exact BS]. }
    destruct i as [a ids|a x| |].
    + destruct (list_eq_dec bytes_eq_dec ids []) as [EI|NE].
      { apply SAME. rewrite (proj1 (@other_messages _ lw l (v, []) RS) a ids (or_intror EI)) in E. injection E as <- <- <- <-. reflexivity. }
      assert (D : (a = pl_peer p /\ pl_state p = WaitIDs) \/ (a <> pl_peer p \/ pl_state p <> WaitIDs)).
      { destruct (addr_eqb a (pl_peer p)) eqn:AE; [apply addr_eqb_eq in AE|right; left; intros AE2; rewrite AE2, addr_refl in AE; discriminate].
        destruct (pl_state p); auto; right; right; discriminate. }
      destruct D as [[-> ST]|D].
      2: { apply SAME. rewrite (proj1 (@other_messages _ lw l (v, []) RS) a ids) in E; [injection E as <- <- <- <-; reflexivity|]. left. intros q Q. unfold busy in Q. assert (q = p) by congruence. now subst. }
      cbn [loader_step] in E. unfold handle_ids in E. rewrite B in E. rewrite addr_refl in E.
      assert (E' : drive lw (EIDs ids) p l (v, []) = ((l', (v', new)), r)) by (destruct ids; [now contradiction NE|exact E]).
      apply drive_log in E' as (h & h' & log & p1 & FE & HP & LP). rewrite Bp in LP. destruct (h_pl h'); [|discriminate]. injection LP as <-.
      destruct (@fire_ids _ (inner lw) p (h, (v, [])) ids (conj ST T)) as (v1 & log1 & p1 & r1 & FE1 & A1 & A2 & A4).
      rewrite FE in FE1. injection FE1 as <- <- <- <-.
      destruct A4 as [(known & rest & es & EI & WK & A4)|(_ & SB & _)]; [|destruct BS as [BS|BS]; congruence].
      destruct rest as [|i0 rest]; [|destruct A4 as (t & _ & _ & SB & _); destruct BS as [BS|BS]; congruence].
      destruct A4 as [-> _]. apply (IH p B). now left.
    + assert (D : (a = pl_peer p /\ pl_state p = WaitBlocks) \/ (a <> pl_peer p \/ pl_state p <> WaitBlocks)).
      { destruct (addr_eqb a (pl_peer p)) eqn:AE; [apply addr_eqb_eq in AE|right; left; intros AE2; rewrite AE2, addr_refl in AE; discriminate].
        destruct (pl_state p); auto; right; right; discriminate. }
      destruct D as [[-> ST]|D].
      2: { apply SAME. rewrite (proj2 (@other_messages _ lw l (v, []) RS) a x) in E; [injection E as <- <- <- <-; reflexivity|]. intros q Q. unfold busy in Q. assert (q = p) by congruence. now subst. }
      cbn [loader_step] in E. unfold handle_block in E. rewrite B in E. rewrite addr_refl in E.
      apply drive_log in E as (h & h' & log & p1 & FE & HP & LP). rewrite Bp in LP. destruct (h_pl h'); [|discriminate]. injection LP as <-.
      destruct (@fire_block _ (inner lw) p (h, (v, [])) x (conj ST T)) as (v1 & log1 & p1 & r1 & FE1 & A1 & A2 & A3 & A4).
      rewrite FE in FE1. injection FE1 as <- <- <- <-. rewrite A3. destruct (queue_ready (queue_put_ptr (pl_queue p) x)); [reflexivity|].
      destruct A4 as (_ & _ & SB & _). destruct BS as [BS|BS]; congruence.
    + destruct (step_busy RS B E) as [_ M]. destruct (M p' Bp) as [_ [EQ|MV]].
      * apply batch_inv in BT as [_ Q]. specialize (Q p B).
        assert (KQ : pl_queue p' = pl_queue p).
        { cbn [loader_step] in E. unfold loader_tick in E. cbn [stop_ticker l_pl] in E. rewrite B in E. destruct (lw CNow (v, [])) as [[v1 es1] t].
          destruct (drive lw (ETick t) p (stop_ticker l) (v1, es1)) as [[l1 [v2 es2]] r1] eqn:D. apply drive_tame in D; [|exact T|destruct (pl_state p); exact Logic.I].
          destruct D as [_ D]. apply D. unfold busy. destruct r1; injection E as <- <- <- <-; exact Bp. }
        rewrite KQ. apply (IH p B). rewrite <- EQ. exact BS.
      * destruct (pl_state p); try contradiction; destruct BS as [BS|BS]; congruence.
    + apply SAME. cbn [loader_step] in E. unfold loader_sync in E. cbn [stop_timer l_pl] in E. rewrite B in E. injection E as <- <- <- <-. reflexivity.
Qed.
End Ready.

Lemma feeds_unlogged : forall V (w : world V) ins l u, feeds w ins l (fst u) =
  let '((l', (v', _)), r) := feeds (logging w) ins l u in ((l', v'), r).
Proof.
  intros V w. induction ins as [|i ins IH]; intros l [v es]; cbn [feeds]; [reflexivity|]. rewrite (loader_step_sim (logging_sim w)).
  destruct (loader_step (logging w) i l (v, es)) as ((l1 & v1 & es1) & r). unfold lonto. destruct r; try reflexivity; apply (IH l1 (v1, es1)).
Qed.
(** * C47 *)
Section Silent.
Variable cfg : config.
Variable g : pblock.
Variable ord : list group -> list group.
Variable cord : list (addr * conn) -> list (addr * conn).
Variable srt : list Peer -> list Peer.
Notation rw := (real_world cfg g ord cord srt).
Lemma known_links : forall (known : id -> Prop) bs, Forall (fun b => known (pb_id b)) bs -> links_up known bs.
Proof.
  intros known bs F. revert known F. induction bs as [|b bs IH]; intros known F; [exact Logic.I|]. split; [left; now apply Forall_inv in F|].
  apply IH. apply Forall_inv_tail in F. eapply Forall_impl; [|exact F]. cbn. auto.
Qed.
Lemma silent_leash : forall l ids bs p x l' x' r, batch rw l (ids, bs) -> busy l p -> wf_addr (pl_peer p) -> pl_state p = WaitIDs ->
  sound cfg g x -> undisturbed (pl_peer p) x -> no_faults x -> Forall wf_pblock bs ->
  Forall (fun i => lk_has_block (re_lk x) i = Ok true) ids ->
  match rev ids with [] => True | j :: _ => leash (re_lk x) (pl_peer p) = Ok j end ->
  loader_step rw InTick l x = ((l', x'), r) -> short x' ->
  returned r /\ (l' = l \/ l_pl l' = None) /\ leash (re_lk x') (pl_peer p) = leash (re_lk x) (pl_peer p).
Proof.
  intros l ids bs p x l' x' r BT B WA ST S U N WF HI LE E SH. destruct (batch_inv BT) as [RS Q]. specialize (Q p B). cbn [fst snd] in Q.
  assert (RD := batch_ready BT B (or_introl ST)). destruct (batch_session BT) as [es SE].
  assert (TK : l_ticker l = true). { apply (session_inv SE). unfold busy in B. congruence. }
  assert (ND : NoDup ids).
  { destruct (ListDec.NoDup_dec bytes_eq_dec ids) as [Y|NO]; [exact Y|]. rewrite Q, (q_duplicates bs NO) in RD. discriminate. }
  assert (G : Forall (got bs) ids) by (apply q_ready; [exact ND|now rewrite <- Q]).
  destruct (q_prefix bs ND) as (pre & LR & F2). assert (EP : pre = ids).
  { destruct LR as (post & -> & _ & NG). apply Forall_app in G as [_ G]. destruct post as [|i post]; [now rewrite app_nil_r|]. exfalso. now apply NG, (Forall_inv G). }
  subst pre. rewrite <- Q in F2. set (bl := arrived_prefix (pl_queue p)) in *.
  assert (WB : Forall wf_pblock bl).
  { clear - F2 WF. induction F2 as [|i y is ys NW F2 IH]; constructor; auto. destruct NW as (_ & pre & post & EQ & _). rewrite Forall_forall in WF. apply WF.
    rewrite EQ. apply in_or_app. right. now left. }
  assert (IDS : map pb_id bl = ids).
  { clear - F2. induction F2 as [|i y is ys NW F2 IH]; [reflexivity|]. cbn [map]. rewrite IH. f_equal. apply NW. }
  destruct (@tick_leash cfg g ord cord srt _ WA l p x l' x' r RS B eq_refl (or_introl ST) TK (conj S U) WB E SH) as [(-> & -> & L)|[(-> & L & M)|(NR & _ & NO)]].
  - split; [exact Logic.I|auto].
  - split; [exact Logic.I|]. split; [auto|]. fold bl in M. rewrite <- IDS, <- map_rev in LE. destruct (rev bl) as [|b0 l0]; [exact M|]. cbn [map] in LE. congruence.
  - exfalso. apply NO. split; [exact N|]. apply known_links. fold bl. rewrite <- IDS in HI. apply Forall_map in HI. exact HI.
Qed.
End Silent.
