(** Proofs about the synchronisation with an honest peer (C73). *)
From Verif Require Import Base Kv BytesFacts KvFacts ChainModel ChainSpec ChainTree ChainRep ChainStep ChainLca ChainProofs ForkProofs
  PeersModel PeersSpec PeersProofs PeersCalls LoadModel LoadSpec LoadProofs LoadFire LoadSim LoadCalm LoadLoop LoadRule LoadBatch LoadReal LoadLeash SyncSpec LockSpec.
Set Implicit Arguments.
Unset Strict Implicit.

(** * Stored blocks mean what their IDs mean *)
Section Meaning.
Variable m : meaning.
Variable g : pblock.
Definition meant (e : entry) : Prop :=
  (e_parent e = None /\ e_id e = pb_id g /\ e_own e = block_score (pb_bt g)) \/
  (exists p bt, m (e_id e) = (p, bt) /\ e_parent e = Some p /\ e_own e = block_score bt).
Lemma sexec_meant : forall s o f, Forall meant (st_blocks s) -> true_op m o -> Forall meant (st_blocks (fst (sexec s o f))).
Proof.
  intros s o f F T.
  assert (K0 : forall a i k, Forall meant (st_blocks (apply_effects s (firstn k [st_set_leash a i])))) by (intros a i [|[|k]]; exact F).
  assert (K1 : forall e a i k, meant e -> Forall meant (st_blocks (apply_effects s (firstn k [st_add e; st_set_leash a i])))).
  { intros e a i k M. destruct k as [|[|[|k]]]; cbn; auto. }
  assert (K : forall k, Forall meant (st_blocks (apply_effects s (firstn k (fst (effects s o)))))).
  { intros k. destruct o as [b a|x a|i a|]; cbn [effects true_op] in *.
    - destruct (chain (st_blocks s) (pb_id b)); [|apply K0]. destruct (chain (st_blocks s) (pb_parent b)); [destruct k; exact F|].
      destruct (pb_gen b); [|destruct k; exact F]. destruct (max_int64 <? pb_bt b)%N; [destruct k; exact F|]. cbn [fst]. apply K1. right. cbn. eauto.
    - destruct (chain (st_blocks s) (mi_total x)); [|apply K0]. destruct (chain (st_blocks s) (mi_ref x)) as [|r c] eqn:C; [destruct k; exact F|].
      destruct (e_parent r) as [p|] eqn:P; [|destruct k; exact F]. cbn [fst]. apply K1. right. cbn.
      assert (R : In r (st_blocks s)) by (apply (@chain_In _ (mi_ref x)); rewrite C; now left).
      assert (RI : e_id r = mi_ref x).
      { assert (SR : ChainSpec.stored (st_blocks s) (mi_ref x)). { destruct (stored_dec (st_blocks s) (mi_ref x)) as [Y|N]; [exact Y|]. rewrite (chain_nil N) in C. discriminate. }
        destruct (chain_hd SR) as (e & c' & E & ID & _). congruence. }
      rewrite Forall_forall in F. destruct (F r R) as [(N & _)|(p' & bt & M1 & M2 & M3)]; [congruence|]. rewrite RI in M1. exists p', bt. split; [congruence|]. split; congruence.
    - apply K0.
    - destruct k; exact F. }
  unfold sexec. destruct (effects s o) as [fs r] eqn:E. cbn [fst] in K. specialize (K (length fs)) as KL. rewrite firstn_all in KL.
  destruct f as [k|]; [destruct (Nat.ltb k (length fs))|]; cbn [fst]; auto.
Qed.
Lemma srun_meant : forall ops s, Forall meant (st_blocks s) -> Forall (fun of => true_op m (fst of)) ops -> Forall meant (st_blocks (srun s ops)).
Proof.
  induction ops as [|[o f] ops IH]; intros s F T; cbn [srun]; [exact F|]. apply IH; [|now apply Forall_inv_tail in T].
  apply sexec_meant; [exact F|]. now apply Forall_inv in T.
Qed.
Lemma hist_meant : forall ops, Forall (fun of => true_op m (fst of)) ops -> Forall meant (hist g ops).
Proof. intros ops T. apply srun_meant; [|exact T]. constructor; [|constructor]. left. cbn. auto. Qed.

Lemma tip_snoc : forall P b, tip g (P ++ [b]) = pb_id b.
Proof. intros P b. unfold tip. rewrite map_app. apply last_last. Qed.
Lemma links_app : forall P Q i, links i (P ++ Q) <-> links i P /\ links (last (map pb_id P) i) Q.
Proof.
  induction P as [|b P IH]; intros Q i; cbn [app links map last]; [tauto|]. rewrite IH.
  assert (E : last (map pb_id P) (pb_id b) = match map pb_id P with [] => pb_id b | _ :: _ => last (map pb_id P) i end).
  { destruct (map pb_id P) as [|x l]; [reflexivity|]. clear. revert x. induction l as [|y l IHl]; intros x; [reflexivity|]. cbn [last] in *. apply IHl. }
  rewrite E. tauto.
Qed.
Lemma weight_snoc : forall P b, weight g (P ++ [b]) = (weight g P + block_score (pb_bt b))%Z.
Proof.
  intros P b. unfold weight. cbn [map fold_right]. rewrite map_app.
  assert (Q : forall l y, fold_right Z.add 0%Z (l ++ [y]) = (fold_right Z.add 0 l + y)%Z) by (induction l as [|z l IH]; intros y; cbn; [lia|rewrite IH; lia]).
  cbn [map]. rewrite Q. lia.
Qed.
(** Along a proper chain, storage is inherited downwards and scores add up. *)
Lemma stored_chain : forall es, WF es -> Forall meant es -> forall P, proper_chain m g P -> ChainSpec.stored es (tip g P) ->
  score es (tip g P) = weight g P /\ Forall (ChainSpec.stored es) (cids g P).
Proof.
  intros es W F P. induction P as [|b P IH] using rev_ind; intros (L & ND & A) S.
  - unfold tip in *. cbn [map last] in *. destruct (chain_hd S) as (e & c & C & ID & IN). rewrite Forall_forall in F.
    assert (GE : e_parent e = None /\ e_own e = block_score (pb_bt g)).
    { destruct (chain_last W) as (g0 & GP & GI & _ & _). destruct (F g0 GI) as [(_ & I0 & O0)|(p & bt & _ & E & _)]; [|congruence].
      assert (e = g0) by (apply (entry_unique W); congruence). subst. auto. }
    destruct GE as [NP OW].
    assert (C0 : c = []).
    { clear - W C NP. destruct c as [|e1 c]; [reflexivity|]. exfalso. revert C. induction W as [e0 ? P0|e0 older p x W IH ? NS P0]; cbn [chain].
      - destruct (id_eqb _ _); [rewrite P0|]; discriminate.
      - destruct (id_eqb (e_id e0) (pb_id g)); [|exact IH]. rewrite P0. intros HH. injection HH as <- _. congruence. }
    subst c. unfold score. rewrite C. unfold weight, cids. cbn. rewrite OW. split; [reflexivity|]. constructor; [|constructor]. exact S.
  - rewrite tip_snoc in *. apply links_app in L as [L [L1 _]]. apply Forall_app in A as [A A1]. apply Forall_inv in A1. destruct A1 as (_ & _ & _ & MB).
    assert (ND' : NoDup (cids g P) /\ pb_id b <> pb_id g).
    { unfold cids in *. rewrite map_app in ND. cbn [map] in ND. rewrite app_comm_cons in ND. split; [now apply NoDup_remove_1 in ND; rewrite app_nil_r in ND|].
      apply NoDup_remove_2 in ND. rewrite app_nil_r in ND. intros E. apply ND. rewrite E. now left. }
    destruct (chain_hd S) as (e & c & C & ID & IN). rewrite Forall_forall in F.
    destruct (F e IN) as [(_ & E & _)|(p & bt & M1 & M2 & M3)]; [exfalso; apply (proj2 ND'); congruence|].
    rewrite ID, MB in M1. injection M1 as <- <-.
    assert (CC : ChainSpec.stored es (pb_parent b) /\ c = chain es (pb_parent b)).
    { clear - W C M2. revert C. induction W as [e0 ? P0|e0 older p x W IH ? NS P0 SP ? ? ?]; intros C; cbn [chain] in C.
      - destruct (id_eqb _ _); [rewrite P0 in C|discriminate]. injection C as <- _. congruence.
      - destruct (id_eqb (e_id e0) (pb_id b)) eqn:E.
        + rewrite P0 in C. injection C as <- <-. assert (p = pb_parent b) by congruence. subst p. split; [apply stored_cons; auto|].
          exact (eq_sym (@chain_fresh e0 older _ NS SP)).
        + destruct (IH C) as [S1 E1]. split; [apply stored_cons; auto|]. rewrite E1. exact (eq_sym (@chain_fresh e0 older _ NS S1)). }
    destruct CC as [SP ->]. replace (pb_parent b) with (tip g P) in * by (unfold tip; congruence).
    destruct (IH (conj L (conj (proj1 ND') A)) SP) as [SC AL]. split.
    + unfold score in *. rewrite C. cbn [sum_own fold_right]. fold (sum_own (chain es (tip g P))). rewrite SC, weight_snoc, M3. lia.
    + unfold cids in *. rewrite map_app, app_comm_cons. apply Forall_app. split; [exact AL|]. constructor; [exact S|constructor].
Qed.
End Meaning.

(** * The calls of the loader in a fair world *)
Section World.
Variable cfg : config.
Variable g : pblock.
Variable ord : list group -> list group.
Variable cord : list (addr * conn) -> list (addr * conn).
Variable srt : list Peer -> list Peer.
Variable m : meaning.
Variable a : addr.
Variable sc : Z.
Hypothesis IP : ip4 a.
Notation rw := (real_world cfg g ord cord srt).
Notation iw := (inner rw).
Let WA : wf_addr a := wf_ip4 IP.

Definition good (x : real) : Prop := calm cfg g a x /\ fair m a sc x.
(** From [x] to [y]; the messages [ms] were sent. *)
Definition goes (ms : list (addr * message)) (x y : real) : Prop :=
  good y /\ later x y /\ re_sent y = re_sent x ++ ms.
Definition idles (ms : list (addr * message)) (x y : real) : Prop := goes ms x y /\ (short y -> leash (re_lk y) a = leash (re_lk x) a).
Lemma goes_trans : forall m1 m2 x y z, goes m1 x y -> goes m2 y z -> goes (m1 ++ m2) x z.
Proof. intros m1 m2 x y z (A & B & C) (D & E & F). split; [exact D|]. split; [eapply later_trans; eauto|]. now rewrite F, C, app_assoc. Qed.
Lemma goes_refl : forall x, good x -> goes [] x x.
Proof. intros x G. split; [exact G|]. split; [apply later_refl|now rewrite app_nil_r]. Qed.
Lemma idles_trans : forall m1 m2 x y z, idles m1 x y -> idles m2 y z -> idles (m1 ++ m2) x z.
Proof.
  intros m1 m2 x y z (A & B) (C & D). split; [eapply goes_trans; eauto|]. intros SH. rewrite D by exact SH. apply B. eapply later_short; [|exact SH]. apply C.
Qed.
Lemma idles_refl : forall x, good x -> idles [] x x.
Proof. intros x G. split; [now apply goes_refl|reflexivity]. Qed.

Lemma happens_good : forall x e, good x -> wf_happening e -> true_happening m a e -> good (happens cfg g x e).
Proof.
  intros x e [C (NF & OPS & EV & p & RP & PS)] W T.
  assert (SP : spares a e) by (destruct e; cbn in *; tauto). split; [apply (happens_stays WA C W SP)|].
  assert (RI := real_reg (proj1 C)).
  split; [exact NF|]. split; [|split; [exact EV|]].
  - cbn [happens re_ops]. apply Forall_app. split; [exact OPS|]. destruct e; constructor; [apply T|constructor].
  - exists p. split; [|exact PS]. destruct e as [o f|o|t]; cbn [happens re_reg]; auto. rewrite <- RP. apply step_other; auto. eexists; exact RP.
Qed.
Lemma happens_sent : forall hs x, re_sent (fold_left (happens cfg g) hs x) = re_sent x.
Proof. induction hs as [|h hs IH]; intros x; cbn [fold_left]; [reflexivity|]. now rewrite IH. Qed.
Lemma meanwhile_good : forall x, good x -> idles [] x (meanwhile cfg g x).
Proof.
  intros x G. assert (ST := meanwhile_stays WA (proj1 G)). split; [split; [split|split]|].
  - apply ST.
  - destruct G as [C (NF & OPS & EV & RP)]. assert (EW : Forall (Forall wf_happening) (re_env x)) by apply C.
    assert (K : forall hs y, good y -> Forall wf_happening hs -> Forall (true_happening m a) hs -> good (fold_left (happens cfg g) hs y)).
    { induction hs as [|h hs IH]; intros y Gy W T; cbn [fold_left]; [exact Gy|]. apply IH; [|now apply Forall_inv_tail in W|now apply Forall_inv_tail in T].
      apply happens_good; [exact Gy|now apply Forall_inv in W|now apply Forall_inv in T]. }
    assert (X : good (fold_left (happens cfg g) (hd [] (re_env x)) x)).
    { apply K; [split; [exact C|]; repeat split; auto|destruct EW; cbn; auto|destruct EV; cbn; auto]. }
    destruct X as [_ (X1 & X2 & X3 & X4)]. unfold meanwhile, fair, no_faults. cbn [re_faults re_ops re_env re_reg]. repeat split; auto. destruct EV; cbn; auto.
  - apply ST.
  - unfold meanwhile. cbn [re_sent]. rewrite happens_sent. now rewrite app_nil_r.
  - apply ST.
Qed.
Lemma c_has : forall i x, good x -> exists y, rw (CHas i) x = (y, lk_has_block (re_lk y) i) /\ idles [] x y.
Proof. intros i x G. eexists. split; [reflexivity|]. now apply meanwhile_good. Qed.
Lemma c_leash : forall x, good x -> exists y, rw (CLeash a) x = (y, leash (re_lk y) a) /\ idles [] x y.
Proof. intros x G. eexists. split; [reflexivity|]. now apply meanwhile_good. Qed.
Lemma c_last : forall i n x, good x -> exists y, rw (CLast i n) x = (y, last_ids (re_lk y) i n) /\ idles [] x y.
Proof. intros i n x G. eexists. split; [reflexivity|]. now apply meanwhile_good. Qed.
Lemma c_score : forall x, good x -> exists y, rw (CScore a) x = (y, leash_score (re_lk y) a) /\ idles [] x y.
Proof. intros x G. eexists. split; [reflexivity|]. now apply meanwhile_good. Qed.
Lemma c_now : forall x, good x -> exists y, rw CNow x = (y, re_now (meanwhile cfg g x)) /\ idles [] x y.
Proof. intros x G. eexists. split; [reflexivity|]. now apply meanwhile_good. Qed.
Lemma c_peer : forall x, good x -> exists y, rw (CPeer a) x = (y, Ok (Some sc)) /\ idles [] x y.
Proof.
  intros x G. exists (meanwhile cfg g x). assert (Q := meanwhile_good G). split; [|exact Q]. cbn [real_world].
  destruct Q as [[[_ (_ & _ & _ & p & RP & PS)] _] _]. rewrite RP. cbn [bind]. now rewrite PS.
Qed.
Lemma same_good : forall x y, good x -> re_lk y = re_lk x -> re_ops y = re_ops x -> re_reg y = re_reg x -> re_rops y = re_rops x ->
  re_env y = re_env x -> re_faults y = re_faults x -> good y.
Proof.
  intros x y [C F] LK OPS RG RO EN FA. split.
  - apply (@same_stays cfg g a x y C); auto; [rewrite EN; apply C|unfold undisturbed; rewrite EN; apply C].
  - unfold fair, no_faults in *. rewrite FA, OPS, EN, RG. exact F.
Qed.
Lemma says_good : forall x z, good x -> good (says x z).
Proof. intros x z G. eapply same_good; [exact G|..]; reflexivity. Qed.
Lemma sends_good : forall x z, good x -> good (sends x a z).
Proof. intros x z G. eapply same_good; [exact G|..]; reflexivity. Qed.
Lemma c_log : forall z x, good x -> exists y, rw (CLog z) x = (y, tt) /\ idles [] x y.
Proof.
  intros z x G. eexists. split; [reflexivity|]. destruct (meanwhile_good G) as [(A & B & C) D]. cbn. split; [|exact D]. split; [now apply says_good|]. split; [exact B|exact C].
Qed.
Lemma c_askids : forall ids x, good x -> exists y, rw (CAskIDs a ids) x = (y, tt) /\ idles [(a, MsgIDs ids)] x y.
Proof.
  intros ids x G. eexists. split; [reflexivity|]. destruct (meanwhile_good G) as [(A & B & C) D]. cbn. split; [|exact D]. split; [now apply sends_good|]. split; [exact B|].
  cbn [sends re_sent]. rewrite C. now rewrite <- app_assoc.
Qed.
Lemma c_askblock : forall i x, good x -> exists y, rw (CAskBlock a i) x = (y, tt) /\ idles [(a, MsgBlock i)] x y.
Proof.
  intros i x G. eexists. split; [reflexivity|]. destruct (meanwhile_good G) as [(A & B & C) D]. cbn. split; [|exact D]. split; [now apply sends_good|]. split; [exact B|].
  cbn [sends re_sent]. rewrite C. now rewrite <- app_assoc.
Qed.
Lemma writes_good : forall x o i, good x -> wf_op o -> target o = Some (a, i) -> true_op m o -> goes [] x (fst (writes g x o)).
Proof.
  intros x o i G W T TO. destruct (write_keeps WA (proj1 G) W T) as [(C & L & NF) _]. destruct G as [CG (NG & OPS & EV & RP)].
  split; [split; [exact C|]|split; [exact L|]].
  - split; [apply NF, NG|]. unfold writes in *. destruct (exec g (re_lk x) o (hd None (re_faults x))) as [l r]. cbn [fst re_ops re_env re_reg].
    split; [apply Forall_app; split; [exact OPS|constructor; [exact TO|constructor]]|]. split; [exact EV|exact RP].
  - unfold writes. destruct (exec g (re_lk x) o (hd None (re_faults x))) as [l r]. cbn [fst re_sent]. now rewrite app_nil_r.
Qed.
Lemma c_put : forall b x, good x -> wf_pblock b -> m (pb_id b) = (pb_parent b, pb_bt b) ->
  exists y r, rw (CPut b a) x = (y, r) /\ goes [] x y /\
    (short y -> linkable x b -> r = Ok tt /\ leash (re_lk y) a = Ok (pb_id b) /\ lk_has_block (re_lk y) (pb_id b) = Ok true).
Proof.
  intros b x G W T. pose proof (put_step ord cord srt WA (proj1 G) W) as P. destruct (rw (CPut b a) x) as [y r] eqn:E. exists y, r. split; [reflexivity|]. split.
  - cbn [real_world] in E. replace y with (fst (writes g (meanwhile cfg g x) (Put b a))) by (now rewrite E).
    destruct (meanwhile_good G) as [M _]. change (@nil (addr * message)) with (@nil (addr * message) ++ []). eapply goes_trans; [exact M|].
    apply writes_good with (i := pb_id b); [apply M|split; auto|reflexivity|exact T].
  - intros SH L. destruct P as (_ & P1 & P2). assert (r = Ok tt) by (apply P2; auto; apply G). split; [assumption|]. now apply P1.
Qed.
Lemma c_move : forall i x, good x -> wf_id i -> exists y r, rw (CMove i a) x = (y, r) /\ goes [] x y /\ (short y -> r = Ok tt /\ leash (re_lk y) a = Ok i).
Proof.
  intros i x G W. destruct (meanwhile_good G) as [M _]. set (z := meanwhile cfg g x) in *. assert (WO : wf_op (Move i a)) by (split; auto).
  exists (fst (writes g z (Move i a))), (snd (writes g z (Move i a))). split; [cbn [real_world]; fold z; now destruct (writes g z (Move i a))|].
  split.
  - change (@nil (addr * message)) with (@nil (addr * message) ++ []). eapply goes_trans; [exact M|]. apply writes_good with (i := i); auto; [apply M|exact Logic.I].
  - intros SH. destruct (write_keeps WA (proj1 (proj1 M)) WO eq_refl) as [K L]. assert (R : snd (writes g z (Move i a)) = Ok tt); [|split; [exact R|apply L; auto]].
    assert (SZ : short z) by (eapply later_short; [|exact SH]; apply K).
    destruct (reach_view (real_reach (proj1 (proj1 (proj1 M))) SZ)) as (s & _ & RR & _ & BD & _).
    assert (NF : no_faults z) by apply M. unfold no_faults in NF.
    unfold writes. destruct (step_view g (hd None (re_faults z)) RR BD WO) as (_ & E & _). destruct (exec g (re_lk z) (Move i a) _) as [l r]. cbn [fst snd] in *.
    rewrite E. assert (HN : hd None (re_faults z) = None) by (destruct NF; cbn; auto). now rewrite HN.
Qed.

Notation has x i := (lk_has_block (re_lk x) i = Ok true).
Lemma has_later : forall x y i, good x -> good y -> later x y -> short y -> wf_id i -> has x i -> has y i.
Proof. intros x y i GX GY L SH W H. eapply has_kept; eauto; [apply GX|apply GY]. Qed.
Lemma has_bool : forall x i, good x -> short x -> wf_id i -> exists b, lk_has_block (re_lk x) i = Ok b.
Proof. intros x i G SH W. eapply has_returns; eauto. apply G. Qed.
Lemma goes_nil : forall x y z, goes [] x y -> goes [] y z -> goes [] x z.
Proof. intros x y z A B. change (@nil (addr * message)) with (@nil (addr * message) ++ []). eapply goes_trans; eauto. Qed.
Lemma idles_nil : forall x y z, idles [] x y -> idles [] y z -> idles [] x z.
Proof. intros x y z A B. change (@nil (addr * message)) with (@nil (addr * message) ++ []). eapply idles_trans; eauto. Qed.

Lemma skip_good : forall ids h x, good x -> Forall wf_id ids -> exists y r, skip_known iw a ids (h, x) = ((h, y), r) /\ goes [] x y /\
  (short y -> exists known rest, ids = known ++ rest /\ r = Ok rest /\ Forall (fun i => has y i) known /\
     match rev known with [] => leash (re_lk y) a = leash (re_lk x) a | i :: _ => leash (re_lk y) a = Ok i end /\
     match rest with [] => True | i :: _ => ~ has x i end).
Proof.
  induction ids as [|i ids IH]; intros h x G W; cbn [skip_known].
  - exists x, (Ok []). split; [reflexivity|]. split; [now apply goes_refl|]. intros _. exists [], []. cbn. auto.
  - assert (WI := Forall_inv W). assert (WT := Forall_inv_tail W). cbn [inner fst snd].
    destruct (@c_has i x G) as (x1 & -> & I1). assert (G1 : good x1) by apply I1.
    assert (BACK : forall y, later x1 y -> short y -> short x1) by (intros; eapply later_short; eauto).
    destruct (lk_has_block (re_lk x1) i) as [[|]|e| |] eqn:HB.
    2: { exists x1, (Ok (i :: ids)). split; [reflexivity|]. split; [apply I1|]. intros SH. exists [], (i :: ids). cbn [rev app]. split; [reflexivity|]. split; [reflexivity|].
         split; [constructor|]. split; [now apply I1|]. intros HX. apply (@has_later x x1 i G G1) in HX; auto; [|apply I1]. congruence. }
    2-4: (eexists x1, _; split; [reflexivity|]; split; [apply I1|]; intros SH; destruct (has_bool G1 SH WI); congruence).
    cbn [fst snd]. destruct (@c_leash x1 G1) as (x2 & -> & I2). assert (G2 : good x2) by apply I2. assert (I12 := idles_nil I1 I2).
    assert (HH : forall y, good y -> later x2 y -> short y -> has y i).
    { intros y GY L SH. eapply (@has_later x1); eauto. eapply later_trans; [apply I2|exact L]. }
    destruct (leash (re_lk x2) a) as [j|e| |] eqn:LE.
    2-4: (eexists x2, _; split; [reflexivity|]; split; [apply I12|]; intros SH; exfalso;
          destruct (reach_view (real_reach (proj1 (proj1 G2)) SH)) as (s & _ & RR & _ & _ & _); rewrite (v_leash RR WA) in LE; discriminate).
    cbn [fst snd]. destruct (id_eqb i j) eqn:EQ.
    + apply id_eqb_eq in EQ. subst j. destruct (IH h x2 G2 WT) as (y & r & -> & GO & SP). exists y, r. split; [reflexivity|]. split; [eapply goes_nil; [apply I12|exact GO]|].
      intros SH. destruct (SP SH) as (known & rest & -> & -> & HK & LK & NR). exists (i :: known), rest. split; [reflexivity|]. split; [reflexivity|].
      split; [constructor; [apply HH; auto; apply GO|exact HK]|]. split.
      * cbn [rev]. destruct (rev known); cbn [app]; [congruence|exact LK].
      * destruct rest; [exact Logic.I|]. intros HX. apply NR. assert (SH2 : short x2) by (eapply later_short; [|exact SH]; apply GO).
        eapply (@has_later x); eauto; [apply I12|]. apply Forall_app in WT as [_ WT]. now apply Forall_inv in WT.
    + destruct (@c_move i x2 G2 WI) as (x3 & r3 & -> & GO3 & M3). cbn beta iota. assert (G3 : good x3) by apply GO3. assert (GO13 := goes_nil (proj1 I12) GO3).
      destruct r3 as [[]|e| |]; [|eexists x3, _; split; [reflexivity|]; split; [exact GO13|]; intros SH; destruct (M3 SH); discriminate..].
      destruct (IH h x3 G3 WT) as (y & r & -> & GO & SP). exists y, r. split; [reflexivity|]. split; [eapply goes_nil; [apply GO13|exact GO]|].
      intros SH. destruct (SP SH) as (known & rest & -> & -> & HK & LK & NR). assert (SH3 : short x3) by (eapply later_short; [|exact SH]; apply GO).
      exists (i :: known), rest. split; [reflexivity|]. split; [reflexivity|].
      split; [constructor; [apply HH; auto; [apply GO|eapply later_trans; [apply GO3|apply GO]]|exact HK]|]. split.
      * cbn [rev]. destruct (rev known); cbn [app]; [|exact LK]. rewrite LK. now apply M3.
      * destruct rest; [exact Logic.I|]. intros HX. apply NR.
        eapply (@has_later x); eauto; [apply GO13|]. apply Forall_app in WT as [_ WT]. now apply Forall_inv in WT.
Qed.
Lemma ask_good : forall ids h x, good x -> exists y, ask_blocks iw a ids (h, x) = (h, y) /\ idles (map (fun i => (a, MsgBlock i)) ids) x y.
Proof.
  induction ids as [|i ids IH]; intros h x G; cbn [ask_blocks map].
  - exists x. split; [reflexivity|]. now apply idles_refl.
  - cbn [inner fst snd]. destruct (@c_askblock i x G) as (x1 & -> & I1). cbn [fst]. destruct (IH h x1) as (y & -> & I2); [apply I1|].
    exists y. split; [reflexivity|]. change ((a, MsgBlock i) :: ?l) with ([(a, MsgBlock i)] ++ l). eapply idles_trans; eauto.
Qed.
Definition real_block (b : pblock) : Prop := wf_pblock b /\ pb_gen b <> None /\ (0 < pb_bt b <= max_int64)%N /\ m (pb_id b) = (pb_parent b, pb_bt b).
Lemma puts_good : forall bs i h x, good x -> Forall real_block bs -> links i bs -> wf_id i -> (short x -> has x i) ->
  exists y r, put_all iw a bs (h, x) = ((h, y), r) /\ goes [] x y /\
    (short y -> r = Ok tt /\ has y (last (map pb_id bs) i) /\
       match bs with [] => leash (re_lk y) a = leash (re_lk x) a | _ :: _ => leash (re_lk y) a = Ok (last (map pb_id bs) i) end).
Proof.
  induction bs as [|b bs IH]; intros i h x G F L WI HX; cbn [put_all].
  - exists x, (Ok tt). split; [reflexivity|]. split; [now apply goes_refl|]. cbn. auto.
  - destruct (Forall_inv F) as (WB & GN & [_ BT] & MB). destruct L as [L1 L2]. cbn [inner fst snd].
    destruct (@c_put b x G WB MB) as (x1 & r1 & -> & GO1 & P). cbn beta iota.
    assert (LK : short x -> linkable x b).
    { intros SH. right. rewrite L1. auto. }
    assert (BK : short x1 -> short x) by (intros SH; eapply later_short; [|exact SH]; apply GO1).
    destruct r1 as [[]|e| |]; [|eexists x1, _; split; [reflexivity|]; split; [exact GO1|]; intros SH; destruct (P SH (LK (BK SH))); discriminate..].
    destruct (IH (pb_id b) h x1 (proj1 GO1) (Forall_inv_tail F) L2 (proj1 WB)) as (y & r & -> & GO2 & Q).
    { intros SH. now apply P; auto. }
    exists y, r. split; [reflexivity|]. split; [eapply goes_nil; eauto|]. intros SH. destruct (Q SH) as (-> & HY & LY). split; [reflexivity|].
    assert (E : last (map pb_id (b :: bs)) i = last (map pb_id bs) (pb_id b)).
    { cbn [map last]. destruct (map pb_id bs) as [|z l]; [reflexivity|]. clear. revert z. induction l as [|y l IHl]; intros z; [reflexivity|]. cbn [last] in *. apply IHl. }
    rewrite E. split; [exact HY|]. destruct bs as [|b' bs]; [|exact LY]. rewrite LY. cbn [map last]. apply P; auto.
    + eapply later_short; [|exact SH]. apply GO2.
    + apply LK, BK. eapply later_short; [|exact SH]. apply GO2.
Qed.
Lemma tip_facts : forall x P, good x -> short x -> proper_chain m g P -> has x (tip g P) ->
  score (hist g (re_ops x)) (tip g P) = weight g P /\ Forall (fun i => has x i) (cids g P).
Proof.
  intros x P G SH PC H. destruct (reach_view (real_reach (proj1 (proj1 G)) SH)) as (s & Es & RR & _ & _ & SM).
  assert (F : Forall (meant m g) (hist g (re_ops x))) by (apply hist_meant, G).
  assert (W : WF (hist g (re_ops x))) by (unfold hist; rewrite <- Es; apply (R_wf RR)).
  assert (WC : Forall wf_id (cids g P)).
  { constructor; [apply (proj1 (proj1 (proj1 G)))|]. apply Forall_map. eapply Forall_impl; [|apply PC]. cbn. intros b Hb. apply Hb. }
  assert (WT : wf_id (tip g P)).
  { destruct P as [|b P _] using rev_ind; [apply (proj1 (proj1 (proj1 G)))|]. rewrite tip_snoc. rewrite Forall_forall in WC. apply WC. right. rewrite map_app. apply in_or_app. right. now left. }
  apply (has_stored (proj1 (proj1 G)) SH WT) in H. destruct (stored_chain W F PC H) as [A B]. split; [exact A|].
  rewrite Forall_forall in *. intros i I. apply (has_stored (proj1 (proj1 G)) SH); auto.
Qed.
Lemma score_at : forall x i, good x -> short x -> leash (re_lk x) a = Ok i -> has x i -> leash_score (re_lk x) a = Ok (score (hist g (re_ops x)) i).
Proof.
  intros x i G SH L H. destruct (reach_view (real_reach (proj1 (proj1 G)) SH)) as (s & Es & RR & GE & BD & SM).
  rewrite (v_leash RR WA) in L. injection L as L.
  assert (WI : wf_id i).
  { destruct (st_leash s a) as [j|] eqn:E; [|rewrite <- L, GE; apply (proj1 (proj1 (proj1 G)))]. subst j. exact (R_leash_wf RR _ E). }
  apply (v_has_true RR SM WI) in H. destruct (chain_hd H) as (e & c & C & _).
  unfold leash_score. rewrite (rep_leash RR _ WA).
  replace (match match st_leash s a with Some i => Ok i | None => Err ENotFound end with
           | Ok i => i | Err ENotFound => lk_genesis (re_lk x) | _ => zero_id end) with i by (subst i; now destruct (st_leash s a)).
  rewrite (rep_block_by_id RR SM _ C). cbn [bind sblock_of sb_score]. unfold score, hist. now rewrite <- Es, C.
Qed.

Lemma ids_good : forall p h x, good x -> pl_peer p = a -> exists y p' r, request_ids iw p (h, x) = ((h, y), (p', r)) /\ good y /\ later x y /\
  pl_peer p' = a /\ pl_state p' = pl_state p /\ pl_triggers p' = pl_triggers p /\ (forall more, r = Ok more -> more = []) /\
  forall i, short y -> wf_id i -> leash (re_lk x) a = Ok i -> has x i ->
    r = Ok [] /\ leash (re_lk y) a = Ok i /\ exists js, re_sent y = re_sent x ++ [(a, MsgIDs (i :: js))].
Proof.
  intros p h x G PA. unfold request_ids. rewrite PA. cbn [inner fst snd]. destruct (@c_leash x G) as (x1 & -> & I1). cbn beta iota. assert (G1 : good x1) by apply I1.
  destruct (leash (re_lk x1) a) as [i0|e| |] eqn:LE.
  2-4: (eexists x1, p, _; split; [reflexivity|]; split; [exact G1|]; split; [apply I1|]; split; [exact PA|]; split; [reflexivity|]; split; [reflexivity|]; split; [discriminate|];
        intros i SH WI L H; exfalso; destruct I1 as [_ I1]; rewrite I1 in LE by exact SH; congruence).
  unfold ask_from. cbn [inner fst snd]. destruct (@c_last i0 idsBatchSize x1 G1) as (x2 & -> & I2). cbn beta iota. assert (G2 : good x2) by apply I2. assert (I12 := idles_nil I1 I2).
  assert (SAME : forall i, short x2 -> leash (re_lk x) a = Ok i -> i0 = i).
  { intros i SH L. assert (SH1 : short x1) by (eapply later_short; [|exact SH]; apply I2). destruct I1 as [_ I1]. rewrite I1 in LE by exact SH1. congruence. }
  assert (LST : forall i, short x2 -> wf_id i -> leash (re_lk x) a = Ok i -> has x i -> exists js, last_ids (re_lk x2) i0 idsBatchSize = Ok (i :: js)).
  { intros i SH WI L H. rewrite (SAME i SH L). assert (H2 : has x2 i) by (eapply (@has_later x); eauto; apply I12).
    assert (RX := real_reach (proj1 (proj1 G2)) SH). destruct (@last_ids_spec g (re_ops x2) (re_lk x2) i idsBatchSize RX WI ltac:(unfold idsBatchSize; lia)) as [A _].
    rewrite (A H2). destruct (chain_shape RX WI H2) as (c & E & _). rewrite E. unfold idsBatchSize. change (Z.to_nat 100) with (Datatypes.S 99). cbn [firstn]. eauto. }
  destruct (last_ids (re_lk x2) i0 idsBatchSize) as [[|j js]|e| |] eqn:LI.
  1,3,4,5: (eexists x2, p, _; split; [reflexivity|]; split; [exact G2|]; split; [apply I12|]; split; [exact PA|]; split; [reflexivity|]; split; [reflexivity|]; split; [discriminate|];
        intros i SH WI L H; exfalso; destruct (LST i SH WI L H) as [js E]; discriminate).
  rewrite PA. cbn [inner fst snd]. destruct (@c_askids (j :: js) x2 G2) as (x3 & -> & I3). cbn [fst snd]. assert (G3 : good x3) by apply I3. assert (I13 := idles_trans I12 I3).
  destruct (@c_now x3 G3) as (x4 & -> & I4). cbn [fst snd]. assert (I14 := idles_trans I13 I4). rewrite app_nil_r in I14. cbn [app] in I14.
  eexists x4, _, _. split; [reflexivity|]. split; [apply I14|]. split; [apply I14|]. cbn [set_ts pl_peer pl_state pl_triggers]. split; [exact PA|]. split; [reflexivity|]. split; [reflexivity|]. split; [intros more E; congruence|].
  intros i SH WI L H. assert (SH2 : short x2) by (eapply later_short; [|exact SH]; eapply later_trans; [apply I3|apply I4]).
  destruct (LST i SH2 WI L H) as [js' E]. injection E as -> ->. split; [reflexivity|]. split; [destruct I14 as [_ Q]; rewrite Q; auto|]. exists js'. apply I14.
Qed.
Lemma score_pos : forall bt, (0 < bt <= max_int64)%N -> (0 < block_score bt)%Z.
Proof.
  intros bt [B1 B2]. unfold block_score. destruct (N.eqb_spec bt 0) as [E|_]; [lia|]. unfold max_int64 in B2. apply Z.div_str_pos. lia.
Qed.
Lemma weight_grows : forall P R, Forall real_block R -> (weight g P <= weight g (P ++ R))%Z /\ (R <> [] -> (weight g P < weight g (P ++ R))%Z).
Proof.
  intros P R. revert P. induction R as [|b R IH]; intros P F; [rewrite app_nil_r; split; [lia|congruence]|].
  replace (P ++ b :: R) with ((P ++ [b]) ++ R) by now rewrite <- app_assoc. destruct (IH (P ++ [b]) (Forall_inv_tail F)) as [A _]. rewrite weight_snoc in A.
  assert (Q := @score_pos (pb_bt b) ltac:(apply (Forall_inv F))). split; intros; lia.
Qed.
Lemma proper_prefix : forall P R, proper_chain m g (P ++ R) -> proper_chain m g P.
Proof.
  intros P R (L & N & F). split; [now apply links_app in L|]. split; [|now apply Forall_app in F].
  unfold cids in *. rewrite map_app, app_comm_cons in N. revert N. generalize (pb_id g :: map pb_id P), (map pb_id R). clear. induction l as [|i l IH]; intros l0 N; [constructor|].
  inversion N; subst. constructor; [|eapply IH; eauto]. intros X. apply H1. apply in_or_app. now left.
Qed.
Lemma tip_wf : forall x P, good x -> Forall real_block P -> wf_id (tip g P).
Proof.
  intros x P G F. destruct P as [|b P _] using rev_ind; [apply (proj1 (proj1 (proj1 G)))|]. rewrite tip_snoc. apply Forall_app in F as [_ F]. apply (Forall_inv F).
Qed.
Lemma finish : forall P R h x p n, proper_chain m g (P ++ R) -> (weight g (P ++ R) <= sc)%Z -> good x -> h_pl h = true -> pl_peer p = a -> pl_state p = WaitBlocks ->
  pl_triggers p = [EQueueReady] -> (short x -> leash (re_lk x) a = Ok (tip g P) /\ has x (tip g P)) ->
  (R <> [] -> forall d, h_prev h = Some d -> (sc - weight g P < d)%Z) ->
  exists h' y p' r, fire_loop iw (S (S (S n))) p (h, x) = ((h', y), (p', r)) /\ good y /\ later x y /\
  (short y -> r = Ok tt /\ leash (re_lk y) a = Ok (tip g P) /\
    ((h_pl h' = false /\ R = []) \/
     (h_pl h' = true /\ h_prev h' = Some (sc - weight g P)%Z /\ h_prev h <> Some (sc - weight g P)%Z /\ waiting p' WaitIDs /\ pl_peer p' = a /\
      has y (tip g P) /\ exists js, re_sent y = re_sent x ++ [(a, MsgIDs (tip g P :: js))]))).
Proof.
  intros P R h x p n PC WS G HP PA ST TR LE PV. rewrite (@loop_one _ iw _ p (h, x) _ TR). rewrite fire_one_ready by exact ST. unfold report_ok.
  cbn [set_triggers set_state pl_peer pl_state pl_triggers]. rewrite PA. cbn [inner fst snd]. unfold loader_ok. rewrite HP. cbn [h_prev h_fc h_ticker].
  destruct (@c_peer x G) as (x1 & -> & I1). cbn beta iota. assert (G1 : good x1) by apply I1.
  destruct (@c_score x1 G1) as (x2 & -> & I2). cbn beta iota. assert (G2 : good x2) by apply I2. assert (I12 := idles_nil I1 I2).
  assert (FR : Forall real_block (P ++ R)) by apply PC. assert (PP := proper_prefix PC). assert (WT := @tip_wf x P G (proj2 (proj2 PP))).
  assert (SC : short x2 -> leash (re_lk x2) a = Ok (tip g P) /\ has x2 (tip g P) /\ leash_score (re_lk x2) a = Ok (weight g P)).
  { intros SH. assert (SX : short x) by (eapply later_short; [|exact SH]; apply I12). destruct (LE SX) as [L H].
    assert (L2 : leash (re_lk x2) a = Ok (tip g P)) by (destruct I12 as [_ Q]; now rewrite Q).
    assert (H2 : has x2 (tip g P)) by (eapply (@has_later x); eauto; apply I12). split; [exact L2|]. split; [exact H2|].
    rewrite (score_at G2 SH L2 H2). f_equal. apply (tip_facts G2 SH PP H2). }
  destruct (leash_score (re_lk x2) a) as [z|e| |] eqn:LS.
  2: { destruct (@c_log (LNoScore a) x2 G2) as (x3 & -> & I3). cbn [fst snd]. cbn [set_triggers pl_triggers app]. rewrite loop_rest by reflexivity.
       eexists _, x3, _, _. split; [reflexivity|]. split; [apply I3|]. split; [eapply later_trans; [apply I12|apply I3]|]. intros SH. exfalso.
       assert (SH2 : short x2) by (eapply later_short; [|exact SH]; apply I3). destruct (SC SH2) as (_ & _ & E). discriminate. }
  2,3: (eexists _, x2, _, _; split; [reflexivity|]; split; [exact G2|]; split; [apply I12|]; intros SH; exfalso; destruct (SC SH) as (_ & _ & E); discriminate).
  destruct (is_lagging (h_prev h) sc z) as [diff lag] eqn:IL. unfold is_lagging in IL. injection IL as <- IL.
  assert (ZE : short x2 -> z = weight g P) by (intros SH; destruct (SC SH) as (_ & _ & E); congruence).
  destruct lag.
  - destruct (@c_log (LStill a) x2 G2) as (x3 & -> & I3). cbn [fst snd]. assert (G3 : good x3) by apply I3. assert (I13 := idles_nil I12 I3).
    cbn [set_triggers pl_triggers app].
    match goal with |- context [fire_loop iw (S (S n)) ?q ?u] => rewrite (@loop_one _ iw (S n) q u EStart eq_refl) end.
    unfold fire_one at 1. cbn [set_triggers set_state pl_state behave on_entry].
    match goal with |- context [request_ids iw ?q (?h0, x3)] => set (q0 := q); set (h' := h0) end.
    destruct (@ids_good q0 h' x3 G3 PA) as (y & p' & r & -> & GY & LY & PA' & ST' & TR' & NM & F). cbn in ST', TR'.
    assert (FACTS : short y -> r = Ok [] /\ leash (re_lk y) a = Ok (tip g P) /\ has y (tip g P) /\ (exists js, re_sent y = re_sent x ++ [(a, MsgIDs (tip g P :: js))]) /\
       z = weight g P).
    { intros SH. assert (SH3 : short x3) by (eapply later_short; eauto). assert (SH2 : short x2) by (eapply later_short; [|exact SH3]; apply I3).
      destruct (SC SH2) as (L2 & H2 & _). assert (L3 : leash (re_lk x3) a = Ok (tip g P)) by (destruct I3 as [_ Q]; now rewrite Q).
      assert (H3 : has x3 (tip g P)) by (eapply (@has_later x2); eauto; apply I3). destruct (F _ SH WT L3 H3) as (R1 & R2 & js & R3). split; [exact R1|]. split; [exact R2|].
      split; [eapply (@has_later x3); eauto|]. split; [|now apply ZE]. exists js. rewrite R3. destruct I13 as [(_ & _ & Q) _]. rewrite Q. now rewrite app_nil_r. }
    assert (LXY : later x y) by (eapply later_trans; [apply I13|exact LY]).
    destruct r as [more|e| |].
    2-4: (eexists h', y, p', _; split; [reflexivity|]; split; [exact GY|]; split; [exact LXY|]; intros SH; destruct (FACTS SH) as (E & _); discriminate).
    rewrite (NM more eq_refl). rewrite TR'. cbn [app]. rewrite loop_rest by reflexivity. eexists h', y, _, _. split; [reflexivity|]. split; [exact GY|]. split; [exact LXY|]. intros SH.
      destruct (FACTS SH) as (_ & L & HY & SN & EZ). split; [reflexivity|]. split; [exact L|]. right. unfold h'. cbn [h_pl h_prev]. rewrite EZ. split; [reflexivity|]. split; [reflexivity|].
      split. { intros E. rewrite E in IL. rewrite EZ in IL. rewrite Z.eqb_refl, andb_false_r in IL. discriminate. }
      split; [split; [exact ST'|reflexivity]|]. split; [exact PA'|]. split; [exact HY|exact SN].
  - destruct (@c_log (LNoMore a) x2 G2) as (x3 & -> & I3). cbn [fst snd set_triggers pl_triggers app]. rewrite loop_rest by reflexivity. assert (I13 := idles_nil I12 I3).
    eexists _, x3, _, _. split; [reflexivity|]. split; [apply I3|]. split; [apply I13|]. intros SH. assert (SH2 : short x2) by (eapply later_short; [|exact SH]; apply I3).
    destruct (SC SH2) as (L2 & H2 & _). split; [reflexivity|]. split; [destruct I3 as [_ Q]; now rewrite Q|]. left. split; [reflexivity|].
    rewrite (ZE SH2) in IL. destruct R as [|b R]; [reflexivity|]. exfalso. destruct (@weight_grows P (b :: R)) as [_ WG]; [apply Forall_app in FR; apply FR|].
    specialize (WG ltac:(discriminate)). specialize (PV ltac:(discriminate)). destruct (h_prev h) as [d|]; [specialize (PV d eq_refl)|]; lia.
Qed.

(** * Inputs of others *)
Lemma by_step : forall l x p i l' x' r, busy l p -> pl_triggers p = [] -> pl_state p = WaitIDs \/ pl_state p = WaitBlocks -> pl_peer p = a -> good x ->
  bystander cfg g a l x i -> loader_step rw i l x = ((l', x'), r) -> busy l' p /\ l_prev l' = l_prev l /\ idles [] x x'.
Proof.
  intros l x p i l' x' r B T S PA G BY E. unfold busy in *.
  assert (SAME : ((l, x), Ok tt) = ((l', x'), r) -> l_pl l' = Some p /\ l_prev l' = l_prev l /\ idles [] x x').
  { intros Q. injection Q as <- <- _. split; [exact B|]. split; [reflexivity|]. now apply idles_refl. }
  destruct i as [b ids|b bl| |]; cbn [loader_step bystander] in *.
  - apply SAME. rewrite <- E. unfold handle_ids. rewrite B, PA. destruct ids; [reflexivity|]. destruct (addr_eqb b a) eqn:Q; [|reflexivity]. apply addr_eqb_eq in Q. contradiction.
  - apply SAME. rewrite <- E. unfold handle_block. rewrite B, PA. destruct (addr_eqb b a) eqn:Q; [|reflexivity]. apply addr_eqb_eq in Q. contradiction.
  - unfold loader_tick in E. cbn [stop_ticker l_pl] in E. rewrite B in E. destruct (@c_now x G) as (x1 & Q & I1). rewrite Q in E. specialize (BY p B).
    unfold drive in E. cbn [stop_ticker l_prev l_fc l_ticker l_timer] in E. rewrite fire_rest in E by exact T.
    assert (F : forall u, fire_one iw (ETick (re_now (meanwhile cfg g x))) p u = (u, (p, Ok []))).
    { intros u. unfold fire_one. assert (O : on_tick (re_now (meanwhile cfg g x)) p u = (u, (p, Ok []))).
      { unfold on_tick. destruct (Z.ltb_spec timeoutDuration (re_now (meanwhile cfg g x) - pl_ts p)) as [L|L]; [unfold timeoutDuration in L; lia|reflexivity]. }
      destruct S as [-> | ->]; exact O. }
    rewrite F in E. rewrite T in E. cbn [app] in E. rewrite loop_rest in E by reflexivity. injection E as <- <- _. cbn [reset_ticker l_pl l_prev h_prev].
    split; [f_equal; destruct p; cbn in *; now rewrite T|]. split; [reflexivity|exact I1].
  - unfold loader_sync in E. cbn [stop_timer l_pl] in E. rewrite B in E. injection E as <- <- _. cbn. split; [exact B|]. split; [reflexivity|]. now apply idles_refl.
Qed.
Lemma by_all : forall l x l' x' p, bystanders cfg g ord cord srt a l x l' x' -> busy l p -> pl_triggers p = [] -> pl_state p = WaitIDs \/ pl_state p = WaitBlocks ->
  pl_peer p = a -> good x -> busy l' p /\ l_prev l' = l_prev l /\ idles [] x x'.
Proof.
  intros l x l' x' p BY B T S PA G. induction BY as [|l1 x1 i l2 x2 r BY IH ST E RET].
  - split; [exact B|]. split; [reflexivity|]. now apply idles_refl.
  - destruct IH as (B1 & P1 & I1). destruct (@by_step l1 x1 p i l2 x2 r B1 T S PA) as (B2 & P2 & I2); auto; [apply I1|].
    split; [exact B2|]. split; [congruence|]. eapply idles_nil; eauto.
Qed.

(** * Positions *)
Lemma cids_split : forall H u v, cids g H = u ++ v -> u <> [] -> exists P R, H = P ++ R /\ u = cids g P /\ v = map pb_id R.
Proof.
  intros H [|i u] v E N; [congruence|]. unfold cids in *. cbn [app] in E. injection E as -> E. apply map_eq_app in E as (P & R & -> & <- & <-). exists P, R. auto.
Qed.
Lemma last_cids : forall P d, last (cids g P) d = tip g P.
Proof.
  intros P d. destruct P as [|b P _] using rev_ind; [reflexivity|]. rewrite tip_snoc. unfold cids. rewrite map_app, app_comm_cons. cbn [map]. apply last_last.
Qed.
Lemma tip_in : forall P, In (tip g P) (cids g P).
Proof.
  intros P. destruct P as [|b P _] using rev_ind; [left; reflexivity|]. rewrite tip_snoc. right. rewrite map_app. apply in_or_app. right. now left.
Qed.
Lemma prefix_of : forall P R P' R' : list pblock, P ++ R = P' ++ R' -> length P <= length P' -> exists D, P' = P ++ D /\ R = D ++ R'.
Proof.
  induction P as [|b P IH]; intros R P' R' E L; cbn [app length] in *; [exists P'; auto|]. destruct P' as [|b' P']; cbn [app length] in *; [lia|].
  injection E as -> E. destruct (IH R P' R' E) as (D & -> & ->); [lia|]. exists D. auto.
Qed.
Lemma common_unique : forall c ids k k', NoDup c -> common c ids k -> common c ids k' -> k = k'.
Proof.
  intros c ids k k' N (b1 & i & a1 & E1 & K1 & F1) (b2 & j & a2 & E2 & K2 & F2). rewrite E1 in E2. clear E1.
  assert (i = j).
  { revert b2 F2 E2. induction b1 as [|x b1 IH]; intros [|y b2] F2 E2; cbn [app] in E2; injection E2 as -> E2; auto.
    - exfalso. apply Forall_inv in F2. apply F2. now apply nth_error_In in K1.
    - exfalso. apply Forall_inv in F1. apply F1. now apply nth_error_In in K2.
    - apply (IH (Forall_inv_tail F1) b2 (Forall_inv_tail F2) E2). }
  subst j. eapply NoDup_nth_error; [exact N| |congruence]. apply nth_error_Some. congruence.
Qed.
Lemma nth_tip : forall P R, nth_error (cids g (P ++ R)) (length P) = Some (tip g P).
Proof.
  intros P R. destruct P as [|b P _] using rev_ind; [reflexivity|]. rewrite tip_snoc, app_length, Nat.add_1_r. unfold cids. cbn [nth_error].
  rewrite <- app_assoc. rewrite map_app. rewrite nth_error_app2 by (now rewrite map_length). rewrite map_length, Nat.sub_diag. reflexivity.
Qed.

(** * The rounds *)
Variable H : list pblock.
Hypothesis PC : proper_chain m g H.
Hypothesis WS : (weight g H <= sc)%Z.

Definition asks (P R : list pblock) (s : scene) : Prop :=
  H = P ++ R /\ good (sc_x s) /\ (forall d, l_prev (sc_l s) = Some d -> (sc - weight g P <= d)%Z) /\
  exists p ids, busy (sc_l s) p /\ waiting p WaitIDs /\ pl_peer p = a /\ sc_open s = [MsgIDs ids] /\ common (cids g H) ids (length P) /\
    (short (sc_x s) -> has (sc_x s) (tip g P)).
Definition fetches (P Q R : list pblock) (miss : list id) (s : scene) : Prop :=
  H = (P ++ Q) ++ R /\ good (sc_x s) /\ (R <> [] -> forall d, l_prev (sc_l s) = Some d -> (sc - weight g (P ++ Q) < d)%Z) /\ Q <> [] /\
  exists p rcv, busy (sc_l s) p /\ waiting p WaitBlocks /\ pl_peer p = a /\ pl_queue p = after (map pb_id Q) rcv /\ incl rcv Q /\
    sc_open s = map MsgBlock miss /\ NoDup miss /\ miss <> [] /\ (forall i, In i miss <-> In i (map pb_id Q) /\ ~ got rcv i) /\
    (short (sc_x s) -> has (sc_x s) (tip g P)).
Definition flag (l : loader) : nat := match l_prev l with Some d => if (d =? sc - weight g H)%Z then 0 else 1 | None => 1 end.
Definition room (M : nat) (R : list pblock) (l : loader) : Prop :=
  (R <> [] -> 2 * length R + 1 < M) /\ (R = [] -> l_prev l <> Some (sc - weight g H)%Z -> 0 < M).
Definition arrived_home (s : scene) : Prop := (l_pl (sc_l s) = None /\ leash (re_lk (sc_x s)) a = Ok (tip g H)) /\ good (sc_x s).

Lemma flag_le : forall l, flag l <= 1.
Proof. intros l. unfold flag. destruct (l_prev l); [destruct (_ =? _)%Z|]; lia. Qed.
(** The end of a batch: home, or another request with fewer blocks to go. *)
Lemma batch_end : forall P R M l h x h' y p' r (q : list message) l1,
  H = P ++ R -> h_prev h = l_prev l -> room M R l -> good y -> short y ->
  (r = Ok tt /\ leash (re_lk y) a = Ok (tip g P) /\
    ((h_pl h' = false /\ R = []) \/
     (h_pl h' = true /\ h_prev h' = Some (sc - weight g P)%Z /\ h_prev h <> Some (sc - weight g P)%Z /\ waiting p' WaitIDs /\ pl_peer p' = a /\
      has y (tip g P) /\ exists js, re_sent y = re_sent x ++ [(a, MsgIDs (tip g P :: js))]))) ->
  l_pl l1 = (if h_pl h' then Some p' else None) -> l_prev l1 = h_prev h' ->
  (forall new, re_sent y = re_sent x ++ new -> q = sent_to a new) ->
  arrived_home {| sc_l := l1; sc_x := y; sc_open := q |} \/
  (asks P R {| sc_l := l1; sc_x := y; sc_open := q |} /\ 2 * length R + flag l1 < M).
Proof.
  intros P R M l h x h' y p' r q l1 EH HV [RM1 RM2] GY SH (_ & LE & [(HF & ->)|(HT & HP & NE & WT & PA & HY & js & SN)]) L1 L2 Q.
  - left. split; [|exact GY]. split; cbn [sc_l sc_x]; [now rewrite L1, HF|]. rewrite EH, app_nil_r. exact LE.
  - right. split.
    + split; [exact EH|]. split; [exact GY|]. cbn [sc_l sc_x sc_open]. split.
      * intros d E. rewrite L2, HP in E. injection E as <-. lia.
      * exists p', (tip g P :: js). split; [unfold busy; now rewrite L1, HT|]. split; [exact WT|]. split; [exact PA|]. split.
        { rewrite (Q _ SN). unfold sent_to. cbn [filter fst]. rewrite addr_refl. reflexivity. }
        split; [|auto]. exists [], (tip g P), js. split; [reflexivity|]. split; [rewrite EH; apply nth_tip|constructor].
    + destruct R as [|b R].
      * rewrite app_nil_r in EH. assert (F : flag l1 = 0). { unfold flag. rewrite L2, HP, EH, Z.eqb_refl. reflexivity. }
        rewrite F. cbn [length]. specialize (RM2 eq_refl). rewrite EH in RM2. rewrite HV in NE. specialize (RM2 NE). lia.
      * assert (F := flag_le l1). specialize (RM1 ltac:(discriminate)). lia.
Qed.
Lemma sent_blocks : forall ids, sent_to a (map (fun i => (a, MsgBlock i)) ids) = map MsgBlock ids.
Proof. induction ids as [|i ids IH]; [reflexivity|]. unfold sent_to in *. cbn [map filter fst]. rewrite addr_refl. cbn [map snd]. now rewrite IH. Qed.
Lemma bound_prev : forall P R P' R' l, P ++ R = H -> P' ++ R' = H -> (forall d, l_prev l = Some d -> (sc - weight g P <= d)%Z) -> (length P < length P' \/ R' = []) ->
  R' <> [] -> forall d, l_prev l = Some d -> (sc - weight g P' < d)%Z.
Proof.
  intros P R P' R' l E E' PV [L|L] N d D; [|congruence]. destruct (@prefix_of P R P' R') as (X & EP & ER); [congruence|lia|]. specialize (PV d D).
  destruct (@weight_grows P X) as [_ W].
  { assert (F : Forall real_block H) by apply PC. rewrite <- E', EP in F. apply Forall_app in F as [F _]. now apply Forall_app in F. }
  assert (X <> []). { intros ->. rewrite EP, app_nil_r in L. lia. } rewrite <- EP in W. specialize (W H0). lia.
Qed.
Lemma bound_room : forall P R P' R' l, P ++ R = H -> P' ++ R' = H -> (length P < length P' \/ R' = []) -> room (2 * length R + flag l) R' l.
Proof.
  intros P R P' R' l E E' L. split.
  - intros N. destruct L as [L|L]; [|congruence]. apply (f_equal (@length _)) in E, E'. rewrite app_length in *. lia.
  - intros _ N. assert (flag l = 1); [|lia]. unfold flag. destruct (l_prev l) as [d|]; [|reflexivity]. destruct (Z.eqb_spec d (sc - weight g H)); [congruence|reflexivity].
Qed.

Definition grows (x y : real) : Prop := later x y /\ exists new, re_sent y = re_sent x ++ new.
Lemma grows_refl : forall x, grows x x.
Proof. intros x. split; [apply later_refl|]. exists []. now rewrite app_nil_r. Qed.
Lemma grows_trans : forall x y z, grows x y -> grows y z -> grows x z.
Proof. intros x y z [A (n1 & B)] [C (n2 & D)]. split; [eapply later_trans; eauto|]. exists (n1 ++ n2). now rewrite D, B, app_assoc. Qed.
Lemma grows_call : forall c x, grows x (fst (rw c x)).
Proof.
  intros c x. assert (M : grows x (meanwhile cfg g x)).
  { split; [|exists []; unfold meanwhile; cbn [re_sent]; rewrite happens_sent; now rewrite app_nil_r].
    unfold meanwhile, later. cbn [re_ops]. generalize (hd [] (re_env x)). intros hs. revert x. induction hs as [|e hs IH]; intros x; cbn [fold_left].
    - exists []. now rewrite app_nil_r.
    - destruct (IH (happens cfg g x e)) as [more E]. rewrite E. cbn [happens re_ops]. rewrite <- app_assoc. eauto. }
  assert (N : forall y z n, grows x y -> re_ops z = re_ops y -> re_sent z = re_sent y ++ n -> grows x z).
  { intros y z n K E1 E2. eapply grows_trans; [exact K|]. split; [exists []; now rewrite E1, app_nil_r|eauto]. }
  assert (W : forall o, grows x (fst (writes g (meanwhile cfg g x) o))).
  { intros o. eapply grows_trans; [exact M|]. unfold writes. destruct (exec g _ o _) as [l r]. cbn [fst]. split; [eexists; reflexivity|]. exists []. now rewrite app_nil_r. }
  destruct c; cbn [real_world fst]; try exact M; try apply W; try (eapply N; [exact M|reflexivity|reflexivity]).
Qed.
Lemma grows_step : forall i l x l' x' r, loader_step rw i l x = ((l', x'), r) -> grows x x'.
Proof. intros i l x l' x' r E. pose proof (@step_all _ rw grows grows_refl grows_trans grows_call i l x) as K. now rewrite E in K. Qed.
Lemma grows_loop : forall n p h x h' x' z, fire_loop iw n p (h, x) = ((h', x'), z) -> grows x x'.
Proof.
  intros n p h x h' x' z E. pose proof (@fire_loop_all _ iw (fun u v => grows (snd u) (snd v)) (fun u => grows_refl (snd u)) (fun u v t => @grows_trans _ _ _)
    (@inner_all _ rw grows grows_refl grows_trans grows_call) n p (h, x)) as K. now rewrite E in K.
Qed.

Lemma nodup_mid : forall A (u v w : list A), NoDup (u ++ v ++ w) -> NoDup v.
Proof.
  intros A u v w. induction u as [|x u IH]; intros N; [|apply IH; now inversion N]. cbn [app] in N. induction v as [|x v IH]; [constructor|].
  inversion N as [|? ? N1 N2]. constructor; [|auto]. intros X. apply N1. apply in_or_app. auto.
Qed.
Lemma ids_step : forall P R s reply l' x' r q', asks P R s -> answers (cids g H) (match sc_open s with [MsgIDs ids] => ids | _ => [] end) reply ->
  loader_step rw (InIDs a reply) (sc_l s) (sc_x s) = ((l', x'), r) -> short x' ->
  (forall new, re_sent x' = re_sent (sc_x s) ++ new -> q' = sent_to a new) ->
  let s' := {| sc_l := l'; sc_x := x'; sc_open := q' |} in r = Ok tt /\
   (arrived_home s' \/
    (exists P' R', asks P' R' s' /\ 2 * length R' + flag l' < 2 * length R + flag (sc_l s)) \/
    (exists P' Q' R' miss, fetches P' Q' R' miss s' /\ room (2 * length R + flag (sc_l s)) R' l')).
Proof.
  intros P R [l x q] reply l' x' r q' (EH & G & PV & p & ids & B & [ST TR] & PA & OP & CM & HT) AN E SH Q'. cbn [sc_l sc_x sc_open] in *. rewrite OP in AN.
  destruct AN as (k & low & high & CM' & EC & NE & LL & UP). assert (ND : NoDup (cids g H)) by apply PC.
  assert (k = length P) by (eapply common_unique; eauto). subst k.
  assert (WC : Forall wf_id (cids g H)).
  { constructor; [apply (proj1 (proj1 (proj1 G)))|]. apply Forall_map. eapply Forall_impl; [|apply PC]. cbn. intros b Hb. apply Hb. }
  assert (WR : Forall wf_id reply). { rewrite EC in WC. apply Forall_app in WC as [_ W]. now apply Forall_app in W. }
  assert (SX : short x) by (eapply later_short; [|exact SH]; apply (grows_step E)). specialize (HT SX).
  cbn [loader_step] in E. unfold handle_ids in E. unfold busy in B. rewrite B, PA, addr_refl in E.
  assert (E' : drive rw (EIDs reply) p l x = ((l', x'), r)) by (destruct reply; [congruence|exact E]). clear E. unfold drive in E'.
  set (h := {| h_pl := true; h_prev := l_prev l; h_fc := l_fc l; h_ticker := l_ticker l |}) in E'.
  rewrite (@fire_rest _ iw (EIDs reply) p (h, x) TR) in E'. unfold fire_one in E'. rewrite ST in E'. cbn [behave on_entry] in E'. unfold request_blocks in E'.
  cbn [set_state pl_peer] in E'. rewrite PA in E'.
  destruct (@skip_good reply h x G WR) as (y & r0 & SK & GO & FA). rewrite SK in E'. clear SK. assert (GY : good y) by apply GO.
  assert (SENT : re_sent y = re_sent x) by (destruct GO as (_ & _ & Q); now rewrite app_nil_r in Q).
  destruct r0 as [[|i0 rest0]|e| |].
  3-5: (cbn [fails] in E'; injection E' as _ <- _; destruct (FA SH) as (? & ? & _ & X & _); discriminate).
  - (* everything is known *)
    cbn [set_state pl_triggers] in E'. rewrite TR in E'. cbn [app] in E'.
    match type of E' with context [fire_loop iw 7 ?p0 (h, y)] => set (p1 := p0) in E' end.
    destruct (fire_loop iw 7 p1 (h, y)) as [[h' z] [p' r1]] eqn:FL. assert (GL := grows_loop FL).
    assert (EX : x' = z) by (injection E'; congruence). subst z. assert (SY : short y) by (eapply later_short; [|exact SH]; apply GL).
    destruct (FA SY) as (known & rest & ER & RE & HK & LK & _). injection RE as <-. rewrite app_nil_r in ER. subst known.
    rewrite app_assoc in EC. destruct (cids_split EC) as (P' & R' & EH' & EU & EV); [intros X; apply app_eq_nil in X; tauto|].
    assert (LEN : length P < length P' \/ R' = []).
    { destruct UP as [UP|UP]; [left|right; destruct R'; [reflexivity|]; subst high; discriminate].
      apply (f_equal (@length _)) in EU. unfold cids in EU. cbn [length] in EU. rewrite app_length, map_length in EU. lia. }
    assert (LH : leash (re_lk y) a = Ok (tip g P') /\ has y (tip g P')).
    { clear - EU HK LK NE. destruct reply as [|j reply _] using rev_ind; [congruence|]. assert (TJ : tip g P' = j) by (rewrite <- (last_cids P' j), <- EU, app_assoc; apply last_last). rewrite TJ.
      rewrite rev_app_distr in LK. cbn [rev app] in LK. split; [exact LK|]. apply Forall_app in HK as [_ HK]; now apply Forall_inv in HK. }
    assert (PC' := PC). rewrite EH' in PC'. assert (WS' := WS). rewrite EH' in WS'.
    destruct (@finish P' R' h y p1 4 PC' WS' GY eq_refl PA eq_refl eq_refl) as (h2 & z2 & p2 & r2 & FL2 & GZ & LZ & FZ); [auto| |].
    { intros N d D. eapply (@bound_prev P R P' R' l); eauto. }
    rewrite FL in FL2. injection FL2 as <- <- <- <-. injection E' as <- <-. split; [exact (proj1 (FZ SH))|].
    destruct (@batch_end P' R' (2 * length R + flag l) l h y h' x' p' r1 q'
        {| l_pl := if h_pl h' then Some p' else None; l_prev := h_prev h'; l_fc := h_fc h'; l_ticker := h_ticker h'; l_timer := l_timer l |}) as [D|[D1 D2]]; auto.
    + eapply bound_room; eauto.
    + intros new SN. apply Q'. now rewrite <- SENT.
    + right. left. exists P', R'. auto.
  - (* blocks are requested *)
    destruct (@ask_good (i0 :: rest0) h y GY) as (z & AS & IZ). rewrite AS in E'. cbn [inner fst snd] in E'. assert (GZ : good z) by apply IZ.
    destruct (@c_now z GZ) as (z2 & CN & IZ2). rewrite CN in E'. cbn [set_ts set_queue set_state pl_triggers] in E'. rewrite TR in E'. cbn [app] in E'.
    rewrite loop_rest in E' by reflexivity. injection E' as <- <- <-. split; [reflexivity|]. assert (I2 := idles_trans IZ IZ2). rewrite app_nil_r in I2.
    assert (SY : short y) by (eapply later_short; [|exact SH]; apply I2). destruct (FA SY) as (known & rest & ER & RE & HK & LK & NX). injection RE as <-. subst reply.
    assert (NU : low ++ known <> []).
    { intros X. apply app_eq_nil in X as [-> ->]. cbn [app] in EC. unfold cids in EC. injection EC as EI _. apply NX. rewrite <- EI.
      pose proof (@tip_facts x P G SX) as [_ TF]; auto; [|now apply Forall_inv in TF]. apply proper_prefix with (R := R). rewrite <- EH. exact PC. }
    rewrite app_assoc, app_assoc, <- (app_assoc (low ++ known)) in EC.
    destruct (cids_split EC NU) as (P0 & R0 & EH0 & EU & EV). symmetry in EV. apply map_eq_app in EV as (Q & R' & -> & EQ & EV).
    rewrite app_assoc in EH0.
    assert (LEN : length P < length (P0 ++ Q) \/ R' = []).
    { destruct UP as [UP|UP]; [left|right; destruct R'; [reflexivity|]; subst high; discriminate].
      apply (f_equal (@length _)) in EU, EQ. unfold cids in EU. cbn [length] in EU, EQ. rewrite app_length in EU, UP. rewrite app_length. rewrite map_length in EU, EQ. cbn [length] in UP. lia. }
    assert (HP0 : has y (tip g P0)).
    { destruct known as [|j known _] using rev_ind.
      - rewrite app_nil_r in EU. assert (L0 : length P0 <= length P).
        { apply (f_equal (@length _)) in EU. unfold cids in EU. cbn [length] in EU. rewrite map_length in EU. lia. }
        destruct (@prefix_of P0 (Q ++ R') P R) as (D & EP & _); [rewrite app_assoc; congruence|exact L0|].
        assert (HX : has x (tip g P0)).
        { pose proof (@tip_facts x P G SX) as [_ TF]; auto; [apply proper_prefix with (R := R); rewrite <- EH; exact PC|]. rewrite Forall_forall in TF. apply TF.
          rewrite EP. unfold cids. rewrite map_app, app_comm_cons. apply in_or_app. left. apply tip_in. }
        eapply (@has_later x); eauto; [apply GO|]. eapply (@tip_wf x); eauto. assert (F : Forall real_block H) by apply PC. rewrite EH0 in F. apply Forall_app in F as [F _]. now apply Forall_app in F.
      - rewrite <- (last_cids P0 j), <- EU, app_assoc, last_last. apply Forall_app in HK as [_ HK]. now apply Forall_inv in HK. }
    right. right. exists P0, Q, R', (i0 :: rest0). split.
    + split; [exact EH0|]. split; [apply I2|]. cbn [sc_l sc_x sc_open l_prev h_prev]. split; [intros N d D; eapply (@bound_prev P R (P0 ++ Q) R' l); eauto|].
      split; [intros ->; discriminate|]. eexists _, []. split; [reflexivity|]. split; [split; reflexivity|]. split; [exact PA|]. split; [cbn [set_triggers pl_queue]; now rewrite EQ|].
      split; [intros ? []|]. split; [rewrite (Q' (map (fun i => (a, MsgBlock i)) (i0 :: rest0))); [apply sent_blocks|rewrite <- SENT; apply I2]|].
      rewrite EQ. assert (NDQ : NoDup (i0 :: rest0)).
      { rewrite EC in ND. eapply nodup_mid; exact ND. }
      split; [exact NDQ|]. split; [discriminate|]. split; [intros i; split; [intros X; split; [exact X|intros (? & [] & _)]|tauto]|].
      intros S2. eapply (@has_later y); eauto; [apply I2|apply I2|]. eapply (@tip_wf x); eauto. assert (F : Forall real_block H) by apply PC. rewrite EH0 in F. apply Forall_app in F as [F _]. now apply Forall_app in F.
    + assert (BR := @bound_room P R (P0 ++ Q) R' l ltac:(congruence) ltac:(congruence) LEN). exact BR.
Qed.

Lemma same_block : forall b b', In b H -> In b' H -> pb_id b = pb_id b' -> b = b'.
Proof.
  assert (N : NoDup (map pb_id H)). { destruct PC as (_ & N & _). unfold cids in N. now inversion N. }
  revert N. generalize H as L. induction L as [|c L IH]; intros N b b' [] I2 E; cbn [map] in N; inversion N as [|? ? N1 N2]; subst.
  - destruct I2 as [|I2]; [assumption|]. exfalso. apply N1. rewrite E. now apply in_map.
  - destruct I2 as [<-|I2]; [|now apply IH]. exfalso. apply N1. rewrite <- E. now apply in_map.
Qed.
Lemma block_step : forall P Q R m1 b m2 M s l' x' r q', fetches P Q R (m1 ++ pb_id b :: m2) s -> room M R (sc_l s) -> In b H ->
  loader_step rw (InBlock a (Some b)) (sc_l s) (sc_x s) = ((l', x'), r) -> short x' ->
  (forall new, re_sent x' = re_sent (sc_x s) ++ new -> q' = map MsgBlock (m1 ++ m2) ++ sent_to a new) ->
  let s' := {| sc_l := l'; sc_x := x'; sc_open := q' |} in
    r = Ok tt /\ (arrived_home s' \/ (asks (P ++ Q) R s' /\ 2 * length R + flag l' < M) \/ (fetches P Q R (m1 ++ m2) s' /\ room M R l')).
Proof.
  intros P Q R m1 b m2 M [l x q] l' x' r q' (EH & G & PV & QN & p & rcv & B & [ST TR] & PA & PQ & IR & OP & NM & _ & MI & HT) RM IB E SH Q'.
  cbn [sc_l sc_x sc_open] in *. assert (INC : incl Q H) by (rewrite EH; intros y Y; apply in_or_app; left; apply in_or_app; now right).
  assert (BQ : In b Q).
  { destruct (proj1 (MI (pb_id b))) as [X _]; [apply in_or_app; right; now left|]. apply in_map_iff in X as (b' & X1 & X2).
    now rewrite <- (@same_block b' b (INC _ X2) IB X1). }
  assert (GT : forall i, got (rcv ++ [b]) i <-> got rcv i \/ i = pb_id b).
  { intros i. split.
    - intros (c & I1 & I2). apply in_app_or in I1 as [I1|[<-|[]]]; [left; exists c; auto|auto].
    - intros [(c & I1 & I2)| ->]; [exists c; split; [apply in_or_app; now left|auto]|exists b; split; [apply in_or_app; right; now left|reflexivity]]. }
  assert (MI' : forall i, In i (m1 ++ m2) <-> In i (map pb_id Q) /\ ~ got (rcv ++ [b]) i).
  { intros i. rewrite GT. split.
    - intros I1. assert (X : In i (m1 ++ pb_id b :: m2)) by (apply in_app_or in I1 as [I1|I1]; apply in_or_app; [now left|right; now right]).
      apply MI in X as [X1 X2]. split; [exact X1|]. intros [Y|Y]; [auto|]. subst i. apply NoDup_remove_2 in NM. auto.
    - intros [X1 X2]. assert (X : In i (m1 ++ pb_id b :: m2)) by (apply MI; tauto). apply in_app_or in X as [X|[X|X]]; [apply in_or_app; now left| |apply in_or_app; now right].
      exfalso. apply X2. now right. }
  assert (NM' : NoDup (m1 ++ m2)) by (now apply NoDup_remove_1 in NM).
  assert (ND : NoDup (map pb_id Q)).
  { destruct PC as (_ & N & _). rewrite EH in N. unfold cids in N. rewrite !map_app, <- app_assoc, app_comm_cons in N. eapply nodup_mid. exact N. }
  assert (IR' : incl (rcv ++ [b]) Q) by (intros c C; apply in_app_or in C as [C|[<-|[]]]; auto).
  assert (SX : short x) by (eapply later_short; [|exact SH]; apply (grows_step E)). specialize (HT SX).
  cbn [loader_step] in E. unfold handle_block in E. unfold busy in B. rewrite B, PA, addr_refl in E. unfold drive in E.
  set (h := {| h_pl := true; h_prev := l_prev l; h_fc := l_fc l; h_ticker := l_ticker l |}) in E.
  rewrite (@fire_rest _ iw (EBlock (Some b)) p (h, x) TR) in E. unfold fire_one in E. rewrite ST in E. cbn [behave] in E. unfold append_block in E.
  cbn [set_queue pl_queue queue_put_ptr] in E. rewrite PQ, <- after_app in E. set (q1 := after (map pb_id Q) (rcv ++ [b])) in *.
  destruct (queue_ready q1) eqn:RD.
  - (* the last block of the batch *)
    assert (GA := proj1 (@q_ready (map pb_id Q) (rcv ++ [b]) ND) RD).
    assert (MN : m1 ++ m2 = []).
    { destruct (m1 ++ m2) as [|i mm]; [reflexivity|]. destruct (proj1 (MI' i) (or_introl eq_refl)) as [X Y]. rewrite Forall_forall in GA. exfalso. auto. }
    rewrite MN in Q'. cbn [map app] in Q'.
    assert (RB := q_received ND GA). fold q1 in RB.
    assert (RE : received q1 = Q).
    { revert RB. generalize (received q1) as bl. assert (IQ : incl Q Q) by (intros ? ?; assumption). revert IQ. generalize Q at 1 3 4 as L.
      induction L as [|c L IH]; intros IQ bl F; inversion F as [|? ? ? ? N F']; subst; [reflexivity|]. f_equal; [|apply IH; [intros ? ?; apply IQ; now right|assumption]].
      destruct N as (NI & pre & post & NE & _). apply same_block; [| |congruence]; apply INC; [apply IR'; rewrite NE; apply in_or_app; right; now left|apply IQ; now left]. }
    rewrite RE, PA in E. clear RE RB.
    assert (PCx := PC). rewrite EH in PCx. assert (PC1 := proper_prefix PCx). assert (PC2 := proper_prefix PC1).
    assert (FR : Forall real_block (P ++ Q)) by apply PC1. apply Forall_app in FR as [FP FQ].
    assert (LQ : links (tip g P) Q) by (destruct PC1 as [L _]; apply links_app in L as [_ L]; exact L).
    destruct (@puts_good Q (tip g P) h x G FQ LQ) as (y & r0 & PU & GO & PG); [eapply (@tip_wf x); eauto|auto|]. rewrite PU in E. assert (GY : good y) by apply GO.
    assert (SENT : re_sent y = re_sent x) by (destruct GO as (_ & _ & X); now rewrite app_nil_r in X).
    assert (TP : last (map pb_id Q) (tip g P) = tip g (P ++ Q)).
    { destruct Q as [|c Q0 _] using rev_ind; [congruence|]. rewrite app_assoc, tip_snoc, map_app. apply last_last. }
    rewrite TP in PG.
    destruct r0 as [[]|e| |].
    2-4: (cbn [fails] in E; injection E as _ <- _; destruct (PG SH) as (X & _); discriminate).
    cbn [set_queue set_triggers pl_triggers] in E. rewrite TR in E. cbn [app] in E.
    match type of E with context [fire_loop iw 7 ?p0 (h, y)] => set (p1 := p0) in E end.
    destruct (fire_loop iw 7 p1 (h, y)) as [[h' z] [p' r1]] eqn:FL. assert (GL := grows_loop FL).
    assert (EX : x' = z) by (injection E; congruence). subst z. assert (SY : short y) by (eapply later_short; [|exact SH]; apply GL).
    destruct (PG SY) as (_ & HY & LY). assert (LY' : leash (re_lk y) a = Ok (tip g (P ++ Q))) by (destruct Q; [congruence|exact LY]).
    assert (WSx := WS). rewrite EH in WSx.
    destruct (@finish (P ++ Q) R h y p1 4 PCx WSx GY eq_refl PA ST eq_refl) as (h2 & z2 & p2 & r2 & FL2 & GZ & LZ & FZ); [auto|exact PV|].
    rewrite FL in FL2. injection FL2 as <- <- <- <-. injection E as <- <-. split; [exact (proj1 (FZ SH))|].
    destruct (@batch_end (P ++ Q) R M l h y h' x' p' r1 q'
        {| l_pl := if h_pl h' then Some p' else None; l_prev := h_prev h'; l_fc := h_fc h'; l_ticker := h_ticker h'; l_timer := l_timer l |}) as [D|[D1 D2]]; auto.
    intros new SN. apply Q'. now rewrite <- SENT.
  - (* more blocks are to come *)
    cbn [set_queue set_triggers pl_triggers] in E. rewrite TR in E. cbn [app] in E. rewrite loop_rest in E by reflexivity. injection E as <- <- <-. split; [reflexivity|].
    right. right. split; [|exact RM]. split; [exact EH|]. split; [exact G|]. cbn [sc_l sc_x sc_open l_prev h_prev h]. split; [exact PV|]. split; [exact QN|].
    eexists _, (rcv ++ [b]). split; [reflexivity|]. split; [split; [exact ST|reflexivity]|]. split; [exact PA|]. split; [reflexivity|]. split; [exact IR'|].
    split; [rewrite (Q' []); [unfold sent_to; cbn [filter map]; apply app_nil_r|now rewrite app_nil_r]|]. split; [exact NM'|]. split; [|split; [exact MI'|auto]].
    intros MN. rewrite MN in MI'. assert (GA : Forall (got (rcv ++ [b])) (map pb_id Q)).
    { rewrite Forall_forall. intros i X. destruct (arrived (holds (rcv ++ [b]) i)) eqn:A; [now apply arrived_holds|]. apply arrived_holds_false in A. exfalso. now apply (MI' i). }
    apply (@q_ready (map pb_id Q) (rcv ++ [b]) ND) in GA. fold q1 in GA. congruence.
Qed.

(** * The whole session *)
Notation nxt := (honest_step cfg g ord cord srt a H).
Definition over (s : scene) : Prop := arrived_home s \/ ~ short (sc_x s).
Lemma short_dec : forall x, short x \/ ~ short x.
Proof. intros x. unfold short. destruct (N.ltb_spec (N.of_nat (length (re_ops x))) (2 ^ 32 - 10)); [now left|right; lia]. Qed.
Lemma asks_by : forall P R s l1 x1, asks P R s -> bystanders cfg g ord cord srt a (sc_l s) (sc_x s) l1 x1 ->
  asks P R {| sc_l := l1; sc_x := x1; sc_open := sc_open s |} /\ l_prev l1 = l_prev (sc_l s) /\ re_sent x1 = re_sent (sc_x s).
Proof.
  intros P R [l x q] l1 x1 (EH & G & PV & p & ids & B & [ST TR] & PA & OP & CM & HT) BY. cbn [sc_l sc_x sc_open] in *.
  destruct (@by_all l x l1 x1 p BY B TR (or_introl ST) PA G) as (B1 & P1 & I1). split.
  - split; [exact EH|]. split; [apply I1|]. cbn [sc_l sc_x sc_open]. split; [now rewrite P1|]. exists p, ids. split; [exact B1|]. split; [split; assumption|]. split; [exact PA|].
    split; [exact OP|]. split; [exact CM|]. intros SH. apply (@has_later x); auto; [apply I1|apply I1| |apply HT; eapply later_short; [|exact SH]; apply I1].
    eapply (@tip_wf x); eauto. assert (F : Forall real_block H) by apply PC. rewrite EH in F. now apply Forall_app in F.
  - split; [exact P1|]. destruct I1 as [(_ & _ & E) _]. now rewrite app_nil_r in E.
Qed.
Lemma fetches_by : forall P Q R miss s l1 x1, fetches P Q R miss s -> bystanders cfg g ord cord srt a (sc_l s) (sc_x s) l1 x1 ->
  fetches P Q R miss {| sc_l := l1; sc_x := x1; sc_open := sc_open s |} /\ l_prev l1 = l_prev (sc_l s) /\ re_sent x1 = re_sent (sc_x s).
Proof.
  intros P Q R miss [l x q] l1 x1 (EH & G & PV & QN & p & rcv & B & [ST TR] & PA & PQ & IR & OP & NM & MN & MI & HT) BY. cbn [sc_l sc_x sc_open] in *.
  destruct (@by_all l x l1 x1 p BY B TR (or_intror ST) PA G) as (B1 & P1 & I1). split.
  - split; [exact EH|]. split; [apply I1|]. cbn [sc_l sc_x sc_open]. split; [now rewrite P1|]. split; [exact QN|]. exists p, rcv. split; [exact B1|]. split; [split; assumption|]. split; [exact PA|].
    split; [exact PQ|]. split; [exact IR|]. split; [exact OP|]. split; [exact NM|]. split; [exact MN|]. split; [exact MI|].
    intros SH. apply (@has_later x); auto; [apply I1|apply I1| |apply HT; eapply later_short; [|exact SH]; apply I1].
    eapply (@tip_wf x); eauto. assert (F : Forall real_block H) by apply PC. rewrite EH in F. apply Forall_app in F as [F _]. now apply Forall_app in F.
  - split; [exact P1|]. destruct I1 as [(_ & _ & E) _]. now rewrite app_nil_r in E.
Qed.
Lemma can_answer : forall s q1 mm q2 i, sc_open s = q1 ++ mm :: q2 -> answer g H a mm i -> exists s', nxt s s'.
Proof.
  intros [l x q] q1 mm q2 i OP AN. cbn [sc_open] in OP. destruct (loader_step rw i l x) as [[l' x'] r] eqn:E. destruct (grows_step E) as [_ (new & SN)].
  exists {| sc_l := l'; sc_x := x'; sc_open := q1 ++ q2 ++ sent_to a new |}. exists l, x, q1, mm, q2, i, r, new. cbn [sc_l sc_x sc_open].
  split; [constructor|]. auto.
Qed.
Lemma fetch_all : forall M, (forall P R s, asks P R s -> 2 * length R + flag (sc_l s) < M -> inevitably nxt over s) ->
  forall n P Q R miss s, length miss = n -> fetches P Q R miss s -> room M R (sc_l s) -> inevitably nxt over s.
Proof.
  intros M ASK. induction n as [|n IH]; intros P Q R miss s LM F RM.
  - destruct F as (_ & _ & _ & _ & p & rcv & _ & _ & _ & _ & _ & _ & _ & NE & _). destruct miss; [congruence|discriminate].
  - apply iv_later.
    + destruct F as (EH & _ & _ & _ & p & rcv & _ & _ & _ & _ & _ & OP & _ & NE & MI & _). destruct miss as [|i miss]; [congruence|].
      destruct (proj1 (MI i) (or_introl eq_refl)) as [X _]. apply in_map_iff in X as (b & <- & IB).
      apply (@can_answer s [] (MsgBlock (pb_id b)) (map MsgBlock miss) (InBlock a (Some b)) OP). constructor. rewrite EH. apply in_or_app. left. apply in_or_app. now right.
    + intros [l' x' q'] (l1 & x1 & q1 & mm & q2 & i & r & new & BY & OP & AN & E & SN & OP'). cbn [sc_l sc_x sc_open] in *.
      destruct (short_dec x') as [SH|SH]; [|apply iv_now; right; exact SH].
      destruct (fetches_by F BY) as (F1 & P1 & S1). assert (OPM : sc_open s = map MsgBlock miss).
      { destruct F as (_ & _ & _ & _ & p & rcv & _ & _ & _ & _ & _ & X & _). exact X. }
      rewrite OPM in OP. apply map_eq_app in OP as (m1 & m2' & -> & <- & OP2). destruct m2' as [|j m2]; [discriminate|]. cbn [map] in OP2. injection OP2 as <- <-.
      inversion AN as [|b IB MB]. subst j i.
      destruct (@block_step P Q R m1 b m2 M {| sc_l := l1; sc_x := x1; sc_open := sc_open s |} l' x' r q' F1) as [_ [D|[[D1 D2]|[D1 D2]]]]; auto.
      * cbn [sc_l]. unfold room in *. rewrite P1. exact RM.
      * cbn [sc_x]. intros new' SN'. rewrite S1, SN in SN'. apply app_inv_head in SN'. subst new'. rewrite OP', map_app, app_assoc. reflexivity.
      * apply iv_now. left. exact D.
      * apply (ASK _ _ _ D1). exact D2.
      * apply (IH _ _ _ _ _) in D1; auto. rewrite app_length in *. cbn [length] in LM. lia.
Qed.
Lemma ask_all : forall M P R s, asks P R s -> 2 * length R + flag (sc_l s) < M -> inevitably nxt over s.
Proof.
  induction M as [|M IH]; intros P R s A LT; [lia|]. apply iv_later.
  - assert (A0 := A). destruct A0 as (EH & _ & _ & p & ids & _ & _ & _ & OP & CM & _).
    apply (@can_answer s [] (MsgIDs ids) [] (InIDs a (skipn (length P) (cids g H))) OP). constructor.
    exists (length P), (firstn (length P) (cids g H)), []. split; [exact CM|]. rewrite app_nil_r. split; [symmetry; apply firstn_skipn|].
    assert (LL : length P < length (cids g H)) by (rewrite EH; unfold cids; cbn [length]; rewrite map_length, app_length; lia).
    split; [|split; [rewrite firstn_length; lia|now right]]. intros X. apply (f_equal (@length _)) in X. rewrite skipn_length in X. cbn [length] in X. lia.
  - intros [l' x' q'] (l1 & x1 & q1 & mm & q2 & i & r & new & BY & OP & AN & E & SN & OP'). cbn [sc_l sc_x sc_open] in *.
    destruct (short_dec x') as [SH|SH]; [|apply iv_now; right; exact SH].
    destruct (asks_by A BY) as (A1 & P1 & S1). assert (A0 := A). destruct A0 as (_ & _ & _ & p & ids & _ & _ & _ & OPM & _). rewrite OPM in OP.
    destruct q1 as [|? q1]; [|destruct q1; discriminate]. cbn [app] in OP. injection OP as <- <-. cbn [app] in OP'.
    inversion AN as [ids' reply AR|]. subst ids' i.
    assert (FL : flag l1 = flag (sc_l s)) by (unfold flag; now rewrite P1).
    destruct (@ids_step P R {| sc_l := l1; sc_x := x1; sc_open := sc_open s |} reply l' x' r q' A1) as [_ [D|[(P' & R' & D1 & D2)|(P' & Q' & R' & miss & D1 & D2)]]]; auto.
    + cbn [sc_open]. rewrite OPM. exact AR.
    + cbn [sc_x]. intros new' SN'. rewrite S1, SN in SN'. apply app_inv_head in SN'. now subst new'.
    + apply iv_now. left. exact D.
    + apply (IH _ _ _ D1). cbn [sc_l] in *. lia.
    + apply (@fetch_all (2 * length R + flag (sc_l s))) with (n := length miss) in D1; auto.
      * intros P2 R2 s2 A2 L2. apply (IH _ _ _ A2). lia.
      * cbn [sc_l] in *. rewrite <- FL. exact D2.
Qed.
Theorem sync : forall k s, good (sc_x s) -> asking g a H k s ->
  (forall d, l_prev (sc_l s) = Some d -> (sc - weight g (firstn k H) <= d)%Z) -> inevitably nxt over s.
Proof.
  intros k s G (p & ids & i & B & WT & PA & OP & CM & NT & HI) PV.
  assert (KL : k <= length H). { assert (X : k < length (cids g H)) by (apply nth_error_Some; congruence). unfold cids in X. cbn [length] in X. rewrite map_length in X. lia. }
  assert (LF : length (firstn k H) = k) by (rewrite firstn_length; lia).
  assert (TI : tip g (firstn k H) = i). { pose proof (nth_tip (firstn k H) (skipn k H)) as X. rewrite firstn_skipn, LF in X. congruence. }
  apply (@ask_all (S (2 * length (skipn k H) + flag (sc_l s))) (firstn k H) (skipn k H)); [|lia].
  split; [symmetry; apply firstn_skipn|]. split; [exact G|]. split; [exact PV|]. exists p, ids. split; [exact B|]. split; [exact WT|]. split; [exact PA|]. split; [exact OP|].
  rewrite LF, TI. auto.
Qed.
End World.
