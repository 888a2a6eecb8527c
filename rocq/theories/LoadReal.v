(** The loader in the real world: its calls keep the linkage and the registry sound, and it only fails to return when LCB does. *)
From Verif Require Import Base Kv BytesFacts KvFacts ChainModel ChainSpec ChainTree ChainRep ChainStep ChainLca ChainProofs ForkProofs
  PeersModel PeersSpec PeersProofs PeersCalls LoadModel LoadSpec LoadProofs LoadFire LoadSim LoadCalm LoadLoop LoadRule LoadBatch.
Set Implicit Arguments.
Unset Strict Implicit.

(** * A peer with a score keeps having one *)
Definition has_score (r : registry) (a : addr) : Prop := exists p s, reg_peer r a = Ok p /\ p_score p = Some s.
Lemma score_step : forall cfg r o a, RInv r -> wf_rop o -> ip4 a -> has_score r a -> has_score (rstep cfg r o) a.
Proof.
  intros cfg r o a I W A K. assert (KK := K). destruct KK as (p & s & G & S). assert (KN : known r a) by (exists p; exact G).
  assert (DEC : about a o \/ ~ about a o).
  { destruct o as [b np h nw w|b z w|b nw w|[b|] w|l f|clock|b nw w|]; cbn; try tauto;
      try (destruct (addr_eqb_spec b a); tauto). destruct (addr_eqb_spec b a); [left; congruence|right; congruence]. right; discriminate. }
  destruct DEC as [AB|NA].
  2: { exists p, s. rewrite step_other; auto. }
  assert (G' := G). unfold reg_peer in G'. assert (PA := proj1 (get_peer_fields G')).
  assert (FIN : forall r1 q w, RInv r1 -> r_db r1 = r_db r -> p_addr q = a -> p_score q <> None -> has_score (fst (finish r1 q w)) a).
  { intros r1 q w I1 E QA QS. destruct (finish_own w I1 QA A) as [(_ & _ & _ & F)|(_ & F & _)].
    - destruct (p_score q) as [z|] eqn:QZ; [|congruence]. exists (PeersCalls.stored q), z. split; [exact F|]. exact QZ.
    - rewrite F. exists p, s. unfold reg_peer. rewrite E. auto. }
  destruct o as [b np h nw w|b z w|b nw w|[b|] w|l f|clock|b nw w|]; cbn [about] in AB; try contradiction; try discriminate;
    try (injection AB as ->); try subst b; cbn [rstep].
  - destruct (register_cases cfg r nw w a np h) as [(o & c & E & _)|(IP & ND & [(IC & E)|(_ & _ & _ & _ & E)])]; rewrite E; cbn [fst].
    + exists p, s. auto.
    + apply FIN; auto; [now apply inv_del_pending|cbn [hostile_peer p_addr]; now rewrite G'|cbn [hostile_peer p_score]; rewrite G'; congruence].
    + cbn [r_db r_conns r_pending]. rewrite G'. apply FIN; auto; [|cbn [connected_peer p_score]; congruence].
      apply (inv_maps (r := r)); auto; [apply set_conn_NoDup, I| |apply del_addr_NoDup, I].
      intros x X. apply set_conn_keys in X as [X|X]; [now apply (I_conns4 I)|now subst].
  - unfold update_peer_score. rewrite G'. apply FIN; auto. cbn [set_score p_score]. discriminate.
  - unfold unregister_peer. rewrite G'. apply FIN; auto; [|cbn [set_next p_score]; congruence].
    apply inv_maps; auto; [apply NoDup_fst_filter, I| |apply del_addr_NoDup, I].
    intros x X. apply del_conn_keys in X as [X _]. now apply (I_conns4 I).
  - unfold mark_as_hostile. cbn [r_db]. rewrite G'. apply FIN; auto; [now apply inv_del_pending|cbn [mark_peer p_score]; congruence].
  - unfold suggest_version. rewrite G'. destruct (p_state p) eqn:ST; [|exists p, s; auto|exists p, s; auto].
    destruct (next_version (g_versions cfg) (p_version p)) as [v|e| |]; try (exists p, s; now auto).
    assert (Q := FIN r (set_version p v (round_second (nw + delay)%Z)) w I eq_refl PA). cbn [set_version p_score] in Q. specialize (Q ltac:(congruence)).
    destruct (finish r _ w) as [r' [| | |]]; exact Q.
Qed.

Section Real.
Variable cfg : config.
Variable g : pblock.
Variable ord : list group -> list group.
Variable cord : list (addr * conn) -> list (addr * conn).
Variable srt : list Peer -> list Peer.
Hypothesis OM : map_order ord.
Hypothesis CO : permutes cord.
Hypothesis SO : permutes srt.
Notation rw := (real_world cfg g ord cord srt).

(** * What the calls keep *)
Definition ok_real (x : real) : Prop := sound cfg g x /\ (short x -> moved_well g x).
Definition scored (a : addr) (x : real) : Prop := has_score (re_reg x) a.
Definition later (x y : real) : Prop := exists more, re_ops y = re_ops x ++ more.
(** What is preserved by one call or happening. *)
Definition carries (x y : real) : Prop :=
  ok_real y /\ later x y /\ forall a, ip4 a -> scored a x -> scored a y.
Lemma later_refl : forall x, later x x. Proof. intros x. exists []. now rewrite app_nil_r. Qed.
Lemma later_trans : forall x y z, later x y -> later y z -> later x z.
Proof. intros x y z [m E] [n F]. exists (m ++ n). rewrite F, E. now rewrite app_assoc. Qed.
Lemma later_short : forall x y, later x y -> short y -> short x.
Proof. intros x y [m E] S. unfold short in *. rewrite E, app_length in S. lia. Qed.
Lemma carries_refl : forall x, ok_real x -> carries x x.
Proof. intros x H. split; [exact H|]. split; [apply later_refl|auto]. Qed.
Lemma carries_trans : forall x y z, carries x y -> carries y z -> carries x z.
Proof. intros x y z (A & B & C) (D & E & F). split; [exact D|]. split; [eapply later_trans; eauto|auto]. Qed.
Lemma good_moves_app : forall o1 o2 l, good_moves g l (o1 ++ o2) <-> good_moves g l o1 /\ good_moves g (run g l o1) o2.
Proof.
  induction o1 as [|[o f] o1 IH]; intros o2 l; cbn [app good_moves run]; [tauto|]. rewrite IH. tauto.
Qed.
Lemma real_reach : forall x, sound cfg g x -> short x -> reachable g (re_ops x) (re_lk x).
Proof. intros x (WG & (l0 & S0 & E) & F & _) SH. split; auto. split; [split; auto|]. eauto. Qed.
Lemma real_reg : forall x, sound cfg g x -> RInv (re_reg x).
Proof. intros x (_ & _ & _ & F & E & _). apply (@rreach_inv cfg (re_rops x)). split; auto. Qed.
Lemma short_dec : forall x, short x \/ ~ short x.
Proof. intros x. unfold short. lia. Qed.

(** One operation on the linkage. *)
Lemma ops_carries : forall x y o f, ok_real x -> wf_op o -> re_lk y = fst (exec g (re_lk x) o f) -> re_ops y = re_ops x ++ [(o, f)] ->
  re_reg y = re_reg x -> re_rops y = re_rops x -> Forall (Forall wf_happening) (re_env y) ->
  (short y -> match o with Move i _ => lk_has_block (re_lk x) i = Ok true | _ => True end) -> carries x y.
Proof.
  intros x y o f [(WG & (l0 & S0 & E) & F & RF & RE & EV) MW] W LK OPS RG RO EN HM.
  assert (LT : later x y) by (exists [(o, f)]; exact OPS). split; [|split; [exact LT|intros a _; unfold scored; now rewrite RG]].
  split.
  - split; [exact WG|]. split.
    { exists l0. split; [exact S0|]. rewrite LK, OPS, run_app, <- E. reflexivity. }
    split; [rewrite OPS; apply Forall_app; auto|]. rewrite RO, RG. auto.
  - intros SH l1 S1. assert (l1 = l0) by congruence. subst l1. rewrite OPS. apply good_moves_app. split.
    { apply MW; auto. eapply later_short; eauto. }
    cbn [good_moves]. split; [|exact Logic.I]. rewrite <- E. exact (HM SH).
Qed.
Lemma happens_carries : forall x e, ok_real x -> wf_happening e -> carries x (happens cfg g x e).
Proof.
  intros x e OK W. destruct e as [o f|o|t].
  - destruct W as [W NM]. eapply (@ops_carries x _ o f OK W); try reflexivity.
    + cbn. now rewrite app_nil_r.
    + apply OK.
    + intros _. destruct o; auto. exfalso. eapply NM; reflexivity.
  - assert (RI := real_reg (proj1 OK)). split; [|split].
    + destruct OK as [(WG & (l0 & S0 & E) & F & RF & RE & EV) MW]. split.
      * split; [exact WG|]. cbn [happens re_lk re_ops re_rops re_reg re_env]. rewrite app_nil_r. split; [eauto|]. split; [exact F|].
        split; [apply Forall_app; auto|]. split; [|exact EV]. unfold rrun. rewrite fold_left_app, RE. reflexivity.
      * intros SH l0' S0'. cbn [happens re_ops] in *. rewrite app_nil_r. apply MW; auto. unfold short in *. cbn [happens re_ops] in SH. now rewrite app_nil_r in SH.
    + exists []. reflexivity.
    + intros a A S. unfold scored. cbn [happens re_reg]. apply score_step; auto.
  - split; [|split].
    + destruct OK as [(WG & (l0 & S0 & E) & F & RF & RE & EV) MW]. split.
      * split; [exact WG|]. cbn [happens re_lk re_ops re_rops re_reg re_env]. rewrite !app_nil_r. eauto 10.
      * intros SH l0' S0'. cbn [happens re_ops] in *. rewrite app_nil_r. apply MW; auto. unfold short in *. cbn [happens re_ops] in SH. now rewrite app_nil_r in SH.
    + exists []. reflexivity.
    + auto.
Qed.
(** Nothing relevant changes. *)
Lemma same_carries : forall x y, ok_real x -> re_lk y = re_lk x -> re_ops y = re_ops x -> re_reg y = re_reg x -> re_rops y = re_rops x ->
  Forall (Forall wf_happening) (re_env y) -> carries x y.
Proof.
  intros x y [(WG & (l0 & S0 & E) & F & RF & RE & EV) MW] LK OPS RG RO EN. split; [|split].
  - split.
    + split; [exact WG|]. rewrite LK, OPS, RO, RG. eauto 10.
    + unfold short, moved_well. rewrite OPS. exact MW.
  - exists []. now rewrite OPS, app_nil_r.
  - intros a _. unfold scored. now rewrite RG.
Qed.
Lemma meanwhile_carries : forall x, ok_real x -> carries x (meanwhile cfg g x).
Proof.
  intros x OK. assert (EV : Forall (Forall wf_happening) (re_env x)) by apply OK.
  assert (K : forall hs y, ok_real y -> Forall wf_happening hs -> carries y (fold_left (happens cfg g) hs y)).
  { induction hs as [|h hs IH]; intros y OY W; cbn [fold_left]; [now apply carries_refl|].
    pose proof (happens_carries OY (Forall_inv W)) as C. eapply carries_trans; [exact C|]. apply IH; [apply C|now apply Forall_inv_tail in W]. }
  assert (W : Forall wf_happening (hd [] (re_env x))) by (destruct EV; cbn; auto).
  specialize (K _ x OK W). unfold meanwhile. eapply carries_trans; [exact K|].
  apply same_carries; try reflexivity; [apply K|]. cbn [re_env]. destruct EV; cbn; auto.
Qed.
Lemma writes_carries : forall x o, ok_real x -> wf_op o ->
  (short (fst (writes g x o)) -> match o with Move i _ => lk_has_block (re_lk x) i = Ok true | _ => True end) -> carries x (fst (writes g x o)).
Proof.
  intros x o OK W HM. eapply (@ops_carries x _ o (hd None (re_faults x)) OK W); unfold writes in *;
    destruct (exec g (re_lk x) o (hd None (re_faults x))) as [l r]; cbn [fst re_lk re_ops re_reg re_rops re_env] in *; auto. apply OK.
Qed.
Definition proper (c : call) (y : real) : Prop :=
  match c with
  | CPut b a => wf_pblock b /\ wf_addr a
  | CMove i a => wf_id i /\ wf_addr a /\ lk_has_block (re_lk y) i = Ok true
  | _ => True
  end.
Lemma call_carries : forall c x, ok_real x -> (short (fst (rw c x)) -> proper c (meanwhile cfg g x)) ->
  match c with CPut b a => wf_pblock b /\ wf_addr a | CMove i a => wf_id i /\ wf_addr a | _ => True end -> carries x (fst (rw c x)).
Proof.
  intros c x OK P W. pose proof (meanwhile_carries OK) as M. eapply carries_trans; [exact M|]. assert (OY : ok_real (meanwhile cfg g x)) by apply M.
  unfold real_world in *. destruct c; try (now apply carries_refl); try (apply same_carries; try reflexivity; try apply OY; fail).
  - apply writes_carries; auto. intros SH. apply P, SH.
  - apply writes_carries; auto.
Qed.

(** * What the calls return *)
Lemma read_state : forall c x, match c with CPut _ _ | CMove _ _ | CAskIDs _ _ | CAskBlock _ _ | CLog _ => True | _ => fst (rw c x) = meanwhile cfg g x end.
Proof. intros c x. destruct c; try exact Logic.I; reflexivity. Qed.
Lemma has_kept : forall x y i, sound cfg g x -> sound cfg g y -> later x y -> short y -> wf_id i -> lk_has_block (re_lk x) i = Ok true -> lk_has_block (re_lk y) i = Ok true.
Proof.
  intros x y i SX SY [m E] SH W H. assert (RX := real_reach SX (later_short (ex_intro _ m E) SH)). assert (RY := real_reach SY SH). rewrite E in RY.
  exact (proj1 (hist_immutable RX RY W H)).
Qed.
Lemma wf_ip4 : forall a, ip4 a -> wf_addr a. Proof. intros a (b & -> & L). exact L. Qed.
Lemma leash_ok : forall x a, ok_real x -> short x -> wf_addr a -> exists i z, wf_id i /\ leash (re_lk x) a = Ok i /\ lk_has_block (re_lk x) i = Ok true /\ leash_score (re_lk x) a = Ok z.
Proof.
  intros x a [S MW] SH WA. assert (RX := real_reach S SH). destruct S as (WG & (l0 & S0 & E) & F & _).
  destruct (@leash_points g l0 (re_ops x) a WG S0 (conj F SH) (MW SH _ S0) WA) as (i & A & B & C). rewrite <- E in *. exists i. eexists. 
  split; [|split; [exact A|split; [exact B|exact C]]].
  destruct (reach_view RX) as (s & Es & R & GE & BD & SM). rewrite (v_leash R WA), GE in A. injection A as <-.
  destruct (st_leash s a) as [j|] eqn:L.
  - assert (LS := good_state WG S0 (conj F SH) (MW SH _ S0)). rewrite <- Es in LS. eapply (stored_wf (R_wf R)). eapply LS, L.
  - apply (stored_wf (R_wf R)). rewrite Es. apply genesis_stored.
Qed.
Lemma has_returns : forall x i, sound cfg g x -> short x -> wf_id i -> exists b, lk_has_block (re_lk x) i = Ok b.
Proof.
  intros x i S SH W. destruct (reach_view (real_reach S SH)) as (s & _ & R & _ & _ & SM). rewrite (v_has R SM W). eauto.
Qed.
Lemma last_returns : forall x i, sound cfg g x -> short x -> wf_id i -> lk_has_block (re_lk x) i = Ok true -> exists j js, last_ids (re_lk x) i idsBatchSize = Ok (j :: js).
Proof.
  intros x i S SH W H. assert (RX := real_reach S SH). destruct (@last_ids_spec g (re_ops x) (re_lk x) i idsBatchSize RX W ltac:(unfold idsBatchSize; lia)) as [A _].
  rewrite (A H). destruct (chain_shape RX W H) as (c & E & _). rewrite E. unfold idsBatchSize. change (Z.to_nat 100) with (Datatypes.S 99). cbn [firstn]. eauto.
Qed.
Lemma lcb_stored : forall x a k, ok_real x -> short x -> ip4 a -> lcb ord (re_lk x) a = Ok k -> wf_id k /\ lk_has_block (re_lk x) k = Ok true.
Proof.
  intros x a k OK SH A F. assert (RX := real_reach (proj1 OK) SH). destruct (reach_view RX) as (s & Es & R & GE & BD & SM).
  assert (ST : ChainSpec.stored (st_blocks s) k).
  { destruct (st_leash s a) as [i|] eqn:L.
    - assert (LE : leashed (re_lk x) a i).
      { split; [now apply wf_ip4|]. split; [destruct A as (b & -> & _); discriminate|]. rewrite (v_has_leash R (wf_ip4 A)), (v_leash R (wf_ip4 A)), L. auto. }
      destruct (p_lcb RX OM LE F) as (lg & _ & [AN _]). unfold hist in AN. rewrite <- Es in AN. eapply anc_stored, AN.
    - assert (NL : has_leash (re_lk x) a = Ok false) by now rewrite (v_has_leash R (wf_ip4 A)), L.
      rewrite (@p_lcb_none _ _ _ RX ord a (wf_ip4 A) NL) in F. injection F as <-. rewrite Es. apply genesis_stored. }
  assert (W := stored_wf (R_wf R) ST). split; [exact W|]. now apply (v_has_true R SM W).
Qed.

(** * The calls of a peer loader *)
Notation lrw := (logging rw).
Definition bad_lcb (es : list event) : Prop := exists a (r : reply (CLcb a)), In (CLcb a ==> r) es /\ ~ returned r.
Definition Iv (a : addr) (v : real * list event) : Prop := ok_real (fst v) /\ ip4 a /\ scored a (fst v).
Definition Ev (v : real * list event) : Prop := ~ short (fst v) \/ bad_lcb (snd v).
Definition Pb (b : pblock) : Prop := wf_pblock b /\ (pb_bt b <= max_int64)%N.
Lemma carries_I : forall a v v', Iv a v -> carries (fst v) (fst v') -> Iv a v'.
Proof. intros a v v' (A & B & C) (D & E & F). split; [exact D|]. split; auto. Qed.
Definition plain (c : call) : Prop := match c with CPut _ _ | CMove _ _ => False | _ => True end.
Lemma plain_carries : forall c x, ok_real x -> plain c -> carries x (fst (rw c x)).
Proof. intros c x OK P. apply call_carries; auto; destruct c; try exact Logic.I; try destruct P; intros; exact Logic.I. Qed.
Ltac reads E X R := destruct E as [X R]; cbv beta iota zeta delta [real_world fst snd] in X, R.
Lemma plain_call : forall c x es, ok_real x -> plain c -> exists x' r, lrw c (x, es) = ((x', es ++ [c ==> r]), r) /\ (x' = fst (rw c x) /\ r = snd (rw c x)) /\ carries x x'.
Proof.
  intros c x es OK P. rewrite log_call. pose proof (plain_carries OK P) as C. destruct (rw c x) as [x' r]. exists x', r. auto.
Qed.
Lemma post_short : forall a A v (r : outcome A), Iv a v -> (short (fst v) -> returned r) -> post (Iv a) Ev v r.
Proof.
  intros a A v r H R. destruct (short_dec (fst v)) as [S|S]; [left; auto|].
  assert (D : returned r \/ ~ returned r) by (destruct r; cbn; tauto). destruct D; [left|right]; auto. split; auto. now left.
Qed.
Lemma writes_spec : forall y o x' r, writes g y o = (x', r) -> later y x' /\ r = snd (exec g (re_lk y) o (hd None (re_faults y))).
Proof.
  intros y o x' r E. unfold writes in E. destruct (exec g (re_lk y) o (hd None (re_faults y))) as [l r0].
  assert (E1 := f_equal fst E). assert (E2 := f_equal snd E). cbn [fst snd] in *. subst. split; [|reflexivity]. eexists. cbn [re_ops]. reflexivity.
Qed.
Lemma put_post : forall a b v, Iv a v -> Pb b -> let (v', r) := lrw (CPut b a) v in post (Iv a) Ev v' r.
Proof.
  intros a b [x es] H [WB BT]. assert (IP : ip4 a) by apply H. rewrite log_call. destruct (rw (CPut b a) x) as [x' r] eqn:E.
  assert (C : carries x x').
  { replace x' with (fst (rw (CPut b a) x)) by now rewrite E. apply call_carries; [apply H| |]; cbn; auto using wf_ip4. }
  apply post_short; [eapply carries_I; [exact H|exact C]|]. cbn [fst]. intros SH.
  assert (M : carries x (meanwhile cfg g x)) by (apply meanwhile_carries, H).
  change (rw (CPut b a) x) with (writes g (meanwhile cfg g x) (Put b a)) in E. apply writes_spec in E. destruct E as [LT ->].
  eapply p_put_returns; auto using wf_ip4. apply real_reach; [apply M|eapply later_short; eauto].
Qed.
Lemma skip_post : forall a ids v, Iv a v -> Forall wf_id ids -> let (v', r) := skip_known lrw a ids v in post (Iv a) Ev v' r.
Proof.
  intros a. induction ids as [|i ids IH]; intros [x es] H W; cbn [skip_known]; [now apply post_ok|].
  assert (WI := Forall_inv W). assert (WT := Forall_inv_tail W). assert (IP : ip4 a) by apply H.
  destruct (@plain_call (CHas i) x es (proj1 H) Logic.I) as (x1 & r1 & -> & E1 & C1). cbn in r1.
  assert (I1 : Iv a (x1, es ++ [CHas i ==> r1])) by (eapply carries_I; eauto).
  reads E1 X1 R1.
  assert (RET1 : short x1 -> returned r1).
  { intros SH. destruct (@has_returns x1 i (proj1 (proj1 I1)) SH WI) as [q Q]. rewrite X1 in Q. rewrite R1, Q. exact Logic.I. }
  destruct r1 as [[|]|e| |]; try (apply post_short; auto; fail).
  destruct (@plain_call (CLeash a) x1 (es ++ [CHas i ==> Ok true]) (proj1 I1) Logic.I) as (x2 & r2 & -> & E2 & C2). cbn in r2.
  assert (I2 : Iv a (x2, (es ++ [CHas i ==> Ok true]) ++ [CLeash a ==> r2])) by (eapply carries_I; eauto).
  reads E2 X2 R2.
  assert (RET2 : short x2 -> returned r2).
  { intros SH. destruct (@leash_ok x2 a (proj1 I2) SH (wf_ip4 IP)) as (q & z & _ & Q & _). rewrite X2 in Q. rewrite R2, Q. exact Logic.I. }
  destruct r2 as [j|e| |]; try (apply post_short; auto; fail).
  destruct (id_eqb i j); [now apply IH|].
  rewrite log_call. destruct (rw (CMove i a) x2) as [x3 r3] eqn:E3.
  assert (M : carries x2 (meanwhile cfg g x2)) by (apply meanwhile_carries, C2).
  assert (ST : short (meanwhile cfg g x2) -> lk_has_block (re_lk (meanwhile cfg g x2)) i = Ok true).
  { intros SH. apply has_kept with x1; auto; [apply C1|apply M| |congruence]. eapply later_trans; [apply C2|apply M]. }
  assert (E4 := E3). change (rw (CMove i a) x2) with (writes g (meanwhile cfg g x2) (Move i a)) in E4. apply writes_spec in E4.
  assert (SH3 : short x3 -> short (meanwhile cfg g x2)).
  { eapply later_short, E4. }
  assert (C3 : carries x2 x3).
  { replace x3 with (fst (rw (CMove i a) x2)) by now rewrite E3. apply call_carries; [apply C2| |split; auto using wf_ip4]. rewrite E3. cbn [fst]. intros SH.
    split; auto using wf_ip4. }
  assert (I3 : Iv a (x3, ((es ++ [CHas i ==> Ok true]) ++ [CLeash a ==> Ok j]) ++ [CMove i a ==> r3])) by (eapply carries_I; [exact I2|exact C3]).
  assert (RET3 : short x3 -> returned r3).
  { intros SH. rewrite (proj2 E4). eapply p_micro_move_return; [|split; auto using wf_ip4|exact Logic.I]. apply real_reach; [apply M|auto]. }
  destruct r3 as [[]|e| |]; try (apply post_short; auto; fail). now apply IH.
Qed.
Lemma ask_from_post : forall a i p x es, Iv a (x, es) -> (short x -> wf_id i /\ lk_has_block (re_lk x) i = Ok true) ->
  let '(v', (_, r)) := ask_from lrw i p (x, es) in post (Iv a) Ev v' r.
Proof.
  intros a i p x es H ST. unfold ask_from. destruct (@plain_call (CLast i idsBatchSize) x es (proj1 H) Logic.I) as (x1 & r1 & -> & E1 & C1). cbn in r1.
  assert (I1 : Iv a (x1, es ++ [CLast i idsBatchSize ==> r1])) by (eapply carries_I; eauto). reads E1 X1 R1.
  assert (RET1 : short x1 -> exists j js, r1 = Ok (j :: js)).
  { intros SH. assert (SX : short x) by (eapply later_short; [apply C1|auto]). destruct (ST SX) as [W HB].
    destruct (@last_returns x1 i) as (j & js & L); auto; [apply C1|apply has_kept with x; auto; [apply H|apply C1|apply C1]|].
    exists j, js. rewrite R1, <- X1. exact L. }
  destruct r1 as [[|j js]|e| |]; try (apply post_short; auto; intros SH; destruct (RET1 SH) as (? & ? & ?); discriminate).
  destruct (@plain_call (CAskIDs (pl_peer p) (j :: js)) x1 (es ++ [CLast i idsBatchSize ==> Ok (j :: js)]) (proj1 I1) Logic.I) as (x2 & r2 & -> & _ & C2).
  destruct (@plain_call CNow x2 ((es ++ [CLast i idsBatchSize ==> Ok (j :: js)]) ++ [CAskIDs (pl_peer p) (j :: js) ==> r2]) (proj1 C2) Logic.I) as (x3 & r3 & -> & _ & C3).
  apply post_ok. eapply carries_I; [exact I1|]. eapply carries_trans; eauto.
Qed.
Lemma ids_post : forall a p v, Iv a v -> pl_peer p = a -> let '(v', (_, r)) := request_ids lrw p v in post (Iv a) Ev v' r.
Proof.
  intros a p [x es] H P. unfold request_ids. rewrite P. assert (IP : ip4 a) by apply H.
  destruct (@plain_call (CLeash a) x es (proj1 H) Logic.I) as (x1 & r1 & -> & E1 & C1). cbn in r1.
  assert (I1 : Iv a (x1, es ++ [CLeash a ==> r1])) by (eapply carries_I; eauto). reads E1 X1 R1.
  assert (RET1 : short x1 -> exists i, r1 = Ok i /\ wf_id i /\ lk_has_block (re_lk x1) i = Ok true).
  { intros SH. destruct (@leash_ok x1 a (proj1 I1) SH (wf_ip4 IP)) as (i & z & W & L & B & _). exists i. split; auto. congruence. }
  destruct r1 as [i|e| |]; try (apply post_short; auto; intros SH; destruct (RET1 SH) as (? & ? & _); discriminate).
  apply ask_from_post; auto. intros SH. destruct (RET1 SH) as (j & J & W & B). injection J as ->. auto.
Qed.
Lemma lca_post : forall a p v, Iv a v -> pl_peer p = a -> let '(v', (_, r)) := request_ids_from_lca lrw p v in post (Iv a) Ev v' r.
Proof.
  intros a p [x es] H P. unfold request_ids_from_lca. rewrite P. assert (IP : ip4 a) by apply H.
  destruct (@plain_call (CLcb a) x es (proj1 H) Logic.I) as (x1 & r1 & -> & E1 & C1). cbn in r1.
  assert (I1 : Iv a (x1, es ++ [CLcb a ==> r1])) by (eapply carries_I; eauto). reads E1 X1 R1.
  assert (BAD : ~ returned r1 -> Ev (x1, es ++ [CLcb a ==> r1])).
  { intros NR. right. exists a, r1. split; [apply in_or_app; right; now left|exact NR]. }
  destruct r1 as [i|e| |].
  - apply ask_from_post; auto. intros SH. apply (@lcb_stored x1 a i (proj1 I1) SH IP). congruence.
  - left. split; [exact I1|exact Logic.I].
  - right. split; [apply BAD|]; cbn; auto.
  - right. split; [apply BAD|]; cbn; auto.
Qed.

(** With the loader as reporter. *)
Definition Iu (a : addr) (u : held * (real * list event)) : Prop := Iv a (snd u).
Definition Eu (u : held * (real * list event)) : Prop := Ev (snd u).
Lemma ok_post : forall a u, Iu a u -> let (u', r) := inner lrw (COk a Idle) u in
  post (Iu a) Eu u' r /\ (short (fst (snd u')) -> r <> Ok true -> h_pl (fst u') = false).
Proof.
  intros a [h [x es]] H. unfold Iu in H. cbn [snd] in H. assert (IP : ip4 a) by apply H. cbn [inner fst snd]. unfold loader_ok.
  destruct (h_pl h) eqn:HP; [|split; [apply post_ok; exact H|auto]].
  destruct (@plain_call (CPeer a) x es (proj1 H) Logic.I) as (x1 & r1 & -> & E1 & C1). cbn in r1. reads E1 X1 R1.
  assert (I1 : Iv a (x1, es ++ [CPeer a ==> r1])) by (eapply carries_I; eauto).
  assert (S1 : exists z, r1 = Ok (Some z)).
  { destruct I1 as (_ & _ & (q & z & Q & S)). cbn [fst] in Q. exists z. rewrite R1, <- X1, Q. cbn [bind]. now rewrite S. }
  destruct S1 as [z ->].
  destruct (@plain_call (CScore a) x1 (es ++ [CPeer a ==> Ok (Some z)]) (proj1 I1) Logic.I) as (x2 & r2 & -> & E2 & C2). cbn in r2. reads E2 X2 R2.
  assert (I2 : Iv a (x2, (es ++ [CPeer a ==> Ok (Some z)]) ++ [CScore a ==> r2])) by (eapply carries_I; eauto).
  assert (S2 : short x2 -> exists k, r2 = Ok k).
  { intros SH. destruct (@leash_ok x2 a (proj1 I2) SH (wf_ip4 IP)) as (i & k & _ & _ & _ & L). exists k. congruence. }
  destruct r2 as [k|e| |].
  - destruct (is_lagging (h_prev _) z k) as [diff [|]]; cbn [fst snd].
    + destruct (@plain_call (CLog (LStill a)) x2 ((es ++ [CPeer a ==> Ok (Some z)]) ++ [CScore a ==> Ok k]) (proj1 I2) Logic.I) as (x3 & r3 & E3 & _ & C3).
      split; [|congruence]. apply post_ok. unfold Iu. cbn [snd]. rewrite E3. cbn [fst]. eapply carries_I; [exact I2|exact C3].
    + destruct (@plain_call (CLog (LNoMore a)) x2 ((es ++ [CPeer a ==> Ok (Some z)]) ++ [CScore a ==> Ok k]) (proj1 I2) Logic.I) as (x3 & r3 & E3 & _ & C3).
      split; [|reflexivity]. apply post_ok. unfold Iu. cbn [snd]. rewrite E3. cbn [fst]. eapply carries_I; [exact I2|exact C3].
  - destruct (@plain_call (CLog (LNoScore a)) x2 ((es ++ [CPeer a ==> Ok (Some z)]) ++ [CScore a ==> Err e]) (proj1 I2) Logic.I) as (x3 & r3 & E3 & _ & C3).
    cbn [fst snd]. rewrite E3. cbn [fst]. split; [apply post_ok; unfold Iu; cbn [snd]; eapply carries_I; [exact I2|exact C3]|].
    intros SH _. exfalso. assert (SH2 : short x2) by (eapply later_short; [apply C3|exact SH]). destruct (S2 SH2). discriminate.
  - cbn [fst snd]. split; [apply (@post_short a _ _ _ I2); intros SH; destruct (S2 SH); discriminate|]. intros SH _. destruct (S2 SH). discriminate.
  - cbn [fst snd]. split; [apply (@post_short a _ _ _ I2); intros SH; destruct (S2 SH); discriminate|]. intros SH _. destruct (S2 SH). discriminate.
Qed.
Lemma real_safe : forall a, safe_calls (inner lrw) a (Iu a) Eu Pb wf_id.
Proof.
  intros a. constructor.
  - intros b [h v] H P. cbn [inner fst snd]. pose proof (@put_post a b v H P) as K. destruct (lrw (CPut b a) v) as [v' r]. exact K.
  - intros i [h [x es]] H. cbn [inner fst snd]. destruct (@plain_call (CAskBlock a i) x es (proj1 H) Logic.I) as (x1 & r1 & -> & _ & C1).
    unfold Iu. cbn [fst snd]. eapply carries_I; [exact H|exact C1].
  - intros [h [x es]] H. cbn [inner fst snd]. destruct (@plain_call CNow x es (proj1 H) Logic.I) as (x1 & r1 & -> & _ & C1).
    unfold Iu. cbn [fst snd]. eapply carries_I; [exact H|exact C1].
  - intros u H. pose proof (ok_post H) as K. destruct (inner lrw (COk a Idle) u) as [u' r]. apply K.
  - intros [h [x es]] H. cbn [inner fst snd]. unfold loader_fail. destruct (h_pl h); [|now apply post_ok].
    apply post_ok. destruct (@plain_call (CLog (LFailed a)) x es (proj1 H) Logic.I) as (x1 & r1 & E & _ & C1). unfold Iu. cbn [snd]. rewrite E. cbn [fst].
    eapply carries_I; [exact H|exact C1].
  - intros ids [h v] H W. rewrite skip_known_inner. pose proof (@skip_post a ids v H W) as K. destruct (skip_known lrw a ids v) as [v' r]. exact K.
  - intros p [h v] H P. rewrite ids_inner. pose proof (@ids_post a p v H P) as K. destruct (request_ids lrw p v) as [v' [p' r]]. exact K.
  - intros p [h v] H P. rewrite lca_inner. pose proof (@lca_post a p v H P) as K. destruct (request_ids_from_lca lrw p v) as [v' [p' r]]. exact K.
Qed.

(** * The loader *)
Definition held_ok (l : loader) (x : real) : Prop := forall p, busy l p ->
  pl_triggers p = [] /\ items_ok Pb (pl_queue p) /\ ip4 (pl_peer p) /\ scored (pl_peer p) x /\ (short x -> pl_state p <> Idle).
Definition run_ok (l : loader) (x : real) : Prop := ok_real x /\ held_ok l x.
Definition step_post (l : loader) (v : real * list event) (r : outcome unit) : Prop :=
  (returned r /\ run_ok l (fst v)) \/ (~ returned r /\ Ev v).
Lemma later_all : forall c (v : real * list event), later (fst v) (fst (fst (lrw c v))).
Proof.
  intros c [x es]. rewrite log_call. assert (M : forall y, later y (meanwhile cfg g y)).
  { intros y. unfold meanwhile, later. cbn [re_ops]. generalize (hd [] (re_env y)). intros hs. revert y. induction hs as [|h hs IH]; intros y; cbn [fold_left].
    - exists []. now rewrite app_nil_r.
    - destruct (IH (happens cfg g y h)) as [m E]. rewrite E. unfold happens at 1. cbn [re_ops]. rewrite <- app_assoc. eauto. }
  specialize (M x). unfold real_world. destruct c; try exact M.
  - unfold writes. destruct (exec g (re_lk (meanwhile cfg g x)) (Move i a) _) as [l r]. cbn [fst]. eapply later_trans; [exact M|]. eexists. cbn [re_ops]. reflexivity.
  - unfold writes. destruct (exec g (re_lk (meanwhile cfg g x)) (Put b a) _) as [l r]. cbn [fst]. eapply later_trans; [exact M|]. eexists. cbn [re_ops]. reflexivity.
Qed.
Lemma drive_post : forall t p l v, ok_real (fst v) -> pl_triggers p = [] -> items_ok Pb (pl_queue p) -> ip4 (pl_peer p) -> scored (pl_peer p) (fst v) -> trig_ok Pb wf_id t -> t <> EQueueReady -> t <> ETimeout -> 
  let '((l', v'), r) := drive lrw t p l v in
  (returned r -> pl_state p <> Idle -> run_ok l' (fst v')) /\ (returned r \/ Ev v') /\
  (returned r -> ok_real (fst v') /\ forall p', busy l' p' -> items_ok Pb (pl_queue p') /\ ip4 (pl_peer p') /\ scored (pl_peer p') (fst v')).
Proof.
  intros t p l v OK T Q IP SC TO N1 N2. set (a := pl_peer p) in *.
  destruct (drive lrw t p l v) as [[l' v'] r] eqn:D. destruct (drive_at D T N1 N2) as [_ DA].
  assert (DR : later (fst v) (fst v')).
  { pose proof (@drive_all _ lrw (fun x y => later (fst x) (fst y)) (fun x => later_refl (fst x)) (fun x y z => @later_trans (fst x) (fst y) (fst z)) later_all t p l v) as K.
    rewrite D in K. exact K. }
  unfold drive in D. set (h := {| h_pl := true; h_prev := l_prev l; h_fc := l_fc l; h_ticker := l_ticker l |}) in D.
  assert (HI : Iu a (h, v)) by (split; [exact OK|auto]).
  pose proof (fire_rule (real_safe a) HI eq_refl T TO Q) as K.
  pose proof (fun NI => @fire_idle _ (inner lrw) a (Iu a) Eu Pb wf_id (real_safe a) t p (h, v) HI eq_refl T TO Q NI N1 N2) as FI.
  destruct (fire (inner lrw) t p (h, v)) as [[h1 v1] [p1 r1]] eqn:F. injection D as <- <- <-. destruct K as [K K2].
  assert (CON : returned r1 -> ok_real (fst v1) /\ ip4 a /\ scored a (fst v1)).
  { intros RT. destruct K as [[K _]|[_ K]]; [exact K|contradiction]. }
  assert (ALL : returned r1 -> ok_real (fst v1) /\ forall p', busy {| l_pl := if h_pl h1 then Some p1 else None; l_prev := h_prev h1; l_fc := h_fc h1; l_ticker := h_ticker h1; l_timer := l_timer l |} p' ->
     items_ok Pb (pl_queue p') /\ ip4 (pl_peer p') /\ scored (pl_peer p') (fst v1)).
  { intros RT. destruct (CON RT) as (A & B & C). split; [exact A|]. intros p' Bp. destruct (DA p' Bp) as (_ & PP & _). rewrite PP. fold a.
    unfold busy in Bp. cbn [l_pl] in Bp. destruct (h_pl h1); [|discriminate]. injection Bp as <-. auto. }
  split; [|split; [|exact ALL]].
  - intros RT NI'. destruct (ALL RT) as (A & B). split; [exact A|]. intros p' Bp. destruct (B p' Bp) as (B1 & B2 & B3). destruct (DA p' Bp) as (T' & PP & _).
    split; [exact T'|]. split; [exact B1|]. split; [exact B2|]. split; [exact B3|]. intros SH SI. unfold busy in Bp. cbn [l_pl] in Bp. destruct (h_pl h1) eqn:HP; [|discriminate].
    injection Bp as <-. destruct (FI NI' SI) as (u0 & I0 & E0 & NE). pose proof (ok_post I0) as OP. destruct (inner lrw (COk a Idle) u0) as [u' r'].
    cbn [fst snd] in E0, NE. subst u'. cbn [fst snd] in OP. rewrite (proj2 OP SH NE) in HP. discriminate.
  - destruct K as [[_ K]|[K _]]; auto.
Qed.
Lemma begin_post : forall a l v, ok_real (fst v) -> ip4 a -> scored a (fst v) -> let '((l', v'), r) := begin_sync lrw a l v in step_post l' v' r.
Proof.
  intros a l [x es] OK IP SC. cbn [fst] in *.
  assert (ST : forall l1 l2 (v : real * list event) v' r t, ok_real (fst v) -> scored a (fst v) -> t = EStart \/ t = ERestart ->
    drive lrw t (new_ploader a) l1 v = ((l2, v'), r) -> step_post l2 v' r).
  { intros l1 l2 v v' r t OK1 SC1 TT D. assert (TK : trig_ok Pb wf_id t) by (destruct TT as [-> | ->]; exact Logic.I).
    assert (TN : t <> EQueueReady /\ t <> ETimeout) by (destruct TT as [-> | ->]; split; discriminate).
    pose proof (@drive_post t (new_ploader a) l1 v OK1 eq_refl (Forall_nil _) IP SC1 TK (proj1 TN) (proj2 TN)) as K. rewrite D in K. destruct K as (_ & K2 & K3).
    assert (DEC : returned r \/ ~ returned r) by (destruct r; cbn; tauto). destruct DEC as [RT|NR].
    - left. split; [exact RT|]. destruct (K3 RT) as [A B]. split; [exact A|]. intros p' Bp. destruct (B p' Bp) as (B1 & B2 & B3).
      destruct (drive_at D eq_refl (proj1 TN) (proj2 TN)) as [_ DA]. destruct (DA p' Bp) as (T' & _). split; [exact T'|]. split; [exact B1|]. split; [exact B2|]. split; [exact B3|].
      intros _. rewrite (@drive_start _ lrw t (new_ploader a) l1 v l2 v' r p' eq_refl eq_refl TT D Bp). discriminate.
    - right. tauto. }
  unfold begin_sync. destruct (Nat.leb _ _).
  - cbv zeta. destruct (@plain_call (CLog (LRestart a)) x es OK Logic.I) as (x1 & r1 & -> & _ & C1). cbn [fst].
    set (es1 := es ++ [CLog (LRestart a) ==> r1]). set (l0 := with_pl l (new_ploader a) (fc_reset (l_fc l) a)).
    destruct (@drive_held _ rw true (new_ploader a) l0 x1 es1 eq_refl eq_refl) as (v2 & z & new & p2 & r2 & D & T2 & P2 & S2 & _). cbn iota in D.
    match type of D with _ = ((?l2, ?v2'), _) => pose proof (@ST l0 l2 (x1, es1) v2' r2 ERestart (proj1 C1) (proj2 (proj2 C1) a IP SC) (or_intror eq_refl) D) as K end.
    rewrite D. destruct r2 as [u|e| |]; cbn [l_pl l_prev l_fc l_ticker l_timer]; try exact K;
      (rewrite drive_ignored; [|reflexivity|intros h; now apply ignored_state]); exact K || (destruct K as [[_ K]|[K _]]; [left; split; [exact Logic.I|exact K]|now destruct K]).
  - destruct (drive lrw EStart (new_ploader a) (with_pl l (new_ploader a) (l_fc l)) (x, es)) as [[l2 v2] r2] eqn:D. eapply ST; [| | |exact D]; auto.
Qed.
Lemma find_lagging_post : forall cs x es, ok_real x -> (forall a s, In (a, Some s) cs -> ip4 a /\ scored a x) ->
  let '(v', r) := find_lagging lrw cs (x, es) in carries x (fst v') /\ (short (fst v') -> returned r) /\ (forall lag, r = Ok lag -> forall a, In a lag -> ip4 a /\ scored a (fst v')).
Proof.
  induction cs as [|[a [s|]] cs IH]; intros x es OK H; cbn [find_lagging].
  - split; [now apply carries_refl|]. split; [intros; exact Logic.I|]. intros lag [= <-] a [].
  - destruct (H a s (or_introl eq_refl)) as [IP SC].
    destruct (@plain_call (CScore a) x es OK Logic.I) as (x1 & r1 & -> & E1 & C1). cbn in r1. reads E1 X1 R1.
    assert (S1 : short x1 -> exists k, r1 = Ok k).
    { intros SH. destruct (@leash_ok x1 a (proj1 C1) SH (wf_ip4 IP)) as (i & k & _ & _ & _ & L). exists k. congruence. }
    assert (H1 : forall b z, In (b, Some z) cs -> ip4 b /\ scored b x1).
    { intros b z Q. destruct (H b z (or_intror Q)) as [Q1 Q2]. split; auto. now apply C1. }
    specialize (IH x1 (es ++ [CScore a ==> r1]) (proj1 C1) H1).
    destruct r1 as [k|e| |].
    + destruct (find_lagging lrw cs (x1, es ++ [CScore a ==> Ok k])) as [v2 r2]. destruct IH as (A & B & C).
      assert (CC : carries x (fst v2)) by (eapply carries_trans; eauto). destruct r2 as [lag|e| |].
      * split; [exact CC|]. split; [intros; exact Logic.I|]. intros lg [= <-] b Q. destruct (k <? s)%Z; [destruct Q as [<-|Q]; [split; [exact IP|now apply CC]|]|]; now apply (C lag).
      * split; [exact CC|]. split; [exact B|]. discriminate.
      * split; [exact CC|]. split; [exact B|]. discriminate.
      * split; [exact CC|]. split; [exact B|]. discriminate.
    + destruct (find_lagging lrw cs (x1, es ++ [CScore a ==> Err e])) as [v2 r2]. destruct IH as (A & B & C).
      split; [eapply carries_trans; eauto|]. auto.
    + split; [exact C1|]. cbn [fst]. split; [intros SH; destruct (S1 SH); discriminate|discriminate].
    + split; [exact C1|]. cbn [fst]. split; [intros SH; destruct (S1 SH); discriminate|discriminate].
  - apply IH; auto. intros b z Q. apply (H b z). now right.
Qed.
Lemma conns_returns : forall x, sound cfg g x -> 
  returned (connections cord srt (re_reg x)) /\ forall ps, connections cord srt (re_reg x) = Ok ps -> forall p, In p ps -> ip4 (p_addr p) /\ (p_score p <> None -> scored (p_addr p) x).
Proof.
  intros x S. assert (RI := real_reg S). unfold connections. set (r := re_reg x) in *.
  assert (K : forall cs, (forall a c, In (a, c) cs -> ip4 a) ->
     let m := mapM (fun y => do p <- get_peer (r_db r) (fst y); Ok (set_live p (snd y))) cs in
     returned m /\ forall ps, m = Ok ps -> forall p, In p ps -> ip4 (p_addr p) /\ (p_score p <> None -> has_score r (p_addr p))).
  { induction cs as [|[a c] cs IH]; intros H; cbn [mapM]; [split; [exact Logic.I|intros ps [= <-] p []]|].
    assert (IP := H a c (or_introl eq_refl)). destruct IH as [IH1 IH2]; [intros; eapply H; right; eauto|]. cbn [fst snd].
    assert (NZ : a <> AZero) by (destruct IP as (b & -> & _); discriminate).
    destruct (get_peer_returns (r_db r) NZ) as (o & GO & OK). rewrite GO. destruct OK as [[p ->] | ->]; cbn [bind]; [|split; [exact Logic.I|discriminate]].
    destruct (mapM _ cs) as [ps|e| |]; cbn [bind] in *; try (split; [exact IH1|discriminate]).
    split; [exact Logic.I|]. intros qs [= <-] q [<-|Q]; [|now apply (IH2 ps)].
    cbn [set_live p_addr p_score]. assert (PA := proj1 (get_peer_fields GO)). rewrite PA. split; [exact IP|]. intros NS.
    destruct (p_score p) as [z|] eqn:PZ; [|congruence]. exists p, z. auto. }
  assert (H : forall a c, In (a, c) (cord (r_conns r)) -> ip4 a).
  { intros a c Q. apply (I_conns4 RI). apply (in_map fst _ (a, c)). eapply Permutation_in; [apply CO|exact Q]. }
  specialize (K _ H). cbn zeta in K. destruct K as [K1 K2]. destruct (mapM _ (cord (r_conns r))) as [ps|e| |]; cbn [bind] in *; try (split; [exact K1|discriminate]).
  split; [exact Logic.I|]. intros qs [= <-] p Q. apply (K2 ps eq_refl). eapply Permutation_in; [apply SO|exact Q].
Qed.
Lemma held_carries : forall l x y, held_ok l x -> carries x y -> held_ok l y.
Proof.
  intros l x y H (A & B & C) p Bp. destruct (H p Bp) as (T & Q & IP & SC & NI). split; [exact T|]. split; [exact Q|]. split; [exact IP|].
  split; [auto|]. intros SH. apply NI. eapply later_short; eauto.
Qed.
Lemma held_none : forall l x, l_pl l = None -> held_ok l x.
Proof. intros l x N p B. unfold busy in B. congruence. Qed.
Lemma post_reset : forall (f : loader -> loader) (m : (loader * (real * list event)) * outcome unit), (forall l, l_pl (f l) = l_pl l) ->
  (let '((l, v), r) := m in step_post l v r) ->
  let '((l, v), r) := (let (p, r) := m in let (l1, v1) := p in match r with Panic => ((l1, v1), Panic) | Diverge => ((l1, v1), Diverge) | _ => ((f l1, v1), r) end) in step_post l v r.
Proof.
  intros f [[l v] r] F H. destruct r; auto; (destruct H as [[H1 [H2 H3]]|H]; [left|right; exact H]); (split; [exact H1|]; split; [exact H2|]);
    intros p Bp; apply H3; unfold busy in *; now rewrite F in Bp.
Qed.
Lemma step_real : forall i l v, run_ok l (fst v) -> wf_input i -> let '((l', v'), r) := loader_step lrw i l v in step_post l' v' r.
Proof.
  intros i l [x es] [OK HO] WI. cbn [fst] in *.
  assert (SAME : step_post l (x, es) (Ok tt)) by (left; split; [exact Logic.I|split; auto]).
  assert (DR : forall t p l0 v, l_pl l = Some p -> carries x (fst v) -> trig_ok Pb wf_id t -> t <> EQueueReady -> t <> ETimeout -> t <> EStart -> t <> ERestart ->
    let '((l', v'), r) := drive lrw t p l0 v in step_post l' v' r).
  { intros t p l0 v B C TO N1 N2 N3 N4. destruct (held_carries HO C B) as (T & Q & IP & SC & NI).
    pose proof (@drive_post t p l0 v (proj1 C) T Q IP SC TO N1 N2) as K. destruct (drive lrw t p l0 v) as [[l' v'] r] eqn:D. destruct K as (K1 & K2 & K3).
    assert (DEC : returned r \/ ~ returned r) by (destruct r; cbn; tauto). destruct DEC as [RT|NR]; [|right; tauto]. left. split; [exact RT|].
    destruct (drive_at D T N1 N2) as [_ DA]. destruct (K3 RT) as [A B']. split; [exact A|]. intros p' Bp. destruct (B' p' Bp) as (B1 & B2 & B3). destruct (DA p' Bp) as (T' & _).
    split; [exact T'|]. split; [exact B1|]. split; [exact B2|]. split; [exact B3|].
    intros SH. assert (NI0 : pl_state p <> Idle).
    { apply NI. eapply later_short; [|exact SH].
      pose proof (@drive_all _ lrw (fun x y => later (fst x) (fst y)) (fun x => later_refl (fst x)) (fun x y z => @later_trans (fst x) (fst y) (fst z)) later_all t p l0 v) as L.
      rewrite D in L. exact L. }
    destruct (proj2 (K1 RT NI0) p' Bp) as (_ & _ & _ & _ & NN). auto. }
  destruct i as [a ids|a b| |]; cbn [loader_step].
  - unfold handle_ids. destruct (l_pl l) as [p|] eqn:B; [|exact SAME]. destruct ids as [|i ids]; [exact SAME|]. destruct (addr_eqb a (pl_peer p)); [|exact SAME].
    apply DR; auto; try discriminate. now apply carries_refl.
  - unfold handle_block. destruct (l_pl l) as [p|] eqn:B; [|exact SAME]. destruct (addr_eqb a (pl_peer p)); [|exact SAME].
    apply DR; auto; try discriminate; try (now apply carries_refl). all: destruct b; [exact WI|exact Logic.I].
  - apply (@post_reset reset_ticker); [reflexivity|]. unfold loader_tick. cbn [stop_ticker l_pl]. destruct (l_pl l) as [p|] eqn:B.
    + destruct (@plain_call CNow x es OK Logic.I) as (x1 & r1 & -> & _ & C1). apply DR; auto; try discriminate.
    + left. split; [exact Logic.I|]. split; [exact OK|]. apply held_none. exact B.
  - apply (@post_reset reset_timer); [reflexivity|]. unfold loader_sync. cbn [stop_timer l_pl]. destruct (l_pl l) as [p|] eqn:B.
    + left. split; [exact Logic.I|]. split; [exact OK|]. intros p' Bp. apply HO. exact Bp.
    + assert (NONE : forall v' r, carries x (fst v') -> (short (fst v') -> returned r) -> step_post (stop_timer l) v' r).
      { intros v' r C R. assert (DEC : returned r \/ ~ returned r) by (destruct r; cbn; tauto). destruct DEC as [RT|NR].
        - left. split; [exact RT|]. split; [apply C|]. now apply held_none.
        - right. split; [exact NR|]. left. tauto. }
      destruct (@plain_call CConns x es OK Logic.I) as (x1 & r1 & -> & E1 & C1). cbn in r1. reads E1 X1 R1. rewrite <- X1 in R1.
      destruct (@conns_returns x1 (proj1 (proj1 C1))) as [K1 K2].
      assert (CS : returned r1 /\ forall cs, r1 = Ok cs -> forall a s, In (a, Some s) cs -> ip4 a /\ scored a x1).
      { rewrite R1. destruct (connections cord srt (re_reg x1)) as [ps|e| |]; cbn [bind]; try (split; [exact K1|discriminate]).
        split; [exact Logic.I|]. intros cs [= <-] a s Q. apply in_map_iff in Q as (q & Q1 & Q2). injection Q1 as <- QS. destruct (K2 ps eq_refl q Q2) as [A1 A2].
        split; [exact A1|]. apply A2. congruence. }
      destruct CS as [RT CS]. destruct r1 as [[|c cs]|e| |]; try (apply NONE; auto; fail).
      specialize (CS _ eq_refl). pose proof (@find_lagging_post (c :: cs) x1 (es ++ [CConns ==> Ok (c :: cs)]) (proj1 C1) CS) as FL.
      destruct (find_lagging lrw (c :: cs) (x1, es ++ [CConns ==> Ok (c :: cs)])) as [v2 r2]. destruct FL as (C2 & R2 & L2).
      assert (CC : carries x (fst v2)) by (eapply carries_trans; eauto). destruct r2 as [[|a lag]|e| |]; try (apply NONE; auto; fail).
      destruct v2 as [x2 es2]. cbn [fst] in *.
      destruct (@plain_call (CPick (length (a :: lag))) x2 es2 (proj1 C2) Logic.I) as (x3 & r3 & -> & E3 & C3). cbn in r3. reads E3 X3 R3.
      assert (LT : r3 < length (a :: lag)) by (rewrite R3; apply Nat.mod_upper_bound; discriminate).
      destruct (nth_error (a :: lag) r3) as [y|] eqn:N; [|apply nth_error_None in N; lia].
      destruct (L2 _ eq_refl y (nth_error_In _ _ N)) as [IP SC]. apply begin_post; auto; [apply C3|now apply C3].
Qed.
Lemma feeds_real : forall ins l v, run_ok l (fst v) -> Forall wf_input ins -> let '((l', v'), r) := feeds lrw ins l v in step_post l' v' r.
Proof.
  induction ins as [|i ins IH]; intros l v H W; cbn [feeds]; [left; split; [exact Logic.I|exact H]|].
  pose proof (@step_real i l v H (Forall_inv W)) as K. destruct (loader_step lrw i l v) as [[l1 v1] r1].
  destruct r1 as [u|e| |]; try exact K; (destruct K as [[_ K]|[K _]]; [|destruct K; exact Logic.I]); apply IH; auto; now apply Forall_inv_tail in W.
Qed.
(** C64, C65 *)
Lemma loader_safe : forall ins x0 l x es r, sound cfg g x0 -> moved_well g x0 -> Forall wf_input ins ->
  feeds lrw ins new_loader (x0, []) = ((l, (x, es)), r) -> short x ->
  (returned r /\ (forall p, busy l p -> pl_state p <> Idle)) \/ (~ returned r /\ exists a (k : reply (CLcb a)), In (CLcb a ==> k) es /\ ~ returned k).
Proof.
  intros ins x0 l x es r S0 M0 W E SH. pose proof (@feeds_real ins new_loader (x0, [])) as K. rewrite E in K.
  destruct K as [[R [_ H]]|[NR [H|H]]]; auto.
  - split; [split; auto|now apply held_none].
  - left. split; [exact R|]. intros p Bp. apply (H p Bp). exact SH.
  - contradiction.
Qed.
End Real.
