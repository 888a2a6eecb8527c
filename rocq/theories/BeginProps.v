(** The property C105 of /verif/properties.jsonl: from the timer of the loader to the detected fork. *)
From Coq Require Import Strings.Byte.
From Verif Require Import Base Kv ChainModel ChainSpec ChainTree ChainLca ChainProofs ChainExample PeersModel PeersSpec PeersProofs PeersCalls PeersProps LoadModel LoadSpec LoadProofs LoadReal LoadLeash LoadProps
  NetModel NetSpec NetProps WholeModel WholeSpec WholeProofs WholeSource WholeProps SyncSpec SyncProofs SyncProps LockSpec HonestSpec HonestProofs HonestSync HonestProps NetProofs
  ForkProofs ForkProps AlarmProofs AlarmProps StallProps DeliverProps DetectProps BeginProofs.
Set Implicit Arguments.
Unset Strict Implicit.

(** The loader is idle, and not because peer [a] has failed ten times; [a] is connected, has announced the score [sc], and has the proper chain
    [xs]; the last block known of it is number [k] of this chain. *)
Definition idle_before (g : pblock) (m : meaning) (a : addr) (sc : Z) (xs : list pblock) (k : nat) (l : loader) (v : whole) : Prop :=
  l_pl l = None /\ fc_count (l_fc l) a < 10 /\ fair m a sc (o_real v) /\ HonestSpec.on_line a v /\
  (exists i, leash (re_lk (o_real v)) a = Ok i /\ nth_error (cids g xs) k = Some i) /\
  (forall d, l_prev l = Some d -> (sc - weight g (firstn k xs) <= d)%Z).
(** The goal: [a] is synchronised, and Stats counts a long fork with every peer on another branch. *)
Definition detected (g : pblock) (m : meaning) (a : addr) (xs : list pblock) (s : stage) : Prop :=
  synchronised g a xs s /\
  let lk := re_lk (o_real (st_v s)) in
  forall b ys c, ip4 b -> proper_chain m g ys -> leash lk b = Ok (tip g ys) -> part xs ys c -> c + 5 < length xs -> c + 5 < length ys ->
  forall ord' srt' r, map_order ord' -> sorts fork_less srt' -> stats ord' srt' lk = Ok r -> 1 <= snd r.

(** * C105 *)
(** The timer fires, the other goroutines do anything true that is not about [a] meanwhile, and the loader chooses [a] (C81 says when it may). Then it has
    sent exactly one request to [a], which [a] can answer; if [a] answers honestly from now on, it is synchronised inevitably, and the forks are found. *)
Theorem C105_chosen : forall cfg g ord cord srt m a sc xs k x0 ts ms l v l' v' p new, ip4 a -> proper_chain m g xs -> (weight g xs <= sc)%Z ->
  initial cfg g x0 -> Forall wf_turn (ts ++ [TSync ms]) -> Forall (elsewhere m a) (concat ms) ->
  process cfg g ord cord srt new_loader (begun x0) ts = ((l, v), Ok tt) -> idle_before g m a sc xs k l v ->
  process cfg g ord cord srt l v [TSync ms] = ((l', v'), Ok tt) -> busy l' p -> pl_peer p = a -> re_sent (o_real v') = re_sent (o_real v) ++ new ->
  let s := {| st_l := l'; st_v := v'; st_open := sent_to a new; st_res := Ok tt |} in
  (short (o_real v') -> exists i js, nth_error (cids g xs) k = Some i /\ st_open s = [MsgIDs (i :: js)]) /\
  inevitably (honest_turn cfg g ord cord srt m a xs) (fun s' => detected g m a xs s' \/ ~ short (o_real (st_v s'))) s.
Proof.
  intros cfg g ord cord srt m a sc xs k x0 ts ms l v l' v' p new IP PC WS X0 W EL E (IL & FC & F & ON & (i & LE & NT) & PV) ET B PA SN s.
  destruct (short_dec (o_real v')) as [SH|SH]; [|split; [contradiction|apply iv_now; right; exact SH]].
  destruct (@sync_turn cfg g ord cord srt m a sc IP xs PC x0 ts ms k i l v l' v' p new X0 W EL E IL FC F ON LE NT ET B PA SN SH) as (F' & ON' & AS & PV' & js & SJ).
  split; [intros _; exists i, js; auto|].
  subst s. apply (@C103_detected cfg g ord cord srt m a sc xs k x0 (ts ++ [TSync ms])); cbn [st_l st_v st_open st_res]; auto.
  - rewrite (process_app _ E). exact ET.
  - rewrite PV'. exact PV.
Qed.
Print Assumptions C105_chosen.

(** Peer [b] is connected, and the score it has announced is more than the one of its leash. *)
Definition lags_behind (x : real) (b : addr) : Prop :=
  connected (re_reg x) b /\ exists q t z, reg_peer (re_reg x) b = Ok q /\ p_score q = Some t /\ leash_score (re_lk x) b = Ok z /\ (z < t)%Z.
(** If no other peer lags behind, and nothing happens meanwhile, the loader does choose [a] when the timer fires, provided that [a] has announced more than the
    weight of its chain up to its leash, as it has if it has not been synchronised. So the process needs only this turn and the answers of [a]. *)
Theorem C105_sole : forall cfg g ord cord srt m a sc xs k x0 ts l v, permutes cord -> permutes srt -> ip4 a -> proper_chain m g xs -> (weight g xs <= sc)%Z ->
  initial cfg g x0 -> Forall wf_turn ts -> process cfg g ord cord srt new_loader (begun x0) ts = ((l, v), Ok tt) -> short (o_real v) ->
  idle_before g m a sc xs k l v -> (k < length xs \/ (weight g xs < sc)%Z) -> (forall b, connected (re_reg (o_real v)) b -> known (re_reg (o_real v)) b) ->
  (forall b, lags_behind (o_real v) b -> b = a) ->
  exists l' v' i js, process cfg g ord cord srt l v [TSync []] = ((l', v'), Ok tt) /\ nth_error (cids g xs) k = Some i /\
    re_sent (o_real v') = re_sent (o_real v) ++ [(a, MsgIDs (i :: js))] /\
    inevitably (honest_turn cfg g ord cord srt m a xs) (fun s' => detected g m a xs s' \/ ~ short (o_real (st_v s')))
      {| st_l := l'; st_v := v'; st_open := [MsgIDs (i :: js)]; st_res := Ok tt |}.
Proof.
  intros cfg g ord cord srt m a sc xs k x0 ts l v PO PS IP PC WS X0 W E SV ID MO KN UN. assert (ID' := ID). destruct ID' as (IL & FC & F & ON & (i & LE & NT) & PV).
  assert (TM : l_timer l = true). { assert (R : DeliverProps.running new_loader) by (split; [intros X; exfalso; now apply X|reflexivity]). exact (proj2 (process_running R E)). }
  assert (EQ : forall b, lagging (o_real v) b <-> lags_behind (o_real v) b).
  { intros b. unfold lagging, behind, lags_behind. split; intros (C & q & Q); (split; [exact C|]).
    - destruct Q as (RQ & t & z & A1 & A2 & A3). exists q, t, z. auto.
    - destruct Q as (t & z & RQ & A1 & A2 & A3). exists q. split; [exact RQ|]. exists t, z. auto. }
  destruct (always_well X0 W E SV) as (SO & MW & EN).
  assert (G : good cfg g m a sc (o_real v)). { split; [|exact F]. split; [exact SO|]. unfold undisturbed. rewrite EN. constructor. }
  destruct (@leash_ok cfg g (o_real v) a (conj SO (fun _ => MW)) SV (wf_ip4 IP)) as (i' & z & WI & LE' & HB & LZ). assert (i' = i) by congruence. subst i'.
  assert (KL : k <= length xs). { assert (X : k < length (cids g xs)) by (apply nth_error_Some; congruence). unfold cids in X. cbn [length] in X. rewrite map_length in X. lia. }
  assert (LF : length (firstn k xs) = k) by (rewrite firstn_length; lia).
  assert (TI : tip g (firstn k xs) = i). { pose proof (nth_tip g (firstn k xs) (skipn k xs)) as X. rewrite firstn_skipn, LF in X. congruence. }
  assert (LA : lagging (o_real v) a).
  { apply EQ. split; [apply ON|]. destruct (F) as (_ & _ & _ & q & RQ & SQ). exists q, sc, z. split; [exact RQ|]. split; [exact SQ|]. split; [exact LZ|].
    assert (PP : proper_chain m g (firstn k xs)) by (apply (@proper_prefix g m _ (skipn k xs)); now rewrite firstn_skipn).
    rewrite (score_at IP G SV LE HB) in LZ. injection LZ as <-. rewrite <- TI in *. destruct (tip_facts G SV PP HB) as [-> _].
    assert (FR : Forall (real_block m) (skipn k xs)). { assert (X : Forall (real_block m) xs) by apply PC. rewrite <- (firstn_skipn k xs) in X. apply Forall_app in X. apply X. }
    destruct (@weight_grows g m (firstn k xs) (skipn k xs) FR) as [A B]. rewrite firstn_skipn in A, B. destruct MO as [MO|MO]; [|lia].
    assert (skipn k xs <> []). { intros X. apply (f_equal (@length _)) in X. rewrite skipn_length in X. cbn in X. lia. } specialize (B H). lia. }
  destruct (@sole_turn cfg g ord cord srt m a sc IP x0 ts l v PO PS X0 W E TM IL FC F SV KN LA) as (l' & v' & p & ET & B & PA & OP & i' & js & LE'' & SN).
  { intros b Lb. apply UN, EQ, Lb. }
  assert (i' = i) by congruence. subst i'. exists l', v', i, js. split; [exact ET|]. split; [exact NT|]. split; [exact SN|].
  assert (SH : short (o_real v')) by (unfold short in *; now rewrite OP).
  destruct (@C105_chosen cfg g ord cord srt m a sc xs k x0 ts [] l v l' v' p [(a, MsgIDs (i :: js))] IP PC WS X0) as [OPN IV]; auto.
  { apply Forall_app. split; [exact W|]. repeat constructor. }
  { constructor. }
  assert (ST : sent_to a [(a, MsgIDs (i :: js))] = [MsgIDs (i :: js)]).
  { unfold sent_to. cbn [filter fst map snd]. destruct (addr_eqb a a) eqn:Q; [reflexivity|]. destruct (PeersProofs.addr_eqb_spec a a); congruence. }
  rewrite ST in IV. exact IV.
Qed.
Print Assumptions C105_sole.

(** As in C103, but the process is at the point before the timer fires: only a lags behind. *)
Definition before : list turn :=
  visit pa hgood [MScore (repeat xff 12)] ++ visit pb (greet (ver 1 5 3) DeclEmpty x57 [x6e]) (map (fun b => MBlock (Some b)) right_side).
Lemma there : forall A B (f : A -> B) (o : outcome A) y, (do q <- o; Ok (f q)) = Ok y -> exists q, o = Ok q /\ f q = y.
Proof. intros A B f [q|e| |] y E; try discriminate E. cbn [bind] in E. injection E as E. eauto. Qed.
Example C105_sole_example :
  initial xcfg xg (xblank [] []) /\ Forall wf_turn before /\ xprocess new_loader (begun (xblank [] [])) before = ((loader_of before, end_of before), Ok tt) /\
  short (o_real (end_of before)) /\ idle_before xg sides pa (2 ^ 96 - 1)%Z left_side 0 (loader_of before) (end_of before) /\ 0 < length left_side /\
  (forall b, connected (re_reg (o_real (end_of before))) b -> known (re_reg (o_real (end_of before))) b) /\
  lags_behind (o_real (end_of before)) pa /\ (forall b, lags_behind (o_real (end_of before)) b -> b = pa) /\
  proper_chain sides xg left_side /\ (weight xg left_side <= 2 ^ 96 - 1)%Z.
Proof.
  split; [exact xblank_initial|]. split; [apply wf_turnsb; vm_compute; reflexivity|]. split.
  { unfold loader_of, end_of. rewrite <- surjective_pairing. assert (R : snd (xprocess new_loader (begun (xblank [] [])) before) = Ok tt) by (vm_compute; reflexivity).
    rewrite <- R. apply surjective_pairing. }
  split; [vm_compute; reflexivity|]. split.
  { split; [vm_compute; reflexivity|]. split; [vm_compute; lia|]. split.
    { split; [vm_compute; constructor|]. split; [apply true_opsb; vm_compute; reflexivity|]. split; [vm_compute; constructor|]. eexists. split; vm_compute; reflexivity. }
    split. { split; [vm_compute; auto|]. split; [vm_compute; constructor|]. assert (D : o_dist (end_of before) = DSelect) by (vm_compute; reflexivity). intros p. rewrite D. discriminate. }
    split; [exists (xid 0); split; vm_compute; reflexivity|]. assert (D : l_prev (loader_of before) = None) by (vm_compute; reflexivity). rewrite D. discriminate. }
  split; [cbn; lia|].
  assert (CN : forall b, connected (re_reg (o_real (end_of before))) b -> b = pa \/ b = pb).
  { intros b C. assert (D : map fst (r_conns (re_reg (o_real (end_of before)))) = [pa; pb]) by (vm_compute; reflexivity).
    unfold connected in C. rewrite D in C. destruct C as [<-|[<-|[]]]; auto. }
  split. { intros b C. assert (D1 : (do q <- reg_peer (re_reg (o_real (end_of before))) pa; Ok tt) = Ok tt) by (vm_compute; reflexivity).
    assert (D2 : (do q <- reg_peer (re_reg (o_real (end_of before))) pb; Ok tt) = Ok tt) by (vm_compute; reflexivity).
    destruct (CN b C) as [-> | ->]; [destruct (there D1) as (q & Q & _)|destruct (there D2) as (q & Q & _)]; exists q; exact Q. }
  split. { split; [vm_compute; auto|].
    assert (D1 : (do q <- reg_peer (re_reg (o_real (end_of before))) pa; Ok (p_score q)) = Ok (Some (2 ^ 96 - 1)%Z)) by (vm_compute; reflexivity).
    assert (D2 : leash_score (re_lk (o_real (end_of before))) pa = Ok (weight xg [])) by (vm_compute; reflexivity). destruct (there D1) as (q & RQ & SQ).
    exists q, (2 ^ 96 - 1)%Z, (weight xg []). split; [exact RQ|]. split; [exact SQ|]. split; [exact D2|vm_compute; reflexivity]. }
  split; [|split; [apply sides_proper|vm_compute; discriminate]].
  intros b (C & q & t & z & RQ & SQ & _). destruct (CN b C) as [-> | ->]; [reflexivity|]. exfalso.
  assert (D : (do q <- reg_peer (re_reg (o_real (end_of before))) pb; Ok (p_score q)) = Ok None) by (vm_compute; reflexivity).
  destruct (there D) as (q0 & Q0 & S0). assert (q0 = q) by congruence. congruence.
Qed.
(** While the loader looks for a peer, the clock moves on and b sends a block. *)
Definition meanwhile_b : list (list move) :=
  [[VTime 5%Z]; []; [VArrive fine (AMessage (on pb (PeersProps.line hgood)) (MBlock (Some (xblk 17 16))))]].
Definition branch : meaning := means (left_side ++ right_side ++ [xblk 17 16]).
Example C105_chosen_example :
  Forall wf_turn (before ++ [TSync meanwhile_b]) /\ Forall (elsewhere branch pa) (concat meanwhile_b) /\
  fair branch pa (2 ^ 96 - 1)%Z (o_real (end_of before)) /\ proper_chain branch xg left_side /\
  (let '(lo, v, r) := xprocess (loader_of before) (end_of before) [TSync meanwhile_b] in (r, option_map pl_peer (l_pl lo), re_sent (o_real v), length (re_ops (o_real v)), re_now (o_real v))) =
    (Ok tt, Some pa, re_sent (o_real (end_of before)) ++ [(pa, MsgIDs [xid 0])], S (length (re_ops (o_real (end_of before)))), 5%Z).
Proof.
  split; [apply wf_turnsb; vm_compute; reflexivity|]. split.
  { constructor; [exact Logic.I|]. constructor; [|constructor]. split; [vm_compute; reflexivity|discriminate]. }
  split. { split; [vm_compute; constructor|]. split; [apply true_opsb; vm_compute; reflexivity|]. split; [vm_compute; constructor|]. eexists. split; vm_compute; reflexivity. }
  split; [|vm_compute; reflexivity].
  split; [cbn; repeat (split; [reflexivity|]); exact I|]. split; [different|]. apply Forall_forall; intros b B; split; [apply wf_pblockb_ok|];
    (cbn in B; repeat (destruct B as [<-|B]; [first [reflexivity|split; [discriminate|]; split; [vm_compute; split; [reflexivity|discriminate]|reflexivity]]|]); destruct B).
Qed.

