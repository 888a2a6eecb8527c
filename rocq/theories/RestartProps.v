(** The property C107 of /verif/properties.jsonl: a synchronisation after ten failures in a row begins at the last common block, and leads to the detected fork too. *)
From Coq Require Import Strings.Byte.
From Verif Require Import Base Kv ChainModel ChainSpec ChainTree ChainLca ChainProofs ChainExample PeersModel PeersSpec PeersProofs PeersCalls PeersProps LoadModel LoadSpec LoadProofs LoadReal LoadLeash LoadProps
  NetModel NetSpec NetProps WholeModel WholeSpec WholeProofs WholeSource WholeProps SyncSpec SyncProofs SyncProps LockSpec HonestSpec HonestProofs HonestSync HonestProps NetProofs
  ForkProofs ForkProps AlarmProofs AlarmProps StallProps DeliverProps DetectProps BeginProofs BeginProps RestartProofs.
Set Implicit Arguments.
Unset Strict Implicit.

(** The loader is idle, and peer [a] has failed ten times or more in a row; [a] is connected, has announced the score [sc], and has the proper chain [xs]; the last
    block known of it is number [k] of this chain; no earlier distance to the announced score is less than the one at a block up to number [k]. *)
Definition failed_before (g : pblock) (m : meaning) (a : addr) (sc : Z) (xs : list pblock) (k : nat) (l : loader) (v : whole) : Prop :=
  l_pl l = None /\ 10 <= fc_count (l_fc l) a /\ fair m a sc (o_real v) /\ HonestSpec.on_line a v /\
  (exists i, leash (re_lk (o_real v)) a = Ok i /\ nth_error (cids g xs) k = Some i) /\
  (forall j d, j <= k -> l_prev l = Some d -> (sc - weight g (firstn j xs) <= d)%Z).

(** * C107 *)
(** The timer fires, the other goroutines do anything true that is not about [a] meanwhile, the loader chooses [a], and LCB does not crash (C65). Then it has sent
    exactly one request to [a]; it starts with what LCB returned, which is a block of [a]'s chain, not after its leash. If [a] answers honestly from now on, it is
    synchronised inevitably, and the forks are found. *)
Theorem C107_restarted : forall cfg g ord cord srt m a sc xs k x0 ts ms l v l' v' p new, map_order ord -> ip4 a -> proper_chain m g xs -> (weight g xs <= sc)%Z ->
  initial cfg g x0 -> Forall wf_turn (ts ++ [TSync ms]) -> Forall (elsewhere m a) (concat ms) ->
  process cfg g ord cord srt new_loader (begun x0) ts = ((l, v), Ok tt) -> failed_before g m a sc xs k l v ->
  process cfg g ord cord srt l v [TSync ms] = ((l', v'), Ok tt) -> busy l' p -> pl_peer p = a -> re_sent (o_real v') = re_sent (o_real v) ++ new ->
  let s := {| st_l := l'; st_v := v'; st_open := sent_to a new; st_res := Ok tt |} in
  (short (o_real v') -> exists j c js u, j <= k /\ nth_error (cids g xs) j = Some c /\ st_open s = [MsgIDs (c :: js)] /\
    later (o_real v) u /\ later u (o_real v') /\ lcb ord (re_lk u) a = Ok c) /\
  inevitably (honest_turn cfg g ord cord srt m a xs) (fun s' => detected g m a xs s' \/ ~ short (o_real (st_v s'))) s.
Proof.
  intros cfg g ord cord srt m a sc xs k x0 ts ms l v l' v' p new OM IP PC WS X0 W EL E (IL & FC & F & ON & (i & LE & NT) & PV) ET B PA SN s.
  destruct (short_dec (o_real v')) as [SH|SH]; [|split; [contradiction|apply iv_now; right; exact SH]].
  destruct (@resync_turn cfg g ord cord srt m a sc OM IP xs PC x0 ts ms k i l v l' v' p new X0 W EL E IL FC F ON LE NT ET B PA SN SH)
    as (F' & ON' & PV' & j & c & js & u & JK & NJ & U1 & U2 & LC & SJ & AS).
  split; [intros _; exists j, c, js, u; auto 8|].
  subst s. apply (@C103_detected cfg g ord cord srt m a sc xs j x0 (ts ++ [TSync ms])); cbn [st_l st_v st_open st_res]; auto.
  - rewrite (process_app _ E). exact ET.
  - rewrite PV'. intros d D. now apply PV.
Qed.
Print Assumptions C107_restarted.

(** If no other peer lags behind, and nothing happens meanwhile, then either LCB crashes in this state and so does the process, or the loader asks [a] from what LCB returns in
    this state on. There is no third outcome. *)
Theorem C107_sole : forall cfg g ord cord srt m a sc xs k x0 ts l v, map_order ord -> permutes cord -> permutes srt -> ip4 a -> proper_chain m g xs -> (weight g xs <= sc)%Z ->
  initial cfg g x0 -> Forall wf_turn ts -> process cfg g ord cord srt new_loader (begun x0) ts = ((l, v), Ok tt) -> short (o_real v) ->
  failed_before g m a sc xs k l v -> (k < length xs \/ (weight g xs < sc)%Z) -> (forall b, connected (re_reg (o_real v)) b -> known (re_reg (o_real v)) b) ->
  (forall b, lags_behind (o_real v) b -> b = a) ->
  (lcb ord (re_lk (o_real v)) a = Panic /\ snd (process cfg g ord cord srt l v [TSync []]) = Panic) \/
  exists l' v' j c js, lcb ord (re_lk (o_real v)) a = Ok c /\ process cfg g ord cord srt l v [TSync []] = ((l', v'), Ok tt) /\ j <= k /\ nth_error (cids g xs) j = Some c /\
    re_sent (o_real v') = re_sent (o_real v) ++ [(a, MsgIDs (c :: js))] /\
    inevitably (honest_turn cfg g ord cord srt m a xs) (fun s' => detected g m a xs s' \/ ~ short (o_real (st_v s')))
      {| st_l := l'; st_v := v'; st_open := [MsgIDs (c :: js)]; st_res := Ok tt |}.
Proof.
  intros cfg g ord cord srt m a sc xs k x0 ts l v OM PO PS IP PC WS X0 W E SV ID MO KN UN. assert (ID' := ID). destruct ID' as (IL & FC & F & ON & (i & LE & NT) & PV).
  assert (TM : l_timer l = true). { assert (R : DeliverProps.running new_loader) by (split; [intros X; exfalso; now apply X|reflexivity]). exact (proj2 (process_running R E)). }
  assert (EQ : forall b, lagging (o_real v) b <-> lags_behind (o_real v) b).
  { intros b. unfold lagging, behind, lags_behind. split; intros (C & q & Q); (split; [exact C|]).
    - destruct Q as (RQ & t & z & A1 & A2 & A3). exists q, t, z. auto.
    - destruct Q as (t & z & RQ & A1 & A2 & A3). exists q. split; [exact RQ|]. exists t, z. auto. }
  destruct (always_well X0 W E SV) as (SO & MW & EN).
  assert (G : good cfg g m a sc (o_real v)). { split; [|exact F]. split; [exact SO|]. unfold undisturbed. rewrite EN. constructor. }
  destruct (@leash_ok cfg g (o_real v) a (conj SO (fun _ => MW)) SV (wf_ip4 IP)) as (i' & z & WI & LE' & HB & LZ). assert (i' = i) by congruence. subst i'.
  assert (KL : k <= length xs). { assert (X : k < length (cids g xs)) by (apply nth_error_Some; congruence). unfold cids in X. cbn [length] in X. rewrite map_length in X. lia. }
  assert (LF : length (firstn k xs) = k) by (rewrite firstn_length; lia).
  assert (TI : tip g (firstn k xs) = i). { pose proof (nth_tip g (firstn k xs) (skipn k xs)) as X. rewrite firstn_skipn, LF in X. congruence. }
  assert (LA : lagging (o_real v) a).
  { apply EQ. split; [apply ON|]. destruct (F) as (_ & _ & _ & q & RQ & SQ). exists q, sc, z. split; [exact RQ|]. split; [exact SQ|]. split; [exact LZ|].
    assert (PP : proper_chain m g (firstn k xs)) by (apply (@proper_prefix g m _ (skipn k xs)); now rewrite firstn_skipn).
    rewrite (score_at IP G SV LE HB) in LZ. injection LZ as <-. rewrite <- TI in *. destruct (tip_facts G SV PP HB) as [-> _].
    assert (FR : Forall (real_block m) (skipn k xs)). { assert (X : Forall (real_block m) xs) by apply PC. rewrite <- (firstn_skipn k xs) in X. apply Forall_app in X. apply X. }
    destruct (@weight_grows g m (firstn k xs) (skipn k xs) FR) as [A B]. rewrite firstn_skipn in A, B. destruct MO as [MO|MO]; [|lia].
    assert (skipn k xs <> []). { intros X. apply (f_equal (@length _)) in X. rewrite skipn_length in X. cbn in X. lia. } specialize (B H). lia. }
  destruct (@sole_returns cfg g ord cord srt m a sc OM IP xs PC x0 ts l v k i PO PS X0 W E TM IL FC F SV LE NT KN LA) as [CR|(l' & v' & p & c & js & LC & ET & B & PA & OP & SN)].
  { intros b Lb. apply UN, EQ, Lb. }
  { left. exact CR. }
  right. assert (SH : short (o_real v')) by (unfold short in *; now rewrite OP).
  destruct (@C107_restarted cfg g ord cord srt m a sc xs k x0 ts [] l v l' v' p [(a, MsgIDs (c :: js))] OM IP PC WS X0) as [OPN IV]; auto.
  { apply Forall_app. split; [exact W|]. repeat constructor. }
  { constructor. }
  assert (ST : sent_to a [(a, MsgIDs (c :: js))] = [MsgIDs (c :: js)]).
  { unfold sent_to. cbn [filter fst map snd]. destruct (addr_eqb a a) eqn:Q; [reflexivity|]. destruct (PeersProofs.addr_eqb_spec a a); congruence. }
  cbn [st_open] in OPN, IV. rewrite ST in OPN, IV. destruct (OPN SH) as (j & c' & js' & u & JK & NJ & Q & _). injection Q as <- <-.
  exists l', v', j, c, js. split; [exact LC|]. split; [exact ET|]. split; [exact JK|]. split; [exact NJ|]. split; [exact SN|exact IV].
Qed.
Print Assumptions C107_sole.

(** a has sent four blocks of its chain, b is on the branch that leaves it after the second, and a has not answered ten requests. *)
Definition troubled : list turn :=
  visit pa hgood (MScore (repeat xff 12) :: map (fun b => MBlock (Some b)) (firstn 4 left_side)) ++
  visit pb (greet (ver 1 5 3) DeclEmpty x57 [x6e]) (map (fun b => MBlock (Some b)) right_side) ++ mute 10 (100 * second)%Z.
(** While the loader looks for a peer, the clock moves on and b sends another block. *)
Definition meanwhile_later : list (list move) :=
  [[VTime (2000 * second)%Z]; []; [VArrive fine (AMessage (on pb (PeersProps.line hgood)) (MBlock (Some (xblk 17 16))))]].
Example C107_example :
  initial xcfg xg (xblank [] []) /\ Forall wf_turn (troubled ++ [TSync meanwhile_later]) /\ Forall (elsewhere branch pa) (concat meanwhile_later) /\
  xprocess new_loader (begun (xblank [] [])) troubled = ((loader_of troubled, end_of troubled), Ok tt) /\
  failed_before xg branch pa (2 ^ 96 - 1)%Z left_side 4 (loader_of troubled) (end_of troubled) /\
  proper_chain branch xg left_side /\ (weight xg left_side <= 2 ^ 96 - 1)%Z /\ map_order (@asis group) /\
  (let '(lo, v, r) := xprocess (loader_of troubled) (end_of troubled) [TSync meanwhile_later] in (r, option_map pl_peer (l_pl lo), re_sent (o_real v))) =
    (Ok tt, Some pa, re_sent (o_real (end_of troubled)) ++ [(pa, MsgIDs [xid 2; xid 1; xid 0])]).
Proof.
  split; [exact xblank_initial|]. split; [apply wf_turnsb; vm_compute; reflexivity|]. split.
  { constructor; [exact Logic.I|]. constructor; [|constructor]. split; [vm_compute; reflexivity|discriminate]. }
  split.
  { unfold loader_of, end_of. rewrite <- surjective_pairing. assert (R : snd (xprocess new_loader (begun (xblank [] [])) troubled) = Ok tt) by (vm_compute; reflexivity).
    rewrite <- R. apply surjective_pairing. }
  split.
  { split; [vm_compute; reflexivity|]. split; [apply Nat.leb_le; vm_compute; reflexivity|]. split.
    { split; [vm_compute; constructor|]. split; [apply true_opsb; vm_compute; reflexivity|]. split; [vm_compute; constructor|]. eexists. split; vm_compute; reflexivity. }
    split. { split; [vm_compute; auto|]. split; [vm_compute; constructor|]. assert (D : o_dist (end_of troubled) = DSelect) by (vm_compute; reflexivity). intros p. rewrite D. discriminate. }
    split; [exists (xid 4); split; vm_compute; reflexivity|]. assert (D : l_prev (loader_of troubled) = None) by (vm_compute; reflexivity). rewrite D. discriminate. }
  split; [exact (proj1 (proj2 (proj2 (proj2 C105_chosen_example))))|]. split; [vm_compute; discriminate|]. split; [|vm_compute; reflexivity].
  intros x. apply Permutation.Permutation_refl.
Qed.
Example C107_sole_example :
  short (o_real (end_of troubled)) /\ 4 < length left_side /\
  (forall b, connected (re_reg (o_real (end_of troubled))) b -> known (re_reg (o_real (end_of troubled))) b) /\
  (forall b, lags_behind (o_real (end_of troubled)) b -> b = pa) /\ lags_behind (o_real (end_of troubled)) pa /\
  lcb (@asis _) (re_lk (o_real (end_of troubled))) pa = Ok (xid 2).
Proof.
  split; [vm_compute; reflexivity|]. split; [cbn; lia|].
  assert (CN : forall b, connected (re_reg (o_real (end_of troubled))) b -> b = pa \/ b = pb).
  { intros b C. assert (D : map fst (r_conns (re_reg (o_real (end_of troubled)))) = [pa; pb]) by (vm_compute; reflexivity).
    unfold connected in C. rewrite D in C. destruct C as [<-|[<-|[]]]; auto. }
  split. { intros b C. assert (D1 : (do q <- reg_peer (re_reg (o_real (end_of troubled))) pa; Ok tt) = Ok tt) by (vm_compute; reflexivity).
    assert (D2 : (do q <- reg_peer (re_reg (o_real (end_of troubled))) pb; Ok tt) = Ok tt) by (vm_compute; reflexivity).
    destruct (CN b C) as [-> | ->]; [destruct (there D1) as (q & Q & _)|destruct (there D2) as (q & Q & _)]; exists q; exact Q. }
  split. { intros b (C & q & t & z & RQ & SQ & _). destruct (CN b C) as [-> | ->]; [reflexivity|]. exfalso.
    assert (D : (do q <- reg_peer (re_reg (o_real (end_of troubled))) pb; Ok (p_score q)) = Ok None) by (vm_compute; reflexivity).
    destruct (there D) as (q0 & Q0 & S0). assert (q0 = q) by congruence. congruence. }
  split; [|vm_compute; reflexivity]. split; [vm_compute; auto|].
  assert (D1 : (do q <- reg_peer (re_reg (o_real (end_of troubled))) pa; Ok (p_score q)) = Ok (Some (2 ^ 96 - 1)%Z)) by (vm_compute; reflexivity).
  assert (D2 : leash_score (re_lk (o_real (end_of troubled))) pa = Ok (weight xg (firstn 4 left_side))) by (vm_compute; reflexivity). destruct (there D1) as (q & RQ & SQ).
  exists q, (2 ^ 96 - 1)%Z, (weight xg (firstn 4 left_side)). split; [exact RQ|]. split; [exact SQ|]. split; [exact D2|vm_compute; reflexivity].
Qed.
(** The other outcome: the two chains have only the genesis block in common. *)
Definition doomed_restart : list turn := twins ++ mute 10 (100 * second)%Z.
Example C107_crash_example :
  (snd (xprocess new_loader (begun (xblank [] [])) doomed_restart), fc_count (l_fc (loader_of doomed_restart)) pa, lcb (@asis _) (re_lk (o_real (end_of doomed_restart))) pa,
   snd (xprocess (loader_of doomed_restart) (end_of doomed_restart) [TSync []])) = (Ok tt, 10, Panic, Panic).
Proof. vm_compute. reflexivity. Qed.
