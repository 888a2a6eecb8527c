(** The property C90 of /verif/properties.jsonl: synchronisation with an honest peer in the running process. *)
From Coq Require Import Strings.Byte.
From Verif Require Import Base Kv ChainModel ChainSpec ChainProofs ChainExample PeersModel PeersSpec PeersProps LoadModel LoadSpec LoadProofs LoadReal LoadLeash LoadProps
  NetModel NetSpec NetProps WholeModel WholeSpec WholeProofs WholeSource WholeProps SyncSpec SyncProofs SyncProps LockSpec HonestSpec HonestProofs HonestSync NetProofs.
Set Implicit Arguments.
Unset Strict Implicit.

(** * C90 *)
(** The process has run from its start, and the loader has asked the connected peer [a] for IDs. From now on [a] is honest: it answers every
    open request, and its answers go through the distributor into the stores and then to the loader; an answer may also come in the middle
    of a turn of the loader, before the other requests of that turn are sent. Between that, and between any two calls of the loader, the respawn loop, the diallers, the listener, and the distributor with messages of other peers do
    anything that is true and is not about [a], and the timers fire before the timeout. Then the process goes on until the session is over, and
    the leash of [a] is at the head of its chain. Missing: the premise about the previous difference of scores cannot be dropped (see
    C73 and below). *)
Theorem C90_honest_process_partial : forall cfg g ord cord srt m a sc bs k x0 ts s, ip4 a -> proper_chain m g bs -> (weight g bs <= sc)%Z ->
  initial cfg g x0 -> Forall wf_turn ts -> process cfg g ord cord srt new_loader (begun x0) ts = ((st_l s, st_v s), Ok tt) -> st_res s = Ok tt ->
  fair m a sc (o_real (st_v s)) -> on_line a (st_v s) ->
  asking g a bs k {| sc_l := st_l s; sc_x := o_real (st_v s); sc_open := st_open s |} ->
  (forall d, l_prev (st_l s) = Some d -> (sc - weight g (firstn k bs) <= d)%Z) ->
  inevitably (honest_turn cfg g ord cord srt m a bs) (fun s' => synchronised g a bs s' \/ ~ short (o_real (st_v s'))) s.
Proof.
  intros cfg g ord cord srt m a sc bs k x0 ts s IP PC WS X0 W E RS F ON AS PV.
  refine (inevitably_imp _ (@run_sync cfg g ord cord srt m a sc IP bs PC WS x0 ts k s X0 W E RS F ON AS PV)). intros s' [[X _]|X]; auto.
Qed.
Print Assumptions C90_honest_process_partial.

(** Two peers connect and announce a score; the loader asks the first one, which has the chain 1-2-3. *)
Definition meeting : list turn :=
  visit pa hgood [MScore (repeat xff 12)] ++ visit pb (greet (ver 1 5 3) DeclEmpty x57 [x6e]) [MScore (repeat xff 11)] ++ [TSync []].
Definition met : stage := {| st_l := loader_of meeting; st_v := end_of meeting; st_open := [MsgIDs [xid 0]]; st_res := Ok tt |}.
Definition homeward : list turn :=
  tell pa (MBlockIds [xid 0; xid 1; xid 2]) ++ tell pa (MBlock (Some (xblk 2 1))) ++ tell pb (MBlock (Some (xblk 1 0))) ++ [TMove (VTime 5%Z); TTick []] ++
  tell pa (MBlock (Some (xblk 1 0))) ++ tell pa (MSignatures [xid 3]) ++ tell pa (MBlock (Some (xblk 3 2))) ++ tell pa (MBlockIds [xid 3]).
Example C90_example :
  initial xcfg xg (xblank [] []) /\ Forall wf_turn meeting /\ xprocess new_loader (begun (xblank [] [])) meeting = ((st_l met, st_v met), Ok tt) /\
  fair (means three) pa (2 ^ 96 - 1)%Z (o_real (st_v met)) /\ on_line pa (st_v met) /\ (weight xg three <= 2 ^ 96 - 1)%Z /\
  asking xg pa three 0 {| sc_l := st_l met; sc_x := o_real (st_v met); sc_open := st_open met |} /\ l_prev (st_l met) = None /\
  snd (xprocess (st_l met) (st_v met) homeward) = Ok tt /\ l_pl (fst (fst (xprocess (st_l met) (st_v met) homeward))) = None /\
  leash (re_lk (o_real (snd (fst (xprocess (st_l met) (st_v met) homeward))))) pa = Ok (tip xg three) /\
  busy (fst (fst (xprocess (st_l met) (st_v met) (firstn 15 homeward)))) (peer_of (fst (fst (xprocess (st_l met) (st_v met) (firstn 15 homeward))))).
Proof.
  split; [exact xblank_initial|]. split; [apply wf_turnsb; vm_compute; reflexivity|]. split.
  { unfold met, loader_of, end_of. cbn [st_l st_v]. rewrite <- surjective_pairing. assert (R : snd (xprocess new_loader (begun (xblank [] [])) meeting) = Ok tt) by (vm_compute; reflexivity).
    rewrite <- R. apply surjective_pairing. }
  split. { split; [vm_compute; constructor|]. split; [vm_compute; constructor|]. split; [vm_compute; constructor|]. eexists. split; vm_compute; reflexivity. }
  split. { split; [vm_compute; auto|]. split; [vm_compute; constructor|]. assert (D : o_dist (st_v met) = DSelect) by (vm_compute; reflexivity). intros p. rewrite D. discriminate. }
  split; [vm_compute; discriminate|]. split.
  { exists (peer_of (st_l met)), [xid 0], (xid 0). split; [vm_compute; reflexivity|]. split; [split; vm_compute; reflexivity|]. split; [vm_compute; reflexivity|].
    split; [reflexivity|]. split; [|split; [reflexivity|vm_compute; reflexivity]]. exists [], (xid 0), []. split; [reflexivity|]. split; [reflexivity|constructor]. }
  split; [vm_compute; reflexivity|]. split; [vm_compute; reflexivity|]. split; [vm_compute; reflexivity|]. split; vm_compute; reflexivity.
Qed.

(** Answers in the middle of turns: the IDs come while the loader handles a tick; block 1 comes after the loader has asked for it, and before it asks
    for block 2. *)
Definition stage_of (z : (loader * whole) * outcome unit) (q : list LoadModel.message) : stage :=
  {| st_l := fst (fst z); st_v := snd (fst z); st_open := q; st_res := snd z |}.
Lemma triple : forall (z : (loader * whole) * outcome unit) o, snd z = o -> z = ((fst (fst z), snd (fst z)), o).
Proof. intros [[l v] r] o <-. reflexivity. Qed.
Notation from_pa := (on pa (PeersProps.line hgood)).
Definition came : stage :=
  stage_of (xprocess (st_l met) (st_v met) [TTick [[VTime 1%Z; VArrive fine (AMessage from_pa (MBlockIds [xid 0; xid 1; xid 2])); VTime 2%Z]]]) [].
Definition quick : list (list move) := [[]; []; [VTime 3%Z]; []; [VTime 4%Z; VArrive fine (AMessage from_pa (MBlock (Some (xblk 1 0)))); VTime 5%Z]; []].
Definition outrun : stage := stage_of (xprocess (st_l came) (st_v came) [TTake quick]) [MsgBlock (xid 2)].
Definition grow_sent (s s' : stage) : list (addr * LoadModel.message) := skipn (length (re_sent (o_real (st_v s)))) (re_sent (o_real (st_v s'))).
Definition grow_calls (s s' : stage) : list event := skipn (length (o_calls (st_v s))) (o_calls (st_v s')).
Lemma grown_by : forall A (l l' : list A), firstn (length l) l' = l -> l' = l ++ skipn (length l) l'.
Proof. intros A l l' E. rewrite <- E at 1. symmetry. apply firstn_skipn. Qed.
Lemma came_facts : st_res met = Ok tt /\ st_res came = Ok tt /\ o_dist (st_v met) = DSelect /\ o_dead (st_v came) = false /\
  re_sent (o_real (st_v came)) = re_sent (o_real (st_v met)) /\ o_dist (st_v came) = DSending (PIDs pa [xid 0; xid 1; xid 2]).
Proof. vm_compute. repeat split. Qed.
Lemma came_time : forall p, l_pl (st_l met) = Some p ->
  (re_now (o_real (others xcfg xg (@asis _) (@asis _) (st_v met) [VTime 1%Z; VArrive fine (AMessage from_pa (MBlockIds [xid 0; xid 1; xid 2])); VTime 2%Z])) - pl_ts p <= 30 * second)%Z.
Proof.
  intros p B. assert (T : match l_pl (st_l met) with Some p0 => (re_now (o_real (others xcfg xg (@asis _) (@asis _) (st_v met)
    [VTime 1%Z; VArrive fine (AMessage from_pa (MBlockIds [xid 0; xid 1; xid 2])); VTime 2%Z])) - pl_ts p0 <=? 30 * second)%Z | None => true end = true) by (vm_compute; reflexivity).
  rewrite B in T. now apply Z.leb_le.
Qed.
Lemma outrun_facts : st_res outrun = Ok tt /\ o_dead (st_v outrun) = false /\ o_dist (st_v outrun) = DSending (PBlock pa (xblk 1 0)) /\
  grow_sent came outrun = [(pa, MsgBlock (xid 1)); (pa, MsgBlock (xid 2))] /\
  firstn (length (re_sent (o_real (st_v came)))) (re_sent (o_real (st_v outrun))) = re_sent (o_real (st_v came)).
Proof. vm_compute. repeat split. Qed.
Lemma outrun_calls : map requests (grow_calls came outrun) = [None; None; None; Some (pa, MsgBlock (xid 1)); Some (pa, MsgBlock (xid 2)); None].
Proof. vm_compute. reflexivity. Qed.
Lemma outrun_log : firstn (length (o_calls (st_v came))) (o_calls (st_v outrun)) = o_calls (st_v came).
Proof. vm_compute. reflexivity. Qed.
Lemma fourth : forall L a b c q t, map requests L = a :: b :: c :: Some q :: t -> exists e, In e (firstn 4 L) /\ requests e = Some q.
Proof. intros [|e0 [|e1 [|e2 [|e3 L]]]] a b c q t E; try discriminate. injection E as _ _ _ E _. exists e3. split; [cbn; auto|exact E]. Qed.
Lemma came_answers : answer xg three pa (MsgIDs [xid 0]) (InIDs pa [xid 0; xid 1; xid 2]).
Proof.
  constructor. exists 0, [], [xid 3]. split; [exists [], (xid 0), []; split; [reflexivity|]; split; [reflexivity|constructor]|].
  split; [reflexivity|]. split; [discriminate|]. split; [cbn; auto|]. left. cbn. auto.
Qed.
Lemma quick_wf : wf_turn (TTake quick) /\ wf_turn (TTick [[VTime 1%Z; VArrive fine (AMessage from_pa (MBlockIds [xid 0; xid 1; xid 2])); VTime 2%Z]]).
Proof.
  assert (W := @wf_turnsb [TTake quick; TTick [[VTime 1%Z; VArrive fine (AMessage from_pa (MBlockIds [xid 0; xid 1; xid 2])); VTime 2%Z]]] ltac:(vm_compute; reflexivity)).
  split; [exact (Forall_inv W)|exact (Forall_inv (Forall_inv_tail W))].
Qed.
Example C90_within_example : let next := within_turn xcfg xg (@asis _) (@asis _) (@asis _) (means three) pa three in next met came /\ next came outrun.
Proof.
  destruct came_facts as (R0 & R1 & D0 & L1 & S1 & D1). destruct outrun_facts as (R2 & L2 & D2 & S2 & F2). split.
  - exists (st_l met), (st_v met), (TTick [[VTime 1%Z; VArrive fine (AMessage from_pa (MBlockIds [xid 0; xid 1; xid 2])); VTime 2%Z]]), [[VTime 1%Z; VArrive fine (AMessage from_pa (MBlockIds [xid 0; xid 1; xid 2])); VTime 2%Z]], [], [], [VTime 1%Z], fine, from_pa,
      (MBlockIds [xid 0; xid 1; xid 2]), [VTime 2%Z], [], [], (MsgIDs [xid 0]), [], (InIDs pa [xid 0; xid 1; xid 2]), (PIDs pa [xid 0; xid 1; xid 2]).
    split; [exact R0|]. split; [constructor|]. split; [now apply triple|]. split; [exact (eq_trans S1 (eq_sym (app_nil_r _)))|].
    split; [left; split; [reflexivity|]; split; [exact D0|]; split; [exact came_time|now left]|]. split; [reflexivity|]. split; [apply quick_wf|].
    split; [repeat constructor|]. split; [reflexivity|]. split; [reflexivity|]. split; [exact came_answers|]. split; [now right|]. split; [exact D1|]. split; [reflexivity|]. auto.
  - exists (st_l came), (st_v came), (TTake quick), quick, (grow_sent came outrun), [[]; []; [VTime 3%Z]; []], [VTime 4%Z], fine, from_pa, (MBlock (Some (xblk 1 0))), [VTime 5%Z], [[]],
      [], (MsgBlock (xid 1)), [MsgBlock (xid 2)], (InBlock pa (Some (xblk 1 0))), (PBlock pa (xblk 1 0)).
    split; [exact R1|]. split; [constructor|]. split; [now apply triple|]. split; [now apply grown_by|].
    split. { right. split; [reflexivity|]. split; [exists (PIDs pa [xid 0; xid 1; xid 2]); split; [exact D1|reflexivity]|]. right.
             destruct (fourth outrun_calls) as (e & IE & RE). exists (grow_calls came outrun), e. split; [exact (grown_by outrun_log)|]. split; [exact IE|exact RE]. }
    split; [reflexivity|]. split; [apply quick_wf|]. split; [repeat constructor|]. split; [reflexivity|]. split; [reflexivity|]. split; [exact (@answer_block xg three pa (xblk 1 0) (or_introl eq_refl))|].
    split; [now left|]. split; [exact D2|]. split; [reflexivity|]. split; [exact L2|]. split; [|reflexivity].
    exact (f_equal (fun n => st_open came ++ sent_to pa n) S2).
Qed.

(** Without the premise about the previous difference the claim is false, from empty stores: the session with [pa] brings blocks 1 and 2 and
    times out; [pb] connects and announces the same score; after its first batch the difference of scores is the same as at the end of
    the session with [pa], and the session ends although block 3 is missing and nothing is asked any more. *)
Definition ydays : list turn :=
  visit pa hgood [MScore (repeat xff 12)] ++ [TSync []] ++ tell pa (MBlockIds [xid 0; xid 1; xid 2]) ++ tell pa (MBlock (Some (xblk 1 0))) ++ tell pa (MBlock (Some (xblk 2 1))) ++
  [TMove (VTime (100 * second)%Z); TTick []] ++ visit pb hpb [MScore (repeat xff 12)] ++ [TSync []].
Definition xblank1 : real :=
  {| re_lk := at_end []; re_reg := rrun xcfg []; re_now := 0%Z; re_env := []; re_faults := []; re_rand := 1; re_sent := []; re_lines := []; re_ops := []; re_rops := [] |}.
Lemma xblank1_initial : initial xcfg xg xblank1.
Proof.
  split; [|split; [intros l0 _; exact I|reflexivity]]. split; [exact xg_wf|]. split; [exists xl0; split; [exact xg_start|reflexivity]|]. split; [constructor|]. split; [constructor|]. split; [reflexivity|constructor].
Qed.
Notation xrun := (process xcfg xg (@asis _) (@asis _) (@asis _)).
Definition asked : stage := stage_of (xrun new_loader (begun xblank1) ydays) [MsgIDs [xid 0]].
Notation reply_pb := (TMove (VArrive fine (AMessage (on pb (PeersProps.line hpb)) (MBlockIds [xid 1; xid 2])))).
Definition replied : stage := stage_of (xrun (st_l asked) (st_v asked) [reply_pb]) [].
Definition left_alone : stage := stage_of (xrun (st_l replied) (st_v replied) [TTake []]) [].
Lemma asked_run : xrun new_loader (begun xblank1) ydays = ((st_l asked, st_v asked), Ok tt).
Proof. apply triple. vm_compute. reflexivity. Qed.
Lemma replied_res : st_res replied = Ok tt.
Proof. vm_compute. reflexivity. Qed.
Lemma says_step : forall cfg g ord cord srt m a bs s x from msg q i, st_res s = Ok tt -> o_dist (st_v s) = DSelect -> st_open s = [q] ->
  ln_addr from = Some a -> ft_fault x = None -> answer g bs a q i -> brings msg i ->
  re_sent (o_real (snd (fst (process cfg g ord cord srt (st_l s) (st_v s) [TMove (VArrive x (AMessage from msg))])))) = re_sent (o_real (st_v s)) ->
  honest_turn cfg g ord cord srt m a bs s (stage_of (process cfg g ord cord srt (st_l s) (st_v s) [TMove (VArrive x (AMessage from msg))]) []).
Proof.
  intros cfg g ord cord srt m a bs s x from msg q i R D O L F A B SN. left. exists (st_l s), (st_v s), (TMove (VArrive x (AMessage from msg))), []. split; [exact R|]. split; [constructor|].
  split; [now apply triple|]. split; [cbn [stage_of st_v]; now rewrite SN, app_nil_r|]. left. exists x, from, msg, [], q, [], i. auto 10.
Qed.
Lemma takes_step : forall cfg g ord cord srt m a bs s p, st_res s = Ok tt -> o_dist (st_v s) = DSending p -> st_open s = [] -> sender p = a ->
  o_dead (snd (fst (process cfg g ord cord srt (st_l s) (st_v s) [TTake []]))) = false ->
  re_sent (o_real (snd (fst (process cfg g ord cord srt (st_l s) (st_v s) [TTake []])))) = re_sent (o_real (st_v s)) ->
  honest_turn cfg g ord cord srt m a bs s (stage_of (process cfg g ord cord srt (st_l s) (st_v s) [TTake []]) []).
Proof.
  intros cfg g ord cord srt m a bs s p R D O L DE SN. left. exists (st_l s), (st_v s), (TTake []), []. split; [exact R|]. split; [constructor|].
  split; [now apply triple|]. split; [cbn [stage_of st_v]; now rewrite SN, app_nil_r|]. right. exists p, []. split; [exact D|]. split; [exact L|]. split; [reflexivity|]. split; [constructor|].
  split; [constructor|]. split; [exact DE|]. now rewrite O.
Qed.
Lemma asked_res : st_res asked = Ok tt.
Proof. vm_compute. reflexivity. Qed.
Lemma asked_select : o_dist (st_v asked) = DSelect.
Proof. vm_compute. reflexivity. Qed.
Lemma reply_answers : answer xg three pb (MsgIDs [xid 0]) (InIDs pb [xid 1; xid 2]).
Proof.
  constructor. exists 0, [xid 0], [xid 3]. split; [exists [], (xid 0), []; split; [reflexivity|]; split; [reflexivity|constructor]|].
  split; [reflexivity|]. split; [discriminate|]. split; [cbn; auto|]. left. cbn. auto.
Qed.
Lemma replied_sent : re_sent (o_real (snd (fst (xrun (st_l asked) (st_v asked) [reply_pb])))) = re_sent (o_real (st_v asked)).
Proof. vm_compute. reflexivity. Qed.
Lemma replied_step : honest_turn xcfg xg (@asis _) (@asis _) (@asis _) (means three) pb three asked replied.
Proof.
  unfold replied.
  exact (@says_step xcfg xg (@asis _) (@asis _) (@asis _) (means three) pb three asked fine (on pb (PeersProps.line hpb)) (MBlockIds [xid 1; xid 2]) (MsgIDs [xid 0])
    (InIDs pb [xid 1; xid 2]) asked_res asked_select eq_refl eq_refl eq_refl reply_answers (or_intror eq_refl) replied_sent).
Qed.
Lemma replied_sending : o_dist (st_v replied) = DSending (PIDs pb [xid 1; xid 2]).
Proof. vm_compute. reflexivity. Qed.
Lemma left_dead : o_dead (snd (fst (xrun (st_l replied) (st_v replied) [TTake []]))) = false.
Proof. vm_compute. reflexivity. Qed.
Lemma left_sent : re_sent (o_real (snd (fst (xrun (st_l replied) (st_v replied) [TTake []])))) = re_sent (o_real (st_v replied)).
Proof. vm_compute. reflexivity. Qed.
Lemma left_step : honest_turn xcfg xg (@asis _) (@asis _) (@asis _) (means three) pb three replied left_alone.
Proof.
  unfold left_alone.
  exact (@takes_step xcfg xg (@asis _) (@asis _) (@asis _) (means three) pb three replied (PIDs pb [xid 1; xid 2]) replied_res replied_sending eq_refl eq_refl left_dead left_sent).
Qed.
Lemma left_free : free pb (st_v left_alone).
Proof. assert (D : o_dist (st_v left_alone) = DSelect) by (vm_compute; reflexivity). intros p. rewrite D. discriminate. Qed.
Lemma left_leash : leash (re_lk (o_real (st_v left_alone))) pb = Ok (xid 2).
Proof. vm_compute. reflexivity. Qed.
Lemma shorts : short (o_real (st_v asked)) /\ short (o_real (st_v replied)) /\ short (o_real (st_v left_alone)).
Proof. split; [|split]; vm_compute; reflexivity. Qed.
Lemma busies : busy (st_l asked) (peer_of (st_l asked)) /\ busy (st_l replied) (peer_of (st_l replied)).
Proof. split; vm_compute; reflexivity. Qed.
Lemma asked_fair : fair (means three) pb (2 ^ 96 - 1)%Z (o_real (st_v asked)).
Proof.
  split; [vm_compute; constructor|]. split.
  - assert (O : re_ops (o_real (st_v asked)) = let u := [(Put (xblk 1 0) pa, None); (Put (xblk 2 1) pa, None)] in u ++ u ++ u) by (vm_compute; reflexivity). rewrite O. repeat constructor.
  - split; [vm_compute; constructor|]. eexists. split; vm_compute; reflexivity.
Qed.
Lemma asked_asking : asking xg pb three 0 {| sc_l := st_l asked; sc_x := o_real (st_v asked); sc_open := st_open asked |}.
Proof.
  exists (peer_of (st_l asked)), [xid 0], (xid 0). split; [vm_compute; reflexivity|]. split; [split; vm_compute; reflexivity|]. split; [vm_compute; reflexivity|].
  split; [reflexivity|]. split; [|split; [reflexivity|vm_compute; reflexivity]]. exists [], (xid 0), []. split; [reflexivity|]. split; [reflexivity|constructor].
Qed.
Lemma asked_line : on_line pb (st_v asked).
Proof.
  split; [vm_compute; auto|]. split; [vm_compute; constructor|]. assert (D : o_dist (st_v asked) = DSelect) by (vm_compute; reflexivity). intros p. rewrite D. discriminate.
Qed.
Lemma two_steps : forall S (next : S -> S -> Prop) P s s1 s2, ~ P s -> next s s1 -> ~ P s1 -> next s1 s2 -> ~ P s2 -> (forall t, ~ next s2 t) -> ~ inevitably next P s.
Proof. intros S next P s s1 s2 N0 S1 N1 S2 N2 D I. destruct I as [X|_ X]; [auto|]. apply (@not_inevitable _ next P s1 s2 N1 S2 N2 D). exact (X s1 S1). Qed.
Theorem C90_honest_process_refuted : exists cfg g ord cord srt m a sc bs k x0 ts s, ip4 a /\ proper_chain m g bs /\ (weight g bs <= sc)%Z /\
  initial cfg g x0 /\ Forall wf_turn ts /\ process cfg g ord cord srt new_loader (begun x0) ts = ((st_l s, st_v s), Ok tt) /\ st_res s = Ok tt /\
  fair m a sc (o_real (st_v s)) /\ on_line a (st_v s) /\
  asking g a bs k {| sc_l := st_l s; sc_x := o_real (st_v s); sc_open := st_open s |} /\
  ~ inevitably (honest_turn cfg g ord cord srt m a bs) (fun s' => synchronised g a bs s' \/ ~ short (o_real (st_v s'))) s.
Proof.
  exists xcfg, xg, (@asis _), (@asis _), (@asis _), (means three), pb, (2 ^ 96 - 1)%Z, three, 0, xblank1, ydays, asked.
  split; [exact ip4_pb|]. split; [exact three_proper|]. split; [vm_compute; discriminate|]. split; [exact xblank1_initial|]. split; [apply wf_turnsb; vm_compute; reflexivity|].
  split; [exact asked_run|]. split; [vm_compute; reflexivity|]. split; [exact asked_fair|]. split; [exact asked_line|]. split; [exact asked_asking|].
  destruct shorts as (S1 & S2 & S3). destruct busies as (B1 & B2). unfold busy in B1, B2. apply (two_steps) with (s1 := replied) (s2 := left_alone).
  - intros [(_ & X & _)|X]; [congruence|exact (X S1)].
  - exact replied_step.
  - intros [(_ & X & _)|X]; [congruence|exact (X S2)].
  - exact left_step.
  - intros [(_ & _ & X)|X]; [|exact (X S3)]. rewrite left_leash in X. apply other_tip. congruence.
  - intros t. apply no_turn; [reflexivity|exact left_free].
Qed.
Print Assumptions C90_honest_process_refuted.
