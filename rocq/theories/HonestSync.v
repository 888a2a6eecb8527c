(** Synchronisation with an honest peer whose answers may come in the middle of the loader's turns (C90). *)
From Verif Require Import Base Kv BytesFacts KvFacts ChainModel ChainSpec ChainTree ChainRep ChainStep ChainProofs PeersModel PeersSpec PeersProofs PeersCalls
  LoadModel LoadSpec LoadProofs LoadFire LoadLoop LoadSim LoadRule LoadReal LoadLeash LoadLift LoadTwo NetModel NetSpec NetProofs NetDist WholeModel WholeSpec WholeProofs WholeSource
  SyncSpec SyncProofs LockSpec HonestSpec HonestProofs HonestMid.
Set Implicit Arguments.
Unset Strict Implicit.

Section Sync.
Variable cfg : config.
Variable g : pblock.
Variable ord : list group -> list group.
Variable cord : list (addr * conn) -> list (addr * conn).
Variable srt : list Peer -> list Peer.
Variable m : meaning.
Variable a : addr.
Variable sc : Z.
Hypothesis IP : ip4 a.
Variable H : list pblock.
Hypothesis PC : proper_chain m g H.
Hypothesis WS : (weight g H <= sc)%Z.
Notation rw := (real_world cfg g ord cord srt).
Notation mstep := (move_step cfg g cord srt).
Notation others := (WholeModel.others cfg g cord srt).
Notation ww := (whole_world cfg g ord cord srt).
Notation process := (WholeModel.process cfg g ord cord srt).
Notation good := (good cfg g m a sc).
Notation goes := (goes cfg g m a sc).
Notation asks := (asks cfg g m a sc H).
Notation fetches := (fetches cfg g m a sc H).
Notation linked := (linked a).
Notation ready := (ready a).
Notation carrying := (carrying a).
Notation waits := (waits a).
Notation plain := (plain_turn cfg g ord cord srt m a H).
Notation within := (within_turn cfg g ord cord srt m a H).
Notation nxt := (honest_turn cfg g ord cord srt m a H).
Notation flag := (flag g sc H).
Notation room := (room g sc H).
Notation over := (fun s => (synchronised g a H s /\ good (o_real (st_v s))) \/ ~ short (o_real (st_v s))).

(** * A turn with an answer in it *)
Lemma tick_within : forall l1 v1 before u1 x from msg u2 after q i p' l' v' r p,
  busy l1 p -> pl_triggers p = [] -> pl_state p = WaitIDs \/ pl_state p = WaitBlocks -> good (o_real v1) -> linked None v1 -> o_dead v1 = false -> o_dist v1 = DSelect ->
  let ms := before ++ (u1 ++ VArrive x (AMessage from msg) :: u2) :: after in
  (re_now (o_real (others v1 (hd [] ms))) - pl_ts p <= 30 * second)%Z -> wf_turn (TTick ms) -> Forall (elsewhere m a) (concat before ++ u1 ++ u2 ++ concat after) ->
  ln_addr from = Some a -> ft_fault x = None -> answer g H a q i -> brings msg i -> process l1 v1 [TTick ms] = ((l', v'), r) ->
  o_dist v' = DSending p' -> sender p' = a -> o_dead v' = false -> short (o_real v') ->
  busy l' p /\ l_prev l' = l_prev l1 /\ r = Ok tt /\ goes [] (o_real v1) (o_real v') /\ exists pk, input_of pk = i /\ handed a pk v'.
Proof.
  intros l1 v1 before u1 x from msg u2 after q i p' l' v' r p B T S G L DE DS ms TM W EL LA FT AN BR PR DP SE D' SH.
  destruct (one_turn PR) as (r1 & TS & R). cbn [turn_step] in TS. destruct (l_ticker l1); [|injection TS as _ <- _; congruence].
  unfold handling in TS. destruct (loader_step ww InTick l1 (set_todo v1 ms)) as [[l2 u] r2] eqn:LS. injection TS as <- <- <-.
  assert (EN : re_env (o_real v1) = []) by exact (sh_env (proj2 (proj1 L))).
  assert (PV : v_pre cfg g cord srt (set_todo v1 ms) = set_todo (others v1 (hd [] ms)) (tl ms)).
  { unfold v_pre. cbn [set_todo o_todo]. rewrite todo_others. reflexivity. }
  destruct (@tick_aside cfg g ord cord srt l1 (set_todo v1 ms) p l2 u r2 B T S) as (B1 & P1 & V1 & ->); [rewrite PV; exact TM|rewrite PV; cbn [set_todo o_real]; now rewrite others_env|exact LS|].
  cbn [set_todo o_dead o_dist o_real] in *. rewrite D' in R. split; [exact B1|]. split; [exact P1|]. split; [exact R|]. clear PR LS R.
  assert (FR : free a v1) by (intros p0 P0; congruence).
  assert (UD : o_dist u = o_dist (others v1 (hd [] ms))) by (rewrite V1, world_at, PV; reflexivity).
  apply Forall_app in EL as [EB EL]. apply Forall_app in EL as [E1 EL]. apply Forall_app in EL as [E2 EA].
  destruct before as [|b0 before].
  2:{ exfalso. cbn [app hd ms] in UD. unfold ms in UD. cbn [app hd] in UD. cbn [concat] in EB. apply Forall_app in EB as [EB _].
      apply (@others_free cfg g cord srt m a b0 v1 FR EB p'); [now rewrite <- UD|exact SE]. }
  unfold ms in UD, PV, W, V1. cbn [app hd tl] in UD, PV, V1. unfold wf_turn in W. cbn [moves_in concat app] in W. apply Forall_app in W as [W WA]. apply Forall_app in W as [W1 W2].
  assert (WX := Forall_inv W2). apply Forall_inv_tail in W2.
  set (va := others v1 u1) in *. set (arr := VArrive x (AMessage from msg)) in *. set (vb := mstep va arr). set (vc := others vb u2).
  assert (VC : others v1 (u1 ++ arr :: u2) = vc) by exact (fold_left_app mstep u1 (arr :: u2) v1). rewrite VC in *.
  destruct (others_aside cfg g cord srt L W1 E1) as (LA1 & hs & FA & EQ). fold va in LA1, EQ. assert (I1 := aside_idles IP G FA). rewrite <- EQ in I1.
  assert (FA1 : free a va) by (apply (@others_free cfg g cord srt m a u1 v1 FR E1)).
  assert (NB : free a vb -> False).
  { intros F. apply (@others_free cfg g cord srt m a u2 vb F E2 p'); [fold vc; now rewrite <- UD|exact SE]. }
  assert (DA : o_dead va = false) by (destruct (o_dead va) eqn:X; [|reflexivity]; exfalso; apply NB; unfold vb, move_step; rewrite X; exact FA1).
  assert (DSA : o_dist va = DSelect).
  { destruct (o_dist va) eqn:X; [reflexivity| |]; exfalso; apply NB; unfold vb, move_step, arr; rewrite DA, X; exact FA1. }
  assert (UR : later (o_real vc) (o_real u)).
  { rewrite V1. pose proof (proj1 (call_grow cfg g ord cord srt CNow (set_todo vc []))) as X. rewrite world_at in X |- *. rewrite PV. exact X. }
  assert (SC : short (o_real vc)) by (eapply later_short; eauto).
  assert (SB : short (o_real vb)) by (eapply later_short; [apply (others_grow cfg g cord srt u2 vb)|exact SC]).
  assert (PB : process l1 va [TMove arr] = ((l1, vb), if o_dead vb then Panic else Ok tt)) by (cbn [WholeModel.process turn_step]; fold vb; destruct (o_dead vb); reflexivity).
  destruct (@own_says cfg g ord cord srt m a sc IP H PC l1 va x from msg q i l1 vb _ (proj1 (proj1 I1)) LA1 DA DSA LA FT AN BR PB SB) as (_ & RB & GB & pk & IN & SP & LB & DB).
  destruct (others_aside cfg g cord srt LB W2 E2) as (LC & hs2 & FC & EQ2). fold vc in LC, EQ2. assert (I2 := aside_idles IP (proj1 GB) FC). rewrite <- EQ2 in I2.
  assert (GC : goes [] (o_real v1) (o_real vc)) by (eapply goes_nil; [exact (proj1 I1)|]; eapply goes_nil; [exact GB|exact (proj1 I2)]).
  assert (VE : set_todo u [] = set_todo (fst (ww CNow (set_todo vc []))) []).
  { rewrite V1, !world_at, PV. unfold v_pre. cbn [set_todo o_todo hd tl WholeModel.others fold_left]. reflexivity. }
  split.
  - destruct (@c_now cfg g ord cord srt m a sc IP (o_real vc)) as (y & CN & IC); [exact (proj1 GC)|].
    assert (UY : o_real u = y) by (rewrite V1, world_at, PV; cbn [fst add_call o_real set_todo]; now rewrite CN). rewrite UY. eapply goes_nil; [exact GC|]. exact (proj1 IC).
  - exists pk. split; [exact IN|]. split; [exact SP|]. split; [|exact D']. rewrite VE. apply (@ahead_linked m). apply call_ahead. apply linked_ahead; [exact LC|constructor|constructor].
Qed.
Lemma ready_step : forall s s', ready s -> waits (st_l s) -> good (o_real (st_v s)) -> nxt s s' -> short (o_real (st_v s')) ->
  still (st_l s) (st_l s') /\ goes [] (o_real (st_v s)) (o_real (st_v s')) /\
  exists q1 q q2 i pk, st_open s = q1 ++ q :: q2 /\ st_open s' = q1 ++ q2 /\ answer g H a q i /\ input_of pk = i /\ carrying pk s'.
Proof.
  intros s s' RD WT G [N|N] SH; [exact (step_ready IP PC RD WT G N SH)|]. destruct RD as (RS & DE & L).
  destruct N as (l1 & v1 & t & ms & new & before & u1 & x & from & msg & u2 & after & q1 & q & q2 & i & p' & _ & AP & PR & SN & CASES & EM & W & EL & LA & FT & AN & BR & DP & SE & D' & OP & OP').
  destruct (@apart_waits cfg g ord cord srt m a sc IP None _ _ _ _ AP) as (SL & GO & L1 & D1); auto; [discriminate|].
  destruct CASES as [(-> & DS & TM & _)|(-> & (p & DS & SP) & _)]; [|exfalso; destruct L1 as (_ & _ & _ & _ & HO); exact (HO p DS SP)].
  destruct (still_waits SL WT) as (p & B & T & S & PA). subst ms.
  destruct (@tick_within l1 v1 before u1 x from msg u2 after q i p' (st_l s') (st_v s') (st_res s') p B T S (proj1 GO) L1 D1 DS (TM p B) W EL LA FT AN BR PR DP SE D' SH)
    as (B' & P' & RS' & GO' & pk & IN & HD).
  assert (GO2 := goes_nil GO GO'). split; [|split; [exact GO2|]].
  - split; [|destruct SL; congruence]. intros p0 B0. apply (proj1 SL) in B0. unfold busy in *. congruence.
  - rewrite (sent_none GO2 SN) in OP. unfold sent_to in OP. cbn [filter map] in OP. rewrite app_nil_r in OP.
    exists q1, q, q2, i, pk. split; [exact OP|]. split; [exact OP'|]. split; [exact AN|]. split; [exact IN|]. split; [exact RS'|exact HD].
Qed.
Lemma brings_reply : forall msg i, brings msg i -> reply_message msg.
Proof.
  intros msg i B. destruct i as [b ids|b [bl|]| |]; cbn [brings] in B; try contradiction; destruct B as [-> | ->]; exact Logic.I.
Qed.
Lemma forall_filter : forall A (P : A -> Prop) f l, Forall P l -> Forall P (filter f l).
Proof. intros A P f l F. rewrite Forall_forall in *. intros x I. apply filter_In in I as [I _]. auto. Qed.
Lemma concat_filter : forall (P : move -> Prop) f l, Forall P (concat l) -> Forall P (concat (map (filter f) l)).
Proof. intros P f. induction l as [|x l IH]; intros F; [constructor|]. cbn [map concat] in *. apply Forall_app in F as [A B]. apply Forall_app. split; [now apply forall_filter|auto]. Qed.
(** With an answer of [a] at the distributor, a turn is one of three. *)
Lemma carry_step : forall pk s s', carrying pk s -> waits (st_l s) -> good (o_real (st_v s)) -> nxt s s' ->
  plain s s' \/
  (exists s1, plain s s1 /\ plain s1 s' /\ l_pl (st_l s1) <> None /\ later (o_real (st_v s1)) (o_real (st_v s'))) \/
  (exists l1 v1 ms l' u r q p', still (st_l s) l1 /\ goes [] (o_real (st_v s)) (o_real v1) /\ In q (st_open s) /\
     loader_step ww (input_of pk) l1 (set_todo (set_dist v1 DSelect) ms) = ((l', u), r) /\ o_dist u = DSending p').
Proof.
  intros pk s s' (RS & SE & L & DE) WT G [N|N]; [now left|]. right.
  destruct N as (l1 & v1 & t & ms & new & before & u1 & x & from & msg & u2 & after & q1 & q & q2 & i & p' & _ & AP & PR & SN & CASES & EM & W & EL & LA & FT & AN & BR & DP & SE' & D' & OP & OP').
  destruct (@apart_waits cfg g ord cord srt m a sc IP (Some pk) _ _ _ _ AP) as (SL & GO & L1 & D1); auto; [intros p0 Q; now injection Q as <-|].
  assert (DV : o_dist v1 = DSending pk) by apply L1.
  destruct CASES as [(_ & DS & _)|(-> & _ & CASES)]; [congruence|].
  destruct (one_turn PR) as (r1 & TS & R). cbn [turn_step] in TS. rewrite DV in TS. unfold handling in TS.
  destruct (loader_step ww (input_of pk) l1 (set_todo (set_dist v1 DSelect) ms)) as [[l2 u] r2] eqn:LS. injection TS as EL2 EV <-. subst l2.
  assert (DU : o_dist u = DSending p') by (rewrite <- DP, <- EV; reflexivity). assert (DDU : o_dead u = false) by (rewrite <- D', <- EV; reflexivity).
  destruct CASES as [IQ|(es & e & CE & IE & RE)]; [right; exists l1, v1, ms, (st_l s'), u, r2, q, p'; auto 8|]. left.
  apply Forall_app in EL as [EB EL]. apply Forall_app in EL as [E1 EL]. apply Forall_app in EL as [E2 EA].
  unfold wf_turn in W. cbn [moves_in] in W. rewrite EM, concat_app in W. cbn [concat] in W. apply Forall_app in W as [WB W]. apply Forall_app in W as [W WAF].
  apply Forall_app in W as [W1 W2]. apply Forall_inv_tail in W2. rewrite EM in LS.
  assert (NT : input_of pk <> InTick) by (destruct pk; discriminate). assert (NS : input_of pk <> InSync) by (destruct pk; discriminate).
  assert (TR : forall p, l_pl l1 = Some p -> pl_triggers p = []).
  { destruct (still_waits SL WT) as (p & B & T & _). unfold busy in B. intros p0 P0. congruence. }
  assert (FR : free a (set_dist v1 DSelect)) by (intros p0 P0; discriminate).
  assert (EN : re_env (o_real v1) = []) by exact (sh_env (proj2 (proj1 L1))).
  assert (CU : o_calls u = o_calls v1 ++ es) by (rewrite <- CE, <- EV; reflexivity).
  assert (ASK : exists e, In e (firstn (length before) es) /\ requests e <> None) by (exists e; split; [exact IE|congruence]).
  destruct (@mid_turn cfg g ord cord srt m a x from msg LA (brings_reply BR) before u1 u2 after (todo_away EB) E1 E2 (todo_away EA) (o_calls v1) es ASK
              (input_of pk) l1 (set_dist v1 DSelect) (st_l s') u r2 p' NT NS TR FR EN eq_refl LS CU DDU DU SE') as (w & LW & -> & PL & DW & DSW & MV).
  set (s1 := {| st_l := st_l s'; st_v := set_todo w []; st_open := st_open s ++ sent_to a new; st_res := Ok tt |}).
  assert (V' : st_v s' = mstep (set_todo w []) (VArrive x (AMessage from msg))) by (rewrite MV; congruence).
  assert (SW : re_sent (o_real w) = re_sent (o_real (st_v s'))) by (rewrite V', moved_sent; reflexivity).
  exists s1. split; [|split; [|split; [exact PL|]]].
  - exists l1, v1, (TTake (before ++ todo2 u1 u2 after)), new. split; [exact RS|]. split; [exact AP|]. split.
    { cbn [WholeModel.process turn_step]. rewrite DV. unfold handling. rewrite LW. cbn [set_todo o_dead]. rewrite DW. reflexivity. }
    split; [cbn [st_v s1 set_todo o_real]; congruence|]. right. exists pk, (before ++ todo2 u1 u2 after). split; [exact DV|]. split; [exact SE|]. split; [reflexivity|].
    assert (FA : forall P : move -> Prop, Forall P (concat before) -> Forall P u1 -> Forall P u2 -> Forall P (concat after) -> Forall P (concat (before ++ todo2 u1 u2 after))).
    { intros P F0 F1 F2 F3. rewrite concat_app. apply Forall_app. split; [exact F0|]. unfold todo2. cbn [concat]. apply Forall_app. split; [|now apply concat_filter].
      apply Forall_app. split; [exact F1|now apply forall_filter]. }
    split; [apply FA; auto|]. split; [apply FA; auto|]. split; [exact DW|reflexivity].
  - exists (st_l s'), (set_todo w []), (TMove (VArrive x (AMessage from msg))), []. split; [reflexivity|]. split; [constructor|]. split.
    { cbn [WholeModel.process turn_step]. rewrite <- V', D'. rewrite R. f_equal. now rewrite D'. }
    split; [cbn [st_v s1 set_todo o_real]; rewrite app_nil_r; congruence|]. left. exists x, from, msg, q1, q, q2, i. split; [exact DSW|]. split; [reflexivity|]. split; [exact LA|].
    split; [exact FT|]. split; [exact OP|]. split; [exact AN|]. split; [exact BR|]. unfold sent_to. cbn [filter map]. now rewrite app_nil_r.
  - rewrite V'. apply (move_grow cfg g cord srt).
Qed.
(** A block of the batch that is not the last one: nothing is called. *)
Lemma fetch_quiet : forall V (w : world V) P Q R m1 b m2 l x q v, fetches P Q R (m1 ++ pb_id b :: m2) (at_ l x q) -> m1 ++ m2 <> [] -> In b H ->
  snd (fst (loader_step w (InBlock a (Some b)) l v)) = v.
Proof.
  intros V w P Q R m1 b m2 l x q v (EH & G & PV & QN & p & rcv & B & [ST TR] & PA & PQ & IR & OP & NM & _ & MI & HT) NE IB. cbn [at_ sc_l sc_x sc_open] in *.
  assert (ND : NoDup (map pb_id Q)).
  { destruct PC as (_ & N & _). rewrite EH in N. unfold cids in N. rewrite !map_app, <- app_assoc, app_comm_cons in N. eapply nodup_mid. exact N. }
  cbn [loader_step]. unfold LoadModel.handle_block. unfold busy in B. rewrite B, PA, addr_refl. unfold drive.
  rewrite fire_rest by exact TR. unfold fire_one. rewrite ST. cbn [behave]. unfold append_block.
  cbn [set_queue pl_queue queue_put_ptr]. rewrite PQ, <- after_app. set (q1 := after (map pb_id Q) (rcv ++ [b])).
  assert (RD : queue_ready q1 = false).
  { destruct (queue_ready q1) eqn:RD; [|reflexivity]. exfalso. assert (GA := proj1 (@q_ready (map pb_id Q) (rcv ++ [b]) ND) RD).
    destruct (m1 ++ m2) as [|i mm] eqn:MM; [congruence|]. assert (I : In i (m1 ++ m2)) by (rewrite MM; now left).
    assert (NI : i <> pb_id b) by (intros ->; now apply NoDup_remove_2 in NM).
    destruct (proj1 (MI i)) as [X Y]; [apply in_app_or in I as [I|I]; apply in_or_app; [now left|right; now right]|].
    rewrite Forall_forall in GA. destruct (GA i X) as (c & I1 & I2). apply in_app_or in I1 as [I1|[<-|[]]]; [apply Y; exists c; auto|congruence]. }
  rewrite RD. cbn [set_queue set_triggers pl_triggers]. rewrite TR. cbn [app]. rewrite loop_rest by reflexivity. reflexivity.
Qed.

(** * The rounds *)
Lemma after_mid : forall s1 s2, inevitably nxt over s1 -> plain s1 s2 -> l_pl (st_l s1) <> None -> later (o_real (st_v s1)) (o_real (st_v s2)) -> inevitably nxt over s2.
Proof.
  intros s1 s2 I N PL LT. destruct I as [[S|S]|_ F].
  - exfalso. now apply PL, S.
  - apply iv_now. right. intros SH. apply S. eapply later_short; eauto.
  - apply F. now left.
Qed.
Lemma whole_fetch : forall M, (forall P R s, asks P R (scn s) -> ready s -> 2 * length R + flag (st_l s) < M -> inevitably nxt over s) ->
  forall n P Q R miss s, length miss = n -> fetches P Q R miss (scn s) -> ready s -> room M R (st_l s) -> inevitably nxt over s.
Proof.
  intros M ASK. induction n as [|n IH]; intros P Q R miss s LM F RD RM.
  - destruct F as (_ & _ & _ & _ & p & rcv & _ & _ & _ & _ & _ & _ & _ & NE & _). destruct miss; [congruence|discriminate].
  - destruct (fetches_wait F) as [G WT]. assert (OPM : st_open s = map MsgBlock miss).
    { destruct F as (_ & _ & _ & _ & p & rcv & _ & _ & _ & _ & _ & X & _). exact X. }
    apply iv_later.
    + assert (F0 := F). destruct F0 as (EH & _ & _ & _ & p & rcv & _ & _ & _ & _ & _ & _ & _ & NE & MI & _). destruct miss as [|i miss]; [congruence|].
      destruct (proj1 (MI i) (or_introl eq_refl)) as [X _]. apply in_map_iff in X as (b & <- & IB).
      destruct (@can_say cfg g ord cord srt m a sc H s [] (MsgBlock (pb_id b)) (map MsgBlock miss) (InBlock a (Some b)) RD WT G OPM) as [s1 N1];
        [constructor; rewrite EH; apply in_or_app; left; apply in_or_app; now right|exists s1; now left].
    + intros s1 N1. destruct (short_dec (o_real (st_v s1))) as [SH|SH]; [|apply iv_now; right; exact SH].
      destruct (ready_step RD WT G N1 SH) as (SL & GO & q1 & q & q2 & i & pk & OP & OP1 & AN & IN & CA).
      rewrite OPM in OP. apply map_eq_app in OP as (m1 & m2' & -> & <- & OP2). destruct m2' as [|j m2]; [discriminate|]. cbn [map] in OP2. injection OP2 as <- <-.
      inversion AN as [|b IB MB IE]. subst j. rewrite <- IE in IN.
      pose proof (fetches_goes PC F (proj1 SL) (proj2 SL) GO) as F1. pose proof (still_waits SL WT) as WT1.
      apply iv_later; [destruct (can_hear ord cord srt H CA (proj1 GO)) as [s2 N2]; exists s2; now left|].
      assert (PL : forall s2, plain s1 s2 -> inevitably nxt over s2).
      { intros s2 N2. destruct (short_dec (o_real (st_v s2))) as [SH2|SH2]; [|apply iv_now; right; exact SH2].
        destruct (step_carry IP CA WT1 (proj1 GO) N2) as (l1 & x1 & r1 & new & SL1 & GO1 & LS & RR & SN & OP2). rewrite IN in LS.
        pose proof (fetches_goes PC F1 (proj1 SL1) (proj2 SL1) GO1) as F2.
        destruct (@block_step cfg g ord cord srt m a sc IP H PC WS P Q R m1 b m2 M (at_ l1 x1 (st_open s)) (st_l s2) (o_real (st_v s2)) r1 (st_open s2) F2) as [OK [D|[[D1 D2]|[D1 D2]]]]; auto.
        * cbn [at_ sc_l]. unfold SyncProofs.room in *. rewrite (proj2 SL1), (proj2 SL). exact RM.
        * cbn [at_ sc_x]. intros new' SN'. rewrite SN in SN'. apply app_inv_head in SN'. subst new'. rewrite OP2, OP1, map_app. reflexivity.
        * apply iv_now. left. split; [split; [apply (RR OK)|apply D]|apply D].
        * apply (ASK _ _ _ D1); auto.
        * apply (IH _ _ _ _ s2) in D1; auto. rewrite app_length in *. cbn [length] in LM. lia. }
      intros s2 N2. destruct (carry_step CA WT1 (proj1 GO) N2) as [X|[(s3 & X1 & X2 & X3 & X4)|(l1 & v1 & ms & l' & u & r & qq & p' & SL1 & GO1 & IQ & LS & DU)]]; [auto|exact (after_mid (PL _ X1) X2 X3 X4)|].
      exfalso. pose proof (fetches_goes PC F1 (proj1 SL1) (proj2 SL1) GO1) as F2. rewrite IN in LS.
      assert (NE : m1 ++ m2 <> []) by (rewrite OP1, <- map_app in IQ; intros X; now rewrite X in IQ).
      pose proof (@fetch_quiet _ ww P Q R m1 b m2 _ _ _ (set_todo (set_dist v1 DSelect) ms) F2 NE IB) as K. rewrite LS in K. cbn [fst snd] in K. subst u. discriminate.
Qed.
Lemma whole_ask : forall M P R s, asks P R (scn s) -> ready s -> 2 * length R + flag (st_l s) < M -> inevitably nxt over s.
Proof.
  induction M as [|M IH]; intros P R s A RD LT; [lia|]. destruct (asks_wait A) as [G WT].
  assert (A0 := A). destruct A0 as (EH & _ & _ & p & ids & _ & _ & _ & OPM & CM & _). cbn [scn at_ sc_open] in OPM. apply iv_later.
  - destruct (@can_say cfg g ord cord srt m a sc H s [] (MsgIDs ids) [] (InIDs a (skipn (length P) (cids g H))) RD WT G OPM) as [s1 N1]; [|exists s1; now left]. constructor.
    exists (length P), (firstn (length P) (cids g H)), []. split; [exact CM|]. rewrite app_nil_r. split; [symmetry; apply firstn_skipn|].
    assert (LL : length P < length (cids g H)) by (rewrite EH; unfold cids; cbn [length]; rewrite map_length, app_length; lia).
    split; [|split; [rewrite firstn_length; lia|now right]]. intros X. apply (f_equal (@length _)) in X. rewrite skipn_length in X. cbn [length] in X. lia.
  - intros s1 N1. destruct (short_dec (o_real (st_v s1))) as [SH|SH]; [|apply iv_now; right; exact SH].
    destruct (ready_step RD WT G N1 SH) as (SL & GO & q1 & q & q2 & i & pk & OP & OP1 & AN & IN & CA). rewrite OPM in OP.
    destruct q1 as [|? q1]; [|destruct q1; discriminate]. cbn [app] in OP. injection OP as <- <-. cbn [app] in OP1.
    inversion AN as [ids' reply AR ME IE|]. subst ids'. rewrite <- IE in IN.
    pose proof (asks_goes PC A (proj1 SL) (proj2 SL) GO) as A1. pose proof (still_waits SL WT) as WT1.
    apply iv_later; [destruct (can_hear ord cord srt H CA (proj1 GO)) as [s2 N2]; exists s2; now left|].
    assert (PL : forall s2, plain s1 s2 -> inevitably nxt over s2).
    { intros s2 N2. destruct (short_dec (o_real (st_v s2))) as [SH2|SH2]; [|apply iv_now; right; exact SH2].
      destruct (step_carry IP CA WT1 (proj1 GO) N2) as (l1 & x1 & r1 & new & SL1 & GO1 & LS & RR & SN & OP2). rewrite IN in LS.
      pose proof (asks_goes PC A1 (proj1 SL1) (proj2 SL1) GO1) as A2.
      assert (FL : flag l1 = flag (st_l s)) by (unfold SyncProofs.flag; now rewrite (proj2 SL1), (proj2 SL)).
      destruct (@ids_step cfg g ord cord srt m a sc IP H PC WS P R (at_ l1 x1 (st_open s)) reply (st_l s2) (o_real (st_v s2)) r1 (st_open s2) A2) as [OK [D|[(P' & R' & D1 & D2)|(P' & Q' & R' & miss & D1 & D2)]]]; auto.
      + cbn [at_ sc_open]. rewrite OPM. exact AR.
      + cbn [at_ sc_x]. intros new' SN'. rewrite SN in SN'. apply app_inv_head in SN'. subst new'. now rewrite OP2, OP1.
      + apply iv_now. left. split; [split; [apply (RR OK)|apply D]|apply D].
      + apply (IH _ _ _ D1); auto. cbn [at_ sc_l] in *. lia.
      + apply (@whole_fetch (2 * length R + flag (st_l s))) with (n := length miss) in D1; auto.
        * intros P2 R2 s3 A3 RD3 L3. apply (IH _ _ _ A3 RD3). lia.
        * cbn [at_ sc_l] in *. rewrite <- FL. exact D2. }
    intros s2 N2. destruct (carry_step CA WT1 (proj1 GO) N2) as [X|[(s3 & X1 & X2 & X3 & X4)|(l1 & v1 & ms & l' & u & r & qq & p' & _ & _ & IQ & _)]]; [auto|exact (after_mid (PL _ X1) X2 X3 X4)|].
    exfalso. now rewrite OP1 in IQ.
Qed.
Theorem whole_sync : forall k s, good (o_real (st_v s)) -> ready s -> asking g a H k (scn s) ->
  (forall d, l_prev (st_l s) = Some d -> (sc - weight g (firstn k H) <= d)%Z) -> inevitably nxt over s.
Proof.
  intros k s G RD (p & ids & i & B & WT & PA & OP & CM & NT & HI) PV.
  assert (KL : k <= length H). { assert (X : k < length (cids g H)) by (apply nth_error_Some; congruence). unfold cids in X. cbn [length] in X. rewrite map_length in X. lia. }
  assert (LF : length (firstn k H) = k) by (rewrite firstn_length; lia).
  assert (TI : tip g (firstn k H) = i). { pose proof (nth_tip g (firstn k H) (skipn k H)) as X. rewrite firstn_skipn, LF in X. congruence. }
  apply (@whole_ask (S (2 * length (skipn k H) + flag (st_l s))) (firstn k H) (skipn k H)); [|exact RD|lia].
  split; [symmetry; apply firstn_skipn|]. split; [exact G|]. split; [exact PV|]. exists p, ids. split; [exact B|]. split; [exact WT|]. split; [exact PA|]. split; [exact OP|].
  rewrite LF, TI. auto.
Qed.

(** The whole claim. *)
Theorem run_sync : forall x0 ts k s, initial cfg g x0 -> Forall wf_turn ts -> process new_loader (begun x0) ts = ((st_l s, st_v s), Ok tt) -> st_res s = Ok tt ->
  fair m a sc (o_real (st_v s)) -> on_line a (st_v s) -> asking g a H k (scn s) ->
  (forall d, l_prev (st_l s) = Some d -> (sc - weight g (firstn k H) <= d)%Z) -> inevitably nxt over s.
Proof.
  intros x0 ts k s X0 W E RS F (CN & DL & HO) AS PV. destruct (short_dec (o_real (st_v s))) as [SH|SH]; [|apply iv_now; right; exact SH].
  destruct (process_past (begun_past X0) W E) as (FI & _). destruct (always_well X0 W E SH) as (SO & _ & EN).
  destruct (@process_going cfg g ord cord srt ts new_loader (begun x0) (st_l s) (st_v s)) as [ND DE]; auto; [discriminate|].
  apply (@whole_sync k s); auto.
  - split; [|exact F]. split; [exact SO|]. unfold undisturbed. rewrite EN. constructor.
  - split; [exact RS|]. split; [exact DE|]. split; [exact FI|]. split; [exact CN|]. split; [exact DL|]. split; [exact ND|exact HO].
Qed.

(** Without a request, and with nothing of [a] at the distributor, there is no honest turn. *)
Lemma no_turn : forall s s', st_open s = [] -> free a (st_v s) -> ~ nxt s s'.
Proof.
  intros s s' O N [X|X].
  - destruct X as (l1 & v1 & t & new & _ & AP & _ & _ & [(x & from & msg & q1 & q & q2 & i & _ & _ & _ & _ & OP & _)|(p & ms & DS & SE & _)]).
    + rewrite O in OP. destruct q1; discriminate.
    + exact (apart_free AP N DS SE).
  - destruct X as (l1 & v1 & t & ms & new & before & u1 & x & from & msg & u2 & after & q1 & q & q2 & i & p' & _ & AP & _ & _ & [(_ & _ & _ & IQ)|(_ & (p & DS & SE) & _)] & _).
    + rewrite O in IQ. exact IQ.
    + exact (apart_free AP N DS SE).
Qed.
End Sync.
