(** The property C73 of /verif/properties.jsonl: synchronisation with an honest peer. *)
From Coq Require Import Strings.Byte.
From Verif Require Import Base Kv ChainModel ChainSpec ChainProofs ChainExample PeersModel PeersSpec PeersProps LoadModel LoadSpec LoadProofs LoadReal LoadLeash LoadProps
  SyncSpec SyncProofs LockSpec NetProofs.
Set Implicit Arguments.
Unset Strict Implicit.

(** * C73 *)
(** The loader has asked [a] for IDs. Peer [a] is honest: it answers every open request, with a piece of its chain [bs] that goes on
    after the common block, or with the block, in any order, between any inputs of other peers and timers, before the timeouts,
    and the other goroutines do anything true to other peers. Then the session comes to its end, and the leash of [a] is at the
    head of [bs]. Missing: the full claim has no premise about the previous difference of scores, see below. *)
Theorem C73_honest_sync_partial : forall cfg g ord cord srt m a sc bs k s, ip4 a -> proper_chain m g bs -> (weight g bs <= sc)%Z ->
  sound cfg g (sc_x s) -> undisturbed a (sc_x s) -> fair m a sc (sc_x s) -> asking g a bs k s ->
  (forall d, l_prev (sc_l s) = Some d -> (sc - weight g (firstn k bs) <= d)%Z) ->
  inevitably (honest_step cfg g ord cord srt a bs)
    (fun s' => (l_pl (sc_l s') = None /\ leash (re_lk (sc_x s')) a = Ok (tip g bs)) \/ ~ short (sc_x s')) s.
Proof. intros cfg g ord cord srt m a sc bs k s IP PC WS S U F A P.
  refine (inevitably_imp _ (@sync cfg g ord cord srt m a sc IP bs PC WS k s (conj (conj S U) F) A P)). intros s' [[X _]|X]; auto.
Qed.
Print Assumptions C73_honest_sync_partial.

(** ** Scenes *)
Definition means (bs : list pblock) : meaning :=
  fun i => match find (fun b => id_eqb i (pb_id b)) bs with Some b => (pb_parent b, pb_bt b) | None => (zero_id, 0%N) end.
Definition three : list pblock := [xblk 1 0; xblk 2 1; xblk 3 2].
Lemma three_proper : proper_chain (means three) xg three.
Proof.
  split; [cbn; auto|]. split; [different|]. apply Forall_forall. intros b B. split; [apply wf_pblockb_ok|].
  - cbn in B. destruct B as [<-|[<-|[<-|[]]]]; reflexivity.
  - cbn in B. destruct B as [<-|[<-|[<-|[]]]]; (split; [discriminate|]; split; [vm_compute; split; [reflexivity|discriminate]|reflexivity]).
Qed.
Definition scene_of (ins : list input) (x : real) (open : list message) : scene :=
  {| sc_l := fst (after_inputs ins x); sc_x := snd (after_inputs ins x); sc_open := open |}.

(** Peer [pa] has the chain 1-2-3; nothing is known but genesis. *)
Definition fresh : scene := scene_of [InSync] (xreal [] []) [MsgIDs [xid 0]].
Example C73_example :
  sound xcfg xg (sc_x fresh) /\ undisturbed pa (sc_x fresh) /\ fair (means three) pa (10 ^ 40)%Z (sc_x fresh) /\ asking xg pa three 0 fresh /\
  l_prev (sc_l fresh) = None /\ (weight xg three <= 10 ^ 40)%Z /\
  let z := after_inputs [InSync; InIDs pa [xid 0; xid 1; xid 2]; InBlock pa (Some (xblk 2 1)); InIDs pb [xid 5]; InBlock pa (Some (xblk 1 0));
                         InIDs pa [xid 3]; InBlock pa (Some (xblk 3 2)); InIDs pa [xid 3]] (xreal [] []) in
  l_pl (fst z) = None /\ leash (re_lk (snd z)) pa = Ok (tip xg three).
Proof.
  assert (SO : sound xcfg xg (sc_x fresh)).
  { assert (R0 : Forall wf_rop xrops) by (apply (@xreal_sound [] [] eq_refl (Forall_nil _))).
    split; [exact xg_wf|]. split; [exists xl0; split; [exact xg_start|vm_compute; reflexivity]|]. split; [vm_compute; constructor|].
    split; [replace (re_rops (sc_x fresh)) with xrops by (vm_compute; reflexivity); exact R0|]. split; [vm_compute; reflexivity|vm_compute; constructor]. }
  split; [exact SO|]. split; [vm_compute; constructor|]. split.
  { split; [vm_compute; constructor|]. split; [vm_compute; constructor|]. split; [vm_compute; constructor|].
    eexists. split; [vm_compute; reflexivity|vm_compute; reflexivity]. }
  split.
  { exists (peer_of (sc_l fresh)), [xid 0], (xid 0). split; [vm_compute; reflexivity|]. split; [split; vm_compute; reflexivity|]. split; [vm_compute; reflexivity|].
    split; [reflexivity|]. split; [|split; [reflexivity|vm_compute; reflexivity]]. exists [], (xid 0), []. split; [reflexivity|]. split; [reflexivity|constructor]. }
  split; [vm_compute; reflexivity|]. split; [vm_compute; discriminate|]. split; vm_compute; reflexivity.
Qed.

(** Without the premise about the previous difference the claim is false: a session with [pa] brings blocks 1 and 2 and then times out,
    and its difference of scores is not forgotten (loader.go:152-158). Peer [pb] has announced the same score, and after its first
    batch the difference is the same: the session ends although block 3 is missing. *)
Definition hpb : handshake := greet (ver 1 5 3) (Decl pb 99) x57 [x6f].
Definition yrops : list rop := xrops ++ [RSuggest pb 0%Z true; RRegister pb (PeersProps.line hpb) hpb (1002 * second)%Z true].
Definition yenv : list (list happening) := repeat [] 22 ++ [[HTime (100 * second)%Z; HReg (RScore pb (10 ^ 40)%Z true)]].
Definition yreal : real :=
  {| re_lk := at_end []; re_reg := rrun xcfg yrops; re_now := 0%Z; re_env := yenv; re_faults := []; re_rand := 1;
     re_sent := []; re_lines := []; re_ops := []; re_rops := yrops |}.
Definition yins : list input := [InSync; InIDs pa [xid 0; xid 1; xid 2]; InBlock pa (Some (xblk 1 0)); InBlock pa (Some (xblk 2 1)); InTick; InSync].
Definition stale : scene := scene_of yins yreal [MsgIDs [xid 0]].
Lemma not_inevitable : forall S (next : S -> S -> Prop) P s s', ~ P s -> next s s' -> ~ P s' -> (forall t, ~ next s' t) -> ~ inevitably next P s.
Proof. intros S next P s s' NS N NS' D I. destruct I as [X|_ X]; [auto|]. destruct (X s' N) as [Y|[t T] _]; [auto|]. exact (D t T). Qed.
Lemma yrops_wf : Forall wf_rop yrops.
Proof. apply Forall_app. split; [apply (@xreal_sound [] [] eq_refl (Forall_nil _))|]. repeat constructor. Qed.
Lemma yenv_wf : Forall (Forall wf_happening) yenv.
Proof. apply Forall_app. split; [apply Forall_forall; intros x X; apply repeat_spec in X; now subst|repeat constructor]. Qed.
Lemma yenv_spares : forall a, Forall (Forall (spares a)) yenv.
Proof. intros a. apply Forall_app. split; [apply Forall_forall; intros x X; apply repeat_spec in X; now subst|repeat constructor]. Qed.
Lemma yreal_sound : sound xcfg xg yreal.
Proof. split; [exact xg_wf|]. split; [exists xl0; split; [exact xg_start|reflexivity]|]. split; [constructor|]. split; [exact yrops_wf|]. split; [reflexivity|exact yenv_wf]. Qed.
Lemma stale_feeds : feeds xw yins new_loader yreal = ((sc_l stale, sc_x stale), Ok tt).
Proof.
  assert (R : snd (feeds xw yins new_loader yreal) = Ok tt) by (vm_compute; reflexivity). unfold stale, scene_of, after_inputs. cbn [sc_l sc_x].
  revert R. generalize (feeds xw yins new_loader yreal). intros [[l x] r] R. cbn [fst snd] in *. now rewrite R.
Qed.
Lemma stale_ops : re_ops (sc_x stale) = let u := [(Put (xblk 1 0) pa, None); (Put (xblk 2 1) pa, None)] in u ++ u.
Proof. vm_compute. reflexivity. Qed.
Lemma stale_rops : re_rops (sc_x stale) = yrops ++ [RScore pb (10 ^ 40)%Z true].
Proof. vm_compute. reflexivity. Qed.
Lemma stale_env : re_env (sc_x stale) = [].
Proof. vm_compute. reflexivity. Qed.
Lemma stale_sound : sound xcfg xg (sc_x stale).
Proof.
  split; [exact xg_wf|]. split; [exists xl0; split; [exact xg_start|rewrite stale_ops; vm_compute; reflexivity]|]. split.
  - rewrite stale_ops. apply Forall_forall. intros of I. apply wf_opb_ok. destruct I as [<-|[<-|[<-|[<-|[]]]]]; reflexivity.
  - rewrite stale_rops, stale_env. split; [apply Forall_app; split; [exact yrops_wf|repeat constructor]|]. split; [vm_compute; reflexivity|constructor].
Qed.
Lemma stale_fair : fair (means three) pb (10 ^ 40)%Z (sc_x stale).
Proof.
  split; [vm_compute; constructor|]. rewrite stale_ops, stale_env. split; [repeat constructor|]. split; [constructor|].
  eexists. split; [vm_compute; reflexivity|vm_compute; reflexivity].
Qed.
Lemma stale_asking : asking xg pb three 0 stale.
Proof.
  exists (peer_of (sc_l stale)), [xid 0], (xid 0). split; [vm_compute; reflexivity|]. split; [split; vm_compute; reflexivity|]. split; [vm_compute; reflexivity|].
  split; [reflexivity|]. split; [|split; [reflexivity|vm_compute; reflexivity]]. exists [], (xid 0), []. split; [reflexivity|]. split; [reflexivity|constructor].
Qed.
Definition ended : (loader * real) * outcome unit := loader_step xw (InIDs pb [xid 1; xid 2]) (sc_l stale) (sc_x stale).
Lemma ended_sent : re_sent (snd (fst ended)) = re_sent (sc_x stale) ++ [].
Proof. vm_compute. reflexivity. Qed.
Lemma ended_step : honest_step xcfg xg (@asis _) (@asis _) (@asis _) pb three stale {| sc_l := fst (fst ended); sc_x := snd (fst ended); sc_open := [] |}.
Proof.
  exists (sc_l stale), (sc_x stale), [], (MsgIDs [xid 0]), [], (InIDs pb [xid 1; xid 2]), (snd ended), []. split; [constructor|]. split; [reflexivity|]. split.
  { constructor. exists 0, [xid 0], [xid 3]. split; [exists [], (xid 0), []; split; [reflexivity|]; split; [reflexivity|constructor]|].
    split; [reflexivity|]. split; [discriminate|]. split; [cbn; auto|]. left. cbn. auto. }
  split; [|split; [exact ended_sent|reflexivity]]. cbn [sc_l sc_x].
  assert (Q : forall z : (loader * real) * outcome unit, z = (fst (fst z), snd (fst z), snd z)) by (now intros [[? ?] ?]). unfold ended, xw. apply Q.
Qed.
Lemma ended_leash : leash (re_lk (snd (fst ended))) pb = Ok (xid 2).
Proof. vm_compute. reflexivity. Qed.
Lemma ended_short : short (snd (fst ended)).
Proof. vm_compute. reflexivity. Qed.
Lemma stale_short : short (sc_x stale).
Proof. vm_compute. reflexivity. Qed.
Lemma stale_busy : busy (sc_l stale) (peer_of (sc_l stale)).
Proof. vm_compute. reflexivity. Qed.
Lemma other_tip : tip xg three <> xid 2.
Proof. intros X. apply (f_equal (fun i => id_eqb i (xid 2))) in X. vm_compute in X. congruence. Qed.
Theorem C73_honest_sync_refuted : exists cfg g ord cord srt m a sc bs k s x0 ins, ip4 a /\ proper_chain m g bs /\ (weight g bs <= sc)%Z /\
  sound cfg g x0 /\ no_faults x0 /\ undisturbed a x0 /\ Forall wf_input ins /\
  feeds (real_world cfg g ord cord srt) ins new_loader x0 = ((sc_l s, sc_x s), Ok tt) /\
  sound cfg g (sc_x s) /\ undisturbed a (sc_x s) /\ fair m a sc (sc_x s) /\ asking g a bs k s /\
  ~ inevitably (honest_step cfg g ord cord srt a bs)
      (fun s' => (l_pl (sc_l s') = None /\ leash (re_lk (sc_x s')) a = Ok (tip g bs)) \/ ~ short (sc_x s')) s.
Proof.
  exists xcfg, xg, (@asis _), (@asis _), (@asis _), (means three), pb, (10 ^ 40)%Z, three, 0, stale, yreal, yins.
  split; [exact ip4_pb|]. split; [exact three_proper|]. split; [vm_compute; discriminate|]. split; [exact yreal_sound|]. split; [constructor|].
  split; [apply yenv_spares|]. split; [now apply wf_inputs|]. split; [exact stale_feeds|]. split; [exact stale_sound|].
  split; [unfold undisturbed; rewrite stale_env; constructor|]. split; [exact stale_fair|]. split; [exact stale_asking|].
  apply (not_inevitable) with (2 := ended_step); cbn [sc_l sc_x].
  - intros [[X _]|X]; [|exact (X stale_short)]. pose proof stale_busy as B. unfold busy in B. congruence.
  - intros [[_ X]|X]; [|exact (X ended_short)]. rewrite ended_leash in X. apply other_tip. congruence.
  - intros t (l1 & x1 & q1 & mm & q2 & i & r & new & _ & O & _). cbn [sc_open] in O. destruct q1; discriminate.
Qed.
Print Assumptions C73_honest_sync_refuted.
