(** The running process (C77, C78). *)
From Coq Require Import Permutation.
From Verif Require Import Base Kv ChainModel ChainSpec ChainProofs ChainExample PeersModel PeersSpec PeersProps LoadModel LoadSpec LoadProofs LoadReal LoadSource LoadProps
  NetModel NetSpec NetProps WholeModel WholeSpec WholeProofs WholeSource.
Set Implicit Arguments.
Unset Strict Implicit.

(** * A process for the examples: empty stores *)
Definition xblank (ops : list (op * option nat)) (rops : list rop) : real :=
  {| re_lk := at_end ops; re_reg := rrun xcfg rops; re_now := 0%Z; re_env := []; re_faults := []; re_rand := 0; re_sent := []; re_lines := [];
     re_ops := ops; re_rops := rops |}.
Lemma xblank_initial : initial xcfg xg (xblank [] []).
Proof.
  split; [|split; [intros l0 _; exact I|reflexivity]]. split; [exact xg_wf|]. split; [exists xl0; split; [exact xg_start|reflexivity]|]. split; [constructor|]. split; [constructor|]. split; [reflexivity|constructor].
Qed.
Definition xprocess : loader -> whole -> list turn -> (loader * whole) * outcome unit := process xcfg xg (@asis _) (@asis _) (@asis _).
Definition tell (a : addr) (m : message) : list turn := [TMove (VArrive fine (AMessage (on a (PeersProps.line hgood)) m)); TTake []].
(** A node connects from address [a] and says [ms]. *)
Definition visit (a : addr) (h : handshake) (ms : list message) : list turn :=
  [TMove (VAccept fine (Some a)); TMove (VArrive fine (AInfo (IConnected (on a (PeersProps.line h)) h)))] ++ flat_map (tell a) ms.
Definition twins : list turn :=
  visit pa hgood (MScore (repeat xff 12) :: map (fun n => MBlock (Some (xblk n (n - 1)))) [1; 2; 3; 4; 5; 6; 7; 8; 9]%N) ++
  visit pb (greet (ver 1 5 3) DeclEmpty x57 [x6e]) (map (fun n => MBlock (Some (xblk n (if (n =? 11)%N then 0 else n - 1)))) [11; 12; 13; 14; 15; 16; 17; 18; 19; 20]%N).
Fixpoint mute (n : nat) (t : time) : list turn := match n with O => [] | S n' => [TSync []; TMove (VTime t); TTick []] ++ mute n' (t + 100 * second)%Z end.
Definition end_of (ts : list turn) : whole := snd (fst (xprocess new_loader (begun (xblank [] [])) ts)).
Definition loader_of (ts : list turn) : loader := fst (fst (xprocess new_loader (begun (xblank [] [])) ts)).
Definition remote : list turn := twins ++ mute 10 (100 * second)%Z ++ [TSync []].
(** Deciding the premises of the examples. *)
Definition wf_moveb (m : move) : bool :=
  match m with
  | VArrive _ (AMessage from m) =>
      match ln_addr from with Some a => wf_addrb a | None => true end &&
      match m with MBlock (Some b) | MPBBlock (Some b) => wf_pblockb b | MSignatures ids | MBlockIds ids => forallb wf_idb ids | MScore _ => true | _ => false end
  | VArrive _ (AInfo (IConnected from _)) | VArrive _ (AInfo (IError from)) => match ln_addr from with Some a => wf_addrb a | None => true end
  | VAccept _ (Some a) => wf_addrb a
  | VTime _ | VRespawn _ => true
  | _ => false
  end.
Lemma wf_moveb_ok : forall m, wf_moveb m = true -> wf_move m.
Proof.
  intros m H. destruct m as [x a|[clock|]|x n|x n up|x [a|]|t]; try exact I; try discriminate H.
  - assert (L : forall from, match ln_addr from with Some a => wf_addrb a | None => true end = true -> wf_link from).
    { intros from Q. unfold wf_link. destruct (ln_addr from); [now apply wf_addrb_ok|exact I]. }
    destruct a as [from m|[from h|from|]|]; cbn [wf_moveb] in H; try discriminate H; try (split; [exact (L from H)|exact I]).
    apply andb_true_iff in H as [H1 H2]. specialize (L _ H1).
    assert (LI : forall ids, forallb wf_idb ids = true -> Forall wf_id ids).
    { intros ids Q. apply Forall_forall. intros i J. rewrite forallb_forall in Q. apply wf_idb_ok, Q, J. }
    destruct m; try discriminate H2; try (match goal with b : option pblock |- _ => destruct b; [|discriminate H2] end); (split; [split; [exact L|]|]); try exact I; try (now apply wf_pblockb_ok); now apply LI.
  - now apply wf_addrb_ok.
Qed.
Lemma wf_turnsb : forall ts, forallb (fun t => forallb wf_moveb (moves_in t)) ts = true -> Forall wf_turn ts.
Proof.
  intros ts H. apply Forall_forall. intros t I. rewrite forallb_forall in H. specialize (H t I). apply Forall_forall. intros m J.
  rewrite forallb_forall in H. apply wf_moveb_ok, H, J.
Qed.

(** * C77 *)
(** However the goroutines interleave, and however the run ends: the stores are what a sequence of well-formed calls makes them, so that
    every theorem about reachable linkages and registries holds at every moment of the process. *)
Theorem C77_stores_reachable : forall cfg g ord cord srt x ts l v r, initial cfg g x -> Forall wf_turn ts ->
  process cfg g ord cord srt new_loader (begun x) ts = ((l, v), r) -> short (o_real v) ->
  dreach cfg g (re_ops (o_real v)) (re_rops (o_real v)) (stores v).
Proof. intros. eapply always_reach; eauto. Qed.
Print Assumptions C77_stores_reachable.
(** Missing: the process does crash, in these two ways only: a peer has sent an empty application name or a base target above
    2^63-1, or the loader has asked for the last common block (below). *)
Theorem C77_crash_causes_partial : forall cfg g ord cord srt, wf_pblock g -> g_versions cfg <> [] -> map_order ord -> permutes cord -> permutes srt ->
  forall ts x l v r, initial cfg g x -> Forall wf_turn ts -> process cfg g ord cord srt new_loader (begun x) ts = ((l, v), r) -> short (o_real v) ->
  r = Ok tt \/ (exists a, In a (o_seen v) /\ ~ tame a) \/ (exists a (k : reply (CLcb a)), In (CLcb a ==> k) (o_calls v) /\ ~ returned k).
Proof. intros cfg g ord cord srt WG NV OM CO SO. eapply process_safe; eauto. Qed.
Print Assumptions C77_crash_causes_partial.
(** From empty stores: two nodes connect and send two chains that fork at genesis; the first announces a high score, and then does
    not answer. After ten timeouts the process crashes. *)
Theorem C77_never_crashes_refuted : exists x ts l v, initial xcfg xg x /\ re_ops x = [] /\ re_rops x = [] /\ Forall wf_turn ts /\
  xprocess new_loader (begun x) ts = ((l, v), Panic) /\ short (o_real v) /\ Forall tame (o_seen v).
Proof.
  exists (xblank [] []), remote, (loader_of remote), (end_of remote). split; [exact xblank_initial|]. split; [reflexivity|]. split; [reflexivity|].
  split; [apply wf_turnsb; vm_compute; reflexivity|]. split; [vm_compute; reflexivity|]. split; [vm_compute; reflexivity|].
  assert (T : forallb (fun a => match a with
    | AMessage _ (MBlock (Some b)) | AMessage _ (MPBBlock (Some b)) => (pb_bt b <=? max_int64)%N | AInfo (IConnected from _) => negb (Nat.eqb (length (hs_app (co_hs (ln_conn from)))) 0) | _ => true end)
    (o_seen (end_of remote)) = true) by (vm_compute; reflexivity).
  apply Forall_forall. intros a I. rewrite forallb_forall in T. specialize (T a I). destruct a as [from m|[from h|from|]|]; try exact Logic.I.
  - intros b [-> | ->]; lia.
  - cbn [tame]. intros Q. rewrite Q in T. discriminate T.
Qed.
Print Assumptions C77_never_crashes_refuted.
(** One connection is enough, if the peer says that its application has no name. *)
Theorem C77_empty_name_refuted : exists x ts l v, initial xcfg xg x /\ re_ops x = [] /\ re_rops x = [] /\ Forall wf_turn ts /\
  xprocess new_loader (begun x) ts = ((l, v), Panic) /\ length (o_seen v) = 1.
Proof.
  pose (ts := visit pa {| hs_app := []; hs_version := ver 1 5 0; hs_name := []; hs_nonce := 0; hs_decl := DeclEmpty |} []).
  exists (xblank [] []), ts, (loader_of ts), (end_of ts). split; [exact xblank_initial|]. split; [reflexivity|]. split; [reflexivity|].
  split; [apply wf_turnsb; vm_compute; reflexivity|]. split; vm_compute; reflexivity.
Qed.
Print Assumptions C77_empty_name_refuted.
(** The loader loads from [pa] while [pb] brings other blocks. *)
Definition busy_day : list turn :=
  visit pa hgood [MScore (repeat xff 12); MBlock (Some (xblk 1 0))] ++
  [TSync [[VAccept fine (Some pb)]; []; [VArrive fine (AMessage (on pb (PeersProps.line hforeign)) (MBlock (Some (xblk 4 1))))]; [VTime 5%Z]]; TTake [];
   TMove (VArrive fine (AMessage (on pa (PeersProps.line hgood)) (MBlockIds [xid 1; xid 2; xid 3]))); TTake [[VRespawn (Some (at0 (1000 * second)%Z))]];
   TMove (VArrive fine (AMessage (on pa (PeersProps.line hgood)) (MBlock (Some (xblk 3 2))))); TTake [];
   TMove (VArrive fine (AMessage (on pa (PeersProps.line hgood)) (MBlock (Some (xblk 2 1))))); TTake [];
   TMove (VTime (200 * second)%Z); TTick []].
Example C77_example : Forall wf_turn busy_day /\ snd (xprocess new_loader (begun (xblank [] [])) busy_day) = Ok tt /\ short (o_real (end_of busy_day)) /\
  length (o_calls (end_of busy_day)) = 26 /\ length (re_ops (o_real (end_of busy_day))) = 8.
Proof. split; [apply wf_turnsb; vm_compute; reflexivity|]. split; [|split; [|split]]; vm_compute; reflexivity. Qed.

(** * C78 *)
(** Every call on the linkage that writes does what a message of its peer says. *)
Theorem C78_calls_justified : forall cfg g ord cord srt x ts l v r, initial cfg g x -> process cfg g ord cord srt new_loader (begun x) ts = ((l, v), r) ->
  exists more, re_ops (o_real v) = re_ops x ++ more /\ Forall (fun of => justified v (fst of)) more.
Proof. intros. eapply ops_justified; eauto. Qed.
Print Assumptions C78_calls_justified.
(** A peer's leash is at a block that this peer itself has named. *)
Theorem C78_leash_said : forall cfg g ord cord srt x ts l v r a i, initial cfg g x -> Forall wf_turn ts ->
  process cfg g ord cord srt new_loader (begun x) ts = ((l, v), r) -> short (o_real v) -> wf_addr a ->
  leash (re_lk (o_real v)) a = Ok i -> leash (re_lk x) a = Ok i \/ said v a i.
Proof. intros. eapply leash_said; eauto. Qed.
Print Assumptions C78_leash_said.
(** A stored block is one that some peer has sent. *)
Theorem C78_block_vouched : forall cfg g ord cord srt x ts l v r i b, initial cfg g x -> Forall wf_turn ts ->
  process cfg g ord cord srt new_loader (begun x) ts = ((l, v), r) -> short (o_real v) -> wf_id i ->
  block (re_lk (o_real v)) i = Ok b -> block (re_lk x) i = Ok b \/ vouched v b.
Proof. intros. eapply block_vouched; eauto. Qed.
Print Assumptions C78_block_vouched.
(** The loader alone, whatever the linkage and the registry answer. *)
Theorem C78_loader_source : forall V (w : world V) ins v l' v' es r, feeds (logging w) ins new_loader (v, []) = ((l', (v', es)), r) ->
  Forall (from_inputs ins) es.
Proof. intros V w ins v l' v' es r E. exact (loader_source E). Qed.
Print Assumptions C78_loader_source.
Example C78_example : leash (re_lk (o_real (end_of busy_day))) pa = Ok (xid 3) /\ leash (re_lk (o_real (end_of busy_day))) pb = Ok (xid 4) /\
  (do b <- block (re_lk (o_real (end_of busy_day))) (xid 4); Ok (b_parent b)) = Ok (xid 1) /\ wf_addr pa /\ wf_id (xid 4).
Proof. split; [|split; [|split; [|split]]]; try (vm_compute; reflexivity). left. reflexivity. Qed.
