(** The properties C41-C50, C64 and C65 of /verif/properties.jsonl: loading blocks from peers. [w] is any behaviour of the linkage,
    the registry, the clock and the random numbers; [real_world] is the linkage and the registry of the other files, shared with
    other goroutines. *)
From Coq Require Import Strings.Byte ListDec.
From Verif Require Import Base Kv ChainModel ChainSpec ChainProofs ChainExample PeersModel PeersSpec PeersProps LoadModel LoadSpec LoadProofs LoadFire LoadCalm
  LoadLoop LoadBatch LoadReal LoadLeash.
Set Implicit Arguments.
Unset Strict Implicit.

(** * Scenes for the examples and the refutations *)
(** Peer [pa] is connected and has announced a high score; [env]: what happens before each call of the loader. *)
Definition xrops : list rop := joined ++ [RScore pa (10 ^ 40)%Z true].
Definition xreal (ops : list (op * option nat)) (env : list (list happening)) : real :=
  {| re_lk := at_end ops; re_reg := rrun xcfg xrops; re_now := 0%Z; re_env := env; re_faults := []; re_rand := 0;
     re_sent := []; re_lines := []; re_ops := ops; re_rops := xrops |}.
Definition asis A (m : list A) : list A := m.
Definition xw : world real := real_world xcfg xg (@asis _) (@asis _) (@asis _).
Definition after_inputs (ins : list input) (x : real) : loader * real := fst (feeds xw ins new_loader x).
(** The hundredth second comes before call number [n]. *)
Definition late (n : nat) : list (list happening) := repeat [] n ++ [[HTime (100 * second)%Z]].
Lemma asis_permutes : forall A, permutes (@asis A).
Proof. intros A m. apply Permutation_refl. Qed.
Lemma xreal_sound : forall ops env, forallb (fun of => wf_opb (fst of)) ops = true -> Forall (Forall wf_happening) env -> sound xcfg xg (xreal ops env).
Proof.
  intros ops env W E. split; [exact xg_wf|]. split; [exists xl0; split; [exact xg_start|reflexivity]|]. split.
  - apply Forall_forall. intros of I. apply wf_opb_ok. rewrite forallb_forall in W. now apply W.
  - split; [|split; [reflexivity|exact E]]. cbn [xreal re_rops xrops]. apply Forall_app. split; [apply joined_reach|repeat constructor].
Qed.
Lemma xreal_moved : forall ops env, forallb (fun of => match fst of with Move _ _ => false | _ => true end) ops = true -> moved_well xg (xreal ops env).
Proof.
  intros ops env H l0 _. cbn [xreal re_ops]. revert l0. induction ops as [|[o f] ops IH]; intros l0; [exact I|]. cbn [forallb fst] in H.
  apply andb_true_iff in H as [H1 H2]. cbn [good_moves]. split; [destruct o; [exact I|exact I|discriminate|exact I]|now apply IH].
Qed.
(** A block with ID 1 whose parent nobody knows. *)
Definition bad : pblock := {| pb_id := xid 1; pb_parent := xid 77; pb_ts := 1001; pb_bt := 100; pb_gen := Some (xgen 1) |}.
(** Peer [pa] announces blocks 1 and 2, and sends 2 and a useless block 1. *)
Definition bad_batch : list input := [InSync; InIDs pa [xid 1; xid 2]; InBlock pa (Some (xblk 2 1)); InBlock pa (Some bad)].
Definition good_batch : list input := [InSync; InIDs pa [xid 1; xid 2]; InBlock pa (Some (xblk 2 1)); InBlock pa (Some (xblk 1 0))].
Lemma late_wf : forall n, Forall (Forall wf_happening) (late n).
Proof. intros n. apply Forall_app. split; [apply Forall_forall; intros x I; apply repeat_spec in I; now subst|repeat constructor]. Qed.
Lemma late_undisturbed : forall ops n a, undisturbed a (xreal ops (late n)).
Proof. intros ops n a. apply Forall_app. split; [apply Forall_forall; intros x I; apply repeat_spec in I; now subst|repeat constructor]. Qed.

Lemma all_gotb : forall bs ids, forallb (fun i => existsb (fun b => id_eqb (pb_id b) i) bs) ids = true -> Forall (got bs) ids.
Proof.
  intros bs ids H. apply Forall_forall. intros i I. rewrite forallb_forall in H. apply H in I. apply existsb_exists in I as (b & B & E).
  exists b. split; [exact B|now apply id_eqb_eq].
Qed.
Lemma all_different : forall ids, forallb (fun i => Nat.eqb (length (filter (id_eqb i) ids)) 1) ids = true -> NoDup ids.
Proof.
  intros ids H. destruct (ListDec.NoDup_dec BytesFacts.bytes_eq_dec ids) as [Y|N]; [exact Y|exfalso].
  assert (D : exists i l1 l2 l3, ids = l1 ++ i :: l2 ++ i :: l3).
  { clear H. induction ids as [|i ids IH]; [exfalso; apply N; constructor|]. destruct (in_dec BytesFacts.bytes_eq_dec i ids) as [I|NI].
    - apply in_split in I as (l2 & l3 & ->). exists i, [], l2, l3. reflexivity.
    - destruct IH as (j & l1 & l2 & l3 & ->); [intros ND; apply N; now constructor|]. exists j, (i :: l1), l2, l3. reflexivity. }
  destruct D as (i & l1 & l2 & l3 & E). rewrite forallb_forall in H. specialize (H i). rewrite E in H.
  assert (R : id_eqb i i = true) by now apply id_eqb_eq. specialize (H (in_elt _ _ _)). apply Nat.eqb_eq in H.
  rewrite filter_app, app_length in H. cbn [filter] in H. rewrite R, filter_app in H. cbn [filter length] in H. rewrite R, app_length in H. cbn [length] in H. lia.
Qed.
Definition wf_inputb (i : input) : bool :=
  match i with
  | InIDs _ ids => forallb wf_idb ids
  | InBlock _ (Some b) => wf_pblockb b && (pb_bt b <=? max_int64)%N
  | _ => true
  end.
Lemma wf_inputs : forall ins, forallb wf_inputb ins = true -> Forall wf_input ins.
Proof.
  intros ins H. apply Forall_forall. intros i I. rewrite forallb_forall in H. apply H in I. clear H. destruct i as [a ids|a [b|]| |]; cbn in *; auto.
  - apply Forall_forall. intros x X. rewrite forallb_forall in I. now apply wf_idb_ok, I.
  - apply andb_true_iff in I as [A B]. split; [now apply wf_pblockb_ok|now apply N.leb_le].
Qed.
(** The peer that the loader is busy with. *)
Definition peer_of (l : loader) : ploader := match l_pl l with Some p => p | None => new_ploader pa end.
Ltac all_got := apply all_gotb; vm_compute; reflexivity.
Ltac different := apply all_different; vm_compute; reflexivity.

(** * C41 *)
Theorem C41_queue_ready : forall ids bs, NoDup ids -> (queue_ready (after ids bs) = true <-> Forall (got bs) ids).
Proof. exact q_ready. Qed.
Print Assumptions C41_queue_ready.
Theorem C41_queue_unrequested : forall ids bs b, ~ In (pb_id b) ids -> queue_put (after ids bs) b = after ids bs.
Proof. exact q_unrequested. Qed.
Print Assumptions C41_queue_unrequested.
Theorem C41_queue_last : forall ids bs, NoDup ids -> exists pre, longest_received bs ids pre /\
  match last_received (after ids bs) with
  | Some b => exists pre' i, pre = pre' ++ [i] /\ newest bs i b
  | None => pre = []
  end.
Proof. exact q_last. Qed.
Print Assumptions C41_queue_last.
Example C41_example :
  let q := after [xid 1; xid 2; xid 3] [xblk 2 1; xblk 9 8; xblk 1 0] in
  queue_ready q = false /\ last_received q = Some (xblk 2 1) /\ queue_ready (queue_put q (xblk 3 2)) = true /\
  last_received (after [xid 1; xid 2; xid 3] [xblk 2 1; xblk 3 2]) = None.
Proof. vm_compute. auto. Qed.

(** * C42 *)
(** Missing: lists with repetitions; for every one of them the claim is false (next theorems). *)
Theorem C42_queue_completes_partial : forall ids bs, NoDup ids -> Forall (got bs) ids -> queue_ready (after ids bs) = true.
Proof. intros ids bs N. apply q_ready. exact N. Qed.
Print Assumptions C42_queue_completes_partial.
Theorem C42_repeated_never_ready_refuted : forall ids bs, ~ NoDup ids -> queue_ready (after ids bs) = false.
Proof. exact q_duplicates. Qed.
Print Assumptions C42_repeated_never_ready_refuted.
Theorem C42_queue_completes_refuted : exists ids bs, Forall (got bs) ids /\ queue_ready (after ids bs) = false.
Proof.
  exists [xid 1; xid 1], [xblk 1 0; xblk 1 0]. split; [|vm_compute; reflexivity].
  all_got.
Qed.
Print Assumptions C42_queue_completes_refuted.
Example C42_example : NoDup [xid 1; xid 2] /\ Forall (got [xblk 2 1; xblk 1 0]) [xid 1; xid 2].
Proof.
  split; [different|all_got].
Qed.

(** * C43 *)
(** If the store fails (second case), nothing is requested. *)
Theorem C43_ids_message : forall V (w : world V) p v ids, waiting p WaitIDs -> exists v' log p' r,
  fire (logging w) (EIDs ids) p (v, []) = ((v', log), (p', r)) /\ pl_peer p' = pl_peer p /\ pl_triggers p' = [] /\
  ((exists known rest es, ids = known ++ rest /\ walk (pl_peer p) known es /\
      match rest with
      | [] => pl_queue p' = pl_queue p /\ exists r0 more, log = es ++ (COk (pl_peer p) Idle ==> r0) :: more /\ Forall quiet more /\
          match r0 with
          | Ok true => pl_state p' = WaitIDs /\ (r = Ok tt -> requested false (pl_peer p) more)
          | Ok false => pl_state p' = Idle /\ more = [] /\ r = Ok tt
          | _ => pl_state p' = Idle /\ more = [] /\ r = to_unit r0
          end
      | i :: _ => exists t, log = es ++ [CHas i ==> Ok false] ++ map (asks_for (pl_peer p)) rest ++ [CNow ==> t] /\
          r = Ok tt /\ pl_state p' = WaitBlocks /\ pl_queue p' = new_queue rest /\ pl_ts p' = t
      end) \/
   (r <> Ok tt /\ pl_state p' = WaitBlocks /\ pl_queue p' = pl_queue p /\ pl_ts p' = pl_ts p /\ Forall silent log)).
Proof. exact fire_ids. Qed.
Print Assumptions C43_ids_message.
(** With the real linkage, while no other goroutine calls for this peer: the leash ends at the last known ID. *)
Theorem C43_ids_leash : forall cfg g ord cord srt a, wf_addr a -> forall l p x ids l' x' r,
  busy l p -> pl_peer p = a -> waiting p WaitIDs -> sound cfg g x /\ undisturbed a x -> Forall wf_id ids ->
  loader_step (real_world cfg g ord cord srt) (InIDs a ids) l x = ((l', x'), r) -> short x' -> ids <> [] ->
  (exists known rest, ids = known ++ rest /\ Forall (fun i => lk_has_block (re_lk x') i = Ok true) known /\
     match rest with [] => True | i :: _ => lk_has_block (re_lk x) i <> Ok true end /\
     match rev known with [] => leash (re_lk x') a = leash (re_lk x) a | i :: _ => leash (re_lk x') a = Ok i end) \/
  (r <> Ok tt /\ exists p', busy l' p' /\ pl_state p' = WaitBlocks).
Proof. exact ids_leash. Qed.
Print Assumptions C43_ids_leash.
(** Chain 1-2-3-4-5 is stored, the peer's leash is at 1; it announces 2, 3, 8, 9. *)
Definition five : list (op * option nat) :=
  [(Put (xblk 1 0) pa, None); (Put (xblk 2 1) pb, None); (Put (xblk 3 2) pb, None); (Put (xblk 4 3) pb, None)].
Example C43_example :
  let y := after_inputs [InSync] (xreal five []) in
  let z := loader_step xw (InIDs pa [xid 2; xid 3; xid 8; xid 9]) (fst y) (snd y) in
  busy (fst y) (peer_of (fst y)) /\ pl_peer (peer_of (fst y)) = pa /\ waiting (peer_of (fst y)) WaitIDs /\ snd z = Ok tt /\
  leash (re_lk (snd y)) pa = Ok (xid 1) /\ leash (re_lk (snd (fst z))) pa = Ok (xid 3) /\
  skipn 1 (re_sent (snd (fst z))) = [(pa, MsgBlock (xid 8)); (pa, MsgBlock (xid 9))].
Proof. split; [vm_compute; reflexivity|]. split; [vm_compute; reflexivity|]. split; [split; vm_compute; reflexivity|]. repeat split; vm_compute; reflexivity. Qed.

(** * C44 *)
(** The queue always is what was asked for last in this synchronisation, with what has been received from the peer since then. *)
Theorem C44_queue_is_batch : forall V (w : world V) l b, batch w l b -> resting l /\ forall p, busy l p -> pl_queue p = after (fst b) (snd b).
Proof. exact batch_inv. Qed.
Print Assumptions C44_queue_is_batch.
(** Missing: stores that refuse a block; then the loader stops there and reports nothing (second case). *)
Theorem C44_batch_applied_partial : forall V (w : world V) p v ids bs b, waiting p WaitBlocks -> pl_queue p = after ids bs -> NoDup ids ->
  exists v' log p' r, fire (logging w) (EBlock (Some b)) p (v, []) = ((v', log), (p', r)) /\ pl_peer p' = pl_peer p /\
  pl_queue p' = after ids (bs ++ [b]) /\
  (Forall (got (bs ++ [b])) ids -> exists blks, Forall2 (newest (bs ++ [b])) ids blks /\
    ((exists r0 more, log = map (puts (pl_peer p)) blks ++ (COk (pl_peer p) Idle ==> r0) :: more /\ Forall quiet more /\
        (r0 = Ok true -> pl_state p' = WaitIDs) /\ (r0 <> Ok true -> pl_state p' = Idle /\ more = [])) \/
     (r <> Ok tt /\ pl_state p' = WaitBlocks /\ exists pre x post, blks = pre ++ x :: post /\
        log = map (puts (pl_peer p)) pre ++ [CPut x (pl_peer p) ==> r]))) /\
  (~ Forall (got (bs ++ [b])) ids -> log = [] /\ v' = v /\ r = Ok tt /\ pl_state p' = WaitBlocks).
Proof.
  intros V w p v ids bs b W Q N. destruct (@fire_block _ w p v (Some b) W) as (v' & log & p' & r & E & A & _ & C & D).
  exists v', log, p', r. split; [exact E|]. split; [exact A|].
  assert (QP : queue_put_ptr (pl_queue p) (Some b) = after ids (bs ++ [b])) by (cbn [queue_put_ptr]; rewrite Q; now rewrite after_app).
  rewrite QP in *. split; [exact C|]. pose proof (q_ready (bs ++ [b]) N) as RD. destruct (queue_ready (after ids (bs ++ [b]))).
  - split; [|intros NG; exfalso; apply NG, RD; reflexivity]. intros G. exists (received (after ids (bs ++ [b]))). split; [now apply q_received|].
    destruct D as [(r0 & more & L & F & M)|D]; [left|right; exact D]. exists r0, more. split; [exact L|]. split; [exact F|].
    destruct r0 as [[|]|e| |]; (split; [intros H|intros H]); try discriminate H; try congruence; tauto.
  - split; [intros G; apply RD in G; discriminate|]. intros _. tauto.
Qed.
Print Assumptions C44_batch_applied_partial.
(** With the real linkage, while no other goroutine calls for this peer: if the batch links up and no write fails, the leash ends at
    the last requested block. *)
Theorem C44_batch_leash_partial : forall cfg g ord cord srt l p x ids j bs b blks l' x' r, wf_addr (pl_peer p) -> busy l p -> waiting p WaitBlocks ->
  sound cfg g x -> undisturbed (pl_peer p) x -> no_faults x ->
  pl_queue p = after (ids ++ [j]) bs -> NoDup (ids ++ [j]) -> Forall wf_pblock (bs ++ [b]) -> Forall2 (newest (bs ++ [b])) (ids ++ [j]) blks ->
  links_up (fun i => lk_has_block (re_lk x) i = Ok true) blks ->
  loader_step (real_world cfg g ord cord srt) (InBlock (pl_peer p) (Some b)) l x = ((l', x'), r) -> short x' ->
  leash (re_lk x') (pl_peer p) = Ok j.
Proof.
  intros cfg g ord cord srt l p x ids j bs b blks l' x' r WA B W S U NF Q N WF F2 LU E SH.
  assert (G : Forall (got (bs ++ [b])) (ids ++ [j])).
  { clear - F2. induction F2 as [|i y is ys H F IH]; constructor; auto. destruct H as (E & pre & post & EQ & _). exists y. rewrite EQ. split; [apply in_elt|exact E]. }
  destruct (@batch_leash cfg g ord cord srt _ WA l p x ids j bs b blks l' x' r B eq_refl W (conj S U) Q N WF G F2 E SH) as [L|[NO _]]; [exact L|].
  exfalso. now apply NO.
Qed.
Print Assumptions C44_batch_leash_partial.
(** A batch whose blocks do not link up: all requested blocks have arrived, and nothing is put or reported. *)
Theorem C44_bad_batch_refuted : exists x0 ins l p x l' x' ids bs b, sound xcfg xg x0 /\ moved_well xg x0 /\ undisturbed (pl_peer p) x0 /\ no_faults x0 /\
  Forall wf_input ins /\ feeds xw ins new_loader x0 = ((l, x), Ok tt) /\
  busy l p /\ waiting p WaitBlocks /\ pl_queue p = after ids bs /\ NoDup ids /\ Forall (got (bs ++ [b])) ids /\ wf_pblock b /\
  loader_step xw (InBlock (pl_peer p) (Some b)) l x = ((l', x'), Err EParentNotFound) /\ (exists p', busy l' p' /\ pl_state p' = WaitBlocks) /\
  leash (re_lk x') (pl_peer p) = leash (re_lk x) (pl_peer p) /\ Forall (fun i => lk_has_block (re_lk x') i = Ok false) ids /\ re_lines x' = re_lines x.
Proof.
  pose (y := after_inputs (removelast bad_batch) (xreal [] [])). pose (z := fst (loader_step xw (InBlock pa (Some bad)) (fst y) (snd y))).
  exists (xreal [] []), (removelast bad_batch), (fst y), (peer_of (fst y)), (snd y), (fst z), (snd z), [xid 1; xid 2], [xblk 2 1], bad.
  split; [apply xreal_sound; [reflexivity|constructor]|]. split; [now apply xreal_moved|]. split; [constructor|]. split; [constructor|].
  split; [apply wf_inputs; vm_compute; reflexivity|]. split; [vm_compute; reflexivity|]. split; [vm_compute; reflexivity|]. split; [split; vm_compute; reflexivity|].
  split; [vm_compute; reflexivity|]. split; [different|]. split; [all_got|]. split; [apply wf_pblockb_ok; reflexivity|].
  split; [vm_compute; reflexivity|]. split; [exists (peer_of (fst z)); split; vm_compute; reflexivity|]. split; [vm_compute; reflexivity|].
  split; [repeat (apply Forall_cons; [vm_compute; reflexivity|]); apply Forall_nil|vm_compute; reflexivity].
Qed.
Print Assumptions C44_bad_batch_refuted.
Example C44_example :
  let y := after_inputs (removelast good_batch) (xreal [] []) in
  let z := loader_step xw (InBlock pa (Some (xblk 1 0))) (fst y) (snd y) in
  busy (fst y) (peer_of (fst y)) /\ waiting (peer_of (fst y)) WaitBlocks /\ pl_queue (peer_of (fst y)) = after ([xid 1] ++ [xid 2]) [xblk 2 1] /\
  Forall2 (newest [xblk 2 1; xblk 1 0]) [xid 1; xid 2] [xblk 1 0; xblk 2 1] /\
  links_up (fun i => lk_has_block (re_lk (snd y)) i = Ok true) [xblk 1 0; xblk 2 1] /\
  snd z = Ok tt /\ leash (re_lk (snd (fst z))) pa = Ok (xid 2) /\ pl_state (peer_of (fst (fst z))) = WaitIDs.
Proof.
  split; [vm_compute; reflexivity|]. split; [split; vm_compute; reflexivity|]. split; [vm_compute; reflexivity|]. split.
  - apply Forall2_cons; [split; [reflexivity|]; exists [xblk 2 1], []; split; [reflexivity|intros (b & [] & _)]|].
    apply Forall2_cons; [split; [reflexivity|]; exists [], [xblk 1 0]; split; [reflexivity|]; intros (b & [<-|[]] & E); discriminate E|apply Forall2_nil].
  - split; [|split; [vm_compute; reflexivity|split; vm_compute; reflexivity]].
    cbn [links_up]. split; [right; split; [vm_compute; reflexivity|split; [discriminate|cbv; discriminate]]|].
    split; [right; split; [right; reflexivity|split; [discriminate|cbv; discriminate]]|exact I].
Qed.

Ltac checks := cbv zeta; repeat match goal with |- _ /\ _ => split | |- waiting _ _ => split end; vm_compute; reflexivity.
(** * C45 *)
(** Missing: stores that refuse a block of the prefix; then the loader stops there and reports nothing (next theorem). Lists with
    repetitions: C42. *)
Theorem C45_timeout_partial : forall V (w : world V) p v t ids bs, (waiting p WaitIDs \/ waiting p WaitBlocks) ->
  pl_queue p = after ids bs -> NoDup ids ->
  if (30 * 1000000000 <? t - pl_ts p)%Z
  then exists v' log p' r pre blks, fire (logging w) (ETick t) p (v, []) = ((v', log), (p', r)) /\
    longest_received bs ids pre /\ Forall2 (newest bs) pre blks /\
    pl_peer p' = pl_peer p /\ pl_triggers p' = [] /\ pl_state p' = Done /\
    ((log = map (puts (pl_peer p)) blks ++ [CFail (pl_peer p) Done ==> r]) \/
     (r <> Ok tt /\ exists before x behind, blks = before ++ x :: behind /\ log = map (puts (pl_peer p)) before ++ [CPut x (pl_peer p) ==> r]))
  else fire (logging w) (ETick t) p (v, []) = ((v, []), (p, Ok tt)).
Proof.
  intros V w p v t ids bs W Q N. pose proof (@fire_tick _ w p v t W) as F. change timeoutDuration with (30 * 1000000000)%Z in F.
  destruct (30 * 1000000000 <? t - pl_ts p)%Z; [|exact F]. destruct F as (v' & log & p' & r & E & A & _ & C & D & F).
  destruct (q_prefix bs N) as (pre & L & F2). exists v', log, p', r, pre, (arrived_prefix (pl_queue p)). rewrite <- Q in F2.
  repeat (split; [assumption|]). destruct F as [(r0 & -> & ->)|F]; [left; reflexivity|right; exact F].
Qed.
Print Assumptions C45_timeout_partial.
(** The received prefix of the batch does not link up: the failure is not reported. *)
Theorem C45_no_report_refuted : exists x0 ins l p x l' x' r, sound xcfg xg x0 /\ moved_well xg x0 /\ undisturbed (pl_peer p) x0 /\ no_faults x0 /\
  Forall wf_input ins /\ feeds xw ins new_loader x0 = ((l, x), Ok tt) /\ busy l p /\ waiting p WaitBlocks /\
  loader_step (logging xw) InTick l (x, []) = ((l', (x', [CNow ==> (100 * second)%Z; CPut bad (pl_peer p) ==> r])), r) /\ r = Err EParentNotFound /\
  (30 * 1000000000 < 100 * second - pl_ts p)%Z.
Proof.
  pose (y := after_inputs bad_batch (xreal [] (late 12))). pose (z := fst (loader_step xw InTick (fst y) (snd y))).
  exists (xreal [] (late 12)), bad_batch, (fst y), (peer_of (fst y)), (snd y), (fst z), (snd z), (Err EParentNotFound).
  split; [apply xreal_sound; [reflexivity|apply late_wf]|]. split; [now apply xreal_moved|]. split; [apply late_undisturbed|]. split; [constructor|].
  split; [apply wf_inputs; vm_compute; reflexivity|]. split; [vm_compute; reflexivity|]. split; [vm_compute; reflexivity|]. split; [split; vm_compute; reflexivity|].
  split; [vm_compute; reflexivity|]. split; vm_compute; reflexivity.
Qed.
Print Assumptions C45_no_report_refuted.
(** Two of three blocks have arrived, the first and the last: the first is put. At 30 s, nothing happens. *)
Definition part_batch : list input := [InSync; InIDs pa [xid 1; xid 2; xid 3]; InBlock pa (Some (xblk 3 2)); InBlock pa (Some (xblk 1 0))].
Definition times (n : nat) (t : time) : list (list happening) := repeat [] n ++ [[HTime t]].
Example C45_example :
  let y := after_inputs part_batch (xreal [] (times 12 (30 * second)%Z)) in
  let z := after_inputs part_batch (xreal [] (times 12 (30 * second + 1)%Z)) in
  waiting (peer_of (fst y)) WaitBlocks /\ pl_queue (peer_of (fst y)) = after [xid 1; xid 2; xid 3] [xblk 3 2; xblk 1 0] /\
  loader_step (logging xw) InTick (fst y) (snd y, []) = ((fst y, (meanwhile xcfg xg (snd y), [CNow ==> (30 * second)%Z])), Ok tt) /\
  snd (snd (fst (loader_step (logging xw) InTick (fst z) (snd z, [])))) = [CNow ==> (30 * second + 1)%Z; puts pa (xblk 1 0); CLog (LFailed pa) ==> tt].
Proof. checks. Qed.

(** * C46 *)
(** Missing: stores that refuse a block (next theorems). *)
Theorem C46_timeout_frees_partial : forall V (w : world V) l es v p l' v' new r, session w l es -> busy l p ->
  pl_state p = WaitIDs \/ pl_state p = WaitBlocks -> loader_step (logging w) InTick l (v, []) = ((l', (v', new)), r) ->
  exists t rest, new = (CNow ==> t) :: rest /\
    if (30 * 1000000000 <? t - pl_ts p)%Z
    then (r = Ok tt /\ l_pl l' = None /\ rest = map (puts (pl_peer p)) (arrived_prefix (pl_queue p)) ++ [CLog (LFailed (pl_peer p)) ==> tt]) \/
         (r <> Ok tt /\ l_pl l' = Some (set_state p Done) /\ exists pre b post, arrived_prefix (pl_queue p) = pre ++ b :: post /\
            rest = map (puts (pl_peer p)) pre ++ [CPut b (pl_peer p) ==> r])
    else r = Ok tt /\ l' = l /\ rest = [].
Proof.
  intros V w l es v p l' v' new r S B W E. destruct (session_inv S) as (RS & TK & _ & _).
  apply (tick_log RS B W (TK ltac:(unfold busy in B; congruence)) E).
Qed.
Print Assumptions C46_timeout_frees_partial.
(** Once the loader is done with a peer and still busy with it, no input whatsoever has any effect: synchronisation has ended. *)
Theorem C46_stuck_forever : forall V (w : world V) l es p, session w l es -> busy l p -> pl_state p = Done ->
  forall ins v es', exists v' new, feeds (logging w) ins l (v, es') = ((l, (v', es' ++ new)), Ok tt) /\ Forall (fun e : event => projT1 e = CNow) new.
Proof.
  intros V w l es p S B D ins v es'. destruct (session_inv S) as (RS & TK & TM & _).
  apply (@stuck_forever _ w ins l v es' p); [split; [exact B|split; [now apply RS|now right]]|exact TM|].
  apply TK. unfold busy in B. congruence.
Qed.
Print Assumptions C46_stuck_forever.
(** One peer sends a batch that does not link up; at the timeout the loader is stuck for good. *)
Theorem C46_timeout_frees_refuted : exists x0 ins l p x, sound xcfg xg x0 /\ moved_well xg x0 /\ (forall a, undisturbed a x0) /\ no_faults x0 /\
  Forall wf_input ins /\ feeds xw (ins ++ [InTick]) new_loader x0 = ((l, x), Ok tt) /\ busy l p /\
  forall more x', exists x1 new, feeds (logging xw) more l (x', []) = ((l, (x1, new)), Ok tt) /\ Forall (fun e : event => projT1 e = CNow) new.
Proof.
  pose (y := after_inputs (bad_batch ++ [InTick]) (xreal [] (late 12))).
  exists (xreal [] (late 12)), bad_batch, (fst y), (peer_of (fst y)), (snd y).
  split; [apply xreal_sound; [reflexivity|apply late_wf]|]. split; [now apply xreal_moved|]. split; [intros a; apply late_undisturbed|]. split; [constructor|].
  split; [apply wf_inputs; vm_compute; reflexivity|]. split; [vm_compute; reflexivity|]. split; [vm_compute; reflexivity|].
  intros more x'. apply (@stuck_forever _ xw more (fst y) x' [] (peer_of (fst y))); [split; [vm_compute; reflexivity|split; [vm_compute; reflexivity|right; vm_compute; reflexivity]]|vm_compute; reflexivity..].
Qed.
Print Assumptions C46_timeout_frees_refuted.
Example C46_example : l_pl (fst (after_inputs (part_batch ++ [InTick]) (xreal [] (late 12)))) = None /\
  leash (re_lk (snd (after_inputs (part_batch ++ [InTick]) (xreal [] (late 12))))) pa = Ok (xid 1).
Proof. split; vm_compute; reflexivity. Qed.

(** * C47 *)
(** Missing: sessions in which the leash was moved after the last batch, along IDs that were known already (next theorem). *)
Theorem C47_silent_leash_partial : forall cfg g ord cord srt l ids bs p x l' x' r, batch (real_world cfg g ord cord srt) l (ids, bs) -> busy l p ->
  wf_addr (pl_peer p) -> pl_state p = WaitIDs ->
  sound cfg g x -> undisturbed (pl_peer p) x -> no_faults x -> Forall wf_pblock bs ->
  Forall (fun i => lk_has_block (re_lk x) i = Ok true) ids ->
  match rev ids with [] => True | j :: _ => leash (re_lk x) (pl_peer p) = Ok j end ->
  loader_step (real_world cfg g ord cord srt) InTick l x = ((l', x'), r) -> short x' ->
  returned r /\ (l' = l \/ l_pl l' = None) /\ leash (re_lk x') (pl_peer p) = leash (re_lk x) (pl_peer p).
Proof. exact silent_leash. Qed.
Print Assumptions C47_silent_leash_partial.
(** Blocks 1 and 2 were loaded; another peer brings 3 and 4; the peer announces 3 and 4, its leash moves to 4; then it falls silent,
    and the timeout moves its leash back to 2. *)
Definition overtaken : list input := good_batch ++ [InIDs pa [xid 3; xid 4]].
Definition overtaking : list (list happening) :=
  repeat [] 20 ++ [[HOp (Put (xblk 3 2) pb) None; HOp (Put (xblk 4 3) pb) None]] ++ late 12.
Theorem C47_silent_leash_refuted : exists x0 ins l p x l' x', sound xcfg xg x0 /\ moved_well xg x0 /\ undisturbed (pl_peer p) x0 /\ no_faults x0 /\
  Forall wf_input ins /\ feeds xw ins new_loader x0 = ((l, x), Ok tt) /\ busy l p /\ waiting p WaitIDs /\
  leash (re_lk x) (pl_peer p) = Ok (xid 4) /\ loader_step xw InTick l x = ((l', x'), Ok tt) /\ leash (re_lk x') (pl_peer p) = Ok (xid 2).
Proof.
  pose (y := after_inputs overtaken (xreal [] overtaking)). pose (z := fst (loader_step xw InTick (fst y) (snd y))).
  exists (xreal [] overtaking), overtaken, (fst y), (peer_of (fst y)), (snd y), (fst z), (snd z).
  assert (RE : forall (P : happening -> Prop) n, Forall (Forall P) (repeat [] n)) by (intros P n; apply Forall_forall; intros e I; apply repeat_spec in I; now subst).
  split. { apply xreal_sound; [reflexivity|]. apply Forall_app. split; [apply RE|]. apply Forall_cons; [|apply late_wf].
           repeat (apply Forall_cons; [split; [apply wf_opb_ok; reflexivity|discriminate]|]). apply Forall_nil. }
  split; [now apply xreal_moved|]. split.
  { replace (pl_peer (peer_of (fst y))) with pa by (vm_compute; reflexivity). apply Forall_app. split; [apply RE|]. apply Forall_cons; [|apply (late_undisturbed [] 12)].
    repeat (apply Forall_cons; [intros i; discriminate|]). apply Forall_nil. }
  split; [constructor|].
  split; [apply wf_inputs; vm_compute; reflexivity|]. split; [vm_compute; reflexivity|]. split; [vm_compute; reflexivity|]. split; [split; vm_compute; reflexivity|].
  split; [vm_compute; reflexivity|]. split; vm_compute; reflexivity.
Qed.
Print Assumptions C47_silent_leash_refuted.
Example C47_example :
  let y := after_inputs good_batch (xreal [] (late 20)) in
  let z := loader_step xw InTick (fst y) (snd y) in
  busy (fst y) (peer_of (fst y)) /\ pl_state (peer_of (fst y)) = WaitIDs /\ leash (re_lk (snd y)) pa = Ok (xid 2) /\
  snd z = Ok tt /\ l_pl (fst (fst z)) = None /\ leash (re_lk (snd (fst z))) pa = Ok (xid 2).
Proof. checks. Qed.

(** * C48 *)
Theorem C48_other_messages : forall V (w : world V) l es v, session w l es ->
  (forall a ids, (forall p, busy l p -> a <> pl_peer p \/ pl_state p <> WaitIDs) \/ ids = [] -> loader_step w (InIDs a ids) l v = ((l, v), Ok tt)) /\
  (forall a b, (forall p, busy l p -> a <> pl_peer p \/ pl_state p <> WaitBlocks) -> loader_step w (InBlock a b) l v = ((l, v), Ok tt)).
Proof. intros V w l es v S. apply other_messages. apply (session_inv S). Qed.
Print Assumptions C48_other_messages.
Example C48_example : forall b ids x,
  let l := fst (after_inputs [InSync; InIDs pa [xid 1; xid 2]] (xreal [] [])) in
  busy l (peer_of l) /\ pl_state (peer_of l) = WaitBlocks /\ pl_peer (peer_of l) = pa /\ loader_step xw (InBlock pb b) l x = ((l, x), Ok tt) /\
  loader_step xw (InIDs pa ids) l x = ((l, x), Ok tt).
Proof.
  intros b ids x l. assert (B : busy l (peer_of l)) by (vm_compute; reflexivity). assert (P : pl_peer (peer_of l) = pa) by (vm_compute; reflexivity).
  assert (S : pl_state (peer_of l) = WaitBlocks) by (vm_compute; reflexivity).
  assert (R : resting l) by (intros q Q; unfold busy in B; replace q with (peer_of l) by congruence; vm_compute; reflexivity).
  split; [exact B|]. split; [exact S|]. split; [exact P|]. destruct (@other_messages _ xw l x R) as [H1 H2]. split.
  - apply H2. intros q Q. left. assert (q = peer_of l) by (unfold busy in *; congruence). subst q. rewrite P. discriminate.
  - apply H1. left. intros q Q. right. assert (q = peer_of l) by (unfold busy in *; congruence). subst q. rewrite S. discriminate.
Qed.

(** * C49 *)
(** As long as the calls of the loader return (in the real world: C65), every input is processed to the end, and no event is rejected. *)
Theorem C49_no_unexpected_event : forall V (w : world V) (I : V -> Prop),
  calm_on (fun c => match c with CLast _ n => n = 100%Z | _ => True end) I w ->
  forall l es i v l' v' r, session w l es -> I v -> loader_step w i l v = ((l', v'), r) -> I v' /\ returned r /\ r <> Err EUnhandled.
Proof. intros V w I C l es i v l' v' r S J E. eapply step_calm; eauto. apply (session_inv S). Qed.
Print Assumptions C49_no_unexpected_event.
Theorem C49_state_changes : forall V (w : world V) l es i v l' v' r, session w l es -> loader_step w i l v = ((l', v'), r) ->
  (forall p p', busy l p -> busy l' p' -> pl_peer p' = pl_peer p /\ moves_to i (pl_state p) (pl_state p')) /\
  (forall p', l_pl l = None -> busy l' p' -> i = InSync /\ pl_state p' = WaitIDs).
Proof.
  intros V w l es i v l' v' r S E. split.
  - intros p p' B B'. apply (step_busy (proj1 (session_inv S)) B E). exact B'.
  - intros p' B B'. apply (step_free B E). exact B'.
Qed.
Print Assumptions C49_state_changes.
(** A calm world: every call answers something. *)
Definition dull : world unit := fun c _ =>
  (tt, match c return reply c with
       | CLeash _ => Ok (xid 1) | CLcb _ => Ok (xid 1) | CLast _ _ => Ok [xid 1] | CHas _ => Ok true | CMove _ _ => Ok tt | CPut _ _ => Err EParentNotFound
       | CAskIDs _ _ => tt | CAskBlock _ _ => tt | CNow => 7%Z | COk _ _ => Ok true | CFail _ _ => Err EOther | CScore _ => Ok 3%Z
       | CPeer _ => Ok (Some 5%Z) | CConns => Ok [(pa, Some 5%Z)] | CPick _ => 0 | CLog _ => tt
       end).
Example C49_example : calm_on (fun c => match c with CLast _ n => n = 100%Z | _ => True end) (fun _ => True) dull /\
  pl_state (peer_of (fst (fst (feeds dull [InSync] new_loader tt)))) = WaitIDs /\
  pl_state (peer_of (fst (fst (feeds xw good_batch new_loader (xreal [] []))))) = WaitIDs /\
  pl_state (peer_of (fst (fst (feeds xw (removelast good_batch) new_loader (xreal [] []))))) = WaitBlocks.
Proof.
  split; [|checks]. intros c [] _ _. split; [exact I|]. destruct c; cbn; repeat split; try discriminate; auto.
Qed.

(** * C50 *)
Theorem C50_restart : forall V (w : world V) l es v l' v' new r, session w l es -> l_pl l = None ->
  loader_step (logging w) InSync l (v, []) = ((l', (v', new)), r) -> returned r ->
  match l_pl l' with
  | None => forall a x, ~ In (CLcb a ==> x) new /\ ~ In (CLeash a ==> x) new
  | Some p => if Nat.leb 10 (failures (pl_peer p) es)
              then (exists x, In (CLcb (pl_peer p) ==> x) new) /\ (forall a x, ~ In (CLeash a ==> x) new)
              else (exists x, In (CLeash (pl_peer p) ==> x) new) /\ (forall a x, ~ In (CLcb a ==> x) new)
  end.
Proof. exact restart_rule. Qed.
Print Assumptions C50_restart.
(** The peer never answers. *)
Fixpoint silence (n : nat) : list input := match n with O => [] | S n' => [InSync; InTick] ++ silence n' end.
Fixpoint waits (n : nat) (t : time) : list (list happening) :=
  match n with O => [] | S n' => repeat [] 7 ++ [[HTime t]] ++ [[]] ++ waits n' (t + 100 * second)%Z end.
Example C50_example :
  let es := fun n => snd (snd (fst (feeds (logging xw) (silence n) new_loader (xreal [] (waits n (100 * second)%Z), [])))) in
  let next := fun n => let y := after_inputs (silence n) (xreal [] (waits n (100 * second)%Z)) in
                       snd (snd (fst (loader_step (logging xw) InSync (fst y) (snd y, [])))) in
  failures pa (es 9) = 9 /\ existsb (fun e : event => match projT1 e with CLeash _ => true | _ => false end) (next 9) = true /\
  existsb (fun e : event => match projT1 e with CLcb _ => true | _ => false end) (next 9) = false /\
  failures pa (es 10) = 10 /\ existsb (fun e : event => match projT1 e with CLeash _ => true | _ => false end) (next 10) = false /\
  existsb (fun e : event => match projT1 e with CLcb _ => true | _ => false end) (next 10) = true.
Proof. checks. Qed.

(** * C64 *)
Theorem C64_never_idle : forall cfg g ord cord srt, map_order ord -> permutes cord -> permutes srt -> forall ins x0 l x r,
  sound cfg g x0 -> moved_well g x0 -> Forall wf_input ins ->
  feeds (real_world cfg g ord cord srt) ins new_loader x0 = ((l, x), r) -> short x -> returned r ->
  forall p, busy l p -> pl_state p = WaitIDs \/ pl_state p = WaitBlocks \/ pl_state p = Done.
Proof.
  intros cfg g ord cord srt OM CO SO ins x0 l x r S M W E SH R p B. change x0 with (fst (x0, @nil event)) in E; rewrite feeds_unlogged in E.
  destruct (feeds (logging (real_world cfg g ord cord srt)) ins new_loader (x0, [])) as [[l1 [x1 es]] r1] eqn:F.
  assert (X : l1 = l /\ x1 = x /\ r1 = r) by (split; [|split]; [apply (f_equal fst), (f_equal fst) in E|apply (f_equal fst), (f_equal snd) in E|apply (f_equal snd) in E]; exact E).
  destruct X as (-> & -> & ->). destruct (loader_safe OM CO SO S M W F SH) as [[_ H]|[NR _]]; [|contradiction].
  specialize (H p B). destruct (pl_state p); auto. congruence.
Qed.
Print Assumptions C64_never_idle.
Example C64_example : forall env, Forall (Forall wf_happening) env -> sound xcfg xg (xreal five env) /\ moved_well xg (xreal five env) /\
  map_order (@asis group) /\ Forall wf_input overtaken.
Proof.
  intros env W. split; [now apply xreal_sound|]. split; [now apply xreal_moved|]. split; [apply asis_permutes|apply wf_inputs; vm_compute; reflexivity].
Qed.

(** * C65 *)
(** Missing: LCB; if it returned for every peer, the loader would never crash. *)
Theorem C65_loader_returns_partial : forall cfg g ord cord srt, map_order ord -> permutes cord -> permutes srt -> forall ins x0 l x es r,
  sound cfg g x0 -> moved_well g x0 -> Forall wf_input ins ->
  feeds (logging (real_world cfg g ord cord srt)) ins new_loader (x0, []) = ((l, (x, es)), r) -> short x -> ~ returned r ->
  exists a (k : reply (CLcb a)), In (CLcb a ==> k) es /\ ~ returned k.
Proof.
  intros cfg g ord cord srt OM CO SO ins x0 l x es r S M W E SH NR. destruct (loader_safe OM CO SO S M W E SH) as [[R _]|[_ H]]; [contradiction|exact H].
Qed.
Print Assumptions C65_loader_returns_partial.
(** After ten failures, LCB crashes the process if the peer's chain and the best chain fork at genesis. *)
Definition forked : list (op * option nat) := two_chains ++ [(Put (xblk 20 19) (xpeer 2), None); (Put (xblk 9 8) pa, None)].
Theorem C65_restart_crash_refuted : exists x0 ins l x, sound xcfg xg x0 /\ moved_well xg x0 /\ (forall a, undisturbed a x0) /\ no_faults x0 /\
  Forall wf_input ins /\ feeds xw ins new_loader x0 = ((l, x), Panic).
Proof.
  pose (x0 := xreal forked (waits 10 (100 * second)%Z)). pose (y := after_inputs (silence 10 ++ [InSync]) x0).
  exists x0, (silence 10 ++ [InSync]), (fst y), (snd y).
  assert (W : forall (P : happening -> Prop) n t, (forall u, P (HTime u)) -> Forall (Forall P) (waits n t)).
  { intros P n. induction n as [|n IH]; intros t H; [constructor|]. cbn [waits repeat app]. repeat (apply Forall_cons; [now repeat constructor|]). auto. }
  split; [apply xreal_sound; [vm_compute; reflexivity|apply W; intros; exact I]|]. split; [apply xreal_moved; vm_compute; reflexivity|]. split; [intros a; apply W; intros; exact I|].
  split; [constructor|]. split; [apply wf_inputs; vm_compute; reflexivity|vm_compute; reflexivity].
Qed.
Print Assumptions C65_restart_crash_refuted.
(** A block with base target 2^63 crashes the process (C01, C25). *)
Definition steep : pblock := {| pb_id := xid 1; pb_parent := xid 0; pb_ts := 1001; pb_bt := 2 ^ 63; pb_gen := Some (xgen 1) |}.
Theorem C65_base_target_crash_refuted : exists x0 a b l x, sound xcfg xg x0 /\ moved_well xg x0 /\ (forall a, undisturbed a x0) /\ no_faults x0 /\ wf_pblock b /\
  feeds xw [InSync; InIDs a [pb_id b]; InBlock a (Some b)] new_loader x0 = ((l, x), Panic).
Proof.
  pose (y := after_inputs [InSync; InIDs pa [pb_id steep]; InBlock pa (Some steep)] (xreal [] [])). exists (xreal [] []), pa, steep, (fst y), (snd y).
  split; [apply xreal_sound; [reflexivity|constructor]|]. split; [now apply xreal_moved|]. split; [intros a; constructor|]. split; [constructor|].
  split; [apply wf_pblockb_ok; reflexivity|vm_compute; reflexivity].
Qed.
Print Assumptions C65_base_target_crash_refuted.
Example C65_example : snd (feeds xw (overtaken ++ [InTick; InSync]) new_loader (xreal [] overtaking)) = Ok tt.
Proof. vm_compute. reflexivity. Qed.
