(** Specification vocabulary for the loader (C41-C50, C64-C66). *)
From Verif Require Import Base Kv ChainModel ChainSpec PeersModel PeersSpec LoadModel.
Set Implicit Arguments.
Unset Strict Implicit.

(** * The queue *)

(** A block with ID [i] is among the received blocks. *)
Definition got (bs : list pblock) (i : id) : Prop := exists b, In b bs /\ pb_id b = i.
(** [b] is the last of the received blocks with ID [i]. *)
Definition newest (bs : list pblock) (i : id) (b : pblock) : Prop :=
  pb_id b = i /\ exists pre post, bs = pre ++ b :: post /\ ~ got post i.
(** The queue after the request of [ids] and the receipt of [bs], in this order. *)
Definition after (ids : list id) (bs : list pblock) : queue := fold_left queue_put bs (new_queue ids).
(** [pre] is the longest prefix of [ids] that has been received. *)
Definition longest_received (bs : list pblock) (ids pre : list id) : Prop :=
  exists post, ids = pre ++ post /\ Forall (got bs) pre /\ match post with [] => True | i :: _ => ~ got bs i end.

(** * Observing the calls *)

Definition event := {c : call & reply c}.
Notation "c ==> r" := (existT reply c r) (at level 60).
(** The world [w] with a record of all calls and their results. *)
Definition logging V (w : world V) : world (V * list event) :=
  fun c vs => let (v', r) := w c (fst vs) in ((v', snd vs ++ [c ==> r]), r).

(** The calls by which known IDs are passed: the leash is moved to each of them, unless it is there already. *)
Inductive walk (a : addr) : list id -> list event -> Prop :=
| walk_nil : walk a [] []
| walk_here : forall i ids es, walk a ids es -> walk a (i :: ids) ([CHas i ==> Ok true; CLeash a ==> Ok i] ++ es)
| walk_move : forall i j ids es, i <> j -> walk a ids es ->
    walk a (i :: ids) ([CHas i ==> Ok true; CLeash a ==> Ok j; CMove i a ==> Ok tt] ++ es).
Definition asks_for (a : addr) (i : id) : event := CAskBlock a i ==> tt.
Definition puts (a : addr) (b : pblock) : event := CPut b a ==> Ok tt.
(** Calls that write nothing, ask for no block and report nothing. *)
Definition quiet (e : event) : Prop :=
  match projT1 e with
  | CMove _ _ | CPut _ _ | CAskBlock _ _ | COk _ _ | CFail _ _ => False
  | _ => True
  end.
Definition is_ask (e : event) : Prop := match projT1 e with CAskBlock _ _ => True | _ => False end.
Definition is_report (e : event) : Prop := match projT1 e with COk _ _ | CFail _ _ => True | _ => False end.
(** A request for IDs, from the last common block or from the leash. *)
Definition requested (lcb : bool) (a : addr) (es : list event) : Prop :=
  exists i ids t, es = [if lcb then CLcb a ==> Ok i else CLeash a ==> Ok i; CLast i 100 ==> Ok ids; CAskIDs a ids ==> tt; CNow ==> t].

(** The peer loader is waiting, and its machine is at rest. *)
Definition waiting (p : ploader) (s : lstate) : Prop := pl_state p = s /\ pl_triggers p = [].

(** * Runs of the loader *)

(** The call is made for peer [a], if for any. *)
Definition for_peer (a : addr) (c : call) : Prop :=
  match c with
  | CLeash b | CLcb b | CMove _ b | CPut _ b | CAskIDs b _ | CAskBlock b _ | COk b _ | CFail b _ | CScore b | CPeer b => b = a
  | _ => True
  end.
(** The call returns, not with an empty list of last IDs or without the score of a peer; a random number is in its range. *)
Definition calm_reply (c : call) : reply c -> Prop :=
  match c return reply c -> Prop with
  | CLeash _ => fun r => returned r /\ r <> Err EUnhandled
  | CLcb _ => fun r => returned r /\ r <> Err EUnhandled
  | CLast _ _ => fun r => returned r /\ r <> Err EUnhandled /\ r <> Ok []
  | CHas _ => fun r => returned r /\ r <> Err EUnhandled
  | CMove _ _ => fun r => returned r /\ r <> Err EUnhandled
  | CPut _ _ => fun r => returned r /\ r <> Err EUnhandled
  | COk _ _ => fun r => returned r /\ r <> Err EUnhandled
  | CFail _ _ => fun r => returned r /\ r <> Err EUnhandled
  | CScore _ => fun r => returned r
  | CPeer _ => fun r => returned r /\ r <> Ok None
  | CConns => fun r => returned r
  | CPick n => fun k => 0 < n -> k < n
  | _ => fun _ => True
  end.
(** Calls that satisfy [P], made in states that satisfy [I], are calm and keep [I]. *)
Definition calm_on V (P : call -> Prop) (I : V -> Prop) (w : world V) : Prop :=
  forall c v, P c -> I v -> I (fst (w c v)) /\ calm_reply (snd (w c v)).

(** A run of the loader from its creation: the inputs are arbitrary, and so is the state of the world when one arrives. The
    list is the record of all calls. *)
Inductive session V (w : world V) : loader -> list event -> Prop :=
| session_new : session w new_loader []
| session_step : forall l es i v l' v' new r, session w l es ->
    loader_step (logging w) i l (v, []) = ((l', (v', new)), r) -> returned r -> session w l' (es ++ new).

(** The number of failed synchronisations with [a] since its last success or restart, according to the log lines. *)
Definition fail_step (a : addr) (n : nat) (e : event) : nat :=
  match projT1 e with
  | CLog (LFailed b) => if addr_eqb a b then S n else n
  | CLog (LNoPeer b | LNoScore b | LStill b | LNoMore b | LRestart b) => if addr_eqb a b then 0 else n
  | _ => n
  end.
Definition failures (a : addr) (es : list event) : nat := fold_left (fail_step a) es 0.

(** The loader is busy with a peer. *)
Definition busy (l : loader) (p : ploader) : Prop := l_pl l = Some p.
(** The allowed changes of the state while one input is processed. *)
Definition moves_to (i : input) (s s' : lstate) : Prop :=
  s' = s \/
  match s with
  | Idle => False
  | WaitIDs => match i with InIDs _ _ => s' = WaitBlocks \/ s' = Idle | InTick => s' = Done | _ => False end
  | WaitBlocks => match i with InBlock _ _ => s' = Idle \/ s' = WaitIDs | InTick => s' = Done | _ => False end
  | Done => False
  end.

(** The loader fed with inputs, until one is not processed to the end; errors are logged only. *)
Fixpoint feeds V (w : world V) (ins : list input) (l : loader) (v : V) : (loader * V) * outcome unit :=
  match ins with
  | [] => ((l, v), Ok tt)
  | i :: ins' => match loader_step w i l v with
                 | ((l1, v1), (Ok _ | Err _)) => feeds w ins' l1 v1
                 | r => r
                 end
  end.

(** The IDs of the blocks asked for. *)
Definition asked_ids (es : list event) : list id := flat_map (fun e : event => match projT1 e with CAskBlock _ i => [i] | _ => [] end) es.
(** The last batch asked for in the current synchronisation, and the blocks received from the peer since then. *)
Definition next_batch (l : loader) (i : input) (new : list event) (b : list id * list pblock) : list id * list pblock :=
  match asked_ids new with
  | [] => match l_pl l, i with
          | None, _ => ([], [])
          | Some p, InBlock a (Some x) =>
              match pl_state p with WaitBlocks => if addr_eqb a (pl_peer p) then (fst b, snd b ++ [x]) else b | _ => b end
          | _, _ => b
          end
  | ids => (ids, [])
  end.
Inductive batch V (w : world V) : loader -> list id * list pblock -> Prop :=
| batch_new : batch w new_loader ([], [])
| batch_step : forall l b i v l' v' new r, batch w l b ->
    loader_step (logging w) i l (v, []) = ((l', (v', new)), r) -> returned r -> batch w l' (next_batch l i new b).

(** * The real world *)

(** Other goroutines call with Go values; only the loader calls MoveLeash. *)
Definition wf_happening (h : happening) : Prop :=
  match h with HOp o _ => wf_op o /\ (forall i a, o <> Move i a) | HReg o => wf_rop o | HTime _ => True end.
(** The linkage and the registry are what their histories made them. *)
Definition sound (cfg : config) (g : pblock) (x : real) : Prop :=
  wf_pblock g /\ (exists l0, start g = Ok l0 /\ re_lk x = run g l0 (re_ops x)) /\ Forall (fun of => wf_op (fst of)) (re_ops x) /\
  Forall wf_rop (re_rops x) /\ re_reg x = rrun cfg (re_rops x) /\ Forall (Forall wf_happening) (re_env x).
(** So far, MoveLeash was only called with stored blocks. *)
Definition moved_well (g : pblock) (x : real) : Prop := forall l0, start g = Ok l0 -> good_moves g l0 (re_ops x).
Definition short (x : real) : Prop := (N.of_nat (length (re_ops x)) < 2 ^ 32 - 10)%N.
(** What a peer can send; base targets are limited because of C25. *)
Definition wf_input (i : input) : Prop :=
  match i with
  | InIDs _ ids => Forall wf_id ids
  | InBlock _ (Some b) => wf_pblock b /\ (pb_bt b <= max_int64)%N
  | _ => True
  end.
(** Other goroutines make no call on the linkage for peer [a]. *)
Definition spares (a : addr) (h : happening) : Prop := match h with HOp o _ => forall i, target o <> Some (a, i) | _ => True end.
Definition undisturbed (a : addr) (x : real) : Prop := Forall (Forall (spares a)) (re_env x).
Definition no_faults (x : real) : Prop := Forall (fun f => f = None) (re_faults x).
(** Every block is known or links up with a known or an earlier one, and can be stored (C01, C25). *)
Fixpoint links_up (known : id -> Prop) (bs : list pblock) : Prop :=
  match bs with
  | [] => True
  | b :: bs' => (known (pb_id b) \/ (known (pb_parent b) /\ pb_gen b <> None /\ (pb_bt b <= max_int64)%N)) /\
      links_up (fun i => known i \/ i = pb_id b) bs'
  end.
