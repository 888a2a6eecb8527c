(** Specification of atomicity, independent of locks and of the steps inside a call. *)
From Verif Require Import Base Kv ChainModel LockModel.
Set Implicit Arguments.

(** * Linearizability *)
Section Linear.
  Variables D C R : Type.
  Variable does : C -> D -> D * R. (* what the call does when it is alone *)

  (** A trace with, for each call, the moment at which it takes effect. *)
  Inductive mark := MInv (g : nat) (c : C) | MAct (g : nat) (c : C) (r : R) | MRes (g : nat) (c : C) (r : R).
  Definition erase1 (m : mark) : list (event C R) :=
    match m with MInv g c => [Inv R g c] | MAct _ _ _ => [] | MRes g c r => [Res g c r] end.
  Definition erase (ms : list mark) : list (event C R) := flat_map erase1 ms.

  (** Where a goroutine is: outside of a call, in a call that has not acted yet, or in one that has. *)
  Inductive phase := Out | Called (c : C) | Acted (c : C) (r : R).
  (** [explains d0 ms ph d]: each goroutine calls, acts and returns in this order; the calls, in the order in which they act, are
      performed one after the other, starting from [d0] and ending in [d]; and each returns what it got when it acted. *)
  Inductive explains (d0 : D) : list mark -> (nat -> phase) -> D -> Prop :=
  | ex_nil : explains d0 [] (fun _ => Out) d0
  | ex_inv ms ph d g c : explains d0 ms ph d -> ph g = Out -> explains d0 (ms ++ [MInv g c]) (upd ph g (Called c)) d
  | ex_act ms ph d g c d' r : explains d0 ms ph d -> ph g = Called c -> does c d = (d', r) ->
      explains d0 (ms ++ [MAct g c r]) (upd ph g (Acted c r)) d'
  | ex_res ms ph d g c r : explains d0 ms ph d -> ph g = Acted c r -> explains d0 (ms ++ [MRes g c r]) (upd ph g Out) d.
End Linear.

(** * What the methods of the linkage do when they are alone *)
(** linkage.go:231-258 *)
Definition log_stats (l : linkage) : outcome unit :=
  match (do hs <- active_heads l; do _ <- mapM (fun h : N * id => block l (snd h)) hs; do _ <- lk_leashes l; Ok tt) with
  | Err _ => Ok tt
  | r => r
  end.
Definition does (g : pblock) (c : call) (l : linkage) : linkage * answer :=
  match c with
  | KPut b a f => let (l', r) := exec g l (Put b a) f in (l', RUnit r)
  | KMicro m a f => let (l', r) := exec g l (Micro m a) f in (l', RUnit r)
  | KMove i a f => let (l', r) := exec g l (Move i a) f in (l', RUnit r)
  | KHasLeash a => (l, RBool (has_leash l a))
  | KLeash a => (l, RId (leash l a))
  | KLeashScore a => (l, RScore (leash_score l a))
  | KHeads => (l, RHeads (lk_heads l))
  | KActiveHeads => (l, RHeads (active_heads l))
  | KLastIDs i n => (l, RIds (last_ids l i n))
  | KHasBlock i => (l, RBool (lk_has_block l i))
  | KBlock i => (l, RBlock (block l i))
  | KLeashes => (l, RLeashes (lk_leashes l))
  | KLogStats => (l, RUnit (log_stats l))
  | KStats ord srt => (l, RCounts (stats ord srt l))
  | KLcb ord a => (l, RId (lcb ord l a))
  | KForks ord srt ps => (l, RForks (forks ord srt l ps))
  | KFork ord a => (l, RFork (fork_of ord l a))
  | KForkGenerators ord srt i n => (l, RGens (fork_generators ord srt l i n))
  end.
(** The same on stores; the genesis ID never changes. *)
Definition does_db (g : pblock) (gid : id) (c : call) (d : db) : db * answer :=
  let (l, r) := does g c {| lk_genesis := gid; lk_db := d |} in (lk_db l, r).
(** The writing calls as operations of the store's histories. *)
Definition op_of (c : call) : option (op * option nat) :=
  match c with KPut b a f => Some (Put b a, f) | KMicro m a f => Some (Micro m a, f) | KMove i a f => Some (Move i a, f) | _ => None end.
(** The effects of the calls that have acted, in order. *)
Definition acted_ops (ms : list (mark call answer)) : list (op * option nat) :=
  flat_map (fun m => match m with MAct _ c _ => match op_of c with Some o => [o] | None => [] end | _ => [] end) ms.

(** * Liveness *)
(** Whatever the schedule, [P] is reached after finitely many steps of [next]. *)
Inductive inevitably S (next : S -> S -> Prop) (P : S -> Prop) (s : S) : Prop :=
| iv_now : P s -> inevitably next P s
| iv_later : (exists s', next s s') -> (forall s', next s s' -> inevitably next P s') -> inevitably next P s.
(** A step other than a new call. *)
Definition goes_on D C R (body : C -> code D R) (s s' : state D C R) : Prop :=
  exists es, step body s es s' /\ forall g c, es <> [Inv R g c].
Definition all_out D C R (s : state D C R) : Prop := forall g, gs s g = None.
