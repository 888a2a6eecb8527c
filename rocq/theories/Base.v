(** Basic notions shared by all models: outcomes of Go calls, bytes, big-endian integers, fixed-width wrap. *)
From Coq Require Export List NArith ZArith Lia Bool Arith.
From Coq Require Export Init.Byte Sorting.Permutation Sorting.Sorted.
From Coq Require Import Strings.Byte.
From Coq Require Export ZifyBool ZifyNat ZifyN.
Export ListNotations.
Set Implicit Arguments.

(** Errors that Go code in /repo distinguishes with errors.Is; everything else is [EOther].
    leveldb.ErrNotFound (chains/storage.go:122,473; peers/registry.go:81), ErrParentNotFound and ErrRefNotFound
    (chains/linkage.go:24-25). [EUnhandled] is the error of the state machine for a trigger without a transition
    (loading/peer_loader.go), which no code tells apart. *)
Inductive err := ENotFound | EParentNotFound | ERefNotFound | EUnhandled | EOther.

(** The outcome of a Go call: normal return, error return, run-time panic, or (model only) exhausted fuel. *)
Inductive outcome (A : Type) :=
| Ok (a : A)
| Err (e : err)
| Panic
| Diverge.
Arguments Ok {A} a. Arguments Err {A} e. Arguments Panic {A}. Arguments Diverge {A}.

Definition bind {A B} (x : outcome A) (f : A -> outcome B) : outcome B :=
  match x with Ok a => f a | Err e => Err e | Panic => Panic | Diverge => Diverge end.
Notation "'do' x <- a ; b" := (bind a (fun x => b)) (at level 200, x pattern, a at level 100, b at level 200).

Definition is_ok {A} (x : outcome A) : bool := match x with Ok _ => true | _ => false end.

(** Sequential loop with early exit: Go's [for _, x := range l { y, err := f(x); if err != nil { return err }; ... }]. *)
Fixpoint mapM {A B} (f : A -> outcome B) (l : list A) : outcome (list B) :=
  match l with
  | [] => Ok []
  | x :: xs => do y <- f x; do ys <- mapM f xs; Ok (y :: ys)
  end.

(** uint32 / uint64 arithmetic (wrap-around). *)
Definition u32 (n : N) : N := (n mod 2 ^ 32)%N.
Definition u64 (n : N) : N := (n mod 2 ^ 64)%N.
Definition u32_sub (a b : N) : N := u32 (a + 2 ^ 32 - b mod 2 ^ 32)%N.
Definition max_int64 : N := (2 ^ 63 - 1)%N.

(** Bytes. *)
Definition bytes := list byte.
Definition byte_of (n : N) : byte := match Byte.of_N n with Some b => b | None => x00 end.
Definition byte_cmp (a b : byte) : comparison := N.compare (Byte.to_N a) (Byte.to_N b).

Fixpoint bcmp (a b : bytes) : comparison :=
  match a, b with
  | [], [] => Eq
  | [], _ :: _ => Lt
  | _ :: _, [] => Gt
  | x :: xs, y :: ys => match byte_cmp x y with Eq => bcmp xs ys | c => c end
  end.
Definition beqb (a b : bytes) : bool := match bcmp a b with Eq => true | _ => false end.
Definition bltb (a b : bytes) : bool := match bcmp a b with Lt => true | _ => false end.
Definition bleb (a b : bytes) : bool := match bcmp a b with Gt => false | _ => true end.

(** encoding/binary.BigEndian.PutUint64 / Uint64, generalised to [k] bytes. *)
Fixpoint be (k : nat) (n : N) : bytes :=
  match k with
  | O => []
  | S k' => byte_of ((n / 256 ^ N.of_nat k') mod 256) :: be k' n
  end.
Definition unbe (b : bytes) : N := fold_left (fun acc x => acc * 256 + Byte.to_N x)%N b 0%N.
