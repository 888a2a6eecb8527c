(** Model of the ordered key-value store used by the repository: github.com/syndtr/goleveldb.
    The database is a list of bindings sorted by the default (bytes.Compare) comparer. *)
From Verif Require Import Base.
Set Implicit Arguments.

Section Kv.
  Context {V : Type}.
  Definition kv := list (bytes * V).

  (** [Snapshot.Get] (chains/storage.go:471,492,568,580,600,653; peers/storage.go:75): [None] is ErrNotFound.
      Snapshots are taken at the start of a call and the database has a single writer under the linkage/registry
      mutex, so a snapshot is the database itself. I/O errors of reads are not modelled. *)
  Fixpoint kv_get (k : bytes) (s : kv) : option V :=
    match s with
    | [] => None
    | (k', v) :: s' => if beqb k k' then Some v else kv_get k s'
    end.

  Fixpoint kv_put (k : bytes) (v : V) (s : kv) : kv :=
    match s with
    | [] => [(k, v)]
    | (k', v') :: s' =>
        match bcmp k k' with
        | Lt => (k, v) :: s
        | Eq => (k, v) :: s'
        | Gt => (k', v') :: kv_put k v s'
        end
    end.

  Definition kv_del (k : bytes) (s : kv) : kv := filter (fun b => negb (beqb k (fst b))) s.

  (** [Snapshot.NewIterator(&util.Range{Start, Limit})] followed by First/Next until invalid
      (chains/storage.go:425-434, 671-680): all bindings with Start <= key < Limit in key order. *)
  Definition kv_range (lo hi : bytes) (s : kv) : kv :=
    filter (fun b => bleb lo (fst b) && bltb (fst b) hi) s.

  (** [leveldb.Batch] (chains/storage.go:69,152,205,404; peers/storage.go:105) and [DB.Write], which applies the batch
      atomically and in order. *)
  Inductive bop := BPut (k : bytes) (v : V) | BDel (k : bytes).
  Definition batch := list bop.
  Definition apply_bop (s : kv) (o : bop) : kv :=
    match o with BPut k v => kv_put k v s | BDel k => kv_del k s end.
  Definition apply_batch (s : kv) (b : batch) : kv := fold_left apply_bop b s.

  (** A call performs a list of batch writes one after the other. If the process is killed, or a write fails (the call
      then returns the error at once), only the first [k] of them have reached the database. *)
  Definition apply_writes (s : kv) (ws : list batch) : kv := fold_left apply_batch ws s.
End Kv.
Arguments kv : clear implicits.
Arguments bop : clear implicits.
Arguments batch : clear implicits.
