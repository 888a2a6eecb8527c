(** Model of goroutines calling the methods of a data structure guarded by a sync.RWMutex: chains/linkage.go.
    Every step that other goroutines can see, or that can block, is a separate step: taking and releasing the lock, every
    DB.GetSnapshot (an atomic view of the store) and every DB.Write (an atomic batch). Anything else a goroutine does is
    local to it and happens together with the step before. *)
From Verif Require Import Base Kv ChainModel.
Set Implicit Arguments.

(** * Code *)
(** What a goroutine still has to do in the call it is in. RWMutex.Lock is two steps: the writer first announces itself,
    which needs that no other writer has (rw.w.Lock, and readerCount becomes negative: no reader gets in any more), and then
    waits for the readers that are inside to leave. *)
Inductive code (D R : Type) :=
| Ret (r : R)
| Snap (k : D -> code D R)
| Write (f : D -> D) (k : code D R)
| RLock (k : code D R)
| RUnlock (k : code D R)
| Announce (k : code D R)
| Enter (k : code D R)
| Unlock (k : code D R).
Arguments Ret {D R}.

Fixpoint cbind D A B (c : code D A) (f : A -> code D B) : code D B :=
  match c with
  | Ret a => f a
  | Snap k => Snap (fun d => cbind (k d) f)
  | Write w k => Write w (cbind k f)
  | RLock k => RLock (cbind k f)
  | RUnlock k => RUnlock (cbind k f)
  | Announce k => Announce (cbind k f)
  | Enter k => Enter (cbind k f)
  | Unlock k => Unlock (cbind k f)
  end.
(** Go's [if err != nil { return err }]; a panic also ends the call. *)
Definition obind D A B (c : code D (outcome A)) (f : A -> code D (outcome B)) : code D (outcome B) :=
  cbind c (fun r => match r with Ok a => f a | Err e => Ret (Err e) | Panic => Ret Panic | Diverge => Ret Diverge end).
Notation "'try' x <- a ; b" := (obind a (fun x => b)) (at level 200, x pattern, a at level 100, b at level 200).
Fixpoint cmap D A B (f : A -> code D (outcome B)) (l : list A) : code D (outcome (list B)) :=
  match l with
  | [] => Ret (Ok [])
  | a :: l' => try b <- f a; try bs <- cmap f l'; Ret (Ok (b :: bs))
  end.
Definition view D A (f : D -> A) : code D A := Snap (fun d => Ret (f d)).

(** mu.Lock(); defer mu.Unlock() and mu.RLock(); defer mu.RUnlock(): the deferred call also runs on a panic. *)
Definition locked D A (c : code D A) : code D A := Announce (Enter (cbind c (fun r => Unlock (Ret r)))).
Definition rlocked D A (c : code D A) : code D A := RLock (cbind c (fun r => RUnlock (Ret r))).

(** * Goroutines *)
(** sync.RWMutex. [readers]: the goroutines inside with a read lock, once per lock held; [pending]: the writer that has
    announced itself; [writer]: the writer inside. *)
Record mutex := { readers : list nat; pending : option nat; writer : option nat }.
Definition unlocked : mutex := {| readers := []; pending := None; writer := None |}.
Definition set_readers (m : mutex) (l : list nat) : mutex := {| readers := l; pending := pending m; writer := writer m |}.
Definition set_writers (m : mutex) (p w : option nat) : mutex := {| readers := readers m; pending := p; writer := w |}.
Fixpoint leave (g : nat) (l : list nat) : list nat :=
  match l with [] => [] | h :: l' => if Nat.eqb g h then l' else h :: leave g l' end.

Section Goroutines.
  Variables D C R : Type.        (* the store, the calls and their results *)
  Variable body : C -> code D R. (* the method's code *)

  (** [gs g]: the call goroutine [g] is in, if it is in one. *)
  Record state := { mx : mutex; store : D; gs : nat -> option (C * code D R) }.
  Definition upd A (f : nat -> A) (g : nat) (x : A) : nat -> A := fun h => if Nat.eqb h g then x else f h.
  Definition start_of (d : D) : state := {| mx := unlocked; store := d; gs := fun _ => None |}.

  Inductive event := Inv (g : nat) (c : C) | Res (g : nat) (c : C) (r : R).

  (** One step of one goroutine inside a call. *)
  Inductive inside (s : state) (g : nat) : state -> Prop :=
  | in_snap c k : gs s g = Some (c, Snap k) ->
      inside s g {| mx := mx s; store := store s; gs := upd (gs s) g (Some (c, k (store s))) |}
  | in_write c f k : gs s g = Some (c, Write f k) ->
      inside s g {| mx := mx s; store := f (store s); gs := upd (gs s) g (Some (c, k)) |}
  | in_rlock c k : gs s g = Some (c, RLock k) -> pending (mx s) = None -> writer (mx s) = None ->
      inside s g {| mx := set_readers (mx s) (g :: readers (mx s)); store := store s; gs := upd (gs s) g (Some (c, k)) |}
  | in_runlock c k : gs s g = Some (c, RUnlock k) -> In g (readers (mx s)) ->
      inside s g {| mx := set_readers (mx s) (leave g (readers (mx s))); store := store s; gs := upd (gs s) g (Some (c, k)) |}
  | in_announce c k : gs s g = Some (c, Announce k) -> pending (mx s) = None -> writer (mx s) = None ->
      inside s g {| mx := set_writers (mx s) (Some g) None; store := store s; gs := upd (gs s) g (Some (c, k)) |}
  | in_enter c k : gs s g = Some (c, Enter k) -> pending (mx s) = Some g -> readers (mx s) = [] ->
      inside s g {| mx := set_writers (mx s) None (Some g); store := store s; gs := upd (gs s) g (Some (c, k)) |}
  | in_unlock c k : gs s g = Some (c, Unlock k) -> writer (mx s) = Some g ->
      inside s g {| mx := set_writers (mx s) (pending (mx s)) None; store := store s; gs := upd (gs s) g (Some (c, k)) |}.

  (** A step of the program: a goroutine outside of a call makes any call at any time. *)
  Inductive step (s : state) : list event -> state -> Prop :=
  | st_inv g c : gs s g = None -> step s [Inv g c] {| mx := mx s; store := store s; gs := upd (gs s) g (Some (c, body c)) |}
  | st_res g c r : gs s g = Some (c, Ret r) -> step s [Res g c r] {| mx := mx s; store := store s; gs := upd (gs s) g None |}
  | st_inside g s' : inside s g s' -> step s [] s'.
  Inductive steps (s : state) : list event -> state -> Prop :=
  | sts_nil : steps s [] s
  | sts_snoc tr s1 es s2 : steps s tr s1 -> step s1 es s2 -> steps s (tr ++ es) s2.
End Goroutines.
Arguments Inv {C} R.
Arguments Res {C R}.

(** * The methods of the linkage *)
Section Linkage.
  Variable gid : id. (* Linkage.genesis, set once by NewLinkage *)
  Definition lk (d : db) : linkage := {| lk_genesis := gid; lk_db := d |}.

  (** DB.Write; [Some 0]: this write fails. *)
  Definition writes (b : batch val) (fault : option nat) (k : option nat -> code db (outcome unit)) : code db (outcome unit) :=
    match fault with
    | None => Write (fun d => apply_batch d b) (k None)
    | Some O => Ret (Err EOther)
    | Some (S n) => Write (fun d => apply_batch d b) (k (Some n))
    end.
  (** linkage.go:72-100, storage.go:114 (snapshot), 130-177 (snapshot, write), 403-410 (write) *)
  Definition c_put_block (b : pblock) (a : addr) (fault : option nat) : code db (outcome unit) :=
    try ok <- view (fun d => has_block d (pb_id b));
    if ok then writes (update_leash a (pb_id b)) fault (fun _ => Ret (Ok tt))
    else try has_parent <- view (fun d => has_block d (pb_parent b));
         if has_parent
         then try bt <- view (fun d => put_proto_block d b);
              writes bt fault (fun f => writes (update_leash a (pb_id b)) f (fun _ => Ret (Ok tt)))
         else Ret (Err EParentNotFound).
  (** linkage.go:102-130, storage.go:179-234 *)
  Definition c_put_micro (m : minv) (a : addr) (fault : option nat) : code db (outcome unit) :=
    try ok <- view (fun d => has_block d (mi_total m));
    if ok then writes (update_leash a (mi_total m)) fault (fun _ => Ret (Ok tt))
    else try has_ref <- view (fun d => has_block d (mi_ref m));
         if has_ref
         then try bt <- view (fun d => put_micro_block_st d m);
              writes bt fault (fun f => writes (update_leash a (mi_total m)) f (fun _ => Ret (Ok tt)))
         else Ret (Err ERefNotFound).
  (** linkage.go:217-222 *)
  Definition c_move_leash (i : id) (a : addr) (fault : option nat) : code db (outcome unit) :=
    writes (update_leash a i) fault (fun _ => Ret (Ok tt)).
  (** storage.go:394-401: one snapshot *)
  Definition c_leash (a : addr) : code db (outcome id) := view (fun d => get_leash d a).
  (** linkage.go:132-144 *)
  Definition c_has_leash (a : addr) : code db (outcome bool) :=
    cbind (c_leash a) (fun r => Ret (match r with Ok _ => Ok true | Err ENotFound => Ok false | Err e => Err e | Panic => Panic | Diverge => Diverge end)).
  (** linkage.go:147-159 *)
  Definition c_leash_or_genesis (a : addr) : code db (outcome id) :=
    cbind (c_leash a) (fun r => Ret (match r with Ok i => Ok i | Err ENotFound => Ok gid | Err e => Err e | Panic => Panic | Diverge => Diverge end)).
  (** linkage.go:163-178: two snapshots *)
  Definition c_leash_score (a : addr) : code db (outcome Z) :=
    cbind (c_leash a) (fun r =>
      let i := match r with Ok i => i | Err ENotFound => gid | _ => zero_id end in
      try b <- view (fun d => get_block_by_id d i); Ret (Ok (sb_score b))).
  (** linkage.go:456-484, storage.go:105-112: one snapshot *)
  Definition c_block (i : id) : code db (outcome Block) := try b <- view (fun d => get_block_by_id d i); Ret (convert_block b).
  (** linkage.go:430-450: two snapshots *)
  Definition c_active_heads : code db (outcome (list (N * id))) :=
    try hs <- view heads;
    try ls <- view leashes;
    Ret (Ok (filter (fun h => existsb (fun e => id_eqb (snd e) (snd h)) ls) hs)).
  (** linkage.go:302-319: a snapshot per round *)
  Fixpoint c_longest (m : list group) (acc : Z * nat * id) : code db (outcome (Z * nat * id)) :=
    match m with
    | [] => Ret (Ok acc)
    | g :: m' => try b <- c_block (fst g); c_longest m' (longest_step acc (b_score b) g)
    end.
  (** linkage.go:280-328 *)
  Definition c_lcb (ord : list group -> list group) (a : addr) : code db (outcome id) :=
    cbind (c_leash a) (fun r =>
      match r with
      | Err ENotFound => Ret (Ok gid)
      | Err e => Ret (Err e)
      | Panic => Ret Panic
      | Diverge => Ret Diverge
      | Ok head =>
          try ls <- view leashes;
          try acc <- c_longest (ord (group_leashes ls)) (0%Z, 0, zero_id);
          if id_eqb head (snd acc) then Ret (Ok head) else view (fun d => lca d (snd acc) head)
      end).
  (** linkage.go:355-386 *)
  Fixpoint c_fork_loop (peer : addr) (m : list group) (acc : Z * nat * id) (f : Fork) : code db (outcome ((Z * nat * id) * Fork)) :=
    match m with
    | [] => Ret (Ok (acc, f))
    | g :: m' =>
        try b <- c_block (fst g);
        let f' := if existsb (addr_eqb peer) (snd g) then new_fork b (snd g) else f in
        c_fork_loop peer m' (longest_step acc (b_score b) g) f'
    end.
  (** linkage.go:392-401, 531-540: two snapshots *)
  Definition c_finish_fork (longest : id) (f : Fork) : code db (outcome Fork) :=
    try i <- view (fun d => lca d longest (f_head f));
    try b <- view (fun d => get_block_by_id d i);
    Ret (Ok (set_lcb f i (f_length f - Z.of_N (sb_height b))%Z)).
  (** linkage.go:339-404 *)
  Definition c_fork (ord : list group -> list group) (peer : addr) : code db (outcome Fork) :=
    try ls <- view leashes;
    try r <- c_fork_loop peer (ord (group_leashes ls)) (0%Z, 0, zero_id) zero_fork;
    if id_eqb (f_head (snd r)) (snd (fst r)) then Ret (Ok (set_length (set_longest (snd r)) 0))
    else c_finish_fork (snd (fst r)) (snd r).
  (** linkage.go:493-544 *)
  Definition c_forks (ord : list group -> list group) (srt : list Fork -> list Fork) (peers : list addr) : code db (outcome (list Fork)) :=
    try ls <- view leashes;
    try r <- cmap (fun g => try b <- c_block (fst g); Ret (Ok (new_fork b (snd g))))
                  (ord (group_leashes (filter (fun e => selected peers (fst e)) ls)));
    match srt r with
    | [] => Ret Panic
    | f0 :: rest => cmap (c_finish_fork (f_head f0)) (set_longest f0 :: rest)
    end.
  (** linkage.go:260-277 *)
  Definition c_stats (ord : list group -> list group) (srt : list Fork -> list Fork) : code db (outcome (nat * nat)) :=
    try fs <- c_forks ord srt [];
    Ret (Ok (fold_left (fun (r : nat * nat) f =>
                          if (longForkThreshold <? f_length f)%Z then (fst r, S (snd r)) else (S (fst r), snd r))
                       fs (0, 0))).
  (** linkage.go:231-258: it holds the read lock and calls Block, which takes it again. An error ends it, with nothing returned. *)
  Fixpoint c_log_heads (hs : list (N * id)) : code db (outcome unit) :=
    match hs with
    | [] => Ret (Ok tt)
    | h :: hs' => try _ <- rlocked (c_block (snd h)); c_log_heads hs'
    end.
  Definition c_log_stats : code db (outcome unit) :=
    cbind (try hs <- c_active_heads; try _ <- c_log_heads hs; try _ <- view leashes; Ret (Ok tt))
          (fun r => Ret (match r with Err _ => Ok tt | _ => r end)).
End Linkage.

(** The exported methods. Writes carry the number of the write that fails, if any; methods that iterate over a map or sort
    carry the order they meet. *)
Inductive call :=
| KPut (b : pblock) (a : addr) (fault : option nat)
| KMicro (m : minv) (a : addr) (fault : option nat)
| KMove (i : id) (a : addr) (fault : option nat)
| KHasLeash (a : addr)
| KLeash (a : addr)
| KLeashScore (a : addr)
| KHeads
| KActiveHeads
| KLastIDs (i : id) (n : Z)
| KHasBlock (i : id)
| KBlock (i : id)
| KLeashes
| KLogStats
| KStats (ord : list group -> list group) (srt : list Fork -> list Fork)
| KLcb (ord : list group -> list group) (a : addr)
| KForks (ord : list group -> list group) (srt : list Fork -> list Fork) (ps : list addr)
| KFork (ord : list group -> list group) (a : addr)
| KForkGenerators (ord srt : list (bytes * nat) -> list (bytes * nat)) (i : id) (n : Z).
Inductive answer :=
| RUnit (r : outcome unit) | RBool (r : outcome bool) | RId (r : outcome id) | RScore (r : outcome Z)
| RHeads (r : outcome (list (N * id))) | RIds (r : outcome (list id)) | RBlock (r : outcome Block)
| RLeashes (r : outcome (list (addr * id))) | RCounts (r : outcome (nat * nat)) | RFork (r : outcome Fork)
| RForks (r : outcome (list Fork)) | RGens (r : outcome (list (bytes * nat))).

Definition answers A (f : A -> answer) (c : code db A) : code db answer := cbind c (fun r => Ret (f r)).
(** linkage.go: the lock each method takes *)
Definition method (gid : id) (c : call) : code db answer :=
  match c with
  | KPut b a f => locked (answers RUnit (c_put_block b a f))
  | KMicro m a f => locked (answers RUnit (c_put_micro m a f))
  | KMove i a f => locked (answers RUnit (c_move_leash i a f))
  | KHasLeash a => rlocked (answers RBool (c_has_leash a))
  | KLeash a => rlocked (answers RId (c_leash_or_genesis gid a))
  | KLeashScore a => rlocked (answers RScore (c_leash_score gid a))
  | KHeads => rlocked (answers RHeads (view heads))
  | KActiveHeads => rlocked (answers RHeads c_active_heads)
  | KLastIDs i n => rlocked (answers RIds (view (fun d => get_ancestors d i n)))
  | KHasBlock i => rlocked (answers RBool (view (fun d => has_block d i)))
  | KBlock i => rlocked (answers RBlock (c_block i))
  | KLeashes => rlocked (answers RLeashes (view leashes))
  | KLogStats => rlocked (answers RUnit c_log_stats)
  | KStats ord srt => rlocked (answers RCounts (c_stats ord srt))
  | KLcb ord a => rlocked (answers RId (c_lcb gid ord a))
  | KForks ord srt ps => rlocked (answers RForks (c_forks ord srt ps))
  | KFork ord a => rlocked (answers RFork (c_fork ord a))
  | KForkGenerators ord srt i n =>
      rlocked (answers RGens (try bs <- view (fun d => get_blocks d i n);
                              Ret (Ok (srt (ord (fold_left (fun m b => count_add m (b_gen b)) bs []))))))
  end.
