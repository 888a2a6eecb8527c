(** Reads that fail: the functions of chains/storage.go and chains/linkage.go as programs over a database whose snapshots, reads and
    iterations can fail (I/O errors and corruption reported by goleveldb). The other models take a read to succeed; ReadProps.v shows that
    the programs below are the same functions when no read fails.
    A failed GetSnapshot or Get returns an error that is not ErrNotFound. A failed iteration ends early: First and Next make the iterator
    invalid, and the error is kept for Iterator.Error, which the repository never calls (chains/storage.go:427, 673; peers/storage.go:133). *)
From Verif Require Import Base Kv ChainModel.
Set Implicit Arguments.
Unset Strict Implicit.

(** * Programs *)
Inductive prog (V A : Type) :=
| Ret (o : outcome A)
| Snap (k : outcome unit -> prog V A)
| Get (key : bytes) (k : outcome V -> prog V A)
| Iter (lo : bytes) (hi : option bytes) (k : list (bytes * V) -> prog V A).
Arguments Ret {V A}. Arguments Snap {V A}. Arguments Get {V A}. Arguments Iter {V A}.

(** A call whose result is looked at, and one whose error is returned. *)
Fixpoint attempt {V A B} (p : prog V A) (f : outcome A -> prog V B) : prog V B :=
  match p with
  | Ret o => f o
  | Snap k => Snap (fun r => attempt (k r) f)
  | Get key k => Get key (fun r => attempt (k r) f)
  | Iter lo hi k => Iter lo hi (fun r => attempt (k r) f)
  end.
Definition then_ {V A B} (p : prog V A) (f : A -> prog V B) : prog V B :=
  attempt p (fun o => match o with Ok a => f a | Err e => Ret (Err e) | Panic => Ret Panic | Diverge => Ret Diverge end).
Notation "'reading' x <- a ; b" := (then_ a (fun x => b)) (at level 200, x pattern, a at level 100, b at level 200).
Definition pure {V A} (o : outcome A) : prog V A := Ret o.
Fixpoint each {V A B} (f : A -> prog V B) (l : list A) : prog V (list B) :=
  match l with
  | [] => Ret (Ok [])
  | x :: xs => reading y <- f x; reading ys <- each f xs; Ret (Ok (y :: ys))
  end.

(** What a database answers. An iteration without a limit goes to the last key. *)
Definition reads {V} (d : kv V) (key : bytes) : outcome V := match kv_get key d with Some v => Ok v | None => Err ENotFound end.
Definition range_of {V} (lo : bytes) (hi : option bytes) (d : kv V) : kv V := match hi with Some h => kv_range lo h d | None => filter (fun b => bleb lo (fst b)) d end.
(** No read fails. *)
Fixpoint plain {V A} (d : kv V) (p : prog V A) : outcome A :=
  match p with
  | Ret o => o
  | Snap k => plain d (k (Ok tt))
  | Get key k => plain d (k (reads d key))
  | Iter lo hi k => plain d (k (range_of lo hi d))
  end.
(** What went wrong: a snapshot or a read failed; an iteration ended early. *)
Inductive trouble := Failed | Ended.
(** The reads in turn: [None] succeeds, [Some n] fails, an iteration after [n] bindings; no more entries: all succeed. The result, the
    troubles and the faults left. *)
Fixpoint faulty {V A} (d : kv V) (p : prog V A) (fs : list (option nat)) : outcome A * list trouble * list (option nat) :=
  let next := match fs with [] => None | f :: _ => f end in
  let rest := tl fs in
  let troubled t (x : outcome A * list trouble * list (option nat)) := (fst (fst x), t :: snd (fst x), snd x) in
  match p with
  | Ret o => (o, [], fs)
  | Snap k => match next with None => faulty d (k (Ok tt)) rest | Some _ => troubled Failed (faulty d (k (Err EOther)) rest) end
  | Get key k => match next with None => faulty d (k (reads d key)) rest | Some _ => troubled Failed (faulty d (k (Err EOther)) rest) end
  | Iter lo hi k => match next with
                    | None => faulty d (k (range_of lo hi d)) rest
                    | Some n => troubled Ended (faulty d (k (firstn n (range_of lo hi d))) rest)
                    end
  end.
Definition answer {V A} (d : kv V) (p : prog V A) (fs : list (option nat)) : outcome A := fst (fst (faulty d p fs)).
Definition troubles {V A} (d : kv V) (p : prog V A) (fs : list (option nat)) : list trouble := snd (fst (faulty d p fs)).

(** * chains/storage.go *)
Definition prg := prog val.
(** GetSnapshot at the start of a method: peers/storage.go:69, 125, 159; chains/storage.go:55, 106, 115, 132, 180, 237, 269, 325, 395, 413, 439. *)
Definition snapped {V A} (p : prog V A) : prog V A := Snap (fun r => match r with Ok _ => p | Err e => Ret (Err e) | Panic => Ret Panic | Diverge => Ret Diverge end).

(** storage.go:466-482 *)
Definition get_counter_r (c : byte) : prg N :=
  Get (counter_key c) (fun r => Ret (match r with
    | Err ENotFound => Ok 0%N
    | Err e => Err e
    | Ok (VBytes v) => if Nat.eqb (length v) 8 then Ok (unbe v) else Panic
    | Ok _ => Panic
    | Panic => Panic
    | Diverge => Diverge
    end)).
(** storage.go:491-500 *)
Definition get_num_r (i : id) : prg N :=
  reading v <- Get (id_key blockPrefix i) Ret;
  Ret (match v with VBytes v => if Nat.eqb (length v) 8 then Ok (unbe v) else Err EOther | _ => Err EOther end).
(** storage.go:567-577 *)
Definition get_block_r (n : N) : prg sblock :=
  reading v <- Get (num_key blockPrefix n) Ret; Ret (match v with VBlock b => Ok b | _ => Err EOther end).
(** storage.go:579-589 *)
Definition get_link_r (n : N) : prg slink :=
  reading v <- Get (num_key chainPrefix n) Ret; Ret (match v with VLink l => Ok l | _ => Err EOther end).
(** storage.go:555-565 *)
Definition get_block_by_id_r (i : id) : prg sblock := reading n <- get_num_r i; get_block_r n.
(** storage.go:105-112 *)
Definition st_block_r (i : id) : prg sblock := snapped (get_block_by_id_r i).
(** storage.go:591-597 *)
Definition get_link_by_id_r (i : id) : prg slink := reading n <- get_num_r i; get_link_r n.
(** storage.go:599-612 and storage.go:394-401 *)
Definition st_leash_r (a : addr) : prg id :=
  snapped (reading v <- Get (addr_key a) Ret; Ret (match v with VBytes v => new_block_id v | _ => Err EOther end)).
(** storage.go:652-661 *)
Definition get_head_r (n : N) : prg N :=
  reading v <- Get (num_key blockToHeadPrefix n) Ret;
  Ret (match v with VBytes v => if Nat.eqb (length v) 8 then Ok (unbe v) else Err EOther | _ => Err EOther end).
(** storage.go:114-128 *)
Definition st_has_block_r (i : id) : prg bool :=
  snapped (attempt (get_num_r i) (fun o => Ret (match o with
    | Ok _ => Ok true
    | Err ENotFound => Ok false
    | Err e => Err e
    | Panic => Panic
    | Diverge => Diverge
    end))).

(** storage.go:519-528 *)
Fixpoint collect_parents_r (k l : nat) (pn : N) : prg (list N) :=
  match k with
  | O => Ret (Ok [])
  | S k' => reading pl <- get_link_r pn; reading r <- collect_parents_r k' (S l) (nth l (sl_parents pl) pn); Ret (Ok (pn :: r))
  end.
(** storage.go:508-535 *)
Definition new_link_r (n : N) (i : id) (h : N) (parent : id) : prg (bop val) :=
  reading pn <- get_num_r parent;
  reading mp <- pure (max_parents h);
  reading ps <- collect_parents_r mp 0 pn;
  Ret (Ok (put_link_rec n {| sl_height := h; sl_id := i; sl_parents := ps |})).
(** storage.go:633-644 *)
Definition put_new_head_r (n : N) : prg (list (bop val)) :=
  reading cnt <- get_counter_r headsCounter;
  let hn := u64 (cnt + 1) in
  Ret (Ok [put_counter headsCounter hn; put_num headToBlockPrefix hn n; put_num blockToHeadPrefix n hn]).
(** storage.go:618-631 *)
Definition put_head_r (n parent : N) : prg (list (bop val)) :=
  attempt (get_head_r parent) (fun o => match o with
    | Ok hn => Ret (Ok [BDel (num_key blockToHeadPrefix parent); put_num headToBlockPrefix hn n; put_num blockToHeadPrefix n hn])
    | Err ENotFound => put_new_head_r n
    | Err e => Ret (Err e)
    | Panic => Ret Panic
    | Diverge => Ret Diverge
    end).
(** storage.go:130-177 *)
Definition put_proto_block_r (b : pblock) : prg (batch val) :=
  snapped (
    reading cnt <- get_counter_r blocksCounter;
    reading pn <- get_num_r (pb_parent b);
    reading parent <- get_block_r pn;
    let n := u64 (cnt + 1) in
    reading sb <- pure (new_block b (u32 (sb_height parent + 1)) (sb_score parent));
    reading lnk <- new_link_r n (pb_id b) (sb_height sb) (pb_parent b);
    reading hd <- put_head_r n pn;
    Ret (Ok ([put_counter blocksCounter n; put_id (pb_id b) n; put_block_rec n sb; lnk] ++ hd))).
(** storage.go:179-234 *)
Definition put_micro_block_st_r (m : minv) : prg (batch val) :=
  snapped (
    reading cnt <- get_counter_r blocksCounter;
    reading rn <- get_num_r (mi_ref m);
    reading ref <- get_block_r rn;
    reading parent_id <- pure (new_block_id (sb_parent ref));
    let n := u64 (cnt + 1) in
    let sb := {| sb_height := sb_height ref; sb_ts := sb_ts ref; sb_score := sb_score ref; sb_id := mi_total m;
                 sb_parent := sb_parent ref; sb_gen := sb_gen ref |} in
    reading lnk <- new_link_r n (mi_total m) (sb_height sb) parent_id;
    reading hd <- put_head_r n rn;
    Ret (Ok ([put_counter blocksCounter n; put_id (mi_total m) n; put_block_rec n sb; lnk] ++ hd))).
(** storage.go:54-99: the writes made by initialize. *)
Definition initialize_r (g : pblock) : prg (list (batch val)) :=
  snapped (
    reading cnt <- get_counter_r blocksCounter;
    if (cnt =? 0)%N then
      match pb_gen g with
      | None => Ret (Err EOther)
      | Some ga =>
          reading s <- pure (calculate_score (pb_bt g));
          let b := {| sb_height := 1; sb_ts := pb_ts g; sb_score := s; sb_id := pb_id g; sb_parent := []; sb_gen := ga |} in
          Ret (Ok [[put_block_rec 1 b; put_counter blocksCounter 1; put_id (pb_id g) 1;
                    put_link_rec 1 {| sl_height := 1; sl_id := pb_id g; sl_parents := [] |};
                    put_counter headsCounter 1; put_num headToBlockPrefix 1 1; put_num blockToHeadPrefix 1 1]])
      end
    else Ret (Ok [])).

(** storage.go:249-264 *)
Fixpoint ancestors_loop_r (k : nat) (n : N) : prg (list id) :=
  match k with
  | O => Ret (Ok [])
  | S k' =>
      reading l <- get_link_r n;
      reading pid <- pure (new_block_id (sl_id l));
      match sl_parents l with
      | [] => Ret (Ok [pid])
      | p :: _ => reading r <- ancestors_loop_r k' p; Ret (Ok (pid :: r))
      end
  end.
(** storage.go:236-266 *)
Definition get_ancestors_r (i : id) (count : Z) : prg (list id) :=
  snapped (reading n <- get_num_r i; if (count <? 0)%Z then Ret Panic else ancestors_loop_r (Z.to_nat count) n).
(** storage.go:281-320 *)
Fixpoint blocks_loop_r (k : nat) (n : N) : prg (list Block) :=
  match k with
  | O => Ret (Ok [])
  | S k' =>
      reading b <- get_block_r n;
      reading bb <- pure (convert_block b);
      if Nat.eqb (length (sb_parent b)) 0 then Ret (Ok [bb])
      else reading l <- get_link_r n;
           match sl_parents l with
           | [] => Ret Panic
           | p :: _ => reading r <- blocks_loop_r k' p; Ret (Ok (bb :: r))
           end
  end.
(** storage.go:268-322 *)
Definition get_blocks_r (i : id) (count : Z) : prg (list Block) :=
  snapped (reading n <- get_num_r i; if (count <? 0)%Z then Ret Panic else blocks_loop_r (Z.to_nat count) n).

(** storage.go:375-392 *)
Fixpoint fast_backward_r (fuel k : nat) (farthest other : slink) : prg slink :=
  match k with
  | O => Ret (Ok farthest)
  | S i =>
      match fuel with
      | O => Ret Diverge
      | S fuel' =>
          if (sl_height other <=? u32_sub (sl_height farthest) (2 ^ N.of_nat i))%N then
            match nth_error (sl_parents farthest) i with
            | None => Ret Panic
            | Some p =>
                reading l <- get_link_r p;
                if Nat.leb (length (sl_parents l)) i
                then fast_backward_r fuel' (length (sl_parents l)) l other
                else fast_backward_r fuel' i l other
            end
          else fast_backward_r fuel' i farthest other
      end
  end.
(** storage.go:356-367 *)
Fixpoint lca_loop_r (k : nat) (farthest other : slink) : prg (slink * slink) :=
  match k with
  | O => Ret (Ok (farthest, other))
  | S i =>
      match nth_error (sl_parents farthest) i, nth_error (sl_parents other) i with
      | Some p, Some q =>
          if (p =? q)%N then lca_loop_r i farthest other
          else reading f' <- get_link_r p; reading o' <- get_link_r q; lca_loop_r i f' o'
      | _, _ => Ret Panic
      end
  end.
(** storage.go:324-373 *)
Definition lca_r (i1 i2 : id) : prg id :=
  snapped (
    reading l1 <- get_link_by_id_r i1;
    reading l2 <- get_link_by_id_r i2;
    let '(farthest, other) := if (sl_height l1 <? sl_height l2)%N then (l2, l1) else (l1, l2) in
    reading farthest <- fast_backward_r (length (sl_parents farthest)) (length (sl_parents farthest)) farthest other;
    if beqb (sl_id farthest) (sl_id other) then Ret (new_block_id (sl_id farthest))
    else
      reading fo <- lca_loop_r (length (sl_parents farthest)) farthest other;
      match sl_parents (fst fo) with
      | [] => Ret Panic
      | p :: _ => reading l <- get_link_r p; Ret (new_block_id (sl_id l))
      end).

(** storage.go:412-436 *)
Definition leashes_r : prg (list (addr * id)) := snapped (Iter leashes_start (Some leashes_limit) (fun bs => Ret (mapM leash_of_binding bs))).
(** storage.go:663-682 *)
Definition get_heads_r : prg (list (N * N)) :=
  Iter (num_key headToBlockPrefix 0) (Some (num_key headToBlockPrefix (2 ^ 64 - 1))) (fun bs => Ret (mapM head_of_binding bs)).
(** storage.go:438-464 *)
Definition heads_r : prg (list (N * id)) :=
  snapped (reading hs <- get_heads_r; each (fun hb => reading bl <- get_block_r (snd hb); reading i <- pure (new_block_id (sb_id bl)); Ret (Ok (fst hb, i))) hs).

(** * chains/linkage.go. A call that writes returns its batches; they are written after all its reads. *)
(** linkage.go:72-100 *)
Definition put_block_r (b : pblock) (a : addr) : prg (list (batch val)) :=
  reading ok <- st_has_block_r (pb_id b);
  if (ok : bool) then Ret (Ok [update_leash a (pb_id b)])
  else
    reading has <- st_has_block_r (pb_parent b);
    if (has : bool) then reading bt <- put_proto_block_r b; Ret (Ok [bt; update_leash a (pb_id b)])
    else Ret (Err EParentNotFound).
(** linkage.go:102-130 *)
Definition put_micro_block_r (m : minv) (a : addr) : prg (list (batch val)) :=
  reading ok <- st_has_block_r (mi_total m);
  if (ok : bool) then Ret (Ok [update_leash a (mi_total m)])
  else
    reading has <- st_has_block_r (mi_ref m);
    if (has : bool) then reading bt <- put_micro_block_st_r m; Ret (Ok [bt; update_leash a (mi_total m)])
    else Ret (Err ERefNotFound).
(** linkage.go:132-144 *)
Definition has_leash_r (a : addr) : prg bool :=
  attempt (st_leash_r a) (fun o => Ret (match o with
    | Ok _ => Ok true | Err ENotFound => Ok false | Err e => Err e | Panic => Panic | Diverge => Diverge end)).
(** linkage.go:147-159 *)
Definition leash_r (genesis : id) (a : addr) : prg id :=
  attempt (st_leash_r a) (fun o => Ret (match o with
    | Ok i => Ok i | Err ENotFound => Ok genesis | Err e => Err e | Panic => Panic | Diverge => Diverge end)).
(** linkage.go:163-178: after another error the ID is the zero ID, and the block with that ID is looked up. *)
Definition leash_score_r (genesis : id) (a : addr) : prg Z :=
  attempt (st_leash_r a) (fun o =>
    let i := match o with Ok i => i | Err ENotFound => genesis | _ => zero_id end in
    reading b <- st_block_r i; Ret (Ok (sb_score b))).
(** linkage.go:210-215, 456-484 *)
Definition block_r (i : id) : prg Block := reading b <- st_block_r i; Ret (convert_block b).
(** linkage.go:189-194, 430-450 *)
Definition active_heads_r : prg (list (N * id)) :=
  reading hs <- heads_r; reading ls <- leashes_r; Ret (Ok (filter (fun h => existsb (fun e => id_eqb (snd e) (snd h)) ls) hs)).
(** linkage.go:302-319 *)
Fixpoint longest_loop_r (m : list group) (acc : Z * nat * id) : prg (Z * nat * id) :=
  match m with
  | [] => Ret (Ok acc)
  | g :: m' => reading b <- block_r (fst g); longest_loop_r m' (longest_step acc (b_score b) g)
  end.
(** linkage.go:280-328 *)
Definition lcb_r (ord : list group -> list group) (genesis : id) (a : addr) : prg id :=
  attempt (st_leash_r a) (fun o => match o with
    | Err ENotFound => Ret (Ok genesis)
    | Err e => Ret (Err e)
    | Panic => Ret Panic
    | Diverge => Ret Diverge
    | Ok head =>
        reading ls <- leashes_r;
        reading acc <- longest_loop_r (ord (group_leashes ls)) (0%Z, 0, zero_id);
        let longest := snd acc in
        if id_eqb head longest then Ret (Ok head) else lca_r longest head
    end).
(** linkage.go:355-386 *)
Fixpoint fork_loop_r (peer : addr) (m : list group) (acc : Z * nat * id) (f : Fork) : prg ((Z * nat * id) * Fork) :=
  match m with
  | [] => Ret (Ok (acc, f))
  | g :: m' =>
      reading b <- block_r (fst g);
      let f' := if existsb (addr_eqb peer) (snd g) then new_fork b (snd g) else f in
      fork_loop_r peer m' (longest_step acc (b_score b) g) f'
  end.
(** linkage.go:392-401, 531-540 *)
Definition finish_fork_r (longest : id) (f : Fork) : prg Fork :=
  reading i <- lca_r longest (f_head f);
  reading b <- st_block_r i;
  Ret (Ok (set_lcb f i (f_length f - Z.of_N (sb_height b))%Z)).
(** linkage.go:339-404 *)
Definition fork_of_r (ord : list group -> list group) (peer : addr) : prg Fork :=
  reading ls <- leashes_r;
  reading r <- fork_loop_r peer (ord (group_leashes ls)) (0%Z, 0, zero_id) zero_fork;
  let longest := snd (fst r) in
  let f := snd r in
  if id_eqb (f_head f) longest then Ret (Ok (set_length (set_longest f) 0)) else finish_fork_r longest f.
(** linkage.go:332-337, 493-544 *)
Definition forks_r (ord : list group -> list group) (srt : list Fork -> list Fork) (peers : list addr) : prg (list Fork) :=
  reading ls <- leashes_r;
  reading r <- each (fun g => reading b <- block_r (fst g); Ret (Ok (new_fork b (snd g))))
                (ord (group_leashes (filter (fun e => selected peers (fst e)) ls)));
  match srt r with
  | [] => Ret Panic
  | f0 :: rest => each (finish_fork_r (f_head f0)) (set_longest f0 :: rest)
  end.
(** linkage.go:260-277 *)
Definition stats_r (ord : list group -> list group) (srt : list Fork -> list Fork) : prg (nat * nat) :=
  reading fs <- forks_r ord srt [];
  Ret (Ok (fold_left (fun (r : nat * nat) f => if (longForkThreshold <? f_length f)%Z then (fst r, S (snd r)) else (S (fst r), snd r)) fs (0, 0))).
(** linkage.go:408-428 *)
Definition fork_generators_r (ord srt : list (bytes * nat) -> list (bytes * nat)) (i : id) (count : Z) : prg (list (bytes * nat)) :=
  reading bs <- get_blocks_r i count; Ret (Ok (srt (ord (fold_left (fun m b => count_add m (b_gen b)) bs [])))).
