(** Function-by-function model of package chains (/repo/chains). *)
From Verif Require Import Base Kv.
Set Implicit Arguments.

(** * proto.BlockID, netip.Addr *)

(** proto.BlockID (gowaves): a 32-byte digest or a 64-byte signature. Modelled by its bytes ([id.Bytes()]); two IDs are
    equal iff their bytes are. Every Go value of the type satisfies [wf_id]. *)
Definition id := bytes.
Definition wf_id (i : id) : Prop := length i = 32 \/ length i = 64.
Definition id_eqb : id -> id -> bool := beqb.
(** The zero value [proto.BlockID{}] is the all-zero signature. *)
Definition zero_id : id := repeat x00 64.

(** proto.NewBlockIDFromBytes (gowaves): fails unless the length is that of a digest or of a signature. *)
Definition new_block_id (b : bytes) : outcome id :=
  if Nat.eqb (length b) 32 || Nat.eqb (length b) 64 then Ok b else Err EOther.

(** net/netip.Addr: zero value, IPv4, IPv6 with zone. Comparable with [==], used as a map key. *)
Inductive addr := AZero | A4 (b : bytes) | A6 (b : bytes) (zone : bytes).
Definition addr_eqb (a b : addr) : bool :=
  match a, b with
  | AZero, AZero => true
  | A4 x, A4 y => beqb x y
  | A6 x z, A6 y z' => beqb x y && beqb z z'
  | _, _ => false
  end.
(** Addr.AsSlice: the zone is dropped. *)
Definition addr_bytes (a : addr) : bytes := match a with AZero => [] | A4 b => b | A6 b _ => b end.
(** The addresses of peers: valid, and without IPv6 zone. *)
Definition wf_addr (a : addr) : Prop :=
  match a with AZero => False | A4 b => length b = 4 | A6 b z => length b = 16 /\ z = [] end.
(** Every Go value of type netip.Addr. *)
Definition go_addr (a : addr) : Prop :=
  match a with AZero => True | A4 b => length b = 4 | A6 b _ => length b = 16 end.

(** * chains/storage_entities.go and key constants of chains/storage.go *)

(** chains/storage.go:27-38 *)
Definition counterPrefix := x00.
Definition blockPrefix := x01.
Definition chainPrefix := x02.
Definition leashPrefix := x03.
Definition headToBlockPrefix := x04.
Definition blockToHeadPrefix := x05.
Definition blocksCounter := x00.
Definition headsCounter := x01.

(** storage_entities.go:13-19 *)
Definition id_key (prefix : byte) (i : id) : bytes := prefix :: i.
(** storage_entities.go:21-26 *)
Definition num_key (prefix : byte) (n : N) : bytes := prefix :: be 8 n.
(** storage_entities.go:28-33; panics on a key of another size. *)
Definition num_key_from_bytes (k : bytes) : outcome (byte * N) :=
  if Nat.eqb (length k) 9 then match k with p :: r => Ok (p, unbe r) | [] => Panic end else Panic.
(** storage_entities.go:35-42 *)
Definition addr_key (a : addr) : bytes := leashPrefix :: addr_bytes a.
(** storage_entities.go:44-56; netip.AddrFromSlice never fails on 4 or 16 bytes. *)
Definition addr_key_from_bytes (k : bytes) : outcome addr :=
  match k with
  | p :: r => if Nat.eqb (length r) 4 || Nat.eqb (length r) 16
              then if beqb [p] [leashPrefix]
                   then Ok (if Nat.eqb (length r) 4 then A4 r else A6 r [])
                   else Panic
              else Panic
  | [] => Panic
  end.
(** storage.go:470,485 *)
Definition counter_key (c : byte) : bytes := [counterPrefix; c].

(** storage_entities.go:58-65. Score is never nil in a stored block; big.Int is [Z]. A nil Parent is [[]]. *)
Record sblock := { sb_height : N; sb_ts : N; sb_score : Z; sb_id : bytes; sb_parent : bytes; sb_gen : bytes }.
(** storage_entities.go:82-86 *)
Record slink := { sl_height : N; sl_id : bytes; sl_parents : list N }.

(** Values in the database. Blocks and links are CBOR-encoded (storage.go:538,547,573,585); here the
    records themselves are kept; CborModel.v has their bytes, and C91 shows that reading the bytes gives the same results. *)
Inductive val := VBytes (b : bytes) | VBlock (b : sblock) | VLink (l : slink).
Definition db := kv val.

(** The part of proto.Block (gowaves) that the repository reads: BlockID(), Parent, Timestamp, BaseTarget and
    GeneratorPublicKey. The last appears only as argument of proto.NewAddressFromPublicKey; [pb_gen] is the result of
    that call ([None] = error). *)
Record pblock := { pb_id : id; pb_parent : id; pb_ts : N; pb_bt : N; pb_gen : option bytes }.
(** The part of proto.MicroBlockInv that the repository reads. *)
Record minv := { mi_total : id; mi_ref : id }.

(** * chains/utils.go *)

(** utils.go:10-25 *)
Definition calculate_score (bt : N) : outcome Z :=
  if (bt =? 0)%N then Ok 0%Z
  else if (max_int64 <? bt)%N then Panic
  else Ok (18446744073709551616 / Z.of_N bt)%Z.
(** utils.go:27-33; the nil case of parentScore does not occur. *)
Definition calculate_cumulative_score (parent : Z) (bt : N) : outcome Z :=
  do s <- calculate_score bt; Ok (s + parent)%Z.

(** * chains/storage.go: reads *)

(** storage.go:466-482 *)
Definition get_counter (d : db) (c : byte) : outcome N :=
  match kv_get (counter_key c) d with
  | None => Ok 0%N
  | Some (VBytes v) => if Nat.eqb (length v) 8 then Ok (unbe v) else Panic
  | Some _ => Panic
  end.
(** storage.go:491-500 *)
Definition get_num_of_block_id (d : db) (i : id) : outcome N :=
  match kv_get (id_key blockPrefix i) d with
  | None => Err ENotFound
  | Some (VBytes v) => if Nat.eqb (length v) 8 then Ok (unbe v) else Err EOther
  | Some _ => Err EOther
  end.
(** storage.go:567-577 *)
Definition get_block (d : db) (n : N) : outcome sblock :=
  match kv_get (num_key blockPrefix n) d with
  | None => Err ENotFound
  | Some (VBlock b) => Ok b
  | Some _ => Err EOther
  end.
(** storage.go:579-589 *)
Definition get_link (d : db) (n : N) : outcome slink :=
  match kv_get (num_key chainPrefix n) d with
  | None => Err ENotFound
  | Some (VLink l) => Ok l
  | Some _ => Err EOther
  end.
(** storage.go:555-565 and storage.go:105-112 *)
Definition get_block_by_id (d : db) (i : id) : outcome sblock := do n <- get_num_of_block_id d i; get_block d n.
(** storage.go:591-597 *)
Definition get_link_by_id (d : db) (i : id) : outcome slink := do n <- get_num_of_block_id d i; get_link d n.
(** storage.go:599-612 and storage.go:394-401 *)
Definition get_leash (d : db) (a : addr) : outcome id :=
  match kv_get (addr_key a) d with
  | None => Err ENotFound
  | Some (VBytes v) => new_block_id v
  | Some _ => Err EOther
  end.
(** storage.go:652-661 *)
Definition get_head_by_block_num (d : db) (n : N) : outcome N :=
  match kv_get (num_key blockToHeadPrefix n) d with
  | None => Err ENotFound
  | Some (VBytes v) => if Nat.eqb (length v) 8 then Ok (unbe v) else Err EOther
  | Some _ => Err EOther
  end.
(** storage.go:114-128 *)
Definition has_block (d : db) (i : id) : outcome bool :=
  match get_num_of_block_id d i with
  | Ok _ => Ok true
  | Err ENotFound => Ok false
  | Err e => Err e
  | Panic => Panic
  | Diverge => Diverge
  end.

(** * chains/storage.go: writes *)

(** storage.go:484-489 *)
Definition put_counter (c : byte) (v : N) : bop val := BPut (counter_key c) (VBytes (be 8 v)).
(** storage.go:502-506 *)
Definition put_id (i : id) (n : N) : bop val := BPut (id_key blockPrefix i) (VBytes (be 8 n)).
(** storage.go:646-650 *)
Definition put_num (prefix : byte) (k v : N) : bop val := BPut (num_key prefix k) (VBytes (be 8 v)).
(** storage.go:537-544 *)
Definition put_block_rec (n : N) (b : sblock) : bop val := BPut (num_key blockPrefix n) (VBlock b).
(** storage.go:546-553 *)
Definition put_link_rec (n : N) (l : slink) : bop val := BPut (num_key chainPrefix n) (VLink l).
(** storage.go:614-616 *)
Definition put_leash (a : addr) (i : id) : bop val := BPut (addr_key a) (VBytes i).

(** storage.go:517, int(math.Ceil(math.Log2(float64(h)))). For h = 0 the Go expression is int(-Inf) and the following
    make panics. Simplification: the float64 computation is taken to be exact, which it is for h < 2^32. *)
Definition max_parents (h : N) : outcome nat := if (h =? 0)%N then Panic else Ok (N.to_nat (N.log2_up h)).

(** storage.go:519-528: [k] remaining iterations, current level [l], current parent number [pn]. *)
Fixpoint collect_parents (d : db) (k l : nat) (pn : N) : outcome (list N) :=
  match k with
  | O => Ok []
  | S k' =>
      do pl <- get_link d pn;
      let pn' := nth l (sl_parents pl) pn in
      do r <- collect_parents d k' (S l) pn';
      Ok (pn :: r)
  end.
(** storage.go:508-535 *)
Definition new_link_for_block (d : db) (n : N) (i : id) (h : N) (parent : id) : outcome (bop val) :=
  do pn <- get_num_of_block_id d parent;
  do mp <- max_parents h;
  do ps <- collect_parents d mp 0 pn;
  Ok (put_link_rec n {| sl_height := h; sl_id := i; sl_parents := ps |}).

(** storage.go:633-644 *)
Definition put_new_head (d : db) (n : N) : outcome (list (bop val)) :=
  do cnt <- get_counter d headsCounter;
  let hn := u64 (cnt + 1) in
  Ok [put_counter headsCounter hn; put_num headToBlockPrefix hn n; put_num blockToHeadPrefix n hn].
(** storage.go:618-631 *)
Definition put_head (d : db) (n parent : N) : outcome (list (bop val)) :=
  match get_head_by_block_num d parent with
  | Ok hn => Ok [BDel (num_key blockToHeadPrefix parent); put_num headToBlockPrefix hn n;
                 put_num blockToHeadPrefix n hn]
  | Err ENotFound => put_new_head d n
  | Err e => Err e
  | Panic => Panic
  | Diverge => Diverge
  end.

(** storage_entities.go:67-80 *)
Definition new_block (b : pblock) (height : N) (parent_score : Z) : outcome sblock :=
  match pb_gen b with
  | None => Err EOther
  | Some ga =>
      do s <- calculate_cumulative_score parent_score (pb_bt b);
      Ok {| sb_height := height; sb_ts := pb_ts b; sb_score := s; sb_id := pb_id b; sb_parent := pb_parent b;
            sb_gen := ga |}
  end.

(** storage.go:130-177: the batch that is written. *)
Definition put_proto_block (d : db) (b : pblock) : outcome (batch val) :=
  do cnt <- get_counter d blocksCounter;
  do pn <- get_num_of_block_id d (pb_parent b);
  do parent <- get_block d pn;
  let n := u64 (cnt + 1) in
  do sb <- new_block b (u32 (sb_height parent + 1)) (sb_score parent);
  do lnk <- new_link_for_block d n (pb_id b) (sb_height sb) (pb_parent b);
  do hd <- put_head d n pn;
  Ok ([put_counter blocksCounter n; put_id (pb_id b) n; put_block_rec n sb; lnk] ++ hd).

(** storage.go:179-234: the batch that is written. *)
Definition put_micro_block_st (d : db) (m : minv) : outcome (batch val) :=
  do cnt <- get_counter d blocksCounter;
  do rn <- get_num_of_block_id d (mi_ref m);
  do ref <- get_block d rn;
  do parent_id <- new_block_id (sb_parent ref);
  let n := u64 (cnt + 1) in
  let sb := {| sb_height := sb_height ref; sb_ts := sb_ts ref; sb_score := sb_score ref; sb_id := mi_total m;
               sb_parent := sb_parent ref; sb_gen := sb_gen ref |} in
  do lnk <- new_link_for_block d n (mi_total m) (sb_height sb) parent_id;
  do hd <- put_head d n rn;
  Ok ([put_counter blocksCounter n; put_id (mi_total m) n; put_block_rec n sb; lnk] ++ hd).

(** storage.go:54-99: the writes made by initialize. [pb_gen] of the genesis as in [pblock]. *)
Definition initialize (d : db) (g : pblock) : outcome (list (batch val)) :=
  do cnt <- get_counter d blocksCounter;
  if (cnt =? 0)%N then
    match pb_gen g with
    | None => Err EOther
    | Some ga =>
        do s <- calculate_score (pb_bt g);
        let b := {| sb_height := 1; sb_ts := pb_ts g; sb_score := s; sb_id := pb_id g; sb_parent := [];
                    sb_gen := ga |} in
        Ok [[put_block_rec 1 b; put_counter blocksCounter 1; put_id (pb_id g) 1;
             put_link_rec 1 {| sl_height := 1; sl_id := pb_id g; sl_parents := [] |};
             put_counter headsCounter 1; put_num headToBlockPrefix 1 1; put_num blockToHeadPrefix 1 1]]
    end
  else Ok [].

(** * chains/storage.go: queries *)

(** storage.go:249-264: [k] iterations left. *)
Fixpoint ancestors_loop (d : db) (k : nat) (n : N) : outcome (list id) :=
  match k with
  | O => Ok []
  | S k' =>
      do l <- get_link d n;
      do pid <- new_block_id (sl_id l);
      match sl_parents l with
      | [] => Ok [pid]
      | p :: _ => do r <- ancestors_loop d k' p; Ok (pid :: r)
      end
  end.
(** storage.go:236-266. make([]T, 0, count) panics on a negative count. *)
Definition get_ancestors (d : db) (i : id) (count : Z) : outcome (list id) :=
  do n <- get_num_of_block_id d i;
  if (count <? 0)%Z then Panic else ancestors_loop d (Z.to_nat count) n.

(** entities.go:12-19 *)
Record Block := { b_id : id; b_parent : id; b_height : N; b_gen : bytes; b_score : Z; b_ts : Z }.

(** linkage.go:486-491 *)
Definition safe_timestamp (ts : N) : outcome Z := if (ts <? max_int64)%N then Ok (Z.of_N ts) else Panic.

(** proto.NewAddressFromBytes (gowaves): a Waves address has 26 bytes; the version and checksum tests are not modelled
    because the bytes come from a proto.WavesAddress. *)
Definition new_address (b : bytes) : outcome bytes := if Nat.eqb (length b) 26 then Ok b else Err EOther.

(** linkage.go:461-483 and storage.go:286-309 (the same conversion of a stored block). *)
Definition convert_block (b : sblock) : outcome Block :=
  do bid <- new_block_id (sb_id b);
  do pid <- (if Nat.ltb 0 (length (sb_parent b)) then new_block_id (sb_parent b) else Ok zero_id);
  do ga <- new_address (sb_gen b);
  do ts <- safe_timestamp (sb_ts b);
  Ok {| b_id := bid; b_parent := pid; b_height := sb_height b; b_gen := ga; b_score := sb_score b; b_ts := ts |}.

(** storage.go:281-320: [k] iterations left. *)
Fixpoint blocks_loop (d : db) (k : nat) (n : N) : outcome (list Block) :=
  match k with
  | O => Ok []
  | S k' =>
      do b <- get_block d n;
      do bb <- convert_block b;
      if Nat.eqb (length (sb_parent b)) 0 then Ok [bb]
      else do l <- get_link d n;
           match sl_parents l with
           | [] => Panic                       (* l.Parents[0] *)
           | p :: _ => do r <- blocks_loop d k' p; Ok (bb :: r)
           end
  end.
(** storage.go:268-322 *)
Definition get_blocks (d : db) (i : id) (count : Z) : outcome (list Block) :=
  do n <- get_num_of_block_id d i;
  if (count <? 0)%Z then Panic else blocks_loop d (Z.to_nat count) n.

(** storage.go:375-392. [k] is i+1; fuel bounds the number of iterations. *)
Fixpoint fast_backward (d : db) (fuel k : nat) (farthest other : slink) : outcome slink :=
  match k with
  | O => Ok farthest
  | S i =>
      match fuel with
      | O => Diverge
      | S fuel' =>
          if (sl_height other <=? u32_sub (sl_height farthest) (2 ^ N.of_nat i))%N then
            match nth_error (sl_parents farthest) i with
            | None => Panic                    (* farthest.Parents[i] *)
            | Some p =>
                do l <- get_link d p;
                if Nat.leb (length (sl_parents l)) i
                then fast_backward d fuel' (length (sl_parents l)) l other
                else fast_backward d fuel' i l other
            end
          else fast_backward d fuel' i farthest other
      end
  end.
(** storage.go:356-367: [k] is i+1. *)
Fixpoint lca_loop (d : db) (k : nat) (farthest other : slink) : outcome (slink * slink) :=
  match k with
  | O => Ok (farthest, other)
  | S i =>
      match nth_error (sl_parents farthest) i, nth_error (sl_parents other) i with
      | Some p, Some q =>
          if (p =? q)%N then lca_loop d i farthest other
          else do f' <- get_link d p; do o' <- get_link d q; lca_loop d i f' o'
      | _, _ => Panic                          (* index out of range *)
      end
  end.
(** storage.go:324-373 *)
Definition lca (d : db) (i1 i2 : id) : outcome id :=
  do l1 <- get_link_by_id d i1;
  do l2 <- get_link_by_id d i2;
  let '(farthest, other) := if (sl_height l1 <? sl_height l2)%N then (l2, l1) else (l1, l2) in
  do farthest <- fast_backward d (length (sl_parents farthest)) (length (sl_parents farthest)) farthest other;
  if beqb (sl_id farthest) (sl_id other) then new_block_id (sl_id farthest)
  else
    do fo <- lca_loop d (length (sl_parents farthest)) farthest other;
    match sl_parents (fst fo) with
    | [] => Panic                              (* farthest.Parents[0] *)
    | p :: _ => do l <- get_link d p; new_block_id (sl_id l)
    end.

(** storage.go:412-436 *)
Definition leash_of_binding (b : bytes * val) : outcome (addr * id) :=
  do a <- addr_key_from_bytes (fst b);
  match snd b with
  | VBytes v => do i <- new_block_id v; Ok (a, i)
  | _ => Err EOther
  end.
Definition leashes_start : bytes := addr_key (A4 (repeat x00 4)).
Definition leashes_limit : bytes := addr_key (A6 (repeat xff 16) []).
Definition leashes (d : db) : outcome (list (addr * id)) :=
  mapM leash_of_binding (kv_range leashes_start leashes_limit d).

(** storage.go:663-682 *)
Definition head_of_binding (b : bytes * val) : outcome (N * N) :=
  do pn <- num_key_from_bytes (fst b);
  if negb (beqb [fst pn] [headToBlockPrefix]) then Err EOther
  else match snd b with
       | VBytes v => if Nat.ltb (length v) 8 then Panic else Ok (snd pn, unbe (firstn 8 v))
       | _ => Panic
       end.
Definition get_heads (d : db) : outcome (list (N * N)) :=
  mapM head_of_binding (kv_range (num_key headToBlockPrefix 0) (num_key headToBlockPrefix (2 ^ 64 - 1)) d).
(** storage.go:438-464; a Head (entities.go:21-24) is a pair of its number and its block ID. *)
Definition heads (d : db) : outcome (list (N * id)) :=
  do hs <- get_heads d;
  mapM (fun hb => do bl <- get_block d (snd hb); do i <- new_block_id (sb_id bl); Ok (fst hb, i)) hs.

(** * chains/linkage.go *)

(** linkage.go:41-47; the mutex is the subject of LockModel.v. *)
Record linkage := { lk_genesis : id; lk_db : db }.
Definition with_db (l : linkage) (d : db) : linkage := {| lk_genesis := lk_genesis l; lk_db := d |}.

(** linkage.go:49-63 on an existing (possibly empty) database: the writes and the result. *)
Definition new_linkage (d : db) (g : pblock) : outcome (list (batch val) * id) :=
  do ws <- initialize d g; Ok (ws, pb_id g).

(** storage.go:403-410 *)
Definition update_leash (a : addr) (i : id) : batch val := [put_leash a i].

(** linkage.go:72-100: the writes in order, and the result if all of them succeed. *)
Definition put_block (l : linkage) (b : pblock) (a : addr) : list (batch val) * outcome unit :=
  match has_block (lk_db l) (pb_id b) with
  | Ok true => ([update_leash a (pb_id b)], Ok tt)
  | Ok false =>
      match has_block (lk_db l) (pb_parent b) with
      | Ok true =>
          match put_proto_block (lk_db l) b with
          | Ok bt => ([bt; update_leash a (pb_id b)], Ok tt)
          | Err e => ([], Err e)
          | Panic => ([], Panic)
          | Diverge => ([], Diverge)
          end
      | Ok false => ([], Err EParentNotFound)
      | Err e => ([], Err e)
      | Panic => ([], Panic)
      | Diverge => ([], Diverge)
      end
  | Err e => ([], Err e)
  | Panic => ([], Panic)
  | Diverge => ([], Diverge)
  end.

(** linkage.go:102-130 *)
Definition put_micro_block (l : linkage) (m : minv) (a : addr) : list (batch val) * outcome unit :=
  match has_block (lk_db l) (mi_total m) with
  | Ok true => ([update_leash a (mi_total m)], Ok tt)
  | Ok false =>
      match has_block (lk_db l) (mi_ref m) with
      | Ok true =>
          match put_micro_block_st (lk_db l) m with
          | Ok bt => ([bt; update_leash a (mi_total m)], Ok tt)
          | Err e => ([], Err e)
          | Panic => ([], Panic)
          | Diverge => ([], Diverge)
          end
      | Ok false => ([], Err ERefNotFound)
      | Err e => ([], Err e)
      | Panic => ([], Panic)
      | Diverge => ([], Diverge)
      end
  | Err e => ([], Err e)
  | Panic => ([], Panic)
  | Diverge => ([], Diverge)
  end.

(** linkage.go:217-222: the ID is not checked. *)
Definition move_leash (l : linkage) (i : id) (a : addr) : list (batch val) * outcome unit :=
  ([update_leash a i], Ok tt).

(** linkage.go:132-144 *)
Definition has_leash (l : linkage) (a : addr) : outcome bool :=
  match get_leash (lk_db l) a with
  | Ok _ => Ok true
  | Err ENotFound => Ok false
  | Err e => Err e
  | Panic => Panic
  | Diverge => Diverge
  end.
(** linkage.go:147-159 *)
Definition leash (l : linkage) (a : addr) : outcome id :=
  match get_leash (lk_db l) a with
  | Ok i => Ok i
  | Err ENotFound => Ok (lk_genesis l)
  | Err e => Err e
  | Panic => Panic
  | Diverge => Diverge
  end.
(** linkage.go:163-178: an error other than not-found leaves the zero ID. *)
Definition leash_score (l : linkage) (a : addr) : outcome Z :=
  let i := match get_leash (lk_db l) a with
           | Ok i => i
           | Err ENotFound => lk_genesis l
           | _ => zero_id
           end in
  do b <- get_block_by_id (lk_db l) i; Ok (sb_score b).
(** linkage.go:181-186 *)
Definition lk_heads (l : linkage) : outcome (list (N * id)) := heads (lk_db l).
(** linkage.go:196-201 *)
Definition last_ids (l : linkage) (i : id) (count : Z) : outcome (list id) := get_ancestors (lk_db l) i count.
(** linkage.go:203-208, 452-454 *)
Definition lk_has_block (l : linkage) (i : id) : outcome bool := has_block (lk_db l) i.
(** linkage.go:210-215, 456-484 *)
Definition block (l : linkage) (i : id) : outcome Block :=
  do b <- get_block_by_id (lk_db l) i; convert_block b.
(** linkage.go:224-229 *)
Definition lk_leashes (l : linkage) : outcome (list (addr * id)) := leashes (lk_db l).
(** linkage.go:189-194, 430-450 *)
Definition active_heads (l : linkage) : outcome (list (N * id)) :=
  do hs <- heads (lk_db l);
  do ls <- leashes (lk_db l);
  Ok (filter (fun h => existsb (fun e => id_eqb (snd e) (snd h)) ls) hs).

(** linkage.go:295-298, 347-350, 498-504: map[BlockID][]Addr built by appending. Keys in order of first insertion; the
    iteration order of the Go map is applied by the callers. *)
Definition group := (id * list addr)%type.
Fixpoint group_add (m : list group) (i : id) (a : addr) : list group :=
  match m with
  | [] => [(i, [a])]
  | (j, l) :: m' => if id_eqb i j then (j, l ++ [a]) :: m' else (j, l) :: group_add m' i a
  end.
Definition group_leashes (ls : list (addr * id)) : list group :=
  fold_left (fun m e => group_add m (snd e) (fst e)) ls [].

(** linkage.go:302-319, 355-386: the loop selecting the longest fork, over the map entries in iteration order.
    The accumulator is (score, peers, longest). *)
Definition longest_step (acc : Z * nat * id) (score : Z) (g : group) : Z * nat * id :=
  let '(s, p, lg) := acc in
  match Z.compare s score with
  | Eq => if Nat.ltb p (length (snd g)) then (score, length (snd g), fst g) else acc
  | Lt => (score, length (snd g), fst g)
  | Gt => acc
  end.
Fixpoint longest_loop (l : linkage) (m : list group) (acc : Z * nat * id) : outcome (Z * nat * id) :=
  match m with
  | [] => Ok acc
  | g :: m' => do b <- block l (fst g); longest_loop l m' (longest_step acc (b_score b) g)
  end.

(** linkage.go:280-328. [ord] is the iteration order of the map. *)
Definition lcb (ord : list group -> list group) (l : linkage) (a : addr) : outcome id :=
  match get_leash (lk_db l) a with
  | Err ENotFound => Ok (lk_genesis l)
  | Err e => Err e
  | Panic => Panic
  | Diverge => Diverge
  | Ok head =>
      do ls <- leashes (lk_db l);
      do acc <- longest_loop l (ord (group_leashes ls)) (0%Z, 0, zero_id);
      let longest := snd acc in
      if id_eqb head longest then Ok head else lca (lk_db l) longest head
  end.

(** entities.go:40-51 *)
Record Fork := { f_longest : bool; f_head : id; f_ts : Z; f_gen : bytes; f_height : N; f_score : Z;
                 f_peers_count : nat; f_peers : list addr; f_lcb : id; f_length : Z }.
(** linkage.go:511-522 and 373-384 *)
Definition new_fork (b : Block) (ps : list addr) : Fork :=
  {| f_longest := false; f_head := b_id b; f_ts := b_ts b; f_gen := b_gen b; f_height := b_height b;
     f_score := b_score b; f_peers_count := length ps; f_peers := ps; f_lcb := b_id b;
     f_length := Z.of_N (b_height b) |}.
(** The zero value of Fork (nil Score is represented by 0). *)
Definition zero_fork : Fork :=
  {| f_longest := false; f_head := zero_id; f_ts := 0; f_gen := repeat x00 26; f_height := 0; f_score := 0;
     f_peers_count := 0; f_peers := []; f_lcb := zero_id; f_length := 0 |}.

(** linkage.go:355-386 with the fork of [peer] as additional accumulator. *)
Fixpoint fork_loop (l : linkage) (peer : addr) (m : list group) (acc : Z * nat * id) (f : Fork)
  : outcome ((Z * nat * id) * Fork) :=
  match m with
  | [] => Ok (acc, f)
  | g :: m' =>
      do b <- block l (fst g);
      let f' := if existsb (addr_eqb peer) (snd g) then new_fork b (snd g) else f in
      fork_loop l peer m' (longest_step acc (b_score b) g) f'
  end.
Definition set_longest (f : Fork) : Fork :=
  {| f_longest := true; f_head := f_head f; f_ts := f_ts f; f_gen := f_gen f; f_height := f_height f;
     f_score := f_score f; f_peers_count := f_peers_count f; f_peers := f_peers f; f_lcb := f_lcb f;
     f_length := f_length f |}.
Definition set_length (f : Fork) (n : Z) : Fork :=
  {| f_longest := f_longest f; f_head := f_head f; f_ts := f_ts f; f_gen := f_gen f; f_height := f_height f;
     f_score := f_score f; f_peers_count := f_peers_count f; f_peers := f_peers f; f_lcb := f_lcb f;
     f_length := n |}.
Definition set_lcb (f : Fork) (i : id) (n : Z) : Fork :=
  {| f_longest := f_longest f; f_head := f_head f; f_ts := f_ts f; f_gen := f_gen f; f_height := f_height f;
     f_score := f_score f; f_peers_count := f_peers_count f; f_peers := f_peers f; f_lcb := i; f_length := n |}.
(** linkage.go:392-401, 531-540 *)
Definition finish_fork (d : db) (longest : id) (f : Fork) : outcome Fork :=
  do i <- lca d longest (f_head f);
  do b <- get_block_by_id d i;
  Ok (set_lcb f i (f_length f - Z.of_N (sb_height b))%Z).
(** linkage.go:339-404 *)
Definition fork_of (ord : list group -> list group) (l : linkage) (peer : addr) : outcome Fork :=
  do ls <- leashes (lk_db l);
  do r <- fork_loop l peer (ord (group_leashes ls)) (0%Z, 0, zero_id) zero_fork;
  let longest := snd (fst r) in
  let f := snd r in
  if id_eqb (f_head f) longest then Ok (set_length (set_longest f) 0)
  else finish_fork (lk_db l) longest f.

(** linkage.go:330, 500: [peers] as a list of addresses; an empty (or nil) selection selects everything. *)
Definition selected (peers : list addr) (a : addr) : bool :=
  match peers with [] => true | _ => existsb (addr_eqb a) peers end.
(** linkage.go:332-337, 493-544. [ord]: map iteration order; [srt]: result of sort.Sort(byScoreAndPeersDesc(r)). *)
Definition forks (ord : list group -> list group) (srt : list Fork -> list Fork) (l : linkage) (peers : list addr)
  : outcome (list Fork) :=
  do ls <- leashes (lk_db l);
  do r <- mapM (fun g => do b <- block l (fst g); Ok (new_fork b (snd g)))
               (ord (group_leashes (filter (fun e => selected peers (fst e)) ls)));
  match srt r with
  | [] => Panic                                (* r[0] *)
  | f0 :: rest => mapM (finish_fork (lk_db l) (f_head f0)) (set_longest f0 :: rest)
  end.
(** entities.go:63-69, byScoreAndPeersDesc.Less *)
Definition fork_less (f g : Fork) : bool :=
  match Z.compare (f_score f) (f_score g) with
  | Eq => Nat.ltb (length (f_peers g)) (length (f_peers f))
  | Gt => true
  | Lt => false
  end.

(** linkage.go:19-21, 260-277; the result is (Short, Long). *)
Definition longForkThreshold : Z := 5.
Definition stats (ord : list group -> list group) (srt : list Fork -> list Fork) (l : linkage) : outcome (nat * nat) :=
  do fs <- forks ord srt l [];
  Ok (fold_left (fun (r : nat * nat) f =>
                   if (longForkThreshold <? f_length f)%Z then (fst r, S (snd r)) else (S (fst r), snd r))
                fs (0, 0)).

(** linkage.go:412-423: m[generator]++ *)
Fixpoint count_add (m : list (bytes * nat)) (g : bytes) : list (bytes * nat) :=
  match m with
  | [] => [(g, 1)]
  | (h, n) :: m' => if beqb g h then (h, S n) :: m' else (h, n) :: count_add m' g
  end.
(** linkage.go:408-428. [ord]: map order; [srt]: result of sort.Sort(byBlocksCountDesc(stats)). *)
Definition fork_generators (ord srt : list (bytes * nat) -> list (bytes * nat)) (l : linkage) (i : id) (count : Z)
  : outcome (list (bytes * nat)) :=
  do bs <- get_blocks (lk_db l) i count;
  Ok (srt (ord (fold_left (fun m b => count_add m (b_gen b)) bs []))).
(** entities.go:86-88, byBlocksCountDesc.Less *)
Definition gen_less (a b : bytes * nat) : bool := Nat.ltb (snd b) (snd a).

(** * Executions *)

(** The calls that change the store: Linkage.PutBlock (linkage.go:72), PutMicroBlock (102), MoveLeash (217), and closing
    the store and opening it again with NewLinkage (49) on the same path and genesis block. *)
Inductive op :=
| Put (b : pblock) (a : addr)
| Micro (m : minv) (a : addr)
| Move (i : id) (a : addr)
| Reopen.

Definition op_writes (g : pblock) (l : linkage) (o : op) : list (batch val) * outcome unit :=
  match o with
  | Put b a => put_block l b a
  | Micro m a => put_micro_block l m a
  | Move i a => move_leash l i a
  | Reopen => match new_linkage (lk_db l) g with
              | Ok r => (fst r, Ok tt)
              | Err e => ([], Err e)
              | Panic => ([], Panic)
              | Diverge => ([], Diverge)
              end
  end.

(** One call. [Some k]: the write number [k] (from 0) fails, or the process is killed right before it; writes before it
    have been applied. Every DB.Write error is returned immediately (storage.go:94,176,233,406). *)
Definition exec (g : pblock) (l : linkage) (o : op) (fault : option nat) : linkage * outcome unit :=
  let '(ws, r) := op_writes g l o in
  match fault with
  | Some k => if Nat.ltb k (length ws)
              then (with_db l (apply_writes (lk_db l) (firstn k ws)), Err EOther)
              else (with_db l (apply_writes (lk_db l) ws), r)
  | None => (with_db l (apply_writes (lk_db l) ws), r)
  end.

Fixpoint run (g : pblock) (l : linkage) (ops : list (op * option nat)) : linkage :=
  match ops with
  | [] => l
  | (o, f) :: ops' => run g (fst (exec g l o f)) ops'
  end.

(** NewLinkage on an empty directory. *)
Definition start (g : pblock) : outcome linkage :=
  do r <- new_linkage [] g; Ok {| lk_genesis := snd r; lk_db := apply_writes [] (fst r) |}.
