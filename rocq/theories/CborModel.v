(** The bytes of the stored records: chains/storage_entities.go:58-65, 82-86 and peers/storage.go:42-50 as written by cbor.Marshal and read
    by cbor.Unmarshal of github.com/fxamacker/cbor/v2 with its default options (chains/storage.go:538, 547, 573, 585; peers/storage.go:80,
    116, 139), and the functions of both storages that read and write them, over databases whose values are bytes.
    The format is RFC 8949. Modelled: integers and lengths in the shortest form, byte strings, text strings, arrays of unsigned integers,
    maps with unsigned keys, big integers (tags 2 and 3) and null. Simplification: the library also reads encodings that the program
    never writes (strings and arrays of indefinite length, floating point numbers, nested values, a nil score of a block, a state above
    2); the decoder of the model refuses those. *)
From Coq Require Import Strings.Byte.
From Verif Require Import Base Kv ChainModel PeersModel.
Set Implicit Arguments.
Unset Strict Implicit.
Open Scope N_scope.

(** * Items *)

(** A value of a field. An integer is a Go integer or a big.Int, both encoded in the shortest form (BigIntConvertShortest). *)
Inductive item := IInt (z : Z) | IBytes (b : bytes) | IText (b : bytes) | IInts (l : list N) | INull.

(** encodeHead: the major type and its argument, RFC 8949 section 3. *)
Definition head (mt n : N) : bytes :=
  if n <? 24 then [byte_of (mt * 32 + n)]
  else if n <? 2 ^ 8 then byte_of (mt * 32 + 24) :: be 1 n
  else if n <? 2 ^ 16 then byte_of (mt * 32 + 25) :: be 2 n
  else if n <? 2 ^ 32 then byte_of (mt * 32 + 26) :: be 4 n
  else byte_of (mt * 32 + 27) :: be 8 n.
(** big.Int.Bytes: big-endian without leading zeros. *)
Definition be_min (n : N) : bytes := if n =? 0 then [] else be (N.to_nat (N.log2 n / 8 + 1)) n.
(** encodeBigInt; the same bytes as encodeInt and encodeUint for the integers that fit. *)
Definition enc_int (z : Z) : bytes :=
  if (0 <=? z)%Z then
    if Z.to_N z <? 2 ^ 64 then head 0 (Z.to_N z)
    else head 6 2 ++ head 2 (N.of_nat (length (be_min (Z.to_N z)))) ++ be_min (Z.to_N z)
  else
    let n := Z.to_N (- z - 1) in
    if n <? 2 ^ 64 then head 1 n
    else head 6 3 ++ head 2 (N.of_nat (length (be_min n))) ++ be_min n.
Definition null_byte : byte := xf6.
Definition enc_item (i : item) : bytes :=
  match i with
  | IInt z => enc_int z
  | IBytes b => head 2 (N.of_nat (length b)) ++ b
  | IText b => head 3 (N.of_nat (length b)) ++ b
  | IInts l => head 4 (N.of_nat (length l)) ++ flat_map (head 0) l
  | INull => [null_byte]
  end.
(** A struct with the tag keyasint: a map of definite length, the fields in ascending order of their keys. *)
Definition enc_map (m : list (N * item)) : bytes :=
  head 5 (N.of_nat (length m)) ++ flat_map (fun f => head 0 (fst f) ++ enc_item (snd f)) m.

(** The first [n] bytes. *)
Definition take (n : N) (s : bytes) : option (bytes * bytes) :=
  if n <=? N.of_nat (length s) then Some (firstn (N.to_nat n) s, skipn (N.to_nat n) s) else None.
(** Major type, argument, rest. *)
Definition unhead (s : bytes) : option (N * N * bytes) :=
  match s with
  | [] => None
  | b :: r =>
      let mt := Byte.to_N b / 32 in
      let ai := Byte.to_N b mod 32 in
      let wide k := match take k r with Some (x, r') => Some (mt, unbe x, r') | None => None end in
      if ai <? 24 then Some (mt, ai, r)
      else if ai =? 24 then wide 1
      else if ai =? 25 then wide 2
      else if ai =? 26 then wide 4
      else if ai =? 27 then wide 8
      else None
  end.
Definition unuint (s : bytes) : option (N * bytes) :=
  match unhead s with Some (0, n, r) => Some (n, r) | _ => None end.
Fixpoint dec_uints (k : nat) (s : bytes) : option (list N * bytes) :=
  match k with
  | O => Some ([], s)
  | S k' => match unuint s with
            | Some (n, r) => match dec_uints k' r with Some (l, r') => Some (n :: l, r') | None => None end
            | None => None
            end
  end.
Definition dec_item (s : bytes) : option (item * bytes) :=
  match s with
  | [] => None
  | b :: s' =>
      if Byte.to_N b =? Byte.to_N null_byte then Some (INull, s')
      else match unhead s with
      | Some (0, n, r) => Some (IInt (Z.of_N n), r)
      | Some (1, n, r) => Some (IInt (- Z.of_N n - 1), r)
      | Some (2, n, r) => match take n r with Some (x, r') => Some (IBytes x, r') | None => None end
      | Some (3, n, r) => match take n r with Some (x, r') => if utf8_valid x then Some (IText x, r') else None | None => None end
      | Some (4, n, r) =>
          if n <=? N.of_nat (length r)
          then match dec_uints (N.to_nat n) r with Some (l, r') => Some (IInts l, r') | None => None end
          else None
      | Some (6, t, r) =>
          match unhead r with
          | Some (2, n, r') =>
              match take n r' with
              | Some (x, r'') => if t =? 2 then Some (IInt (Z.of_N (unbe x)), r'')
                                 else if t =? 3 then Some (IInt (- Z.of_N (unbe x) - 1), r'') else None
              | None => None
              end
          | _ => None
          end
      | _ => None
      end
  end.
Fixpoint dec_fields (k : nat) (s : bytes) : option (list (N * item) * bytes) :=
  match k with
  | O => Some ([], s)
  | S k' =>
      match unuint s with
      | Some (n, r) =>
          match dec_item r with
          | Some (i, r') => match dec_fields k' r' with Some (m, r'') => Some ((n, i) :: m, r'') | None => None end
          | None => None
          end
      | None => None
      end
  end.
(** Unmarshal refuses data after the item. *)
Definition dec_map (s : bytes) : option (list (N * item)) :=
  match unhead s with
  | Some (5, n, r) =>
      if n <=? N.of_nat (length r)
      then match dec_fields (N.to_nat n) r with Some (m, []) => Some m | _ => None end
      else None
  | _ => None
  end.

(** * Fields *)

(** A missing field keeps its zero value, as does one that is null. *)
Fixpoint field (k : N) (m : list (N * item)) : item :=
  match m with [] => INull | (j, i) :: m' => if j =? k then i else field k m' end.
Definition as_uint (lim : N) (i : item) : option N :=
  match i with INull => Some 0 | IInt z => if ((0 <=? z) && (z <? Z.of_N lim))%Z then Some (Z.to_N z) else None | _ => None end.
Definition as_bytes (i : item) : option bytes := match i with INull => Some [] | IBytes b => Some b | _ => None end.
Definition as_text (i : item) : option bytes := match i with INull => Some [] | IText b => Some b | _ => None end.
Definition as_ints (i : item) : option (list N) := match i with INull => Some [] | IInts l => Some l | _ => None end.
Definition as_big (i : item) : option (option Z) := match i with INull => Some None | IInt z => Some (Some z) | _ => None end.
(** time.Time in the mode TimeUnix, in seconds; the zero time is null. *)
Definition zero_seconds : Z := (zero_time / second)%Z.
Definition in_int64 (z : Z) : bool := ((- 2 ^ 63 <=? z) && (z <? 2 ^ 63))%Z.
Definition as_time (i : item) : option Z :=
  match i with INull => Some zero_seconds | IInt z => if in_int64 z then Some z else None | _ => None end.
(** A nil slice is null; the slices of the program are empty only if nil (chains/storage.go:69-75, 82-86: the first block has neither a
    Parent nor Parents). *)
Definition of_bytes (b : bytes) : item := match b with [] => INull | _ => IBytes b end.
Definition of_ints (l : list N) : item := match l with [] => INull | _ => IInts l end.
Definition of_big (z : option Z) : item := match z with None => INull | Some z => IInt z end.
Definition of_time (z : Z) : item := if (z =? zero_seconds)%Z then INull else IInt z.
Definition of_uint (n : N) : item := IInt (Z.of_N n).

(** ** Versions *)
(** strconv.Itoa *)
Fixpoint digits (fuel : nat) (n : N) (acc : bytes) : bytes :=
  match fuel with
  | O => acc
  | S f => let acc' := byte_of (48 + n mod 10) :: acc in if n / 10 =? 0 then acc' else digits f (n / 10) acc'
  end.
Definition decimal (n : N) : bytes := digits (S (N.to_nat (N.log2 n))) n [].
Definition dot : byte := x2e.
(** proto.Version.String: "major.minor.patch" *)
Definition version_string (v : version) : bytes :=
  decimal (ve_major v) ++ [dot] ++ decimal (ve_minor v) ++ [dot] ++ decimal (ve_patch v).
(** strings.Split(s, ".") *)
Fixpoint split_dot (s : bytes) : list bytes :=
  match s with
  | [] => [[]]
  | b :: s' => if Byte.to_N b =? 46 then [] :: split_dot s'
               else match split_dot s' with [] => [[b]] | p :: ps => (b :: p) :: ps end
  end.
(** strconv.ParseUint(s, 10, 32) *)
Fixpoint number (s : bytes) (acc : N) : option N :=
  match s with
  | [] => Some acc
  | b :: s' => if (48 <=? Byte.to_N b) && (Byte.to_N b <=? 57) then number s' (acc * 10 + (Byte.to_N b - 48)) else None
  end.
Definition parse_uint32 (s : bytes) : option N :=
  match s with [] => None | _ => match number s 0 with Some n => if n <? 2 ^ 32 then Some n else None | None => None end end.
(** proto.NewVersionFromString: one to three numbers. *)
Definition parse_version (s : bytes) : option version :=
  match map parse_uint32 (split_dot s) with
  | [Some a] => Some {| ve_major := a; ve_minor := 0; ve_patch := 0 |}
  | [Some a; Some b] => Some {| ve_major := a; ve_minor := b; ve_patch := 0 |}
  | [Some a; Some b; Some c] => Some {| ve_major := a; ve_minor := b; ve_patch := c |}
  | _ => None
  end.

(** * Records *)

(** chains/storage_entities.go:58-65 *)
Definition enc_block (b : sblock) : bytes :=
  enc_map [(0, of_uint (sb_height b)); (1, of_uint (sb_ts b)); (2, IInt (sb_score b)); (3, of_bytes (sb_id b));
           (4, of_bytes (sb_parent b)); (5, of_bytes (sb_gen b))].
Definition dec_block (s : bytes) : option sblock :=
  match dec_map s with
  | None => None
  | Some m =>
      match as_uint (2 ^ 32) (field 0 m), as_uint (2 ^ 64) (field 1 m), as_big (field 2 m), as_bytes (field 3 m), as_bytes (field 4 m),
            as_bytes (field 5 m) with
      | Some h, Some t, Some (Some s), Some i, Some p, Some g =>
          Some {| sb_height := h; sb_ts := t; sb_score := s; sb_id := i; sb_parent := p; sb_gen := g |}
      | _, _, _, _, _, _ => None
      end
  end.
(** chains/storage_entities.go:82-86 *)
Definition enc_link (l : slink) : bytes :=
  enc_map [(0, of_uint (sl_height l)); (1, of_bytes (sl_id l)); (2, of_ints (sl_parents l))].
Definition dec_link (s : bytes) : option slink :=
  match dec_map s with
  | None => None
  | Some m =>
      match as_uint (2 ^ 32) (field 0 m), as_bytes (field 1 m), as_ints (field 2 m) with
      | Some h, Some i, Some ps => Some {| sl_height := h; sl_id := i; sl_parents := ps |}
      | _, _, _ => None
      end
  end.
(** peers/state.go:4-10 *)
Definition state_number (s : pstate) : N := match s with PeerUnknown => 0 | PeerConnected => 1 | PeerHostile => 2 end.
Definition state_of (n : N) : option pstate :=
  match n with 0 => Some PeerUnknown | 1 => Some PeerConnected | 2 => Some PeerHostile | _ => None end.
(** peers/storage.go:42-50, 106-115 *)
Definition enc_value (v : value) : bytes :=
  enc_map [(0, of_uint (v_port v)); (1, of_uint (v_nonce v)); (2, IText (v_name v)); (3, IText (version_string (v_version v)));
           (4, of_uint (state_number (v_state v))); (5, of_time (v_next v)); (6, of_big (v_score v))].
(** peers/storage.go:79-95, 138-149: Unmarshal ([None]: umErr) and then NewVersionFromString ([Some None]: an error). *)
Definition dec_value (s : bytes) : option (option value) :=
  match dec_map s with
  | None => None
  | Some m =>
      match as_uint (2 ^ 16) (field 0 m), as_uint (2 ^ 64) (field 1 m), as_text (field 2 m), as_text (field 3 m), as_uint (2 ^ 8) (field 4 m),
            as_time (field 5 m), as_big (field 6 m) with
      | Some po, Some no, Some na, Some ve, Some st, Some ne, Some sc =>
          match state_of st with
          | None => None
          | Some st' =>
              Some match parse_version ve with
                   | None => None
                   | Some v => Some {| v_port := po; v_nonce := no; v_name := na; v_version := v; v_state := st'; v_next := ne; v_score := sc |}
                   end
          end
      | _, _, _, _, _, _, _ => None
      end
  end.

(** * Databases of bytes *)

Definition raw := kv bytes.
Definition enc_val (v : val) : bytes := match v with VBytes b => b | VBlock b => enc_block b | VLink l => enc_link l end.
Definition encoded {V} (enc : V -> bytes) (d : kv V) : raw := map (fun b => (fst b, enc (snd b))) d.
Definition enc_bop (o : bop val) : bop bytes := match o with BPut k v => BPut k (enc_val v) | BDel k => BDel k end.

(** chains/storage.go:466-482. *)
Definition raw_counter (d : raw) (c : byte) : outcome N :=
  match kv_get (counter_key c) d with None => Ok 0 | Some v => if Nat.eqb (length v) 8 then Ok (unbe v) else Panic end.
(** chains/storage.go:491-500 *)
Definition raw_num (d : raw) (i : id) : outcome N :=
  match kv_get (id_key blockPrefix i) d with
  | None => Err ENotFound
  | Some v => if Nat.eqb (length v) 8 then Ok (unbe v) else Err EOther
  end.
(** chains/storage.go:567-577 *)
Definition raw_block (d : raw) (n : N) : outcome sblock :=
  match kv_get (num_key blockPrefix n) d with
  | None => Err ENotFound
  | Some v => match dec_block v with Some b => Ok b | None => Err EOther end
  end.
(** chains/storage.go:579-589 *)
Definition raw_link (d : raw) (n : N) : outcome slink :=
  match kv_get (num_key chainPrefix n) d with
  | None => Err ENotFound
  | Some v => match dec_link v with Some l => Ok l | None => Err EOther end
  end.
(** chains/storage.go:599-612 *)
Definition raw_leash (d : raw) (a : addr) : outcome id :=
  match kv_get (addr_key a) d with None => Err ENotFound | Some v => new_block_id v end.
(** chains/storage.go:652-661 *)
Definition raw_head_num (d : raw) (n : N) : outcome N :=
  match kv_get (num_key blockToHeadPrefix n) d with
  | None => Err ENotFound
  | Some v => if Nat.eqb (length v) 8 then Ok (unbe v) else Err EOther
  end.
(** chains/storage.go:412-436 *)
Definition raw_leashes (d : raw) : outcome (list (addr * id)) :=
  mapM (fun b => do a <- addr_key_from_bytes (fst b); do i <- new_block_id (snd b); Ok (a, i)) (kv_range leashes_start leashes_limit d).
(** chains/storage.go:663-682 *)
Definition raw_heads (d : raw) : outcome (list (N * N)) :=
  mapM (fun b => do pn <- num_key_from_bytes (fst b);
                 if negb (beqb [fst pn] [headToBlockPrefix]) then Err EOther
                 else if Nat.ltb (length (snd b)) 8 then Panic else Ok (snd pn, unbe (firstn 8 (snd b))))
       (kv_range (num_key headToBlockPrefix 0) (num_key headToBlockPrefix (2 ^ 64 - 1)) d).

(** peers/storage.go:68-96. Line 81 returns [err], which is nil at that point, and not [umErr]. *)
Definition raw_peer (d : raw) (a : addr) : outcome Peer :=
  do k <- pkey a;
  match kv_get k d with
  | None => Err ENotFound
  | Some s => match dec_value s with
              | None => Ok zero_peer
              | Some None => Err EOther
              | Some (Some v) => Ok (of_value a v)
              end
  end.
(** peers/storage.go:98-122 *)
Definition raw_put_peer (d : raw) (p : Peer) (w : bool) : outcome raw :=
  if negb (is4 (p_addr p)) then Err EOther
  else if negb (utf8_valid (p_name p)) then Err EOther
  else do k <- pkey (p_addr p);
       if w then Ok (kv_put k (enc_value (to_value p)) d) else Err EOther.
(** peers/storage.go:124-156 *)
Definition raw_peers (d : raw) : outcome (list Peer) :=
  mapM (fun b => do a <- pkey_addr (fst b);
                 match dec_value (snd b) with Some (Some v) => Ok (of_value a v) | _ => Err EOther end) d.
(** peers/storage.go:158-167 *)
Definition raw_has_peer (d : raw) (a : addr) : outcome bool :=
  do k <- pkey a; Ok (match kv_get k d with Some _ => true | None => false end).
