(** The text functions of the Go library that /repo calls on addresses and numbers: netip.ParseAddr, netip.ParseAddrPort, Addr.String,
    AddrPort.String, net.TCPAddr.String, strconv.Atoi, strings.TrimSpace (Go 1.22; the library is not in /repo, it is modelled from its
    published source). Used in parameters.go:118-158, 192-221, api/api.go:326, 355, 362, 403-420, connection_manager.go:73, 106,
    distributor.go:116-285, peers/registry.go:44, 139, 185, 232. *)
From Coq Require Import Strings.Byte Strings.String.
From Verif Require Import Base Kv ChainModel PeersModel LoadModel CborModel ApiModel TextModel.
Set Implicit Arguments.
Unset Strict Implicit.
Local Open Scope N_scope.

Definition is (c : N) (b : byte) : bool := Byte.to_N b =? c.
Definition colon : byte := x3a.
Definition percent : byte := x25.
Definition empty (s : bytes) : bool := match s with [] => true | _ => false end.

(** * Parsing addresses *)

(** parseIPv4Fields. [dotted]: at the start or just after a dot; [val], [n]: value and number of digits of the current field;
    [acc]: the fields that are complete (pos of them). *)
Definition digit (b : byte) : bool := (48 <=? Byte.to_N b) && (Byte.to_N b <=? 57).
Fixpoint fields4 (s : bytes) (dotted : bool) (val n : N) (acc : bytes) : option bytes :=
  match s with
  | [] => if Nat.eqb (length acc) 3 then Some (acc ++ [byte_of val]) else None
  | b :: s' =>
      if digit b then
        if (n =? 1) && (val =? 0) then None
        else let v := val * 10 + (Byte.to_N b - 48) in
             if 255 <? v then None else fields4 s' false v (n + 1) acc
      else if is 46 b then
        if dotted || empty s' || Nat.eqb (length acc) 3 then None else fields4 s' true 0 0 (acc ++ [byte_of val])
      else None
  end.
(** parseIPv4 *)
Definition parse4 (s : bytes) : option bytes := fields4 s true 0 0 [].

(** The hexadecimal group at the head of the string: number of digits, value, rest; [None]: more than four digits. *)
Definition hex_digit (b : byte) : option N :=
  let c := Byte.to_N b in
  if (48 <=? c) && (c <=? 57) then Some (c - 48)
  else if (97 <=? c) && (c <=? 102) then Some (c - 97 + 10)
  else if (65 <=? c) && (c <=? 70) then Some (c - 65 + 10)
  else None.
Fixpoint hex (s : bytes) (off : nat) (acc : N) : option (nat * N * bytes) :=
  match s with
  | [] => Some (off, acc, [])
  | b :: s' =>
      match hex_digit b with
      | None => Some (off, acc, s)
      | Some d => let acc' := acc * 16 + d in
                  if Nat.ltb 3 off || (65535 <? acc') then None else hex s' (S off) acc'
      end
  end.
(** The loop of parseIPv6: [ip] are the bytes so far (i of them), [e] the position of the ellipsis; it ends when 16 bytes are
    read ([fuel] is (16 - i) / 2) or the string is used up. Result: bytes, ellipsis, rest of the string. *)
Fixpoint groups (fuel : nat) (s ip : bytes) (e : option nat) : option (bytes * option nat * bytes) :=
  match fuel with
  | O => Some (ip, e, s)
  | S f =>
      match hex s 0 0 with
      | None => None
      | Some (O, _, _) => None
      | Some (_, acc, r) =>
          if match r with c :: _ => is 46 c | [] => false end then
            if match e with None => negb (Nat.eqb (length ip) 12) | Some _ => false end then None
            else if Nat.ltb 16 (length ip + 4) then None
            else match parse4 s with None => None | Some q => Some (ip ++ q, e, []) end
          else
            let ip' := ip ++ [byte_of (acc / 256); byte_of (acc mod 256)] in
            match r with
            | [] => Some (ip', e, [])
            | c :: r1 =>
                if negb (is 58 c) then None
                else match r1 with
                     | [] => None
                     | d :: r2 =>
                         if is 58 d then
                           match e with
                           | Some _ => None
                           | None => if empty r2 then Some (ip', Some (length ip'), []) else groups f r2 ip' (Some (length ip'))
                           end
                         else groups f r1 ip' e
                     end
            end
      end
  end.
(** The string before the first '%' and the zone after it. *)
Fixpoint split_zone (s : bytes) : bytes * option bytes :=
  match s with
  | [] => ([], None)
  | b :: s' => if is 37 b then ([], Some s') else let (t, z) := split_zone s' in (b :: t, z)
  end.
(** The end of parseIPv6: the ellipsis is filled with zeros. *)
Definition expand (ip : bytes) (e : option nat) : option bytes :=
  if Nat.ltb (length ip) 16 then
    match e with None => None | Some k => Some (firstn k ip ++ repeat x00 (16 - length ip) ++ skipn k ip) end
  else match e with Some _ => None | None => Some ip end.
(** A leading ellipsis. *)
Definition leading (t : bytes) : bytes * option nat :=
  match t with
  | a :: b :: t' => if is 58 a && is 58 b then (t', Some 0%nat) else (t, None)
  | _ => (t, None)
  end.
(** parseIPv6 *)
Definition parse6 (s : bytes) : option addr :=
  let (t, z) := split_zone s in
  match z with
  | Some [] => None
  | _ =>
      let zone := match z with Some z => z | None => [] end in
      let (t, e) := leading t in
      if match e with Some _ => empty t | None => false end then Some (A6 (repeat x00 16) zone)
      else match groups 8 t [] e with
           | Some (ip, e', []) => match expand ip e' with Some b => Some (A6 b zone) | None => None end
           | _ => None
           end
  end.
(** netip.ParseAddr: the first of '.', ':', '%' decides. *)
Fixpoint first_mark (s : bytes) : option N :=
  match s with
  | [] => None
  | b :: s' => if is 46 b || is 58 b || is 37 b then Some (Byte.to_N b) else first_mark s'
  end.
Definition parse_addr (s : bytes) : option addr :=
  match first_mark s with
  | Some 46 => match parse4 s with Some b => Some (A4 b) | None => None end
  | Some 58 => parse6 s
  | _ => None
  end.

(** splitAddrPort: before and after the last ':'. *)
Fixpoint last_colon (s : bytes) : option (bytes * bytes) :=
  match s with
  | [] => None
  | b :: s' => match last_colon s' with
               | Some (x, y) => Some (b :: x, y)
               | None => if is 58 b then Some ([], s') else None
               end
  end.
(** strconv.ParseUint(s, 10, 16) *)
Definition parse_port (s : bytes) : option N :=
  match s with [] => None | _ => match number s 0 with Some n => if n <? 65536 then Some n else None | None => None end end.
(** ip[0] == '[', ip[1:len-1]; [None]: a bracket that is not closed. *)
Definition brackets (ip : bytes) : option (bytes * bool) :=
  match ip with
  | b :: t => if is 91 b then
                match rev t with c :: u => if is 93 c then Some (rev u, true) else None | [] => None end
              else Some (ip, false)
  | [] => Some (ip, false)
  end.
(** netip.ParseAddrPort *)
Definition parse_addrport (s : bytes) : option (addr * N) :=
  match last_colon s with
  | None => None
  | Some (ip, port) =>
      if empty ip || empty port then None
      else match brackets ip with
           | None => None
           | Some (ip', v6) =>
               match parse_port port with
               | None => None
               | Some n => match parse_addr ip' with
                           | Some (A4 b) => if v6 then None else Some (A4 b, n)
                           | Some (A6 b z) => if v6 then Some (A6 b z, n) else None
                           | _ => None
                           end
               end
           end
  end.

(** * Printing addresses *)

(** Addr.string4 *)
Definition print4 (b : bytes) : bytes :=
  match b with
  | [a; b; c; d] => decimal (Byte.to_N a) ++ [dot] ++ decimal (Byte.to_N b) ++ [dot] ++ decimal (Byte.to_N c) ++ [dot] ++ decimal (Byte.to_N d)
  | _ => []
  end.
(** appendHex: without leading zeros. *)
Definition hex_char (n : N) : byte := if n <? 10 then byte_of (48 + n) else byte_of (87 + n).
Definition print_hex (x : N) : bytes :=
  (if 4096 <=? x then [hex_char (x / 4096)] else []) ++ (if 256 <=? x then [hex_char (x / 256 mod 16)] else []) ++
  (if 16 <=? x then [hex_char (x / 16 mod 16)] else []) ++ [hex_char (x mod 16)].
(** Addr.v6u16 for all eight groups. *)
Fixpoint pairs (b : bytes) : list N :=
  match b with h :: l :: b' => Byte.to_N h * 256 + Byte.to_N l :: pairs b' | _ => [] end.
(** The first loop of appendTo6: the first of the longest runs of at least two zero groups. *)
Fixpoint zeros (gs : list N) : nat := match gs with g :: gs' => if g =? 0 then S (zeros gs') else 0 | [] => 0 end.
Fixpoint best (gs : list N) (i : nat) (b : nat * nat) : nat * nat :=
  match gs with
  | [] => b
  | _ :: gs' => let n := zeros gs in
                best gs' (S i) (if Nat.leb 2 n && Nat.ltb (snd b - fst b) n then (i, (i + n)%nat) else b)
  end.
(** The second loop. *)
Fixpoint append6 (fuel : nat) (gs : list N) (zs ze i : nat) : bytes :=
  match fuel with
  | O => []
  | S f =>
      if Nat.leb 8 i then []
      else if Nat.eqb i zs then
        [colon; colon] ++ (if Nat.leb 8 ze then [] else print_hex (nth ze gs 0) ++ append6 f gs zs ze (S ze))
      else (if Nat.ltb 0 i then [colon] else []) ++ print_hex (nth i gs 0) ++ append6 f gs zs ze (S i)
  end.
Definition print_zone (z : bytes) : bytes := match z with [] => [] | _ => percent :: z end.
Definition is4in6 (b : bytes) : bool := beqb (firstn 12 b) (repeat x00 10 ++ [xff; xff]).
(** Addr.String; the MarshalText of the API output differs only for the zero address. *)
Definition print_addr (a : addr) : bytes :=
  match a with
  | AZero => text "invalid IP"
  | A4 b => print4 b
  | A6 b z => if is4in6 b then text "::ffff:" ++ print4 (skipn 12 b) ++ print_zone z
              else let gs := pairs b in let (zs, ze) := best gs 0 (255, 255)%nat in append6 8 gs zs ze 0 ++ print_zone z
  end.
(** AddrPort.String *)
Definition print_addrport (ap : addr * N) : bytes :=
  let (a, port) := ap in
  match a with
  | AZero => text "invalid AddrPort"
  | A4 b => print4 b ++ [colon] ++ decimal port
  | A6 _ _ => text "[" ++ print_addr a ++ text "]:" ++ decimal port
  end.

(** * net.TCPAddr *)

(** ipEmptyString: net.IP.String writes an IPv4 address in IPv6 form as IPv4; other lengths than 0, 4 and 16 do not occur. *)
Definition ip_string (ip : bytes) : bytes :=
  match length ip with
  | O => []
  | 4%nat => print4 ip
  | _ => if is4in6 ip then print4 (skipn 12 ip) else print_addr (A6 ip [])
  end.
(** net.TCPAddr.String and net.JoinHostPort. *)
Definition tcp_string (ip zone : bytes) (port : N) : bytes :=
  let host := ip_string ip ++ print_zone zone in
  if existsb (is 58) host then text "[" ++ host ++ text "]:" ++ decimal port else host ++ [colon] ++ decimal port.
(** peers/registry.go:185: the argument of MarkAsHostile is read as an address without a port. *)
Definition hostile_key (ip zone : bytes) (port : N) : option addr := parse_addr (tcp_string ip zone port).

(** * Numbers and spaces *)

(** strconv.Atoi (64 bit): an optional sign and digits. *)
Definition unsigned (s : bytes) : option N := match s with [] => None | _ => number s 0 end.
Definition atoi (s : bytes) : option Z :=
  match s with
  | [] => None
  | b :: s' =>
      if is 45 b then match unsigned s' with Some n => if n <=? 2 ^ 63 then Some (- Z.of_N n)%Z else None | None => None end
      else match unsigned (if is 43 b then s' else s) with Some n => if n <? 2 ^ 63 then Some (Z.of_N n) else None | None => None end
  end.
(** unicode.IsSpace, as UTF-8: the white space of ASCII, U+0085, U+00A0, U+1680, U+2000-200A, U+2028, U+2029, U+202F, U+205F, U+3000. *)
Definition spaces : list bytes :=
  [[x09]; [x0a]; [x0b]; [x0c]; [x0d]; [x20]; [xc2; x85]; [xc2; xa0]; [xe1; x9a; x80];
   [xe2; x80; x80]; [xe2; x80; x81]; [xe2; x80; x82]; [xe2; x80; x83]; [xe2; x80; x84]; [xe2; x80; x85]; [xe2; x80; x86];
   [xe2; x80; x87]; [xe2; x80; x88]; [xe2; x80; x89]; [xe2; x80; x8a]; [xe2; x80; xa8]; [xe2; x80; xa9]; [xe2; x80; xaf];
   [xe2; x81; x9f]; [xe3; x80; x80]].
(** The rest of the string after the prefix. *)
Fixpoint cut (p s : bytes) : option bytes :=
  match p, s with
  | [], _ => Some s
  | a :: p', b :: s' => if Byte.eqb a b then cut p' s' else None
  | _ :: _, [] => None
  end.
Fixpoint cut_any (ps : list bytes) (s : bytes) : option bytes :=
  match ps with [] => None | p :: ps' => match cut p s with Some r => Some r | None => cut_any ps' s end end.
Fixpoint strip (ps : list bytes) (fuel : nat) (s : bytes) : bytes :=
  match fuel with O => s | S f => match cut_any ps s with Some r => strip ps f r | None => s end end.
(** strings.TrimSpace: runes of white space are removed at the start, then at the end. *)
Definition trim_left (s : bytes) : bytes := strip spaces (length s) s.
Definition trim_right (s : bytes) : bytes := rev (strip (map (@rev byte) spaces) (length s) (rev s)).
Definition trim_space (s : bytes) : bytes := trim_right (trim_left s).

(** The library functions the API and the parameters call; what depends on the file system stays a parameter. *)
Definition go_env (dir : bytes -> bool) (clean : bytes -> bytes) : env :=
  {| ev_addr := parse_addr; ev_addrport := parse_addrport; ev_render := print_addrport; ev_trim := trim_space; ev_atoi := atoi;
     ev_version := parse_version; ev_date := fun t => (t <? 253402300800000)%Z; ev_dir := dir; ev_clean := clean |}.
