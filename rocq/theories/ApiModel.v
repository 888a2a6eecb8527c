(** Model of the HTTP handlers (api/api.go, api/entities.go) and of the command line parameters (parameters.go).
    A handler is a function of the registry, the linkage and the request. Routing is in TextModel; headers and compression are not modelled;
    the linkage and the registry are read at one moment (their methods are atomic, see LockModel; ServeModel lifts this). *)
From Coq Require Import Strings.Byte.
From Verif Require Import Base Kv ChainModel PeersModel.
Set Implicit Arguments.
Unset Strict Implicit.

(** * Functions of the Go library, not modelled further *)
(** netip.ParseAddr, netip.ParseAddrPort, AddrPort.String, strings.TrimSpace, strconv.Atoi, proto.NewVersionFromString,
    proto.Version.String is not needed; [ev_date]: json encodes time.UnixMilli of this timestamp (it refuses years after 9999);
    [ev_dir]: os.Stat says that the path is a folder; [ev_clean]: path.Clean. *)
Record env := { ev_addr : bytes -> option addr; ev_addrport : bytes -> option (addr * N); ev_render : addr * N -> bytes;
                ev_trim : bytes -> bytes; ev_atoi : bytes -> option Z; ev_version : bytes -> option version;
                ev_date : Z -> bool; ev_dir : bytes -> bool; ev_clean : bytes -> bytes }.
(** The unspecified orders: map iteration and sort.Sort. *)
Record orders := { or_groups : list group -> list group; or_forks : list Fork -> list Fork;
                   or_gens : list (bytes * nat) -> list (bytes * nat); or_gensort : list (bytes * nat) -> list (bytes * nat);
                   or_conns : list (addr * conn) -> list (addr * conn); or_peers : list Peer -> list Peer }.

(** * Responses *)
Inductive resp (A : Type) := Reply (a : A) | Code (n : nat) | Hang.
Arguments Code {A} n. Arguments Hang {A}.
(** The end of every handler: an error is answered with 500 (http.Error), a panic is caught by middleware.Recoverer
    (api.go:74), which answers 500; [enc]: the JSON encoding succeeds (else 500; Encode writes nothing before it fails). *)
Definition answer {A} (enc : A -> bool) (o : outcome A) : resp A :=
  match o with
  | Ok a => if enc a then Reply a else Code 500
  | Err _ => Code 500
  | Panic => Code 500
  | Diverge => Hang
  end.

(** strings.Split(s, ",") *)
Fixpoint split_comma (s : bytes) : list bytes :=
  match s with
  | [] => [[]]
  | x :: s' =>
      if N.eqb (Byte.to_N x) 44 then [] :: split_comma s'
      else match split_comma s' with [] => [[x]] | w :: ws => (x :: w) :: ws end
  end.

(** api.go:402-417 getPeers; the query parameter is the empty string when absent. *)
Fixpoint collect_peers (ev : env) (ws : list bytes) (m : list addr) : option (list addr) :=
  match ws with
  | [] => Some m
  | w :: ws' =>
      match ev_trim ev w with
      | [] => collect_peers ev ws' m
      | t => match ev_addr ev t with None => None | Some p => collect_peers ev ws' (add_addr p m) end
      end
  end.
Definition get_peers (ev : env) (q : bytes) : option (list addr) := collect_peers ev (split_comma q) [].

Definition enc_fork (ev : env) (f : Fork) : bool := ev_date ev (f_ts f).

(** api.go:124-160; the version string and the number of goroutines are left out. *)
Record status := { s_short : nat; s_long : nat; s_all : nat; s_friendly : nat; s_connected : nat }.
Definition api_status (o : orders) (l : linkage) (r : registry) : resp status :=
  answer (fun _ => true)
    (do st <- stats (or_groups o) (or_forks o) l;
     do all <- reg_peers (or_peers o) r;
     do friends <- friendly_peers (or_peers o) r;
     do conns <- connections (or_conns o) (or_peers o) r;
     Ok {| s_short := fst st; s_long := snd st; s_all := length all; s_friendly := length friends; s_connected := length conns |}).

(** api.go:163-202 *)
Definition api_peers (o : orders) (r : registry) : resp (list Peer) := answer (fun _ => true) (reg_peers (or_peers o) r).
Definition api_friendly (o : orders) (r : registry) : resp (list Peer) := answer (fun _ => true) (friendly_peers (or_peers o) r).
Definition api_connections (o : orders) (r : registry) : resp (list Peer) :=
  answer (fun _ => true) (connections (or_conns o) (or_peers o) r).

(** api.go:205-231 and entities.go:20-26; IDs stand for their string form. *)
Record head_info := { hi_number : N; hi_id : id; hi_height : N; hi_score : Z; hi_ts : Z }.
Definition api_heads (ev : env) (l : linkage) : resp (list head_info) :=
  answer (forallb (fun h => ev_date ev (hi_ts h)))
    (do hs <- active_heads l;
     mapM (fun h => do b <- block l (snd h);
             Ok {| hi_number := fst h; hi_id := snd h; hi_height := b_height b; hi_score := b_score b; hi_ts := b_ts b |}) hs).

(** api.go:234-268 and entities.go:28-54; [srt]: result of sort.Sort(byScoreAndPeersDesc(r)). *)
Record leash_info := { li_id : id; li_height : N; li_score : Z; li_ts : Z; li_gen : bytes; li_count : nat; li_peers : list addr }.
Definition leash_less (a b : leash_info) : bool :=
  match Z.compare (li_score a) (li_score b) with
  | Eq => Nat.ltb (li_count b) (li_count a)
  | Gt => true
  | Lt => false
  end.
Definition api_leashes (ev : env) (o : orders) (srt : list leash_info -> list leash_info) (l : linkage) : resp (list leash_info) :=
  answer (forallb (fun i => ev_date ev (li_ts i)))
    (do ls <- lk_leashes l;
     do r <- mapM (fun g => do b <- block l (fst g);
               Ok {| li_id := b_id b; li_height := b_height b; li_score := b_score b; li_ts := b_ts b; li_gen := b_gen b;
                     li_count := length (snd g); li_peers := snd g |}) (or_groups o (group_leashes ls));
     Ok (srt r)).

(** api.go:270-286 *)
Definition api_forks (ev : env) (o : orders) (l : linkage) (q : bytes) : resp (list Fork) :=
  match get_peers ev q with
  | None => Code 400
  | Some ps => answer (forallb (enc_fork ev)) (forks (or_groups o) (or_forks o) l ps)
  end.

(** api.go:289-321; [conn.ID()] is [p_addr]. *)
Definition select_conns (requested : list addr) (cs : list Peer) : list addr :=
  fold_left (fun m c => if negb (Nat.eqb (length requested) 0) && negb (has_addr (p_addr c) requested) then m
                        else add_addr (p_addr c) m) cs [].
Definition api_active_forks (ev : env) (o : orders) (l : linkage) (r : registry) (q : bytes) : resp (list Fork) :=
  match get_peers ev q with
  | None => Code 400
  | Some ps =>
      answer (forallb (enc_fork ev))
        (do cs <- connections (or_conns o) (or_peers o) r;
         forks (or_groups o) (or_forks o) l (select_conns ps cs))
  end.

(** api.go:324-350 *)
Definition api_fork (ev : env) (o : orders) (l : linkage) (address : bytes) : resp Fork :=
  match ev_addr ev address with
  | None => Code 400
  | Some a =>
      match has_leash l a with
      | Ok true => answer (enc_fork ev) (fork_of (or_groups o) l a)
      | Ok false => Code 404
      | Err _ => Code 500
      | Panic => Code 500
      | Diverge => Hang
      end
  end.

(** api.go:353-400 *)
Definition api_generators (ev : env) (o : orders) (l : linkage) (address blocks : bytes) : resp (list (bytes * nat)) :=
  match ev_addr ev address with
  | None => Code 400
  | Some a =>
      match ev_atoi ev blocks with
      | None => Code 400
      | Some c =>
          match has_leash l a with
          | Ok true =>
              answer (fun _ => true)
                (do f <- fork_of (or_groups o) l a;
                 let c' := if Z.eqb c 0 then (if f_longest f then 1000%Z else f_length f) else c in
                 fork_generators (or_gens o) (or_gensort o) l (f_head f) c')
          | Ok false => Code 404
          | Err _ => Code 500
          | Panic => Code 500
          | Diverge => Hang
          end
      end
  end.

(** * parameters.go *)

(** settings.BlockchainType; [Unsupported] is any other value. *)
Inductive network := MainNet | TestNet | StageNet | Custom | Unsupported.
Definition ipv4 (a b c d : N) : addr := A4 (map byte_of [a; b; c; d]).
(** parameters.go:118-145: the built-in seed peers. *)
Definition builtin (n : network) : outcome (list (addr * N)) :=
  match n with
  | MainNet => Ok (map (fun a => (a, 6868%N))
      [ipv4 34 253 153 4; ipv4 168 119 116 189; ipv4 135 181 87 72; ipv4 162 55 39 115; ipv4 168 119 155 201])
  | TestNet => Ok (map (fun a => (a, 6868%N))
      [ipv4 159 69 126 149; ipv4 94 130 105 239; ipv4 159 69 126 153; ipv4 94 130 172 201; ipv4 35 157 247 122])
  | StageNet => Ok (map (fun a => (a, 6868%N))
      [ipv4 88 99 185 128; ipv4 49 12 15 166; ipv4 95 216 205 3; ipv4 88 198 179 16; ipv4 52 58 254 101])
  | Custom => Err EOther
  | Unsupported => Err EOther
  end.
(** parameters.go:146-158; the second TrimSpace has no further effect on a trimmed string (trusted base). *)
Fixpoint add_seeds (ev : env) (ws : list bytes) (r : list (addr * N)) : outcome (list (addr * N)) :=
  match ws with
  | [] => Ok r
  | w :: ws' =>
      match ev_trim ev w with
      | [] => add_seeds ev ws' r
      | t => match ev_addrport ev (ev_trim ev t) with None => Err EOther | Some ap => add_seeds ev ws' (r ++ [ap]) end
      end
  end.
(** parameters.go:115-160 *)
Definition parse_seed_peers (ev : env) (s : bytes) (n : network) : outcome (list (addr * N)) :=
  do r <- builtin n; add_seeds ev (split_comma s) r.
(** parameters.go:162-173 *)
Definition parse_versions (ev : env) (s : bytes) : outcome (list version) :=
  mapM (fun w => match ev_version ev w with None => Err EOther | Some v => Ok v end) (split_comma s).
(** parameters.go:175-190 *)
Definition check_folder (ev : env) (s : bytes) : outcome bytes :=
  match s with [] => Err EOther | _ => if ev_dir ev s then Ok (ev_clean ev s) else Err EOther end.
(** parameters.go:192-201 *)
Definition check_bind (ev : env) (s : bytes) : outcome bytes :=
  match s with
  | [] => Err EOther
  | _ => match ev_addrport ev s with None => Err EOther | Some ap => Ok (ev_render ev ap) end
  end.
(** parameters.go:203-211 *)
Definition check_name (s : bytes) : outcome bytes :=
  match s with [] => Err EOther | _ => if Nat.ltb 255 (length s) then Err EOther else Ok s end.
(** netip.Addr.As4: the address, or the four last bytes of ::ffff:a.b.c.d; it panics for other IPv6 addresses and for the
    zero address. *)
Definition as4 (a : addr) : outcome bytes :=
  match a with
  | A4 b => Ok b
  | A6 b _ => if beqb (firstn 12 b) (repeat x00 10 ++ [xff; xff]) then Ok (skipn 12 b) else Panic
  | AZero => Panic
  end.
(** parameters.go:213-221; [None]: the empty proto.TCPAddr. *)
Definition parse_address (ev : env) (s : bytes) : outcome (option (bytes * N)) :=
  match ev_addrport ev s with
  | None => Ok None
  | Some (a, port) => do b <- as4 a; Ok (Some (b, port))
  end.

(** parameters.go:22-97. [pr_network]: what settings.BlockchainSettingsByTypeName makes of the -blockchain-type option. *)
Record options := { op_db : bytes; op_network : option network; op_peers : bytes; op_api : bytes; op_net : bytes;
                    op_declared : bytes; op_name : bytes; op_versions : bytes }.
Record parameters := { pr_db : bytes; pr_seeds : list (addr * N); pr_api : bytes; pr_net : option (bytes * N);
                       pr_declared : option (bytes * N); pr_name : bytes; pr_versions : list version }.
Definition new_parameters (ev : env) (o : options) : outcome parameters :=
  do dbf <- check_folder ev (op_db o);
  do n <- (match op_network o with None => Err EOther | Some n => Ok n end);
  do sps <- parse_seed_peers ev (op_peers o) n;
  do vss <- parse_versions ev (op_versions o);
  do aa <- check_bind ev (op_api o);
  do na <- check_bind ev (op_net o);
  do nm <- check_name (op_name o);
  do nb <- parse_address ev na;
  do da <- parse_address ev (op_declared o);
  Ok {| pr_db := dbf; pr_seeds := sps; pr_api := aa; pr_net := nb; pr_declared := da; pr_name := nm; pr_versions := vss |}.
