(** Text for the log and the routes of the API: the generated String methods (loading/event_string.go, loading/state_string.go,
    peers/state_string.go), queue.rangeString (loading/queue.go), and the table of routes (api/api.go). *)
From Coq Require Import Strings.Byte Strings.String.
From Verif Require Import Base Kv ChainModel PeersModel LoadModel CborModel ApiModel.
Set Implicit Arguments.
Unset Strict Implicit.

Definition text (s : string) : bytes := list_byte_of_string s.

(** * The generated String methods *)

(** s[a:b]: a panic unless a <= b <= len(s). *)
Definition slice (s : bytes) (a b : N) : outcome bytes :=
  if (a <=? b) && (b <=? N.of_nat (length s)) then Ok (firstn (N.to_nat (b - a)) (skipn (N.to_nat a) s)) else Panic.
(** x[i]: a panic outside the array. *)
Definition entry (l : list N) (i : Z) : outcome N :=
  if (i <? 0)%Z then Panic else match nth_error l (Z.to_nat i) with Some n => Ok n | None => Panic end.
(** strconv.FormatInt(i, 10) *)
Definition format_int (i : Z) : bytes := if (i <? 0)%Z then text "-" ++ decimal (Z.to_N (- i)) else decimal (Z.to_N i).
(** The body that stringer writes: [i < 0 || i >= len(index)-1], then the number, else a slice of the names. *)
Definition stringer (typ : string) (names : string) (index : list N) (i : Z) : outcome bytes :=
  if ((i <? 0) || (Z.of_nat (length index) - 1 <=? i))%Z then Ok (text typ ++ text "(" ++ format_int i ++ text ")")
  else do a <- entry index i; do b <- entry index (i + 1); slice (text names) a b.

(** event_string.go:20-29 *)
Definition event_string : Z -> outcome bytes := stringer "event" "StartRestartIDsBlockTickTimeoutQueueReady" [0; 5; 12; 15; 20; 24; 31; 41].
(** state_string.go:17-26 *)
Definition lstate_string : Z -> outcome bytes := stringer "state" "IdleWaitingForIDsWaitingForBlocksDone" [0; 4; 17; 33; 37].
(** peers/state_string.go:16-25; the type is byte, so the comparison with zero is left out there. *)
Definition pstate_string (i : N) : outcome bytes := stringer "State" "UnknownConnectedHostile" [0; 7; 16; 23] (Z.of_N i).

(** event.go:6-14, state.go:6-11, peers/state.go:6-10: iota. *)
Definition event_number (e : trigger) : Z :=
  match e with EStart => 0 | ERestart => 1 | EIDs _ => 2 | EBlock _ => 3 | ETick _ => 4 | ETimeout => 5 | EQueueReady => 6 end%Z.
Definition lstate_number (s : lstate) : Z := match s with Idle => 0 | WaitIDs => 1 | WaitBlocks => 2 | Done => 3 end%Z.

(** * queue.go:47-64; [short]: proto.BlockID.ShortString *)
Definition range_string (short : id -> bytes) (q : queue) : outcome bytes :=
  match q with
  | [] => Ok (text "[](EMPTY)")
  | first :: _ =>
      let l := N.of_nat (length q) in
      let cnt := N.of_nat (length (filter arrived q)) in
      let size := if cnt =? l then text "READY/" ++ decimal l else decimal cnt ++ text "/" ++ decimal l in
      do last <- (match nth_error q (length q - 1) with Some it => Ok it | None => Panic end);
      Ok (text "[" ++ short (it_req first) ++ text ".." ++ short (it_req last) ++ text "](" ++ size ++ text ")")
  end.

(** * Routes *)

(** strings.Split(s, "/") *)
Definition slash : byte := x2f.
Fixpoint split_slash (s : bytes) : list bytes :=
  match s with
  | [] => [[]]
  | b :: s' => if Byte.to_N b =? 47 then [] :: split_slash s'
               else match split_slash s' with [] => [[b]] | w :: ws => (b :: w) :: ws end
  end.
(** A segment of a pattern: fixed, or a parameter. chi: a parameter takes everything up to the next slash; at the end of the path it
    takes at least one byte. *)
Inductive seg := Fixed (s : string) | Param.
Fixpoint matches (p : list seg) (ws : list bytes) : option (list bytes) :=
  match p, ws with
  | [], [] => Some []
  | Fixed s :: p', w :: ws' => if beqb (text s) w then matches p' ws' else None
  | [Param], [w] => match w with [] => None | _ => Some [w] end
  | Param :: p', w :: ws' => match matches p' ws' with Some l => Some (w :: l) | None => None end
  | _, _ => None
  end.
Inductive endpoint := EPeers | EFriendly | EConnections | EHeads | ELeashes | EStatus | EForks | EActive | EFork | EGenerators.
(** api.go:78, 108-121: all routes are below /api. *)
Definition routes : list (list seg * endpoint) :=
  map (fun r => (Fixed "" :: Fixed "api" :: fst r, snd r))
  [([Fixed "peers"; Fixed "all"], EPeers);
   ([Fixed "peers"; Fixed "friendly"], EFriendly);
   ([Fixed "connections"], EConnections);
   ([Fixed "heads"], EHeads);
   ([Fixed "leashes"], ELeashes);
   ([Fixed "status"], EStatus);
   ([Fixed "forks"], EForks);
   ([Fixed "active-forks"], EActive);
   ([Fixed "fork"; Param], EFork);
   ([Fixed "fork"; Param; Fixed "generators"; Param], EGenerators)].
Fixpoint find_route (rs : list (list seg * endpoint)) (ws : list bytes) : option (endpoint * list bytes) :=
  match rs with
  | [] => None
  | (p, e) :: rs' => match matches p ws with Some l => Some (e, l) | None => find_route rs' ws end
  end.
Definition route (path : bytes) : option (endpoint * list bytes) := find_route routes (split_slash path).

Inductive body := BPeers (l : list Peer) | BHeads (l : list head_info) | BLeashes (l : list leash_info) | BStatus (s : status)
  | BForks (l : list Fork) | BFork (f : Fork) | BGenerators (l : list (bytes * nat)).
Definition in_body {A} (f : A -> body) (r : resp A) : resp body :=
  match r with Reply a => Reply (f a) | Code n => Code n | Hang => Hang end.
(** A request: the method ([true]: GET), the path, the value of the parameter "peers". chi answers 404 to a path without a route and
    405 to another method. *)
Definition request (ev : env) (o : orders) (srt : list leash_info -> list leash_info) (l : linkage) (r : registry)
  (get : bool) (path q : bytes) : resp body :=
  match route path with
  | None => Code 404
  | Some (e, args) =>
      if negb get then Code 405
      else match e, args with
      | EPeers, _ => in_body BPeers (api_peers o r)
      | EFriendly, _ => in_body BPeers (api_friendly o r)
      | EConnections, _ => in_body BPeers (api_connections o r)
      | EHeads, _ => in_body BHeads (api_heads ev l)
      | ELeashes, _ => in_body BLeashes (api_leashes ev o srt l)
      | EStatus, _ => in_body BStatus (api_status o l r)
      | EForks, _ => in_body BForks (api_forks ev o l q)
      | EActive, _ => in_body BForks (api_active_forks ev o l r q)
      | EFork, a :: _ => in_body BFork (api_fork ev o l a)
      | EGenerators, a :: n :: _ => in_body BGenerators (api_generators ev o l a n)
      | _, _ => Code 500
      end
  end.
