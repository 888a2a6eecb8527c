(** The running process: the loader, the distributor, the respawn, the goroutines that dial, and the goroutines that accept
    connections, over one linkage and one registry (forkdetector.go:52-99). Every call on the linkage or the registry is one
    step (C27, C76); the loader is interrupted before each of its calls. The HTTP server only reads the two stores, and its
    panics are recovered by net/http; it is left out. The shutdown is the subject of NetModel.v. *)
From Verif Require Import Base Kv ChainModel PeersModel LoadModel LoadSpec NetModel.
Set Implicit Arguments.
Unset Strict Implicit.

(** A goroutine of respawn.go:76-89: before Connect has called SuggestVersion (connection_manager.go:110), inside
    outgoing.EstablishConnection (line 114), or with the error of SuggestVersion before UnregisterPeer. *)
Inductive dialler := Fresh (a : addr) | Calling (a : addr) | Failing (a : addr).
(** The steps of all goroutines but the loader:
    [VArrive]: the distributor receives something (distributor.go:84-100), and handles it with the given clock and faults;
    [VRespawn]: the timer of the respawn fires (respawn.go:53-74); [None]: reading the storage fails;
    [VSuggest n]: the n-th dialler calls SuggestVersion; [VCalled n up]: its EstablishConnection returns nil or an error, and after
    an error it calls UnregisterPeer;
    [VAccept]: the listener has accepted a connection from this address (listener.go:81, connection_manager.go:70-79);
    [VTime]: the clock. *)
Inductive move :=
| VArrive (x : fate) (a : arrival) | VRespawn (clock : option (addr -> time)) | VSuggest (x : fate) (n : nat)
| VCalled (x : fate) (n : nat) (up : bool) | VAccept (x : fate) (a : option addr) | VTime (t : time).

(** [o_real]: the linkage, the registry, the clock, and what only the loader uses ([re_env] is not used). [o_dist]: where the
    distributor is; [o_armed]: the timer of the respawn runs; [o_todo]: what the other goroutines do before each of the next
    calls of the loader; [o_dead]: a goroutine has panicked. [o_seen], [o_calls]: the arrivals handled by the distributor and the
    calls of the loader so far (records, never read). *)
Record whole := { o_real : real; o_dist : dproc; o_armed : bool; o_dials : list dialler; o_todo : list (list move); o_dead : bool;
                  o_seen : list arrival; o_calls : list event }.
Definition stores (v : whole) : dist := {| d_lk := re_lk (o_real v); d_reg := re_reg (o_real v) |}.

(** The calls that a message makes on the linkage and on the registry; they are recorded in [re_ops] and [re_rops]. *)
Definition calls_of (x : fate) (a : arrival) : list LoadModel.happening :=
  match a with
  | AMessage from m =>
      match ln_addr from, m with
      | Some p, (MBlock (Some b) | MPBBlock (Some b)) => [HOp (Put b p) (ft_fault x)]
      | Some p, MMicroBlockInv (Some m) => [HOp (Micro m p) (ft_fault x)]
      | Some p, MScore s => [HReg (PeersModel.RScore p (Z.of_N (unbe s)) (ft_write x))]
      | _, MPeers l => [HReg (RAppend (filter (fun p => match p with Some _ => true | None => false end) l) (ft_append x))]
      | _, _ => []
      end
  | AInfo (IConnected from h) =>
      match ln_addr from with Some p => [HReg (RRegister p (ln_conn from) h (ft_now x) (ft_write x))] | None => [] end
  | AInfo (IError from) => match ln_addr from with Some p => [HReg (RUnregister p (ft_now x) (ft_write x))] | None => [] end
  | AInfo IOther | APing => []
  end.
Definition recorded (x : real) (d : dist) (hs : list LoadModel.happening) : real :=
  {| re_lk := d_lk d; re_reg := d_reg d; re_now := re_now x; re_env := re_env x; re_faults := re_faults x; re_rand := re_rand x;
     re_sent := re_sent x; re_lines := re_lines x;
     re_ops := re_ops x ++ flat_map (fun h => match h with HOp o f => [(o, f)] | _ => [] end) hs;
     re_rops := re_rops x ++ flat_map (fun h => match h with HReg o => [o] | _ => [] end) hs |}.
Definition set_real (v : whole) (x : real) : whole :=
  {| o_real := x; o_dist := o_dist v; o_armed := o_armed v; o_dials := o_dials v; o_todo := o_todo v; o_dead := o_dead v; o_seen := o_seen v; o_calls := o_calls v |}.
Definition set_dist (v : whole) (p : dproc) : whole :=
  {| o_real := o_real v; o_dist := p; o_armed := o_armed v; o_dials := o_dials v; o_todo := o_todo v; o_dead := o_dead v; o_seen := o_seen v; o_calls := o_calls v |}.
Definition set_respawn (v : whole) (b : bool) (ds : list dialler) : whole :=
  {| o_real := o_real v; o_dist := o_dist v; o_armed := b; o_dials := ds; o_todo := o_todo v; o_dead := o_dead v; o_seen := o_seen v; o_calls := o_calls v |}.
Definition set_todo (v : whole) (t : list (list move)) : whole :=
  {| o_real := o_real v; o_dist := o_dist v; o_armed := o_armed v; o_dials := o_dials v; o_todo := t; o_dead := o_dead v; o_seen := o_seen v; o_calls := o_calls v |}.
Definition set_dead (v : whole) : whole :=
  {| o_real := o_real v; o_dist := o_dist v; o_armed := o_armed v; o_dials := o_dials v; o_todo := o_todo v; o_dead := true; o_seen := o_seen v; o_calls := o_calls v |}.
Definition set_seen (v : whole) (a : arrival) : whole :=
  {| o_real := o_real v; o_dist := o_dist v; o_armed := o_armed v; o_dials := o_dials v; o_todo := o_todo v; o_dead := o_dead v; o_seen := o_seen v ++ [a]; o_calls := o_calls v |}.
Definition add_call (v : whole) (x : real) (e : event) : whole :=
  {| o_real := x; o_dist := o_dist v; o_armed := o_armed v; o_dials := o_dials v; o_todo := o_todo v; o_dead := o_dead v; o_seen := o_seen v; o_calls := o_calls v ++ [e] |}.
(** The list without its n-th element. *)
Fixpoint drop (A : Type) (n : nat) (l : list A) : list A :=
  match l, n with [], _ => [] | _ :: l', O => l' | y :: l', S n' => y :: drop n' l' end.
Fixpoint replace (A : Type) (n : nat) (y : A) (l : list A) : list A :=
  match l, n with [], _ => [] | _ :: l', O => y :: l' | z :: l', S n' => z :: replace n' y l' end.
(** A call on the registry whose error is only logged: [r], [o] are its effect and its result, [h] what is recorded of it. *)
Definition registered (v : whole) (r : registry) (o : outcome unit) (h : rop) : whole :=
  match o with
  | Ok _ | Err _ => set_real v (recorded (o_real v) {| d_lk := re_lk (o_real v); d_reg := r |} [HReg h])
  | Panic | Diverge => set_dead v
  end.
Definition ignored {A} (o : outcome A) : outcome unit := match o with Ok _ => Ok tt | Err e => Err e | Panic => Panic | Diverge => Diverge end.

(** respawn.go:79-82: UnregisterPeer, and the end of the goroutine. *)
Definition hung_up (v : whole) (x : fate) (n : nat) (a : addr) : whole :=
  let (r, o) := unregister_peer (re_reg (o_real v)) (ft_now x) (ft_write x) a in
  set_respawn (registered v r (ignored o) (RUnregister a (ft_now x) (ft_write x))) (o_armed v) (drop n (o_dials v)).

Section Whole.
Variable cfg : config.
Variable g : pblock.
Variable ord : list group -> list group.
Variable cord : list (addr * conn) -> list (addr * conn).
Variable srt : list Peer -> list Peer.

Definition move_step (v : whole) (m : move) : whole :=
  if o_dead v then v else
  match m with
  | VArrive x a =>
      (* The distributor is at its select; it does not receive while it waits for the loader (distributor.go:213, 266, 281). *)
      match o_dist v with
      | DSelect =>
          match handle cfg g srt cord x (stores v) a with
          | (d, _, Ok p) => set_dist (set_real (set_seen v a) (recorded (o_real v) d (calls_of x a))) (after_send p)
          | (_, _, Err _) => v
          | (_, _, (Panic | Diverge)) => set_dead (set_seen v a)
          end
      | _ => v
      end
  | VRespawn clock =>
      if o_armed v then
        match clock with
        | None => set_respawn v false (o_dials v)
        | Some clock =>
            match take_available cfg (re_reg (o_real v)) clock with
            | (r, Ok l) => set_respawn (registered v r (Ok tt) (RTake clock)) true (o_dials v ++ map (fun x => Fresh (fst x)) l)
            | (r, o) => set_respawn (registered v r (ignored o) (RTake clock)) false (o_dials v)
            end
        end
      else v
  | VSuggest x n =>
      match nth_error (o_dials v) n with
      | Some (Fresh a) =>
          match suggest_version cfg (re_reg (o_real v)) (ft_now x) (ft_write x) a with
          | (r, Ok _) => set_respawn (registered v r (Ok tt) (RSuggest a (ft_now x) (ft_write x))) (o_armed v) (replace n (Calling a) (o_dials v))
          | (r, o) => set_respawn (registered v r (ignored o) (RSuggest a (ft_now x) (ft_write x))) (o_armed v) (replace n (Failing a) (o_dials v))
          end
      | _ => v
      end
  | VCalled x n up =>
      match nth_error (o_dials v) n with
      | Some (Calling a) =>
          if up then set_respawn v (o_armed v) (drop n (o_dials v)) else hung_up v x n a
      | Some (Failing a) => hung_up v x n a
      | _ => v
      end
  | VAccept x a =>
      match a with
      | None => v
      | Some a => let (r, o) := suggest_version cfg (re_reg (o_real v)) (ft_now x) (ft_write x) a in
                  registered v r (ignored o) (RSuggest a (ft_now x) (ft_write x))
      end
  | VTime t => set_real v (happens cfg g (o_real v) (HTime t))
  end.
Definition others (v : whole) (ms : list move) : whole := fold_left move_step ms v.

(** The calls of the loader; before each of them the other goroutines do what [o_todo] says. *)
Definition whole_world : world whole := fun c v =>
  let v1 := set_todo (others v (hd [] (o_todo v))) (tl (o_todo v)) in
  let (x, r) := real_world cfg g ord cord srt c (o_real v1) in
  (add_call v1 x (existT reply c r), r).

(** What the loader receives from the distributor (loader.go:165-172). *)
Definition input_of (p : package) : input := match p with PIDs a ids => InIDs a ids | PBlock a b => InBlock a (Some b) end.
(** One turn: a step of another goroutine while the loader waits at its select; or one of the cases of the select, handled to
    the end, with what the others do meanwhile. The timers fire only when they run. *)
Inductive turn := TMove (m : move) | TSync (meanwhile : list (list move)) | TTick (meanwhile : list (list move)) | TTake (meanwhile : list (list move)).
Definition handling (i : input) (l : loader) (v : whole) (t : list (list move)) : (loader * whole) * outcome unit :=
  match loader_step whole_world i l (set_todo v t) with ((l', v'), r) => ((l', set_todo v' []), r) end.
Definition turn_step (l : loader) (v : whole) (t : turn) : (loader * whole) * outcome unit :=
  match t with
  | TMove m => ((l, move_step v m), Ok tt)
  | TSync ms => if l_timer l then handling InSync l v ms else ((l, v), Ok tt)
  | TTick ms => if l_ticker l then handling InTick l v ms else ((l, v), Ok tt)
  | TTake ms => match o_dist v with
                | DSending p => handling (input_of p) l (set_dist v DSelect) ms
                | _ => ((l, v), Ok tt)
                end
  end.
(** The process goes on until one of its goroutines panics. *)
Fixpoint process (l : loader) (v : whole) (ts : list turn) : (loader * whole) * outcome unit :=
  match ts with
  | [] => ((l, v), Ok tt)
  | t :: ts' =>
      match turn_step l v t with
      | ((l1, v1), (Ok _ | Err _)) => if o_dead v1 then ((l1, v1), Panic) else process l1 v1 ts'
      | ((l1, v1), Panic) => ((l1, v1), Panic)
      | ((l1, v1), Diverge) => ((l1, v1), Diverge)
      end
  end.
End Whole.
(** forkdetector.go:83-99: the process has been started over these stores. *)
Definition begun (x : real) : whole :=
  {| o_real := x; o_dist := DSelect; o_armed := true; o_dials := []; o_todo := []; o_dead := false; o_seen := []; o_calls := [] |}.
