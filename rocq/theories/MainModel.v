(** Model of the start and the end of the process: main and run (forkdetector.go:24-116), with the deferred functions of Go, and the
    constructors that they call. *)
From Coq Require Import String Ascii.
From Verif Require Import Base Kv ChainModel PeersModel ApiModel.
Set Implicit Arguments.
Unset Strict Implicit.
Local Open Scope list_scope.

(** service.go:5-8: Run starts the goroutine of a service (api.go:81-87, listener.go:43-49, respawn.go:37-44, distributor.go:58-65,
    loader.go:110-117), Shutdown ends it. *)
Inductive service := SApi | SListener | SRespawn | SDistributor | SLoader.
(** What main does that can be seen from outside. [OpenRegistry], [OpenLinkage]: the database has been opened;
    [CloseRegistry], [CloseLinkage]: registry.go:59-61, linkage.go:65-70. *)
Inductive deed :=
| OpenRegistry | CloseRegistry | OpenLinkage | CloseLinkage | AddSeeds (l : list (addr * N)) | WriteStats | RunService (s : service)
| StopService (s : service) | StopSignals | SyncLog | Report (msg : list N).
(** How a function of the main goroutine ends. [Gone c]: the process has been ended by os.Exit or by a panic of another goroutine, so
    that no deferred function is called. [Never]: it waits for ever. *)
Inductive ending A := Returns (a : A) | Panics | Gone (code : N) | Never.
Arguments Panics {A}. Arguments Gone {A} code. Arguments Never {A}.
Definition effect A := (list deed * ending A)%type.
(** A deferred function of the given deeds: it runs when the function returns or panics. *)
Definition deferring A (ds : list deed) (x : effect A) : effect A :=
  match snd x with Returns _ | Panics => (fst x ++ ds, snd x) | Gone _ | Never => x end.
Definition doing A (ds : list deed) (x : effect A) : effect A := (ds ++ fst x, snd x).

(** The text of an error, as code points. *)
Definition text (s : string) : list N := map N_of_ascii (list_ascii_of_string s).
(** registry.go:40, 46; storage.go:59 of peers; linkage.go:52, 55; storage.go:49 of chains; api.go:66; forkdetector.go:56, 79; parameters.go:60-84 *)
Definition at_registry : list N := text "failed to create peers registry: ".
Definition at_peers : list N := text "failed to open peers storage: ".
Definition at_declared : list N := text "failed to parse declared address: ".
Definition at_linkage : list N := text "failed to initialize Linkage: ".
Definition at_blocks : list N := text "failed to open blocks storage: ".
Definition no_bind : list N := text "empty address to bin".
Definition at_api : list N := text "failed to create API server: ".
Definition at_parameters : list N := text "invalid parameters: ".
(** A call that can fail: with the text of its error. *)
Inductive result := Fine | Fails (msg : list N) | Blows.

(** What happens outside of main after the API has been started. [Interrupted]: the signal comes, and every service stops.
    [ApiFails n], [Crash n]: ListenAndServe fails, or another goroutine panics, after [n] further steps of main. [NilListener]: the
    listener has no socket when it is stopped (listener.go:52). [Hangs n]: nothing comes after the [n]th step. *)
Inductive fortune := Interrupted | ApiFails (n : nat) | Crash (n : nat) | NilListener | Hangs (n : nat).
(** [e_args]: the text of the error of newParameters, if there is one. [e_opens]: peers.newStorage; [e_address]: netip.ParseAddrPort of
    the declared address; [e_blocks]: chains.newStorage; [e_init]: storage.initialize; [e_stats]: whether LogInitialStats panics;
    [e_invalid]: the error of the start wraps os.ErrInvalid; [e_sync], [e_stderr]: logger.Sync and the writing to os.Stderr succeed.
    The functions newParameters (panics in As4), initialize and LogInitialStats can panic. flag.Parse, which ends the process by itself
    for a wrong flag, is not represented. *)
Record world_of_main := { e_args : list N; e_opens : result; e_address : result; e_blocks : result; e_init : result; e_stats : outcome unit;
                          e_fortune : fortune; e_invalid : bool; e_sync : bool; e_stderr : bool; e_upper : N -> N }.

Section Main.
Variable e : world_of_main.

(** registry.go:35-57; [Some msg]: the error. *)
Definition new_registry : effect (option (list N)) :=
  match e_opens e with
  | Fails m => ([], Returns (Some (at_registry ++ at_peers ++ m)))
  | Blows => ([], Panics)
  | Fine =>
      ([OpenRegistry], match e_address e with
                       | Fine => Returns None | Fails m => Returns (Some (at_declared ++ m)) | Blows => Panics end)
  end.
(** linkage.go:49-63 *)
Definition new_linkage : effect (option (list N)) :=
  match e_blocks e with
  | Fails m => ([], Returns (Some (at_linkage ++ at_blocks ++ m)))
  | Blows => ([], Panics)
  | Fine =>
      ([OpenLinkage], match e_init e with
                      | Fine => Returns None | Fails m => Returns (Some (at_linkage ++ m)) | Blows => Panics end)
  end.
(** api.go:64-79 *)
Definition new_api (bind : bytes) : option (list N) := match bind with [] => Some (no_bind) | _ => None end.

(** forkdetector.go:81-107 *)
Definition serving : list deed :=
  [RunService SApi; RunService SListener; RunService SRespawn; RunService SDistributor; RunService SLoader;
   StopService SApi; StopService SListener; StopService SRespawn; StopService SLoader; StopService SDistributor].
Definition serve : effect (option (list N)) :=
  match e_fortune e with
  | Interrupted => (serving, Returns None)
  | ApiFails n => (firstn (S n) serving, Gone 1)        (* api.go:102: zap Fatalf calls os.Exit(1) *)
  | Crash n => (firstn (S n) serving, Gone 2)           (* the Go runtime: exit code 2 *)
  | NilListener => (firstn 6 serving, Panics)
  | Hangs n => (firstn (S n) serving, Never)
  end.

(** [x]: a constructor; [k]: what comes after it. forkdetector.go:55-57, 70-72 *)
Definition checked (x : effect (option (list N))) (wrap : list N -> list N) (k : effect (option (list N))) : effect (option (list N)) :=
  match snd x with
  | Returns None => doing (fst x) k
  | Returns (Some m) => (fst x, Returns (Some (wrap m)))
  | _ => x
  end.

(** forkdetector.go:75-110 *)
Definition over_linkage (p : parameters) : effect (option (list N)) :=
  match e_stats e with
  | Panic => ([], Panics)
  | Diverge => ([], Never)
  | _ => doing [WriteStats] match new_api (pr_api p) with Some m => ([], Returns (Some (at_api ++ m))) | None => serve end
  end.
(** forkdetector.go:64-110 *)
Definition over_registry (p : parameters) : effect (option (list N)) :=
  doing [AddSeeds (pr_seeds p)] (checked new_linkage (fun m => m) (deferring [CloseLinkage] (over_linkage p))).
(** forkdetector.go:48-110 *)
Definition body (p : parameters) : effect (option (list N)) :=
  deferring [StopSignals] (checked new_registry (fun m => at_registry ++ m) (deferring [CloseRegistry] (over_registry p))).
(** forkdetector.go:42-46: the condition reads the error of the start, not that of Sync. *)
Definition sync_log (x : effect (option (list N))) : effect (option (list N)) :=
  match snd x with
  | Returns (Some _) => if negb (e_sync e) && e_invalid e then (fst x ++ [SyncLog], Panics) else (fst x ++ [SyncLog], snd x)
  | Returns None | Panics => (fst x ++ [SyncLog], snd x)
  | Gone _ | Never => x
  end.
(** forkdetector.go:35-110 *)
Definition run (ps : outcome parameters) : effect (option (list N)) :=
  match ps with
  | Err _ => ([], Returns (Some (at_parameters ++ e_args e)))
  | Ok p => sync_log (body p)
  | Panic => ([], Panics)
  | Diverge => ([], Never)
  end.

(** forkdetector.go:112-116. The index is out of range in an empty slice. *)
Definition capitalize (str : list N) : outcome (list N) := match str with [] => Panic | r :: rs => Ok (e_upper e r :: rs) end.
(** forkdetector.go:24-33: what has been done, and the exit code of the process, if it ends. *)
Definition main (ps : outcome parameters) : list deed * option N :=
  match run ps with
  | (ds, Returns None) => (ds, Some 0%N)
  | (ds, Returns (Some m)) =>
      match capitalize m with
      | Ok s => if e_stderr e then (ds ++ [Report s], Some 1%N) else (ds, Some 0%N)
      | _ => (ds, Some 2%N)
      end
  | (ds, Panics) => (ds, Some 2%N)
  | (ds, Gone c) => (ds, Some c)
  | (ds, Never) => (ds, None)
  end.
End Main.

(** listener.go:24-41: whether there is a network server. [empty]: proto.TCPAddr.Empty. *)
Definition has_server (empty : option (bytes * N) -> bool) (declared bind : option (bytes * N)) : bool :=
  if empty declared then false
  else if empty bind && match bind with Some (_, p) => (p =? 0)%N | None => true end then false else true.
