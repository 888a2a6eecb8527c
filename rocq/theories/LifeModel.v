(** The lives of the process: it is started over the stores that its last run left, runs, and ends: by a signal, by a crash, or
    killed in the middle of what it does (forkdetector.go:48-110). The parameters are the same in every life. *)
From Verif Require Import Base Kv ChainModel PeersModel LoadModel NetModel WholeModel.
Set Implicit Arguments.
Unset Strict Implicit.

(** linkage.go:231-258: the lines written: the active heads with their heights, then the leashes. The errors are logged, the lines
    before them are not represented. *)
Definition initial_stats (l : linkage) : outcome (list (id * N) * list (addr * id)) :=
  do hs <- active_heads l;
  do lines <- mapM (fun h => do b <- block l (snd h); Ok (snd h, b_height b)) hs;
  do ls <- lk_leashes l;
  Ok (lines, ls).

(** A life: the seed addresses and the number of them that are written when the writing fails (parameters.go:115-160, registry.go:226-267);
    the fates of the writes of the loader, its random choices, and the clock; the turns of the run; and, if the process is killed
    while the loader handles something, the turn and the number of calls that the loader makes before the end. *)
Record life := { li_seeds : list (option (addr * N)); li_fault : option nat; li_faults : list (option nat); li_rand : nat; li_now : time;
                 li_turns : list turn; li_killed : option (turn * nat) }.

Section Life.
Variable cfg : config.
Variable g : pblock.

(** forkdetector.go:54-73: NewRegistry, AppendAddresses, NewLinkage. (The stores of the first life exist already; NewLinkage changes
    nothing in them, C24.) *)
Definition opened (x : real) (li : life) : real :=
  {| re_lk := fst (exec g (re_lk x) Reopen None);
     re_reg := rstep cfg (rstep cfg (re_reg x) RRestart) (RAppend (li_seeds li) (li_fault li));
     re_now := li_now li; re_env := []; re_faults := li_faults li; re_rand := li_rand li; re_sent := []; re_lines := [];
     re_ops := re_ops x ++ [(Reopen, None)]; re_rops := re_rops x ++ [RRestart; RAppend (li_seeds li) (li_fault li)] |}.
(** forkdetector.go:64-77: an error of NewLinkage ends the process; LogInitialStats logs its errors. *)
Definition starts (x : real) : outcome unit :=
  do _ <- snd (exec g (re_lk x) Reopen None);
  match initial_stats (fst (exec g (re_lk x) Reopen None)) with Ok _ | Err _ => Ok tt | Panic => Panic | Diverge => Diverge end.

Variable ord : list group -> list group.
Variable cord : list (addr * conn) -> list (addr * conn).
Variable srt : list Peer -> list Peer.
(** The process is killed: the loader makes the given number of calls, then the others do what [o_todo] says, then nothing happens
    anymore. (Killed in the middle of a call: the last call with a fault.) *)
Definition dying : world (whole * option nat) := fun c vn =>
  let v := fst vn in
  match snd vn with
  | Some (S n) => ((fst (whole_world cfg g ord cord srt c v), Some n), snd (whole_world cfg g ord cord srt c v))
  | Some O => ((set_todo (others cfg g cord srt v (hd [] (o_todo v))) (tl (o_todo v)), None), snd (whole_world cfg g ord cord srt c v))
  | None => (vn, snd (whole_world cfg g ord cord srt c v))
  end.
Definition last_handling (i : input) (l : loader) (v : whole) (t : list (list move)) (n : nat) : whole :=
  match loader_step dying i l (set_todo v t, Some n) with ((_, (v', _)), _) => v' end.
Definition last_turn (l : loader) (v : whole) (t : turn) (n : nat) : whole :=
  match t with
  | TMove m => move_step cfg g cord srt v m
  | TSync ms => if l_timer l then last_handling InSync l v ms n else v
  | TTick ms => if l_ticker l then last_handling InTick l v ms n else v
  | TTake ms => match o_dist v with DSending p => last_handling (input_of p) l (set_dist v DSelect) ms n | _ => v end
  end.
(** A life: the process as it was at the end. *)
Definition live (x : real) (li : life) : whole :=
  match starts x with
  | Ok _ =>
      match process cfg g ord cord srt new_loader (begun (opened x li)) (li_turns li) with
      | ((l, v), r) => match r, li_killed li with Ok _, Some (t, n) => last_turn l v t n | _, _ => v end
      end
  | _ => begun (opened x li)
  end.
End Life.
