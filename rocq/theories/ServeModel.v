(** Model of the HTTP handlers (api/api.go) while the other goroutines work: a handler calls the linkage and the registry several
    times, and between two of its calls anything may happen to them. Each call on its own is atomic (C27, C76). The handlers of
    ApiModel are the special case in which nothing happens in between. *)
From Verif Require Import Base Kv ChainModel PeersModel ApiModel.
Set Implicit Arguments.
Unset Strict Implicit.

(** What the other goroutines do: a call on the linkage (with a possible fault of its writes), or one on the registry. *)
Inductive deed := DLink (o : op) (fault : option nat) | DReg (o : rop).
Definition stores := (linkage * registry)%type.
Definition does (cfg : config) (g : pblock) (s : stores) (d : deed) : stores :=
  match d with DLink o f => (fst (exec g (fst s) o f), snd s) | DReg o => (fst s, rstep cfg (snd s) o) end.
Definition after (cfg : config) (g : pblock) (s : stores) (ds : list deed) : stores := fold_left (does cfg g) ds s.

(** The stores and what the others do before each of the next calls of the handler. *)
Record shop := { sh_now : stores; sh_next : list (list deed) }.
Definition served (A : Type) := shop -> shop * outcome A.
Section Serve.
Variable cfg : config.
Variable g : pblock.
Definition meantime (s : shop) : shop := {| sh_now := after cfg g (sh_now s) (hd [] (sh_next s)); sh_next := tl (sh_next s) |}.
(** One call of the handler. *)
Definition ask {A} (f : stores -> outcome A) : served A := fun s => let s' := meantime s in (s', f (sh_now s')).
Definition give {A} (a : A) : served A := fun s => (s, Ok a).
Definition then_ {A B} (m : served A) (k : A -> served B) : served B := fun s =>
  match m s with (s', Ok a) => k a s' | (s', Err e) => (s', Err e) | (s', Panic) => (s', Panic) | (s', Diverge) => (s', Diverge) end.
Fixpoint each {A B} (f : A -> served B) (xs : list A) : served (list B) :=
  match xs with
  | [] => give []
  | x :: xs' => then_ (f x) (fun y => then_ (each f xs') (fun ys => give (y :: ys)))
  end.
Definition replies {A} (enc : A -> bool) (m : served A) : shop -> shop * resp A := fun s => let (s', o) := m s in (s', answer enc o).

(** api.go:124-160: the four calls of status. *)
Definition serve_status (o : orders) : shop -> shop * resp status :=
  replies (fun _ => true)
    (then_ (ask (fun s => stats (or_groups o) (or_forks o) (fst s))) (fun st =>
     then_ (ask (fun s => reg_peers (or_peers o) (snd s))) (fun all =>
     then_ (ask (fun s => friendly_peers (or_peers o) (snd s))) (fun friends =>
     then_ (ask (fun s => connections (or_conns o) (or_peers o) (snd s))) (fun conns =>
     give {| s_short := fst st; s_long := snd st; s_all := length all; s_friendly := length friends; s_connected := length conns |}))))).

(** api.go:205-231: ActiveHeads, then one call of Block for each head. *)
Definition serve_heads (ev : env) : shop -> shop * resp (list head_info) :=
  replies (forallb (fun h => ev_date ev (hi_ts h)))
    (then_ (ask (fun s => active_heads (fst s))) (fun hs =>
     each (fun h => then_ (ask (fun s => block (fst s) (snd h))) (fun b =>
             give {| hi_number := fst h; hi_id := snd h; hi_height := b_height b; hi_score := b_score b; hi_ts := b_ts b |})) hs)).

(** api.go:234-268: Leashes, then one call of Block for each leashed block. *)
Definition serve_leashes (ev : env) (o : orders) (srt : list leash_info -> list leash_info) : shop -> shop * resp (list leash_info) :=
  replies (forallb (fun i => ev_date ev (li_ts i)))
    (then_ (ask (fun s => lk_leashes (fst s))) (fun ls =>
     then_ (each (fun k => then_ (ask (fun s => block (fst s) (fst k))) (fun b =>
               give {| li_id := b_id b; li_height := b_height b; li_score := b_score b; li_ts := b_ts b; li_gen := b_gen b;
                       li_count := length (snd k); li_peers := snd k |})) (or_groups o (group_leashes ls))) (fun r =>
     give (srt r)))).

(** api.go:289-321: Connections, then Forks. *)
Definition serve_active_forks (ev : env) (o : orders) (q : bytes) (s : shop) : shop * resp (list Fork) :=
  match get_peers ev q with
  | None => (s, Code 400)
  | Some ps =>
      replies (forallb (enc_fork ev))
        (then_ (ask (fun s => connections (or_conns o) (or_peers o) (snd s))) (fun cs =>
         ask (fun s => forks (or_groups o) (or_forks o) (fst s) (select_conns ps cs)))) s
  end.

(** api.go:324-350: HasLeash, then Fork. *)
Definition serve_fork (ev : env) (o : orders) (address : bytes) (s : shop) : shop * resp Fork :=
  match ev_addr ev address with
  | None => (s, Code 400)
  | Some a =>
      match ask (fun s => has_leash (fst s) a) s with
      | (s', Ok true) => replies (enc_fork ev) (ask (fun s => fork_of (or_groups o) (fst s) a)) s'
      | (s', Ok false) => (s', Code 404)
      | (s', Err _) => (s', Code 500)
      | (s', Panic) => (s', Code 500)
      | (s', Diverge) => (s', Hang)
      end
  end.

(** api.go:353-400: HasLeash, Fork, then ForkGenerators. *)
Definition serve_generators (ev : env) (o : orders) (address blocks : bytes) (s : shop) : shop * resp (list (bytes * nat)) :=
  match ev_addr ev address with
  | None => (s, Code 400)
  | Some a =>
      match ev_atoi ev blocks with
      | None => (s, Code 400)
      | Some c =>
          match ask (fun s => has_leash (fst s) a) s with
          | (s', Ok true) =>
              replies (fun _ => true)
                (then_ (ask (fun s => fork_of (or_groups o) (fst s) a)) (fun f =>
                 let c' := if Z.eqb c 0 then (if f_longest f then 1000%Z else f_length f) else c in
                 ask (fun s => fork_generators (or_gens o) (or_gensort o) (fst s) (f_head f) c'))) s'
          | (s', Ok false) => (s', Code 404)
          | (s', Err _) => (s', Code 500)
          | (s', Panic) => (s', Code 500)
          | (s', Diverge) => (s', Hang)
          end
      end
  end.
End Serve.
