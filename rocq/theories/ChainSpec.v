(** Specification of the block store, independent of the database: a history of stored blocks and a leash map. *)
From Verif Require Import Base Kv ChainModel.
Set Implicit Arguments.

(** A stored block: its ID, its parent (none for genesis), the block it was put on top of ([e_ext]: the parent of a block,
    the reference of a micro-block), its own score, timestamp and generator. *)
Record entry := { e_id : id; e_parent : option id; e_ext : option id; e_own : Z; e_ts : N; e_gen : bytes }.

(** [es] is the list of stored blocks, newest first. *)
Definition stored (es : list entry) (i : id) : Prop := exists e, In e es /\ e_id e = i.

(** The block with ID [i] followed by its ancestors down to genesis; empty if [i] is not stored. *)
Fixpoint chain (es : list entry) (i : id) : list entry :=
  match es with
  | [] => []
  | e :: older =>
      if id_eqb (e_id e) i
      then e :: match e_parent e with Some p => chain older p | None => [] end
      else chain older i
  end.
Definition chain_ids (es : list entry) (i : id) : list id := map e_id (chain es i).

(** Height is the number of blocks of the chain, score the sum of their own scores. *)
Definition height (es : list entry) (i : id) : nat := length (chain es i).
Definition sum_own (c : list entry) : Z := fold_right (fun e s => (e_own e + s)%Z) 0%Z c.
Definition score (es : list entry) (i : id) : Z := sum_own (chain es i).
(** The own score of a block with base target [bt] is 2^64 / bt. *)
Definition block_score (bt : N) : Z := if (bt =? 0)%N then 0%Z else (2 ^ 64 / Z.of_N bt)%Z.

(** [j] is [i] or an ancestor of [i]. *)
Definition anc (es : list entry) (i j : id) : Prop := In j (chain_ids es i).
(** [k] is the deepest block from which both [i] and [j] descend. *)
Definition is_lca (es : list entry) (i j k : id) : Prop :=
  anc es i k /\ anc es j k /\ forall m, anc es i m -> anc es j m -> anc es k m.

Record state := { st_blocks : list entry; st_leash : addr -> option id }.
Definition st_add (e : entry) (s : state) : state := {| st_blocks := e :: st_blocks s; st_leash := st_leash s |}.
Definition st_set_leash (a : addr) (i : id) (s : state) : state :=
  {| st_blocks := st_blocks s; st_leash := fun a' => if addr_eqb a' a then Some i else st_leash s a' |}.

(** The atomic effects of a call, in order, and its result. *)
Definition effects (s : state) (o : op) : list (state -> state) * outcome unit :=
  match o with
  | Put b a =>
      match chain (st_blocks s) (pb_id b), chain (st_blocks s) (pb_parent b), pb_gen b with
      | _ :: _, _, _ => ([st_set_leash a (pb_id b)], Ok tt)
      | [], [], _ => ([], Err EParentNotFound)
      | [], _ :: _, None => ([], Err EOther)
      | [], _ :: _, Some ga =>
          if (max_int64 <? pb_bt b)%N then ([], Panic)
          else ([st_add {| e_id := pb_id b; e_parent := Some (pb_parent b); e_ext := Some (pb_parent b);
                           e_own := block_score (pb_bt b); e_ts := pb_ts b; e_gen := ga |};
                 st_set_leash a (pb_id b)], Ok tt)
      end
  | Micro m a =>
      match chain (st_blocks s) (mi_total m), chain (st_blocks s) (mi_ref m) with
      | _ :: _, _ => ([st_set_leash a (mi_total m)], Ok tt)
      | [], [] => ([], Err ERefNotFound)
      | [], r :: _ =>
          match e_parent r with
          | None => ([], Err EOther)
          | Some p => ([st_add {| e_id := mi_total m; e_parent := Some p; e_ext := Some (mi_ref m); e_own := e_own r;
                                  e_ts := e_ts r; e_gen := e_gen r |};
                        st_set_leash a (mi_total m)], Ok tt)
          end
      end
  | Move i a => ([st_set_leash a i], Ok tt)
  | Reopen => ([], Ok tt)
  end.
Definition apply_effects (s : state) (fs : list (state -> state)) : state := fold_left (fun s f => f s) fs s.
Definition sexec (s : state) (o : op) (fault : option nat) : state * outcome unit :=
  let '(fs, r) := effects s o in
  match fault with
  | Some k => if Nat.ltb k (length fs) then (apply_effects s (firstn k fs), Err EOther) else (apply_effects s fs, r)
  | None => (apply_effects s fs, r)
  end.
Fixpoint srun (s : state) (ops : list (op * option nat)) : state :=
  match ops with
  | [] => s
  | (o, f) :: ops' => srun (fst (sexec s o f)) ops'
  end.
Definition sstart (g : pblock) : state :=
  {| st_blocks := [{| e_id := pb_id g; e_parent := None; e_ext := None; e_own := block_score (pb_bt g);
                      e_ts := pb_ts g; e_gen := match pb_gen g with Some ga => ga | None => [] end |}];
     st_leash := fun _ => None |}.

(** Well-formed inputs: facts that the Go types guarantee (ID sizes, 26-byte addresses), and peer addresses that are valid
    and have no IPv6 zone. *)
Definition wf_pblock (b : pblock) : Prop :=
  wf_id (pb_id b) /\ wf_id (pb_parent b) /\ match pb_gen b with Some ga => length ga = 26 | None => True end.
Definition wf_op (o : op) : Prop :=
  match o with
  | Put b a => wf_pblock b /\ wf_addr a
  | Micro m a => wf_id (mi_total m) /\ wf_id (mi_ref m) /\ wf_addr a
  | Move i a => wf_id i /\ wf_addr a
  | Reopen => True
  end.
(** A history: every call well-formed, fewer than 2^32 - 10 of them (so that uint32 heights do not wrap). *)
Definition wf_hist (ops : list (op * option nat)) : Prop :=
  Forall (fun of => wf_op (fst of)) ops /\ (N.of_nat (length ops) < 2 ^ 32 - 10)%N.

(** [l] is the linkage reached by the calls [ops] (each with an optional crash point) from an empty directory. *)
Definition reachable (g : pblock) (ops : list (op * option nat)) (l : linkage) : Prop :=
  wf_pblock g /\ wf_hist ops /\ exists l0, start g = Ok l0 /\ l = run g l0 ops.
(** The blocks stored by a history. *)
Definition hist (g : pblock) (ops : list (op * option nat)) : list entry := st_blocks (srun (sstart g) ops).

(** Some block has been put on top of [i], or some micro-block refers to it. *)
Definition extended (es : list entry) (i : id) : Prop := exists e, In e es /\ e_ext e = Some i.

(** The calls of a history with their results. *)
Fixpoint trace (g : pblock) (l : linkage) (ops : list (op * option nat)) : list (op * outcome unit) :=
  match ops with
  | [] => []
  | (o, f) :: ops' => (o, snd (exec g l o f)) :: trace g (fst (exec g l o f)) ops'
  end.
(** The peer and the block a call is about. *)
Definition target (o : op) : option (addr * id) :=
  match o with
  | Put b a => Some (a, pb_id b)
  | Micro m a => Some (a, mi_total m)
  | Move i a => Some (a, i)
  | Reopen => None
  end.
(** The block of the last successful call made for peer [a], if any. *)
Fixpoint last_success (a : addr) (tr : list (op * outcome unit)) (acc : option id) : option id :=
  match tr with
  | [] => acc
  | (o, r) :: tr' =>
      last_success a tr' (match target o, r with
                          | Some (a', i), Ok _ => if addr_eqb a a' then Some i else acc
                          | _, _ => acc
                          end)
  end.
(** MoveLeash is only called with blocks that are stored at that time. *)
Fixpoint good_moves (g : pblock) (l : linkage) (ops : list (op * option nat)) : Prop :=
  match ops with
  | [] => True
  | (o, f) :: ops' =>
      match o with Move i _ => lk_has_block l i = Ok true | _ => True end /\ good_moves g (fst (exec g l o f)) ops'
  end.

(** The numbered list of heads after [y] has been put on top of [x]: a head keeps its number, otherwise [y] gets the next. *)
Definition upd_heads (x y : id) (hs : list (N * id)) : list (N * id) :=
  if existsb (fun h => id_eqb (snd h) x) hs
  then map (fun h => if id_eqb (snd h) x then (fst h, y) else h) hs
  else hs ++ [(N.of_nat (length hs) + 1, y)%N].

(** The address ff..ff, the exclusive limit of the scan for leashes. *)
Definition all_ones : addr := A6 (repeat xff 16) [].

(** Arithmetic condition on two chains: the lower tip is [D] blocks above the last common block, which has height [a]. *)
Definition safe (D a : nat) : Prop := forall t, 2 ^ S t < D -> 2 ^ t <= (D - 1) mod 2 ^ S t + a.

(** The records of the store. *)
Inductive record_key :=
| KCounter (c : byte) | KId (i : id) | KBlock (n : N) | KLink (n : N) | KLeash (a : addr) | KHead (n : N) | KHeadOf (n : N).
Definition key_of (k : record_key) : bytes :=
  match k with
  | KCounter c => counter_key c
  | KId i => id_key blockPrefix i
  | KBlock n => num_key blockPrefix n
  | KLink n => num_key chainPrefix n
  | KLeash a => addr_key a
  | KHead n => num_key headToBlockPrefix n
  | KHeadOf n => num_key blockToHeadPrefix n
  end.
Definition wf_key (k : record_key) : Prop :=
  match k with
  | KCounter _ => True
  | KId i => wf_id i
  | KLeash a => wf_addr a
  | KBlock n | KLink n | KHead n | KHeadOf n => (n < 2 ^ 64)%N
  end.

(** * Forks *)

(** The peers standing on block [i], for a list of leashes. *)
Definition on_block (ls : list (addr * id)) (i : id) : list addr := map fst (filter (fun e => id_eqb (snd e) i) ls).
(** [i] is a block some peer stands on, with the greatest score and, among those, the most peers. *)
Definition is_best (es : list entry) (ls : list (addr * id)) (i : id) : Prop :=
  In i (map snd ls) /\
  forall j, In j (map snd ls) ->
    (score es j < score es i)%Z \/ (score es j = score es i /\ length (on_block ls j) <= length (on_block ls i)).
(** Peer [a] is leashed to [i] (and not the unlisted address ff..ff). *)
Definition leashed (l : linkage) (a : addr) (i : id) : Prop :=
  wf_addr a /\ a <> all_ones /\ has_leash l a = Ok true /\ leash l a = Ok i.

(** What is assumed of Go: a map is iterated in some order; sort.Sort returns a permutation in which no element is less than
    one before it. *)
Definition map_order {A} (ord : list A -> list A) : Prop := forall m, Permutation (ord m) m.
Definition sorts {A} (less : A -> A -> bool) (srt : list A -> list A) : Prop :=
  forall r, Permutation (srt r) r /\ StronglySorted (fun x y => less y x = false) (srt r).

(** Descending order by score, then by number of peers. *)
Definition fork_ge (f g : Fork) : Prop :=
  (f_score g < f_score f)%Z \/ (f_score f = f_score g /\ length (f_peers g) <= length (f_peers f)).
(** The fields of a fork that describe its head block. *)
Definition describes (l : linkage) (f : Fork) : Prop :=
  exists b, block l (f_head f) = Ok b /\ f_height f = b_height b /\ f_score f = b_score b /\ f_gen f = b_gen b /\
            f_ts f = b_ts b.

(** [a] is one of the selected peers (an empty selection selects everyone) and stands on block [i]. *)
Definition standing (l : linkage) (peers : list addr) (a : addr) (i : id) : Prop :=
  leashed l a i /\ (peers = [] \/ In a peers).
(** Exactly [n] of the selected peers stand on block [i]. *)
Definition count_on (l : linkage) (peers : list addr) (i : id) (n : nat) : Prop :=
  exists ps, NoDup ps /\ (forall a, In a ps <-> standing l peers a i) /\ length ps = n.
(** [i] is a block some selected peer stands on, no other such block has a greater score and, of those with the same score,
    none has more peers. *)
Definition best_block (es : list entry) (l : linkage) (peers : list addr) (i : id) : Prop :=
  (exists a, standing l peers a i) /\
  forall j, (exists a, standing l peers a j) ->
    (score es j < score es i)%Z \/
    (score es j = score es i /\ forall m n, count_on l peers j m -> count_on l peers i n -> m <= n).
(** How often [g] occurs in a list of generators. *)
Definition occurrences (g : bytes) (gs : list bytes) : nat := length (filter (beqb g) gs).
(** All timestamps in the history are below 2^63-1. *)
Definition times_ok (g : pblock) (ops : list (op * option nat)) : Prop :=
  (pb_ts g < max_int64)%N /\
  Forall (fun of => match fst of with Put b _ => (pb_ts b < max_int64)%N | _ => True end) ops.
(** The call came back, with a value or with an error. *)
Definition returned {A} (o : outcome A) : Prop := match o with Ok _ | Err _ => True | Panic | Diverge => False end.
