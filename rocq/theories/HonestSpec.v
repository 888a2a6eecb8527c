(** Specification vocabulary for the synchronisation with an honest peer in the running process (C90). *)
From Verif Require Import Base Kv ChainModel ChainSpec PeersModel PeersSpec LoadModel LoadSpec NetModel NetSpec WholeModel WholeSpec SyncSpec.
Set Implicit Arguments.
Unset Strict Implicit.

(** What a message says about blocks is true; it says nothing about blocks, IDs and scores. *)
Definition truthful (m : meaning) (msg : NetModel.message) : Prop :=
  match msg with
  | MBlock (Some b) | MPBBlock (Some b) => m (pb_id b) = (pb_parent b, pb_bt b)
  | MMicroBlockInv (Some x) => m (mi_total x) = m (mi_ref x)
  | _ => True
  end.
Definition small_talk (msg : NetModel.message) : Prop :=
  match msg with MSignatures _ | MBlock _ | MScore _ | MMicroBlockInv _ | MPBBlock _ | MBlockIds _ => False | _ => True end.
(** A step of another goroutine that is not about peer [a]: its connection is kept and not replaced, and of its messages only small
    talk arrives. The other peers may send, connect and leave at will, as long as what they say about blocks is true. *)
Definition elsewhere (m : meaning) (a : addr) (x : move) : Prop :=
  match x with
  | VArrive _ (AMessage from msg) => truthful m msg /\ (ln_addr from = Some a -> small_talk msg)
  | VArrive _ (AInfo (IConnected from _)) | VArrive _ (AInfo (IError from)) => ln_addr from <> Some a
  | VAccept _ b => b <> Some a
  | _ => True
  end.
Definition sender (p : package) : addr := match p with PIDs a _ | PBlock a _ => a end.
(** The message carries the input to the loader. *)
Definition brings (msg : NetModel.message) (i : input) : Prop :=
  match i with
  | InIDs _ ids => msg = MSignatures ids \/ msg = MBlockIds ids
  | InBlock _ (Some b) => NetSpec.carries msg b
  | _ => False
  end.

(** The request that a call of the loader sends, and to whom. *)
Definition requests (e : event) : option (addr * LoadModel.message) :=
  match e with
  | existT _ c _ => match c with CAskIDs b ids => Some (b, MsgIDs ids) | CAskBlock b i => Some (b, MsgBlock i) | _ => None end
  end.

(** The loader, the rest of the process, the requests that [a] has not answered yet, and whether the process has crashed. *)
Record stage := { st_l : loader; st_v : whole; st_open : list LoadModel.message; st_res : outcome unit }.
Section Honest.
Variable cfg : config.
Variable g : pblock.
Variable ord : list group -> list group.
Variable cord : list (addr * conn) -> list (addr * conn).
Variable srt : list Peer -> list Peer.
Variable m : meaning.
Variable a : addr.
Variable bs : list pblock.
Notation process := (process cfg g ord cord srt).
Notation others := (others cfg g cord srt).
(** A turn that does not bring the loader anything from [a]; the ticker is in time if the request is not older than 30 seconds. *)
Definition away (l : loader) (v : whole) (t : turn) : Prop :=
  wf_turn t /\ Forall (elsewhere m a) (moves_in t) /\
  match t with
  | TTake _ => forall p, o_dist v = DSending p -> sender p <> a
  | TTick ms => forall p, busy l p -> (re_now (o_real (others v (hd [] ms))) - pl_ts p <= 30 * second)%Z
  | _ => True
  end.
Inductive apart (l : loader) (v : whole) : loader -> whole -> Prop :=
| ap_none : apart l v l v
| ap_more : forall l1 v1 t l2 v2, apart l v l1 v1 -> away l1 v1 t -> process l1 v1 [t] = ((l2, v2), Ok tt) -> apart l v l2 v2.
(** After such turns, either an answer of [a] to an open request reaches the distributor while the loader waits at its select (the
    write of a block does not fail), or the loader takes the answer from the distributor, and the other goroutines do not crash
    the process meanwhile. *)
Definition plain_turn (s s' : stage) : Prop :=
  exists l1 v1 t new, st_res s = Ok tt /\ apart (st_l s) (st_v s) l1 v1 /\ process l1 v1 [t] = ((st_l s', st_v s'), st_res s') /\
    re_sent (o_real (st_v s')) = re_sent (o_real (st_v s)) ++ new /\
    ((exists x from msg q1 q q2 i, o_dist v1 = DSelect /\ t = TMove (VArrive x (AMessage from msg)) /\ ln_addr from = Some a /\ ft_fault x = None /\
        st_open s = q1 ++ q :: q2 /\ answer g bs a q i /\ brings msg i /\ st_open s' = (q1 ++ q2) ++ sent_to a new) \/
     (exists p ms, o_dist v1 = DSending p /\ sender p = a /\ t = TTake ms /\ wf_turn t /\ Forall (elsewhere m a) (moves_in t) /\
        o_dead (st_v s') = false /\ st_open s' = st_open s ++ sent_to a new)).
(** Or the answer reaches the distributor while the loader is handling a tick in time or the previous answer of [a]: before the call with the
    number [length before] of that turn. The request was open before the turn, or it is one of the calls before. At the end
    of the turn the distributor holds the answer. (While the loader handles anything else in a session, it makes no call.) *)
Definition within_turn (s s' : stage) : Prop :=
  exists l1 v1 t ms new before u1 x from msg u2 after q1 q q2 i p', st_res s = Ok tt /\ apart (st_l s) (st_v s) l1 v1 /\
    process l1 v1 [t] = ((st_l s', st_v s'), st_res s') /\ re_sent (o_real (st_v s')) = re_sent (o_real (st_v s)) ++ new /\
    ((t = TTick ms /\ o_dist v1 = DSelect /\ (forall p, busy l1 p -> (re_now (o_real (others v1 (hd [] ms))) - pl_ts p <= 30 * second)%Z) /\ In q (st_open s)) \/
     (t = TTake ms /\ (exists p, o_dist v1 = DSending p /\ sender p = a) /\
      (In q (st_open s) \/ exists es e, o_calls (st_v s') = o_calls v1 ++ es /\ In e (firstn (length before) es) /\ requests e = Some (a, q)))) /\
    ms = before ++ (u1 ++ VArrive x (AMessage from msg) :: u2) :: after /\ wf_turn t /\
    Forall (elsewhere m a) (concat before ++ u1 ++ u2 ++ concat after) /\ ln_addr from = Some a /\ ft_fault x = None /\ answer g bs a q i /\ brings msg i /\
    o_dist (st_v s') = DSending p' /\ sender p' = a /\ o_dead (st_v s') = false /\ st_open s ++ sent_to a new = q1 ++ q :: q2 /\ st_open s' = q1 ++ q2.
Definition honest_turn (s s' : stage) : Prop := plain_turn s s' \/ within_turn s s'.
(** The session is over, and the leash of [a] is at the head of its chain. *)
Definition synchronised (s : stage) : Prop :=
  st_res s = Ok tt /\ l_pl (st_l s) = None /\ leash (re_lk (o_real (st_v s))) a = Ok (tip g bs).
(** Peer [a] is connected, nobody is dialling it, and the distributor is not holding a message of it. *)
Definition dials (d : dialler) : addr := match d with Fresh b | Calling b | Failing b => b end.
Definition on_line (v : whole) : Prop :=
  connected (re_reg (o_real v)) a /\ Forall (fun d => dials d <> a) (o_dials v) /\ (forall p, o_dist v = DSending p -> sender p <> a).
End Honest.
