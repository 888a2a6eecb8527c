(** Peer.String (peers/peer.go) and Head.String (chains/entities.go): the texts of a peer and of a head in the log. *)
From Coq Require Import Strings.Byte Strings.String.
From Verif Require Import Base Kv ChainModel PeersModel CborModel TextModel NetipModel.
Set Implicit Arguments.
Unset Strict Implicit.

(** peer.go:34-41. [date] is time.Time.Format(time.RFC3339), a function of the Go library. %d of a uint64 is [decimal]; %s of the name writes its bytes
    as they are; %s of the version and of the state call their String methods; sc.String() is the decimal number of the score. *)
Definition peer_string (date : time -> bytes) (p : Peer) : outcome bytes :=
  let sc := match p_score p with None => 0%Z | Some s => s end in
  do st <- pstate_string (state_number (p_state p));
  Ok (print_addrport (p_addr p, p_port p) ++ text "-" ++ decimal (p_nonce p) ++ text " '" ++ p_name p ++ text "' v" ++ version_string (p_version p) ++
      text " (" ++ st ++ text "; " ++ date (p_next p) ++ text "; " ++ format_int sc ++ text ")").

(** chains/entities.go:26-28; [show] is proto.BlockID.String (base 58), a function of gowaves. *)
Definition head_string (show : id -> bytes) (h : N * id) : bytes := text "(" ++ decimal (fst h) ++ text ")'" ++ show (snd h) ++ text "'".
