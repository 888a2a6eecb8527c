(** Concrete histories used by the examples and the refutations. *)
From Verif Require Import Base Kv ChainModel ChainSpec.
Set Implicit Arguments.

(** Block ID number [n] (a 32-byte digest), generator number [n], peer number [n]. *)
Definition xid (n : N) : id := repeat x00 31 ++ [byte_of n].
Definition xgen (n : N) : bytes := repeat x00 25 ++ [byte_of n].
Definition xpeer (n : N) : addr := A4 [byte_of 10; x00; x00; byte_of n].
Definition xblk (n parent : N) : pblock :=
  {| pb_id := xid n; pb_parent := xid parent; pb_ts := 1000 + n; pb_bt := 100; pb_gen := Some (xgen (n mod 3)) |}.
Definition xg : pblock := {| pb_id := xid 0; pb_parent := zero_id; pb_ts := 1000; pb_bt := 153722867; pb_gen := Some (xgen 0) |}.
Definition xl0 : linkage := match start xg with Ok l => l | _ => {| lk_genesis := []; lk_db := [] |} end.
Definition at_end (ops : list (op * option nat)) : linkage := run xg xl0 ops.

(** Genesis 0 with the chains 1-2-3 and 1-4, a micro-block 5 on 4; peer 1 at 3, peer 2 at 5, peer 3 at 4; the leash of
    peer 4 was not written because the process died in between, then the store was reopened. *)
Definition xops : list (op * option nat) :=
  [(Put (xblk 1 0) (xpeer 1), None); (Put (xblk 2 1) (xpeer 1), None); (Put (xblk 3 2) (xpeer 1), None);
   (Put (xblk 4 1) (xpeer 2), None); (Put (xblk 4 1) (xpeer 3), None);
   (Micro {| mi_total := xid 5; mi_ref := xid 4 |} (xpeer 2), None);
   (Put (xblk 6 5) (xpeer 4), Some 1); (Reopen, None)].
Definition xl : linkage := at_end xops.

(** Decision procedures for the premises. *)
Definition wf_idb (i : id) : bool := Nat.eqb (length i) 32 || Nat.eqb (length i) 64.
Definition wf_addrb (a : addr) : bool :=
  match a with AZero => false | A4 b => Nat.eqb (length b) 4 | A6 b z => Nat.eqb (length b) 16 && Nat.eqb (length z) 0 end.
Definition wf_pblockb (b : pblock) : bool :=
  wf_idb (pb_id b) && wf_idb (pb_parent b) && match pb_gen b with Some g => Nat.eqb (length g) 26 | None => true end.
Definition wf_opb (o : op) : bool :=
  match o with
  | Put b a => wf_pblockb b && wf_addrb a
  | Micro m a => wf_idb (mi_total m) && wf_idb (mi_ref m) && wf_addrb a
  | Move i a => wf_idb i && wf_addrb a
  | Reopen => true
  end.
Lemma wf_idb_ok : forall i, wf_idb i = true -> wf_id i.
Proof. unfold wf_idb, wf_id. intros i H. lia. Qed.
Lemma wf_addrb_ok : forall a, wf_addrb a = true -> wf_addr a.
Proof.
  intros [|b|b z] H; cbn in *; try discriminate; [lia|]. apply andb_true_iff in H as [H1 H2]. split; [lia|].
  destruct z; [reflexivity|discriminate].
Qed.
Lemma wf_pblockb_ok : forall b, wf_pblockb b = true -> wf_pblock b.
Proof.
  unfold wf_pblockb, wf_pblock. intros b H. apply andb_true_iff in H as [H H3]. apply andb_true_iff in H as [H1 H2].
  split; [now apply wf_idb_ok|]. split; [now apply wf_idb_ok|]. destruct (pb_gen b); [lia|exact I].
Qed.
Lemma wf_opb_ok : forall o, wf_opb o = true -> wf_op o.
Proof.
  intros [b a|m a|i a|] H; cbn in *; auto.
  - apply andb_true_iff in H as [H1 H2]. split; [now apply wf_pblockb_ok | now apply wf_addrb_ok].
  - apply andb_true_iff in H as [H H3]. apply andb_true_iff in H as [H1 H2].
    split; [now apply wf_idb_ok|]. split; [now apply wf_idb_ok | now apply wf_addrb_ok].
  - apply andb_true_iff in H as [H1 H2]. split; [now apply wf_idb_ok | now apply wf_addrb_ok].
Qed.
Lemma wf_histb : forall ops, forallb (fun of => wf_opb (fst of)) ops && (N.of_nat (length ops) <? 2 ^ 32 - 10)%N = true ->
  wf_hist ops.
Proof.
  intros ops H. apply andb_true_iff in H as [H1 H2]. split; [|now apply N.ltb_lt].
  apply Forall_forall. intros of I. rewrite forallb_forall in H1. apply wf_opb_ok. now apply H1.
Qed.
Lemma xg_start : start xg = Ok xl0.
Proof. vm_compute. reflexivity. Qed.
Lemma xg_wf : wf_pblock xg.
Proof. apply wf_pblockb_ok. vm_compute. reflexivity. Qed.
Lemma at_end_reachable : forall ops,
  forallb (fun of => wf_opb (fst of)) ops && (N.of_nat (length ops) <? 2 ^ 32 - 10)%N = true -> reachable xg ops (at_end ops).
Proof. intros ops H. split; [apply xg_wf|]. split; [now apply wf_histb|]. exists xl0. split; [apply xg_start|reflexivity]. Qed.
Lemma xl_reachable : reachable xg xops xl.
Proof. apply at_end_reachable. vm_compute. reflexivity. Qed.

(** Two chains that fork at genesis and both reach height 10: blocks 1..9 and 11..19. *)
Definition two_chains : list (op * option nat) :=
  map (fun n => (Put (xblk n (if (n =? 11)%N then 0 else n - 1)) (xpeer (if (n <? 10)%N then 1 else 2)), None))
      [1; 2; 3; 4; 5; 6; 7; 8; 9; 11; 12; 13; 14; 15; 16; 17; 18; 19]%N.
Definition xl2 : linkage := at_end two_chains.
Lemma xl2_reachable : reachable xg two_chains xl2.
Proof. apply at_end_reachable. vm_compute. reflexivity. Qed.
