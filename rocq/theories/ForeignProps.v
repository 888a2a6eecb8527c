(** C74: opening the store of another blockchain. *)
From Verif Require Import Base Kv ChainModel ChainSpec ChainProofs ChainExample.
Set Implicit Arguments.
Unset Strict Implicit.

(** What NewLinkage (linkage.go:49-63) returns for the store of [l] and the genesis block [g']. *)
Definition opened (l : linkage) (g' : pblock) : outcome linkage :=
  do r <- new_linkage (lk_db l) g'; Ok {| lk_genesis := snd r; lk_db := apply_writes (lk_db l) (fst r) |}.
(** A call that is about blocks the store [d] does not have: neither the block itself nor the one it is put on. *)
Definition foreign (d : db) (o : op) : Prop :=
  match o with
  | Put b _ => has_block d (pb_id b) = Ok false /\ has_block d (pb_parent b) = Ok false
  | Micro m _ => has_block d (mi_total m) = Ok false /\ has_block d (mi_ref m) = Ok false
  | Move _ _ => False
  | Reopen => True
  end.

(** * C74 *)
(** The claim that a store can be opened only with the genesis block it was made with is false: *)
Theorem C74_own_genesis_refuted : exists g ops l g' l', reachable g ops l /\ wf_pblock g' /\ opened l g' = Ok l' /\ pb_id g' <> pb_id g /\
  leash l' (xpeer 9) = Ok (pb_id g') /\ lk_has_block l' (pb_id g') = Ok false /\ leash_score l' (xpeer 9) = Err ENotFound.
Proof.
  exists xg, xops, xl, (xblk 9 8), {| lk_genesis := xid 9; lk_db := lk_db xl |}.
  split; [apply xl_reachable|]. split; [apply wf_pblockb_ok; reflexivity|]. split; [vm_compute; reflexivity|].
  split; [intros E; apply (f_equal (fun i => id_eqb i (xid 9))) in E; vm_compute in E; discriminate E|].
  split; [vm_compute; reflexivity|]. split; vm_compute; reflexivity.
Qed.
Print Assumptions C74_own_genesis_refuted.

Lemma foreign_exec : forall g' l o f, foreign (lk_db l) o -> (forall g', new_linkage (lk_db l) g' = Ok ([], pb_id g')) ->
  fst (exec g' l o f) = l /\ (forall b a, o = Put b a -> snd (exec g' l o f) = Err EParentNotFound) /\
  (forall m a, o = Micro m a -> snd (exec g' l o f) = Err ERefNotFound).
Proof.
  intros g' l o f FO NL. assert (W : forall ws, ws = [] -> with_db l (apply_writes (lk_db l) ws) = l).
  { intros ws ->. destruct l. reflexivity. }
  destruct o as [b a|m a|i a|]; cbn [foreign] in FO.
  - destruct FO as [F1 F2]. unfold exec, op_writes, put_block. rewrite F1, F2. destruct f; cbn [fst snd length Nat.ltb Nat.leb]; (split; [now apply W|]); split; auto; discriminate.
  - destruct FO as [F1 F2]. unfold exec, op_writes, put_micro_block. rewrite F1, F2. destruct f; cbn [fst snd length Nat.ltb Nat.leb]; (split; [now apply W|]); split; auto; discriminate.
  - destruct FO.
  - split; [|split; discriminate]. unfold exec, op_writes. rewrite NL. destruct f; cbn [fst snd length Nat.ltb Nat.leb]; now apply W.
Qed.
(** What happens instead: the store is opened unchanged and, as long as the peers only speak of the blockchain that was asked
    for, no call ever stores a block or moves a leash (every block is refused), and the score of a peer without leash
    cannot be determined. *)
Theorem C74_foreign_store_is_stuck : forall g ops l g' more, reachable g ops l -> lk_has_block l (pb_id g') = Ok false ->
  Forall (fun of => foreign (lk_db l) (fst of)) more ->
  exists l', opened l g' = Ok l' /\ lk_db l' = lk_db l /\ run g' l' more = l' /\
    (forall o r, In (o, r) (trace g' l' more) -> match o with Put _ _ => r = Err EParentNotFound | Micro _ _ => r = Err ERefNotFound | _ => r = Ok tt end) /\
    forall a, has_leash l' a = Ok false -> leash l' a = Ok (pb_id g') /\ leash_score l' a = Err ENotFound.
Proof.
  intros g ops l g' more R NF FO. pose proof (fun x => proj1 (reopen_both x None R)) as NL.
  exists {| lk_genesis := pb_id g'; lk_db := lk_db l |}. set (l' := {| lk_genesis := pb_id g'; lk_db := lk_db l |}).
  split; [unfold opened; rewrite NL; reflexivity|]. split; [reflexivity|]. split; [|split].
  - induction FO as [|[o f] more F _ IH]; [reflexivity|]. cbn [run]. destruct (@foreign_exec g' l' o f F NL) as (-> & _). exact IH.
  - induction FO as [|[o f] more F _ IH]; intros o' r I; [destruct I|]. cbn [trace] in I. destruct (@foreign_exec g' l' o f F NL) as (E1 & E2 & E3).
    destruct I as [I|I].
    + injection I as <- <-. cbn [fst] in F. destruct o as [b a|m a|i a|]; [eauto|eauto|destruct F|].
      unfold exec, op_writes. cbn [lk_db l']. rewrite NL. destruct f; reflexivity.
    + rewrite E1 in I. apply IH. exact I.
  - intros a HL. unfold has_leash, leash, leash_score in *. destruct (get_leash (lk_db l') a) as [i|[]| |]; try discriminate.
    split; [reflexivity|]. unfold lk_has_block, has_block in NF. cbn [lk_genesis lk_db l']. unfold get_block_by_id.
    destruct (get_num_of_block_id (lk_db l) (pb_id g')) as [n|[]| |]; try discriminate. reflexivity.
Qed.
Print Assumptions C74_foreign_store_is_stuck.
(** With its own genesis block the store is what it was when it was closed. *)
Theorem C74_own_store_goes_on : forall g ops l, reachable g ops l -> opened l g = Ok l.
Proof.
  intros g ops l R. unfold opened. rewrite (proj1 (reopen_both g None R)). destruct (reach_view R) as (s & Es & RR & GE & BD & SM).
  destruct l as [gi d]. cbn in *. now subst.
Qed.
Print Assumptions C74_own_store_goes_on.
Example C74_example : let more : list (op * option nat) := [(Put (xblk 10 9) (xpeer 1), None); (Micro {| mi_total := xid 12; mi_ref := xid 10 |} (xpeer 2), None); (Reopen, None)] in
  reachable xg xops xl /\ lk_has_block xl (xid 9) = Ok false /\ Forall (fun of => foreign (lk_db xl) (fst of)) more /\
  has_leash xl (xpeer 9) = Ok false.
Proof. split; [apply xl_reachable|]. split; [vm_compute; reflexivity|]. split; [repeat constructor; vm_compute; reflexivity|vm_compute; reflexivity]. Qed.
