(** What the distributor passes on to the loader (distributor.go:143-162, 179-215, 255-282). *)
From Verif Require Import Base Kv ChainModel ChainExample PeersModel PeersProps NetModel NetSpec NetProps.
Set Implicit Arguments.
Unset Strict Implicit.

(** The peer at [a] tells of the blocks [ids]: a list of signatures, or a list of block IDs that is not empty. *)
Definition announces (r : arrival) (a : addr) (ids : list id) : Prop := exists from, ln_addr from = Some a /\
  (r = AMessage from (MSignatures ids) \/ (ids <> [] /\ r = AMessage from (MBlockIds ids))).
(** The peer at [a] sends the block [b], in either of the two encodings. *)
Definition brings (r : arrival) (a : addr) (b : pblock) : Prop := exists from, ln_addr from = Some a /\
  (r = AMessage from (MBlock (Some b)) \/ r = AMessage from (MPBBlock (Some b))).

(** The packages that go to the loader for the arrivals, in their order: one for every announcement, at most one for a block,
    none for anything else. *)
Inductive served : list arrival -> list package -> Prop :=
| served_nil : served [] []
| served_ids : forall r a ids l ps, announces r a ids -> served l ps -> served (r :: l) (PIDs a ids :: ps)
| served_block : forall r a b l ps, brings r a b -> served l ps -> served (r :: l) (PBlock a b :: ps)
| served_kept : forall r a b l ps, brings r a b -> served l ps -> served (r :: l) ps
| served_none : forall r l ps, (forall a ids, ~ announces r a ids) -> (forall a b, ~ brings r a b) -> served l ps -> served (r :: l) ps.

Definition sent_for (r : arrival) (p : option package) : Prop :=
  (exists a ids, announces r a ids /\ p = Some (PIDs a ids)) \/
  (exists a b, brings r a b /\ (p = Some (PBlock a b) \/ p = None)) \/
  ((forall a ids, ~ announces r a ids) /\ (forall a b, ~ brings r a b) /\ p = None).

Ltac neither := right; right; split; [intros ? ? (? & ? & [? | [? ?]]); congruence|
  split; [intros ? ? (? & ? & [? | ?]); congruence|]].

Lemma logged_none : forall A (o : outcome A) p, logged o = Ok p -> p = None.
Proof. intros A [|e| |] p H; cbn in H; congruence. Qed.

Lemma handle_sends : forall cfg g srt ord x d r d' ss p, handle cfg g srt ord x d r = (d', ss, Ok p) -> sent_for r p.
Proof.
  intros cfg g srt ord x d r d' ss p H. destruct r as [from m| i |]; cbn [handle] in H.
  - destruct m; cbn [handle_message] in H; try (injection H as <- <- <-; neither; reflexivity).
    + unfold handle_get_peers in H. neither. destruct (friendly_peers _ _) as [q|e| |]; [destruct (mapM _ _)| | |]; unfold quiet in H; injection H as _ _ H; cbn in H; congruence.
    + unfold handle_peers in H. neither. destruct (append_addresses _ _ _ _). injection H as _ _ H. congruence.
    + unfold handle_signatures in H. destruct (ln_addr from) as [a|] eqn:A; injection H as <- <- <-.
      * left. exists a, ids. split; [exists from; auto|reflexivity].
      * neither. reflexivity.
    + unfold handle_block_message in H. destruct b as [b|]; [|injection H as <- <- <-; neither; reflexivity].
      unfold handle_block in H. destruct (ln_addr from) as [a|] eqn:A; [|injection H as <- <- <-; neither; reflexivity].
      destruct (exec _ _ _ _) as [l o]. right. left. exists a, b. split; [exists from; auto|]. injection H as _ _ H.
      destruct o as [|[]| |]; try discriminate H; injection H as <-; auto.
    + unfold handle_score in H. neither. destruct (ln_addr from); [|injection H as _ _ H; congruence]. destruct (update_peer_score _ _ _ _).
      injection H as _ _ H. now apply logged_none in H.
    + unfold handle_micro in H. neither. destruct (ln_addr from), m; try (injection H as _ _ H; congruence). destruct (exec _ _ _ _).
      injection H as _ _ H. now apply logged_none in H.
    + unfold handle_block_message in H. destruct b as [b|]; [|injection H as <- <- <-; neither; reflexivity].
      unfold handle_block in H. destruct (ln_addr from) as [a|] eqn:A; [|injection H as <- <- <-; neither; reflexivity].
      destruct (exec _ _ _ _) as [l o]. right. left. exists a, b. split; [exists from; auto|]. injection H as _ _ H.
      destruct o as [|[]| |]; try discriminate H; injection H as <-; auto.
    + unfold handle_block_ids in H. destruct (ln_addr from) as [a|] eqn:A; [destruct ids|]; injection H as <- <- <-.
      * neither. reflexivity.
      * left. exists a, (i :: ids). split; [exists from; split; [exact A|right; split; [discriminate|reflexivity]]|reflexivity].
      * neither. reflexivity.
  - neither. destruct i as [from h|from|]; cbn [handle_info] in H.
    + unfold handle_connected in H. destruct (ln_addr from); [|injection H as _ _ H; congruence]. destruct (register_peer _ _ _ _ _ _ _) as [[? ?] ?].
      injection H as _ _ H. now apply logged_none in H.
    + unfold handle_error in H. destruct (ln_addr from); [|injection H as _ _ H; congruence]. destruct (unregister_peer _ _ _ _).
      injection H as _ _ H. now apply logged_none in H.
    + injection H as _ _ H. congruence.
  - neither. injection H as _ _ H. congruence.
Qed.

Lemma serves : forall cfg g srt ord l d d' ss ps o, handle_all cfg g srt ord d l = (d', ss, ps, o) ->
  exists l1 l2, l = l1 ++ l2 /\ served (map snd l1) ps /\ (o = Ok tt -> l2 = []) /\ (o <> Ok tt -> l2 <> []).
Proof.
  intros cfg g srt ord l. induction l as [|[x r] l IH]; intros d d' ss ps o H; cbn [handle_all] in H.
  - injection H as <- <- <- <-. exists [], []. repeat split; auto using served_nil.
  - destruct (handle _ _ _ _ _ _ _) as [[d1 ss1] [p|e| |]] eqn:E.
    + destruct (handle_all _ _ _ _ _ l) as [[[d2 ss2] ps2] o2] eqn:E2. injection H as <- <- <- <-.
      destruct (IH _ _ _ _ _ E2) as (l1 & l2 & -> & S1 & N1 & N2). exists ((x, r) :: l1), l2. cbn [app map snd]. split; [reflexivity|].
      split; [|auto]. destruct (handle_sends E) as [(a & ids & A & ->)|[(a & b & A & [-> | ->])|(A & B & ->)]].
      * exact (served_ids A S1).
      * exact (served_block A S1).
      * exact (served_kept A S1).
      * exact (served_none A B S1).
    + injection H as <- <- <- <-. exists [], ((x, r) :: l). repeat split; auto using served_nil; congruence.
    + injection H as <- <- <- <-. exists [], ((x, r) :: l). repeat split; auto using served_nil; congruence.
    + injection H as <- <- <- <-. exists [], ((x, r) :: l). repeat split; auto using served_nil; congruence.
Qed.

(** * C84 *)
(** Whatever arrives, the packages are those of the arrivals handled so far: all of them, unless one of them crashed the process. *)
Theorem C84_served : forall cfg g srt ord l d d' ss ps o, handle_all cfg g srt ord d l = (d', ss, ps, o) ->
  exists l1 l2, l = l1 ++ l2 /\ served (map snd l1) ps /\ (o = Ok tt -> l2 = []) /\ (o <> Ok tt -> l2 <> []).
Proof. exact serves. Qed.
Print Assumptions C84_served.

(** What is announced changes neither store and answers nothing. *)
Theorem C84_announced : forall cfg g srt ord x d r a ids, announces r a ids -> handle cfg g srt ord x d r = (d, [], Ok (Some (PIDs a ids))).
Proof.
  intros cfg g srt ord x d r a ids (from & A & [-> | [N ->]]); cbn [handle handle_message].
  - unfold handle_signatures. rewrite A. reflexivity.
  - unfold handle_block_ids. rewrite A. destruct ids; [congruence|reflexivity].
Qed.
Print Assumptions C84_announced.

(** The list a package carries has an ID, unless it came as signatures: there no such check is made. *)
Theorem C84_empty : forall cfg g srt ord x d r d' ss a, handle cfg g srt ord x d r = (d', ss, Ok (Some (PIDs a []))) ->
  exists from, ln_addr from = Some a /\ r = AMessage from (MSignatures []).
Proof.
  intros cfg g srt ord x d r d' ss a H. destruct (handle_sends H) as [(a' & ids & A & E)|[(a' & b & A & [E | E])|(A & B & E)]]; try discriminate E.
  injection E as <- <-. destruct A as (from & F & [-> | [N _]]); [|congruence]. now exists from.
Qed.
Print Assumptions C84_empty.

Example C84_example :
  let l := map (fun r => (fine, r))
             [AMessage (on pa (PeersProps.line hgood)) (MBlockIds []); AMessage (on pa (PeersProps.line hgood)) (MSignatures []);
              AMessage (on pb (line2 hgood)) (MBlockIds [xid 1]); AMessage (on pa (PeersProps.line hgood)) (MBlock None);
              APing; AMessage (on pa (PeersProps.line hgood)) (MBlock (Some (xblk 1 0)))] in
  match handle_all xcfg xg same same xd l with (_, _, ps, o) => o = Ok tt /\ ps = [PIDs pa []; PIDs pb [xid 1]; PBlock pa (xblk 1 0)] end.
Proof. vm_compute. auto. Qed.
