(** More about the records of peers: which names can be stored (C38), namely those that are text by the definition of UTF-8 (RFC 3629,
    section 3), and the exact records of hostile peers (C34). *)
From Verif Require Import Base Kv ChainModel PeersModel PeersSpec PeersProofs PeersCalls PeersProps ChainSpec NetModel NetSpec.
Set Implicit Arguments.
Unset Strict Implicit.
Local Open Scope N_scope.

(** The code points of characters, and their bytes. *)
Definition scalar (c : N) : Prop := c < 55296 \/ 57344 <= c < 1114112.
Definition enc (c : N) : list N :=
  if c <? 128 then [c]
  else if c <? 2048 then [192 + c / 64; 128 + c mod 64]
  else if c <? 65536 then [224 + c / 4096; 128 + c / 64 mod 64; 128 + c mod 64]
  else [240 + c / 262144; 128 + c / 4096 mod 64; 128 + c / 64 mod 64; 128 + c mod 64].
Definition spells (s : bytes) (cs : list N) : Prop := Forall scalar cs /\ map Byte.to_N s = flat_map enc cs.

Lemma small : forall b, Byte.to_N b < 256.
Proof. intros b. destruct b; reflexivity. Qed.
Ltac dm := zify; Z.to_euclidean_division_equations; lia.
Lemma enc1 : forall a, a < 128 -> enc a = [a].
Proof. intros a A. unfold enc. destruct (a <? 128) eqn:E; [reflexivity|lia]. Qed.
Lemma enc2 : forall a b, 194 <= a < 224 -> 128 <= b < 192 -> scalar ((a - 192) * 64 + (b - 128)) /\ enc ((a - 192) * 64 + (b - 128)) = [a; b].
Proof.
  intros a b A B. split; [left; lia|]. unfold enc. destruct (_ <? 128) eqn:E; [lia|]. destruct (_ <? 2048) eqn:F; [|lia].
  f_equal; [|f_equal]; dm.
Qed.
Lemma enc3 : forall a b c, 224 <= a < 240 -> 128 <= b < 192 -> 128 <= c < 192 -> (a = 224 -> 160 <= b) -> (a = 237 -> b < 160) ->
  scalar ((a - 224) * 4096 + (b - 128) * 64 + (c - 128)) /\ enc ((a - 224) * 4096 + (b - 128) * 64 + (c - 128)) = [a; b; c].
Proof.
  intros a b c A B C X Y. split; [unfold scalar; lia|]. unfold enc. destruct (_ <? 128) eqn:E; [lia|]. destruct (_ <? 2048) eqn:F; [lia|]. destruct (_ <? 65536) eqn:G; [|lia].
  f_equal; [|f_equal; [|f_equal]]; dm.
Qed.
Lemma enc4 : forall a b c d, 240 <= a < 245 -> 128 <= b < 192 -> 128 <= c < 192 -> 128 <= d < 192 -> (a = 240 -> 144 <= b) -> (a = 244 -> b < 144) ->
  scalar ((a - 240) * 262144 + (b - 128) * 4096 + (c - 128) * 64 + (d - 128)) /\
  enc ((a - 240) * 262144 + (b - 128) * 4096 + (c - 128) * 64 + (d - 128)) = [a; b; c; d].
Proof.
  intros a b c d A B C D X Y. split; [unfold scalar; lia|]. unfold enc. destruct (_ <? 128) eqn:E; [lia|]. destruct (_ <? 2048) eqn:F; [lia|]. destruct (_ <? 65536) eqn:G; [lia|].
  f_equal; [|f_equal; [|f_equal; [|f_equal]]]; dm.
Qed.
Lemma spells_more : forall p s c cs, scalar c -> enc c = map Byte.to_N p -> spells s cs -> spells (p ++ s) (c :: cs).
Proof. intros p s c cs C E [F S]. split; [now constructor|]. cbn [flat_map]. rewrite map_app. now rewrite E, S. Qed.
Ltac rng := repeat match goal with H : _ && _ = true |- _ => apply andb_true_iff in H as [? ?] | H : _ || _ = true |- _ => apply orb_true_iff in H as [?|?] end;
  unfold in_range in *; repeat match goal with b : byte |- _ => match goal with H : Byte.to_N b < 256 |- _ => fail 1 | _ => pose proof (small b) end end; lia.
Lemma valid_spells : forall n s, (length s <= n)%nat -> utf8_valid s = true -> exists cs, spells s cs.
Proof.
  induction n as [|n IH]; intros s L V; [destruct s; [exists []; split; [constructor|reflexivity]|cbn in L; lia]|].
  destruct s as [|a s]; [exists []; split; [constructor|reflexivity]|]. cbn [utf8_valid] in V. cbn [length] in L.
  destruct (in_range 0 127 a) eqn:R1.
  { destruct (IH s) as [cs S]; [lia|exact V|]. exists (Byte.to_N a :: cs). apply (@spells_more [a]); auto; [unfold scalar; rng|]. apply enc1. rng. }
  destruct s as [|b s]; [discriminate V|]. cbn [length] in L. destruct (in_range 194 223 a) eqn:R2.
  { apply andb_true_iff in V as [B V]. destruct (IH s) as [cs S]; [lia|exact V|]. destruct (@enc2 (Byte.to_N a) (Byte.to_N b)) as [X Y]; [rng..|].
    eexists. exact (@spells_more [a; b] s _ cs X Y S). }
  destruct s as [|c s]; [discriminate V|]. cbn [length] in L.
  assert (K3 : 224 <= Byte.to_N a < 240 -> 128 <= Byte.to_N b < 192 -> 128 <= Byte.to_N c < 192 -> (Byte.to_N a = 224 -> 160 <= Byte.to_N b) -> (Byte.to_N a = 237 -> Byte.to_N b < 160) -> utf8_valid s = true -> exists cs, spells (a :: b :: c :: s) cs).
  { intros A B C X Y W. destruct (IH s) as [cs S]; [lia|exact W|]. destruct (@enc3 _ _ _ A B C X Y) as [P Q]. eexists. exact (@spells_more [a; b; c] s _ cs P Q S). }
  destruct (in_range 224 224 a) eqn:R3; [apply andb_true_iff in V as [V W]; apply K3; auto; rng|].
  destruct (in_range 225 236 a || in_range 238 239 a) eqn:R4; [apply andb_true_iff in V as [V W]; apply K3; auto; rng|].
  destruct (in_range 237 237 a) eqn:R5; [apply andb_true_iff in V as [V W]; apply K3; auto; rng|]. clear K3.
  destruct s as [|d s]; [discriminate V|]. cbn [length] in L.
  assert (K4 : 240 <= Byte.to_N a < 245 -> 128 <= Byte.to_N b < 192 -> 128 <= Byte.to_N c < 192 -> 128 <= Byte.to_N d < 192 -> (Byte.to_N a = 240 -> 144 <= Byte.to_N b) -> (Byte.to_N a = 244 -> Byte.to_N b < 144) -> utf8_valid s = true ->
    exists cs, spells (a :: b :: c :: d :: s) cs).
  { intros A B C D X Y W. destruct (IH s) as [cs S]; [lia|exact W|]. destruct (@enc4 _ _ _ _ A B C D X Y) as [P Q]. eexists. exact (@spells_more [a; b; c; d] s _ cs P Q S). }
  destruct (in_range 240 240 a) eqn:R6; [apply andb_true_iff in V as [V W]; apply K4; auto; rng|].
  destruct (in_range 241 243 a) eqn:R7; [apply andb_true_iff in V as [V W]; apply K4; auto; rng|].
  destruct (in_range 244 244 a) eqn:R8; [apply andb_true_iff in V as [V W]; apply K4; auto; rng|discriminate V].
Qed.
Lemma in_yes : forall lo hi b n, Byte.to_N b = n -> lo <= n <= hi -> in_range lo hi b = true.
Proof. intros lo hi b n <- H. unfold in_range. lia. Qed.
Lemma in_no : forall lo hi b n, Byte.to_N b = n -> n < lo \/ hi < n -> in_range lo hi b = false.
Proof. intros lo hi b n <- H. unfold in_range. lia. Qed.
Ltac bit := repeat match goal with
  | X : Byte.to_N ?b = ?n |- context [in_range ?lo ?hi ?b] => first [rewrite (@in_no lo hi b n X) by lia|rewrite (@in_yes lo hi b n X) by lia]; cbn [andb orb]
  end.
Lemma cons_eq : forall A (a b : A) l m, a :: l = b :: m -> a = b /\ l = m.
Proof. intros A a b l m E. now injection E. Qed.
Lemma split2 : forall c, c = c / 64 * 64 + c mod 64 /\ c mod 64 < 64.
Proof. intros c. split; dm. Qed.
Lemma split3 : forall c, c = c / 4096 * 4096 + c / 64 mod 64 * 64 + c mod 64 /\ c / 64 mod 64 < 64 /\ c mod 64 < 64.
Proof. intros c. repeat split; dm. Qed.
Lemma split4 : forall c, c = c / 262144 * 262144 + c / 4096 mod 64 * 4096 + c / 64 mod 64 * 64 + c mod 64 /\ c / 4096 mod 64 < 64 /\ c / 64 mod 64 < 64 /\ c mod 64 < 64.
Proof. intros c. repeat split; dm. Qed.
Lemma one_valid : forall s c r, scalar c -> map Byte.to_N s = enc c ++ r -> exists p q, s = p ++ q /\ map Byte.to_N q = r /\ (utf8_valid q = true -> utf8_valid s = true).
Proof.
  intros s c r C E. unfold scalar in C. unfold enc in E. destruct (c <? 128) eqn:A.
  { destruct s as [|x1 s]; [discriminate E|]. cbn [map app] in E. apply cons_eq in E as [X1 E]. exists [x1], s. split; [reflexivity|]. split; [exact E|]. intros V. cbn [utf8_valid].
    rewrite (@in_yes 0 127 x1 _ X1) by lia. exact V. }
  destruct (c <? 2048) eqn:B.
  { destruct s as [|x1 [|x2 s]]; try discriminate E. cbn [map app] in E. apply cons_eq in E as [X1 E]. apply cons_eq in E as [X2 E]. exists [x1; x2], s. split; [reflexivity|]. split; [exact E|].
    intros V. cbn [utf8_valid]. rewrite V. clear E V. destruct (split2 c) as [S D]. revert X1 X2 S D.
    generalize (c / 64) (c mod 64). intros h d X1 X2 S D. bit. reflexivity. }
  destruct (c <? 65536) eqn:D.
  { destruct s as [|x1 [|x2 [|x3 s]]]; try discriminate E. cbn [map app] in E. apply cons_eq in E as [X1 E]. apply cons_eq in E as [X2 E]. apply cons_eq in E as [X3 E].
    exists [x1; x2; x3], s. split; [reflexivity|]. split; [exact E|]. intros V. cbn [utf8_valid].
    rewrite V. clear E V. destruct (split3 c) as (S & M & L). revert X1 X2 X3 S M L.
    generalize (c / 4096) (c / 64 mod 64) (c mod 64). intros h m d X1 X2 X3 S M L.
    assert (H : h = 0 /\ 32 <= m \/ 1 <= h < 13 \/ h = 13 /\ m < 32 \/ 14 <= h < 16) by lia. clear - X1 X2 X3 H M L. destruct H as [H|[H|[H|H]]]; bit; reflexivity. }
  destruct s as [|x1 [|x2 [|x3 [|x4 s]]]]; try discriminate E. cbn [map app] in E. apply cons_eq in E as [X1 E]. apply cons_eq in E as [X2 E]. apply cons_eq in E as [X3 E]. apply cons_eq in E as [X4 E].
  exists [x1; x2; x3; x4], s. split; [reflexivity|]. split; [exact E|]. intros V. cbn [utf8_valid].
  rewrite V. clear E V. destruct (split4 c) as (S & Q & M & L). revert X1 X2 X3 X4 S Q M L.
  generalize (c / 262144) (c / 4096 mod 64) (c / 64 mod 64) (c mod 64). intros h q m d X1 X2 X3 X4 S Q M L.
  assert (H : h = 0 /\ 16 <= q \/ 1 <= h < 4 \/ h = 4 /\ q < 16) by lia. clear - X1 X2 X3 X4 H Q M L. destruct H as [H|[H|H]]; bit; reflexivity.
Qed.
Lemma spells_valid : forall cs s, spells s cs -> utf8_valid s = true.
Proof.
  induction cs as [|c cs IH]; intros s [F E]; [destruct s; [reflexivity|discriminate E]|]. cbn [flat_map] in E. destruct (one_valid (Forall_inv F) E) as (p & q & -> & Q & V).
  apply V, IH. split; [exact (Forall_inv_tail F)|exact Q].
Qed.

(** * C38 *)
(** A record of an IPv4 peer can be stored exactly when the name is text. *)
Theorem C38_names : forall d p, ip4 (p_addr p) -> ((exists d', put_peer d p true = Ok d') <-> exists cs, spells (p_name p) cs).
Proof.
  intros d p IP. split.
  - intros [d' H]. destruct (put_peer_inv H) as (b & _ & V & _). exact (valid_spells (Nat.le_refl _) V).
  - intros [cs S]. apply C38_can_be_stored; [exact IP|]. exact (spells_valid S).
Qed.
Print Assumptions C38_names.
(** U+1F600 and "é" are text; an encoded surrogate (ED A0 80), an overlong "/" (C0 AF) and a lone FF are not. *)
Example C38_names_example : spells [xf0; x9f; x98; x80; xc3; xa9] [128512; 233] /\
  (forall cs, ~ spells [xed; xa0; x80] cs) /\ (forall cs, ~ spells [xc0; xaf] cs) /\ (forall cs, ~ spells [xff] cs).
Proof.
  split; [split; [repeat constructor; unfold scalar; lia|reflexivity]|].
  repeat split; intros cs H; apply spells_valid in H; vm_compute in H; discriminate H.
Qed.

(** * C34 *)
Definition with_fields (p : Peer) (a : addr) (port : N) (name : bytes) (v : version) : Peer :=
  {| p_addr := a; p_port := port; p_nonce := p_nonce p; p_name := name; p_version := v; p_state := PeerHostile; p_next := p_next p;
     p_score := p_score p; p_conn := None |}.
(** The record of an incompatible peer: "name(application)", the version of the handshake, and the rest as it was. *)
Theorem C34_record : forall cfg ops r now a np h p r' o c, rreach cfg ops r -> ip4 a -> a <> g_declared cfg -> reg_peer r a = Ok p ->
  incompatible cfg (p_version p) (co_hs np) -> register_peer cfg r now true a np h = (r', o, c) ->
  o = Ok tt -> reg_peer r' a = Ok (with_fields p a (p_port p) (hs_name (co_hs np) ++ [x28] ++ hs_app (co_hs np) ++ [x29]) (hs_version (co_hs np))).
Proof.
  intros cfg ops r now a np h p r' o c R A ND G IC E O. apply rreach_inv in R. rewrite (register_incompatible now true h A ND G IC) in E.
  assert (PA : p_addr p = a) by (eapply get_peer_fields, G). injection E as E _.
  destruct (@finish_own _ (hostile_peer p (co_hs np)) true a (inv_del_pending a R) PA A) as [(_ & _ & _ & K)|(K & _)]; [|rewrite E in K; cbn [snd] in K; congruence].
  rewrite E in K. cbn [fst] in K. rewrite K. f_equal. unfold PeersCalls.stored, of_value, to_value, with_fields. cbn. rewrite (whole_seconds G). now rewrite PA.
Qed.
Print Assumptions C34_record.
(** MarkAsHostile: the peer is hostile, with the port 0 and the rest as it was; it is not pending; its connection stays, and so do the
    other peers. *)
Theorem C34_marked : forall cfg ops r a, rreach cfg ops r -> ip4 a -> exists r', mark_as_hostile r true (Some a) = (r', Ok tt) /\
  reg_peer r' a = Ok (match reg_peer r a with Ok p => with_fields p a 0 (p_name p) (p_version p) | _ => with_fields zero_peer a 0 [] zero_version end) /\
  (forall b, ip4 b -> b <> a -> reg_peer r' b = reg_peer r b) /\ ~ pending r' a /\ (forall b, b <> a -> (pending r' b <-> pending r b)) /\
  (forall b, connected r' b <-> connected r b).
Proof.
  intros cfg ops r a R A. apply rreach_inv in R. unfold mark_as_hostile. cbn [r_db]. pose proof (inv_del_pending a R) as I.
  set (r1 := {| r_db := r_db r; r_conns := r_conns r; r_pending := del_addr a (r_pending r) |}) in *.
  assert (F : forall p, utf8_valid (p_name p) = true -> (p_next p / second * second)%Z = p_next p -> exists r', finish r1 (mark_peer p a) true = (r', Ok tt) /\
    reg_peer r' a = Ok (with_fields p a 0 (p_name p) (p_version p)) /\ (forall b, ip4 b -> b <> a -> reg_peer r' b = reg_peer r b) /\ ~ pending r' a /\
    (forall b, b <> a -> (pending r' b <-> pending r b)) /\ (forall b, connected r' b <-> connected r b)).
  { intros p U N. destruct (@finish_ok r1 (mark_peer p a) a I eq_refl A U) as (r' & E & G & C & P & O). exists r'. split; [exact E|].
    split; [rewrite G; f_equal; unfold PeersCalls.stored, of_value, to_value, with_fields; cbn; now rewrite N|]. split; [exact O|].
    unfold pending, connected. rewrite C, P. cbn [r1 r_conns r_pending]. split; [rewrite del_addr_In; tauto|]. split; [intros b NB; rewrite del_addr_In; tauto|tauto]. }
  assert (N0 : a <> AZero) by (destruct A as (b & -> & _); discriminate).
  destruct (get_peer_returns (r_db r) N0) as (o & Q & [[p P]|P]); unfold reg_peer at 2; rewrite Q, P.
  - apply F; [rewrite P in Q; exact (get_peer_name R Q)|rewrite P in Q; exact (@whole_seconds r a p Q)].
  - apply F; reflexivity.
Qed.
Print Assumptions C34_marked.
Example C34_record_example : match reg_peer (fst (mark_as_hostile (rrun xcfg joined) true (Some pa))) pa with Ok p => (p_port p, p_state p, p_version p) | _ => (1, PeerUnknown, zero_version) end = (0, PeerHostile, ver 1 5 3) /\
  match reg_peer (rrun xcfg shunned) pa with Ok p => p_state p | _ => PeerUnknown end = PeerHostile.
Proof. split; vm_compute; reflexivity. Qed.

(** * C69 *)
(** The ping of the distributor asks every connected peer for peers, once, over its recorded connection. *)
Theorem C69_ping : forall cfg g srt ord ops rops d x, dreach cfg g ops rops d -> permutes ord ->
  exists peers, handle cfg g srt ord x d APing = (d, map (fun e => SGetPeers (snd e)) peers, Ok None) /\ NoDup (map fst peers) /\
    (forall a, In a (map fst peers) <-> connected (d_reg d) a) /\ forall a c, In (a, c) peers <-> In (a, c) (r_conns (d_reg d)).
Proof.
  intros cfg g srt ord ops rops d x [_ R] P. apply rreach_inv in R. specialize (P (r_conns (d_reg d))). exists (ord (r_conns (d_reg d))).
  split; [cbn [handle]; unfold ping, broadcast; now rewrite map_map|]. split; [eapply Permutation_NoDup; [apply Permutation_map, Permutation_sym, P|apply R]|].
  split; intros a; [|intros c]; (split; apply Permutation_in; [|apply Permutation_sym]); try exact P; apply Permutation_map; exact P.
Qed.
Print Assumptions C69_ping.
Example C69_ping_example : forall lk g x, handle xcfg g (fun ps => ps) (fun cs => cs) x {| d_lk := lk; d_reg := rrun xcfg joined |} APing =
  ({| d_lk := lk; d_reg := rrun xcfg joined |}, [SGetPeers (PeersProps.line hgood)], Ok None).
Proof. intros lk g x. vm_compute. reflexivity. Qed.
