(** The lists of peers (C82): who is in them, and in which order. *)
From Coq Require Import Strings.Byte.
From Verif Require Import Base Kv BytesFacts ChainModel ChainSpec ForkProofs PeersModel PeersSpec PeersProofs PeersCalls PeersProps OrderProps.
Set Implicit Arguments.
Unset Strict Implicit.

(** The order of Go strings: [u] is an initial part of [v], or has the smaller byte at the first difference. *)
Definition dictionary (u v : bytes) : Prop :=
  (exists s, v = u ++ s) \/ exists pre a b s t, u = pre ++ a :: s /\ v = pre ++ b :: t /\ (Byte.to_N a < Byte.to_N b)%N.
(** Sorted by the upper-cased names: of any two entries, the first comes first. *)
Definition by_name (up : bytes -> bytes) (ps : list Peer) : Prop :=
  forall pre p mid q post, ps = pre ++ p :: mid ++ q :: post -> dictionary (up (p_name p)) (up (p_name q)).

Lemma not_less_dictionary : forall v u, bltb v u = false -> dictionary u v.
Proof.
  induction v as [|b v IH]; intros u H; unfold bltb in H; destruct u as [|a u]; cbn [bcmp] in H; try discriminate.
  - left. exists []. reflexivity.
  - left. exists (b :: v). reflexivity.
  - unfold byte_cmp in H. destruct (N.compare_spec (Byte.to_N b) (Byte.to_N a)) as [E|L|L]; [|discriminate|].
    + assert (b = a) by (apply (f_equal Byte.of_N) in E; rewrite !Byte.of_to_N in E; congruence). subst b.
      destruct (IH u) as [[s ->]|(pre & x & y & s & t & -> & -> & X)]; [exact H| |].
      * left. exists s. reflexivity.
      * right. exists (a :: pre), x, y, s, t. auto.
    + right. exists [], a, b, u, v. auto.
Qed.
Lemma sorted_by_name : forall cfg srt l, sorts (name_less cfg) srt -> by_name (g_upper cfg) (srt l).
Proof.
  intros cfg srt l S pre p mid q post E. destruct (S l) as [_ SS]. rewrite E in SS. clear E. induction pre as [|x pre IH]; cbn [app] in SS.
  - apply StronglySorted_inv in SS as [_ F]. rewrite Forall_forall in F. apply not_less_dictionary. apply (F q). apply in_or_app. right. now left.
  - apply StronglySorted_inv in SS as [SS _]. now apply IH.
Qed.

(** * C82 *)

(** Peers, FriendlyPeers and Connections are sorted by name, regardless of case. *)
Theorem C82_sorted : forall cfg ord srt r ps, sorts (name_less cfg) srt ->
  reg_peers srt r = Ok ps \/ friendly_peers srt r = Ok ps \/ connections ord srt r = Ok ps -> by_name (g_upper cfg) ps.
Proof.
  intros cfg ord srt r ps S [E|[E|E]].
  - unfold reg_peers in E. destruct (all_peers (r_db r)) as [l| | |]; try discriminate. injection E as <-. now apply sorted_by_name.
  - unfold friendly_peers in E. destruct (all_peers (r_db r)) as [l| | |]; try discriminate. injection E as <-. now apply sorted_by_name.
  - unfold connections in E. destruct (mapM _ _) as [l| | |]; try discriminate. injection E as <-. now apply sorted_by_name.
Qed.
Print Assumptions C82_sorted.
(** FriendlyPeers returns the records in state Connected, each one once. *)
Theorem C82_friends : forall cfg ops r srt, rreach cfg ops r -> permutes srt -> exists ps, friendly_peers srt r = Ok ps /\
  NoDup (map p_addr ps) /\ forall p, In p ps <-> ip4 (p_addr p) /\ reg_peer r (p_addr p) = Ok p /\ p_state p = PeerConnected.
Proof.
  intros cfg ops r srt R PS. destruct (@C38_peers cfg ops r (fun l => l) R (fun l => Permutation_refl l)) as (ps & E & ND & IN).
  unfold reg_peers in E. unfold friendly_peers. destruct (all_peers (r_db r)) as [l| | |]; try discriminate. cbn [bind] in *. injection E as ->.
  exists (srt (filter is_friend ps)). split; [reflexivity|]. split.
  - eapply Permutation_NoDup; [apply Permutation_map, Permutation_sym, PS|]. clear IN. induction ps as [|p ps IH]; cbn [filter map]; [constructor|].
    inversion ND as [|? ? N1 N2]; subst. destruct (is_friend p); [|now apply IH]. cbn [map]. constructor; [|now apply IH].
    intros X. apply N1. apply in_map_iff in X as (q & <- & Q). apply filter_In in Q as [Q _]. now apply in_map.
  - intros p. assert (Q : In p (srt (filter is_friend ps)) <-> In p (filter is_friend ps)).
    { split; intros X; (eapply Permutation_in; [|exact X]); [apply PS|apply Permutation_sym, PS]. }
    rewrite Q, filter_In, IN. assert (X : is_friend p = true <-> p_state p = PeerConnected) by (unfold is_friend; destruct (p_state p); split; congruence).
    rewrite X. tauto.
Qed.
Print Assumptions C82_friends.
(** Addresses returns the address and the port of each of them, in the same order, and does not panic. *)
Theorem C82_addresses : forall cfg ops r srt, rreach cfg ops r -> permutes srt -> exists ps out, friendly_peers srt r = Ok ps /\
  addresses srt r = Ok out /\ Forall2 (fun p x => p_addr p = A4 (fst x) /\ p_port p = snd x) ps out.
Proof.
  intros cfg ops r srt R PS. destruct (@C82_friends cfg ops r srt R PS) as (ps & E & _ & IN). exists ps. unfold addresses. rewrite E. cbn [bind].
  assert (F : Forall (fun p => ip4 (p_addr p)) ps) by (apply Forall_forall; intros p I; now apply IN in I). clear IN E.
  induction F as [|p ps (b & P & _) F (out & _ & IH1 & IH2)]; cbn [mapM]; [exists []; repeat split; constructor|].
  exists ((b, p_port p) :: out). split; [reflexivity|]. unfold tcp_addr at 1. rewrite P. cbn [bind]. rewrite IH1. split; [reflexivity|]. constructor; auto.
Qed.
Print Assumptions C82_addresses.

(** Upper case for ASCII letters. *)
Definition up1 (b : byte) : byte := if (97 <=? Byte.to_N b)%N && (Byte.to_N b <=? 122)%N then byte_of (Byte.to_N b - 32) else b.
Definition ucfg : config :=
  {| g_scheme := g_scheme xcfg; g_versions := g_versions xcfg; g_declared := g_declared xcfg; g_cmp := g_cmp xcfg; g_upper := map up1 |}.
(** "b" and "A" come in this order by address, and the other way round by name; by bytes, "B" and "a" do. *)
Definition hnamed (n : bytes) : handshake := greet (ver 0 0 0) DeclEmpty x57 n.
Definition named (a : addr) (n : bytes) : rop := RRegister a (PeersProps.line (hnamed n)) (hnamed n) 0%Z true.
Definition lettered : list rop := [named pa [x42; x31]; named pb [x61]; RHostile (Some pme) true].
Lemma lettered_reach : rreach ucfg lettered (rrun ucfg lettered).
Proof. split; [wf_ops|reflexivity]. Qed.
Lemma isort_names : forall cfg, sorts (name_less cfg) (isort (name_less cfg)).
Proof.
  intros cfg. apply isort_sorts.
  - intros x y A. destruct (name_less cfg y x) eqn:B; auto. destruct C75_orders as (_ & _ & _ & _ & W). destruct (W cfg) as (I & T & _). rewrite <- (I x). symmetry. eapply T; eauto.
  - unfold name_less, bltb. intros x y z A B. set (a := g_upper cfg (p_name x)) in *. set (b := g_upper cfg (p_name y)) in *. set (c := g_upper cfg (p_name z)) in *.
    destruct (bcmp c a) eqn:C; auto. exfalso. destruct (bcmp b a) eqn:D; try discriminate.
    + apply bcmp_eq in D. rewrite D in B. now rewrite C in B.
    + apply bcmp_gt_lt in D. pose proof (@bcmp_lt_trans _ _ _ C D) as X. now rewrite X in B.
Qed.
Example C82_example : rreach ucfg lettered (rrun ucfg lettered) /\ sorts (name_less ucfg) (isort (name_less ucfg)) /\
  match friendly_peers (isort (name_less ucfg)) (rrun ucfg lettered) with Ok ps => map p_name ps | _ => [] end = [[x61]; [x42; x31]] /\
  match connections (fun l => l) (isort (name_less ucfg)) (rrun ucfg lettered) with Ok ps => map p_name ps | _ => [] end = [[x61]; [x42; x31]] /\
  match reg_peers (isort (name_less ucfg)) (rrun ucfg lettered) with Ok ps => length ps | _ => 0 end = 3 /\
  (exists x y, addresses (isort (name_less ucfg)) (rrun ucfg lettered) = Ok [(x, 0%N); (y, 0%N)] /\ A4 x = pb /\ A4 y = pa).
Proof.
  split; [apply lettered_reach|]. split; [apply isort_names|]. split; [vm_compute; reflexivity|]. split; [vm_compute; reflexivity|]. split; [vm_compute; reflexivity|].
  eexists _, _. split; [vm_compute; reflexivity|]. split; reflexivity.
Qed.
