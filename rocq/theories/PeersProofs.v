(** Proofs about the peers registry. *)
From Coq Require Import Strings.Byte.
From Verif Require Import Base Kv BytesFacts KvFacts ChainModel ChainSpec ChainProofs ChainForks PeersModel PeersSpec.
Set Implicit Arguments.
Unset Strict Implicit.

(** * Small facts *)
Lemma addr_eqb_spec : forall a b, reflect (a = b) (addr_eqb a b).
Proof. intros. destruct (addr_eqb a b) eqn:E; constructor; [now apply addr_eqb_eq|]. intros Q. apply addr_eqb_eq in Q. congruence. Qed.
Lemma addr_eqb_refl : forall a, addr_eqb a a = true.
Proof. intros. now apply addr_eqb_eq. Qed.
Lemma has_addr_spec : forall a l, has_addr a l = true <-> In a l.
Proof.
  intros. unfold has_addr. rewrite existsb_exists. split.
  - intros (x & I & E). apply addr_eqb_eq in E. now subst.
  - intros I. exists a. split; auto. apply addr_eqb_refl.
Qed.
Lemma has_conn_spec : forall a (l : list (addr * conn)), has_conn a l = true <-> In a (map fst l).
Proof.
  intros. unfold has_conn. rewrite existsb_exists, in_map_iff. split.
  - intros (x & I & E). apply addr_eqb_eq in E. exists x. auto.
  - intros (x & E & I). exists x. split; auto. subst. apply addr_eqb_refl.
Qed.
Lemma del_addr_In : forall a l x, In x (del_addr a l) <-> In x l /\ x <> a.
Proof.
  intros. unfold del_addr. rewrite filter_In. destruct (addr_eqb_spec a x); cbn; intuition (subst; try discriminate; try congruence).
Qed.
Lemma del_conn_In : forall a l x, In x (del_conn a l) <-> In x l /\ fst x <> a.
Proof.
  intros. unfold del_conn. rewrite filter_In. destruct (addr_eqb_spec a (fst x)); cbn; intuition (subst; try discriminate; try congruence).
Qed.
Lemma del_conn_keys : forall a l x, In x (map fst (del_conn a l)) <-> In x (map fst l) /\ x <> a.
Proof.
  intros. rewrite !in_map_iff. split.
  - intros (y & <- & I). apply del_conn_In in I as [I N]. split; auto. exists y. auto.
  - intros [(y & <- & I) N]. exists y. split; auto. apply del_conn_In. auto.
Qed.
Lemma set_conn_keys : forall a c l x, In x (map fst (set_conn a c l)) <-> In x (map fst l) \/ x = a.
Proof.
  intros. unfold set_conn. rewrite map_app, in_app_iff, del_conn_keys. cbn. destruct (addr_eqb_spec x a); intuition congruence.
Qed.
Lemma NoDup_fst_filter : forall (f : addr * conn -> bool) l, NoDup (map fst l) -> NoDup (map fst (filter f l)).
Proof.
  induction l as [|x l IH]; intros ND; cbn [filter map] in *; [constructor|]. inversion ND; subst.
  destruct (f x); auto. cbn [map]. constructor; auto. intros I. apply H1. apply in_map_iff in I as (y & E & I).
  apply filter_In in I as [I _]. apply in_map_iff. eauto.
Qed.
Lemma NoDup_app_one : forall A (l : list A) x, NoDup l -> ~ In x l -> NoDup (l ++ [x]).
Proof.
  intros. eapply Permutation_NoDup; [apply Permutation_cons_append|]. now constructor.
Qed.
Lemma set_conn_NoDup : forall a c l, NoDup (map fst l) -> NoDup (map fst (set_conn a c l)).
Proof.
  intros. unfold set_conn. rewrite map_app. cbn [map fst]. apply NoDup_app_one; [now apply NoDup_fst_filter|].
  intros I. apply del_conn_keys in I. tauto.
Qed.

Lemma utf8_app : forall a b, utf8_valid a = true -> utf8_valid b = true -> utf8_valid (a ++ b) = true.
Proof.
  intros a b. remember (length a) as n. assert (L : length a <= n) by lia. clear Heqn. revert a L.
  induction n as [|n IH]; intros a L VA VB.
  - destruct a; [exact VB|cbn in L; lia].
  - destruct a as [|x1 s1]; [exact VB|]. cbn [app]. cbn [utf8_valid] in *. cbn [length] in L.
    destruct (in_range 0 127 x1); [apply IH; auto; lia|].
    destruct s1 as [|x2 s2]; [discriminate|]. cbn [app length] in *.
    destruct (in_range 194 223 x1). { apply andb_true_iff in VA as [-> VA]. cbn [andb]. apply IH; auto; lia. }
    destruct s2 as [|x3 s3]; [discriminate|]. cbn [app length] in *.
    destruct (in_range 224 224 x1).
    { apply andb_true_iff in VA as [-> VA]. cbn [andb]. apply IH; auto; lia. }
    destruct (in_range 225 236 x1 || in_range 238 239 x1).
    { apply andb_true_iff in VA as [-> VA]. cbn [andb]. apply IH; auto; lia. }
    destruct (in_range 237 237 x1).
    { apply andb_true_iff in VA as [-> VA]. cbn [andb]. apply IH; auto; lia. }
    destruct s3 as [|x4 s4]; [discriminate|]. cbn [app length] in *.
    destruct (in_range 240 240 x1).
    { apply andb_true_iff in VA as [-> VA]. cbn [andb]. apply IH; auto; lia. }
    destruct (in_range 241 243 x1).
    { apply andb_true_iff in VA as [-> VA]. cbn [andb]. apply IH; auto; lia. }
    destruct (in_range 244 244 x1); [|discriminate].
    apply andb_true_iff in VA as [-> VA]. cbn [andb]. apply IH; auto; lia.
Qed.

Lemma second_pos : (0 < second)%Z.
Proof. reflexivity. Qed.
Lemma round_whole : forall t, (round_second t / second * second)%Z = round_second t.
Proof. intros. unfold round_second. rewrite Z.div_mul by (pose proof second_pos; lia). reflexivity. Qed.
Lemma round_near : forall t, (t - second / 2 <= round_second t <= t + second / 2)%Z.
Proof.
  intros. unfold round_second. assert (P := second_pos). assert (Q := Z.div_mod (t + second / 2) second ltac:(lia)).
  assert (B := Z.mod_pos_bound (t + second / 2) second P). 
  change (second / 2)%Z with 500000000%Z in *. change second with 1000000000%Z in *. lia.
Qed.

(** * Storage *)
Definition whole (v : value) : Prop := True.
Lemma get_peer_A4 : forall d b, get_peer d (A4 b) = match kv_get b d with None => Err ENotFound | Some v => Ok (of_value (A4 b) v) end.
Proof. reflexivity. Qed.
Lemma put_peer_inv : forall d p w d', put_peer d p w = Ok d' ->
  exists b, p_addr p = A4 b /\ utf8_valid (p_name p) = true /\ w = true /\ d' = kv_put b (to_value p) d.
Proof.
  intros d p w d' H. unfold put_peer in H. destruct (p_addr p) as [|b|b z]; cbn [is4 negb] in H; try discriminate.
  destruct (utf8_valid (p_name p)); [|discriminate]. cbn [negb pkey bind] in H. destruct w; [|discriminate].
  injection H as <-. exists b. auto.
Qed.
Lemma put_peer_ok : forall d p b, p_addr p = A4 b -> utf8_valid (p_name p) = true ->
  put_peer d p true = Ok (kv_put b (to_value p) d).
Proof. intros d p b E U. unfold put_peer. rewrite E, U. reflexivity. Qed.
Lemma put_peer_returns : forall d p w, exists o, put_peer d p w = o /\ (forall d', o <> Ok d' -> True) /\ o <> Panic /\ o <> Diverge.
Proof.
  intros. eexists. split; [reflexivity|]. split; auto. unfold put_peer.
  destruct (p_addr p) as [|b|b z]; cbn; try (split; discriminate). destruct (utf8_valid _); cbn; [|split; discriminate].
  destruct w; split; discriminate.
Qed.

(** * The invariant *)
Record RInv (r : registry) : Prop := {
  I_sorted : ksorted (r_db r);
  I_keys : forall k v, In (k, v) (r_db r) -> length k = 4;
  I_conns : NoDup (map fst (r_conns r));
  I_conns4 : forall a, In a (map fst (r_conns r)) -> ip4 a;
  I_pending : NoDup (r_pending r);
  I_names : forall k v, In (k, v) (r_db r) -> utf8_valid (v_name v) = true
}.

Lemma finish_cases : forall r p w, 
  (exists b, p_addr p = A4 b /\ utf8_valid (p_name p) = true /\ w = true /\
     finish r p w = (with_pdb r (kv_put b (to_value p) (r_db r)), Ok tt)) \/
  (finish r p w = (r, Err EOther) /\ (ip4 (p_addr p) -> utf8_valid (p_name p) = true -> w = false)).
Proof.
  intros r p w. unfold finish. unfold put_peer. destruct (p_addr p) as [|b|b z] eqn:E; cbn [is4 negb].
  - right. split; auto. intros (b & Q & _). discriminate.
  - destruct (utf8_valid (p_name p)) eqn:U; cbn [negb].
    + cbn [pkey bind]. destruct w; [left; exists b; auto|right; auto].
    + right. split; auto. intros _ Q. discriminate.
  - right. split; auto. intros (b' & Q & _). discriminate.
Qed.

Lemma inv_put : forall r b p, RInv r -> length b = 4 -> utf8_valid (p_name p) = true ->
  RInv (with_pdb r (kv_put b (to_value p) (r_db r))).
Proof.
  intros r b p I L U. destruct I. constructor; cbn; auto.
  - now apply ksorted_put.
  - intros k v Q. apply In_put in Q as [Q|Q]; [injection Q as -> _; auto|eauto].
  - intros k v Q. apply In_put in Q as [Q|Q]; [injection Q as _ ->; auto|eauto].
Qed.
Lemma inv_maps : forall r c q, RInv r -> NoDup (map fst c) -> (forall a, In a (map fst c) -> ip4 a) -> NoDup q ->
  RInv {| r_db := r_db r; r_conns := c; r_pending := q |}.
Proof. intros r c q I A B C. destruct I. constructor; cbn; auto. Qed.
Lemma inv_finish : forall r p w, RInv r -> go_addr (p_addr p) -> RInv (fst (finish r p w)).
Proof.
  intros r p w I G. destruct (finish_cases r p w) as [(b & E & U & _ & ->)|[-> _]]; [|exact I].
  cbn [fst]. apply inv_put; auto. rewrite E in G. exact G.
Qed.
Lemma del_addr_NoDup : forall a l, NoDup l -> NoDup (del_addr a l).
Proof. intros. now apply NoDup_filter. Qed.
Lemma inv_del_pending : forall r a, RInv r -> RInv {| r_db := r_db r; r_conns := r_conns r; r_pending := del_addr a (r_pending r) |}.
Proof. intros r a I. apply inv_maps; auto; try apply I. apply del_addr_NoDup, I. Qed.

Lemma get_peer_fields : forall d a p, get_peer d a = Ok p -> p_addr p = a /\ p_conn p = None.
Proof.
  intros d a p H. unfold get_peer in H. destruct (pkey a); try discriminate. cbn [bind] in H.
  destruct (kv_get a0 d); [|discriminate]. injection H as <-. auto.
Qed.
Lemma get_peer_name : forall r a p, RInv r -> get_peer (r_db r) a = Ok p -> utf8_valid (p_name p) = true.
Proof.
  intros r a p I H. unfold get_peer in H. destruct (pkey a); try discriminate. cbn [bind] in H.
  destruct (kv_get a0 (r_db r)) eqn:E; [|discriminate]. injection H as <-. apply kv_get_In in E. cbn. eapply (I_names I), E.
Qed.
Lemma get_peer_returns : forall d a, a <> AZero -> exists o, get_peer d a = o /\ ((exists p, o = Ok p) \/ o = Err ENotFound).
Proof.
  intros d a N. eexists. split; [reflexivity|]. unfold get_peer. destruct a; [congruence| |]; cbn [pkey bind];
    match goal with |- context [kv_get ?k d] => destruct (kv_get k d) end; eauto.
Qed.

(** ** AppendAddresses *)
Definition db_ok (d : pdb) : Prop :=
  ksorted d /\ (forall k v, In (k, v) d -> length k = 4) /\ (forall k v, In (k, v) d -> utf8_valid (v_name v) = true).
Lemma db_ok_put : forall d b p, db_ok d -> length b = 4 -> utf8_valid (p_name p) = true -> db_ok (kv_put b (to_value p) d).
Proof.
  intros d b p (S & K & U) L V. split; [now apply ksorted_put|]. split; intros k v Q; apply In_put in Q as [Q|Q]; eauto.
  - injection Q as -> _. exact L.
  - injection Q as _ ->. exact V.
Qed.
Lemma append_new : forall cfg d b port l f n, f <> Some 0 -> is_loopback (A4 b) = false -> addr_eqb (A4 b) (g_declared cfg) = false ->
  kv_get b d = None ->
  append_loop cfg d (Some (A4 b, port) :: l) f n =
  append_loop cfg (kv_put b (to_value (fresh_peer (A4 b) port)) d) l (option_map pred f) (S n).
Proof.
  intros cfg d b port l f n F LB DE G. cbn [append_loop is4 negb]. rewrite LB, DE. unfold has_peer. cbn [pkey bind]. rewrite G.
  assert (E : (match f with Some 0 => false | _ => true end) = true) by (destruct f as [[|k]|]; congruence).
  rewrite E. rewrite put_peer_ok with (b := b) by reflexivity. reflexivity.
Qed.
Lemma append_cases : forall cfg d a port l f n,
  append_loop cfg d (Some (a, port) :: l) f n = append_loop cfg d l f n /\
    (~ acceptable cfg a \/ (exists b v, a = A4 b /\ kv_get b d = Some v) \/ ~ go_addr a) \/
  exists b, a = A4 b /\ kv_get b d = None /\ (go_addr a -> acceptable cfg a) /\
    (f = Some 0 /\ append_loop cfg d (Some (a, port) :: l) f n = (d, n) \/
     f <> Some 0 /\ append_loop cfg d (Some (a, port) :: l) f n =
                    append_loop cfg (kv_put b (to_value (fresh_peer a port)) d) l (option_map pred f) (S n)).
Proof.
  intros cfg d a port l f n.
  destruct a as [|b|b z].
  - left. split; [reflexivity|]. left. intros ((b & E & _) & _). discriminate.
  - destruct (is_loopback (A4 b)) eqn:LB.
    { left. split; [cbn [append_loop is4 negb]; now rewrite LB|]. left. intros (_ & _ & NL). destruct b as [|x b]; [discriminate|].
      apply (NL b). cbn [is_loopback] in LB. apply N.eqb_eq in LB. f_equal. f_equal.
      assert (Q := Byte.of_to_N x). rewrite LB in Q. cbn in Q. congruence. }
    destruct (addr_eqb (A4 b) (g_declared cfg)) eqn:DE.
    { left. split; [cbn [append_loop is4 negb]; now rewrite LB, DE|]. left. intros (_ & ND & _). apply addr_eqb_eq in DE. auto. }
    destruct (kv_get b d) as [v|] eqn:G.
    { left. split; [|right; left; eauto]. cbn [append_loop is4 negb]. rewrite LB, DE. unfold has_peer. cbn [pkey bind]. now rewrite G. }
    right. exists b. split; auto. split; auto. split.
    { intros L. split; [exists b; auto|]. split; [intros E; rewrite E, addr_eqb_refl in DE; discriminate|].
      intros b' E. injection E as ->. cbn in LB. discriminate. }
    destruct f as [[|k]|].
    + left. split; auto. cbn [append_loop is4 negb]. rewrite LB, DE. unfold has_peer. cbn [pkey bind]. now rewrite G.
    + right. split; [discriminate|]. now apply append_new.
    + right. split; [discriminate|]. now apply append_new.
  - left. split; [reflexivity|]. left. intros ((b' & E & _) & _). discriminate.
Qed.
Lemma append_inv : forall cfg l d f n d' n', db_ok d -> (forall a p, In (Some (a, p)) l -> go_addr a) ->
  append_loop cfg d l f n = (d', n') ->
  db_ok d' /\ (forall k v, kv_get k d = Some v -> kv_get k d' = Some v).
Proof.
  induction l as [|[[a port]|] l IH]; intros d f n d' n' D G H.
  - cbn [append_loop] in H. injection H as <- <-. auto.
  - assert (GA := G a port (or_introl eq_refl)).
    assert (G' : forall a p, In (Some (a, p)) l -> go_addr a) by (intros; eapply G; right; eauto).
    destruct (append_cases cfg d a port l f n) as [[E _]|(b & -> & N & _ & [[_ E]|[_ E]])]; rewrite E in H.
    + eapply IH; eauto.
    + injection H as <- <-. auto.
    + assert (D' : db_ok (kv_put b (to_value (fresh_peer (A4 b) port)) d)) by (apply db_ok_put; auto).
      destruct (IH _ _ _ _ _ D' G' H) as [A1 A2]. split; auto. intros k v Q. apply A2. rewrite kv_get_put_neq; auto. congruence.
  - cbn [append_loop] in H. eapply IH; eauto. intros; eapply G; right; eauto.
Qed.

(** ** TakeAvailableAddresses *)
Lemma all_peers_view : forall r, RInv r ->
  all_peers (r_db r) = Ok (map (fun b => of_value (A4 (fst b)) (snd b)) (r_db r)).
Proof.
  intros r I. unfold all_peers. assert (K := I_keys I). induction (r_db r) as [|[k v] d IH]; [reflexivity|].
  cbn [mapM fst snd map]. unfold pkey_addr at 1. rewrite (K k v) by now left. cbn [Nat.eqb bind].
  rewrite IH; [reflexivity|]. intros. eapply K. right. eauto.
Qed.
Lemma all_peers_In : forall r ps p, RInv r -> all_peers (r_db r) = Ok ps ->
  (In p ps <-> ip4 (p_addr p) /\ reg_peer r (p_addr p) = Ok p).
Proof.
  intros r ps p I H. rewrite (all_peers_view I) in H. injection H as <-. rewrite in_map_iff. split.
  - intros ([k v] & <- & Q). cbn [fst snd of_value p_addr]. split; [exists k; split; auto; eapply (I_keys I), Q|].
    unfold reg_peer. rewrite get_peer_A4. apply kv_In_iff in Q; [|apply I]. rewrite Q. reflexivity.
  - intros [(b & E & L) Q]. unfold reg_peer in Q. rewrite E, get_peer_A4 in Q. destruct (kv_get b (r_db r)) as [v|] eqn:G; [|discriminate].
    exists (b, v). cbn [fst snd]. split; [congruence|]. now apply kv_get_In.
Qed.
Lemma all_peers_NoDup : forall r ps, RInv r -> all_peers (r_db r) = Ok ps -> NoDup (map p_addr ps).
Proof.
  intros r ps I H. rewrite (all_peers_view I) in H. injection H as <-. rewrite map_map. cbn [of_value p_addr].
  assert (ND := ksorted_NoDup (I_sorted I)). induction (r_db r) as [|[k v] d IH]; [constructor|]. cbn [map fst] in *.
  inversion ND; subst. constructor; auto. intros Q. apply in_map_iff in Q as ([k' v'] & E & Q). cbn in E. injection E as ->.
  apply H1. apply in_map_iff. exists (k, v'). auto.
Qed.

Lemma take_loop_view : forall cfg clock conns ps pend out, NoDup (map p_addr ps) ->
  take_loop cfg clock conns ps pend out =
  (pend ++ map p_addr (filter (available cfg clock conns pend) ps),
   out ++ map (fun p => (p_addr p, p_port p)) (filter (available cfg clock conns pend) ps)).
Proof.
  induction ps as [|p ps IH]; intros pend out ND; cbn [take_loop filter map].
  - now rewrite !app_nil_r.
  - cbn [map] in ND. inversion ND; subst. destruct (available cfg clock conns pend p) eqn:A.
    + rewrite IH by assumption. cbn [map].
      assert (E : add_addr (p_addr p) pend = pend ++ [p_addr p]).
      { unfold add_addr. unfold available in A. repeat rewrite andb_true_iff in A. destruct A as [_ A].
        destruct (has_addr (p_addr p) pend); [discriminate|reflexivity]. }
      rewrite E.
      assert (F : filter (available cfg clock conns (pend ++ [p_addr p])) ps = filter (available cfg clock conns pend) ps).
      { apply filter_ext_in. intros q Q. unfold available. f_equal. f_equal.
        apply eq_true_iff_eq. rewrite !has_addr_spec, in_app_iff. cbn. split; auto. intros [X|[X|[]]]; auto.
        exfalso. apply H1. rewrite X. now apply in_map. }
      rewrite F. rewrite <- !app_assoc. reflexivity.
    + apply IH. assumption.
Qed.
Lemma available_spec : forall cfg clock r p, ip4 (p_addr p) -> reg_peer r (p_addr p) = Ok p ->
  (available cfg clock (r_conns r) (r_pending r) p = true <-> dialable cfg r clock (p_addr p) (p_port p)).
Proof.
  intros cfg clock r p I4 G. unfold available, dialable. repeat rewrite andb_true_iff. repeat rewrite negb_true_iff.
  assert (HC := has_conn_spec (p_addr p) (r_conns r)). assert (HP := has_addr_spec (p_addr p) (r_pending r)).
  fold (connected r (p_addr p)) in HC. fold (pending r (p_addr p)) in HP.
  split.
  - intros (((((A1 & A2) & A3) & A4) & A5) & A6). split; auto. split. { destruct (addr_eqb_spec (p_addr p) (g_declared cfg)); congruence. }
    split; [now apply N.eqb_neq|]. split; [intros C; apply HC in C; congruence|]. split; [intros C; apply HP in C; congruence|].
    exists p. split; auto. split; [destruct (p_state p); discriminate|]. split; auto. lia.
  - intros (_ & B1 & B2 & B3 & B4 & p' & B5 & B6 & B7 & B8). assert (p' = p) by congruence. subst p'.
    repeat split.
    + destruct (p_state p); congruence.
    + now apply N.eqb_neq.
    + destruct (addr_eqb_spec (p_addr p) (g_declared cfg)); congruence.
    + lia.
    + destruct (has_conn (p_addr p) (r_conns r)); auto. exfalso. now apply B3, HC.
    + destruct (has_addr (p_addr p) (r_pending r)); auto. exfalso. now apply B4, HP.
Qed.
Lemma take_view : forall cfg r clock, RInv r -> exists pend out,
  take_available cfg r clock = ({| r_db := r_db r; r_conns := r_conns r; r_pending := pend |}, Ok out) /\
  NoDup (map fst out) /\ (forall a port, In (a, port) out <-> dialable cfg r clock a port) /\
  NoDup pend /\ (forall a, In a pend <-> pending r a \/ exists port, In (a, port) out).
Proof.
  intros cfg r clock I. unfold take_available. destruct (all_peers (r_db r)) as [ps| | |] eqn:AP;
    try (rewrite (all_peers_view I) in AP; discriminate).
  rewrite (take_loop_view _ _ _ _ _ (all_peers_NoDup I AP)). cbn [app].
  set (sel := filter (available cfg clock (r_conns r) (r_pending r)) ps).
  exists (r_pending r ++ map p_addr sel), (map (fun p => (p_addr p, p_port p)) sel). split; [reflexivity|].
  assert (SE : forall p, In p sel <-> In p ps /\ dialable cfg r clock (p_addr p) (p_port p)).
  { intros p. unfold sel. rewrite filter_In. split; intros [A B]; (split; [exact A|]); apply (all_peers_In p I AP) in A as [A1 A2];
      apply (available_spec cfg clock A1 A2); exact B. }
  assert (ND : NoDup (map p_addr sel)).
  { unfold sel. assert (Q := all_peers_NoDup I AP). clear - Q. induction ps as [|p ps IH]; cbn [filter map] in *; [constructor|].
    inversion Q; subst. destruct (available _ _ _ _ p); auto. cbn [map]. constructor; auto. intros X. apply H1.
    apply in_map_iff in X as (y & E & X). apply filter_In in X as [X _]. apply in_map_iff. eauto. }
  assert (OUT : forall a port, In (a, port) (map (fun p => (p_addr p, p_port p)) sel) <-> dialable cfg r clock a port).
  { intros a port. rewrite in_map_iff. split.
    - intros (p & E & Q). injection E as <- <-. now apply SE in Q.
    - intros D. assert (D' := D). destruct D as (D1 & _ & _ & _ & _ & p & D2 & D3 & D4 & D5).
      assert (PA : p_addr p = a) by (eapply get_peer_fields, D2). subst a port. exists p. split; auto. apply SE. split; auto.
      apply (all_peers_In p I AP). auto. }
  split; [rewrite map_map; cbn [fst]; exact ND|]. split; [exact OUT|]. split.
  - assert (ND2 := I_pending I). assert (DJ : forall a, In a (map p_addr sel) -> ~ In a (r_pending r)).
    { intros a Q. apply in_map_iff in Q as (p & <- & Q). apply SE in Q as [_ (_ & _ & _ & _ & Q & _)]. exact Q. }
    revert ND2 DJ. generalize (r_pending r) as l0. induction l0 as [|x l0 IH]; intros ND2 DJ; cbn [app]; auto. inversion ND2; subst.
    constructor; [|apply IH; auto; intros a Q Q'; apply (DJ a Q); now right].
    rewrite in_app_iff. intros [Q|Q]; [auto|]. apply (DJ x Q). now left.
  - intros a. rewrite in_app_iff. unfold pending. split; (intros [Q|Q]; [auto|right]).
    + apply in_map_iff in Q as (p & <- & Q). exists (p_port p). apply in_map_iff. exists p. auto.
    + destruct Q as [port Q]. apply in_map_iff in Q as (p & E & Q). injection E as <- _. now apply in_map.
Qed.

(** ** Every call keeps the invariant *)
Lemma register_cases : forall cfg r0 now w a np h,
  let r := {| r_db := r_db r0; r_conns := r_conns r0; r_pending := del_addr a (r_pending r0) |} in
  let old := match get_peer (r_db r0) a with Ok p => p | _ => zero_peer end in
  (exists o c, register_peer cfg r0 now w a np h = (r, o, c) /\ o <> Ok tt) \/
  (ip4 a \/ ~ go_addr a) /\ a <> g_declared cfg /\
    ((incompatible cfg (p_version old) (co_hs np) /\
       register_peer cfg r0 now w a np h = (finish r (hostile_peer old (co_hs np)) w, true)) \/
     (~ (2 <= g_cmp cfg (hs_version (co_hs np)) (p_version old))%Z /\ (exists app, hs_app (co_hs np) = app ++ [g_scheme cfg]) /\
       snd (check_port a h) = false /\ fst (check_port a h) = Ok (dial_port a h) /\
       register_peer cfg r0 now w a np h =
         (finish {| r_db := r_db r; r_conns := set_conn a np (r_conns r); r_pending := r_pending r |}
                 (connected_peer old a (dial_port a h) h now np) w, false))).
Proof.
  intros cfg r0 now w a np h r old. unfold register_peer. fold r. destruct a as [|b|b z]; cbn [is4 negb];
    try (left; do 2 eexists; split; [reflexivity|discriminate]).
  destruct (addr_eqb_spec (A4 b) (g_declared cfg)) as [ED|ED]; [left; do 2 eexists; split; [reflexivity|discriminate]|].
  set (kn := match get_peer (r_db r) (A4 b) with Ok p => Ok p
             | Err ENotFound => match p_state zero_peer with PeerHostile => Err EOther | _ => Ok zero_peer end
             | Err e => Err e | Panic => Panic | Diverge => Diverge end).
  assert (KN : kn = Ok old).
  { unfold kn, old. cbn [r r_db]. rewrite get_peer_A4. destruct (kv_get b (r_db r0)); reflexivity. }
  rewrite KN.
  assert (IP : ip4 (A4 b) \/ ~ go_addr (A4 b)).
  { destruct (Nat.eq_dec (length b) 4); [left; exists b; auto|right; auto]. }
  destruct (2 <=? g_cmp cfg (hs_version (co_hs np)) (p_version old))%Z eqn:CV.
  { right. split; auto. split; auto. left. split; [left; lia|reflexivity]. }
  destruct (rev (hs_app (co_hs np))) as [|x app] eqn:RA; [left; do 2 eexists; split; [reflexivity|discriminate]|].
  assert (AE : hs_app (co_hs np) = rev app ++ [x]).
  { rewrite <- (rev_involutive (hs_app (co_hs np))), RA. reflexivity. }
  destruct (N.eqb_spec (Byte.to_N x) (Byte.to_N (g_scheme cfg))) as [EX|EX]; cbn [negb].
  - assert (x = g_scheme cfg).
    { apply (f_equal Byte.of_N) in EX. rewrite !Byte.of_to_N in EX. congruence. }
    subst x.
    destruct (check_port (A4 b) h) as [po c] eqn:CP. cbn [fst snd].
    assert (QP : po = Ok (dial_port (A4 b) h) /\ c = false \/ po = Err EOther).
    { unfold check_port in CP. unfold dial_port. destruct (hs_decl h) as [| |ha port]; try (injection CP as <- <-; auto).
      destruct (is_loopback ha); [injection CP as <- <-; auto|]. destruct (negb (is4 ha)); [injection CP as <- <-; auto|].
      destruct (addr_eqb ha (A4 b)); injection CP as <- <-; auto. }
    destruct QP as [[-> ->]| ->]; [|left; do 2 eexists; split; [reflexivity|discriminate]].
    right. split; auto. split; auto. right. split; [lia|]. split; eauto.
  - right. split; auto. split; auto. left. split; [right; exists (rev app), x; split; auto; congruence|reflexivity].
Qed.

Lemma old_addr : forall d a, match get_peer d a with Ok p => p_addr p = a | _ => True end.
Proof. intros. destruct (get_peer d a) eqn:E; auto. eapply get_peer_fields, E. Qed.

Lemma rstep_inv : forall cfg r o, RInv r -> wf_rop o -> RInv (rstep cfg r o).
Proof.
  intros cfg r o I W. destruct o as [a np h now w|a s w|a now w|[a|] w|l f|clock|a now w|]; cbn [rstep wf_rop] in *.
  - destruct (register_cases cfg r now w a np h) as [(o & c & E & _)|(IP & ND & [(IC & E)|(_ & _ & _ & _ & E)])]; rewrite E; cbn [fst].
    + now apply inv_del_pending.
    + apply inv_finish; [now apply inv_del_pending|]. cbn [hostile_peer p_addr].
      destruct (get_peer (r_db r) a) eqn:G; try exact Logic.I. now rewrite (proj1 (get_peer_fields G)).
    + apply inv_finish; [|exact W]. cbn [r_db r_conns r_pending].
      apply (inv_maps (r := r)); auto.
      * apply set_conn_NoDup, I.
      * intros x X. apply set_conn_keys in X as [X|X]; [now apply (I_conns4 I)|]. subst x. destruct IP as [IP|IP]; tauto.
      * apply del_addr_NoDup, I.
  - unfold update_peer_score. destruct (get_peer (r_db r) a) eqn:G; auto. apply inv_finish; auto. cbn [set_score p_addr].
    now rewrite (proj1 (get_peer_fields G)).
  - unfold unregister_peer. destruct (get_peer (r_db r) a) eqn:G; auto. apply inv_finish.
    + apply inv_maps; auto; [apply NoDup_fst_filter, I| |apply del_addr_NoDup, I].
      intros x X. apply del_conn_keys in X as [X _]. now apply (I_conns4 I).
    + cbn [set_next p_addr]. now rewrite (proj1 (get_peer_fields G)).
  - unfold mark_as_hostile. cbn [r_db]. destruct (get_peer (r_db r) a) as [p|[]| |]; try (now apply inv_del_pending);
      apply inv_finish; auto using inv_del_pending.
  - exact I.
  - unfold append_addresses. destruct (append_loop cfg (r_db r) l f 0) as [d n] eqn:A. cbn [fst with_pdb].
    destruct (append_inv (conj (I_sorted I) (conj (I_keys I) (I_names I))) W A) as ((A1 & A2 & A3) & _).
    constructor; cbn; auto; apply I.
  - destruct (take_view cfg clock I) as (pend & out & -> & _ & _ & ND & _). cbn [fst]. apply inv_maps; auto; apply I.
  - unfold suggest_version. destruct (get_peer (r_db r) a) as [p|[]| |] eqn:G; auto.
    + destruct (p_state p); auto. destruct (next_version (g_versions cfg) (p_version p)); auto.
      assert (Q := @inv_finish r (set_version p a0 (round_second (now + delay)%Z)) w I).
      cbn [set_version p_addr] in Q. rewrite (proj1 (get_peer_fields G)) in Q. specialize (Q W).
      destruct (finish r _ w) as [r' [| | |]]; exact Q.
    + destruct (best_version (g_versions cfg)); auto.
      assert (Q := @inv_finish r (set_version (fresh_peer a 0) a0 (round_second (now + delay)%Z)) w I W).
      destruct (finish r _ w) as [r' [| | |]]; exact Q.
  - destruct I. constructor; cbn; auto; try constructor. intros a [].
Qed.
Lemma rreach_inv : forall cfg ops r, rreach cfg ops r -> RInv r.
Proof.
  intros cfg ops r [W ->]. unfold rrun.
  assert (I0 : RInv (new_registry [])) by (constructor; cbn; try constructor; intros; contradiction).
  revert I0. generalize (new_registry []). induction W as [|o ops WO W IH]; intros r0 I0; cbn [fold_left]; auto.
  apply IH. now apply rstep_inv.
Qed.
