(** C99: reads of the peers database that fail. *)
From Coq Require Import Strings.Byte.
From Verif Require Import Base Kv KvFacts BytesFacts ChainModel ChainSpec ChainExample PeersModel PeersSpec PeersProofs PeersCalls PeersProps
  ReadModel ReadProofs ReadProps PeersReadModel.
Set Implicit Arguments.
Unset Strict Implicit.

(** * Facts about the programs *)
Lemma faulty_look : forall V A B (d : kv V) (p : prog V A) (g : outcome A -> outcome B) fs,
  faulty d (attempt p (fun o => Ret (g o))) fs = (g (fst (fst (faulty d p fs))), snd (fst (faulty d p fs)), snd (faulty d p fs)).
Proof.
  intros V A B d p g. induction p as [o|k IH|key k IH|lo hi k IH]; intros fs; cbn [attempt faulty].
  - reflexivity.
  - destruct fs as [|[n|] fs]; cbn [tl]; rewrite IH; reflexivity.
  - destruct fs as [|[n|] fs]; cbn [tl]; rewrite IH; reflexivity.
  - destruct fs as [|[n|] fs]; cbn [tl]; rewrite IH; reflexivity.
Qed.
Lemma peer_read : forall d a fs o ts r, faulty d (get_peer_r a) fs = (o, ts, r) -> (ts = [] /\ o = get_peer d a) \/ (ts = [Failed] /\ o = Err EOther).
Proof.
  intros d a fs o ts r E. unfold get_peer_r, snapped, get_peer in *. destruct fs as [|[n|] fs]; cbn [faulty tl pure then_ attempt] in E.
  - destruct (pkey a) as [k|e| |]; cbn [faulty attempt tl] in E; unfold reads in E; try destruct (kv_get k d) eqn:K; cbn [faulty] in E; injection E as <- <- _; left; split; auto;
    cbn [bind]; now rewrite K.
  - injection E as <- <- _. now right.
  - destruct (pkey a) as [k|e| |]; cbn [faulty attempt] in E; try (injection E as <- <- _; now left).
    destruct fs as [|[n|] fs]; cbn [tl] in E; unfold reads in E; try destruct (kv_get k d) eqn:K; cbn [faulty fst snd] in E; injection E as <- <- _; auto; left; split; auto;
    cbn [bind]; now rewrite K.
Qed.
Lemma has_read : forall d a fs o ts r, faulty d (has_peer_r a) fs = (o, ts, r) -> (ts = [] /\ o = has_peer d a) \/ (ts = [Failed] /\ o = Err EOther).
Proof.
  intros d a fs o ts r E. unfold has_peer_r, snapped, has_peer in *. destruct fs as [|[n|] fs]; cbn [faulty tl pure then_ attempt] in E.
  - destruct (pkey a) as [k|e| |]; cbn [faulty attempt tl] in E; unfold reads in E; try destruct (kv_get k d) eqn:K; cbn [faulty] in E; injection E as <- <- _; left; split; auto;
    cbn [bind]; now rewrite K.
  - injection E as <- <- _. now right.
  - destruct (pkey a) as [k|e| |]; cbn [faulty attempt] in E; try (injection E as <- <- _; now left).
    destruct fs as [|[n|] fs]; cbn [tl] in E; unfold reads in E; try destruct (kv_get k d) eqn:K; cbn [faulty fst snd] in E; injection E as <- <- _; auto; left; split; auto;
    cbn [bind]; now rewrite K.
Qed.
Lemma whole_range : forall d : pdb, range_of [] None d = d.
Proof. intros d. cbn [range_of]. induction d as [|b d IH]; [reflexivity|]. cbn [filter]. destruct (bleb [] (fst b)) eqn:E; [now rewrite IH|]. destruct (fst b); discriminate E. Qed.
Lemma list_read : forall d fs o ts r, faulty d all_peers_r fs = (o, ts, r) ->
  (ts = [Failed] /\ o = Err EOther) \/ (exists n, ts = [Ended] /\ o = all_peers (firstn n d)) \/ (ts = [] /\ o = all_peers d).
Proof.
  intros d fs o ts r E. unfold all_peers_r, snapped in E. cbn [faulty] in E. rewrite whole_range in E. destruct fs as [|[n|] fs]; cbn [faulty tl] in E.
  - injection E as <- <- _. now right; right.
  - injection E as <- <- _. now left.
  - destruct fs as [|[n|] fs]; cbn [faulty tl fst snd] in E; injection E as <- <- _; right; [now right|left; now exists n|now right].
Qed.
Lemma c_get_peer : forall a, careful (get_peer_r a).
Proof. intros a. unfold get_peer_r, snapped. constructor; [reflexivity|]. apply careful_then; [constructor|]. intros k. apply careful_then; [constructor; [reflexivity|constructor|constructor]|constructor]. Qed.
Lemma c_all_peers : careful all_peers_r.
Proof. unfold all_peers_r, snapped. constructor; [reflexivity|]. constructor. constructor. Qed.
Lemma w_get_peer : forall a, pointwise (get_peer_r a).
Proof. intros a. unfold get_peer_r, snapped. constructor. intros []; try constructor. apply pw_then; [constructor|]. intros k. apply pw_then; constructor. constructor. Qed.
Lemma plain_get_peer : forall d a, plain d (get_peer_r a) = get_peer d a.
Proof. intros d a. unfold get_peer_r, snapped, get_peer. cbn [plain]. rewrite plain_then. unfold pure. cbn [plain]. apply bind_ext. intros k. rewrite plain_then. cbn [plain]. unfold reads. now destruct (kv_get k d). Qed.
Lemma plain_all_peers : forall d, plain d all_peers_r = all_peers d.
Proof. intros d. unfold all_peers_r, snapped. cbn [plain]. now rewrite whole_range. Qed.

(** * C99 *)

(** The registration of a peer whose record cannot be read is refused: the connection is closed and not listed, nothing is written. A record
    that cannot be read is not taken for a missing one. *)
Theorem C99_register : forall cfg r now w a np h fs,
  (troubles (r_db r) (register_peer_r cfg r now w a np h) fs = [] -> answer (r_db r) (register_peer_r cfg r now w a np h) fs = Ok (register_peer cfg r now w a np h)) /\
  (troubles (r_db r) (register_peer_r cfg r now w a np h) fs <> [] ->
   exists r', answer (r_db r) (register_peer_r cfg r now w a np h) fs = Ok (r', Err EOther, true) /\ r_db r' = r_db r /\ r_conns r' = r_conns r /\ ~ pending r' a).
Proof.
  intros cfg r now w a np h fs. unfold troubles, answer, register_peer_r, register_peer. destruct (negb (is4 a)); [cbn [faulty fst snd]; split; [reflexivity|congruence]|].
  destruct (addr_eqb a (g_declared cfg)); [cbn [faulty fst snd]; split; [reflexivity|congruence]|]. rewrite faulty_look. cbn [fst snd].
  destruct (faulty (r_db r) (get_peer_r a) fs) as [[o ts] x] eqn:E. cbn [fst snd]. apply peer_read in E as [(-> & ->)|(-> & ->)]; split; try congruence.
  - intros _. reflexivity.
  - intros _. eexists. split; [reflexivity|]. split; [reflexivity|]. split; [reflexivity|]. unfold pending. cbn [r_pending]. intros I. apply filter_In in I as [_ I].
    destruct (addr_eqb_spec a a); [discriminate I|congruence].
Qed.
Print Assumptions C99_register.

(** The other calls about one peer: an error, and nothing is written. *)
Definition refused {A} (r : registry) (normal : registry * outcome A) (p : rprg (registry * outcome A)) : Prop := forall fs,
  (troubles (r_db r) p fs = [] -> answer (r_db r) p fs = Ok normal) /\
  (troubles (r_db r) p fs <> [] -> exists r', answer (r_db r) p fs = Ok (r', Err EOther) /\ r_db r' = r_db r /\ r_conns r' = r_conns r /\ incl (r_pending r') (r_pending r)).
Theorem C99_calls : forall r,
  (forall w a s, refused r (update_peer_score r w a s) (update_peer_score_r r w a s)) /\
  (forall now w a, refused r (unregister_peer r now w a) (unregister_peer_r r now w a)) /\
  (forall w a, refused r (mark_as_hostile r w a) (mark_as_hostile_r r w a)) /\
  (forall cfg now w a, refused r (suggest_version cfg r now w a) (suggest_version_r cfg r now w a)).
Proof.
  intros r. split; [|split; [|split]].
  - intros w a s fs. unfold troubles, answer, update_peer_score_r, update_peer_score. rewrite faulty_look. cbn [fst snd].
    destruct (faulty (r_db r) (get_peer_r a) fs) as [[o ts] x] eqn:E. cbn [fst snd]. apply peer_read in E as [(-> & ->)|(-> & ->)]; split; try congruence.
    intros _. exists r. repeat split; auto using incl_refl.
  - intros now w a fs. unfold troubles, answer, unregister_peer_r, unregister_peer. rewrite faulty_look. cbn [fst snd].
    destruct (faulty (r_db r) (get_peer_r a) fs) as [[o ts] x] eqn:E. cbn [fst snd]. apply peer_read in E as [(-> & ->)|(-> & ->)]; split; try congruence.
    intros _. exists r. repeat split; auto using incl_refl.
  - intros w [a|] fs; unfold troubles, answer, mark_as_hostile_r, mark_as_hostile; [|cbn [faulty fst snd]; split; [reflexivity|congruence]]. rewrite faulty_look. cbn [fst snd].
    destruct (faulty (r_db r) (get_peer_r a) fs) as [[o ts] x] eqn:E. cbn [fst snd]. apply peer_read in E as [(-> & ->)|(-> & ->)]; split; try congruence.
    { reflexivity. } intros _. eexists. split; [reflexivity|]. repeat split. cbn [r_pending]. intros y I. unfold del_addr in I. now apply filter_In in I as [I _].
  - intros cfg now w a fs. unfold troubles, answer, suggest_version_r, suggest_version. rewrite faulty_look. cbn [fst snd].
    destruct (faulty (r_db r) (get_peer_r a) fs) as [[o ts] x] eqn:E. cbn [fst snd]. apply peer_read in E as [(-> & ->)|(-> & ->)]; split; try congruence.
    intros _. exists r. repeat split; auto using incl_refl.
Qed.
Print Assumptions C99_calls.

(** Queries. *)
Theorem C99_queries : forall r,
  (forall a, reports (r_db r) (get_peer_r a) (reg_peer r a) /\ no_lists (r_db r) (get_peer_r a)) /\
  (forall ord srt, reports (r_db r) (connections_r ord srt r) (connections ord srt r) /\ no_lists (r_db r) (connections_r ord srt r)).
Proof.
  intros r. split.
  - intros a. split; [apply reports_by; [apply c_get_peer|apply plain_get_peer]|apply no_lists_by, w_get_peer].
  - intros ord srt. split; [apply reports_by|apply no_lists_by].
    + unfold connections_r. apply careful_then; [|constructor]. apply careful_each. intros x. apply careful_then; [apply c_get_peer|constructor].
    + unfold connections_r, connections. rewrite plain_then, plain_each. f_equal. apply mapM_same. intros x. rewrite plain_then, plain_get_peer. reflexivity.
    + unfold connections_r. apply pw_then; [|constructor]. apply pw_each. intros x. apply pw_then; [apply w_get_peer|constructor].
Qed.
Print Assumptions C99_queries.
(** Missing: an iteration that ends early. *)
Theorem C99_lists_partial : forall r,
  (forall srt, reports (r_db r) (reg_peers_r srt) (reg_peers srt r)) /\ (forall srt, reports (r_db r) (friendly_peers_r srt) (friendly_peers srt r)) /\
  (forall srt, reports (r_db r) (addresses_r srt) (addresses srt r)) /\
  (forall cfg clock fs, (troubles (r_db r) (take_available_r cfg r clock) fs = [] -> answer (r_db r) (take_available_r cfg r clock) fs = Ok (take_available cfg r clock)) /\
     (In Failed (troubles (r_db r) (take_available_r cfg r clock) fs) -> answer (r_db r) (take_available_r cfg r clock) fs = Ok (r, Err EOther))).
Proof.
  intros r. split; [|split; [|split]].
  - intros srt. apply reports_by; unfold reg_peers_r, reg_peers; [apply careful_then; [apply c_all_peers|constructor]|]. rewrite plain_then, plain_all_peers. reflexivity.
  - intros srt. apply reports_by; unfold friendly_peers_r, friendly_peers; [apply careful_then; [apply c_all_peers|constructor]|]. rewrite plain_then, plain_all_peers. reflexivity.
  - intros srt. apply reports_by; unfold addresses_r, addresses, friendly_peers_r, friendly_peers.
    + apply careful_then; [apply careful_then; [apply c_all_peers|constructor]|constructor].
    + rewrite !plain_then, plain_all_peers. reflexivity.
  - intros cfg clock fs. unfold troubles, answer, take_available_r, take_available. rewrite faulty_look. cbn [fst snd].
    destruct (faulty (r_db r) all_peers_r fs) as [[o ts] x] eqn:E. cbn [fst snd]. apply list_read in E as [(-> & ->)|[(n & -> & ->)|(-> & ->)]]; split; try congruence.
    + intros [I|[]]; discriminate I. + intros [].
Qed.
Print Assumptions C99_lists_partial.

(** If the iteration ends early, the lists are those of a registry with only the first few records. *)
Definition fewer (n : nat) (r : registry) : registry := with_pdb r (firstn n (r_db r)).
Theorem C99_ended : forall r fs,
  (forall srt, ~ In Failed (troubles (r_db r) (reg_peers_r srt) fs) -> exists n, answer (r_db r) (reg_peers_r srt) fs = reg_peers srt (fewer n r)) /\
  (forall srt, ~ In Failed (troubles (r_db r) (friendly_peers_r srt) fs) -> exists n, answer (r_db r) (friendly_peers_r srt) fs = friendly_peers srt (fewer n r)) /\
  (forall srt, ~ In Failed (troubles (r_db r) (addresses_r srt) fs) -> exists n, answer (r_db r) (addresses_r srt) fs = addresses srt (fewer n r)) /\
  (forall cfg clock, ~ In Failed (troubles (r_db r) (take_available_r cfg r clock) fs) -> exists n,
     answer (r_db r) (take_available_r cfg r clock) fs = Ok (with_pdb (fst (take_available cfg (fewer n r) clock)) (r_db r), snd (take_available cfg (fewer n r) clock))).
Proof.
  intros r fs. assert (X : forall o ts x, faulty (r_db r) all_peers_r fs = (o, ts, x) -> ~ In Failed ts -> exists n, o = all_peers (firstn n (r_db r))).
  { intros o ts x E NF. apply list_read in E as [(-> & ->)|[(n & -> & ->)|(-> & ->)]]; [exfalso; apply NF; now left|now exists n|].
    exists (length (r_db r)). now rewrite firstn_all. }
  destruct (faulty (r_db r) all_peers_r fs) as [[o ts] x] eqn:E. specialize (X o ts x eq_refl). split; [|split; [|split]].
  - intros srt. unfold troubles, answer, reg_peers_r, reg_peers. rewrite faulty_then_ret, E. cbn [fst snd]. intros NF. destruct (X NF) as [n ->]. now exists n.
  - intros srt. unfold troubles, answer, friendly_peers_r, friendly_peers. rewrite faulty_then_ret, E. cbn [fst snd]. intros NF. destruct (X NF) as [n ->]. now exists n.
  - intros srt. unfold troubles, answer, addresses_r, addresses, friendly_peers_r, friendly_peers. rewrite !faulty_then_ret, E. cbn [fst snd]. intros NF. destruct (X NF) as [n ->]. now exists n.
  - intros cfg clock. unfold troubles, answer, take_available_r. rewrite faulty_look, E. cbn [fst snd]. intros NF. destruct (X NF) as [n ->]. exists n.
    unfold take_available, fewer. cbn [r_db r_conns r_pending with_pdb]. destruct (all_peers (firstn n (r_db r))) as [ps|e| |]; try (destruct r; reflexivity).
    destruct (take_loop cfg clock (r_conns r) ps (r_pending r) []). reflexivity.
Qed.
Print Assumptions C99_ended.

(** AppendAddresses stops at the first read that fails, and does what it does with the addresses before. *)
Lemma append_read : forall cfg l d fault count fs d' n ts, append_loop_r cfg d l fault count fs = (d', n, ts) ->
  (ts = [] /\ append_loop cfg d l fault count = (d', n)) \/
  (ts = [Failed] /\ exists l1 ap l2, l = l1 ++ Some ap :: l2 /\ append_loop cfg d l1 fault count = (d', n)).
Proof.
  intros cfg. induction l as [|[[a port]|] l IH]; intros d fault count fs d' n ts E; cbn [append_loop_r append_loop] in *.
  - injection E as <- <- <-. now left.
  - assert (SK : forall g, append_loop_r cfg d l fault count fs = (d', n, ts) ->
      (forall l1, g (Some (a, port) :: l1) = append_loop cfg d l1 fault count) ->
      (ts = [] /\ append_loop cfg d l fault count = (d', n)) \/ (ts = [Failed] /\ exists l1 ap l2, Some (a, port) :: l = l1 ++ Some ap :: l2 /\ g l1 = (d', n))).
    { intros g E' G. destruct (IH _ _ _ _ _ _ _ E') as [(-> & H)|(-> & l1 & ap & l2 & -> & H)]; [now left|]. right. split; [reflexivity|]. exists (Some (a, port) :: l1), ap, l2. split; [reflexivity|]. now rewrite G. }
    destruct (negb (is4 a)) eqn:A4'; [apply SK; auto; intros l1; cbn [append_loop]; now rewrite A4'|].
    destruct (is_loopback a) eqn:LB; [apply SK; auto; intros l1; cbn [append_loop]; now rewrite A4', LB|].
    destruct (addr_eqb a (g_declared cfg)) eqn:DE; [apply SK; auto; intros l1; cbn [append_loop]; now rewrite A4', LB, DE|].
    destruct (faulty d (has_peer_r a) fs) as [[o ts1] fs'] eqn:F. apply has_read in F as [(-> & ->)|(-> & ->)].
    + destruct (has_peer d a) as [[|]|e| |] eqn:HP.
      * destruct (append_loop_r cfg d l fault count fs') as [[d1 n1] ts2] eqn:E1. cbn [app] in E. injection E as <- <- <-.
        destruct (IH _ _ _ _ _ _ _ E1) as [(-> & H)|(-> & l1 & ap & l2 & -> & H)]; [now left|]. right. split; [reflexivity|]. exists (Some (a, port) :: l1), ap, l2.
        split; [reflexivity|]. cbn [append_loop]. now rewrite A4', LB, DE, HP.
      * destruct (put_peer d (fresh_peer a port) _) as [d0|e| |] eqn:PP.
        -- destruct (append_loop_r cfg d0 l (option_map pred fault) (S count) fs') as [[d1 n1] ts2] eqn:E1. cbn [app] in E. injection E as <- <- <-.
           destruct (IH _ _ _ _ _ _ _ E1) as [(-> & H)|(-> & l1 & ap & l2 & -> & H)]; [now left|]. right. split; [reflexivity|]. exists (Some (a, port) :: l1), ap, l2.
           split; [reflexivity|]. cbn [append_loop]. now rewrite A4', LB, DE, HP, PP.
        -- injection E as <- <- <-. now left.
        -- injection E as <- <- <-. now left.
        -- injection E as <- <- <-. now left.
      * injection E as <- <- <-. now left.
      * injection E as <- <- <-. now left.
      * injection E as <- <- <-. now left.
    + injection E as <- <- <-. right. split; [reflexivity|]. exists [], (a, port), l. split; reflexivity.
  - destruct (IH _ _ _ _ _ _ _ E) as [(-> & H)|(-> & l1 & ap & l2 & -> & H)]; [now left|]. right. split; [reflexivity|]. exists (None :: l1), ap, l2. split; [reflexivity|exact H].
Qed.
Theorem C99_append : forall cfg r l fault fs r' n ts, append_addresses_r cfg r l fault fs = (r', n, ts) ->
  (ts = [] /\ append_addresses cfg r l fault = (r', n)) \/
  (ts = [Failed] /\ exists before ap after, l = before ++ Some ap :: after /\ append_addresses cfg r before fault = (r', n)).
Proof.
  intros cfg r l fault fs r' n ts E. unfold append_addresses_r, append_addresses in *. destruct (append_loop_r cfg (r_db r) l fault 0 fs) as [[d n1] ts1] eqn:L.
  injection E as <- <- <-. destruct (append_read L) as [(-> & H)|(-> & l1 & ap & l2 & -> & H)]; rewrite ?H; [now left|]. right. split; [reflexivity|]. exists l1, ap, l2. now rewrite H.
Qed.
Print Assumptions C99_append.

(** * Histories *)
(** A prefix of what is given without the failure. *)
Lemma take_app : forall cfg clock conns ps qs pend out, take_loop cfg clock conns (ps ++ qs) pend out =
  take_loop cfg clock conns qs (fst (take_loop cfg clock conns ps pend out)) (snd (take_loop cfg clock conns ps pend out)).
Proof. intros cfg clock conns. induction ps as [|p ps IH]; intros qs pend out; [reflexivity|]. cbn [app take_loop]. destruct (available _ _ _ _ _); apply IH. Qed.
Lemma take_more : forall cfg clock conns ps pend out, exists more, snd (take_loop cfg clock conns ps pend out) = out ++ more.
Proof.
  intros cfg clock conns. induction ps as [|p ps IH]; intros pend out; cbn [take_loop].
  - exists []. cbn [snd]. now rewrite app_nil_r.
  - destruct (available _ _ _ _ _); [|apply IH]. destruct (IH (add_addr (p_addr p) pend) (out ++ [(p_addr p, p_port p)])) as [more E]. exists ((p_addr p, p_port p) :: more). rewrite E, <- app_assoc. reflexivity.
Qed.
Lemma mapM_app_ok : forall A B (f : A -> outcome B) xs ys r, mapM f (xs ++ ys) = Ok r -> exists a b, r = a ++ b /\ mapM f xs = Ok a /\ mapM f ys = Ok b.
Proof.
  intros A B f. induction xs as [|x xs IH]; intros ys r E; [exists [], r; auto|]. cbn [app mapM] in *. destruct (f x); cbn [bind] in *; try discriminate E.
  destruct (mapM f (xs ++ ys)) as [q|e| |] eqn:M; cbn [bind] in E; try discriminate E. injection E as <-. destruct (IH _ _ M) as (u & v & -> & -> & ->). exists (a :: u), v. auto.
Qed.
Theorem C99_take : forall cfg r clock fs out, ~ In Failed (troubles (r_db r) (take_available_r cfg r clock) fs) -> snd (take_available cfg r clock) = Ok out ->
  exists given rest, out = given ++ rest /\ exists r', answer (r_db r) (take_available_r cfg r clock) fs = Ok (r', Ok given) /\ r_db r' = r_db r /\ r_conns r' = r_conns r /\
    forall a, pending r' a -> pending r a \/ In a (map fst given).
Proof.
  intros cfg r clock fs out NF T. destruct (proj2 (proj2 (proj2 (C99_ended r fs))) cfg clock NF) as [n E]. unfold take_available in T.
  destruct (all_peers (r_db r)) as [ps|e| |] eqn:P; try discriminate T. destruct (take_loop cfg clock (r_conns r) ps (r_pending r) []) as [pd o] eqn:L. cbn [snd] in T. injection T as ->.
  unfold all_peers in P. rewrite <- (firstn_skipn n (r_db r)) in P. apply mapM_app_ok in P as (xs & ys & -> & PX & PY).
  assert (PX' : all_peers (firstn n (r_db r)) = Ok xs) by exact PX. rewrite take_app in L.
  assert (G : forall ps pend o0, forall a, In a (fst (take_loop cfg clock (r_conns r) ps pend o0)) -> In a pend \/ In a (map fst (snd (take_loop cfg clock (r_conns r) ps pend o0)))).
  { clear. induction ps as [|p ps IH]; intros pend o0 a I; cbn [take_loop] in *; [now left|]. destruct (available _ _ _ _ _); [|now apply IH].
    destruct (IH _ _ _ I) as [J|J]; [|now right]. unfold add_addr in J. destruct (has_addr (p_addr p) pend); [now left|]. apply in_app_or in J as [J|[<-|[]]]; [now left|]. right.
    destruct (take_more cfg clock (r_conns r) ps (if has_addr (p_addr p) pend then pend else pend ++ [p_addr p]) (o0 ++ [(p_addr p, p_port p)])) as [more M]. unfold add_addr. rewrite M, !map_app. apply in_or_app. left. apply in_or_app. right. now left. }
  unfold take_available, fewer in E. cbn [r_db r_conns r_pending with_pdb] in E. rewrite PX' in E. specialize (G xs (r_pending r) []).
  destruct (take_loop cfg clock (r_conns r) xs (r_pending r) []) as [pd1 o1] eqn:L1. cbn [fst snd] in *. destruct (take_more cfg clock (r_conns r) ys pd1 o1) as [more M]. rewrite L in M. cbn [snd] in M.
  exists o1, more. split; [exact M|]. eexists. split; [exact E|]. split; [reflexivity|]. split; [reflexivity|]. exact G.
Qed.
Print Assumptions C99_take.

(** Whatever fails to be read, the registry is one that calls without failures lead to; so everything said about those holds. *)
Lemma cut_take : forall cfg r clock n, RInv r -> exists clock',
  fst (take_available cfg r clock') = with_pdb (fst (take_available cfg (fewer n r) clock)) (r_db r).
Proof.
  intros cfg r clock n I. pose proof (all_peers_view I) as V. set (ps := map (fun b : bytes * value => of_value (A4 (fst b)) (snd b)) (r_db r)) in V.
  assert (VN : all_peers (firstn n (r_db r)) = Ok (firstn n ps)).
  { unfold all_peers in *. subst ps. now apply mapM_firstn. }
  pose proof (all_peers_NoDup I V) as ND. set (near := map p_addr (firstn n ps)).
  exists (fun a => if existsb (addr_eqb a) near then clock a else match find (fun p => addr_eqb a (p_addr p)) ps with Some p => (p_next p - 1)%Z | None => 0%Z end).
  set (clock' := fun a => _). unfold take_available, fewer. cbn [r_db r_conns r_pending with_pdb]. rewrite V, VN.
  assert (K : take_loop cfg clock' (r_conns r) ps (r_pending r) [] = take_loop cfg clock (r_conns r) (firstn n ps) (r_pending r) []).
  { assert (B : forall qs pend out, (forall q, In q qs -> clock' (p_addr q) = clock (p_addr q)) -> take_loop cfg clock' (r_conns r) qs pend out = take_loop cfg clock (r_conns r) qs pend out).
    { clear. induction qs as [|q qs IH]; intros pend out H; [reflexivity|]. cbn [take_loop]. unfold available. rewrite (H q) by now left. destruct (_ && _); apply IH; intros q' J; apply H; now right. }
    assert (C : forall qs pend out, (forall q, In q qs -> (clock' (p_addr q) < p_next q)%Z) -> take_loop cfg clock' (r_conns r) qs pend out = (pend, out)).
    { clear. induction qs as [|q qs IH]; intros pend out H; [reflexivity|]. cbn [take_loop]. unfold available. assert (L := H q (or_introl eq_refl)). apply Z.ltb_lt in L. rewrite L. cbn [negb].
      rewrite !andb_false_r. cbn [andb]. apply IH. intros q' J. apply H. now right. }
    rewrite <- (firstn_skipn n ps) at 1. rewrite take_app, C.
    - rewrite B; [symmetry; apply surjective_pairing|]. intros q J. unfold clock'. assert (E : existsb (addr_eqb (p_addr q)) near = true); [|now rewrite E].
      apply existsb_exists. exists (p_addr q). split; [now apply in_map|]. destruct (addr_eqb_spec (p_addr q) (p_addr q)); congruence.
    - intros q J. assert (NP : NoDup (near ++ map p_addr (skipn n ps))) by (unfold near; now rewrite <- map_app, firstn_skipn).
      assert (E : existsb (addr_eqb (p_addr q)) near = false).
      { destruct (existsb (addr_eqb (p_addr q)) near) eqn:X; [|reflexivity]. apply existsb_exists in X as (a & IA & EA). destruct (addr_eqb_spec (p_addr q) a) as [<-|]; [|discriminate EA].
        exfalso. clear - NP IA J. induction near as [|x xs IH]; [destruct IA|]. cbn [app] in NP. inversion NP; subst. destruct IA as [->|IA]; [|now apply IH]. apply H1. apply in_or_app. right. now apply in_map. }
      assert (Q : In q ps) by (rewrite <- (firstn_skipn n ps); apply in_or_app; now right).
      assert (FD : find (fun p => addr_eqb (p_addr q) (p_addr p)) ps = Some q).
      { clear - Q ND. induction ps as [|x xs IH]; [destruct Q|]. cbn [map] in ND. inversion ND; subst. cbn [find]. destruct (addr_eqb_spec (p_addr q) (p_addr x)) as [EQ|NE].
        - destruct Q as [->|Q]; [reflexivity|]. exfalso. apply H1. rewrite <- EQ. now apply in_map.
        - destruct Q as [->|Q]; [congruence|]. now apply IH. }
      unfold clock'. rewrite E, FD. lia. }
  rewrite K. destruct (take_loop cfg clock (r_conns r) (firstn n ps) (r_pending r) []). reflexivity.
Qed.
Lemma step_read : forall cfg r o fs, RInv r -> wf_rop o -> rstep_r cfg r (o, fs) = r \/ exists o', wf_rop o' /\ rstep_r cfg r (o, fs) = rstep cfg r o'.
Proof.
  intros cfg r o fs I W. destruct o as [a np h now w|a s w|a now w|a w|l fault|clock|a now w|]; cbn [rstep_r fst snd wf_rop] in *.
  - unfold answer, register_peer_r. destruct (negb (is4 a)) eqn:A4'.
    { right. exists (RRegister a np h now w). split; [exact W|]. cbn [rstep]. unfold register_peer. now rewrite A4'. }
    destruct (addr_eqb a (g_declared cfg)) eqn:DE.
    { right. exists (RRegister a np h now w). split; [exact W|]. cbn [rstep]. unfold register_peer. now rewrite A4', DE. }
    rewrite faulty_look. cbn [fst snd after]. destruct (faulty (r_db r) (get_peer_r a) fs) as [[o ts] x] eqn:E. cbn [fst snd]. apply peer_read in E as [(-> & ->)|(-> & ->)].
    + right. exists (RRegister a np h now w). split; [exact W|]. cbn [rstep]. unfold register_peer. now rewrite A4', DE.
    + right. exists (RHostile (Some a) false). split; [exact W|]. cbn [rstep fst]. unfold mark_as_hostile. cbn [r_db].
      assert (FI : forall p q, fst (finish p q false) = p).
      { intros p q. unfold finish, put_peer. destruct (negb (is4 (p_addr q))); [reflexivity|]. destruct (negb (utf8_valid _)); [reflexivity|]. now destruct (pkey (p_addr q)). }
      destruct (get_peer (r_db r) a) as [p|[]| |]; try (symmetry; apply FI); reflexivity.
  - unfold answer, update_peer_score_r. rewrite faulty_look. cbn [fst snd after]. destruct (faulty (r_db r) (get_peer_r a) fs) as [[o ts] x] eqn:E. cbn [fst snd].
    apply peer_read in E as [(-> & ->)|(-> & ->)]; [|now left]. right. exists (RScore a s w). split; [exact W|reflexivity].
  - unfold answer, unregister_peer_r. rewrite faulty_look. cbn [fst snd after]. destruct (faulty (r_db r) (get_peer_r a) fs) as [[o ts] x] eqn:E. cbn [fst snd].
    apply peer_read in E as [(-> & ->)|(-> & ->)]; [|now left]. right. exists (RUnregister a now w). split; [exact W|reflexivity].
  - destruct a as [a|]; [|now left]. unfold answer, mark_as_hostile_r. rewrite faulty_look. cbn [fst snd after]. destruct (faulty (r_db r) (get_peer_r a) fs) as [[o ts] x] eqn:E. cbn [fst snd].
    apply peer_read in E as [(-> & ->)|(-> & ->)]; right; [exists (RHostile (Some a) w); split; [exact W|reflexivity]|].
    exists (RHostile (Some a) false). split; [exact W|]. cbn [rstep fst]. unfold mark_as_hostile. cbn [r_db].
    assert (FI : forall p q, fst (finish p q false) = p).
    { intros p q. unfold finish, put_peer. destruct (negb (is4 (p_addr q))); [reflexivity|]. destruct (negb (utf8_valid _)); [reflexivity|]. now destruct (pkey (p_addr q)). }
    destruct (get_peer (r_db r) a) as [p|[]| |]; try (symmetry; apply FI); reflexivity.
  - right. destruct (append_addresses_r cfg r l fault fs) as [[r' n] ts] eqn:E. cbn [fst]. apply C99_append in E as [(-> & H)|(-> & l1 & ap & l2 & -> & H)].
    + exists (RAppend l fault). split; [exact W|]. cbn [rstep]. now rewrite H.
    + exists (RAppend l1 fault). split; [|cbn [rstep]; now rewrite H]. intros a port J. apply (W a port). apply in_or_app. now left.
  - right. destruct (in_dec (fun x y : trouble => ltac:(decide equality)) Failed (troubles (r_db r) (take_available_r cfg r clock) fs)) as [F|NF].
    + destruct (proj2 (proj2 (proj2 (C99_lists_partial r))) cfg clock fs) as [_ X]. rewrite (X F). cbn [after fst].
      destruct (cut_take cfg clock 0 I) as [c' E]. exists (RTake c'). split; [exact Logic.I|]. cbn [rstep]. rewrite E. unfold fewer. cbn. now destruct r.
    + destruct (proj2 (proj2 (proj2 (C99_ended r fs))) cfg clock NF) as [n ->]. cbn [after fst]. destruct (cut_take cfg clock n I) as [c' E]. exists (RTake c'). split; [exact Logic.I|]. cbn [rstep]. now rewrite E.
  - unfold answer, suggest_version_r. rewrite faulty_look. cbn [fst snd after]. destruct (faulty (r_db r) (get_peer_r a) fs) as [[o ts] x] eqn:E. cbn [fst snd].
    apply peer_read in E as [(-> & ->)|(-> & ->)]; [|now left]. right. exists (RSuggest a now w). split; [exact W|reflexivity].
  - right. exists RRestart. split; [exact Logic.I|reflexivity].
Qed.
Theorem C99_history : forall cfg ops, Forall (fun of => wf_rop (fst of)) ops -> exists ops', rreach cfg ops' (rrun_r cfg ops).
Proof.
  intros cfg ops W. unfold rreach, rrun_r, rrun.
  assert (X : forall ops r, RInv r -> Forall (fun of => wf_rop (fst of)) ops -> exists ops', Forall wf_rop ops' /\ fold_left (rstep_r cfg) ops r = fold_left (rstep cfg) ops' r).
  { clear. induction ops as [|[o fs] ops IH]; intros r I W; [exists []; split; [constructor|reflexivity]|]. inversion W as [|? ? W1 W2]; subst. cbn [fold_left fst] in *.
    destruct (step_read cfg fs I W1) as [E|(o' & WO & E)]; rewrite E.
    - now apply IH.
    - destruct (IH (rstep cfg r o')) as (ops' & WX & X); [now apply rstep_inv|exact W2|]. exists (o' :: ops'). split; [now constructor|exact X]. }
  apply X; [|exact W]. split; cbn; try constructor; intros; contradiction.
Qed.
Print Assumptions C99_history.

(** * The defects *)
(** A disconnected peer stays in the list of connections, and is not dialled again, if its record cannot be read (registry.go:164-171). *)
Theorem C99_unregister_refuted : exists cfg ops r a now fs, rreach cfg ops r /\ connected r a /\
  (forall w, ~ connected (fst (unregister_peer r now w a)) a) /\
  exists r', (forall w, answer (r_db r) (unregister_peer_r r now w a) fs = Ok (r', Err EOther)) /\ connected r' a /\
    forall clock, exists out, snd (take_available cfg r' clock) = Ok out /\ ~ In a (map fst out).
Proof.
  exists xcfg, joined, (rrun xcfg joined), pa, (2000 * second)%Z, [None; Some 0]. split; [apply joined_reach|]. split; [now left|]. split.
  - intros [] [].
  - exists (rrun xcfg joined). split; [intros w; reflexivity|]. split; [now left|]. intros clock. destruct (C29_available clock joined_reach) as (r' & out & E & _ & D & _). exists out. rewrite E. split; [reflexivity|].
    intros I. apply in_map_iff in I as ([a port] & X & I). cbn [fst] in X. subst a. apply D in I. destruct I as (_ & _ & _ & NC & _). apply NC. now left.
Qed.
Print Assumptions C99_unregister_refuted.
(** Peers are missing in the lists, and the caller is not told (peers/storage.go:133). *)
Theorem C99_lists_refuted : exists cfg ops r fs, rreach cfg ops r /\
  (exists ps, answer (r_db r) (reg_peers_r as_is) fs = Ok ps /\ reg_peers as_is r <> Ok ps) /\
  (exists ps, answer (r_db r) (friendly_peers_r as_is) fs = Ok ps /\ friendly_peers as_is r <> Ok ps) /\
  (exists ps, answer (r_db r) (addresses_r as_is) fs = Ok ps /\ addresses as_is r <> Ok ps) /\
  (forall clock, exists r', answer (r_db r) (take_available_r cfg r clock) fs = Ok (r', Ok [])) /\
  (exists clock out, snd (take_available cfg r clock) = Ok out /\ out <> []).
Proof.
  exists xcfg, (told ++ [RRegister pa (line hgood) hgood (1001 * second)%Z true]), (rrun xcfg (told ++ [RRegister pa (line hgood) hgood (1001 * second)%Z true])), [None; Some 0].
  split; [split; [wf_ops|reflexivity]|]. split; [eexists; split; [vm_compute; reflexivity|vm_compute; discriminate]|]. split; [eexists; split; [vm_compute; reflexivity|vm_compute; discriminate]|].
  split; [eexists; split; [vm_compute; reflexivity|vm_compute; discriminate]|]. split; [intros clock; eexists; reflexivity|].
  exists (at0 (1000 * second)%Z). eexists. split; [vm_compute; reflexivity|discriminate].
Qed.
Print Assumptions C99_lists_refuted.
(** The addresses after one that could not be looked up are dropped, and the returned number does not tell: it is the one of a list of known
    addresses. *)
Theorem C99_append_refuted : exists cfg r l fs r' n a port, rreach cfg [] r /\ In (Some (a, port)) l /\
  append_addresses_r cfg r l None fs = (r', n, [Failed]) /\ ~ known r' a /\ known (fst (append_addresses cfg r l None)) a /\
  n = snd (append_addresses cfg (fst (append_addresses cfg r l None)) l None).
Proof.
  exists xcfg, (rrun xcfg []), xlist, [Some 0]. eexists. eexists. exists pa, 6863%N. split; [split; [constructor|reflexivity]|]. split; [now left|]. split; [vm_compute; reflexivity|].
  split; [intros [p H]; vm_compute in H; discriminate H|]. split; [eexists; vm_compute; reflexivity|reflexivity].
Qed.
Print Assumptions C99_append_refuted.

(** * Examples *)
Example C99_register_example :
  troubles (r_db (rrun xcfg dialled)) (register_peer_r xcfg (rrun xcfg dialled) 0%Z true pa (line hgood) hgood) [None; Some 0] = [Failed] /\
  snd (fst (register_peer xcfg (rrun xcfg dialled) 0%Z true pa (line hgood) hgood)) = Ok tt /\
  exists r', answer (r_db (rrun xcfg dialled)) (register_peer_r xcfg (rrun xcfg dialled) 0%Z true pa (line hgood) hgood) [None; Some 0] = Ok (r', Err EOther, true).
Proof. split; [vm_compute; reflexivity|]. split; [vm_compute; reflexivity|]. eexists. reflexivity. Qed.
(** No version is suggested and no score is written if the record cannot be read. *)
Example C99_calls_example : answer (r_db (rrun xcfg joined)) (suggest_version_r xcfg (rrun xcfg joined) 0%Z true pa) [Some 0] = Ok (rrun xcfg joined, Err EOther) /\
  snd (suggest_version xcfg (rrun xcfg joined) 0%Z true pa) = Ok (ver 1 5 3) /\
  answer (r_db (rrun xcfg joined)) (update_peer_score_r (rrun xcfg joined) true pa 5) [None; Some 0] = Ok (rrun xcfg joined, Err EOther).
Proof. repeat split; vm_compute; reflexivity. Qed.
Example C99_queries_example : answer (r_db (rrun xcfg joined)) (connections_r as_is as_is (rrun xcfg joined)) [None; Some 0] = Err EOther /\
  (exists p, answer (r_db (rrun xcfg joined)) (connections_r as_is as_is (rrun xcfg joined)) [] = Ok [p]) /\
  answer (r_db (rrun xcfg joined)) (reg_peers_r as_is) [Some 0] = Err EOther.
Proof. split; [vm_compute; reflexivity|]. split; [eexists; vm_compute; reflexivity|vm_compute; reflexivity]. Qed.
(** Of two addresses only the first one is given. *)
Example C99_take_example : troubles (r_db (rrun xcfg heard)) (take_available_r xcfg (rrun xcfg heard) (at0 0%Z)) [None; Some 1] = [Ended] /\
  snd (take_available xcfg (rrun xcfg heard) (at0 0%Z)) = Ok [(pa, 6863%N); (pb, 99%N)] /\
  exists r', answer (r_db (rrun xcfg heard)) (take_available_r xcfg (rrun xcfg heard) (at0 0%Z)) [None; Some 1] = Ok (r', Ok [(pa, 6863%N)]) /\ r_pending r' = [pa].
Proof. split; [vm_compute; reflexivity|]. split; [vm_compute; reflexivity|]. eexists. split; vm_compute; reflexivity. Qed.
(** The read for the second good address of the list fails. *)
Example C99_append_example : exists r', append_addresses_r xcfg (rrun xcfg []) xlist None [None; None; None; Some 0] = (r', 1%nat, [Failed]) /\
  append_addresses xcfg (rrun xcfg []) [Some (pa, 6863%N); None; Some (plo, 1%N)] None = (r', 1%nat).
Proof. eexists. split; vm_compute; reflexivity. Qed.
Example C99_history_example : Forall (fun of => wf_rop (fst of)) [(RAppend xlist None, [None; None; Some 0]); (RTake (at0 0%Z), [])] /\
  rrun_r xcfg [(RAppend xlist None, [None; None; Some 0]); (RTake (at0 0%Z), [])] = rrun xcfg [RAppend [Some (pa, 6863%N)] None; RTake (at0 0%Z)].
Proof. split; [wf_ops|vm_compute; reflexivity]. Qed.
