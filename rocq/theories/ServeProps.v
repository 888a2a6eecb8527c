(** The HTTP handlers while the other goroutines work (C89). *)
From Coq Require Import Strings.Byte.
From Verif Require Import Base Kv BytesFacts ChainModel ChainSpec ChainTree ChainRep ChainQueries ChainProofs ChainForks ChainExample ForkProofs ForkProps PeersModel PeersSpec PeersProofs PeersCalls
  PeersProps ApiModel ApiSpec ApiProofs ApiProps ServeModel.
Set Implicit Arguments.
Unset Strict Implicit.

(** * Specification *)
(** The calls on the linkage among the deeds. *)
Definition links (ds : list deed) : list (op * option nat) := flat_map (fun d => match d with DLink o f => [(o, f)] | DReg _ => [] end) ds.
(** The linkage came about by calls on an empty one, and the others go on like that: fewer than 2^32-10 calls in all, and MoveLeash only
    to stored blocks (as the loader does, C43-C50). *)
Definition lively (g : pblock) (s : shop) : Prop :=
  exists l0 ops, wf_pblock g /\ start g = Ok l0 /\ fst (sh_now s) = run g l0 ops /\ wf_hist (ops ++ links (concat (sh_next s))) /\
    good_moves g l0 (ops ++ links (concat (sh_next s))).
(** The stores were [t] at some moment between [s] and [s']. *)
Definition moment (cfg : config) (g : pblock) (s : shop) (t : stores) (s' : shop) : Prop :=
  exists d1 d2, t = after cfg g (sh_now s) d1 /\ sh_now s' = after cfg g t d2 /\ concat (sh_next s) = d1 ++ d2 ++ concat (sh_next s').

(** * Time passes *)
Section Serve.
Variable cfg : config.
Variable g : pblock.
Definition passes (s s' : shop) : Prop := exists d, sh_now s' = after cfg g (sh_now s) d /\ concat (sh_next s) = d ++ concat (sh_next s').
Lemma passes_refl : forall s, passes s s. Proof. intros s. exists []. auto. Qed.
Lemma passes_trans : forall a b c, passes a b -> passes b c -> passes a c.
Proof.
  intros a b c (d & A & B) (e & C & D). exists (d ++ e). split; [|rewrite B, D; apply app_assoc]. rewrite C, A. unfold after. now rewrite fold_left_app.
Qed.
Lemma passes_meantime : forall s, passes s (meantime cfg g s).
Proof. intros s. exists (hd [] (sh_next s)). split; [reflexivity|]. cbn [meantime sh_next]. destruct (sh_next s); reflexivity. Qed.
Lemma moment_of : forall s s1 s', passes s s1 -> passes s1 s' -> moment cfg g s (sh_now s1) s'.
Proof. intros s s1 s' (d & A & B) (e & C & D). exists d, e. split; [exact A|]. split; [exact C|]. now rewrite B, D. Qed.
Lemma links_app : forall a b, links (a ++ b) = links a ++ links b.
Proof. intros a b. apply flat_map_app. Qed.
Lemma run_after : forall ds s, fst (after cfg g s ds) = run g (fst s) (links ds).
Proof.
  induction ds as [|d ds IH]; intros s; [reflexivity|]. unfold after in *. cbn [fold_left]. rewrite IH. destruct d; reflexivity.
Qed.
Lemma lively_passes : forall s s', lively g s -> passes s s' -> lively g s'.
Proof.
  intros s s' (l0 & ops & WG & S0 & E & WH & GM) (d & A & B). exists l0, (ops ++ links d). split; [exact WG|]. split; [exact S0|].
  rewrite B, links_app, app_assoc in WH, GM. rewrite A, run_after, E, run_app. auto.
Qed.
Lemma wf_hist_front : forall a b, wf_hist (a ++ b) -> wf_hist a.
Proof. intros a b [F L]. apply Forall_app in F as [F _]. split; [exact F|]. rewrite app_length in L. lia. Qed.
Lemma good_front : forall a b l, good_moves g l (a ++ b) -> good_moves g l a.
Proof. induction a as [|[o f] a IH]; intros b l; cbn [app good_moves]; [tauto|]. intros [A B]. eauto. Qed.
Lemma lively_reach : forall s, lively g s -> exists ops, reachable g ops (fst (sh_now s)).
Proof. intros s (l0 & ops & WG & S0 & E & WH & GM). exists ops. split; [exact WG|]. split; [eapply wf_hist_front; eauto|]. eauto. Qed.
Lemma lively_two : forall s s', lively g s -> passes s s' -> exists ops more, reachable g ops (fst (sh_now s)) /\ reachable g (ops ++ more) (fst (sh_now s')).
Proof.
  intros s s' (l0 & ops & WG & S0 & E & WH & GM) (d & A & B). exists ops, (links d). split.
  - split; [exact WG|]. split; [eapply wf_hist_front; eauto|]. eauto.
  - rewrite B, links_app, app_assoc in WH. split; [exact WG|]. split; [eapply wf_hist_front; eauto|]. exists l0. split; [exact S0|].
    rewrite A, run_after, E. now rewrite run_app.
Qed.
(** Leashed blocks are stored. *)
Lemma lively_leash : forall s a i, lively g s -> wf_addr a -> has_leash (fst (sh_now s)) a = Ok true -> leash (fst (sh_now s)) a = Ok i ->
  wf_id i /\ lk_has_block (fst (sh_now s)) i = Ok true.
Proof.
  intros s a i (l0 & ops & WG & S0 & E & WH & GM) WA HL L. apply wf_hist_front in WH. apply good_front in GM.
  destruct (@leash_points g l0 ops a WG S0 WH GM WA) as (j & A & B & _). rewrite <- E in A, B. assert (j = i) by congruence. subst j. split; [|exact B].
  assert (RX : reachable g ops (fst (sh_now s))) by (split; [exact WG|split; [exact WH|eauto]]).
  destruct (reach_view RX) as (st & Es & R & GE & BD & SM). rewrite (v_leash R WA) in L. injection L as <-. rewrite (v_has_leash R WA) in HL.
  destruct (st_leash st a) as [j|] eqn:Q; [|discriminate]. pose proof (good_state WG S0 WH GM) as LS. rewrite <- Es in LS. eapply (stored_wf (R_wf R)). eapply LS, Q.
Qed.
Lemma block_kept : forall s s' i, lively g s -> passes s s' -> wf_id i -> lk_has_block (fst (sh_now s)) i = Ok true ->
  block (fst (sh_now s')) i = block (fst (sh_now s)) i.
Proof. intros s s' i L P W H. destruct (lively_two L P) as (ops & more & A & B). apply (hist_immutable A B W H). Qed.
Lemma blocks_kept : forall s s' i c, lively g s -> passes s s' -> wf_id i -> lk_has_block (fst (sh_now s)) i = Ok true ->
  get_blocks (lk_db (fst (sh_now s'))) i c = get_blocks (lk_db (fst (sh_now s))) i c.
Proof.
  intros s s' i c L P W S. destruct (lively_two L P) as (ops & more & H & H'). destruct (reach_view H) as (st & Es & R & _ & _ & SM).
  destruct (reach_view H') as (st' & Es' & R' & _ & _ & SM'). apply (v_has_true R SM W) in S. rewrite srun_app, <- Es in Es'.
  assert (G : grows (st_blocks st) (st_blocks st')) by (rewrite Es'; apply grows_srun). pose proof (grows_stored G S) as S'.
  destruct (Z.ltb_spec c 0) as [N|N].
  - unfold get_blocks. destruct (proj1 (num_of_stored _ _) S) as [n E]. destruct (proj1 (num_of_stored _ _) S') as [n' E'].
    rewrite (rep_num R SM _ E), (rep_num R' SM' _ E'). cbn [bind]. now destruct (Z.ltb_spec c 0); [|lia].
  - rewrite (q_get_blocks R SM S N), (q_get_blocks R' SM' S' N). now rewrite (grows_chain G (R_wf R') S).
Qed.
Lemma leash_kept : forall s s' a, lively g s -> passes s s' -> wf_addr a -> has_leash (fst (sh_now s)) a = Ok true ->
  has_leash (fst (sh_now s')) a = Ok true.
Proof.
  intros s s' a (l0 & ops & WG & S0 & E & WH & GM) (d & A & B) W H. rewrite B, links_app, app_assoc in WH. apply wf_hist_front in WH.
  rewrite A, run_after. rewrite E in *. rewrite <- run_app. pose proof (wf_hist_front WH) as W1.
  rewrite (proj2 (@leash_last g l0 ops a WG S0 W1 W)) in H. rewrite (proj2 (@leash_last g l0 (ops ++ links d) a WG S0 WH W)).
  assert (T : forall os l acc, acc <> None -> last_success a (trace g l os) acc <> None).
  { induction os as [|[o f] os IH]; intros l acc N; cbn [trace last_success]; [exact N|]. apply IH.
    destruct (target o) as [[a' i]|]; [|exact N]. destruct (snd (exec g l o f)); try exact N. destruct (addr_eqb a a'); [discriminate|exact N]. }
  assert (TA : forall os l acc, last_success a (trace g l (os ++ links d)) acc = last_success a (trace g (run g l os) (links d)) (last_success a (trace g l os) acc)).
  { induction os as [|[o f] os IH]; intros l acc; cbn [app trace last_success run]; [reflexivity|]. apply IH. }
  rewrite TA. destruct (last_success a (trace g l0 ops) None) as [i|]; [|discriminate H].
  destruct (last_success a _ (Some i)) eqn:Q; [reflexivity|]. exfalso. revert Q. apply T. discriminate.
Qed.

(** * Several calls *)
Lemma each_passes : forall A B C (F : stores -> A -> outcome B) (G : A -> B -> C) xs s,
  passes s (fst (each (fun x => then_ (ask cfg g (fun t => F t x)) (fun b => give (G x b))) xs s)).
Proof.
  intros A B C F G. induction xs as [|x xs IH]; intros s; [apply passes_refl|]. cbn [each]. unfold then_ at 1 2. unfold ask.
  pose proof (passes_meantime s) as P. destruct (F (sh_now (meantime cfg g s)) x) as [b|e| |]; cbn [fst]; try exact P.
  cbn [give]. eapply passes_trans; [exact P|]. specialize (IH (meantime cfg g s)). unfold then_ at 1.
  destruct (each _ xs (meantime cfg g s)) as [s2 [ys|e| |]]; exact IH.
Qed.
(** The calls after [s0] return the same as at [s0]. *)
Lemma each_same : forall A B C (F : stores -> A -> outcome B) (G : A -> B -> C) s0 xs s, passes s0 s ->
  (forall x s1, In x xs -> passes s0 s1 -> F (sh_now s1) x = F (sh_now s0) x) ->
  snd (each (fun x => then_ (ask cfg g (fun t => F t x)) (fun b => give (G x b))) xs s) = mapM (fun x => do b <- F (sh_now s0) x; Ok (G x b)) xs.
Proof.
  intros A B C F G s0. induction xs as [|x xs IH]; intros s P H; [reflexivity|]. cbn [each mapM]. unfold then_ at 1 2. unfold ask.
  pose proof (passes_trans P (passes_meantime s)) as P1. rewrite (H x _ (or_introl eq_refl) P1).
  destruct (F (sh_now s0) x) as [b|e| |]; cbn [bind snd]; try reflexivity. cbn [give]. unfold then_ at 1.
  specialize (IH (meantime cfg g s) P1 (fun y s1 I => H y s1 (or_intror I))). rewrite <- IH.
  destruct (each _ xs (meantime cfg g s)) as [s2 [ys|e| |]]; reflexivity.
Qed.
End Serve.
Arguments passes cfg g s s' : clear implicits.

(** * C89 *)
(** The answers about heads, leashes, the fork of a peer and its generators describe one moment during the request: they are the answers
    of ApiModel (C56, C59, C60) at that moment. *)
Theorem C89_heads : forall cfg g ev s s' r, lively g s -> serve_heads cfg g ev s = (s', r) ->
  exists t, moment cfg g s t s' /\ r = api_heads ev (fst t).
Proof.
  intros cfg g ev s s' r L E. unfold serve_heads, replies, then_ at 1, ask at 1 in E. pose proof (passes_meantime cfg g s) as P.
  set (s1 := meantime cfg g s) in *. exists (sh_now s1). unfold api_heads. pose proof (lively_passes L P) as L1.
  destruct (active_heads (fst (sh_now s1))) as [hs|e| |] eqn:AH; cbn [bind];
    try (injection E as <- <-; split; [apply moment_of; [exact P|apply passes_refl]|reflexivity]).
  match type of E with (let (_, _) := each ?f hs s1 in _) = _ =>
    pose proof (@each_passes cfg g _ _ _ (fun t (h : N * id) => block (fst t) (snd h)) (fun h b => {| hi_number := fst h; hi_id := snd h; hi_height := b_height b; hi_score := b_score b; hi_ts := b_ts b |}) hs s1) as P2;
    pose proof (@each_same cfg g _ _ _ (fun t (h : N * id) => block (fst t) (snd h)) (fun h b => {| hi_number := fst h; hi_id := snd h; hi_height := b_height b; hi_score := b_score b; hi_ts := b_ts b |}) s1 hs s1 (passes_refl _ _ s1)) as Q end.
  cbv beta in P2, Q. destruct (each _ hs s1) as [s2 o]. cbn [fst snd] in P2, Q. injection E as <- <-. split; [apply moment_of; assumption|]. rewrite Q; [reflexivity|].
  intros [n i] s3 I P3. cbn [snd]. destruct (lively_reach L1) as [ops R]. destruct (C22_active_heads R) as (hs' & p & HS & AH' & HP).
  assert (hs = filter p hs') by congruence. subst hs. apply filter_In in I as [_ I]. apply HP in I as (a & WA & _ & HL & LE).
  destruct (lively_leash L1 WA HL LE) as [W S]. exact (block_kept L1 P3 W S).
Qed.
Print Assumptions C89_heads.
Theorem C89_leashes : forall cfg g ev o srt s s' r, lively g s -> map_order (or_groups o) -> serve_leashes cfg g ev o srt s = (s', r) ->
  exists t, moment cfg g s t s' /\ r = api_leashes ev o srt (fst t).
Proof.
  intros cfg g ev o srt s s' r L MO E. unfold serve_leashes, replies, then_ at 1, ask at 1 in E. pose proof (passes_meantime cfg g s) as P.
  set (s1 := meantime cfg g s) in *. exists (sh_now s1). unfold api_leashes. pose proof (lively_passes L P) as L1.
  destruct (lk_leashes (fst (sh_now s1))) as [ls|e| |] eqn:AL; cbn [bind];
    try (injection E as <- <-; split; [apply moment_of; [exact P|apply passes_refl]|reflexivity]).
  unfold then_ at 1 in E.
  set (G := fun (k : id * list addr) b => {| li_id := b_id b; li_height := b_height b; li_score := b_score b; li_ts := b_ts b; li_gen := b_gen b; li_count := length (snd k); li_peers := snd k |}).
  set (gs := or_groups o (group_leashes ls)) in *.
  pose proof (@each_passes cfg g _ _ _ (fun t (h : id * list addr) => block (fst t) (fst h)) G gs s1) as P2.
  pose proof (@each_same cfg g _ _ _ (fun t (h : id * list addr) => block (fst t) (fst h)) G s1 gs s1 (passes_refl _ _ s1)) as Q. unfold G in P2, Q.
  cbv beta in P2, Q. match type of P2 with passes _ _ _ (fst ?x) => destruct x as [s2 ro] end. cbn [fst snd] in P2, Q. assert (s' = s2 /\ r = answer (forallb (fun i => ev_date ev (li_ts i))) (do x <- ro; Ok (srt x))) as [-> ->].
  { unfold give in E. destruct ro; cbn [bind]; cbv beta iota in E; injection E as <- <-; auto. }
  split; [apply moment_of; assumption|]. rewrite Q; [reflexivity|].
  intros [i as_] s3 I P3. cbn [fst]. destruct (lively_reach L1) as [ops R]. destruct (leashes_full R) as (ls' & LS & ND & ONLY & _). assert (ls' = ls) by congruence. subst ls'.
  assert (GR : grouped ls gs) by (eapply grouped_perm; [apply grouped_leashes|apply MO]). destruct GR as (_ & K & _).
  apply (in_map fst) in I. apply K in I. apply in_map_iff in I as ([a j] & IJ & I). cbn [fst snd] in IJ. subst j.
  destruct (ONLY _ _ I) as (WA & LE & HL). destruct (lively_leash L1 WA HL LE) as [W S]. exact (block_kept L1 P3 W S).
Qed.
Print Assumptions C89_leashes.
Theorem C89_fork : forall cfg g ev o q s s' r, lively g s -> (forall a, ev_addr ev q = Some a -> wf_addr a) -> serve_fork cfg g ev o q s = (s', r) ->
  exists t, moment cfg g s t s' /\ r = api_fork ev o (fst t) q.
Proof.
  intros cfg g ev o q s s' r L WQ E. unfold serve_fork in E. unfold api_fork. destruct (ev_addr ev q) as [a|].
  2: { injection E as <- <-. exists (sh_now s). split; [apply moment_of; apply passes_refl|reflexivity]. }
  unfold ask at 1 in E. pose proof (passes_meantime cfg g s) as P. set (s1 := meantime cfg g s) in *. pose proof (lively_passes L P) as L1.
  destruct (has_leash (fst (sh_now s1)) a) as [[|]|e| |] eqn:HL;
    try (injection E as <- <-; exists (sh_now s1); rewrite HL; split; [apply moment_of; [exact P|apply passes_refl]|reflexivity]).
  unfold replies, ask in E. pose proof (passes_meantime cfg g s1) as P2. set (s2 := meantime cfg g s1) in *. injection E as <- <-. exists (sh_now s2).
  split; [apply moment_of; [eapply passes_trans; eauto|apply passes_refl]|]. now rewrite (leash_kept L1 P2 (WQ a eq_refl) HL).
Qed.
Print Assumptions C89_fork.
Theorem C89_generators : forall cfg g ev o q n s s' r, lively g s -> map_order (or_groups o) ->
  (forall a, ev_addr ev q = Some a -> wf_addr a /\ a <> all_ones) -> serve_generators cfg g ev o q n s = (s', r) ->
  exists t, moment cfg g s t s' /\ r = api_generators ev o (fst t) q n.
Proof.
  intros cfg g ev o q n s s' r L MO WQ E. unfold serve_generators in E. unfold api_generators. destruct (ev_addr ev q) as [a|].
  2: { injection E as <- <-. exists (sh_now s). split; [apply moment_of; apply passes_refl|reflexivity]. }
  destruct (ev_atoi ev n) as [c|].
  2: { injection E as <- <-. exists (sh_now s). split; [apply moment_of; apply passes_refl|reflexivity]. }
  unfold ask at 1 in E. pose proof (passes_meantime cfg g s) as P. set (s1 := meantime cfg g s) in *. pose proof (lively_passes L P) as L1.
  destruct (has_leash (fst (sh_now s1)) a) as [[|]|e| |] eqn:HL;
    try (injection E as <- <-; exists (sh_now s1); rewrite HL; split; [apply moment_of; [exact P|apply passes_refl]|reflexivity]).
  unfold replies, then_, ask in E. pose proof (passes_meantime cfg g s1) as P2. set (s2 := meantime cfg g s1) in *. exists (sh_now s2).
  destruct (WQ a eq_refl) as [WA NO]. pose proof (leash_kept L1 P2 WA HL) as HL2. rewrite HL2. pose proof (lively_passes L1 P2) as L2.
  destruct (fork_of (or_groups o) (fst (sh_now s2)) a) as [f|e| |] eqn:FO; cbn [bind];
    try (injection E as <- <-; split; [apply moment_of; [eapply passes_trans; eauto|apply passes_refl]|reflexivity]).
  pose proof (passes_meantime cfg g s2) as P3. set (s3 := meantime cfg g s2) in *. injection E as <- <-.
  split; [apply moment_of; [eapply passes_trans; eauto|exact P3]|]. destruct (lively_reach L2) as [ops R].
  destruct (leashed_of R WA NO HL2) as [i LI]. destruct (p_fork R MO LI FO) as (lg & _ & FH & _). rewrite FH.
  destruct LI as (_ & _ & _ & LE). destruct (lively_leash L2 WA HL2 LE) as [W S]. unfold fork_generators. now rewrite (blocks_kept _ L2 P3 W S).
Qed.
Print Assumptions C89_generators.
(** Active forks: the connections of one moment and the leashes of a later one. *)
Theorem C89_active : forall cfg g ev o q s s' r, serve_active_forks cfg g ev o q s = (s', r) ->
  exists s1 t1 t2, moment cfg g s t1 s1 /\ moment cfg g s1 t2 s' /\ r = api_active_forks ev o (fst t2) (snd t1) q.
Proof.
  intros cfg g ev o q s s' r E. unfold serve_active_forks in E. unfold api_active_forks. destruct (get_peers ev q) as [ps|].
  2: { injection E as <- <-. exists s, (sh_now s), (sh_now s). split; [apply moment_of; apply passes_refl|]. split; [apply moment_of; apply passes_refl|reflexivity]. }
  unfold replies, then_, ask in E. pose proof (passes_meantime cfg g s) as P. set (s1 := meantime cfg g s) in *. exists s1, (sh_now s1).
  destruct (connections (or_conns o) (or_peers o) (snd (sh_now s1))) as [cs|e| |]; cbn [bind];
    try (injection E as <- <-; exists (sh_now s1); split; [apply moment_of; [exact P|apply passes_refl]|split; [apply moment_of; apply passes_refl|reflexivity]]).
  injection E as <- <-. exists (sh_now (meantime cfg g s1)). split; [apply moment_of; [exact P|apply passes_refl]|].
  split; [apply moment_of; [apply passes_meantime|apply passes_refl]|reflexivity].
Qed.
Print Assumptions C89_active.

(** Status: four moments. *)
Definition wf_deed (d : deed) : Prop := match d with DReg o => wf_rop o | DLink _ _ => True end.
Definition rolls (cfg : config) (s : shop) : Prop := exists rops, rreach cfg rops (snd (sh_now s)) /\ Forall wf_deed (concat (sh_next s)).
Lemma rolls_passes : forall cfg g s s', rolls cfg s -> passes cfg g s s' -> rolls cfg s'.
Proof.
  intros cfg g s s' (rops & R & W) (d & A & B). rewrite B in W. apply Forall_app in W as [W W']. unfold rolls. rewrite A. clear A B. generalize dependent (sh_now s). revert rops W.
  induction d as [|x d IH]; intros rops W t R; [exists rops; auto|]. inversion W as [|? ? W1 W2]; subst. unfold after in *. cbn [fold_left]. destruct x as [o f|o].
  - apply (IH rops W2). exact R.
  - apply (IH (rops ++ [o]) W2). cbn [does snd]. destruct R as [F ->]. split; [apply Forall_app; auto|]. unfold rrun. now rewrite fold_left_app.
Qed.
Lemma count_all : forall cfg rops r srt al, rreach cfg rops r -> permutes srt -> reg_peers srt r = Ok al -> counts (fun a => ip4 a /\ known r a) (length al).
Proof.
  intros cfg rops r srt al RR O6 E. destruct (q_peers RR O6) as (al' & A & ND & AI). assert (al' = al) by congruence. subst al'.
  exists (map p_addr al). split; auto. split; [|apply map_length]. intros a. rewrite in_map_iff. split.
  - intros (p & <- & I). apply AI in I as [I1 I2]. split; auto. now exists p.
  - intros [I4 [p X]]. exists p. assert (PA : p_addr p = a) by (eapply get_peer_fields, X). split; auto. apply AI. now rewrite PA.
Qed.
Lemma count_friends : forall cfg rops r srt fr, rreach cfg rops r -> permutes srt -> friendly_peers srt r = Ok fr ->
  counts (fun a => ip4 a /\ exists p, reg_peer r a = Ok p /\ p_state p = PeerConnected) (length fr).
Proof.
  intros cfg rops r srt fr RR O6 F. pose proof (rreach_inv RR) as INV. unfold friendly_peers in F. rewrite (all_peers_view INV) in F. cbn [bind] in F. injection F as <-.
  set (ps := map _ (r_db r)). assert (AP : all_peers (r_db r) = Ok ps) by apply (all_peers_view INV).
  assert (P := O6 (filter is_friend ps)). exists (map p_addr (filter is_friend ps)). split; [|split].
  - apply NoDup_filter_map. apply (all_peers_NoDup INV AP).
  - intros a. rewrite in_map_iff. split.
    + intros (p & <- & I). apply filter_In in I as [I B]. apply (all_peers_In p INV AP) in I as [I1 I2]. split; auto. exists p. split; auto.
      unfold is_friend in B. now destruct (p_state p).
    + intros [I4 (p & E & ST)]. exists p. assert (PA : p_addr p = a) by (eapply get_peer_fields, E). split; auto. apply filter_In.
      split; [apply (all_peers_In p INV AP); now rewrite PA|]. unfold is_friend. now rewrite ST.
  - rewrite map_length. symmetry. now apply Permutation_length.
Qed.
Lemma count_conns : forall cfg rops r cord srt cs, rreach cfg rops r -> permutes cord -> permutes srt -> connections cord srt r = Ok cs -> counts (connected r) (length cs).
Proof.
  intros cfg rops r cord srt cs RR O5 O6 C. pose proof (rreach_inv RR) as INV. exists (map p_addr cs). split; [|split].
  - unfold connections in C. destruct (mapM _ (cord (r_conns r))) as [ps| | |] eqn:M; try discriminate. cbn [bind] in C. injection C as <-.
    assert (Q : map p_addr ps = map fst (cord (r_conns r))).
    { eapply mapM_map; [exact M|]. intros [b c] p _ X. cbn [fst snd] in *. destruct (get_peer (r_db r) b) as [q| | |] eqn:G; try discriminate.
      cbn [bind] in X. injection X as <-. cbn. eapply get_peer_fields, G. }
    eapply Permutation_NoDup; [apply Permutation_map, Permutation_sym, O6|]. rewrite Q.
    eapply Permutation_NoDup; [apply Permutation_map, Permutation_sym, O5|]. apply INV.
  - exact (connections_addrs O5 O6 C).
  - apply map_length.
Qed.
(** Each number of the status is right at one of four moments, in this order. *)
Theorem C89_status : forall cfg g o s s' st, rolls cfg s -> fair o -> serve_status cfg g o s = (s', Reply st) ->
  exists s1 s2 s3 t1 t2 t3 t4, moment cfg g s t1 s1 /\ moment cfg g s1 t2 s2 /\ moment cfg g s2 t3 s3 /\ moment cfg g s3 t4 s' /\
    (exists fs, forks (or_groups o) (or_forks o) (fst t1) [] = Ok fs /\
       s_long st = length (filter (fun f => (5 <? f_length f)%Z) fs) /\ s_short st + s_long st = length fs) /\
    counts (fun a => ip4 a /\ known (snd t2) a) (s_all st) /\
    counts (fun a => ip4 a /\ exists p, reg_peer (snd t3) a = Ok p /\ p_state p = PeerConnected) (s_friendly st) /\
    counts (connected (snd t4)) (s_connected st).
Proof.
  intros cfg g o s s' st R (O1 & O2 & O3 & O4 & O5 & O6) E. unfold serve_status, replies, then_, ask, give in E.
  pose proof (passes_meantime cfg g s) as P1. set (s1 := meantime cfg g s) in *. destruct (stats (or_groups o) (or_forks o) (fst (sh_now s1))) as [sl| | |] eqn:S; try discriminate E.
  pose proof (passes_meantime cfg g s1) as P2. set (s2 := meantime cfg g s1) in *. destruct (reg_peers (or_peers o) (snd (sh_now s2))) as [al| | |] eqn:A; try discriminate E.
  pose proof (passes_meantime cfg g s2) as P3. set (s3 := meantime cfg g s2) in *. destruct (friendly_peers (or_peers o) (snd (sh_now s3))) as [fr| | |] eqn:F; try discriminate E.
  pose proof (passes_meantime cfg g s3) as P4. set (s4 := meantime cfg g s3) in *. destruct (connections (or_conns o) (or_peers o) (snd (sh_now s4))) as [cs| | |] eqn:C; try discriminate E.
  cbn [answer] in E. injection E as <- <-. exists s1, s2, s3, (sh_now s1), (sh_now s2), (sh_now s3), (sh_now s4). cbn [s_short s_long s_all s_friendly s_connected].
  pose proof (rolls_passes R P1) as R1. pose proof (rolls_passes R1 P2) as R2. pose proof (rolls_passes R2 P3) as R3. pose proof (rolls_passes R3 P4) as R4.
  do 4 (split; [apply moment_of; [assumption|apply passes_refl]|]).
  split. { destruct (proj1 (p_stats (fst (sh_now s1)) (or_groups o) (or_forks o)) _ S) as (fs & FS & Q1 & Q2). exists fs. auto. }
  destruct R2 as (r2 & R2 & _), R3 as (r3 & R3 & _), R4 as (r4 & R4 & _).
  split; [exact (count_all R2 O6 A)|]. split; [exact (count_friends R3 O6 F)|exact (count_conns R4 O5 O6 C)].
Qed.
Print Assumptions C89_status.
(** When nobody else does anything, status and active forks are those of ApiModel. *)
Theorem C89_calm : forall cfg g ev o q s, concat (sh_next s) = [] ->
  snd (serve_status cfg g o s) = api_status o (fst (sh_now s)) (snd (sh_now s)) /\
  snd (serve_active_forks cfg g ev o q s) = api_active_forks ev o (fst (sh_now s)) (snd (sh_now s)) q.
Proof.
  intros cfg g ev o q s C.
  assert (M : forall s1, concat (sh_next s1) = [] -> sh_now (meantime cfg g s1) = sh_now s1 /\ concat (sh_next (meantime cfg g s1)) = []).
  { intros s1 C1. cbn [meantime sh_now sh_next]. destruct (sh_next s1) as [|d ds]; [auto|]. cbn [concat hd tl] in *. apply app_eq_nil in C1 as [-> C1]. auto. }
  split.
  - unfold serve_status, api_status, replies, then_, ask, give. destruct (M s C) as [E1 C1]. rewrite E1. destruct (stats _ _ _) as [sl| | |]; try reflexivity. cbn [bind].
    destruct (M _ C1) as [E2 C2]. rewrite E2, E1. destruct (reg_peers _ _) as [al| | |]; try reflexivity. cbn [bind].
    destruct (M _ C2) as [E3 C3]. rewrite E3, E2, E1. destruct (friendly_peers _ _) as [fr| | |]; try reflexivity. cbn [bind].
    destruct (M _ C3) as [E4 C4]. rewrite E4, E3, E2, E1. destruct (connections _ _ _) as [cs| | |]; reflexivity.
  - unfold serve_active_forks, api_active_forks. destruct (get_peers ev q) as [ps|]; [|reflexivity]. unfold replies, then_, ask. destruct (M s C) as [E1 C1]. rewrite E1.
    destruct (connections _ _ _) as [cs| | |]; try reflexivity. cbn [bind]. destruct (M _ C1) as [E2 C2]. now rewrite E2, E1.
Qed.
Print Assumptions C89_calm.

(** A moment of a run of three deeds at most. *)
Lemma moment_cases : forall cfg g s t s' d1 d2, concat (sh_next s) = [d1; d2] -> moment cfg g s t s' ->
  t = sh_now s \/ t = after cfg g (sh_now s) [d1] \/ t = after cfg g (sh_now s) [d1; d2].
Proof.
  intros cfg g s t s' d1 d2 E (a & b & -> & _ & Q). rewrite E in Q. destruct a as [|x [|y [|z a]]]; cbn [app] in Q.
  - left. reflexivity.
  - right; left. injection Q as <- _. reflexivity.
  - right; right. injection Q as <- <- _. reflexivity.
  - discriminate Q.
Qed.
(** Peers 2 and 3 are connected. While active forks are asked for, peer 2 leaves and a block it has sent is handled: the answer says
    that the connected peer 2 is on this block, which was so at no moment. *)
Definition both_ops : list rop := xrops ++ [RSuggest (xpeer 2) 0%Z true; RRegister (xpeer 2) (line hplain) hplain 0%Z true].
Definition leaves : deed := DReg (RUnregister (xpeer 2) 0%Z true).
Definition brings : deed := DLink (Put (xblk 8 3) (xpeer 2)) None.
Definition leaving : shop := {| sh_now := (xl, rrun xcfg both_ops); sh_next := [[]; [leaves; brings]] |}.
Lemma leaving_lively : lively xg leaving.
Proof.
  exists xl0, xops. split; [apply xl_reachable|]. split; [reflexivity|]. split; [reflexivity|]. split.
  - split; [|vm_compute; reflexivity]. apply Forall_app. split; [apply xl_reachable|]. repeat constructor.
  - vm_compute. repeat split.
Qed.
Theorem C89_active_refuted : exists cfg g ev o q s s' r, lively g s /\ rolls cfg s /\ fair o /\ serve_active_forks cfg g ev o q s = (s', r) /\
  forall t, moment cfg g s t s' -> r <> api_active_forks ev o (fst t) (snd t) q.
Proof.
  exists xcfg, xg, xev, xord, [], leaving. eexists _, _. split; [apply leaving_lively|].
  split; [exists both_ops; split; [split; [wf_ops|reflexivity]|repeat constructor]|]. split; [apply xord_fair|]. split; [apply surjective_pairing|].
  intros t M. assert (X : concat (sh_next leaving) = [leaves; brings]) by reflexivity.
  destruct (moment_cases X M) as [->|[->| ->]]; intros E; apply (f_equal (fun r => match r with Reply fs => map (fun f => (f_head f, f_peers f)) fs | _ => [] end)) in E;
    vm_compute in E; discriminate E.
Qed.
Print Assumptions C89_active_refuted.
(** A peer joins between two calls of status: one friendly peer among no peers at all, which C61 excludes at every moment. *)
Definition joining : shop := {| sh_now := (xl, new_registry []); sh_next := [[]; []; map DReg xrops] |}.
Theorem C89_status_refuted : exists cfg g o s s' st, lively g s /\ rolls cfg s /\ fair o /\ serve_status cfg g o s = (s', Reply st) /\
  s_all st < s_friendly st /\ forall t rops, rreach cfg rops (snd t) -> api_status o (fst t) (snd t) <> Reply st.
Proof.
  assert (S : snd (serve_status xcfg xg xord joining) = Reply {| s_short := 3; s_long := 0; s_all := 0; s_friendly := 1; s_connected := 1 |}) by (vm_compute; reflexivity).
  exists xcfg, xg, xord, joining. eexists _, _. split.
  { exists xl0, xops. split; [apply xl_reachable|]. split; [reflexivity|]. split; [reflexivity|]. split; [|vm_compute; repeat split].
    replace (xops ++ links (concat (sh_next joining))) with xops by (symmetry; apply app_nil_r). apply xl_reachable. }
  split; [exists []; split; [split; [constructor|reflexivity]|repeat constructor]|]. split; [apply xord_fair|].
  split; [rewrite <- S; apply surjective_pairing|]. split; [cbn; lia|].
  intros t rops R E. destruct (C61_status R xord_fair E) as (_ & _ & _ & _ & A & _). cbn in A. lia.
Qed.
Print Assumptions C89_status_refuted.
Example C89_example : lively xg leaving /\ map_order (or_groups xord) /\
  match snd (serve_heads xcfg xg xev {| sh_now := sh_now leaving; sh_next := [[]; [brings]] |}) with Reply r => map hi_id r | _ => [] end = [xid 3] /\
  match snd (serve_fork xcfg xg xev xord [x02] leaving) with Reply f => f_head f | _ => [] end = xid 8 /\
  snd (serve_fork xcfg xg xev xord [x09] leaving) = Code 404 /\
  match snd (serve_generators xcfg xg xev xord [x02] [x0c] leaving) with Reply c => length c | _ => 0 end = 2.
Proof.
  split; [apply leaving_lively|]. split; [apply same_order|]. split; [vm_compute; reflexivity|]. split; [vm_compute; reflexivity|].
  split; [vm_compute; reflexivity|]. vm_compute. reflexivity.
Qed.
