(** Proofs about the distributor. *)
From Coq Require Import Permutation.
From Verif Require Import Base Kv BytesFacts KvFacts ChainModel ChainSpec ChainTree ChainRep ChainStep ChainQueries ChainProofs ForkProofs
  PeersModel PeersSpec PeersProofs PeersCalls NetModel NetSpec.
Set Implicit Arguments.
Unset Strict Implicit.

Lemma wf_go : forall a, wf_addr a -> go_addr a.
Proof. intros [|b|b z]; cbn; tauto. Qed.
Lemma unbe_number : forall s, unbe s = number s.
Proof. induction s as [|x s IH]; [reflexivity|]. rewrite unbe_cons. cbn [number]. now rewrite IH. Qed.

(** ** Histories *)
Lemma reach_more : forall g ops l o f, reachable g ops l -> wf_op o -> (N.of_nat (length ops) + 1 < 2 ^ 32 - 10)%N ->
  reachable g (ops ++ [(o, f)]) (fst (exec g l o f)).
Proof.
  intros g ops l o f (WG & [WO WL] & l0 & S0 & ->) W B. split; [exact WG|]. split.
  - split; [apply Forall_app; split; [exact WO|]; constructor; auto|]. rewrite app_length. cbn [length]. lia.
  - exists l0. split; [exact S0|]. now rewrite ChainProofs.run_app.
Qed.
Lemma rreach_more : forall cfg ops r o, rreach cfg ops r -> wf_rop o -> rreach cfg (ops ++ [o]) (rstep cfg r o).
Proof.
  intros cfg ops r o [W ->] WO. split; [apply Forall_app; auto|]. unfold rrun. now rewrite fold_left_app.
Qed.
(** ** C51 *)
Lemma has_decides : forall g ops l i, reachable g ops l -> wf_id i -> lk_has_block l i = Ok true \/ lk_has_block l i = Ok false.
Proof.
  intros g ops l i H W. destruct (reach_view H) as (s & Es & R & GE & BD & SM). rewrite (v_has R SM W).
  destruct (stored_dec (st_blocks s) i); auto.
Qed.
(** All that can happen to a block. *)
Lemma put_all : forall g ops l b a f, reachable g ops l -> wf_pblock b -> wf_addr a ->
  let l' := fst (exec g l (Put b a) f) in let e := snd (exec g l (Put b a) f) in
  (e = Ok tt /\ lk_has_block l' (pb_id b) = Ok true /\ leash l' a = Ok (pb_id b)) \/
  (e = Err EParentNotFound /\ l' = l /\ lk_has_block l (pb_id b) = Ok false /\ lk_has_block l (pb_parent b) = Ok false) \/
  (e = Err EOther /\ (f <> None \/ (l' = l /\ lk_has_block l (pb_id b) = Ok false /\ lk_has_block l (pb_parent b) = Ok true))) \/
  (e = Panic /\ l' = l /\ lk_has_block l (pb_id b) = Ok false /\ lk_has_block l (pb_parent b) = Ok true /\ pb_gen b <> None /\ (max_int64 < pb_bt b)%N).
Proof.
  intros g ops l b a f H WB WA l' e. assert (WB' := WB). destruct WB' as (W1 & W2 & W3).
  destruct (reach_view H) as (s & Es & R & GE & BD & SM).
  destruct (step_view g f R BD (o := Put b a) (conj WB WA)) as (R' & E' & GE' & SM'). fold l' in R'. fold e in E'.
  destruct (has_decides H W1) as [HB|HB].
  { assert (HS := HB). apply (v_has_true R SM W1) in HS. destruct (chain_hd HS) as (x & c & C & _).
    unfold sexec in *. cbn [effects] in *. rewrite C in *. cbn [length apply_effects fold_left] in *.
    destruct f as [[|k]|]; cbn [Nat.ltb Nat.leb firstn fst snd apply_effects fold_left] in *.
    - right. right. left. split; [exact E'|]. left. discriminate.
    - left. split; [exact E'|]. split; [now apply (v_has_true R' SM' W1)|].
      rewrite (v_leash R' WA), set_leash_get. destruct (addr_eqb_spec a a); [reflexivity|contradiction].
    - left. split; [exact E'|]. split; [now apply (v_has_true R' SM' W1)|].
      rewrite (v_leash R' WA), set_leash_get. destruct (addr_eqb_spec a a); [reflexivity|contradiction]. }
  destruct (has_decides H W2) as [HP|HP].
  2: { right. left. assert (Q := put_no_parent a f H WB HB HP). unfold l', e. rewrite Q. auto. }
  destruct (put_other_cases H WB WA HB HP) as (P1 & P2 & _).
  destruct (pb_gen b) as [ga|] eqn:G.
  2: { right. right. left. unfold l', e. rewrite (P1 eq_refl f). cbn [fst snd]. auto. }
  destruct (N.ltb_spec max_int64 (pb_bt b)) as [BT|BT].
  { right. right. right. unfold l', e. rewrite (P2 ltac:(discriminate) BT f). cbn [fst snd]. repeat split; auto. discriminate. }
  assert (HS := HB). apply (v_has_false R SM W1) in HS. apply chain_nil in HS. assert (HPS := HP). apply (v_has_true R SM W2) in HPS.
  destruct (chain_hd HPS) as (x & c & C & _). assert (BTf : (max_int64 <? pb_bt b)%N = false) by lia.
  unfold sexec in *. cbn [effects] in *. rewrite HS, C, G, BTf in *. cbn [length apply_effects fold_left] in *.
  assert (DONE : lk_has_block l' (pb_id b) = Ok true /\ leash l' a = Ok (pb_id b) \/ exists k, f = Some k /\ k < 2).
  { destruct f as [[|[|k]]|]; cbn [Nat.ltb Nat.leb firstn fst snd apply_effects fold_left] in *;
      [right; exists 0; split; [reflexivity|lia]|right; exists 1; split; [reflexivity|lia]| |]; left;
    (split; [apply (v_has_true R' SM' W1); cbn [st_set_leash st_add st_blocks]; apply stored_cons; now left|]);
    rewrite (v_leash R' WA), set_leash_get; (destruct (addr_eqb_spec a a); [reflexivity|contradiction]). }
  destruct DONE as [[D1 D2]|(k & -> & K)].
  - destruct f as [[|[|k]]|]; cbn [Nat.ltb Nat.leb firstn fst snd] in E'; auto; right; right; left; (split; [exact E'|]); left; discriminate.
  - destruct k as [|[|k]]; [| |lia]; cbn [Nat.ltb Nat.leb firstn fst snd] in E'; right; right; left; (split; [exact E'|]); left; discriminate.
Qed.
Lemma d_block : forall cfg g srt ops rops d x from a m b, dreach cfg g ops rops d -> wf_pblock b -> wf_addr a ->
  ln_addr from = Some a -> carries m b ->
  exists l' o, handle_message cfg g srt x d from m = ({| d_lk := l'; d_reg := d_reg d |}, [], o) /\ l' = fst (exec g (d_lk d) (Put b a) (ft_fault x)) /\
  ((o = Ok (Some (PBlock a b)) /\ lk_has_block l' (pb_id b) = Ok true /\ leash l' a = Ok (pb_id b)) \/
   (o = Ok (Some (PBlock a b)) /\ l' = d_lk d /\ lk_has_block (d_lk d) (pb_id b) = Ok false /\ lk_has_block (d_lk d) (pb_parent b) = Ok false) \/
   (o = Ok None /\ (ft_fault x <> None \/ (l' = d_lk d /\ lk_has_block (d_lk d) (pb_id b) = Ok false /\ lk_has_block (d_lk d) (pb_parent b) = Ok true))) \/
   (o = Panic /\ l' = d_lk d /\ lk_has_block (d_lk d) (pb_id b) = Ok false /\ lk_has_block (d_lk d) (pb_parent b) = Ok true /\ pb_gen b <> None /\ (max_int64 < pb_bt b)%N)).
Proof.
  intros cfg g srt ops rops d x from a m b [D _] WB WA F C.
  assert (E : handle_message cfg g srt x d from m = handle_block g x d from b) by (destruct C as [-> | ->]; reflexivity).
  rewrite E. unfold handle_block. rewrite F. assert (P := put_all (ft_fault x) D WB WA). cbv zeta in P.
  destruct (exec g (d_lk d) (Put b a) (ft_fault x)) as [l' e]. cbn [fst snd] in P. exists l'. eexists. split; [reflexivity|]. split; [reflexivity|].
  destruct P as [(-> & P)|[(-> & P)|[(-> & P)|(-> & P)]]]; auto.
Qed.
Lemma d_forwarded : forall cfg g srt ops rops d x from a m b d' ss o, dreach cfg g ops rops d -> wf_pblock b -> wf_addr a ->
  ln_addr from = Some a -> carries m b -> ft_fault x = None -> handle_message cfg g srt x d from m = (d', ss, o) ->
  (o = Ok (Some (PBlock a b)) <-> lk_has_block (d_lk d') (pb_id b) = Ok true \/
     (lk_has_block (d_lk d) (pb_id b) = Ok false /\ lk_has_block (d_lk d) (pb_parent b) = Ok false)) /\
  (forall p, o = Ok (Some p) -> p = PBlock a b) /\
  (lk_has_block (d_lk d') (pb_id b) = Ok true -> leash (d_lk d') a = Ok (pb_id b)) /\
  d_reg d' = d_reg d /\ ss = [].
Proof.
  intros cfg g srt ops rops d x from a m b d' ss o D WB WA F C N E.
  destruct (d_block srt x D WB WA F C) as (l' & o' & E' & _ & Q). rewrite E in E'. injection E' as -> -> ->. cbn [d_lk d_reg].
  destruct Q as [(-> & Q1 & Q2)|[(-> & -> & Q1 & Q2)|[(-> & [Q|(-> & Q1 & Q2)])|(-> & -> & Q1 & Q2 & _)]]]; try congruence;
    (split; [split; [intros Z; try discriminate; auto|intros [Z|[Z1 Z2]]; auto; congruence]|]);
    (split; [intros p Z; try discriminate; now injection Z as <-|]); split; auto; congruence.
Qed.
Lemma d_forwarded_fault : forall cfg g srt ops rops d x from a m b d' ss o p, dreach cfg g ops rops d -> wf_pblock b -> wf_addr a ->
  ln_addr from = Some a -> carries m b -> handle_message cfg g srt x d from m = (d', ss, o) -> o = Ok (Some p) ->
  p = PBlock a b /\
  ((lk_has_block (d_lk d') (pb_id b) = Ok true /\ leash (d_lk d') a = Ok (pb_id b)) \/
   (lk_has_block (d_lk d) (pb_id b) = Ok false /\ lk_has_block (d_lk d) (pb_parent b) = Ok false)).
Proof.
  intros cfg g srt ops rops d x from a m b d' ss o p D WB WA F C E ->.
  destruct (d_block srt x D WB WA F C) as (l' & o' & E' & _ & Q). rewrite E in E'. injection E' as -> -> <-. cbn [d_lk d_reg].
  destruct Q as [(Q0 & Q1 & Q2)|[(Q0 & -> & Q1 & Q2)|[(Q0 & _)|(Q0 & _)]]]; try discriminate; injection Q0 as ->; auto.
Qed.

Lemma d_offered : forall cfg g srt ops rops d x from a m b, dreach cfg g ops rops d -> wf_pblock b -> wf_addr a ->
  ln_addr from = Some a -> carries m b -> ft_fault x = None ->
  lk_has_block (d_lk d) (pb_parent b) = Ok true -> pb_gen b <> None -> (pb_bt b <= max_int64)%N ->
  exists l', handle_message cfg g srt x d from m = ({| d_lk := l'; d_reg := d_reg d |}, [], Ok (Some (PBlock a b))) /\
    lk_has_block l' (pb_id b) = Ok true /\ leash l' a = Ok (pb_id b).
Proof.
  intros cfg g srt ops rops d x from a m b D WB WA F C N HP G BT.
  assert (Q0 := D). destruct Q0 as [DL _].
  destruct (d_block srt x D WB WA F C) as (l' & o & E & EL & Q). exists l'. rewrite E.
  destruct Q as [(-> & Q)|[(-> & _ & _ & Q)|[(-> & [Q|(Q1 & Q2 & Q3)])|(-> & _ & _ & _ & _ & Q)]]]; auto; try congruence; try lia.
  exfalso. assert (S : exists l2, exec g (d_lk d) (Put b a) None = (l2, Ok tt) /\ lk_has_block l2 (pb_id b) = Ok true).
  { destruct (pb_gen b) as [ga|] eqn:GA; [|congruence]. destruct (N.ltb_spec (pb_ts b) max_int64) as [T|T].
    - destruct (put_new DL WB WA Q2 HP GA BT T) as (l2 & E2 & B2 & _). exists l2. split; [exact E2|].
      unfold lk_has_block. rewrite N in EL. 
      assert (P := put_all None DL WB WA). cbv zeta in P. rewrite E2 in P. cbn [fst snd] in P.
      destruct P as [(_ & P & _)|[(P & _)|[(P & _)|(P & _)]]]; try discriminate. exact P.
    - destruct (put_other_cases DL WB WA Q2 HP) as (_ & _ & P3). destruct P3 as (l2 & E2 & H2 & _); auto; [congruence|]. eauto. }
  destruct S as (l2 & E2 & H2). rewrite N, E2 in EL. cbn in EL. subst l'. congruence.
Qed.

(** ** Panics *)
Lemma register_panics : forall cfg r now w a np h r' o c, wf_addr a -> register_peer cfg r now w a np h = (r', o, c) ->
  (o = Panic <-> ip4 a /\ a <> g_declared cfg /\ hs_app (co_hs np) = [] /\
     (g_cmp cfg (hs_version (co_hs np)) (match reg_peer r a with Ok p => p_version p | _ => zero_version end) < 2)%Z) /\
  (o = Panic \/ o = Ok tt \/ exists e, o = Err e).
Proof.
  intros cfg r now w a np h r' o c W E. destruct (hs_app (co_hs np)) as [|x app] eqn:A.
  2: { assert (NE : hs_app (co_hs np) <> []) by (rewrite A; discriminate).
       destruct (q_register_returns cfg r now w a h NE) as (r2 & o2 & c2 & E2 & Q). rewrite E in E2. injection E2 as <- <- <-.
       split; [|tauto]. split; [intros ->; destruct Q as [Q|[e Q]]; discriminate|intros (_ & _ & Q2 & _); discriminate]. }
  unfold register_peer in E. destruct a as [|b|b z]; [destruct W| |]; cbn [is4 negb] in E.
  2: { injection E as <- <- <-. split; [|eauto]. split; [discriminate|]. intros ((b' & Q & _) & _). discriminate. }
  destruct (addr_eqb_spec (A4 b) (g_declared cfg)) as [ED|ED].
  { injection E as <- <- <-. split; [|eauto]. split; [discriminate|]. intros (_ & Q & _). contradiction. }
  cbn [r_db p_state zero_peer] in E. unfold reg_peer. rewrite get_peer_A4 in *.
  set (old := match kv_get b (r_db r) with Some v => of_value (A4 b) v | None => zero_peer end).
  assert (V : match (match kv_get b (r_db r) with Some v => Ok (of_value (A4 b) v) | None => Err ENotFound end) with
              | Ok p => p_version p | _ => zero_version end = p_version old) by (unfold old; destruct (kv_get b (r_db r)); reflexivity).
  rewrite V. clear V.
  assert (K : match (match kv_get b (r_db r) with Some v => Ok (of_value (A4 b) v) | None => Err ENotFound end) with
     | Ok p => Ok p | Err ENotFound => Ok zero_peer | Err e => Err e | Panic => Panic | Diverge => Diverge end = Ok old)
    by (unfold old; destruct (kv_get b (r_db r)); reflexivity).
  rewrite K in E. clear K. rewrite A in E. cbn [rev] in E.
  destruct (Z.leb_spec 2 (g_cmp cfg (hs_version (co_hs np)) (p_version old))) as [L|L].
  - destruct (finish _ _ w) as [rf of] eqn:F in E. injection E as <- <- <-.
    match type of F with finish ?rr ?pp ?ww = _ => assert (Q := finish_returns rr pp ww) end. rewrite F in Q. cbn in Q.
    split; [|destruct Q; eauto]. split; [intros ->; destruct Q; discriminate|]. intros (_ & _ & _ & Q2). lia.
  - injection E as <- <- <-. split; [|auto]. split; [intros _|auto]. split; [exists b; auto|]. auto.
Qed.
Lemma score_returns : forall r w a s, a <> AZero -> returned (snd (update_peer_score r w a s)).
Proof.
  intros r w a s NZ. unfold update_peer_score. destruct (get_peer_returns (r_db r) NZ) as (o & -> & [[p ->]| ->]); [|exact I].
  destruct (finish_returns r (set_score p (Some s)) w) as [-> | ->]; exact I.
Qed.
Lemma unregister_returns : forall r now w a, a <> AZero -> returned (snd (unregister_peer r now w a)).
Proof.
  intros r now w a NZ. unfold unregister_peer. destruct (get_peer_returns (r_db r) NZ) as (o & -> & [[p ->]| ->]); [|exact I].
  match goal with |- context [finish ?r ?p ?w] => destruct (finish_returns r p w) as [-> | ->]; exact I end.
Qed.
Lemma logged_returned : forall A (o : outcome A), returned o -> logged o = Ok None.
Proof. intros A [x|e| |]; cbn; tauto. Qed.
Lemma wf_nonzero : forall a, wf_addr a -> a <> AZero.
Proof. intros a W ->. exact W. Qed.
(** FriendlyPeers and TCPAddr return. *)
Lemma get_peers_view : forall cfg rops r srt, rreach cfg rops r -> permutes srt ->
  exists ps infos, friendly_peers srt r = Ok ps /\ mapM tcp_addr ps = Ok infos /\ NoDup (map fst infos) /\
    forall b port, In (b, port) infos <-> length b = 4 /\ exists p, reg_peer r (A4 b) = Ok p /\ p_state p = PeerConnected /\ p_port p = port.
Proof.
  intros cfg rops r srt R SP. apply rreach_inv in R. assert (AP := all_peers_view R).
  set (all := map (fun b => of_value (A4 (fst b)) (snd b)) (r_db r)) in *.
  assert (FI : forall p, In p (srt (filter is_friend all)) <-> In p all /\ p_state p = PeerConnected).
  { intros p. rewrite <- (Permutation_in' (eq_refl p) (Permutation_sym (SP (filter is_friend all)))), filter_In. unfold is_friend.
    destruct (p_state p); intuition congruence. }
  unfold friendly_peers. rewrite AP. cbn [bind]. exists (srt (filter is_friend all)).
  assert (T : forall l, (forall p, In p l -> In p all) -> mapM tcp_addr l = Ok (map (fun p => (addr_bytes (p_addr p), p_port p)) l)).
  { induction l as [|p l IH]; intros Q; [reflexivity|]. cbn [mapM map]. assert (QP := Q p (or_introl eq_refl)).
    apply (all_peers_In _ R AP) in QP as [(b & B & _) _]. unfold tcp_addr at 1. rewrite B. cbn [bind addr_bytes]. rewrite IH by (intros; apply Q; now right). reflexivity. }
  eexists. split; [reflexivity|]. split; [apply T; intros p Q; now apply FI in Q|]. split.
  - rewrite map_map. cbn [fst]. assert (ND : NoDup (map p_addr (srt (filter is_friend all)))).
    { assert (ND := all_peers_NoDup R AP). apply (Permutation_NoDup (l := map p_addr (filter is_friend all)));
        [apply Permutation_map, Permutation_sym, SP|]. clear -ND. induction all as [|p l IH]; [constructor|]. cbn [map filter] in *. inversion ND; subst.
      destruct (is_friend p); auto. cbn [map]. constructor; auto. intros Q. apply H1. apply in_map_iff in Q as (q & E & Q). apply filter_In in Q as [Q _].
      rewrite <- E. now apply in_map. }
    assert (IP : forall p, In p (srt (filter is_friend all)) -> ip4 (p_addr p)) by (intros p Q; apply FI in Q as [Q _]; now apply (all_peers_In _ R AP) in Q).
    revert ND IP. generalize (srt (filter is_friend all)). clear. induction l as [|p l IH]; intros ND IP; [constructor|]. cbn [map] in *. inversion ND; subst.
    constructor; [|apply IH; auto; intros; apply IP; now right]. intros Q. apply H1. apply in_map_iff in Q as (q & E & Q).
    destruct (IP p (or_introl eq_refl)) as (b & B & _). destruct (IP q (or_intror Q)) as (b' & B' & _). rewrite B, B' in E. cbn in E. subst b'.
    apply in_map_iff. exists q. split; auto. congruence.
  - intros b port. rewrite in_map_iff. split.
    + intros (p & E & Q). apply FI in Q as [Q S]. apply (all_peers_In _ R AP) in Q as [(b' & B & L) Q]. rewrite B in *. cbn in E. injection E as <- <-. eauto.
    + intros (L & p & G & S & P). assert (PA := get_peer_fields G). destruct PA as [PA _]. exists p. split; [rewrite PA, P; reflexivity|].
      apply FI. split; auto. apply (all_peers_In _ R AP). rewrite PA. split; [exists b; auto|exact G].
Qed.
Lemma d_get_peers : forall cfg g srt ops rops d x from, dreach cfg g ops rops d -> permutes srt ->
  exists l, handle_message cfg g srt x d from MGetPeers = (d, [SPeers (ln_conn from) l], Ok None) /\ NoDup (map fst l) /\
    forall b port, In (b, port) l <-> length b = 4 /\ exists p, reg_peer (d_reg d) (A4 b) = Ok p /\ p_state p = PeerConnected /\ p_port p = port.
Proof.
  intros cfg g srt ops rops d x from [_ R] SP. destruct (get_peers_view R SP) as (ps & infos & E1 & E2 & ND & Q).
  exists infos. cbn [handle_message]. unfold handle_get_peers. rewrite E1, E2. auto.
Qed.
Lemma d_panics : forall cfg g srt ord ops rops d x a d' ss o, dreach cfg g ops rops d -> permutes srt -> wf_arrival a ->
  handle cfg g srt ord x d a = (d', ss, o) ->
  (o = Panic <-> crashing cfg d a) /\ (o = Panic \/ exists p, o = Ok p).
Proof.
  intros cfg g srt ord ops rops d x a d' ss o D SP W E.
  assert (FINE : (exists p, o = Ok p) -> ~ crashing cfg d a -> (o = Panic <-> crashing cfg d a) /\ (o = Panic \/ exists p, o = Ok p)).
  { intros [p ->] C. split; [split; [discriminate|contradiction]|eauto]. }
  destruct a as [from m|[from h|from|]|]; cbn [handle handle_info] in E.
  - destruct W as [WL WM].
    assert (CB : (exists b, carries m b) \/ forall b, ~ carries m b).
    { unfold carries. destruct m as [| l | ids | [b|] | s | mi | [b|] | ids | | | | | | | | | | | | | | n]; try (right; intros b' [Z|Z]; discriminate Z); left; eauto. }
    destruct CB as [[b CB]|CB].
    + assert (WB : wf_pblock b) by (destruct CB as [-> | ->]; exact WM).
      destruct (ln_addr from) as [ad|] eqn:F.
      * assert (WA : wf_addr ad) by (unfold wf_link in WL; now rewrite F in WL). destruct (d_block srt x D WB WA F CB) as (l' & o' & E' & _ & Q).
        rewrite E in E'. injection E' as -> -> ->.
        assert (CR : crashing cfg d (AMessage from m) <-> lk_has_block (d_lk d) (pb_id b) = Ok false /\ lk_has_block (d_lk d) (pb_parent b) = Ok true /\
           pb_gen b <> None /\ (max_int64 < pb_bt b)%N).
        { cbn [crashing]. split; [intros (ad' & b' & F' & C' & Q')|intros Q'; exists ad, b; auto].
          assert (b' = b) by (destruct CB as [-> | ->], C' as [Z|Z]; congruence). now subst b'. }
        destruct Q as [(-> & Q1 & Q2)|[(-> & Q0 & Q1 & Q2)|[(-> & Q)|(-> & Q0 & Q1 & Q2 & Q3 & Q4)]]].
        -- apply FINE; [eauto|]. rewrite CR. intros (Z1 & Z2 & Z3 & Z4). destruct D as [D _].
           destruct (put_other_cases D WB WA Z1 Z2) as (_ & P2 & _). unfold handle_message in E. destruct CB as [-> | ->]; cbn in E; unfold handle_block in E;
             rewrite F, (P2 Z3 Z4) in E; discriminate.
        -- apply FINE; [eauto|]. rewrite CR. intros (Z1 & Z2 & Z3 & Z4). congruence.
        -- apply FINE; [eauto|]. rewrite CR. intros (Z1 & Z2 & Z3 & Z4). destruct D as [D _].
           destruct (put_other_cases D WB WA Z1 Z2) as (_ & P2 & _). unfold handle_message in E. destruct CB as [-> | ->]; cbn in E; unfold handle_block in E;
             rewrite F, (P2 Z3 Z4) in E; discriminate.
        -- split; [|auto]. rewrite CR. tauto.
      * apply FINE; [|cbn [crashing]; intros (ad & b' & F' & _); congruence].
        destruct CB as [-> | ->]; cbn in E; unfold handle_block in E; rewrite F in E; injection E as <- <- <-; eauto.
    + apply FINE; [|cbn [crashing]; intros (ad & b & _ & Q & _); exact (CB b Q)].
      destruct m as [| l | ids | [b|] | s | mi | [b|] | ids | | | | | | | | | | | | | | n]; cbn [handle_message] in E; try (injection E as <- <- <-; eauto; fail);
        try (exfalso; apply (CB b); (now left) || (now right)).
      * destruct (d_get_peers x from D SP) as (l & E' & _). cbn [handle_message] in E'. rewrite E in E'. injection E' as _ _ ->. eauto.
      * unfold handle_peers in E. destruct (append_addresses _ _ _ _). injection E as <- <- <-. eauto.
      * unfold handle_signatures in E. destruct (ln_addr from); injection E as <- <- <-; eauto.
      * unfold handle_score in E. unfold wf_link in WL. destruct (ln_addr from) as [ad|]; [|injection E as <- <- <-; eauto].
        assert (Q := score_returns (d_reg d) (ft_write x) (Z.of_N (unbe s)) (wf_nonzero WL)). destruct (update_peer_score _ _ _ _) as [r e].
        injection E as <- <- <-. cbn [snd] in Q; rewrite (logged_returned Q). eauto.
      * unfold handle_micro in E. unfold wf_link in WL. destruct (ln_addr from) as [ad|]; [|injection E as <- <- <-; eauto].
        destruct mi as [mi|]; [|injection E as <- <- <-; eauto]. cbn [wf_message] in WM. destruct D as [D _].
        assert (Q := p_micro_move_return (o := Micro mi ad) (ft_fault x) D (conj (proj1 WM) (conj (proj2 WM) WL)) Logic.I).
        destruct (exec _ _ _ _) as [l e]. injection E as <- <- <-. cbn [snd] in Q; rewrite (logged_returned Q). eauto.
      * unfold handle_block_ids in E. destruct (ln_addr from); [destruct ids|]; injection E as <- <- <-; eauto.
  - unfold handle_connected in E. cbn in W. unfold wf_link in W. destruct (ln_addr from) as [ad|] eqn:F.
    2: { apply FINE; [injection E as <- <- <-; eauto|]. cbn [crashing]. intros (ad & F' & _). congruence. }
    destruct (register_peer cfg (d_reg d) (ft_now x) (ft_write x) ad (ln_conn from) h) as [[r e] c] eqn:RP. injection E as <- <- <-.
    destruct (register_panics W RP) as [Q1 Q2].
    assert (CR : crashing cfg d (AInfo (IConnected from h)) <-> e = Panic).
    { rewrite Q1. cbn [crashing]. split; [intros (ad' & F' & Q); rewrite F in F'; injection F' as <-; exact Q|intros Q; exists ad; auto]. }
    rewrite CR. destruct Q2 as [->|[->|[er ->]]]; cbn [logged]; (split; [|eauto]); split; intros Z; auto; discriminate.
  - unfold handle_error in E. cbn in W. unfold wf_link in W. destruct (ln_addr from) as [ad|]; [|apply FINE; [injection E as <- <- <-; eauto|cbn; auto]].
    assert (Q := unregister_returns (d_reg d) (ft_now x) (ft_write x) (wf_nonzero W)). destruct (unregister_peer _ _ _ _) as [r e].
    injection E as <- <- <-. cbn [snd] in Q. apply FINE; [rewrite (logged_returned Q); eauto|cbn; auto].
  - injection E as <- <- <-. apply FINE; [eauto|cbn; auto].
  - injection E as <- <- <-. apply FINE; [eauto|cbn; auto].
Qed.

(** ** The state after an arrival is again reachable *)
Lemma d_reach : forall cfg g srt ord ops rops d x a d' ss o, dreach cfg g ops rops d -> wf_arrival a -> (N.of_nat (length ops) + 1 < 2 ^ 32 - 10)%N ->
  handle cfg g srt ord x d a = (d', ss, o) ->
  exists ops' rops', length ops' <= 1 /\ length rops' <= 1 /\ dreach cfg g (ops ++ ops') (rops ++ rops') d'.
Proof.
  intros cfg g srt ord ops rops d x a d' ss o [D R] W B E.
  assert (SAME : d' = d -> exists ops' rops', length ops' <= 1 /\ length rops' <= 1 /\ dreach cfg g (ops ++ ops') (rops ++ rops') d').
  { intros ->. exists [], []. rewrite !app_nil_r. repeat split; auto; apply D || apply R. }
  assert (LK : forall op f, wf_op op -> d' = with_lk d (fst (exec g (d_lk d) op f)) ->
             exists ops' rops', length ops' <= 1 /\ length rops' <= 1 /\ dreach cfg g (ops ++ ops') (rops ++ rops') d').
  { intros op f WO ->. exists [(op, f)], []. rewrite app_nil_r. split; [auto|]. split; [auto|]. split; [cbn; now apply reach_more|exact R]. }
  assert (RG : forall op, wf_rop op -> d' = with_reg d (rstep cfg (d_reg d) op) ->
             exists ops' rops', length ops' <= 1 /\ length rops' <= 1 /\ dreach cfg g (ops ++ ops') (rops ++ rops') d').
  { intros op WO ->. exists [], [op]. rewrite app_nil_r. split; [auto|]. split; [auto|]. split; [exact D|cbn; now apply rreach_more]. }
  destruct a as [from m|[from h|from|]|]; cbn [handle handle_info] in E.
  - destruct W as [WL WM]. unfold wf_link in WL.
    assert (HB : forall b, wf_pblock b -> handle_block g x d from b = (d', ss, o) ->
             exists ops' rops', length ops' <= 1 /\ length rops' <= 1 /\ dreach cfg g (ops ++ ops') (rops ++ rops') d').
    { intros b WB Q. unfold handle_block in Q. destruct (ln_addr from) as [ad|]; [|injection Q as <- _ _; auto].
      apply (LK (Put b ad) (ft_fault x)); [split; auto|]. destruct (exec _ _ _ _). now injection Q as <- _ _. }
    destruct m as [| l | ids | [b|] | s | mi | [b|] | ids | | | | | | | | | | | | | | n]; cbn [handle_message handle_block_message] in E;
      try (injection E as <- <- <-; auto; fail); eauto.
    + apply SAME. unfold handle_get_peers in E. destruct (friendly_peers srt (d_reg d)) as [ps| | |]; try (now injection E as <- _ _).
      destruct (mapM tcp_addr ps); now injection E as <- _ _.
    + apply (RG (RAppend (filter (fun p => match p with Some _ => true | None => false end) l) (ft_append x))).
      * cbn. intros ad port Q. apply filter_In in Q as [Q _]. eauto.
      * cbn [rstep]. unfold handle_peers in E. destruct (append_addresses _ _ _ _). now injection E as <- _ _.
    + apply SAME. unfold handle_signatures in E. destruct (ln_addr from); now injection E as <- _ _.
    + unfold handle_score in E. destruct (ln_addr from) as [ad|]; [|injection E as <- _ _; auto].
      apply (RG (RScore ad (Z.of_N (unbe s)) (ft_write x))); [cbn; now apply wf_go|]. cbn [rstep]. destruct (update_peer_score _ _ _ _). now injection E as <- _ _.
    + unfold handle_micro in E. destruct (ln_addr from) as [ad|]; [|injection E as <- _ _; auto]. destruct mi as [mi|]; [|injection E as <- _ _; auto].
      cbn [wf_message] in WM. apply (LK (Micro mi ad) (ft_fault x)); [cbn; tauto|]. destruct (exec _ _ _ _). now injection E as <- _ _.
    + apply SAME. unfold handle_block_ids in E. destruct (ln_addr from); [destruct ids|]; now injection E as <- _ _.
  - unfold handle_connected in E. cbn in W. unfold wf_link in W. destruct (ln_addr from) as [ad|]; [|injection E as <- _ _; auto].
    apply (RG (RRegister ad (ln_conn from) h (ft_now x) (ft_write x))); [cbn; now apply wf_go|]. cbn [rstep].
    destruct (register_peer _ _ _ _ _ _ _) as [[r e] c]. now injection E as <- _ _.
  - unfold handle_error in E. cbn in W. unfold wf_link in W. destruct (ln_addr from) as [ad|]; [|injection E as <- _ _; auto].
    apply (RG (RUnregister ad (ft_now x) (ft_write x))); [cbn; now apply wf_go|]. cbn [rstep]. destruct (unregister_peer _ _ _ _). now injection E as <- _ _.
  - injection E as <- _ _. auto.
  - injection E as <- _ _. auto.
Qed.
(** What no peer can do to crash the distributor, whatever the state: no empty application name and no base target above 2^63-1. *)
Lemma tame_not_crashing : forall cfg d a, tame a -> ~ crashing cfg d a.
Proof.
  intros cfg d [from m|[from h|from|]|] T; cbn [tame crashing] in *; auto.
  - intros (ad & b & _ & C & _ & _ & _ & Q). specialize (T b C). lia.
  - intros (ad & _ & _ & _ & Q & _). contradiction.
Qed.
Lemma d_run : forall cfg g srt ord l ops rops d d' ss ps o, permutes srt -> dreach cfg g ops rops d -> Forall (fun xa => wf_arrival (snd xa)) l ->
  (N.of_nat (length ops) + N.of_nat (length l) < 2 ^ 32 - 10)%N -> handle_all cfg g srt ord d l = (d', ss, ps, o) ->
  (o = Ok tt /\ exists ops' rops', dreach cfg g (ops ++ ops') (rops ++ rops') d') \/
  (o = Panic /\ exists pre x a post d1 ops' rops', l = pre ++ (x, a) :: post /\ fst (fst (fst (handle_all cfg g srt ord d pre))) = d1 /\
     dreach cfg g (ops ++ ops') (rops ++ rops') d1 /\ crashing cfg d1 a).
Proof.
  intros cfg g srt ord l. induction l as [|[x a] l IH]; intros ops rops d d' ss ps o SP D W B E; cbn [handle_all] in E.
  - injection E as <- _ _ <-. left. split; auto. exists [], []. now rewrite !app_nil_r.
  - inversion W as [|? ? WA WL]; subst. cbn [snd] in WA. cbn [length] in B.
    destruct (handle cfg g srt ord x d a) as [[d1 ss1] o1] eqn:H.
    destruct (d_panics D SP WA H) as [P1 P2].
    assert (B1 : (N.of_nat (length ops) + 1 < 2 ^ 32 - 10)%N) by lia.
    destruct (d_reach D WA B1 H) as (ops' & rops' & L1 & L2 & D1).
    destruct P2 as [->|[p ->]].
    + injection E as <- _ _ <-. right. split; auto. exists [], x, a, l, d, [], []. rewrite !app_nil_r. split; [reflexivity|]. split; [reflexivity|].
      split; [exact D|]. now apply P1.
    + destruct (handle_all cfg g srt ord d1 l) as [[[d2 ss2] ps2] o2] eqn:HA. injection E as <- _ _ <-.
      assert (B2 : (N.of_nat (length (ops ++ ops')) + N.of_nat (length l) < 2 ^ 32 - 10)%N) by (rewrite app_length; lia).
      destruct (IH _ _ _ _ _ _ _ SP D1 WL B2 HA) as [(-> & o3 & r3 & Q)|(-> & pre & y & b & post & d3 & o3 & r3 & E1 & E2 & Q1 & Q2)].
      * left. split; auto. exists (ops' ++ o3), (rops' ++ r3). now rewrite !app_assoc.
      * right. split; auto. exists ((x, a) :: pre), y, b, post, d3, (ops' ++ o3), (rops' ++ r3). split; [now rewrite E1|].
        split; [|rewrite !app_assoc; auto]. cbn [handle_all]. rewrite H. destruct (handle_all cfg g srt ord d1 pre) as [[[d4 ss4] ps4] o4]. exact E2.
Qed.
Lemma d_run_tame : forall cfg g srt ord l ops rops d, permutes srt -> dreach cfg g ops rops d -> Forall (fun xa => wf_arrival (snd xa) /\ tame (snd xa)) l ->
  (N.of_nat (length ops) + N.of_nat (length l) < 2 ^ 32 - 10)%N -> snd (handle_all cfg g srt ord d l) = Ok tt.
Proof.
  intros cfg g srt ord l ops rops d SP D W B. destruct (handle_all cfg g srt ord d l) as [[[d' ss] ps] o] eqn:E.
  assert (W' : Forall (fun xa => wf_arrival (snd xa)) l) by (eapply Forall_impl; [|exact W]; cbn; tauto).
  destruct (d_run SP D W' B E) as [[-> _]|(_ & pre & x & a & post & d1 & _ & _ & -> & _ & _ & C)]; [reflexivity|].
  exfalso. apply Forall_app in W as [_ W]. inversion W as [|? ? [_ T] _]; subst. exact (tame_not_crashing T C).
Qed.

(** ** Scores *)
Lemma d_score : forall cfg g srt ops rops d x from a p s, dreach cfg g ops rops d -> ln_addr from = Some a -> ip4 a -> reg_peer (d_reg d) a = Ok p ->
  ft_write x = true ->
  exists r', handle_message cfg g srt x d from (MScore s) = ({| d_lk := d_lk d; d_reg := r' |}, [], Ok None) /\
    reg_peer r' a = Ok {| p_addr := a; p_port := p_port p; p_nonce := p_nonce p; p_name := p_name p; p_version := p_version p; p_state := p_state p;
                          p_next := p_next p; p_score := Some (Z.of_N (number s)); p_conn := None |} /\
    (forall b, ip4 b -> b <> a -> reg_peer r' b = reg_peer (d_reg d) b) /\ r_conns r' = r_conns (d_reg d) /\ r_pending r' = r_pending (d_reg d).
Proof.
  intros cfg g srt ops rops d x from a p s [_ R] F A G W. apply rreach_inv in R. cbn [handle_message]. unfold handle_score. rewrite F. unfold update_peer_score.
  unfold reg_peer in G. rewrite G, W. assert (PF := get_peer_fields G). destruct PF as [PA PC].
  assert (N := get_peer_name R G).
  destruct (@finish_ok (d_reg d) (set_score p (Some (Z.of_N (unbe s)))) a R PA A N) as (r' & E & G' & C' & P' & O').
  rewrite E. cbn [logged]. exists r'. split; [reflexivity|]. split; [|auto].
  rewrite G'. unfold PeersCalls.stored, of_value, to_value, set_score. cbn. rewrite PA, unbe_number. rewrite (whole_seconds G). reflexivity.
Qed.
Lemma d_score_unknown : forall cfg g srt ops rops d x from s, dreach cfg g ops rops d -> wf_link from ->
  (forall a, ln_addr from = Some a -> ip4 a -> forall p, reg_peer (d_reg d) a <> Ok p) \/ ft_write x = false ->
  handle_message cfg g srt x d from (MScore s) = (d, [], Ok None).
Proof.
  intros cfg g srt ops rops d x from s [_ R] WL Q. apply rreach_inv in R. cbn [handle_message]. unfold handle_score, wf_link in *.
  destruct (ln_addr from) as [a|]; [|reflexivity]. unfold update_peer_score.
  destruct (get_peer_returns (r_db (d_reg d)) (wf_nonzero WL)) as (o & G & [[p ->]| ->]); rewrite G.
  2: { now destruct d as [l r]. }
  destruct (finish_cases (d_reg d) (set_score p (Some (Z.of_N (unbe s)))) (ft_write x)) as [(b & E & _ & W & _)|[-> _]]; [|now destruct d as [l r]].
  exfalso. destruct Q as [Q|Q]; [|congruence]. cbn [set_score p_addr] in E. destruct (get_peer_fields G) as [PA _]. rewrite PA in E. subst a. cbn in WL.
  apply (Q (A4 b) eq_refl) with (p := p); [exists b; auto|exact G].
Qed.

(** ** Failed connections *)
Lemma d_error : forall cfg g srt ord ops rops d x from a p, dreach cfg g ops rops d -> ln_addr from = Some a -> ip4 a -> reg_peer (d_reg d) a = Ok p ->
  exists r', handle cfg g srt ord x d (AInfo (IError from)) = ({| d_lk := d_lk d; d_reg := r' |}, [SClose (ln_conn from)], Ok None) /\
    ~ connected r' a /\ ~ pending r' a /\
    (ft_write x = true -> exists p', reg_peer r' a = Ok p' /\ p_next p' = round_second (ft_now x + 600 * second)%Z) /\
    (forall b, ip4 b -> b <> a -> reg_peer r' b = reg_peer (d_reg d) b) /\
    (forall b, b <> a -> (connected r' b <-> connected (d_reg d) b) /\ (pending r' b <-> pending (d_reg d) b)).
Proof.
  intros cfg g srt ord ops rops d x from a p [_ R] F A G. assert (RI := rreach_inv R).
  destruct (q_unregister (ft_now x) R A G) as (r1 & E1 & Q1 & Q2 & Q3 & Q4 & Q5).
  cbn [handle handle_info]. unfold handle_error. rewrite F.
  destruct (ft_write x).
  - rewrite E1. exists r1. split; [reflexivity|]. split; [exact Q1|]. split; [exact Q2|]. split; [|auto]. intros _. rewrite Q3. eexists. split; reflexivity.
  - unfold unregister_peer in *. unfold reg_peer in G. rewrite G in *.
    set (r2 := {| r_db := r_db (d_reg d); r_conns := del_conn a (r_conns (d_reg d)); r_pending := del_addr a (r_pending (d_reg d)) |}) in *.
    assert (E2 : finish r2 (set_next p (round_second (ft_now x + delay)%Z)) false = (r2, Err EOther)).
    { destruct (finish_cases r2 (set_next p (round_second (ft_now x + delay)%Z)) false) as [(c & _ & _ & Z & _)|[-> _]]; [discriminate|reflexivity]. }
    rewrite E2. assert (C1 : r_conns r1 = r_conns r2 /\ r_pending r1 = r_pending r2).
    { assert (Z := finish_maps r2 (set_next p (round_second (ft_now x + delay)%Z)) true). rewrite E1 in Z. exact Z. }
    destruct C1 as [C1 C2]. exists r2. unfold connected, pending in *. rewrite C1, C2 in *. split; [reflexivity|]. split; [exact Q1|]. split; [exact Q2|].
    split; [discriminate|]. split; [reflexivity|exact Q5].
Qed.

(** ** New connections *)
Lemma register_closed : forall cfg r now w a np h r' o c, register_peer cfg r now w a np h = (r', o, c) ->
  (c = true -> r_conns r' = r_conns r) /\
  (c = false -> o <> Panic -> a <> g_declared cfg -> hs_decl h <> DeclBad -> In (a, np) (r_conns r')).
Proof.
  intros cfg r now w a np h r' o c E. unfold register_peer in E. destruct a as [|b|b z]; cbn [is4 negb] in E; try (injection E as <- <- <-; split; auto; discriminate).
  destruct (addr_eqb_spec (A4 b) (g_declared cfg)) as [ED|ED]; [injection E as <- <- <-; split; [auto|contradiction]|].
  cbn [r_db p_state zero_peer] in E. rewrite get_peer_A4 in E.
  set (old := match kv_get b (r_db r) with Some v => of_value (A4 b) v | None => zero_peer end).
  assert (K : match (match kv_get b (r_db r) with Some v => Ok (of_value (A4 b) v) | None => Err ENotFound end) with
     | Ok p => Ok p | Err ENotFound => Ok zero_peer | Err e => Err e | Panic => Panic | Diverge => Diverge end = Ok old)
    by (unfold old; destruct (kv_get b (r_db r)); reflexivity).
  rewrite K in E. clear K.
  assert (FM : forall r0 p0 rf of, finish r0 p0 w = (rf, of) -> r_conns rf = r_conns r0).
  { intros r0 p0 rf of Z. assert (Q := finish_maps r0 p0 w). rewrite Z in Q. apply Q. }
  destruct (2 <=? g_cmp cfg (hs_version (co_hs np)) (p_version old))%Z.
  { destruct (finish _ _ w) as [rf of] eqn:FE in E. injection E as <- <- <-. split; [intros _; exact (FM _ _ _ _ FE)|discriminate]. }
  destruct (rev (hs_app (co_hs np))) as [|y app]; [injection E as <- <- <-; split; congruence|].
  destruct (negb (Byte.to_N y =? Byte.to_N (g_scheme cfg))%N).
  { destruct (finish _ _ w) as [rf of] eqn:FE in E. injection E as <- <- <-. split; [intros _; exact (FM _ _ _ _ FE)|discriminate]. }
  destruct (check_port (A4 b) h) as [po cc] eqn:CP.
  assert (QP : (exists port, po = Ok port) /\ cc = false \/ po = Err EOther /\ (cc = false -> hs_decl h = DeclBad)).
  { unfold check_port in CP. destruct (hs_decl h) as [| |ha port]; try (injection CP as <- <-; eauto).
    destruct (is_loopback ha); [injection CP as <- <-; right; split; [auto|discriminate]|].
    destruct (negb (is4 ha)); [injection CP as <- <-; right; split; [auto|discriminate]|].
    destruct (addr_eqb ha (A4 b)); injection CP as <- <-; eauto. }
  destruct QP as [[[port ->] ->]|[-> QB]].
  - destruct (finish _ _ w) as [rf of] eqn:FE in E. injection E as <- <- <-. split; [discriminate|]. intros _ _ _ _.
    rewrite (FM _ _ _ _ FE). cbn [r_conns]. unfold set_conn. apply in_or_app. right. now left.
  - injection E as <- <- <-. split; [auto|]. intros Z _ _ Q. exfalso. exact (Q (QB Z)).
Qed.
Lemma d_refused : forall cfg g srt ord x d from h d' ss o a, ln_addr from = Some a ->
  handle cfg g srt ord x d (AInfo (IConnected from h)) = (d', ss, o) ->
  (ss = [] \/ ss = [SClose (ln_conn from)]) /\ d_lk d' = d_lk d /\
  (ss <> [] -> r_conns (d_reg d') = r_conns (d_reg d)) /\
  (o <> Panic -> a <> g_declared cfg -> hs_decl h <> DeclBad -> ~ In (a, ln_conn from) (r_conns (d_reg d')) -> ss = [SClose (ln_conn from)]).
Proof.
  intros cfg g srt ord x d from h d' ss o a F E. cbn [handle handle_info] in E. unfold handle_connected in E. rewrite F in E.
  destruct (register_peer cfg (d_reg d) (ft_now x) (ft_write x) a (ln_conn from) h) as [[r e] c] eqn:RP. injection E as <- <- <-.
  destruct (register_closed RP) as [Q1 Q2]. cbn [with_reg d_lk d_reg]. split; [destruct c; auto|]. split; [auto|]. split.
  - intros Z. apply Q1. destruct c; congruence.
  - intros NP ND NB NI. destruct c; [reflexivity|]. exfalso. apply NI, Q2; auto. intros ->. now apply NP.
Qed.

(** ** Dialling *)
Lemma offer_hostile : forall cfg r now w a, hostile r a -> offer cfg r now w (Some a) = (r, Err EOther).
Proof. intros. cbn [offer]. now apply q_hostile_no_version. Qed.
Lemma next_total : forall vs v, vs <> [] -> exists x, next_version vs v = Ok x.
Proof.
  intros vs v NE. unfold next_version.
  match goal with |- context [nth_error vs ?i] => destruct (nth_error vs i) eqn:E; [eauto|] end.
  exfalso. apply nth_error_None in E. destruct vs as [|y vs]; [congruence|]. cbn [length] in E.
  destruct (Z.of_nat (S (length vs)) - 1 <=? Z.of_nat (index_of v (y :: vs)))%Z eqn:B; lia.
Qed.
Lemma suggest_known : forall cfg r now a p, RInv r -> g_versions cfg <> [] -> ip4 a -> reg_peer r a = Ok p -> p_state p <> PeerHostile ->
  exists v r', suggest_version cfg r now true a = (r', Ok v).
Proof.
  intros cfg r now a p I NV A G H. unfold suggest_version. unfold reg_peer in G. rewrite G. destruct (get_peer_fields G) as [PA _].
  destruct (p_state p) eqn:S; [|eauto|congruence].
  destruct (next_total (p_version p) NV) as [v ->].
  destruct (@finish_ok r (set_version p v (round_second (now + delay)%Z)) a I PA A (get_peer_name I G)) as (r' & E & _). rewrite E. eauto.
Qed.
Lemma suggest_rest : forall cfg r now w a v r', suggest_version cfg r now w a = (r', Ok v) -> r_conns r' = r_conns r /\ r_pending r' = r_pending r.
Proof.
  intros cfg r now w a v r' E. unfold suggest_version in E.
  assert (FM : forall r0 p0 rf of, finish r0 p0 w = (rf, of) -> r_conns rf = r_conns r0 /\ r_pending rf = r_pending r0).
  { intros r0 p0 rf of Z. assert (Q := finish_maps r0 p0 w). rewrite Z in Q. exact Q. }
  destruct (get_peer (r_db r) a) as [p|[] | |]; try discriminate.
  - destruct (p_state p); try discriminate; [|injection E as <- _; auto].
    destruct (next_version (g_versions cfg) (p_version p)); try discriminate. destruct (finish _ _ w) as [rf of] eqn:FE in E. specialize (FM _ _ _ _ FE).
    destruct of; try discriminate. now injection E as <- _.
  - destruct (best_version (g_versions cfg)); try discriminate. destruct (finish _ _ w) as [rf of] eqn:FE in E. specialize (FM _ _ _ _ FE).
    destruct of; try discriminate. now injection E as <- _.
Qed.
Lemma q_dial : forall cfg rops r x a p, rreach cfg rops r -> g_versions cfg <> [] -> ip4 a -> reg_peer r a = Ok p -> p_state p <> PeerHostile ->
  ft_write x = true ->
  (exists r' v, dial cfg r x a true = (r', Ok true) /\ suggest_version cfg r (ft_now x) true a = (r', Ok v) /\ r_conns r' = r_conns r /\ r_pending r' = r_pending r) /\
  (exists r' p', dial cfg r x a false = (r', Ok true) /\ ~ pending r' a /\ ~ connected r' a /\ reg_peer r' a = Ok p' /\
     p_next p' = round_second (ft_now x + 600 * second)%Z /\ p_port p' = p_port p /\ p_state p' = p_state p /\
     forall b, b <> a -> (pending r' b <-> pending r b) /\ (connected r' b <-> connected r b) /\ (ip4 b -> known r b -> reg_peer r' b = reg_peer r b)).
Proof.
  intros cfg rops r x a p R NV A G H W. assert (I := rreach_inv R). assert (GA : go_addr a) by (destruct A as (b & -> & L); exact L).
  destruct (suggest_known (ft_now x) I NV A G H) as (v & r1 & E1). destruct (suggest_rest E1) as [C1 P1]. unfold dial. cbn [offer]. rewrite W, E1. split; [exists r1, v; auto|].
  assert (R1 : rreach cfg (rops ++ [RSuggest a (ft_now x) true]) r1).
  { replace r1 with (rstep cfg r (RSuggest a (ft_now x) true)) by (cbn [rstep]; now rewrite E1). apply rreach_more; [exact R|exact GA]. }
  assert (G1 : exists p1, reg_peer r1 a = Ok p1 /\ p_port p1 = p_port p /\ p_state p1 = p_state p).
  { unfold suggest_version in E1. unfold reg_peer in G. rewrite G in E1. destruct (p_state p) eqn:S; [| |congruence].
    - destruct (next_version (g_versions cfg) (p_version p)) as [v'| | |]; try discriminate.
      destruct (get_peer_fields G) as [PA _].
      destruct (@finish_ok r (set_version p v' (round_second (ft_now x + delay)%Z)) a I PA A (get_peer_name I G)) as (r' & E & G' & _).
      rewrite E in E1. injection E1 as <- _. rewrite G'. eexists. split; [reflexivity|]. cbn. auto.
    - injection E1 as <- _. exists p. auto. }
  destruct G1 as (p1 & G1 & PP & PS). destruct (q_unregister (ft_now x) R1 A G1) as (r2 & E2 & Q1 & Q2 & Q3 & Q4 & Q5). rewrite E2.
  eexists r2, _. split; [reflexivity|]. split; [exact Q2|]. split; [exact Q1|]. split; [exact Q3|]. cbn [p_next p_port p_state]. split; [reflexivity|].
  split; [exact PP|]. split; [exact PS|]. intros b NB. destruct (Q5 b NB) as [Z1 Z2].
  split; [unfold pending in *; now rewrite Z2, P1|]. split; [unfold connected in *; now rewrite Z1, C1|].
  intros B KB. rewrite (Q4 b B NB). replace r1 with (rstep cfg r (RSuggest a (ft_now x) true)) by (cbn [rstep]; now rewrite E1).
  apply step_other; auto.
Qed.
Lemma q_dial_hostile : forall cfg rops r x a up, rreach cfg rops r -> hostile r a -> exists r', dial cfg r x a up = (r', Ok false) /\ hostile r' a.
Proof.
  intros cfg rops r x a up R HO. apply rreach_inv in R. unfold dial. rewrite offer_hostile by exact HO. destruct HO as (p & G & S).
  unfold unregister_peer. unfold reg_peer in G. rewrite G.
  match goal with |- context [finish ?r0 ?p0 ?w0] => destruct (finish_cases r0 p0 w0) as [(b & E & _ & _ & ->)|[-> _]] end.
  - eexists. split; [reflexivity|]. destruct (get_peer_fields G) as [PA _]. cbn [set_next p_addr] in E. rewrite PA in E. subst a.
    exists (of_value (A4 b) (to_value (set_next p (round_second (ft_now x + delay)%Z)))). unfold reg_peer. rewrite get_peer_A4. cbn [with_pdb r_db].
    rewrite kv_get_put_eq by apply (I_sorted R). split; [reflexivity|]. cbn. exact S.
  - eexists. split; [reflexivity|]. exists p. auto.
Qed.
Lemma q_dial_delay : forall cfg rops r x a p r1 ops clock r2 out, rreach cfg rops r -> g_versions cfg <> [] -> ip4 a -> reg_peer r a = Ok p ->
  ft_write x = true -> dial cfg r x a false = (r1, Ok true) -> Forall wf_rop ops -> Forall (leaves a (ft_now x)) ops ->
  (clock a < ft_now x + 600 * second - second / 2)%Z ->
  take_available cfg (fold_left (rstep cfg) ops r1) clock = (r2, Ok out) -> ~ In a (map fst out).
Proof.
  intros cfg rops r x a p r1 ops clock r2 out R NV A G W E WO LO CL T.
  assert (GA : go_addr a) by (destruct A as (b & -> & L); exact L).
  unfold dial in E. cbn [offer] in E. rewrite W in E.
  destruct (suggest_version cfg r (ft_now x) true a) as [rs o] eqn:S.
  assert (R1 : rreach cfg (rops ++ [RSuggest a (ft_now x) true]) rs).
  { replace rs with (rstep cfg r (RSuggest a (ft_now x) true)) by (cbn [rstep]; now rewrite S). now apply rreach_more. }
  assert (K1 : known rs a).
  { replace rs with (rstep cfg r (RSuggest a (ft_now x) true)) by (cbn [rstep]; now rewrite S). apply known_step; [eapply rreach_inv, R|exact GA|exact A|exists p; exact G]. }
  destruct K1 as [p1 G1]. destruct (q_unregister (ft_now x) R1 A G1) as (ru & EU & _).
  destruct o as [v|e| |]; try discriminate; rewrite EU in E; [|discriminate]. injection E as <-.
  exact (q_rests R1 A G1 EU WO LO CL T).
Qed.
