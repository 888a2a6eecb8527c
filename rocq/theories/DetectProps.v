(** The property C103 of /verif/properties.jsonl: forks between honest peers are found. *)
From Coq Require Import Strings.Byte.
From Verif Require Import Base Kv ChainModel ChainSpec ChainTree ChainLca ChainProofs ChainExample PeersModel PeersSpec PeersProps LoadModel LoadSpec LoadProofs LoadReal LoadLeash LoadProps
  NetModel NetSpec NetProps WholeModel WholeSpec WholeProofs WholeSource WholeProps SyncSpec SyncProofs SyncProps LockSpec HonestSpec HonestProofs HonestSync HonestProps NetProofs
  ForkProofs ForkProps AlarmProofs AlarmProps.
Set Implicit Arguments.
Unset Strict Implicit.

(** * Chains of peers *)
(** The IDs of two chains agree for [n] blocks after genesis and differ in the next one. *)
Definition part (xs ys : list pblock) (n : nat) : Prop :=
  exists c x xs' y ys', map pb_id xs = c ++ x :: xs' /\ map pb_id ys = c ++ y :: ys' /\ x <> y /\ length c = n.
Lemma split_ids : forall xs ys : list id, (exists c x xs' y ys', xs = c ++ x :: xs' /\ ys = c ++ y :: ys' /\ x <> y) \/ (exists zs, xs = ys ++ zs) \/ (exists zs, ys = xs ++ zs).
Proof.
  induction xs as [|x xs IH]; intros ys; [right; right; now exists ys|]. destruct ys as [|y ys]; [right; left; now exists (x :: xs)|].
  destruct (id_eqb x y) eqn:E.
  - apply id_eqb_eq in E. subst y. destruct (IH ys) as [(c & u & us & v & vs & -> & -> & N)|[(zs & ->)|(zs & ->)]]; [left; exists (x :: c), u, us, v, vs; auto|right; left; now exists zs|right; right; now exists zs].
  - left. exists [], x, xs, y, ys. split; [reflexivity|]. split; [reflexivity|]. intros ->. assert (id_eqb y y = true) by now apply id_eqb_eq. congruence.
Qed.
Section Meaning.
Variable m : meaning.
Variable g : pblock.
(** In a store of true blocks, the chain of the head of a proper chain is this chain. *)
Lemma chain_cids : forall es, WF es -> Forall (meant m g) es -> forall P, proper_chain m g P -> stored es (tip g P) -> chain_ids es (tip g P) = rev (cids g P).
Proof.
  intros es W F P. induction P as [|b P IH] using rev_ind; intros PC S; assert (PC0 := PC); destruct PC as (L & ND & A).
  - assert (SC := proj1 (stored_chain W F PC0 S)). unfold tip in *. cbn [map last] in *. destruct (chain_hd S) as (e & c & C & ID & IN).
    unfold chain_ids. rewrite C. cbn [map cids rev app]. rewrite ID. destruct c as [|e1 c]; [reflexivity|exfalso].
    rewrite Forall_forall in F. assert (NP : e_parent e = None).
    { destruct (chain_last W) as (g0 & GP & GI & _ & _). destruct (F g0 GI) as [(_ & I0 & O0)|(p & bt & _ & E & _)]; [|congruence].
      assert (e = g0) by (apply (entry_unique W); congruence). subst. auto. }
    clear - W C NP. revert C. induction W as [e0 ? P0|e0 older p x W IH ? NS P0]; cbn [chain].
    + destruct (id_eqb _ _); [rewrite P0|]; discriminate.
    + destruct (id_eqb (e_id e0) (pb_id g)); [|exact IH]. rewrite P0. intros HH. injection HH as <- _. congruence.
  - rewrite tip_snoc in *. assert (PP := proper_prefix PC0). apply links_app in L as [L [L1 _]]. apply Forall_app in A as [A A1]. apply Forall_inv in A1. destruct A1 as (_ & _ & _ & MB).
    assert (NG : pb_id b <> pb_id g).
    { unfold cids in ND. rewrite map_app in ND. cbn [map] in ND. rewrite app_comm_cons in ND. apply NoDup_remove_2 in ND. rewrite app_nil_r in ND. intros E. apply ND. rewrite E. now left. }
    destruct (chain_hd S) as (e & c & C & ID & IN). rewrite Forall_forall in F.
    destruct (F e IN) as [(_ & E & _)|(p & bt & M1 & M2 & M3)]; [exfalso; congruence|].
    rewrite ID, MB in M1. injection M1 as <- <-.
    assert (CC : stored es (pb_parent b) /\ c = chain es (pb_parent b)).
    { clear - W C M2. revert C. induction W as [e0 ? P0|e0 older p x W IH ? NS P0 SP ? ? ?]; intros C; cbn [chain] in C.
      - destruct (id_eqb _ _); [rewrite P0 in C|discriminate]. injection C as <- _. congruence.
      - destruct (id_eqb (e_id e0) (pb_id b)) eqn:E.
        + rewrite P0 in C. injection C as <- <-. assert (p = pb_parent b) by congruence. subst p. split; [apply stored_cons; auto|].
          exact (eq_sym (@chain_fresh e0 older _ NS SP)).
        + destruct (IH C) as [S1 E1]. split; [apply stored_cons; auto|]. rewrite E1. exact (eq_sym (@chain_fresh e0 older _ NS S1)). }
    destruct CC as [SP ->]. replace (pb_parent b) with (tip g P) in * by (unfold tip; congruence).
    unfold chain_ids in *. rewrite C. cbn [map]. rewrite (IH PP SP), ID. unfold cids. rewrite map_app, app_comm_cons, rev_app_distr. reflexivity.
Qed.
Lemma tip_height : forall es, WF es -> Forall (meant m g) es -> forall P, proper_chain m g P -> stored es (tip g P) -> height es (tip g P) = S (length P).
Proof.
  intros es W F P PC S. unfold height. rewrite <- (map_length e_id). change (map e_id (chain es (tip g P))) with (chain_ids es (tip g P)).
  rewrite (chain_cids W F PC S), rev_length. unfold cids. cbn [length]. now rewrite map_length.
Qed.
(** The chain of an ancestor is an initial piece of the chain. *)
Lemma anc_piece : forall es, WF es -> forall i j, anc es i j -> exists w, chain_ids es i = w ++ chain_ids es j /\ hd j (chain_ids es j) = j.
Proof.
  intros es W i j A. destruct (anc_split W A) as (own & E & SJ & _). exists (map e_id own). unfold chain_ids. rewrite E, map_app. split; [reflexivity|].
  destruct (chain_hd SJ) as (e & c & -> & <- & _). reflexivity.
Qed.
Lemma last_cids_id : forall c : list id, last c (pb_id g) = last (pb_id g :: c) (pb_id g).
Proof. intros [|x c]; reflexivity. Qed.
Lemma piece_at : forall es, WF es -> forall i w k, chain_ids es i = w ++ k -> k <> [] -> exists j, anc es i j /\ chain_ids es j = k /\ hd_error k = Some j.
Proof.
  intros es W i w k E N. unfold chain_ids in E. apply map_eq_app in E as (c1 & c2 & E & <- & <-).
  destruct c2 as [|e c2]; [contradiction|]. destruct (anc_mid W E) as [A C]. exists (e_id e). split; [exact A|]. unfold chain_ids. now rewrite C.
Qed.
Lemma rev_tail : forall (A : Type) (u v w : list A), rev u = w ++ rev v -> u = v ++ rev w.
Proof. intros A u v w E. apply (f_equal (@rev A)) in E. rewrite rev_involutive, rev_app_distr, rev_involutive in E. exact E. Qed.
(** Where the chains part is the last common block. *)
Lemma parted : forall es, WF es -> Forall (meant m g) es -> forall xs ys n, proper_chain m g xs -> proper_chain m g ys -> stored es (tip g xs) -> stored es (tip g ys) ->
  part xs ys n -> exists k, is_lca es (tip g xs) (tip g ys) k /\ height es k = S n.
Proof.
  intros es W F xs ys n PX PY SX SY (c & x & xs' & y & ys' & EX & EY & NE & LN).
  assert (CX := chain_cids W F PX SX). assert (CY := chain_cids W F PY SY). unfold cids in CX, CY. rewrite EX in CX. rewrite EY in CY.
  rewrite app_comm_cons, rev_app_distr in CX, CY.
  assert (NK : rev (pb_id g :: c) <> []) by (cbn [rev]; destruct (rev c); discriminate).
  destruct (piece_at W CX NK) as (k & AX & CK & HK). destruct (piece_at W CY NK) as (k' & AY & _ & HK'). rewrite HK in HK'. injection HK' as <-.
  exists k. split.
  - split; [exact AX|]. split; [exact AY|]. intros i AI AJ. destruct (anc_piece W AI) as (u & EU & HI). destruct (anc_piece W AJ) as (v & EV & _).
    rewrite CX in EU. rewrite CY in EV. set (t := chain_ids es i) in *. rewrite <- rev_app_distr in EU, EV. rewrite <- (rev_involutive t) in EU, EV.
    apply rev_tail in EU. apply rev_tail in EV.
    assert (LT : length t <= length (pb_id g :: c)).
    { destruct (le_lt_dec (length t) (length (pb_id g :: c))) as [L|L]; [exact L|exfalso]. assert (N1 := f_equal (fun z => nth_error z (length (pb_id g :: c))) EU).
      assert (N2 := f_equal (fun z => nth_error z (length (pb_id g :: c))) EV). cbv beta in N1, N2. rewrite nth_error_app2, Nat.sub_diag in N1, N2 by lia.
      rewrite nth_error_app1 in N1, N2 by (rewrite rev_length; lia). cbn in N1, N2. congruence. }
    assert (PR : exists r, pb_id g :: c = rev t ++ r).
    { exists (skipn (length t) (pb_id g :: c)). assert (N1 := f_equal (firstn (length t)) EU). rewrite firstn_app in N1. replace (length t - length (pb_id g :: c)) with 0 in N1 by lia.
      cbn [firstn] in N1. rewrite app_nil_r in N1. rewrite firstn_app, rev_length, Nat.sub_diag in N1. cbn [firstn] in N1. rewrite app_nil_r in N1.
      rewrite (@firstn_all2 _ (length t) (rev t)) in N1 by (rewrite rev_length; lia). rewrite <- N1. symmetry. apply firstn_skipn. }
    destruct PR as (r & PR). unfold anc. rewrite CK, PR, rev_app_distr, rev_involutive. apply in_or_app. right. rewrite <- HI.
    assert (TN : t <> []) by (destruct (anc_split W AI) as (_ & _ & SI & _); destruct (chain_hd SI) as (e & c0 & C0 & _); unfold t, chain_ids; rewrite C0; discriminate).
    destruct t; [contradiction|now left].
  - unfold height. rewrite <- (map_length e_id). change (map e_id (chain es k)) with (chain_ids es k). rewrite CK, rev_length. cbn [length]. now rewrite LN.
Qed.
(** Chains that do not part: the last common block is the head of the shorter one. *)
Lemma along : forall es, WF es -> Forall (meant m g) es -> forall xs ys zs, proper_chain m g xs -> proper_chain m g ys -> stored es (tip g xs) -> stored es (tip g ys) ->
  map pb_id xs = map pb_id ys ++ zs -> anc es (tip g xs) (tip g ys).
Proof.
  intros es W F xs ys zs PX PY SX SY E. assert (CX := chain_cids W F PX SX). assert (CY := chain_cids W F PY SY). unfold cids in CX. rewrite E, app_comm_cons, rev_app_distr in CX.
  change (pb_id g :: map pb_id ys) with (cids g ys) in CX. rewrite <- CY in CX. unfold anc. rewrite CX. apply in_or_app. right. exact (anc_self SY).
Qed.
End Meaning.

(** * The reports *)
Section Store.
Variable m : meaning.
Variable g : pblock.
Variable ops : list (op * option nat).
Variable l : linkage.
Hypothesis H : reachable g ops l.
Hypothesis T : Forall (fun of => true_op m (fst of)) ops.
Let es := hist g ops.
Let W : WF es := hist_wf H.
Let F : Forall (meant m g) es := @hist_meant m g ops T.
Lemma on_chain : forall a xs, ip4 a -> proper_chain m g xs -> xs <> [] -> leash l a = Ok (tip g xs) -> leashed l a (tip g xs).
Proof.
  intros a xs A PC NE LE. split; [now apply wf_ip4|]. split; [destruct A as (b & -> & _); discriminate|]. split; [|exact LE].
  destruct (reach_view H) as (s & _ & R & GE & _). rewrite (v_has_leash R (wf_ip4 A)). rewrite (v_leash R (wf_ip4 A)) in LE. destruct (st_leash s a); [reflexivity|exfalso].
  injection LE as LE. destruct PC as (_ & ND & _). unfold cids in ND. inversion ND as [|? ? NI _]; subst. apply NI. rewrite <- GE, LE. unfold tip.
  destruct xs as [|x xs] using rev_ind; [contradiction|]. rewrite map_app. cbn [map]. rewrite last_last. apply in_or_app. right. now left.
Qed.
Lemma found : forall ord srt peers fs, map_order ord -> sorts fork_less srt -> forks ord srt l peers = Ok fs ->
  forall a b xs ys c n, proper_chain m g xs -> proper_chain m g ys -> part xs ys c -> standing l peers a (tip g xs) -> standing l peers b (tip g ys) ->
  c + n < length xs -> c + n < length ys -> exists f, In f fs /\ (f_head f = tip g xs \/ f_head f = tip g ys) /\ (Z.of_nat n < f_length f)%Z.
Proof.
  intros ord srt peers fs OM SS FK a b xs ys c n PX PY PT SX SY LX LY. destruct (forks_facts H OM SS FK) as (lg & _ & _ & _ & _ & A).
  assert (ST : forall d i, standing l peers d i -> stored es i).
  { intros d i SD. destruct (head_of H OM SS FK SD) as (f & I1 & I2). destruct (A _ I1) as (LI & _). rewrite I2 in LI.
    destruct (anc_split W (proj1 (proj2 LI))) as (_ & _ & _ & X). exact X. }
  assert (TX := ST _ _ SX). assert (TY := ST _ _ SY). destruct (parted W F PX PY TX TY PT) as (k & LK & HK).
  apply (C101_detects H OM SS FK SX SY LK); fold es; rewrite HK; [rewrite (tip_height W F PX TX)|rewrite (tip_height W F PY TY)]; lia.
Qed.
Lemma counted : forall ord srt r, map_order ord -> sorts fork_less srt -> stats ord srt l = Ok r ->
  forall a b xs ys c, ip4 a -> ip4 b -> proper_chain m g xs -> proper_chain m g ys -> part xs ys c -> leash l a = Ok (tip g xs) -> leash l b = Ok (tip g ys) ->
  c + 5 < length xs -> c + 5 < length ys -> 1 <= snd r.
Proof.
  intros ord srt r OM SS ST a b xs ys c IA IB PX PY PT LA LB LX LY. destruct (proj1 (C17_stats l ord srt) r ST) as (fs & FK & -> & _).
  destruct (@found ord srt [] fs OM SS FK a b xs ys c 5) as (f & I & _ & Q); auto.
  - split; [|now left]. apply on_chain; auto. intros ->. cbn in LX. lia.
  - split; [|now left]. apply on_chain; auto. intros ->. cbn in LY. lia.
  - assert (X : In f (filter (fun f => (5 <? f_length f)%Z) fs)) by (apply filter_In; split; [exact I|lia]).
    destruct (filter _ fs); [destruct X|cbn; lia].
Qed.
Lemma come_back : forall ord srt peers, map_order ord -> sorts fork_less srt -> (exists a i, standing l peers a i) ->
  (forall a i, standing l peers a i -> (exists b, block l i = Ok b) /\ exists xs, proper_chain m g xs /\ i = tip g xs) ->
  (forall a b xs ys c, standing l peers a (tip g xs) -> standing l peers b (tip g ys) -> proper_chain m g xs -> proper_chain m g ys -> part xs ys c ->
     Nat.min (length xs) (length ys) <= 3 * c + 3) ->
  exists fs, forks ord srt l peers = Ok fs.
Proof.
  intros ord srt peers OM SS NE RD SH. apply (C18_forks_return_partial H OM SS NE); [intros a i S; apply (RD a i S)|].
  intros a i b j k SA SB LK. destruct (RD _ _ SA) as ((x & BX) & xs & PX & ->). destruct (RD _ _ SB) as ((y & BY) & ys & PY & ->).
  destruct (anc_split W (proj1 LK)) as (_ & _ & _ & TX). destruct (anc_split W (proj1 (proj2 LK))) as (_ & _ & _ & TY). fold es in LK, TX, TY |- *.
  destruct (split_ids (map pb_id xs) (map pb_id ys)) as [(c & u & us & v & vs & EX & EY & N)|[(zs & E)|(zs & E)]].
  - assert (PT : part xs ys (length c)) by (exists c, u, us, v, vs; auto). destruct (parted W F PX PY TX TY PT) as (k' & LK' & HK).
    assert (k' = k) as ->. { apply (anc_same W); [apply LK'; apply LK|]. assert (A1 := anc_le W (proj2 (proj2 LK') _ (proj1 LK) (proj1 (proj2 LK)))). assert (A2 := anc_le W (proj2 (proj2 LK) _ (proj1 LK') (proj1 (proj2 LK')))). lia. }
    rewrite HK, (tip_height W F PX TX), (tip_height W F PY TY). apply safe_short. specialize (SH a b xs ys (length c) SA SB PX PY PT). lia.
  - assert (AN := along W F PX PY TX TY E). assert (A1 := anc_le W (proj2 (proj2 LK) _ AN (anc_self TY))). apply safe_short. lia.
  - assert (AN := along W F PY PX TY TX E). assert (A1 := anc_le W (proj2 (proj2 LK) _ (anc_self TX) AN)). apply safe_short. lia.
Qed.
End Store.

(** Two of the selected peers are at the heads of chains that part: one of them is reported on a fork that is longer than [n] if both
    chains go on for more than [n] blocks. *)
Theorem C103_found : forall m g ops l, reachable g ops l -> Forall (fun of => true_op m (fst of)) ops ->
  forall ord srt peers fs, map_order ord -> sorts fork_less srt -> forks ord srt l peers = Ok fs ->
  forall a b xs ys c n, proper_chain m g xs -> proper_chain m g ys -> part xs ys c -> standing l peers a (tip g xs) -> standing l peers b (tip g ys) ->
  c + n < length xs -> c + n < length ys -> exists f, In f fs /\ (f_head f = tip g xs \/ f_head f = tip g ys) /\ (Z.of_nat n < f_length f)%Z.
Proof. exact found. Qed.
Print Assumptions C103_found.
(** Forks and Stats return if all peers are at the heads of such chains, and no two of them part for longer than twice
    their common piece. *)
Theorem C103_returns : forall m g ops l, reachable g ops l -> Forall (fun of => true_op m (fst of)) ops ->
  forall ord srt peers, map_order ord -> sorts fork_less srt -> (exists a i, standing l peers a i) ->
  (forall a i, standing l peers a i -> (exists b, block l i = Ok b) /\ exists xs, proper_chain m g xs /\ i = tip g xs) ->
  (forall a b xs ys c, standing l peers a (tip g xs) -> standing l peers b (tip g ys) -> proper_chain m g xs -> proper_chain m g ys -> part xs ys c ->
     Nat.min (length xs) (length ys) <= 3 * c + 3) ->
  (exists fs, forks ord srt l peers = Ok fs) /\ (peers = [] -> exists r, stats ord srt l = Ok r).
Proof.
  intros m g ops l H T ord srt peers OM SS NE RD SH. destruct (come_back H T OM SS NE RD SH) as (fs & E). split; [eauto|]. intros ->. unfold stats. rewrite E. cbn [bind]. eauto.
Qed.
Print Assumptions C103_returns.

(** * The running process *)
(** The premises are those of C90: the loader has asked the honest peer [a], whose chain is [xs], for IDs. The process goes on until [a] is
    synchronised, and then every answer of Stats counts a long fork if some peer [b] is at the head of a chain that parted from [xs] more
    than five blocks ago on both sides. *)
Theorem C103_detected : forall cfg g ord cord srt m a sc xs k x0 ts s, ip4 a -> proper_chain m g xs -> (weight g xs <= sc)%Z ->
  initial cfg g x0 -> Forall wf_turn ts -> process cfg g ord cord srt new_loader (begun x0) ts = ((st_l s, st_v s), Ok tt) -> st_res s = Ok tt ->
  fair m a sc (o_real (st_v s)) -> HonestSpec.on_line a (st_v s) ->
  asking g a xs k {| sc_l := st_l s; sc_x := o_real (st_v s); sc_open := st_open s |} ->
  (forall d, l_prev (st_l s) = Some d -> (sc - weight g (firstn k xs) <= d)%Z) ->
  inevitably (honest_turn cfg g ord cord srt m a xs) (fun s' => (synchronised g a xs s' /\
    let lk := re_lk (o_real (st_v s')) in
    forall b ys c, ip4 b -> proper_chain m g ys -> leash lk b = Ok (tip g ys) -> part xs ys c -> c + 5 < length xs -> c + 5 < length ys ->
    forall ord' srt' r, map_order ord' -> sorts fork_less srt' -> stats ord' srt' lk = Ok r -> 1 <= snd r) \/ ~ short (o_real (st_v s'))) s.
Proof.
  intros cfg g ord cord srt m a sc xs k x0 ts s IP PC WS X0 WT E RS FA ON AS PV.
  refine (inevitably_imp _ (@run_sync cfg g ord cord srt m a sc IP xs PC WS x0 ts k s X0 WT E RS FA ON AS PV)). intros s' [[S [[SO _] (_ & TR & _)]]|X]; [|now right].
  destruct (short_dec (o_real (st_v s'))) as [SH|SH]; [|now right]. left. split; [exact S|]. cbv zeta. intros b ys c IB PY LB PT LX LY ord' srt' r OM SS ST.
  destruct S as (_ & _ & LA). exact (counted (real_reach SO SH) TR OM SS ST IP IB PC PY PT LA LB LX LY).
Qed.
Print Assumptions C103_detected.
(** The node b is at the head of 1-2-11-…-16 when the loader asks a, whose chain is 1-2-3-…-8. When a is synchronised, Stats counts a long fork. *)
Definition left_side : list pblock := map (fun n => xblk n (n - 1)) [1; 2; 3; 4; 5; 6; 7; 8]%N.
Definition right_side : list pblock := map (fun n => xblk n (if (n =? 11)%N then 2 else n - 1)) [1; 2; 11; 12; 13; 14; 15; 16]%N.
Definition sides : meaning := means (left_side ++ right_side).
Definition encounter : list turn :=
  visit pa hgood [MScore (repeat xff 12)] ++ visit pb (greet (ver 1 5 3) DeclEmpty x57 [x6e]) (map (fun b => MBlock (Some b)) right_side) ++ [TSync []].
Definition encountered : stage := {| st_l := loader_of encounter; st_v := end_of encounter; st_open := [MsgIDs [xid 0]]; st_res := Ok tt |}.
Definition report : list turn :=
  tell pa (MBlockIds (map xid [0; 1; 2; 3; 4; 5; 6; 7; 8]%N)) ++ flat_map (fun b => tell pa (MBlock (Some b))) (skipn 2 left_side) ++ tell pa (MBlockIds [xid 8]).
Notation reported := (xprocess (st_l encountered) (st_v encountered) report).
Definition true_opb (m : meaning) (of : op * option nat) : bool :=
  match fst of with
  | Put b _ => id_eqb (fst (m (pb_id b))) (pb_parent b) && (snd (m (pb_id b)) =? pb_bt b)%N
  | Micro x _ => id_eqb (fst (m (mi_total x))) (fst (m (mi_ref x))) && (snd (m (mi_total x)) =? snd (m (mi_ref x)))%N
  | _ => true
  end.
Lemma true_opsb : forall m ops, forallb (true_opb m) ops = true -> Forall (fun of => true_op m (fst of)) ops.
Proof.
  intros m ops E. rewrite forallb_forall in E. apply Forall_forall. intros [o f] I. specialize (E _ I). unfold true_opb in E. cbn [fst] in *.
  destruct o as [b ?|x ?| |]; cbn [true_op]; auto; apply andb_prop in E as [E1 E2]; apply id_eqb_eq in E1; apply N.eqb_eq in E2.
  - destruct (m (pb_id b)). cbn [fst snd] in *. congruence.
  - destruct (m (mi_total x)), (m (mi_ref x)). cbn [fst snd] in *. congruence.
Qed.
Lemma sides_proper : proper_chain sides xg left_side /\ proper_chain sides xg right_side.
Proof.
  split; (split; [cbn; repeat (split; [reflexivity|]); exact I|]; split; [different|]; apply Forall_forall; intros b B; split; [apply wf_pblockb_ok|];
    (cbn in B; repeat (destruct B as [<-|B]; [first [reflexivity|split; [discriminate|]; split; [vm_compute; split; [reflexivity|discriminate]|reflexivity]]|]); destruct B)).
Qed.
Example C103_example :
  initial xcfg xg (xblank [] []) /\ Forall wf_turn encounter /\ xprocess new_loader (begun (xblank [] [])) encounter = ((st_l encountered, st_v encountered), Ok tt) /\
  fair sides pa (2 ^ 96 - 1)%Z (o_real (st_v encountered)) /\ HonestSpec.on_line pa (st_v encountered) /\ (weight xg left_side <= 2 ^ 96 - 1)%Z /\
  asking xg pa left_side 0 {| sc_l := st_l encountered; sc_x := o_real (st_v encountered); sc_open := st_open encountered |} /\ l_prev (st_l encountered) = None /\
  part left_side right_side 2 /\ leash (re_lk (o_real (st_v encountered))) pb = Ok (tip xg right_side) /\
  stats as_is (isort fork_less) (re_lk (o_real (st_v encountered))) = Ok (1, 0) /\
  (let '(lo, v, r) := reported in let lk := re_lk (o_real v) in (r, l_pl lo, leash lk pa, leash lk pb, stats as_is (isort fork_less) lk)) =
    (Ok tt, None, Ok (tip xg left_side), Ok (tip xg right_side), Ok (1, 1)).
Proof.
  split; [exact xblank_initial|]. split; [apply wf_turnsb; vm_compute; reflexivity|]. split.
  { unfold encountered, loader_of, end_of. cbn [st_l st_v]. rewrite <- surjective_pairing. assert (R : snd (xprocess new_loader (begun (xblank [] [])) encounter) = Ok tt) by (vm_compute; reflexivity).
    rewrite <- R. apply surjective_pairing. }
  split. { split; [vm_compute; constructor|]. split; [apply true_opsb; vm_compute; reflexivity|]. split; [vm_compute; constructor|]. eexists. split; vm_compute; reflexivity. }
  split. { split; [vm_compute; auto|]. split; [vm_compute; constructor|]. assert (D : o_dist (st_v encountered) = DSelect) by (vm_compute; reflexivity). intros p. rewrite D. discriminate. }
  split; [vm_compute; discriminate|]. split.
  { exists (peer_of (st_l encountered)), [xid 0], (xid 0). split; [vm_compute; reflexivity|]. split; [split; vm_compute; reflexivity|]. split; [vm_compute; reflexivity|].
    split; [reflexivity|]. split; [|split; [reflexivity|vm_compute; reflexivity]]. exists [], (xid 0), []. split; [reflexivity|]. split; [reflexivity|constructor]. }
  split; [vm_compute; reflexivity|]. split.
  { exists (map xid [1; 2]%N), (xid 3), (map xid [4; 5; 6; 7; 8]%N), (xid 11), (map xid [12; 13; 14; 15; 16]%N). split; [reflexivity|]. split; [reflexivity|]. split; [discriminate|reflexivity]. }
  split; [vm_compute; reflexivity|]. split; vm_compute; reflexivity.
Qed.
(** The store with these two chains meets the premises of the theorems about reports. *)
Lemma long_reach : reachable xg long_fork (at_end long_fork).
Proof. apply at_end_reachable. vm_compute. reflexivity. Qed.
Lemma long_true : Forall (fun of => true_op sides (fst of)) long_fork.
Proof. apply true_opsb. vm_compute. reflexivity. Qed.
Lemma long_standing : forall a i, standing (at_end long_fork) [] a i -> i = xid 8 \/ i = xid 16.
Proof.
  intros a i [L _]. destruct (ls_view long_reach) as (ls & LS & _ & EQ & _). apply EQ in L. vm_compute in LS. injection LS as <-.
  repeat (destruct L as [L|L]; [injection L as _ <-; vm_compute; auto|]). destruct L.
Qed.
Lemma long_ids : forall xs, proper_chain sides xg xs -> tip xg xs = xid 8 \/ tip xg xs = xid 16 ->
  map pb_id xs = map pb_id left_side \/ map pb_id xs = map pb_id right_side.
Proof.
  intros xs PC E. assert (S : stored (hist xg long_fork) (tip xg xs)).
  { assert (A : anc (hist xg long_fork) (tip xg xs) (tip xg xs)) by (destruct E as [-> | ->]; vm_compute; auto). destruct (anc_split (hist_wf long_reach) A) as (_ & _ & X & _). exact X. }
  assert (C := chain_cids (hist_wf long_reach) (hist_meant xg long_true) PC S). apply (f_equal (@rev id)) in C. rewrite rev_involutive in C. unfold cids in C.
  assert (D : map pb_id xs = tl (rev (chain_ids (hist xg long_fork) (tip xg xs)))) by (rewrite C; reflexivity).
  rewrite D. destruct E as [-> | ->]; [left|right]; vm_compute; reflexivity.
Qed.
Example C103_reports_example : (exists a i, standing (at_end long_fork) [] a i) /\
  (forall a i, standing (at_end long_fork) [] a i -> (exists b, block (at_end long_fork) i = Ok b) /\ exists xs, proper_chain sides xg xs /\ i = tip xg xs) /\
  (forall a b xs ys c, standing (at_end long_fork) [] a (tip xg xs) -> standing (at_end long_fork) [] b (tip xg ys) ->
     proper_chain sides xg xs -> proper_chain sides xg ys -> part xs ys c -> Nat.min (length xs) (length ys) <= 3 * c + 3) /\
  standing (at_end long_fork) [] (xpeer 1) (tip xg left_side) /\ standing (at_end long_fork) [] (xpeer 2) (tip xg right_side) /\ part left_side right_side 2.
Proof.
  assert (S1 : standing (at_end long_fork) [] (xpeer 1) (tip xg left_side)).
  { split; [|now left]. split; [reflexivity|]. split; [discriminate|]. split; vm_compute; reflexivity. }
  split; [eauto|]. split; [|split; [|split; [exact S1|split]]].
  - intros a i S. destruct (long_standing S) as [-> | ->]; (split; [eexists; vm_compute; reflexivity|]); [exists left_side|exists right_side]; (split; [apply sides_proper|reflexivity]).
  - intros a b xs ys c SA SB PX PY (cs & x & xs' & y & ys' & EX & EY & NE & <-). rewrite <- (map_length pb_id xs), <- (map_length pb_id ys).
    assert (L : forall zs, map pb_id zs = map pb_id left_side \/ map pb_id zs = map pb_id right_side -> length (map pb_id zs) = 8) by (intros zs [-> | ->]; reflexivity).
    assert (QX := long_ids PX (long_standing SA)). assert (QY := long_ids PY (long_standing SB)). rewrite (L xs QX), (L ys QY).
    enough (2 <= length cs) by lia. 
    destruct cs as [|u cs]; [exfalso|destruct cs as [|v cs]; [exfalso|cbn [length]; lia]].
    + destruct QX as [QX|QX]; rewrite EX in QX; apply (f_equal (fun z => nth 0 z zero_id)) in QX; destruct QY as [QY|QY]; rewrite EY in QY; apply (f_equal (fun z => nth 0 z zero_id)) in QY;
      vm_compute in QX, QY; congruence.
    + destruct QX as [QX|QX]; rewrite EX in QX; apply (f_equal (fun z => nth 1 z zero_id)) in QX; destruct QY as [QY|QY]; rewrite EY in QY; apply (f_equal (fun z => nth 1 z zero_id)) in QY;
      vm_compute in QX, QY; congruence.
  - split; [|now left]. split; [reflexivity|]. split; [discriminate|]. split; vm_compute; reflexivity.
  - exists (map xid [1; 2]%N), (xid 3), (map xid [4; 5; 6; 7; 8]%N), (xid 11), (map xid [12; 13; 14; 15; 16]%N). split; [reflexivity|]. split; [reflexivity|]. split; [discriminate|reflexivity].
Qed.
