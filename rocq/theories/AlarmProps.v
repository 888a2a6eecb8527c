(** The property C101 of /verif/properties.jsonl: when forks are reported. *)
From Verif Require Import Base Kv ChainModel ChainSpec ChainTree ChainProofs ChainExample PeersModel PeersSpec PeersProps LoadModel LoadSpec LoadProofs LoadReal LoadProps
  NetModel NetSpec NetProps WholeModel WholeSpec WholeProofs WholeProps ForkProofs ForkProps AlarmProofs.
Set Implicit Arguments.
Unset Strict Implicit.

(** * What a length means *)
(** The peers of a fork have length 0 exactly if they are on the chain of the longest fork. *)
Theorem C101_zero : forall g ops l, reachable g ops l -> forall ord srt peers fs, map_order ord -> sorts fork_less srt ->
  forks ord srt l peers = Ok fs ->
  exists lg, In lg fs /\ f_longest lg = true /\
    forall f, In f fs -> (f_length f = 0%Z <-> anc (hist g ops) (f_head lg) (f_head f)).
Proof.
  intros g ops l H ord srt peers fs OM SS F. destruct (forks_facts H OM SS F) as (lg & I & L & _ & _ & A). assert (W := hist_wf H).
  exists lg. split; auto. split; auto. intros f J. destruct (A f J) as ((L1 & L2 & L3) & E & _). rewrite E. split.
  - intros Z. rewrite (anc_same W L2) by lia. exact L1.
  - intros Z. destruct (anc_split W L2) as (_ & _ & _ & S). assert (Q := anc_le W (L3 _ Z (anc_self S))). assert (P := anc_le W L2). lia.
Qed.
Print Assumptions C101_zero.
(** The length is the number of blocks of the fork's chain that are not on the chain of the longest fork. *)
Theorem C101_blocks : forall g ops l, reachable g ops l -> forall ord srt peers fs, map_order ord -> sorts fork_less srt ->
  forks ord srt l peers = Ok fs ->
  exists lg, In lg fs /\ f_longest lg = true /\
    forall f, In f fs -> exists own, chain_ids (hist g ops) (f_head f) = own ++ chain_ids (hist g ops) (f_lcb f) /\
      f_length f = Z.of_nat (length own) /\
      (forall i, In i own -> ~ anc (hist g ops) (f_head lg) i) /\
      (forall i, In i (chain_ids (hist g ops) (f_lcb f)) -> anc (hist g ops) (f_head lg) i).
Proof.
  intros g ops l H ord srt peers fs OM SS F. destruct (forks_facts H OM SS F) as (lg & I & L & _ & _ & A). assert (W := hist_wf H).
  exists lg. split; auto. split; auto. intros f J. destruct (A f J) as ((L1 & L2 & L3) & E & _).
  destruct (anc_split W L2) as (own & C & _ & S). exists (map e_id own). unfold chain_ids. rewrite C, map_app. split; auto. split.
  { rewrite E. unfold height. rewrite C, app_length, map_length. lia. }
  split.
  - intros i X Y. apply in_map_iff in X as (e & X & K). apply in_split in K as (o1 & o2 & K).
    rewrite K in C. rewrite <- app_assoc in C. cbn [app] in C. destruct (@anc_mid _ W _ _ _ _ C) as [P Q]. rewrite X in P, Q.
    assert (Z := anc_le W (L3 _ Y P)). unfold height in Z. rewrite Q in Z. cbn [length] in Z. rewrite app_length in Z. lia.
  - intros i X. eapply anc_through; eauto.
Qed.
Print Assumptions C101_blocks.
Example C101_zero_example : reachable xg long_fork (at_end long_fork) /\
  map f_length (xforks (at_end long_fork) []) = [0; 6]%Z /\
  chain_ids (hist xg long_fork) (xid 16) = map xid [16; 15; 14; 13; 12; 11]%N ++ chain_ids (hist xg long_fork) (xid 2).
Proof. split; [apply at_end_reachable; vm_compute; reflexivity|]. split; vm_compute; reflexivity. Qed.

(** * One line *)
(** Blocks [i] and [j] are on the line of [t] if [t] was put, step by step, on top of them. Missing: lengths up to 1 are reported
    for peers that are only behind by micro-blocks, and base target 0 must be excluded (both below). *)
Theorem C101_one_line_partial : forall g ops l, reachable g ops l -> targets_ok g ops ->
  forall ord srt peers fs t, map_order ord -> sorts fork_less srt -> forks ord srt l peers = Ok fs ->
  (forall a i, standing l peers a i -> In i (on_line (hist g ops) t)) ->
  forall f, In f fs -> (f_length f <= 1)%Z.
Proof.
  intros g ops l H T ord srt peers fs t OM SS F ON f J. destruct (forks_facts H OM SS F) as (lg & I & _ & _ & [[a B1] B2] & A).
  destruct (A f J) as (LC & E & b & SB).
  assert (S : (score (hist g ops) (f_head f) <= score (hist g ops) (f_head lg))%Z) by (destruct (B2 (f_head f) (ex_intro _ b SB)); lia).
  assert (Q := line_near (hist_wf H) (micro_hist g ops) (pos_hist H T) (ON _ _ B1) (ON _ _ SB) S LC). lia.
Qed.
Print Assumptions C101_one_line_partial.
(** So no long fork is counted. *)
Theorem C101_no_alarm : forall g ops l, reachable g ops l -> targets_ok g ops ->
  forall ord srt t r, map_order ord -> sorts fork_less srt -> stats ord srt l = Ok r ->
  (forall a i, leashed l a i -> In i (on_line (hist g ops) t)) -> snd r = 0.
Proof.
  intros g ops l H T ord srt t r OM SS ST ON. destruct (proj1 (C17_stats l ord srt) r ST) as (fs & F & -> & _).
  assert (Q := @C101_one_line_partial _ _ _ H T _ _ _ _ t OM SS F (fun a i SA => ON a i (proj1 SA))).
  induction fs as [|f fs IH]; [reflexivity|]. cbn [filter]. destruct (Z.ltb_spec 5 (f_length f)).
  - specialize (Q f (or_introl eq_refl)). lia.
  - clear F. assert (Q' : forall f0, In f0 fs -> (f_length f0 <= 1)%Z) by (intros; apply Q; now right). clear -Q'.
    induction fs as [|f fs IH]; [reflexivity|]. cbn [filter]. destruct (Z.ltb_spec 5 (f_length f)).
    + specialize (Q' f (or_introl eq_refl)). lia.
    + apply IH. intros. apply Q'. now right.
Qed.
Print Assumptions C101_no_alarm.
(** The same for the fork of one peer. *)
Theorem C101_one_line_of_peer : forall g ops l, reachable g ops l -> targets_ok g ops ->
  forall ord a i t f, map_order ord -> leashed l a i -> fork_of ord l a = Ok f ->
  (forall b j, leashed l b j -> In j (on_line (hist g ops) t)) -> (f_length f <= 1)%Z.
Proof.
  intros g ops l H T ord a i t f OM LA F ON. destruct (p_fork H OM LA F) as (lg & [[b B1] B2] & HI & _ & _ & _ & D & _ & LC & E & _).
  rewrite E. assert (SA : standing l [] a i) by (split; auto).
  assert (S : (score (hist g ops) i <= score (hist g ops) lg)%Z) by (destruct (B2 i (ex_intro _ a SA)); lia).
  assert (Q := line_near (hist_wf H) (micro_hist g ops) (pos_hist H T) (ON _ _ (proj1 B1)) (ON _ _ LA) S LC).
  assert (HH : f_height f = N.of_nat (height (hist g ops) i)).
  { destruct D as (x & BX & -> & _). rewrite HI in BX. destruct (one_view H) as (s & HE & R & SM & _).
    assert (W := ChainRep.R_wf R). rewrite <- HE in W. apply (ChainForks.block_facts R SM) in BX; [rewrite HE; apply BX|].
    apply (stored_wf W). destruct (anc_split W (proj1 (proj2 LC))) as (_ & _ & _ & X). exact X. }
  lia.
Qed.
Print Assumptions C101_one_line_of_peer.
(** Peers at 8, 7 and 5 of one chain, one of them at a micro-block of 8. *)
Definition one_line : list (op * option nat) :=
  map (fun n => (Put (xblk n (n - 1)) (xpeer (if (n <? 6)%N then 3 else if (n <? 8)%N then 2 else 1)), None)) [1; 2; 3; 4; 5; 6; 7; 8]%N ++
  [(Micro {| mi_total := xid 9; mi_ref := xid 8 |} (xpeer 4), None)].
Lemma one_line_reach : reachable xg one_line (at_end one_line).
Proof. apply at_end_reachable. vm_compute. reflexivity. Qed.
Example C101_line_example : reachable xg one_line (at_end one_line) /\ targets_ok xg one_line /\
  on_line (hist xg one_line) (xid 9) = map xid [9; 8; 7; 6; 5; 4; 3; 2; 1; 0]%N /\
  map snd (match leashes (lk_db (at_end one_line)) with Ok ls => ls | _ => [] end) = map xid [8; 7; 5; 9]%N /\
  map f_length (xforks (at_end one_line) []) = [0; 1; 0; 0]%Z /\ stats as_is (isort fork_less) (at_end one_line) = Ok (4, 0).
Proof.
  split; [apply one_line_reach|]. split. { split; [discriminate|]. repeat constructor; discriminate. }
  split; [|split; [|split]]; vm_compute; reflexivity.
Qed.

(** * Alarms without a fork *)
(** Everybody is on one line, and yet a fork of length 1 is reported: a micro-block is stored as a sibling of the block it extends. *)
Theorem C101_micro_refuted : exists g ops l ord srt fs t, reachable g ops l /\ targets_ok g ops /\ map_order ord /\ sorts fork_less srt /\
  forks ord srt l [] = Ok fs /\ (forall a i, leashed l a i -> In i (on_line (hist g ops) t)) /\ exists f, In f fs /\ f_length f = 1%Z.
Proof.
  exists xg, one_line, (at_end one_line), as_is, (isort fork_less), (xforks (at_end one_line) []), (xid 9).
  split; [apply one_line_reach|]. split; [apply C101_line_example|]. split; [apply same_order|]. split; [apply isort_forks|].
  split; [vm_compute; reflexivity|]. split.
  - intros a i L. destruct (ls_view one_line_reach) as (ls & LS & _ & EQ & _). apply EQ in L. vm_compute in LS. injection LS as <-.
    repeat (destruct L as [L|L]; [injection L as _ <-; vm_compute; auto 12|]). destruct L.
  - eexists. split; [vm_compute; right; left; reflexivity|]. vm_compute. reflexivity.
Qed.
Print Assumptions C101_micro_refuted.
(** Blocks with base target 0 add nothing to the score: two peers at block 1, a third is six such blocks ahead of them on the same
    chain. It is counted as a long fork. *)
Definition weightless : list (op * option nat) :=
  (Put (xblk 1 0) (xpeer 1), None) :: (Put (xblk 1 0) (xpeer 2), None) ::
  map (fun n => (Put {| pb_id := xid n; pb_parent := xid (n - 1); pb_ts := 1000; pb_bt := 0; pb_gen := Some (xgen 0) |} (xpeer 3), None)) [2; 3; 4; 5; 6; 7]%N.
Lemma weightless_reach : reachable xg weightless (at_end weightless).
Proof. apply at_end_reachable. vm_compute. reflexivity. Qed.
Theorem C101_weightless_refuted : exists g ops l ord srt t, reachable g ops l /\ map_order ord /\ sorts fork_less srt /\
  (forall a i, leashed l a i -> anc (hist g ops) t i) /\ stats ord srt l = Ok (1, 1).
Proof.
  exists xg, weightless, (at_end weightless), as_is, (isort fork_less), (xid 7).
  split; [apply weightless_reach|]. split; [apply same_order|]. split; [apply isort_forks|]. split; [|vm_compute; reflexivity].
  intros a i L. destruct (ls_view weightless_reach) as (ls & LS & _ & EQ & _). apply EQ in L. vm_compute in LS. injection LS as <-.
  repeat (destruct L as [L|L]; [injection L as _ <-; vm_compute; auto 12|]). destruct L.
Qed.
Print Assumptions C101_weightless_refuted.

(** * Diverging chains *)
(** If two of the selected peers are both more than [n] blocks away from their last common block, one of the two is reported on a
    fork longer than [n]. *)
Theorem C101_detects : forall g ops l, reachable g ops l -> forall ord srt peers fs, map_order ord -> sorts fork_less srt ->
  forks ord srt l peers = Ok fs -> forall a b i j k n, standing l peers a i -> standing l peers b j -> is_lca (hist g ops) i j k ->
  height (hist g ops) k + n < height (hist g ops) i -> height (hist g ops) k + n < height (hist g ops) j ->
  exists f, In f fs /\ (f_head f = i \/ f_head f = j) /\ (Z.of_nat n < f_length f)%Z.
Proof.
  intros g ops l H ord srt peers fs OM SS F a b i j k n SA SB LK HI HJ. assert (W := hist_wf H).
  destruct (forks_facts H OM SS F) as (lg & _ & _ & _ & _ & A).
  destruct (head_of H OM SS F SA) as (fi & I1 & I2). destruct (head_of H OM SS F SB) as (fj & J1 & J2).
  destruct (A _ I1) as (LI & EI & _). destruct (A _ J1) as (LJ & EJ & _). rewrite I2 in *. rewrite J2 in *.
  destruct (far W LK LI LJ HI HJ) as [Q|Q]; [exists fi|exists fj]; (split; [auto|split; [auto|lia]]).
Qed.
Print Assumptions C101_detects.
(** In particular more than five blocks are counted as a long fork. *)
Theorem C101_alarm : forall g ops l, reachable g ops l -> forall ord srt r, map_order ord -> sorts fork_less srt ->
  stats ord srt l = Ok r -> forall a b i j k, leashed l a i -> leashed l b j -> is_lca (hist g ops) i j k ->
  height (hist g ops) k + 5 < height (hist g ops) i -> height (hist g ops) k + 5 < height (hist g ops) j -> 1 <= snd r.
Proof.
  intros g ops l H ord srt r OM SS ST a b i j k LA LB LK HI HJ. destruct (proj1 (C17_stats l ord srt) r ST) as (fs & F & -> & _).
  destruct (@C101_detects _ _ _ H _ _ _ _ OM SS F a b i j k 5) as (f & I & _ & Q); auto; try (split; auto).
  assert (X : In f (filter (fun f => (5 <? f_length f)%Z) fs)) by (apply filter_In; split; [exact I|lia]).
  destruct (filter _ fs); [destruct X|cbn; lia].
Qed.
Print Assumptions C101_alarm.
(** Two peers at 8 and at 16, their chains part at block 2. *)
Example C101_detects_example : reachable xg long_fork (at_end long_fork) /\
  leashed (at_end long_fork) (xpeer 1) (xid 8) /\ leashed (at_end long_fork) (xpeer 2) (xid 16) /\
  is_lca (hist xg long_fork) (xid 8) (xid 16) (xid 2) /\ height (hist xg long_fork) (xid 2) = 3 /\
  height (hist xg long_fork) (xid 8) = 9 /\ height (hist xg long_fork) (xid 16) = 9 /\
  stats as_is (isort fork_less) (at_end long_fork) = Ok (1, 1).
Proof.
  split; [apply at_end_reachable; vm_compute; reflexivity|].
  split; [split; [reflexivity|split; [discriminate|split; vm_compute; reflexivity]]|].
  split; [split; [reflexivity|split; [discriminate|split; vm_compute; reflexivity]]|].
  split. { split; [vm_compute; auto 12|]. split; [vm_compute; auto 12|]. intros m A B. vm_compute in A, B.
    repeat (destruct A as [A|A]; [subst m; vm_compute; repeat (destruct B as [B|B]; [try discriminate B; auto 6|]); destruct B|]). destruct A. }
  split; [|split; [|split]]; vm_compute; reflexivity.
Qed.

(** * The running process *)
(** If the blocks that the peers have named (or stood on before) lie on one line, the process reports no fork longer than 1. *)
Theorem C101_process : forall cfg g ord cord srt x ts lo v r, initial cfg g x -> Forall wf_turn ts ->
  process cfg g ord cord srt new_loader (begun x) ts = ((lo, v), r) -> short (o_real v) ->
  let es := hist g (re_ops (o_real v)) in
  targets_ok g (re_ops (o_real v)) ->
  forall t, (forall a i, leash (re_lk x) a = Ok i \/ said v a i -> stored es i -> In i (on_line es t)) ->
  forall ord' srt' peers fs, map_order ord' -> sorts fork_less srt' -> forks ord' srt' (re_lk (o_real v)) peers = Ok fs ->
  forall f, In f fs -> (f_length f <= 1)%Z.
Proof.
  intros cfg g ord cord srt x ts lo v r IN WT P SH es T t ON ord' srt' peers fs OM SS F f J.
  assert (R := proj1 (C77_stores_reachable IN WT P SH)). change (d_lk (stores v)) with (re_lk (o_real v)) in R.
  eapply C101_one_line_partial with (t := t); eauto. intros a i SA.
  destruct (head_of R OM SS F SA) as (fi & I1 & I2). destruct (forks_facts R OM SS F) as (lg & _ & _ & _ & _ & A).
  destruct (A _ I1) as (LI & _). rewrite I2 in LI. destruct (anc_split (hist_wf R) (proj1 (proj2 LI))) as (_ & _ & _ & S).
  destruct SA as [(WA & _ & _ & LE) _]. apply (ON a); auto. eapply C78_leash_said; eauto.
Qed.
Print Assumptions C101_process.
(** A node that follows the chain 1-2-3 to block 3 and one that is at block 2. *)
Definition calm_day : list turn :=
  visit pa hgood [MScore (repeat xff 12); MBlock (Some (xblk 1 0)); MBlock (Some (xblk 2 1)); MBlock (Some (xblk 3 2))] ++
  visit pb hforeign [] ++ [TMove (VArrive fine (AMessage (on pb (PeersProps.line hforeign)) (MBlock (Some (xblk 2 1))))); TTake []].
Example C101_process_example : Forall wf_turn calm_day /\ snd (xprocess new_loader (begun (xblank [] [])) calm_day) = Ok tt /\
  short (o_real (end_of calm_day)) /\ targets_ok xg (re_ops (o_real (end_of calm_day))) /\
  on_line (hist xg (re_ops (o_real (end_of calm_day)))) (xid 3) = map xid [3; 2; 1; 0]%N /\
  map f_head (xforks (re_lk (o_real (end_of calm_day))) []) = map xid [3; 2]%N.
Proof.
  split; [apply wf_turnsb; vm_compute; reflexivity|]. split; [vm_compute; reflexivity|]. split; [vm_compute; reflexivity|].
  split; [|split; vm_compute; reflexivity]. split; [discriminate|]. vm_compute. repeat constructor; discriminate.
Qed.
