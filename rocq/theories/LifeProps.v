(** The lives of the process (C79, C80). *)
From Verif Require Import Base Kv ChainModel ChainSpec ChainProofs ChainExample PeersModel PeersSpec PeersProps LoadModel LoadSpec LoadProofs LoadReal LoadProps
  NetModel NetSpec NetProps WholeModel WholeSpec WholeProps LifeModel LifeSpec LifeProofs.
Set Implicit Arguments.
Unset Strict Implicit.

(** * C79 *)
(** After any number of lives, however each of them ended, the stores are what a sequence of well-formed calls makes them. *)
Theorem C79_stores_reachable : forall cfg g x seen, lived cfg g x seen -> short x ->
  dreach cfg g (re_ops x) (re_rops x) {| d_lk := re_lk x; d_reg := re_reg x |}.
Proof. intros. eapply lived_reach; eauto. Qed.
Print Assumptions C79_stores_reachable.
Theorem C79_leashes_stored : forall cfg g x seen a, lived cfg g x seen -> short x -> wf_addr a ->
  exists i, leash (re_lk x) a = Ok i /\ lk_has_block (re_lk x) i = Ok true.
Proof. intros. eapply lived_leashes_stored; eauto. Qed.
Print Assumptions C79_leashes_stored.
(** A leash is at genesis or at a block that its peer has named in one of the lives. *)
Theorem C79_leash_said : forall cfg g x seen a i, lived cfg g x seen -> short x -> wf_addr a -> leash (re_lk x) a = Ok i ->
  i = pb_id g \/ ever seen a (names i).
Proof. intros. eapply lived_leash; eauto. Qed.
Print Assumptions C79_leash_said.
Theorem C79_block_vouched : forall cfg g x seen i b, lived cfg g x seen -> short x -> wf_id i -> block (re_lk x) i = Ok b ->
  b_id b = pb_id g \/ ever_vouched seen (re_lk x) b.
Proof. intros. eapply lived_block; eauto. Qed.
Print Assumptions C79_block_vouched.
(** A new life begins with the same linkage, with the same records of the known peers, and with no connections. *)
Theorem C79_start : forall cfg g x seen li, lived cfg g x seen -> short x -> wf_life li ->
  let y := opened cfg g x li in re_lk y = re_lk x /\ r_conns (re_reg y) = [] /\ r_pending (re_reg y) = [] /\
  forall a, ip4 a -> known (re_reg x) a -> reg_peer (re_reg y) a = reg_peer (re_reg x) a.
Proof.
  intros cfg g x seen li L SH W y. pose proof (lived_initial L SH) as X. split; [now apply opened_lk|]. now apply opened_registry.
Qed.
Print Assumptions C79_start.
(** Two lives: the first is killed while the loader handles a block (it writes again the two blocks that the distributor has
    written); in the second the same peer comes back. *)
Definition xlife (seeds : list (option (addr * N))) (ts : list turn) (k : option (turn * nat)) : life :=
  {| li_seeds := seeds; li_fault := None; li_faults := []; li_rand := 0; li_now := 0%Z; li_turns := ts; li_killed := k |}.
Definition xlive (x : real) (li : life) : whole := live xcfg xg (@asis _) (@asis _) (@asis _) x li.
Definition first_life (n : nat) : life :=
  xlife [Some (pb, 6863%N)] (visit pa hgood [MScore (repeat xff 12); MBlock (Some (xblk 1 0))] ++ [TSync [];
    TMove (VArrive fine (AMessage (on pa (PeersProps.line hgood)) (MBlockIds [xid 1; xid 2; xid 3]))); TTake [];
    TMove (VArrive fine (AMessage (on pa (PeersProps.line hgood)) (MBlock (Some (xblk 2 1))))); TTake [];
    TMove (VArrive fine (AMessage (on pa (PeersProps.line hgood)) (MBlock (Some (xblk 3 2)))))]) (Some (TTake [], n)).
Definition second_life : life := xlife [] (visit pa hgood [MBlock (Some (xblk 4 2))]) None.
Definition after_first (n : nat) : real := o_real (xlive (xblank [] []) (first_life n)).
Definition wf_lifeb (li : life) : bool :=
  forallb (fun s => match s with Some (a, _) => wf_addrb a | None => true end) (li_seeds li) &&
  forallb (fun t => forallb wf_moveb (moves_in t)) (li_turns li) && match li_killed li with Some (t, _) => forallb wf_moveb (moves_in t) | None => true end.
Lemma wf_lifeb_ok : forall li, wf_lifeb li = true -> wf_life li.
Proof.
  intros li H. unfold wf_lifeb in H. apply andb_true_iff in H as [H C]. apply andb_true_iff in H as [A B]. split; [|split].
  - intros a port I. rewrite forallb_forall in A. pose proof (wf_addrb_ok _ (A _ I)) as K. destruct a; cbn in *; tauto.
  - now apply wf_turnsb.
  - destruct (li_killed li) as [[t n]|]; [|exact Logic.I]. assert (K : Forall wf_turn [t]) by (apply wf_turnsb; cbn [forallb]; now rewrite C). now apply Forall_inv in K.
Qed.
Lemma xlived : forall x seen li, lived xcfg xg x seen -> wf_lifeb li = true -> lived xcfg xg (o_real (xlive x li)) (seen ++ o_seen (xlive x li)).
Proof. intros x seen li L W. exact (@lived_on xcfg xg x seen li (@asis _) (@asis _) (@asis _) L (wf_lifeb_ok W)). Qed.
Lemma xlived_new : lived xcfg xg (xblank [] []) [].
Proof. exact (@lived_new xcfg xg (xblank [] []) xblank_initial eq_refl eq_refl). Qed.
Definition heard_first (n : nat) : list arrival := [] ++ o_seen (xlive (xblank [] []) (first_life n)).
Lemma first_lived : forall n, lived xcfg xg (after_first n) (heard_first n).
Proof. intros n. exact (@xlived (xblank [] []) [] (first_life n) xlived_new eq_refl). Qed.
Example C79_example :
  (forall n, lived xcfg xg (o_real (xlive (after_first n) second_life)) (heard_first n ++ o_seen (xlive (after_first n) second_life))) /\
  leash (re_lk (after_first 0)) pa = Ok (xid 3) /\ leash (re_lk (after_first 1)) pa = Ok (xid 2) /\ leash (re_lk (after_first 2)) pa = Ok (xid 3) /\
  leash (re_lk (o_real (xlive (after_first 1) second_life))) pa = Ok (xid 4) /\ short (o_real (xlive (after_first 1) second_life)) /\
  r_conns (re_reg (after_first 1)) <> [] /\ length (o_seen (xlive (after_first 1) second_life)) = 2.
Proof.
  split; [intros n; exact (@xlived (after_first n) (heard_first n) second_life (first_lived n) eq_refl)|].
  split; [|split; [|split; [|split; [|split; [|split]]]]]; try (vm_compute; reflexivity). vm_compute. discriminate.
Qed.

(** * C80 *)
(** LogInitialStats writes every active head with its height and every leash, unless an active head has a timestamp of 2^63-1 or more:
    then it panics. *)
Theorem C80_stats_exact : forall g ops l, reachable g ops l ->
  ((forall i, active (hist g ops) l i -> ~ late (hist g ops) i) -> exists lines ls, initial_stats l = Ok (lines, ls) /\
     NoDup (map fst lines) /\ (forall i h, In (i, h) lines <-> active (hist g ops) l i /\ h = N.of_nat (height (hist g ops) i)) /\
     NoDup (map fst ls) /\ forall a i, In (a, i) ls <-> leashed l a i) /\
  ((exists i, active (hist g ops) l i /\ late (hist g ops) i) -> initial_stats l = Panic).
Proof. intros g ops l H. exact (stats_exact H). Qed.
Print Assumptions C80_stats_exact.
(** Missing: blocks with such timestamps (below). *)
Theorem C80_starts_again_partial : forall cfg g x seen, lived cfg g x seen -> short x -> times_ok g (re_ops x) -> starts g x = Ok tt.
Proof. intros. eapply starts_times; eauto. Qed.
Print Assumptions C80_starts_again_partial.
(** From empty stores, one peer sends one block: the process does not start again. Everything that it has received is tame. *)
Definition doom : pblock := {| pb_id := xid 1; pb_parent := xid 0; pb_ts := 2 ^ 63 - 1; pb_bt := 100; pb_gen := Some (xgen 1) |}.
Definition doomed : life := xlife [] (visit pa hgood [MBlock (Some doom)]) None.
Theorem C80_starts_again_refuted : exists x seen, lived xcfg xg x seen /\ short x /\ Forall tame seen /\ length seen = 2 /\ starts xg x = Panic.
Proof.
  exists (o_real (xlive (xblank [] []) doomed)), ([] ++ o_seen (xlive (xblank [] []) doomed)).
  split; [exact (@xlived (xblank [] []) [] doomed xlived_new eq_refl)|].
  split; [vm_compute; reflexivity|]. split; [|split; vm_compute; reflexivity].
  assert (E : o_seen (xlive (xblank [] []) doomed) = [AInfo (IConnected (on pa (PeersProps.line hgood)) hgood); AMessage (on pa (PeersProps.line hgood)) (MBlock (Some doom))]) by (vm_compute; reflexivity).
  cbn [app]. rewrite E. constructor; [|constructor; [|constructor]].
  - cbn [tame on ln_conn]. discriminate.
  - intros b [D|D]; [|discriminate D]. injection D as <-. cbn [doom pb_bt]. unfold max_int64. lia.
Qed.
Print Assumptions C80_starts_again_refuted.
(** And then it never starts again over these stores, whatever the seed addresses. *)
Theorem C80_never_again : forall cfg g ord cord srt x seen lis, lived cfg g x seen -> starts g x = Panic ->
  let y := fold_left (fun x li => o_real (live cfg g ord cord srt x li)) lis x in short x -> short y -> re_lk y = re_lk x /\ starts g y = Panic.
Proof. intros cfg g ord cord srt x seen lis L E y SX SY. apply stuck; auto. eapply lived_initial; eauto. Qed.
Print Assumptions C80_never_again.
Example C80_example : initial_stats (re_lk (o_real (xlive (after_first 1) second_life))) = Ok ([(xid 4, 4%N)], [(pa, xid 4)]) /\
  starts xg (o_real (xlive (after_first 1) second_life)) = Ok tt.
Proof. split; vm_compute; reflexivity. Qed.
