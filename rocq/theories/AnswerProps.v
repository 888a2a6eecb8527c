(** The exact outcome of the queries: Forks, Stats, Fork, LCB, Connections and the status page (C104). *)
From Coq Require Import Strings.Byte.
From Verif Require Import NetModel WholeModel.
From Verif Require Import Base Kv ChainModel ChainSpec ChainTree ChainProofs ChainLca ChainExample ForkProofs ChainProps ForkProps PeersModel PeersSpec PeersProofs PeersProps
  ApiModel ApiSpec ApiProofs ApiProps LoadModel LoadSpec LoadReal LifeModel LifeSpec LifeProofs WholeProps LifeProps AlarmProofs AnswerProofs.
Set Implicit Arguments.
Unset Strict Implicit.

(** * The store *)
(** The last common block of blocks [t] and [i] of the history [es] can be computed (C09_lca_returns_partial: exactly then). *)
Definition searchable (es : list entry) (t i : id) : Prop :=
  forall k, is_lca es t i k -> safe (Nat.min (height es t) (height es i) - height es k) (height es k).

Lemma late_iff : forall g ops l, reachable g ops l -> forall i, wf_id i -> (block l i = Panic <-> stored (hist g ops) i /\ late (hist g ops) i) /\
  ((exists b, block l i = Ok b) <-> stored (hist g ops) i /\ ~ late (hist g ops) i).
Proof.
  intros g ops l H i W. destruct (one_view H) as (s & HE & R & SM & _). assert (HW := hist_wf H).
  destruct (block_cases HE R SM W) as [[b B]|[(S & B & LT)|(NS & B)]].
  - assert (S : stored (hist g ops) i) by (rewrite HE; apply (ChainForks.block_facts R SM W B)).
    assert (NL : ~ late (hist g ops) i).
    { intros (e & IN & ID & T). rewrite HE in *. destruct (v_block_Ok R SM W B) as (e' & c & C & TS & _). destruct (chain_hd S) as (e2 & c2 & C2 & ID2 & IN2).
      rewrite C in C2. injection C2 as <- <-. assert (e = e') by (apply (entry_unique HW); congruence). subst e'. unfold ChainQueries.ts_ok in TS. lia. }
    split; split; [congruence|intros [_ L]; contradiction|intros _; auto|intros _; eauto].
  - split; split; [intros _; split; [exact S|exact LT]|intros _; exact B|intros [b Q]; congruence|intros [_ N]; exfalso; apply N; exact LT].
  - split; split; [congruence|intros [S _]; contradiction|intros [b Q]; congruence|intros [S _]; contradiction].
Qed.
Lemma standing_wf : forall g ops l, reachable g ops l -> forall peers a i, standing l peers a i -> wf_id i.
Proof. intros g ops l H peers a i [S _]. destruct (ls_view H) as (ls & _ & _ & EQ & W). eapply W, EQ, S. Qed.

(** Forks returns a list, or crashes, or reports a leash at a block that is not stored; and why. *)
Theorem C104_forks : forall g ops l ord srt peers, reachable g ops l -> map_order ord -> sorts fork_less srt ->
  let es := hist g ops in
  (exists fs, forks ord srt l peers = Ok fs /\ (exists a i, standing l peers a i) /\ (forall a i, standing l peers a i -> stored es i /\ ~ late es i) /\
     exists t, best_block es l peers t /\ forall a i, standing l peers a i -> searchable es t i) \/
  (forks ord srt l peers = Panic /\ ((forall a i, ~ standing l peers a i) \/ (exists a i, standing l peers a i /\ stored es i /\ late es i) \/
     exists t a i, best_block es l peers t /\ standing l peers a i /\ ~ searchable es t i)) \/
  (forks ord srt l peers = Err ENotFound /\ exists a i, standing l peers a i /\ ~ stored es i).
Proof.
  intros g ops l ord srt peers H OM SS es. destruct (forks_cases H peers OM SS) as [(fs & F & EX & BL & T)|[(F & C)|(F & C)]].
  - left. exists fs. split; [exact F|]. split; [exact EX|]. split; [|exact T]. intros a i S. apply (proj2 (late_iff H (standing_wf H S))). eauto.
  - right. left. split; [exact F|]. destruct C as [N|[(a & i & S & B)|(_ & t & a & i & BB & S & N)]]; [left; exact N|right; left|right; right; exists t, a, i; auto].
    exists a, i. split; [exact S|]. apply (proj1 (late_iff H (standing_wf H S))). exact B.
  - right. right. split; [exact F|exact C].
Qed.
Print Assumptions C104_forks.
(** If all leashes are at stored blocks and no two blocks are equally good, the outcome is determined: *)
Theorem C104_forks_exact : forall g ops l ord srt peers, reachable g ops l -> map_order ord -> sorts fork_less srt ->
  let es := hist g ops in
  (forall a i, standing l peers a i -> stored es i) -> (forall t u, best_block es l peers t -> best_block es l peers u -> t = u) ->
  ((exists fs, forks ord srt l peers = Ok fs) <-> (exists a i, standing l peers a i) /\ (forall a i, standing l peers a i -> ~ late es i) /\
     forall t a i, best_block es l peers t -> standing l peers a i -> searchable es t i) /\
  (forks ord srt l peers = Panic <-> (forall a i, ~ standing l peers a i) \/ (exists a i, standing l peers a i /\ late es i) \/
     exists t a i, best_block es l peers t /\ standing l peers a i /\ ~ searchable es t i).
Proof.
  intros g ops l ord srt peers H OM SS es ST U. destruct (C104_forks peers H OM SS) as [(fs & F & EX & BL & t & BT & C)|[(F & C)|(_ & a & i & S & N)]]; [| |exfalso; exact (N (ST a i S))].
  - assert (Q : forall t' a i, best_block es l peers t' -> standing l peers a i -> searchable es t' i) by (intros t' a i B S; rewrite (U t' t B BT); eauto).
    split; split.
    + intros _. split; [exact EX|]. split; [|exact Q]. intros a i S. apply (BL a i S).
    + intros _. eauto.
    + congruence.
    + intros [N|[(a & i & S & L)|(t' & a & i & B & S & N)]]; exfalso; [destruct EX as (a & i & S); exact (N a i S)|exact (proj2 (BL a i S) L)|exact (N (Q t' a i B S))].
  - split; split.
    + intros [fs G]. congruence.
    + intros (EX & NL & Q). exfalso. destruct C as [N|[(a & i & S & _ & L)|(t' & a & i & B & S & N)]]; [destruct EX as (a & i & S); exact (N a i S)|exact (NL a i S L)|exact (N (Q t' a i B S))].
    + intros _. destruct C as [N|[(a & i & S & _ & L)|X]]; [left; exact N|right; left; exists a, i; split; [exact S|exact L]|right; right; exact X].
    + intros _. exact F.
Qed.
Print Assumptions C104_forks_exact.
(** The same for the fork and the last common block of one peer, which are found or not found together. *)
Theorem C104_fork : forall g ops l ord a i, reachable g ops l -> map_order ord -> leashed l a i ->
  let es := hist g ops in
  ((exists f, fork_of ord l a = Ok f) /\ (exists k, lcb ord l a = Ok k) /\ (forall b j, leashed l b j -> stored es j /\ ~ late es j) /\
     exists t, best_block es l [] t /\ searchable es t i) \/
  (fork_of ord l a = Panic /\ lcb ord l a = Panic /\ ((exists b j, leashed l b j /\ stored es j /\ late es j) \/
     exists t, best_block es l [] t /\ ~ searchable es t i)) \/
  (fork_of ord l a = Err ENotFound /\ lcb ord l a = Err ENotFound /\ exists b j, leashed l b j /\ ~ stored es j).
Proof.
  intros g ops l ord a i H OM L es. assert (W : forall b j, leashed l b j -> wf_id j) by (intros b j Q; eapply (standing_wf H (peers := [])); split; [exact Q|now left]).
  destruct (fork_cases H OM L) as [(F & K & BL & T)|[(F & K & C)|(F & K & C)]].
  - left. split; [exact F|]. split; [exact K|]. split; [|exact T]. intros b j Q. apply (proj2 (late_iff H (W b j Q))). eauto.
  - right. left. split; [exact F|]. split; [exact K|]. destruct C as [(b & j & Q & B)|(_ & T)]; [left|right; exact T]. exists b, j. split; [exact Q|]. apply (proj1 (late_iff H (W b j Q))). exact B.
  - right. right. auto.
Qed.
Print Assumptions C104_fork.
(** In the running process all leashes are at stored blocks, whatever was received in this life and the ones before: these calls return a result or crash. *)
Theorem C104_process : forall cfg g x seen, lived cfg g x seen -> short x -> let l := re_lk x in let es := hist g (re_ops x) in
  (forall peers a i, standing l peers a i -> stored es i) /\
  (forall ord srt peers, map_order ord -> sorts fork_less srt -> (exists fs, forks ord srt l peers = Ok fs) \/ forks ord srt l peers = Panic) /\
  (forall ord a i, map_order ord -> leashed l a i -> (exists f k, fork_of ord l a = Ok f /\ lcb ord l a = Ok k) \/ (fork_of ord l a = Panic /\ lcb ord l a = Panic)).
Proof.
  intros cfg g x seen L SH l es. destruct (C79_stores_reachable L SH) as [H _]. change (reachable g (re_ops x) l) in H.
  assert (ST : forall peers a i, standing l peers a i -> stored es i).
  { intros peers a i S. assert (W := standing_wf H S). destruct S as [(WA & NA & HL & LA) P]. destruct (C79_leashes_stored L SH WA) as (j & LJ & HJ). fold l in LJ, HJ. rewrite LA in LJ. injection LJ as <-.
    destruct (one_view H) as (s & HE & R & SM & _). unfold es. rewrite HE. apply (v_has_true R SM W). exact HJ. }
  split; [exact ST|]. split.
  - intros ord srt peers OM SS. destruct (C104_forks peers H OM SS) as [(fs & F & _)|[(F & _)|(_ & a & i & S & N)]]; [left; eauto|right; exact F|exfalso; exact (N (ST _ _ _ S))].
  - intros ord a i OM LA. destruct (C104_fork H OM LA) as [([f F] & [k K] & _)|[(F & K & _)|(_ & _ & b & j & Q & N)]]; [left; eauto|right; auto|].
    exfalso. apply N, (ST [] b j). split; [exact Q|now left].
Qed.
Print Assumptions C104_process.

(** * The registry and the status page *)
(** Connections returns the peers if each of them has a record, and otherwise the error of the first that has none. *)
Theorem C104_connections : forall cfg ops r ord srt, rreach cfg ops r -> permutes ord -> permutes srt ->
  ((forall a, connected r a -> known r a) /\ exists ps, connections ord srt r = Ok ps /\ Permutation (map p_addr ps) (map fst (r_conns r))) \/
  ((exists a, connected r a /\ ~ known r a) /\ connections ord srt r = Err ENotFound).
Proof.
  intros cfg ops r ord srt RR PO PS. assert (INV := rreach_inv RR).
  assert (D : forall x, In x (ord (r_conns r)) -> connected r (fst x) /\ (known r (fst x) \/ get_peer (r_db r) (fst x) = Err ENotFound)).
  { intros x I. assert (C : connected r (fst x)) by (apply in_map; eapply Permutation_in; [apply PO|exact I]). split; [exact C|].
    destruct (I_conns4 INV C) as (b & E & _). destruct (@get_peer_returns (r_db r) (fst x)) as (o & E' & [[p P]|P]); [rewrite E; discriminate|left; exists p; unfold reg_peer; congruence|right; congruence]. }
  destruct (mapM (fun x => do p <- get_peer (r_db r) (fst x); Ok (set_live p (snd x))) (ord (r_conns r))) as [ps|e| |] eqn:M.
  - left. assert (K : forall a, connected r a -> known r a).
    { intros a C. apply in_map_iff in C as (x & <- & I). apply (Permutation_in _ (Permutation_sym (PO _))) in I. destruct (mapM_each M I) as [y Y].
      unfold known, reg_peer. destruct (get_peer (r_db r) (fst x)); [eauto|discriminate..]. }
    split; [exact K|]. destruct (PeersCalls.connections_view INV PO PS K) as (qs & A & B & _). eauto.
  - right. destruct (mapM_err M) as (x & I & E). destruct (D x I) as (C & [[p K]|K]); [unfold reg_peer in K; rewrite K in E; discriminate|]. rewrite K in E. cbn [bind] in E. injection E as <-.
    split; [|unfold connections; now rewrite M]. exists (fst x). split; [exact C|]. intros [p P]. unfold reg_peer in P. congruence.
  - exfalso. destruct (mapM_crash M) as (x & I & E). destruct (D x I) as (C & [[p K]|K]); [unfold reg_peer in K|]; rewrite K in E; discriminate.
  - exfalso. destruct (mapM_diverge M) as (x & I & E). destruct (D x I) as (C & [[p K]|K]); [unfold reg_peer in K|]; rewrite K in E; discriminate.
Qed.
Print Assumptions C104_connections.
(** The status page answers exactly if the forks can be computed and every connected peer has a record, and otherwise with code 500. *)
Theorem C104_status : forall cfg rops r g ops l o, rreach cfg rops r -> reachable g ops l -> fair o ->
  ((exists st, api_status o l r = Reply st) <-> (exists fs, forks (or_groups o) (or_forks o) l [] = Ok fs) /\ forall a, connected r a -> known r a) /\
  ((exists st, api_status o l r = Reply st) \/ api_status o l r = Code 500).
Proof.
  intros cfg rops r g ops l o RR H O. assert (FO := O). destruct FO as (O1 & O2 & O3 & O4 & O5 & O6).
  destruct (PeersCalls.q_peers RR O6) as (al & A & _ & _).
  assert (F : exists fr, friendly_peers (or_peers o) r = Ok fr) by (unfold friendly_peers; rewrite (all_peers_view (rreach_inv RR)); cbn [bind]; eauto). destruct F as [fr F].
  unfold api_status, stats. rewrite A, F. cbn [bind].
  destruct (C104_forks [] H O1 O2) as [(fs & FK & _)|[(FK & _)|(FK & _)]]; rewrite FK; cbn [bind answer].
  - destruct (C104_connections RR O5 O6) as [(K & ps & C & _)|((a & CA & NK) & C)]; rewrite C; cbn [bind answer].
    + split; [|eauto]. split; [eauto|]. intros _. eauto.
    + split; [|now right]. split; [intros [st E]; discriminate|]. intros [_ K]. exfalso. exact (NK (K a CA)).
  - split; [|now right]. split; [intros [st E]; discriminate|intros [[fs E] _]; discriminate].
  - split; [|now right]. split; [intros [st E]; discriminate|intros [[fs E] _]; discriminate].
Qed.
Print Assumptions C104_status.
(** None of the pages about forks keeps the client waiting for ever. *)
Theorem C104_no_hang : forall cfg rops r g ops l o ev q, rreach cfg rops r -> reachable g ops l -> fair o ->
  api_status o l r <> Hang /\ api_forks ev o l q <> Hang /\ api_active_forks ev o l r q <> Hang /\ api_connections o r <> Hang /\ api_peers o r <> Hang /\ api_friendly o r <> Hang.
Proof.
  intros cfg rops r g ops l o ev q RR H O. assert (FO := O). destruct FO as (O1 & O2 & O3 & O4 & O5 & O6).
  assert (N : forall peers, forks (or_groups o) (or_forks o) l peers <> Diverge) by (intros peers; destruct (C104_forks peers H O1 O2) as [(fs & -> & _)|[(-> & _)|(-> & _)]]; discriminate).
  assert (C : connections (or_conns o) (or_peers o) r <> Diverge) by (destruct (C104_connections RR O5 O6) as [(_ & ps & -> & _)|(_ & ->)]; discriminate).
  assert (P : exists al, all_peers (r_db r) = Ok al) by (eexists; apply (all_peers_view (rreach_inv RR))). destruct P as [al P].
  assert (AN : forall A (enc : A -> bool) x, x <> Diverge -> answer enc x <> Hang) by (intros A enc [y| | |] X; cbn [answer]; [destruct (enc y)|..]; congruence).
  split; [destruct (proj2 (C104_status RR H O)) as [[st ->]| ->]; discriminate|]. split; [unfold api_forks; destruct (get_peers ev q); [apply AN, N|discriminate]|].
  split; [|split; [apply AN, C|split; apply AN; unfold reg_peers, friendly_peers; rewrite P; discriminate]].
  unfold api_active_forks. destruct (get_peers ev q) as [ps|]; [|discriminate]. apply AN. destruct (connections (or_conns o) (or_peers o) r) as [cs| | |]; cbn [bind]; [apply N|discriminate|discriminate|congruence].
Qed.
Print Assumptions C104_no_hang.

(** * Examples *)
(** Three forks are found; a fresh store has nobody; two chains that part at genesis have the same score, and their common block cannot be found. *)
Example C104_forks_example : reachable xg xops xl /\ reachable xg [] xl0 /\ reachable xg two_chains xl2 /\
  match forks as_is (isort fork_less) xl [] with Ok fs => length fs | _ => 0 end = 3 /\ forks as_is (isort fork_less) xl0 [] = Panic /\
  forks as_is (isort fork_less) xl2 [] = Panic /\ fork_of as_is xl2 (xpeer 2) = Panic /\ lcb as_is xl2 (xpeer 2) = Panic.
Proof.
  split; [apply xl_reachable|]. split; [change xl0 with (at_end []); apply at_end_reachable; reflexivity|]. split; [apply xl2_reachable|]. vm_compute. repeat (split; [reflexivity|]). reflexivity.
Qed.
(** The status page: answered; 500 because one peer has connected whose record could not be stored; 500 because no peer stands anywhere. *)
Definition unnamed : list rop := [RRegister pa (PeersProps.line hname) hname 0%Z true].
Example C104_status_example : rreach xcfg xrops xr /\ rreach xcfg unnamed (rrun xcfg unnamed) /\ fair xord /\
  (exists st, api_status xord xl xr = Reply st) /\ api_status xord xl (rrun xcfg unnamed) = Code 500 /\ api_status xord xl0 xr = Code 500 /\
  connected (rrun xcfg unnamed) pa /\ ~ known (rrun xcfg unnamed) pa.
Proof.
  split; [split; [wf_ops|reflexivity]|]. split; [split; [wf_ops|reflexivity]|]. split; [apply xord_fair|]. split; [eexists; vm_compute; reflexivity|].
  split; [vm_compute; reflexivity|]. split; [vm_compute; reflexivity|]. split; [vm_compute; auto|]. intros [p P]. vm_compute in P. discriminate.
Qed.
(** In the process: after the lives of C79 and C80 the forks are computed or the call crashes. *)
Example C104_process_example : short (o_real (xlive (xblank [] []) doomed)) /\ forks as_is (isort fork_less) (re_lk (o_real (xlive (xblank [] []) doomed))) [] = Panic /\
  match forks as_is (isort fork_less) (re_lk (o_real (xlive (after_first 1) second_life))) [] with Ok fs => map f_head fs | _ => [] end = [xid 4].
Proof. split; [vm_compute; reflexivity|]. split; vm_compute; reflexivity. Qed.
