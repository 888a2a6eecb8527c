(** The property C108 of /verif/properties.jsonl: from the command line to the services. *)
From Coq Require Import Strings.Byte Strings.String.
From Verif Require Import Base Kv BytesFacts ChainModel ChainSpec ChainExample PeersModel PeersSpec PeersProofs PeersProps ApiModel ApiSpec ApiProofs ApiProps LoadModel LoadSpec NetModel NetSpec WholeModel WholeSpec WholeProps LifeModel LifeSpec LifeProofs LifeProps
  MainModel MainProps TextModel TextProps NetipModel NetipProofs NetipProofs2 NetipProofs3 NetipProps.
Set Implicit Arguments.
Unset Strict Implicit.
Local Open Scope list_scope.

(** * Specification *)
(** The two addresses are in the form of IPv4, as far as they can be read. *)
Definition both_v4 (ev : env) (o : options) : Prop := only_v4 ev (op_net o) /\ only_v4 ev (op_declared o).
(** The registry and the linkage come up. *)
Definition stores_ready (e : world_of_main) : Prop :=
  e_opens e = Fine /\ e_address e = Fine /\ e_blocks e = Fine /\ e_init e = Fine /\ (e_stats e = Ok tt \/ exists x, e_stats e = Err x).

(** * Proofs *)
Lemma api_given : forall dir clean o p, new_parameters (go_env dir clean) o = Ok p -> pr_api p <> [].
Proof.
  intros dir clean o p H. destruct (C100_library dir clean) as (RD & T & _).
  destruct (C62_accepted RD T H) as (_ & _ & _ & _ & _ & _ & _ & _ & _ & _ & _ & _ & ap & E & ->). intros Q. specialize (RD _ _ E). rewrite Q in RD.
  assert (N : ev_addrport (go_env dir clean) [] = None) by reflexivity. congruence.
Qed.
Lemma prepared_iff : forall dir clean o p e, new_parameters (go_env dir clean) o = Ok p -> (prepared e p <-> stores_ready e).
Proof. intros dir clean o p e H. unfold prepared, stores_ready. assert (A := api_given H). tauto. Qed.

(** * C108 *)
(** With the functions of the Go library: the services are started exactly if all options are right and both stores come up. If an option is wrong, nothing is done but
    to report it, with the exit code 1; if only the form of one of the two addresses is wrong, the process crashes before it does anything. *)
Theorem C108_command_line : forall dir clean o e ds c, let ev := go_env dir clean in main e (new_parameters ev o) = (ds, c) ->
  (filter about_services ds <> [] <-> admissible ev o /\ both_v4 ev o /\ stores_ready e) /\
  (forall d, In d ds -> (exists m, d = Report m) \/ (admissible ev o /\ both_v4 ev o)) /\
  (~ admissible ev o -> e_stderr e = true -> (exists r rs, at_parameters ++ e_args e = r :: rs /\ ds = [Report (e_upper e r :: rs)]) /\ c = Some 1%N) /\
  (admissible ev o -> ~ both_v4 ev o -> ds = [] /\ c = Some 2%N) /\
  (e_stderr e = true -> (c = Some 0%N <-> admissible ev o /\ both_v4 ev o /\ stores_ready e /\ e_fortune e = Interrupted)).
Proof.
  intros dir clean o e ds c ev H. destruct (C57_exactly dir clean o) as (P1 & P2 & P3). fold ev in P1, P2, P3. fold (both_v4 ev o) in P1, P2.
  destruct (C88_services H) as (S1 & _ & _). destruct (C88_exit H) as (X1 & _ & _).
  assert (K : forall p, new_parameters ev o = Ok p -> (prepared e p <-> stores_ready e)) by (intros p Q; eapply prepared_iff; exact Q).
  split; [|split; [|split; [|split]]].
  - rewrite S1. split.
    + intros (p & E & PR). apply (K p E) in PR. assert (Q : exists q, new_parameters ev o = Ok q) by eauto. apply P2 in Q. tauto.
    + intros (A & V & R). destruct (proj2 P2 (conj A V)) as [p E]. exists p. split; [exact E|]. now apply (K p E).
  - intros d I. destruct (new_parameters ev o) as [p|x| |] eqn:E.
    + right. apply P2. eauto.
    + left. assert (M := main_refused H). destruct (e_stderr e); [destruct M as [(m & _ & ->) _]; destruct I as [<-|[]]; eauto|destruct M as [-> _]; destruct I].
    + injection H as <- _. destruct I.
    + injection H as <- _. destruct I.
  - intros NA SE. destruct (proj2 P3 NA) as [x E]. rewrite E in H. assert (M := main_refused H). rewrite SE in M. destruct M as [(m & C & ->) ->]. split; [|reflexivity].
    unfold capitalize in C. destruct (at_parameters ++ e_args e) as [|r rs]; [discriminate C|]. injection C as <-. eauto.
  - intros A NV. rewrite (proj2 P1 (conj A NV)) in H. injection H as <- <-. auto.
  - intros SE. rewrite (X1 SE). split.
    + intros (p & E & PR & I). apply (K p E) in PR. assert (Q : exists q, new_parameters ev o = Ok q) by eauto. apply P2 in Q. tauto.
    + intros (A & V & R & I). destruct (proj2 P2 (conj A V)) as [p E]. exists p. split; [exact E|]. split; [now apply (K p E)|exact I].
Qed.
Print Assumptions C108_command_line.
(** A process that is interrupted has opened both stores, added the seed peers of the command line after the built-in ones, and closed what it has opened. *)
Theorem C108_interrupted : forall dir clean o e ds c, let ev := go_env dir clean in main e (new_parameters ev o) = (ds, c) ->
  admissible ev o -> both_v4 ev o -> stores_ready e -> e_fortune e = Interrupted ->
  exists n b seeds, op_network o = Some n /\ builtin n = Ok b /\
    (forall ws, items_of (op_peers o) ws -> exists listed, seeds = b ++ listed /\
      Forall2 (fun w ap => ev_addrport ev (ev_trim ev w) = Some ap) (filter (fun w => negb (blank ev w)) ws) listed) /\
    ds = [OpenRegistry; AddSeeds seeds; OpenLinkage; WriteStats] ++ ten ++ [CloseLinkage; CloseRegistry; StopSignals; SyncLog].
Proof.
  intros dir clean o e ds c ev H A V R I. destruct (C57_exactly dir clean o) as (_ & P2 & _). fold ev in P2. destruct (proj2 P2 (conj A V)) as [p E].
  destruct (C100_library dir clean) as (RD & T & _). destruct (C62_accepted RD T E) as (_ & _ & (n & b & EN & _ & EB & SD) & _).
  destruct (C88_services H) as (_ & _ & S). exists n, b, (pr_seeds p). split; [exact EN|]. split; [exact EB|]. split; [exact SD|]. apply S; auto. now apply (prepared_iff (dir := dir) (clean := clean) (o := o)).
Qed.
Print Assumptions C108_interrupted.

(** Over the stores that any number of lives of the process have left behind, if the files can be opened: the services are started exactly if every option is right and
    no last block of a chain that a peer stands on is dated 2^63-1 or later. *)
Theorem C108_again : forall dir clean o cfg g x seen e ds c, let ev := go_env dir clean in lived cfg g x seen -> short x ->
  e_opens e = Fine -> e_address e = Fine -> e_blocks e = Fine ->
  e_init e = as_result (snd (exec g (re_lk x) Reopen None)) -> e_stats e = as_stats (initial_stats (fst (exec g (re_lk x) Reopen None))) ->
  main e (new_parameters ev o) = (ds, c) ->
  (filter about_services ds <> [] <-> admissible ev o /\ both_v4 ev o /\ forall i, active (hist g (re_ops x)) (re_lk x) i -> ~ LifeSpec.late (hist g (re_ops x)) i).
Proof.
  intros dir clean o cfg g x seen e ds c ev L SH A B C D E H. destruct (C57_exactly dir clean o) as (_ & P2 & _). fold ev in P2. fold (both_v4 ev o) in P2.
  assert (ST : starts g x = Ok tt <-> forall i, active (hist g (re_ops x)) (re_lk x) i -> ~ LifeSpec.late (hist g (re_ops x)) i).
  { split.
    - intros S i AC LA. rewrite (starts_late L SH AC LA) in S. discriminate S.
    - intros N. pose proof (lived_initial L SH) as X. rewrite (starts_is X SH). destruct (proj1 (stats_exact (initial_reach X SH)) N) as (u & w & -> & _). reflexivity. }
  rewrite <- ST. split.
  - intros S. destruct (C108_command_line H) as (K & _). assert (Q := proj1 K S). destruct Q as (AD & V & _). split; [exact AD|]. split; [exact V|].
    destruct (proj2 P2 (conj AD V)) as [p P]. fold ev in H. rewrite P in H. apply (C88_starts A B C D E (api_given P) H). exact S.
  - intros (AD & V & S). destruct (proj2 P2 (conj AD V)) as [p P]. fold ev in H. rewrite P in H. apply (C88_starts A B C D E (api_given P) H). exact S.
Qed.
Print Assumptions C108_again.

Definition ready_main : world_of_main := xmain Fine Interrupted false true true.
Example C108_example :
  stores_ready ready_main /\
  (let r := main ready_main (new_parameters genv (gopts "0.0.0.0:6868" "1.2.3.4:6868")) in (snd r, Nat.ltb 0 (List.length (filter about_services (fst r))), hd SyncLog (fst r))) = (Some 0%N, true, OpenRegistry) /\
  main ready_main (new_parameters genv (gopts "[::1]:6868" "")) = ([], Some 2%N) /\
  (let r := main ready_main (new_parameters genv (gopts "localhost" "")) in (snd r, List.length (fst r))) = (Some 1%N, 1).
Proof. split; [vm_compute; auto 8|]. vm_compute. auto. Qed.
(** The stores after two lives, and the ones of C80, after a block with such a date. *)
Definition over (x : real) : world_of_main :=
  {| e_args := e_args ready_main; e_opens := Fine; e_address := Fine; e_blocks := Fine; e_init := as_result (snd (exec xg (re_lk x) Reopen None));
     e_stats := as_stats (initial_stats (fst (exec xg (re_lk x) Reopen None))); e_fortune := Interrupted; e_sync := true; e_invalid := false; e_stderr := true; e_upper := e_upper ready_main |}.
Example C108_again_example :
  let good := o_real (xlive (after_first 1) second_life) in let bad := o_real (xlive (xblank [] []) doomed) in
  let ps := new_parameters genv (gopts "0.0.0.0:6868" "1.2.3.4:6868") in
  snd (main (over good) ps) = Some 0%N /\ snd (main (over bad) ps) = Some 2%N /\ filter about_services (fst (main (over bad) ps)) = [].
Proof. vm_compute. auto. Qed.
