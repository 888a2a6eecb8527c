(** The start and the end of the process (C88). *)
From Coq Require Import String.
From Verif Require Import Base Kv ChainModel ChainSpec ChainExample PeersModel PeersSpec PeersProofs PeersProps ApiModel ApiSpec LoadModel NetModel WholeModel LifeModel MainModel.
Set Implicit Arguments.
Unset Strict Implicit.
Local Open Scope list_scope.

(** * Specification *)
(** Whether the databases are open after these deeds. *)
Fixpoint registry_open (now : bool) (ds : list deed) : bool :=
  match ds with [] => now | OpenRegistry :: ds' => registry_open true ds' | CloseRegistry :: ds' => registry_open false ds' | _ :: ds' => registry_open now ds' end.
Fixpoint linkage_open (now : bool) (ds : list deed) : bool :=
  match ds with [] => now | OpenLinkage :: ds' => linkage_open true ds' | CloseLinkage :: ds' => linkage_open false ds' | _ :: ds' => linkage_open now ds' end.
(** What may be done: with the databases open or not. *)
Definition allowed (r l : bool) (d : deed) : Prop :=
  match d with
  | OpenRegistry => r = false | OpenLinkage => l = false /\ r = true
  | CloseRegistry | AddSeeds _ => r = true
  | CloseLinkage | WriteStats | RunService _ | StopService _ => r = true /\ l = true
  | StopSignals | SyncLog | Report _ => True
  end.
Definition orderly (ds : list deed) : Prop := forall a d b, ds = a ++ d :: b -> allowed (registry_open false a) (linkage_open false a) d.
Definition about_services (d : deed) : bool := match d with RunService _ | StopService _ => true | _ => false end.
(** Everything before the services succeeds. *)
Definition prepared (e : world_of_main) (p : parameters) : Prop :=
  e_opens e = Fine /\ e_address e = Fine /\ e_blocks e = Fine /\ e_init e = Fine /\ (e_stats e = Ok tt \/ exists x, e_stats e = Err x) /\ pr_api p <> [].
Definition cut_short (e : world_of_main) : Prop := exists n, e_fortune e = ApiFails n \/ e_fortune e = Crash n.

(** * Proofs *)
Lemma registry_app : forall a b r, registry_open r (a ++ b) = registry_open (registry_open r a) b.
Proof. induction a as [|[] a IH]; intros b r; cbn [app registry_open]; auto. Qed.
Lemma linkage_app : forall a b r, linkage_open r (a ++ b) = linkage_open (linkage_open r a) b.
Proof. induction a as [|[] a IH]; intros b r; cbn [app linkage_open]; auto. Qed.
Fixpoint orderly_from (r l : bool) (ds : list deed) : Prop :=
  match ds with [] => True | d :: ds' => allowed r l d /\ orderly_from (registry_open r [d]) (linkage_open l [d]) ds' end.
Lemma orderly_is : forall ds r l, orderly_from r l ds -> forall a d b, ds = a ++ d :: b -> allowed (registry_open r a) (linkage_open l a) d.
Proof.
  induction ds as [|d0 ds IH]; intros r l H a d b E; [now destruct a|]. destruct H as [A H]. destruct a as [|x a]; cbn [app] in E; injection E as <- E.
  - subst. exact A.
  - destruct d0; cbn [registry_open linkage_open] in *; eapply IH; eauto.
Qed.
Lemma from_app : forall a b r l, orderly_from r l (a ++ b) <-> orderly_from r l a /\ orderly_from (registry_open r a) (linkage_open l a) b.
Proof.
  induction a as [|d a IH]; intros b r l; cbn [app orderly_from]; [cbn; tauto|]. rewrite IH, and_assoc. destruct d; reflexivity.
Qed.
Lemma serving_part : forall n, registry_open true (firstn n serving) = true /\ linkage_open true (firstn n serving) = true /\ orderly_from true true (firstn n serving).
Proof. intros n. do 11 (destruct n as [|n]; [cbn; auto 40|]). cbn; auto 40. Qed.

(** The runs of [body], one by one: deeds and ending. *)
Definition first_deeds (p : parameters) : list deed := [OpenRegistry; AddSeeds (pr_seeds p)].
Inductive ran (e : world_of_main) (p : parameters) : list deed -> ending (option (list N)) -> Prop :=
| ran_unopened m : e_opens e = Fails m -> ran e p [StopSignals] (Returns (Some (at_registry ++ at_registry ++ at_peers ++ m)))
| ran_unopened_panic : e_opens e = Blows -> ran e p [StopSignals] Panics
| ran_address m : e_opens e = Fine -> e_address e = Fails m -> ran e p [OpenRegistry; StopSignals] (Returns (Some (at_registry ++ at_declared ++ m)))
| ran_address_panic : e_opens e = Fine -> e_address e = Blows -> ran e p [OpenRegistry; StopSignals] Panics
| ran_blocks m : e_opens e = Fine -> e_address e = Fine -> e_blocks e = Fails m ->
    ran e p (first_deeds p ++ [CloseRegistry; StopSignals]) (Returns (Some (at_linkage ++ at_blocks ++ m)))
| ran_blocks_panic : e_opens e = Fine -> e_address e = Fine -> e_blocks e = Blows -> ran e p (first_deeds p ++ [CloseRegistry; StopSignals]) Panics
| ran_init m : e_opens e = Fine -> e_address e = Fine -> e_blocks e = Fine -> e_init e = Fails m ->
    ran e p (first_deeds p ++ [OpenLinkage; CloseRegistry; StopSignals]) (Returns (Some (at_linkage ++ m)))
| ran_init_panic : e_opens e = Fine -> e_address e = Fine -> e_blocks e = Fine -> e_init e = Blows ->
    ran e p (first_deeds p ++ [OpenLinkage; CloseRegistry; StopSignals]) Panics
| ran_stats : e_opens e = Fine -> e_address e = Fine -> e_blocks e = Fine -> e_init e = Fine -> e_stats e = Panic ->
    ran e p (first_deeds p ++ [OpenLinkage; CloseLinkage; CloseRegistry; StopSignals]) Panics
| ran_never : e_opens e = Fine -> e_address e = Fine -> e_blocks e = Fine -> e_init e = Fine -> e_stats e = Diverge ->
    ran e p (first_deeds p ++ [OpenLinkage]) Never
| ran_no_api : e_opens e = Fine -> e_address e = Fine -> e_blocks e = Fine -> e_init e = Fine -> (e_stats e = Ok tt \/ exists x, e_stats e = Err x) -> pr_api p = [] ->
    ran e p (first_deeds p ++ [OpenLinkage; WriteStats; CloseLinkage; CloseRegistry; StopSignals]) (Returns (Some (at_api ++ no_bind)))
| ran_to_end : prepared e p -> e_fortune e = Interrupted ->
    ran e p (first_deeds p ++ [OpenLinkage; WriteStats] ++ serving ++ [CloseLinkage; CloseRegistry; StopSignals]) (Returns None)
| ran_nil : prepared e p -> e_fortune e = NilListener ->
    ran e p (first_deeds p ++ [OpenLinkage; WriteStats] ++ firstn 6 serving ++ [CloseLinkage; CloseRegistry; StopSignals]) Panics
| ran_api n : prepared e p -> e_fortune e = ApiFails n -> ran e p (first_deeds p ++ [OpenLinkage; WriteStats] ++ firstn (S n) serving) (Gone 1)
| ran_crash n : prepared e p -> e_fortune e = Crash n -> ran e p (first_deeds p ++ [OpenLinkage; WriteStats] ++ firstn (S n) serving) (Gone 2)
| ran_hangs n : prepared e p -> e_fortune e = Hangs n -> ran e p (first_deeds p ++ [OpenLinkage; WriteStats] ++ firstn (S n) serving) Never.
Lemma body_ran : forall e p, ran e p (fst (body e p)) (snd (body e p)).
Proof.
  intros e p. unfold body, checked, new_registry. destruct (e_opens e) as [|m|] eqn:E1; [|cbn [doing deferring fst snd app]; solve [econstructor; eassumption]..].
  destruct (e_address e) as [|m|] eqn:E2; [|cbn [doing deferring fst snd app]; solve [econstructor; eassumption]..]. cbn [fst snd]. unfold over_registry, checked, new_linkage.
  destruct (e_blocks e) as [|m|] eqn:E3; [|cbn [doing deferring fst snd app]; solve [econstructor; eassumption]..].
  destruct (e_init e) as [|m|] eqn:E4; [|cbn [doing deferring fst snd app]; solve [econstructor; eassumption]..]. cbn [fst snd].
  assert (ST : e_stats e = Panic \/ e_stats e = Diverge \/ (e_stats e = Ok tt \/ exists y, e_stats e = Err y)) by (destruct (e_stats e) as [[]|y| |]; eauto).
  destruct ST as [ST|[ST|ST]]; [unfold over_linkage; rewrite ST; cbn [doing deferring fst snd app]; solve [econstructor; eassumption]..|].
  assert (OL : over_linkage e p = doing [WriteStats] match new_api (pr_api p) with Some m => ([], Returns (Some (at_api ++ m))) | None => serve e end)
    by (unfold over_linkage; destruct ST as [ST|ST]; [rewrite ST; reflexivity|destruct ST as (y & ST); rewrite ST; reflexivity]).
  rewrite OL. clear OL. destruct (pr_api p) as [|b bs] eqn:AP; cbn [new_api]; [cbn [doing deferring fst snd app]; solve [econstructor; eassumption]|].
  assert (P : prepared e p) by (unfold prepared; rewrite AP; refine (conj E1 (conj E2 (conj E3 (conj E4 (conj ST _))))); discriminate).
  unfold serve. destruct (e_fortune e) as [|n|n| |n] eqn:F; cbn [doing deferring fst snd].
  - exact (ran_to_end P F).
  - exact (ran_api P F).
  - exact (ran_crash P F).
  - exact (ran_nil P F).
  - exact (ran_hangs P F).
Qed.

(** * C88 *)
(** What is done is done over open databases: no database is opened twice, the seeds are added, the services run and are stopped while
    the databases they use are open; the blocks are closed before the peers. *)
Theorem C88_order : forall e ps, orderly (fst (main e ps)).
Proof.
  intros e ps. unfold orderly. apply orderly_is.
  assert (B : forall p, orderly_from false false (fst (body e p))).
  { intros p. pose proof (body_ran e p) as R. destruct (body e p) as [ds x]. cbn [fst snd] in *.
    assert (M : forall n post, post = [] \/ post = [CloseLinkage; CloseRegistry; StopSignals] ->
      orderly_from false false (first_deeds p ++ [OpenLinkage; WriteStats] ++ firstn n serving ++ post)).
    { intros n post P. destruct (serving_part n) as (A & L & O). apply from_app. split; [cbn; tauto|]. apply from_app. split; [cbn; tauto|].
      cbn [registry_open linkage_open first_deeds]. apply from_app. split; [exact O|]. rewrite A, L. destruct P as [-> | ->]; cbn; tauto. }
    destruct R; try (cbn; tauto).
    - pose proof (M (S n) _ (or_introl eq_refl)) as X. now rewrite app_nil_r in X.
    - pose proof (M (S n) _ (or_introl eq_refl)) as X. now rewrite app_nil_r in X.
    - pose proof (M (S n) _ (or_introl eq_refl)) as X. now rewrite app_nil_r in X. }
  assert (E : forall ds t, Forall (fun d => match d with SyncLog | Report _ => True | _ => False end) t -> orderly_from false false ds -> orderly_from false false (ds ++ t)).
  { intros ds t F H. apply from_app. split; [exact H|]. generalize (registry_open false ds) (linkage_open false ds). clear H. induction F as [|d t D F IH]; intros r l; [exact I|].
    destruct d; try contradiction; split; cbn; auto. }
  unfold main, run, sync_log. destruct ps as [p|x| |]; [|cbn; destruct (e_stderr e); cbn; tauto|cbn; tauto..].
  specialize (B p). destruct (body e p) as [ds [[m|]| |c|]]; cbn [fst snd] in *.
  - destruct (negb (e_sync e) && e_invalid e); [apply E; auto|]. destruct (capitalize e m); cbn [fst]; try (apply E; now auto).
    destruct (e_stderr e); cbn [fst]; [|apply E; auto]. rewrite <- app_assoc. apply E; cbn; auto.
  - apply E; auto.
  - apply E; auto.
  - exact B.
  - exact B.
Qed.
Print Assumptions C88_order.

(** The deeds of main, from those of [body]. *)
Lemma starts_with : forall e p ds m, ran e p ds (Returns (Some m)) -> exists r rs, m = r :: rs.
Proof. intros e p ds m R. inversion R; subst; unfold at_registry, at_linkage, at_api; cbn; eauto. Qed.
Lemma capital : forall e p ds m, ran e p ds (Returns (Some m)) -> exists s, capitalize e m = Ok s.
Proof. intros e p ds m R. destruct (starts_with R) as (r & rs & ->). cbn [capitalize]. eauto. Qed.
Lemma main_ran : forall e p ds c, main e (Ok p) = (ds, c) -> exists ds0 x, ran e p ds0 x /\
  match x with
  | Returns None => ds = ds0 ++ [SyncLog] /\ c = Some 0%N
  | Returns (Some m) =>
      if negb (e_sync e) && e_invalid e then ds = ds0 ++ [SyncLog] /\ c = Some 2%N
      else exists s, capitalize e m = Ok s /\ if e_stderr e then ds = ds0 ++ [SyncLog; Report s] /\ c = Some 1%N else ds = ds0 ++ [SyncLog] /\ c = Some 0%N
  | Panics => ds = ds0 ++ [SyncLog] /\ c = Some 2%N
  | Gone n => ds = ds0 /\ c = Some n
  | Never => ds = ds0 /\ c = None
  end.
Proof.
  intros e p ds c H. pose proof (body_ran e p) as R. unfold main, run, sync_log in H. destruct (body e p) as [ds0 x]. cbn [fst snd] in *. exists ds0, x. split; [exact R|].
  destruct x as [[m|]| |n|]; try (injection H as <- <-; now auto).
  destruct (negb (e_sync e) && e_invalid e); [injection H as <- <-; now auto|]. destruct (capital R) as [s S]. rewrite S in H. exists s. split; [exact S|].
  destruct (e_stderr e); injection H as <- <-; [|now auto]. now rewrite <- app_assoc.
Qed.
Lemma ran_state : forall e p ds x, ran e p ds x -> x <> Never ->
  (registry_open false ds = true <-> e_opens e = Fine /\ (e_address e <> Fine \/ (prepared e p /\ cut_short e))) /\
  (linkage_open false ds = true <-> e_opens e = Fine /\ e_address e = Fine /\ e_blocks e = Fine /\ (e_init e <> Fine \/ (prepared e p /\ cut_short e))).
Proof.
  intros e p ds x R N.
  assert (C : (e_fortune e = Interrupted \/ e_fortune e = NilListener) -> ~ cut_short e) by (intros [F|F] (n & [X|X]); congruence).
  assert (ST : e_stats e = Panic -> ~ prepared e p) by (intros X (_ & _ & _ & _ & [Y|[y Y]] & _); congruence).
  assert (AP : pr_api p = [] -> ~ prepared e p) by (intros X (_ & _ & _ & _ & _ & Y); congruence).
  assert (M : forall n, registry_open false (first_deeds p ++ [OpenLinkage; WriteStats] ++ firstn n serving) = true /\ linkage_open false (first_deeds p ++ [OpenLinkage; WriteStats] ++ firstn n serving) = true).
  { intros n. destruct (serving_part n) as (A & B & _). rewrite !registry_app, !linkage_app. cbn [registry_open linkage_open first_deeds]. auto. }
  assert (CS : forall n, e_fortune e = ApiFails n \/ e_fortune e = Crash n -> cut_short e) by (intros n X; exists n; exact X).
  destruct R; try congruence;
    try (cbn; split; split; [discriminate|intros X; exfalso|discriminate|intros X; exfalso]; unfold prepared in *; intuition congruence);
    try (cbn; split; split; [intros _; split; [assumption|left; congruence]|intros _; reflexivity|discriminate|intros X; exfalso; intuition congruence]);
    try (cbn; split; split; [discriminate|intros X; exfalso; unfold prepared in *; intuition congruence|intros _; repeat (split; [assumption|]); left; congruence|intros _; reflexivity]).
  - destruct (M (S n)) as [-> ->]. pose proof (CS n (or_introl H0)). unfold prepared in *. intuition congruence.
  - destruct (M (S n)) as [-> ->]. pose proof (CS n (or_intror H0)). unfold prepared in *. intuition congruence.
Qed.

(** Which databases are left open at the end of the process. *)
Theorem C88_left_open : forall e ps ds c, main e ps = (ds, Some c) ->
  (registry_open false ds = true <-> exists p, ps = Ok p /\ e_opens e = Fine /\ (e_address e <> Fine \/ (prepared e p /\ cut_short e))) /\
  (linkage_open false ds = true <-> exists p, ps = Ok p /\ e_opens e = Fine /\ e_address e = Fine /\ e_blocks e = Fine /\ (e_init e <> Fine \/ (prepared e p /\ cut_short e))).
Proof.
  intros e ps ds c H. destruct ps as [p|x| |].
  - destruct (main_ran H) as (ds0 & x & R & K).
    assert (N : x <> Never) by (intros ->; destruct K as [_ K]; discriminate K).
    destruct (ran_state R N) as [A B].
    assert (S : registry_open false ds = registry_open false ds0 /\ linkage_open false ds = linkage_open false ds0).
    { destruct x as [[m|]| |n|]; [destruct (negb (e_sync e) && e_invalid e); [destruct K as [-> _]|destruct K as (s & _ & K); destruct (e_stderr e); destruct K as [-> _]]|destruct K as [-> _]..];
        rewrite ?registry_app, ?linkage_app; auto. }
    destruct S as [-> ->]. split; [rewrite A|rewrite B]; split.
    + intros X. exists p. auto.
    + intros (q & [= <-] & X). exact X.
    + intros X. exists p. auto.
    + intros (q & [= <-] & X). exact X.
  - unfold main, run in H. destruct (capitalize e (at_parameters ++ e_args e)); [destruct (e_stderr e)|..]; injection H as <- _; cbn; split; split; try discriminate; intros (q & X & _); discriminate X.
  - injection H as <- _. cbn. split; split; try discriminate; intros (q & X & _); discriminate X.
  - discriminate H.
Qed.
Print Assumptions C88_left_open.

(** The services, in the order of forkdetector.go:81-96 and 101-105. *)
Definition ten : list deed :=
  map RunService [SApi; SListener; SRespawn; SDistributor; SLoader] ++ map StopService [SApi; SListener; SRespawn; SLoader; SDistributor].
Lemma part_services : forall n, filter about_services (firstn n serving) = firstn n ten.
Proof. intros n. do 11 (destruct n as [|n]; [reflexivity|]). reflexivity. Qed.
Lemma ran_services : forall e p ds x, ran e p ds x -> (filter about_services ds <> [] <-> prepared e p) /\ exists n, filter about_services ds = firstn n ten.
Proof.
  intros e p ds x R.
  assert (ST : e_stats e = Panic \/ e_stats e = Diverge -> ~ prepared e p) by (intros X (_ & _ & _ & _ & [Y|[y Y]] & _); destruct X; congruence).
  assert (AP : pr_api p = [] -> ~ prepared e p) by (intros X (_ & _ & _ & _ & _ & Y); congruence).
  assert (Z : ~ prepared e p -> filter about_services ds = [] -> (filter about_services ds <> [] <-> prepared e p) /\ exists n, filter about_services ds = firstn n ten).
  { intros P F. rewrite F. split; [split; [congruence|contradiction]|exists 0%nat; reflexivity]. }
  assert (M : forall n, prepared e p -> ds = first_deeds p ++ [OpenLinkage; WriteStats] ++ firstn (S n) serving -> (filter about_services ds <> [] <-> prepared e p) /\ exists n, filter about_services ds = firstn n ten).
  { intros n P ->. rewrite !filter_app, part_services. cbn [first_deeds filter about_services app]. split; [split; [auto|discriminate]|eauto]. }
  destruct R; try (apply Z; [unfold prepared in *; intuition congruence|reflexivity]); try (eapply M; [eassumption|reflexivity]).
  - split; [split; [auto|discriminate]|]. exists 10%nat. reflexivity.
  - split; [split; [auto|discriminate]|]. exists 6%nat. reflexivity.
Qed.
Lemma main_services : forall e p ds c, main e (Ok p) = (ds, c) -> exists ds0 x, ran e p ds0 x /\ filter about_services ds = filter about_services ds0.
Proof.
  intros e p ds c H. destruct (main_ran H) as (ds0 & x & R & K). exists ds0, x. split; [exact R|].
  destruct x as [[m|]| |n|]; [destruct (negb (e_sync e) && e_invalid e); [destruct K as [-> _]|destruct K as (s & _ & K); destruct (e_stderr e); destruct K as [-> _]]|destruct K as [-> _]..];
    rewrite ?filter_app; cbn [filter about_services]; now rewrite ?app_nil_r.
Qed.
Lemma main_refused : forall e x ds c, main e (Err x) = (ds, c) -> if e_stderr e then (exists m, capitalize e (at_parameters ++ e_args e) = Ok m /\ ds = [Report m]) /\ c = Some 1%N else ds = [] /\ c = Some 0%N.
Proof.
  intros e x ds c H. unfold main, run in H. assert (C : exists m, capitalize e (at_parameters ++ e_args e) = Ok m) by (unfold at_parameters; cbn; eauto). destruct C as [m C].
  rewrite C in H. destruct (e_stderr e); injection H as <- <-; eauto.
Qed.

(** The exit code. 0 means that the process started, was interrupted and has stopped everything, provided that the error can be
    written; 1 that the start failed, and why is written, or that the API failed. *)
Theorem C88_exit : forall e ps ds c, main e ps = (ds, c) ->
  (e_stderr e = true -> (c = Some 0%N <-> exists p, ps = Ok p /\ prepared e p /\ e_fortune e = Interrupted)) /\
  (c = Some 1%N -> (exists a m, ds = a ++ [Report m] /\ filter about_services a = []) \/ exists p n, ps = Ok p /\ prepared e p /\ e_fortune e = ApiFails n) /\
  (c = None -> ps = Diverge \/ e_stats e = Diverge \/ exists p n, ps = Ok p /\ prepared e p /\ e_fortune e = Hangs n).
Proof.
  intros e ps ds c H. destruct ps as [p|x| |].
  - destruct (main_ran H) as (ds0 & x & R & K). destruct (ran_services R) as [SV _].
    assert (ST : e_stats e = Panic \/ e_stats e = Diverge -> ~ prepared e p) by (intros X (_ & _ & _ & _ & [Y|[y Y]] & _); destruct X; congruence).
    assert (AP : pr_api p = [] -> ~ prepared e p) by (intros X (_ & _ & _ & _ & _ & Y); congruence).
    split; [|split].
    + intros SE. rewrite SE in K. split.
      * intros ->. destruct R; [try (destruct (negb (e_sync e) && e_invalid e); [destruct K as [_ K]; discriminate K|destruct K as (s & _ & _ & K); discriminate K]); try (destruct K as [_ K]; discriminate K)..]. eauto.
      * intros (q & [= <-] & P & F). destruct R; try (exfalso; unfold prepared in *; intuition congruence). exact (proj2 K).
    + intros ->. destruct R; try (destruct K as [_ K]; discriminate K); try (right; eauto; fail); left;
        (destruct (negb (e_sync e) && e_invalid e); [destruct K as [_ K]; discriminate K|destruct K as (s & _ & K); destruct (e_stderr e); [destruct K as [-> _]|destruct K as [_ K]; discriminate K]]);
        match goal with |- exists a m, ?d0 ++ [SyncLog; Report ?s0] = _ /\ _ => exists (d0 ++ [SyncLog]), s0; split; [rewrite <- app_assoc; reflexivity|reflexivity] end.
    + intros ->. destruct R; try (destruct K as [_ K]; discriminate K); try (right; left; assumption);
        try (destruct (negb (e_sync e) && e_invalid e); [destruct K as [_ K]; discriminate K|destruct K as (s & _ & K); destruct (e_stderr e); destruct K as [_ K]; discriminate K]).
      right. right. eauto.
  - pose proof (main_refused H) as K. split; [|split].
    + intros SE. rewrite SE in K. destruct K as [_ ->]. split; [discriminate|]. intros (p & X & _). discriminate X.
    + intros ->. destruct (e_stderr e); [|destruct K as [_ K]; discriminate K]. destruct K as [(m & _ & ->) _]. left. exists [], m. auto.
    + intros ->. destruct (e_stderr e); destruct K as [_ K]; discriminate K.
  - injection H as <- <-. split; [|split]; try discriminate. intros _. split; [discriminate|]. intros (p & X & _). discriminate X.
  - injection H as <- <-. split; [|split]; try discriminate; auto. intros _. split; [discriminate|]. intros (p & X & _). discriminate X.
Qed.
Print Assumptions C88_exit.

(** The services run only in a process that is prepared, in this order; an interrupted process stops every one of them, and then closes
    the databases. *)
Theorem C88_services : forall e ps ds c, main e ps = (ds, c) ->
  (filter about_services ds <> [] <-> exists p, ps = Ok p /\ prepared e p) /\ (exists n, filter about_services ds = firstn n ten) /\
  (forall p, ps = Ok p -> prepared e p -> e_fortune e = Interrupted ->
     ds = [OpenRegistry; AddSeeds (pr_seeds p); OpenLinkage; WriteStats] ++ ten ++ [CloseLinkage; CloseRegistry; StopSignals; SyncLog]).
Proof.
  intros e ps ds c H. assert (Z : filter about_services ds = [] -> (forall p, ps <> Ok p) -> (filter about_services ds <> [] <-> exists p, ps = Ok p /\ prepared e p) /\ (exists n, filter about_services ds = firstn n ten) /\
    (forall p, ps = Ok p -> prepared e p -> e_fortune e = Interrupted -> ds = [OpenRegistry; AddSeeds (pr_seeds p); OpenLinkage; WriteStats] ++ ten ++ [CloseLinkage; CloseRegistry; StopSignals; SyncLog])).
  { intros F N. rewrite F. split; [split; [congruence|intros (p & -> & _); now destruct (N p)]|]. split; [exists 0%nat; reflexivity|]. intros p ->. now destruct (N p). }
  destruct ps as [p|x| |].
  - clear Z. destruct (main_services H) as (ds0 & x & R & ->). destruct (ran_services R) as [A B]. split; [rewrite A; split; [eauto|intros (q & [= <-] & X); exact X]|]. split; [exact B|].
    intros q [= <-] P F. clear ds0 x R A B. destruct (main_ran H) as (ds0 & x & R & K).
    assert (ST : e_stats e = Panic \/ e_stats e = Diverge -> ~ prepared e p) by (intros X (_ & _ & _ & _ & [Y|[y Y]] & _); destruct X; congruence).
    assert (AP : pr_api p = [] -> ~ prepared e p) by (intros X (_ & _ & _ & _ & _ & Y); congruence).
    destruct R; try (exfalso; unfold prepared in *; intuition congruence). destruct K as [-> _]. reflexivity.
  - apply Z; [|discriminate]. pose proof (main_refused H) as K. destruct (e_stderr e); [destruct K as [(m & _ & ->) _]|destruct K as [-> _]]; reflexivity.
  - apply Z; [|discriminate]. injection H as <- _. reflexivity.
  - apply Z; [|discriminate]. injection H as <- _. reflexivity.
Qed.
Print Assumptions C88_services.

(** The causes of exit code 2; main never panics in making its report. *)
Theorem C88_panic : forall e ps ds, main e ps = (ds, Some 2%N) ->
  ps = Panic \/ e_opens e = Blows \/ e_address e = Blows \/ e_blocks e = Blows \/ e_init e = Blows \/ e_stats e = Panic \/ e_fortune e = NilListener \/
  (exists n, e_fortune e = Crash n) \/ (e_sync e = false /\ e_invalid e = true).
Proof.
  intros e ps ds H. destruct ps as [p|x| |]; [|pose proof (main_refused H) as K; destruct (e_stderr e); destruct K as [_ K]; discriminate K|now left|discriminate H].
  destruct (main_ran H) as (ds0 & x & R & K). destruct (e_sync e) eqn:S, (e_invalid e) eqn:I; cbn [negb andb] in K; [..|now auto 12|];
    (destruct R; try (destruct K as [_ K]; discriminate K); try (destruct K as (s & _ & K); destruct (e_stderr e); destruct K as [_ K]; discriminate K); eauto 12).
Qed.
Print Assumptions C88_panic.
(** Every report is the text of the error with a capital letter. *)
Theorem C88_report : forall e ps ds c m, main e ps = (ds, c) -> In (Report m) ds -> exists r rs, m = e_upper e r :: rs /\
  exists pre, In pre ["invalid parameters: "; "failed to create peers registry: "; "failed to initialize Linkage: "; "failed to create API server: "]%string /\
    exists rest, r :: rs = text pre ++ rest.
Proof.
  intros e ps ds c m H I. destruct ps as [p|x| |]; [|pose proof (main_refused H) as K|injection H as <- _; contradiction..].
  - destruct (main_ran H) as (ds0 & x & R & K).
    assert (N : ~ In (Report m) ds0).
    { intros J. assert (M : forall n, ~ In (Report m) (firstn n serving)). { intros n X. assert (Y : In (Report m) serving) by (rewrite <- (firstn_skipn n serving); apply in_or_app; now left). cbn in Y. intuition congruence. }
      destruct R; try (cbn in J; intuition congruence);
        (apply in_app_or in J as [J|J]; [cbn in J; intuition congruence|]; apply in_app_or in J as [J|J]; [cbn in J; intuition congruence|]; now apply M in J). }
    assert (Q : exists m0 , (exists pre rest, In pre ["invalid parameters: "; "failed to create peers registry: "; "failed to initialize Linkage: "; "failed to create API server: "]%string /\ m0 = text pre ++ rest) /\ capitalize e m0 = Ok m).
    { destruct x as [[m0|]| |n|]; try (destruct K as [-> _]; try (apply in_app_or in I as [I|I]); try contradiction; cbn in I; intuition congruence).
      destruct (negb (e_sync e) && e_invalid e); [destruct K as [-> _]; apply in_app_or in I as [I|[I|[]]]; [contradiction|discriminate I]|].
      destruct K as (s & S & K). destruct (e_stderr e); destruct K as [-> _]; (apply in_app_or in I as [I|I]; [contradiction|]); [|destruct I as [I|[]]; discriminate I].
      destruct I as [I|[I|[]]]; [discriminate I|]. injection I as <-. exists m0. split; [|exact S]. clear - R. inversion R; subst.
      - exists "failed to create peers registry: "%string. eexists. split; [cbn; auto|reflexivity].
      - exists "failed to create peers registry: "%string. eexists. split; [cbn; auto|reflexivity].
      - exists "failed to initialize Linkage: "%string. eexists. split; [cbn; auto|reflexivity].
      - exists "failed to initialize Linkage: "%string. eexists. split; [cbn; auto|reflexivity].
      - exists "failed to create API server: "%string. eexists. split; [cbn; auto|reflexivity]. }
    destruct Q as (m0 & (pre & rest & P & E) & C). destruct m0 as [|r rs]; [discriminate C|]. injection C as <-. exists r, rs. eauto.
  - destruct (e_stderr e); [|destruct K as [-> _]; contradiction]. destruct K as [(m0 & C & ->) _]. destruct I as [I|[]]. injection I as ->.
    destruct (at_parameters ++ e_args e) as [|r rs] eqn:E; [discriminate C|]. injection C as <-. exists r, rs. split; [reflexivity|].
    exists "invalid parameters: "%string. split; [now left|]. exists (e_args e). now rewrite <- E.
Qed.
Print Assumptions C88_report.

(** The start of main and the start of the lives of C79 and C80: over the stores of [x], with the parameters and the files in order, the
    services are started exactly when [starts] says so. *)
Definition as_result (r : outcome unit) : result := match r with Ok _ => Fine | Err _ => Fails [] | _ => Blows end.
Definition as_stats A (r : outcome A) : outcome unit := match r with Ok _ => Ok tt | Err x => Err x | Panic => Panic | Diverge => Diverge end.
Theorem C88_starts : forall g x e p ds c, e_opens e = Fine -> e_address e = Fine -> e_blocks e = Fine ->
  e_init e = as_result (snd (exec g (re_lk x) Reopen None)) -> e_stats e = as_stats (initial_stats (fst (exec g (re_lk x) Reopen None))) -> pr_api p <> [] ->
  main e (Ok p) = (ds, c) -> (filter about_services ds <> [] <-> starts g x = Ok tt).
Proof.
  intros g x e p ds c A B C D E F H. destruct (C88_services H) as [K _]. rewrite K. unfold starts, prepared.
  destruct (snd (exec g (re_lk x) Reopen None)) as [[]|y| |]; cbn [as_result bind] in *;
    try (split; [intros (q & _ & _ & _ & _ & X & _); congruence|discriminate]).
  destruct (initial_stats (fst (exec g (re_lk x) Reopen None))) as [z|y| |]; cbn [as_stats] in E.
  - split; [reflexivity|]. intros _. exists p. auto 10.
  - split; [reflexivity|]. intros _. exists p. split; [reflexivity|]. repeat (split; [assumption|]). split; [right; eauto|exact F].
  - split; [intros (q & _ & _ & _ & _ & _ & [X|[y X]] & _); congruence|discriminate].
  - split; [intros (q & _ & _ & _ & _ & _ & [X|[y X]] & _); congruence|discriminate].
Qed.
Print Assumptions C88_starts.

(** A declared address that cannot be parsed means that there is no network server. [empty]: proto.TCPAddr.Empty. *)
Theorem C88_no_server : forall ev o p empty, empty None = true -> new_parameters ev o = Ok p -> ev_addrport ev (op_declared o) = None ->
  has_server empty (pr_declared p) (pr_net p) = false.
Proof.
  intros ev o p empty EM H N. unfold new_parameters in H.
  destruct (check_folder ev (op_db o)); cbn [bind] in H; try discriminate H. destruct (op_network o); cbn [bind] in H; try discriminate H.
  destruct (parse_seed_peers ev (op_peers o) _); cbn [bind] in H; try discriminate H. destruct (parse_versions ev (op_versions o)); cbn [bind] in H; try discriminate H.
  destruct (check_bind ev (op_api o)); cbn [bind] in H; try discriminate H. destruct (check_bind ev (op_net o)); cbn [bind] in H; try discriminate H.
  destruct (check_name (op_name o)); cbn [bind] in H; try discriminate H. destruct (parse_address ev _) in H at 1; cbn [bind] in H; try discriminate H.
  unfold parse_address in H. rewrite N in H. cbn [bind] in H. injection H as <-. cbn [pr_declared]. unfold has_server. now rewrite EM.
Qed.
Print Assumptions C88_no_server.

(** There is a network server exactly when an address is declared and the address to bind has a host or a port. *)
Theorem C88_server : forall empty declared bind, has_server empty declared bind = true <->
  empty declared = false /\ (empty bind = false \/ exists h p, bind = Some (h, p) /\ p <> 0%N).
Proof.
  intros empty declared bind. unfold has_server. destruct (empty declared); [split; [discriminate|intros [[=] _]]|].
  destruct (empty bind) eqn:B; cbn [andb].
  - destruct bind as [[h p]|].
    + destruct (N.eqb_spec p 0) as [->|N]; split; try discriminate; auto.
      * intros [_ [[=]|(h' & p' & [= <- <-] & X)]]. now contradiction X.
      * intros _. split; [reflexivity|]. right. now exists h, p.
    + split; [discriminate|]. intros [_ [[=]|(h' & p' & [=] & _)]].
  - split; auto.
Qed.
Print Assumptions C88_server.
(** ":6868" has no host but a port: with a declared address there is a server; without a port there is none. *)
Example C88_server_example : let empty := fun a : option (bytes * N) => match a with Some (h, _) => Nat.eqb (length h) 0 | None => true end in
  has_server empty (Some ([x31], 6868%N)) (Some ([], 6868%N)) = true /\ has_server empty (Some ([x31], 6868%N)) (Some ([], 0%N)) = false /\
  has_server empty (Some ([x31], 6868%N)) (Some ([x31], 0%N)) = true /\ has_server empty (Some ([], 6868%N)) (Some ([x31], 6868%N)) = false.
Proof. vm_compute. auto. Qed.

(** * Counterexamples *)
Definition xmain (init : result) (f : fortune) (invalid sync stderr : bool) : world_of_main :=
  {| e_args := []; e_opens := Fine; e_address := Fine; e_blocks := Fine; e_init := init; e_stats := Ok tt; e_fortune := f; e_invalid := invalid;
     e_sync := sync; e_stderr := stderr; e_upper := fun r => if ((97 <=? r) && (r <=? 122))%N then (r - 32)%N else r |}.
Definition xpar : parameters :=
  {| pr_db := [x64]; pr_seeds := [(pa, 6868%N)]; pr_api := [x61]; pr_net := None; pr_declared := None; pr_name := [x6e]; pr_versions := [ver 1 5 0] |}.
(** False: that the databases that have been opened are closed at the end. A failed initialisation leaves the blocks open, a failure of
    the API (its port is taken) leaves both open, although main reports neither as a crash: the exit code is 1. *)
Theorem C88_closed_refuted : exists e e' p, snd (main e (Ok p)) = Some 1%N /\ linkage_open false (fst (main e (Ok p))) = true /\
  snd (main e' (Ok p)) = Some 1%N /\ registry_open false (fst (main e' (Ok p))) = true /\ linkage_open false (fst (main e' (Ok p))) = true /\
  ~ exists m, In (Report m) (fst (main e' (Ok p))).
Proof.
  exists (xmain (Fails []) Interrupted false true true), (xmain Fine (ApiFails 3) false true true), xpar.
  repeat (split; [vm_compute; reflexivity|]). intros (m & I). vm_compute in I. repeat destruct I as [I|I]; try discriminate I. exact I.
Qed.
Print Assumptions C88_closed_refuted.
(** False: that the databases are closed after the services have stopped. When the listener has no socket, the panic of its shutdown
    closes them under the running loader and distributor. *)
Theorem C88_closed_last_refuted : exists e p, let ds := fst (main e (Ok p)) in
  In CloseLinkage ds /\ In CloseRegistry ds /\ In (RunService SLoader) ds /\ ~ In (StopService SLoader) ds /\ ~ In (StopService SDistributor) ds /\ snd (main e (Ok p)) = Some 2%N.
Proof.
  exists (xmain Fine NilListener false true true), xpar. vm_compute. repeat split; auto 20; intros I; repeat destruct I as [I|I]; try discriminate I; exact I.
Qed.
Print Assumptions C88_closed_last_refuted.
(** False: that an error of the start has exit code 1 (if nobody reads the error, the code is 0), and that it is written (if the log
    cannot be flushed, main panics instead when the error wraps os.ErrInvalid); while an error of the log alone is never seen. *)
Theorem C88_reported_refuted : exists e1 e2 e3 p, e_init e1 <> Fine /\ snd (main e1 (Ok p)) = Some 0%N /\
  e_init e2 <> Fine /\ e_stderr e2 = true /\ snd (main e2 (Ok p)) = Some 2%N /\ (~ exists m, In (Report m) (fst (main e2 (Ok p)))) /\
  e_sync e3 = false /\ snd (main e3 (Ok p)) = Some 0%N.
Proof.
  exists (xmain (Fails []) Interrupted false true false), (xmain (Fails []) Interrupted true false true), (xmain Fine Interrupted false false true), xpar.
  split; [discriminate|]. split; [vm_compute; reflexivity|]. split; [discriminate|]. split; [reflexivity|]. split; [vm_compute; reflexivity|].
  split; [intros (m & I); vm_compute in I; repeat destruct I as [I|I]; try discriminate I; exact I|]. split; [reflexivity|]. vm_compute. reflexivity.
Qed.
Print Assumptions C88_reported_refuted.

(** The hypotheses are met: a process that starts, is interrupted and ends; one whose store cannot be initialised. *)
Example C88_example :
  main (xmain Fine Interrupted false true true) (Ok xpar) =
    ([OpenRegistry; AddSeeds [(pa, 6868%N)]; OpenLinkage; WriteStats; RunService SApi; RunService SListener; RunService SRespawn; RunService SDistributor;
      RunService SLoader; StopService SApi; StopService SListener; StopService SRespawn; StopService SLoader; StopService SDistributor; CloseLinkage;
      CloseRegistry; StopSignals; SyncLog], Some 0%N) /\
  main (xmain (Fails (text "disk full")) Interrupted false true true) (Ok xpar) =
    ([OpenRegistry; AddSeeds [(pa, 6868%N)]; OpenLinkage; CloseRegistry; StopSignals; SyncLog; Report (text "Failed to initialize Linkage: disk full")], Some 1%N) /\
  prepared (xmain Fine Interrupted false true true) xpar.
Proof. split; [vm_compute; reflexivity|]. split; [vm_compute; reflexivity|]. unfold prepared. cbn. repeat (split; auto). discriminate. Qed.
