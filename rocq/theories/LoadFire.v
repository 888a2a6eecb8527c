(** The peer loader in an arbitrary world: the calls made by each event. *)
From Verif Require Import Base Kv BytesFacts ChainModel ChainSpec PeersModel PeersSpec LoadModel LoadSpec LoadProofs.
Set Implicit Arguments.
Unset Strict Implicit.

Section Fire.
Variable V : Type.
Variable w : world V.
Notation lw := (logging w).

Lemma log_call : forall c v es, logging w c (v, es) = let (v', r) := w c v in ((v', es ++ [c ==> r]), r).
Proof. reflexivity. Qed.

Lemma put_all_log : forall a bs v es, exists v' new r, put_all lw a bs (v, es) = ((v', es ++ new), r) /\
  (r = Ok tt -> new = map (puts a) bs) /\
  (r <> Ok tt -> exists pre b post, bs = pre ++ b :: post /\ new = map (puts a) pre ++ [CPut b a ==> r]).
Proof.
  intros a bs. induction bs as [|b bs IH]; intros v es.
  - exists v, [], (Ok tt). cbn [put_all]. rewrite app_nil_r. split; [reflexivity|]. split; [reflexivity|congruence].
  - cbn [put_all]. rewrite log_call. destruct (w (CPut b a) v) as [v1 r1] eqn:E. cbn beta iota.
    destruct r1 as [u|e| |]; try destruct u.
    + destruct (IH v1 (es ++ [CPut b a ==> Ok tt])) as (v' & new & r & P & A & B). rewrite P.
      exists v', (puts a b :: new), r. split; [now rewrite <- app_assoc|]. split.
      * intros H. cbn [map]. now rewrite (A H).
      * intros H. destruct (B H) as (pre & x & post & -> & ->). exists (b :: pre), x, post. auto.
    + eexists _, _, _. split; [reflexivity|]. split; [discriminate|]. intros _. exists [], b, bs. auto.
    + eexists _, _, _. split; [reflexivity|]. split; [discriminate|]. intros _. exists [], b, bs. auto.
    + eexists _, _, _. split; [reflexivity|]. split; [discriminate|]. intros _. exists [], b, bs. auto.
Qed.

Definition silent (e : event) : Prop := ~ is_ask e /\ ~ is_report e.
Lemma skip_known_log : forall a ids v es, exists v' new r, skip_known lw a ids (v, es) = ((v', es ++ new), r) /\
  match r with
  | Ok rest => exists known es1, ids = known ++ rest /\ walk a known es1 /\
      new = es1 ++ match rest with [] => [] | i :: _ => [CHas i ==> Ok false] end
  | _ => Forall silent new
  end.
Proof.
  intros a ids. induction ids as [|i ids IH]; intros v es.
  - exists v, [], (Ok []). split; [cbn; now rewrite app_nil_r|]. exists [], []. split; [reflexivity|]. split; [constructor|reflexivity].
  - cbn [skip_known]. rewrite log_call. destruct (w (CHas i) v) as [v1 r1] eqn:E. cbn beta iota.
    destruct r1 as [[|]|e| |].
    2: { eexists _, _, _. split; [reflexivity|]. exists [], []. split; [reflexivity|]. split; [constructor|reflexivity]. }
    2-4: eexists _, _, _; split; [reflexivity|]; repeat constructor; intros [].
    rewrite log_call. destruct (w (CLeash a) v1) as [v2 r2] eqn:E2. cbn beta iota. destruct r2 as [j|e| |].
    2-4: eexists _, _, _; split; [rewrite <- app_assoc; reflexivity|]; repeat constructor; intros [].
    destruct (id_eqb i j) eqn:Eij.
    + apply id_eqb_eq in Eij. subst j. destruct (IH v2 ((es ++ [CHas i ==> Ok true]) ++ [CLeash a ==> Ok i])) as (v' & new & r & P & Q).
      rewrite P. exists v', ([CHas i ==> Ok true; CLeash a ==> Ok i] ++ new), r. split; [now rewrite <- !app_assoc|].
      destruct r as [rest|e| |]; try (cbn [app]; constructor; [split; intros []|constructor; [split; intros []|exact Q]]).
      destruct Q as (known & es1 & -> & W & ->). exists (i :: known), ([CHas i ==> Ok true; CLeash a ==> Ok i] ++ es1).
      split; [reflexivity|]. split; [now constructor|]. now rewrite app_assoc.
    + apply id_eqb_neq in Eij. rewrite log_call. destruct (w (CMove i a) v2) as [v3 r3] eqn:E3. cbn beta iota.
      destruct r3 as [u|e| |]; try destruct u.
      2-4: eexists _, _, _; split; [rewrite <- !app_assoc; reflexivity|]; repeat constructor; intros [].
      destruct (IH v3 (((es ++ [CHas i ==> Ok true]) ++ [CLeash a ==> Ok j]) ++ [CMove i a ==> Ok tt])) as (v' & new & r & P & Q).
      rewrite P. exists v', ([CHas i ==> Ok true; CLeash a ==> Ok j; CMove i a ==> Ok tt] ++ new), r. split; [now rewrite <- !app_assoc|].
      destruct r as [rest|e| |];
        try (cbn [app]; constructor; [split; intros []|constructor; [split; intros []|constructor; [split; intros []|exact Q]]]).
      destruct Q as (known & es1 & -> & W & ->).
      exists (i :: known), ([CHas i ==> Ok true; CLeash a ==> Ok j; CMove i a ==> Ok tt] ++ es1).
      split; [reflexivity|]. split; [now constructor|]. now rewrite app_assoc.
Qed.

Lemma ask_blocks_log : forall a ids v es, exists v', ask_blocks lw a ids (v, es) = (v', es ++ map (asks_for a) ids).
Proof.
  intros a ids. induction ids as [|i ids IH]; intros v es.
  - exists v. cbn [ask_blocks map]. now rewrite app_nil_r.
  - cbn [ask_blocks map]. rewrite log_call. destruct (w (CAskBlock a i) v) as [v1 []] eqn:E. cbn [fst].
    destruct (IH v1 (es ++ [CAskBlock a i ==> tt])) as (v' & ->). exists v'. now rewrite <- app_assoc.
Qed.

Lemma ask_from_log : forall i p v es, exists v' new p' r, ask_from lw i p (v, es) = ((v', es ++ new), (p', r)) /\
  match r with
  | Ok more => more = [] /\ exists ids t, p' = set_ts p t /\ new = [CLast i 100 ==> Ok ids; CAskIDs (pl_peer p) ids ==> tt; CNow ==> t]
  | _ => p' = p /\ Forall quiet new
  end.
Proof.
  intros i p v es. unfold ask_from. rewrite log_call. destruct (w (CLast i idsBatchSize) v) as [v1 r1] eqn:E. cbn beta iota.
  destruct r1 as [[|x ids]|e| |].
  - eexists _, _, _, _. split; [reflexivity|]. split; [reflexivity|]. repeat constructor.
  - rewrite log_call. destruct (w (CAskIDs (pl_peer p) (x :: ids)) v1) as [v2 []] eqn:E2. cbn beta iota.
    rewrite log_call. destruct (w CNow v2) as [v3 t] eqn:E3. cbn beta iota.
    eexists _, _, _, _. split; [rewrite <- !app_assoc; reflexivity|]. split; [reflexivity|]. eexists _, t. split; reflexivity.
  - eexists _, _, _, _. split; [reflexivity|]. split; [reflexivity|]. repeat constructor.
  - eexists _, _, _, _. split; [reflexivity|]. split; [reflexivity|]. repeat constructor.
  - eexists _, _, _, _. split; [reflexivity|]. split; [reflexivity|]. repeat constructor.
Qed.
Lemma request_log : forall (lcb : bool) p v es, exists v' new p' r,
  (if lcb then request_ids_from_lca lw p (v, es) else request_ids lw p (v, es)) = ((v', es ++ new), (p', r)) /\
  match r with
  | Ok more => more = [] /\ requested lcb (pl_peer p) new /\ exists t, p' = set_ts p t
  | _ => p' = p /\ Forall quiet new /\ exists x, hd_error new = Some x /\ projT1 x = if lcb then CLcb (pl_peer p) else CLeash (pl_peer p)
  end.
Proof.
  intros lcb p v es. destruct lcb; [unfold request_ids_from_lca|unfold request_ids]; rewrite log_call.
  - destruct (w (CLcb (pl_peer p)) v) as [v1 r1] eqn:E. cbn beta iota. destruct r1 as [i|e| |].
    + destruct (ask_from_log i p v1 (es ++ [CLcb (pl_peer p) ==> Ok i])) as (v' & new & p' & r & -> & Q).
      exists v', ((CLcb (pl_peer p) ==> Ok i) :: new), p', r. split; [now rewrite <- app_assoc|].
      destruct r as [more|e| |].
      * destruct Q as (-> & ids & t & -> & ->). split; auto. split; [exists i, ids, t; reflexivity|eauto].
      * destruct Q as (-> & Q). split; auto. split; [constructor; [exact Logic.I|exact Q]|]. eexists. split; reflexivity.
      * destruct Q as (-> & Q). split; auto. split; [constructor; [exact Logic.I|exact Q]|]. eexists. split; reflexivity.
      * destruct Q as (-> & Q). split; auto. split; [constructor; [exact Logic.I|exact Q]|]. eexists. split; reflexivity.
    + eexists _, _, _, _. split; [reflexivity|]. split; [reflexivity|]. split; [repeat constructor|]. eexists; split; reflexivity.
    + eexists _, _, _, _. split; [reflexivity|]. split; [reflexivity|]. split; [repeat constructor|]. eexists; split; reflexivity.
    + eexists _, _, _, _. split; [reflexivity|]. split; [reflexivity|]. split; [repeat constructor|]. eexists; split; reflexivity.
  - destruct (w (CLeash (pl_peer p)) v) as [v1 r1] eqn:E. cbn beta iota. destruct r1 as [i|e| |].
    + destruct (ask_from_log i p v1 (es ++ [CLeash (pl_peer p) ==> Ok i])) as (v' & new & p' & r & -> & Q).
      exists v', ((CLeash (pl_peer p) ==> Ok i) :: new), p', r. split; [now rewrite <- app_assoc|].
      destruct r as [more|e| |].
      * destruct Q as (-> & ids & t & -> & ->). split; auto. split; [exists i, ids, t; reflexivity|eauto].
      * destruct Q as (-> & Q). split; auto. split; [constructor; [exact Logic.I|exact Q]|]. eexists. split; reflexivity.
      * destruct Q as (-> & Q). split; auto. split; [constructor; [exact Logic.I|exact Q]|]. eexists. split; reflexivity.
      * destruct Q as (-> & Q). split; auto. split; [constructor; [exact Logic.I|exact Q]|]. eexists. split; reflexivity.
    + eexists _, _, _, _. split; [reflexivity|]. split; [reflexivity|]. split; [repeat constructor|]. eexists; split; reflexivity.
    + eexists _, _, _, _. split; [reflexivity|]. split; [reflexivity|]. split; [repeat constructor|]. eexists; split; reflexivity.
    + eexists _, _, _, _. split; [reflexivity|]. split; [reflexivity|]. split; [repeat constructor|]. eexists; split; reflexivity.
Qed.

(** * Firing *)
Lemma at_rest : forall p, pl_triggers p = [] -> set_triggers p [] = p.
Proof. intros [a s ts q tr] T. cbn [pl_triggers] in T. now rewrite T. Qed.
Definition to_unit A (r : outcome A) : outcome unit :=
  match r with Ok _ => Ok tt | Err e => Err e | Panic => Panic | Diverge => Diverge end.
Lemma fire_rest : forall U (x : world U) t p v, pl_triggers p = [] ->
  fire x t p v = match fire_one x t p v with
                 | (v1, (p1, Ok more)) => fire_loop x 7 (set_triggers p1 (pl_triggers p1 ++ more)) v1
                 | (v1, (p1, r)) => (v1, (p1, to_unit r))
                 end.
Proof.
  intros U x t p v H. unfold fire. destruct p as [a s ts q tr]. cbn [pl_triggers] in H. subst tr.
  cbn [set_triggers pl_triggers app pl_peer pl_state pl_ts pl_queue fire_loop].
  destruct (fire_one x t _ v) as (v1 & p1 & [more|e| |]); reflexivity.
Qed.
Lemma loop_rest : forall U (x : world U) n p v, pl_triggers p = [] -> fire_loop x n p v = (v, (p, Ok tt)).
Proof. intros U x n p v H. destruct n; cbn [fire_loop]; now rewrite H. Qed.
Lemma loop_one : forall U (x : world U) n p v t, pl_triggers p = [t] ->
  fire_loop x (S n) p v = match fire_one x t (set_triggers p []) v with
                 | (v1, (p1, Ok more)) => fire_loop x n (set_triggers p1 (pl_triggers p1 ++ more)) v1
                 | (v1, (p1, r)) => (v1, (p1, to_unit r))
                 end.
Proof.
  intros U x n p v t H. cbn [fire_loop]. rewrite H. destruct (fire_one x t _ v) as (v1 & p1 & [more|e| |]); reflexivity.
Qed.

Lemma fire_one_start : forall U (x : world U) (lcb : bool) p v, pl_state p = Idle ->
  fire_one x (if lcb then ERestart else EStart) p v =
  if lcb then request_ids_from_lca x (set_state p WaitIDs) v else request_ids x (set_state p WaitIDs) v.
Proof. intros U x lcb p v S. unfold fire_one. rewrite S. destruct lcb; reflexivity. Qed.
Lemma fire_one_timeout : forall U (x : world U) p v, (pl_state p = WaitIDs \/ pl_state p = WaitBlocks) ->
  fire_one x ETimeout p v = handle_failure x (set_state p Done) v.
Proof. intros U x p v S. unfold fire_one. destruct S as [-> | ->]; reflexivity. Qed.

Lemma fire_one_ready : forall U (x : world U) p v, pl_state p = WaitBlocks -> fire_one x EQueueReady p v = report_ok x (set_state p Idle) v.
Proof. intros U x p v S. unfold fire_one. rewrite S. reflexivity. Qed.
Lemma report_ok_log : forall p v es, exists v1 r0, report_ok lw p (v, es) = ((v1, es ++ [COk (pl_peer p) (pl_state p) ==> r0]),
  (p, match r0 with Ok started => Ok (if started then [EStart] else []) | Err e => Err e | Panic => Panic | Diverge => Diverge end)).
Proof.
  intros p v es. unfold report_ok. rewrite log_call. destruct (w (COk (pl_peer p) (pl_state p)) v) as [v1 r1] eqn:E. cbn beta iota.
  exists v1, r1. destruct r1; reflexivity.
Qed.

(** What eventStart does in the state Idle. *)
Lemma start_log : forall n (lcb : bool) p v es, pl_state p = Idle -> pl_triggers p = [if lcb then ERestart else EStart] ->
  exists v' new p' r, fire_loop lw (S n) p (v, es) = ((v', es ++ new), (p', r)) /\
    pl_peer p' = pl_peer p /\ pl_queue p' = pl_queue p /\ pl_triggers p' = [] /\ pl_state p' = WaitIDs /\ Forall quiet new /\
    (exists x, hd_error new = Some x /\ projT1 x = if lcb then CLcb (pl_peer p) else CLeash (pl_peer p)) /\
    (r = Ok tt -> requested lcb (pl_peer p) new).
Proof.
  intros n lcb p v es S T. rewrite (@loop_one _ lw n p (v, es) _ T).
  rewrite (@fire_one_start _ lw lcb (set_triggers p []) (v, es)) by exact S. set (p0 := set_state _ WaitIDs).
  destruct (request_log lcb p0 v es) as (v' & new & p' & r & -> & Q).
  destruct r as [more|e| |].
  - destruct Q as (-> & R & t & ->). rewrite loop_rest by reflexivity. eexists _, _, _, _. split; [reflexivity|].
    do 4 (split; [reflexivity|]). split; [|split; [|auto]].
    + destruct R as (i & ids & t' & ->). destruct lcb; repeat constructor.
    + destruct R as (i & ids & t' & ->). eexists. split; [reflexivity|]. destruct lcb; reflexivity.
  - destruct Q as (-> & Q & H). eexists _, _, _, _. split; [reflexivity|]. do 4 (split; [reflexivity|]). split; [exact Q|]. split; [exact H|discriminate].
  - destruct Q as (-> & Q & H). eexists _, _, _, _. split; [reflexivity|]. do 4 (split; [reflexivity|]). split; [exact Q|]. split; [exact H|discriminate].
  - destruct Q as (-> & Q & H). eexists _, _, _, _. split; [reflexivity|]. do 4 (split; [reflexivity|]). split; [exact Q|]. split; [exact H|discriminate].
Qed.

(** What eventQueueReady does in the state WaitingForBlocks: the report and, if the reporter starts again, a new request. *)
Lemma ready_log : forall n p v es, pl_state p = WaitBlocks -> pl_triggers p = [EQueueReady] ->
  exists v' new p' r r0, fire_loop lw (S (S n)) p (v, es) = ((v', es ++ (COk (pl_peer p) Idle ==> r0) :: new), (p', r)) /\
    pl_peer p' = pl_peer p /\ pl_queue p' = pl_queue p /\ pl_triggers p' = [] /\ Forall quiet new /\
    match r0 with
    | Ok true => pl_state p' = WaitIDs /\ (r = Ok tt -> requested false (pl_peer p) new)
    | Ok false => pl_state p' = Idle /\ new = [] /\ r = Ok tt
    | _ => pl_state p' = Idle /\ new = [] /\ r = to_unit r0
    end.
Proof.
  intros n p v es S T. rewrite (@loop_one _ lw _ p (v, es) _ T).
  rewrite (@fire_one_ready _ lw (set_triggers p []) (v, es)) by exact S. set (p0 := set_state _ Idle).
  destruct (report_ok_log p0 v es) as (v1 & r1 & ->). change (pl_peer p0) with (pl_peer p) in *. change (pl_state p0) with Idle in *.
  destruct r1 as [[|]|e| |]; cbn beta iota.
  - change (pl_triggers p0) with (@nil trigger). cbn [app].
    destruct (@start_log n false (set_triggers p0 [EStart]) v1 (es ++ [COk (pl_peer p) Idle ==> Ok true]))
      as (v' & new & p' & r & E1 & A & B & C & D & F & G & H); [reflexivity|reflexivity|].
    rewrite E1. eexists _, _, _, _, _. split; [rewrite <- app_assoc; reflexivity|]. repeat split; auto.
  - rewrite loop_rest by reflexivity. eexists _, _, _, _, _. split; [reflexivity|]. repeat split; auto.
  - eexists _, _, _, _, (Err e). split; [reflexivity|]. repeat split; auto.
  - eexists _, _, _, _, Panic. split; [reflexivity|]. repeat split; auto.
  - eexists _, _, _, _, Diverge. split; [reflexivity|]. repeat split; auto.
Qed.

(** * C43 *)
Lemma fire_ids : forall p v ids, waiting p WaitIDs -> exists v' log p' r,
  fire lw (EIDs ids) p (v, []) = ((v', log), (p', r)) /\ pl_peer p' = pl_peer p /\ pl_triggers p' = [] /\
  ((exists known rest es, ids = known ++ rest /\ walk (pl_peer p) known es /\
      match rest with
      | [] => pl_queue p' = pl_queue p /\ exists r0 more, log = es ++ (COk (pl_peer p) Idle ==> r0) :: more /\ Forall quiet more /\
          match r0 with
          | Ok true => pl_state p' = WaitIDs /\ (r = Ok tt -> requested false (pl_peer p) more)
          | Ok false => pl_state p' = Idle /\ more = [] /\ r = Ok tt
          | _ => pl_state p' = Idle /\ more = [] /\ r = to_unit r0
          end
      | i :: _ => exists t, log = es ++ [CHas i ==> Ok false] ++ map (asks_for (pl_peer p)) rest ++ [CNow ==> t] /\
          r = Ok tt /\ pl_state p' = WaitBlocks /\ pl_queue p' = new_queue rest /\ pl_ts p' = t
      end) \/
   (r <> Ok tt /\ pl_state p' = WaitBlocks /\ pl_queue p' = pl_queue p /\ pl_ts p' = pl_ts p /\ Forall silent log)).
Proof.
  intros p v ids [S T]. rewrite (@fire_rest _ lw _ p _ T). unfold fire_one. rewrite S. cbn [behave on_entry].
  unfold request_blocks. cbn [set_state pl_peer].
  destruct (skip_known_log (pl_peer p) ids v []) as (v1 & new & r & -> & Q). destruct r as [[|i rest]|e| |].
  - destruct Q as (known & es & -> & W & E). rewrite app_nil_r in E. subst new. cbn [pl_triggers set_state]. rewrite T.
    match goal with |- context [fire_loop _ _ ?q _] => set (p0 := q) end.
    destruct (@ready_log 5 p0 v1 es) as (v' & new & p' & r & r0 & E1 & A & B & C & D & F); [reflexivity|reflexivity|].
    cbn [app]. rewrite E1. eexists _, _, _, _. split; [reflexivity|]. split; [exact A|]. split; [exact C|]. left.
    exists known, [], es. split; [reflexivity|]. split; [exact W|]. split; [exact B|]. exists r0, new. auto.
  - destruct Q as (known & es & -> & W & ->). destruct (ask_blocks_log (pl_peer p) (i :: rest) v1 (es ++ [CHas i ==> Ok false])) as (v2 & A).
    cbn [app]. rewrite A. cbn beta iota. rewrite log_call.
    destruct (w CNow v2) as [v3 t] eqn:E. cbn beta iota. cbn [set_ts set_queue set_state pl_triggers]. rewrite T.
    rewrite loop_rest by reflexivity. eexists _, _, _, _. split; [reflexivity|]. split; [reflexivity|]. split; [reflexivity|]. left.
    exists known, (i :: rest), es. split; [reflexivity|]. split; [exact W|]. exists t. rewrite <- !app_assoc. auto.
  - eexists _, _, _, _. split; [reflexivity|]. split; [reflexivity|]. split; [exact T|]. right. repeat split; auto. discriminate.
  - eexists _, _, _, _. split; [reflexivity|]. split; [reflexivity|]. split; [exact T|]. right. repeat split; auto. discriminate.
  - eexists _, _, _, _. split; [reflexivity|]. split; [reflexivity|]. split; [exact T|]. right. repeat split; auto. discriminate.
Qed.

(** * C44 *)
Lemma fire_block : forall p v b, waiting p WaitBlocks -> exists v' log p' r,
  fire lw (EBlock b) p (v, []) = ((v', log), (p', r)) /\ pl_peer p' = pl_peer p /\ pl_triggers p' = [] /\
  pl_queue p' = queue_put_ptr (pl_queue p) b /\
  if queue_ready (queue_put_ptr (pl_queue p) b)
  then let bs := received (queue_put_ptr (pl_queue p) b) in
    (exists r0 more, log = map (puts (pl_peer p)) bs ++ (COk (pl_peer p) Idle ==> r0) :: more /\ Forall quiet more /\
      match r0 with
      | Ok true => pl_state p' = WaitIDs /\ (r = Ok tt -> requested false (pl_peer p) more)
      | Ok false => pl_state p' = Idle /\ more = [] /\ r = Ok tt
      | _ => pl_state p' = Idle /\ more = [] /\ r = to_unit r0
      end) \/
    (r <> Ok tt /\ pl_state p' = WaitBlocks /\ exists pre x post, bs = pre ++ x :: post /\
      log = map (puts (pl_peer p)) pre ++ [CPut x (pl_peer p) ==> r])
  else log = [] /\ r = Ok tt /\ pl_state p' = WaitBlocks /\ pl_ts p' = pl_ts p /\ v' = v.
Proof.
  intros p v b [S T]. rewrite (@fire_rest _ lw _ p _ T). unfold fire_one. rewrite S. cbn [behave].
  unfold append_block. cbn [set_queue pl_queue].
  destruct (queue_ready (queue_put_ptr (pl_queue p) b)) eqn:R.
  - destruct (put_all_log (pl_peer p) (received (queue_put_ptr (pl_queue p) b)) v []) as (v1 & new & r & -> & A & B).
    destruct r as [u|e| |]; try destruct u.
    + rewrite (A eq_refl). cbn [pl_triggers set_queue]. rewrite T.
      match goal with |- context [fire_loop _ _ ?q _] => set (p0 := q) end.
      destruct (@ready_log 5 p0 v1 (map (puts (pl_peer p)) (received (queue_put_ptr (pl_queue p) b))))
        as (v' & more & p' & r & r0 & E1 & X1 & X2 & X3 & X4 & X5); [exact S|reflexivity|].
      cbn [app]. rewrite E1. eexists _, _, _, _. split; [reflexivity|]. split; [exact X1|]. split; [exact X3|]. split; [exact X2|].
      left. exists r0, more. auto.
    + destruct B as (pre & x & post & Q & ->); [discriminate|]. eexists _, _, _, _. split; [reflexivity|]. split; [reflexivity|].
      split; [exact T|]. split; [reflexivity|]. right. split; [discriminate|]. split; [exact S|]. exists pre, x, post. auto.
    + destruct B as (pre & x & post & Q & ->); [discriminate|]. eexists _, _, _, _. split; [reflexivity|]. split; [reflexivity|].
      split; [exact T|]. split; [reflexivity|]. right. split; [discriminate|]. split; [exact S|]. exists pre, x, post. auto.
    + destruct B as (pre & x & post & Q & ->); [discriminate|]. eexists _, _, _, _. split; [reflexivity|]. split; [reflexivity|].
      split; [exact T|]. split; [reflexivity|]. right. split; [discriminate|]. split; [exact S|]. exists pre, x, post. auto.
  - cbn [pl_triggers set_queue]. rewrite T. rewrite loop_rest by reflexivity. eexists _, _, _, _. split; [reflexivity|].
    cbn [set_triggers pl_peer pl_triggers pl_queue pl_state pl_ts]. auto 10.
Qed.

(** * C45 *)
Lemma timeout_log : forall n p v es, (pl_state p = WaitIDs \/ pl_state p = WaitBlocks) -> pl_triggers p = [ETimeout] ->
  exists v' new p' r, fire_loop lw (S n) p (v, es) = ((v', es ++ new), (p', r)) /\
    pl_peer p' = pl_peer p /\ pl_queue p' = pl_queue p /\ pl_triggers p' = [] /\ pl_state p' = Done /\
    let bs := arrived_prefix (pl_queue p) in
    ((exists r0, new = map (puts (pl_peer p)) bs ++ [CFail (pl_peer p) Done ==> r0] /\ r = r0) \/
     (r <> Ok tt /\ exists pre x post, bs = pre ++ x :: post /\ new = map (puts (pl_peer p)) pre ++ [CPut x (pl_peer p) ==> r])).
Proof.
  intros n p v es S T. rewrite (@loop_one _ lw n p (v, es) _ T).
  rewrite (@fire_one_timeout _ lw (set_triggers p []) (v, es)) by exact S. set (p0 := set_state _ Done).
  unfold handle_failure. change (pl_peer p0) with (pl_peer p). change (pl_queue p0) with (pl_queue p).
  destruct (put_all_log (pl_peer p) (arrived_prefix (pl_queue p)) v es) as (v1 & new & r & -> & A & B). destruct r as [u|e| |]; try destruct u.
  - rewrite (A eq_refl). rewrite log_call. change (pl_state p0) with Done. destruct (w (CFail (pl_peer p) Done) v1) as [v2 r2] eqn:E. cbn beta iota.
    destruct r2 as [u|e| |]; try destruct u; cbn [fails].
    + cbn [pl_triggers app]. rewrite loop_rest by reflexivity. eexists _, _, _, _. split; [rewrite <- app_assoc; reflexivity|].
      repeat (split; [reflexivity|]). left. eexists. split; reflexivity.
    + eexists _, _, _, _. split; [rewrite <- app_assoc; reflexivity|]. repeat (split; [reflexivity|]). left. eexists. split; reflexivity.
    + eexists _, _, _, _. split; [rewrite <- app_assoc; reflexivity|]. repeat (split; [reflexivity|]). left. eexists. split; reflexivity.
    + eexists _, _, _, _. split; [rewrite <- app_assoc; reflexivity|]. repeat (split; [reflexivity|]). left. eexists. split; reflexivity.
  - destruct B as (pre & x & post & Q & ->); [discriminate|]. eexists _, _, _, _. split; [reflexivity|]. repeat (split; [reflexivity|]).
    right. split; [discriminate|]. exists pre, x, post. auto.
  - destruct B as (pre & x & post & Q & ->); [discriminate|]. eexists _, _, _, _. split; [reflexivity|]. repeat (split; [reflexivity|]).
    right. split; [discriminate|]. exists pre, x, post. auto.
  - destruct B as (pre & x & post & Q & ->); [discriminate|]. eexists _, _, _, _. split; [reflexivity|]. repeat (split; [reflexivity|]).
    right. split; [discriminate|]. exists pre, x, post. auto.
Qed.
Lemma fire_tick : forall p v t, (waiting p WaitIDs \/ waiting p WaitBlocks) ->
  if (timeoutDuration <? t - pl_ts p)%Z
  then exists v' new p' r, fire lw (ETick t) p (v, []) = ((v', new), (p', r)) /\
    pl_peer p' = pl_peer p /\ pl_queue p' = pl_queue p /\ pl_triggers p' = [] /\ pl_state p' = Done /\
    let bs := arrived_prefix (pl_queue p) in
    ((exists r0, new = map (puts (pl_peer p)) bs ++ [CFail (pl_peer p) Done ==> r0] /\ r = r0) \/
     (r <> Ok tt /\ exists pre x post, bs = pre ++ x :: post /\ new = map (puts (pl_peer p)) pre ++ [CPut x (pl_peer p) ==> r]))
  else fire lw (ETick t) p (v, []) = ((v, []), (p, Ok tt)).
Proof.
  intros p v t W. assert (T : pl_triggers p = []) by (destruct W as [[_ T]|[_ T]]; exact T).
  assert (E : fire lw (ETick t) p (v, []) = fire_loop lw 7 (set_triggers p (if (timeoutDuration <? t - pl_ts p)%Z then [ETimeout] else [])) (v, [])).
  { rewrite (@fire_rest _ lw _ p _ T). unfold fire_one. destruct W as [[S _]|[S _]]; rewrite S; cbn [behave]; unfold on_tick; now rewrite T. }
  rewrite E. destruct (timeoutDuration <? t - pl_ts p)%Z.
  - match goal with |- context [fire_loop _ _ ?q _] => set (p0 := q) end.
    destruct (@timeout_log 6 p0 v []) as (v' & new & p' & r & E1 & A); [destruct W as [[S _]|[S _]]; [left|right]; exact S|reflexivity|].
    rewrite E1. eexists _, _, _, _. split; [reflexivity|]. exact A.
  - rewrite loop_rest by reflexivity. now rewrite at_rest.
Qed.

(** Events that do nothing. *)
Lemma fire_ignored : forall U (x : world U) t p v, pl_triggers p = [] ->
  match pl_state p, t with
  | Idle, (EIDs _ | EBlock _ | ETick _) | WaitIDs, (EBlock _ | EStart) | WaitBlocks, (EIDs _ | EStart)
  | Done, (EIDs _ | EBlock _ | ETick _ | EStart) => fire x t p v = (v, (p, Ok tt))
  | _, _ => True
  end.
Proof.
  intros U x t p v T. destruct (pl_state p) eqn:S, t; try exact Logic.I; rewrite (@fire_rest _ x _ p v T); unfold fire_one; rewrite S; cbn [behave];
    rewrite T; cbn [app]; rewrite at_rest by exact T; now apply loop_rest.
Qed.
End Fire.
