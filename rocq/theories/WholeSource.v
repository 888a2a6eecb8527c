(** The running process: whose word the linkage takes (C78). *)
From Verif Require Import Base Kv BytesFacts ChainModel ChainSpec ChainTree ChainRep ChainStep ChainQueries ChainProofs PeersModel PeersSpec PeersProofs LoadModel LoadSpec LoadProofs LoadFire LoadSim
  LoadRule LoadReal LoadLift LoadSource NetModel NetSpec NetProofs NetDist WholeModel WholeSpec WholeProofs.
Set Implicit Arguments.
Unset Strict Implicit.

(** * What a history stores *)
Definition made (es : list entry) (o : op) (e : entry) : Prop :=
  match o with
  | Put b a => exists ga, pb_gen b = Some ga /\ e = put_entry b ga
  | Micro m a => e_id e = mi_total m /\ exists r c, chain es (mi_ref m) = r :: c /\ e_parent e = e_parent r /\ e_gen e = e_gen r /\ e_ts e = e_ts r
  | _ => False
  end.
Lemma made_sexec : forall s o f e, In e (st_blocks (fst (sexec s o f))) -> In e (st_blocks s) \/ made (st_blocks s) o e.
Proof.
  intros s o f e Q. unfold sexec in Q. destruct o as [b a|m a|i a|]; cbn [effects made] in *.
  - destruct (chain _ (pb_id b)).
    + destruct (chain _ (pb_parent b)); [destruct f as [[|k]|]; left; exact Q|].
      destruct (pb_gen b) as [ga|]; [|destruct f as [[|k]|]; left; exact Q].
      destruct (_ <? _)%N; [destruct f as [[|k]|]; left; exact Q|].
      destruct f as [[|[|k]]|]; cbn in Q; auto; (destruct Q as [<-|Q]; [right; exists ga; split; reflexivity|left; exact Q]).
    + destruct f as [[|k]|]; left; exact Q.
  - destruct (chain _ (mi_total m)).
    + destruct (chain _ (mi_ref m)) as [|r c] eqn:C; [destruct f as [[|k]|]; left; exact Q|].
      destruct (e_parent r) as [p|] eqn:P; [|destruct f as [[|[|k]]|]; left; exact Q].
      destruct f as [[|[|k]]|]; cbn in Q; auto; (destruct Q as [<-|Q]; [right; split; [reflexivity|]; exists r, c; cbn; auto|left; exact Q]).
    + destruct f as [[|k]|]; left; exact Q.
  - destruct f as [[|k]|]; left; exact Q.
  - destruct f as [[|k]|]; left; exact Q.
Qed.
Lemma made_grows : forall es es' o e, grows es es' -> WF es' -> made es o e -> made es' o e.
Proof.
  intros es es' o e G W M. destruct o as [b a|m a|i a|]; cbn [made] in *; auto. destruct M as (A & r & c & C & M). split; [exact A|]. exists r, c. split; [|exact M].
  rewrite (grows_chain G W); [exact C|]. destruct (stored_dec es (mi_ref m)) as [S|S]; [exact S|]. apply chain_nil in S. congruence.
Qed.
Lemma made_run : forall ops s e, WF (st_blocks (srun s ops)) -> In e (st_blocks (srun s ops)) ->
  In e (st_blocks s) \/ exists o f, In (o, f) ops /\ made (st_blocks (srun s ops)) o e.
Proof.
  induction ops as [|[o f] ops IH]; intros s e W Q; cbn [srun] in *; [auto|]. destruct (IH _ _ W Q) as [H|(o' & f' & A & M)].
  - destruct (made_sexec H) as [H'|M]; [auto|]. right. exists o, f. split; [now left|]. eapply made_grows; [|exact W|exact M]. eapply grows_trans; [apply grows_sexec|apply grows_srun].
  - right. exists o', f'. split; [now right|exact M].
Qed.
Lemma last_success_app : forall a t1 t2 acc, last_success a (t1 ++ t2) acc = last_success a t2 (last_success a t1 acc).
Proof. induction t1 as [|[o r] t1 IH]; intros t2 acc; cbn [app last_success]; auto. Qed.
Lemma trace_app : forall g o1 o2 l, trace g l (o1 ++ o2) = trace g l o1 ++ trace g (run g l o1) o2.
Proof. induction o1 as [|[o f] o1 IH]; intros o2 l; cbn [app trace run]; [reflexivity|]. now rewrite IH. Qed.
Lemma last_success_in : forall a g ops l acc i, last_success a (trace g l ops) acc = Some i -> acc = Some i \/ exists o f, In (o, f) ops /\ target o = Some (a, i).
Proof.
  intros a g. induction ops as [|[o f] ops IH]; intros l acc i H; cbn [trace last_success] in H; [auto|]. destruct (IH _ _ _ H) as [E|(o' & f' & A & T)]; [|right; exists o', f'; split; [now right|exact T]].
  destruct (target o) as [[a' j]|] eqn:T; [|auto]. destruct (snd (exec g l o f)); auto. destruct (addr_eqb a a') eqn:X; [|auto]. apply addr_eqb_eq in X. subst a'. injection E as ->.
  right. exists o, f. split; [now left|exact T].
Qed.
Lemma leash_source : forall g l0 ops more a i, wf_pblock g -> start g = Ok l0 -> wf_hist (ops ++ more) -> wf_addr a -> leash (run g l0 (ops ++ more)) a = Ok i ->
  leash (run g l0 ops) a = Ok i \/ exists o f, In (o, f) more /\ target o = Some (a, i).
Proof.
  intros g l0 ops more a i WG S0 WH WA L. assert (WH0 : wf_hist ops).
  { destruct WH as [A B]. apply Forall_app in A. rewrite app_length in B. split; [apply A|lia]. }
  rewrite (proj1 (@leash_last g l0 (ops ++ more) a WG S0 WH WA)) in L. rewrite (proj1 (@leash_last g l0 ops a WG S0 WH0 WA)).
  rewrite trace_app, last_success_app in L. destruct (last_success a (trace g (run g l0 ops) more) _) as [j|] eqn:E.
  - injection L as ->. destruct (last_success_in E) as [-> |H]; auto.
  - left. assert (N : last_success a (trace g l0 ops) None = None); [|now rewrite N].
    destruct (last_success a (trace g l0 ops) None) as [j|]; [|reflexivity]. exfalso. clear -E. revert E. generalize (trace g (run g l0 ops) more). intros t. revert j.
    induction t as [|[o r] t IH]; intros j E; cbn [last_success] in E; [discriminate|]. destruct (target o) as [[a' k]|]; [destruct r; try destruct (addr_eqb a a')|]; eapply IH; exact E.
Qed.
Lemma block_source : forall g ops more l l' i x, reachable g ops l -> reachable g (ops ++ more) l' -> wf_id i -> block l' i = Ok x ->
  block l i = Ok x \/ exists o f, In (o, f) more /\
    match o with
    | Put b _ => pb_id b = b_id x /\ pb_parent b = b_parent x /\ pb_gen b = Some (b_gen x) /\ Z.of_N (pb_ts b) = b_ts x
    | Micro m _ => mi_total m = b_id x /\ exists y, block l' (mi_ref m) = Ok y /\ b_parent x = b_parent y /\ b_gen x = b_gen y /\ b_ts x = b_ts y
    | _ => False
    end.
Proof.
  intros g ops more l l' i x H H' W B. destruct (reach_view H) as (s & Es & R & _ & _ & SM). destruct (reach_view H') as (s' & Es' & R' & _ & _ & SM').
  destruct (v_block_Ok R' SM' W B) as (e & c & C & T & X). assert (ST : stored (st_blocks s') i).
  { destruct (stored_dec (st_blocks s') i) as [S|S]; [exact S|]. apply chain_nil in S. congruence. }
  destruct (chain_hd ST) as (e' & c' & C' & EI & IE). assert (e' = e) by congruence. subst e'.
  assert (Es2 : s' = srun s more) by now rewrite Es', srun_app, Es.
  assert (WF' := R_wf R'). rewrite Es2 in IE, WF'. destruct (made_run WF' IE) as [O|(o & f & A & M)].
  - left. assert (SO : stored (st_blocks s) i) by (exists e; auto).
    assert (CC : chain (st_blocks s) i = e :: c). { rewrite <- C, Es2. symmetry. apply grows_chain; auto. apply grows_srun. }
    rewrite (v_block R SM CC), T. now subst.
  - right. exists o, f. split; [exact A|]. destruct o as [b a|m a|j a|]; cbn [made] in M; auto.
    + destruct M as (ga & GA & ->). subst x. cbn. auto.
    + destruct M as (E1 & r & c1 & C1 & M1 & M2 & M3). rewrite <- Es2 in C1. split; [subst x; cbn; now rewrite E1|].
      exists (block_of r (r :: c1)). rewrite (v_block R' SM' C1). assert (TR : ts_ok r = true) by (unfold ts_ok in *; now rewrite <- M3). rewrite TR.
      subst x. cbn. rewrite M1, M2, M3. auto.
Qed.

(** * Calls do what messages say *)
Section Source.
Variable cfg : config.
Variable g : pblock.
Variable ord : list group -> list group.
Variable cord : list (addr * conn) -> list (addr * conn).
Variable srt : list Peer -> list Peer.
Notation happens := (happens cfg g).
Notation rw := (real_world cfg g ord cord srt).
Notation mstep := (move_step cfg g cord srt).
Notation others := (others cfg g cord srt).
Notation ww := (whole_world cfg g ord cord srt).
Notation tstep := (turn_step cfg g ord cord srt).
Notation process := (process cfg g ord cord srt).

Variable seen : list arrival.
Variable ops0 : list (op * option nat).
Definition told (a : addr) (P : message -> Prop) : Prop := exists from m, In (AMessage from m) seen /\ ln_addr from = Some a /\ P m.
Definition just (o : op) : Prop :=
  match o with
  | Put b a => told a (fun m => NetSpec.carries m b)
  | Micro mi a => told a (fun m => m = MMicroBlockInv (Some mi))
  | Move i a => told a (fun m => exists ids, (m = MSignatures ids \/ m = MBlockIds ids) /\ In i ids)
  | Reopen => False
  end.
Definition jops (x : real) : Prop := exists more, re_ops x = ops0 ++ more /\ Forall (fun of => just (fst of)) more.
Definition jpack (d : dproc) : Prop :=
  match d with
  | DSending (PIDs a ids) => Forall (fun i => just (Move i a)) ids
  | DSending (PBlock a b) => just (Put b a)
  | _ => True
  end.
Definition jst (v : whole) : Prop := jops (o_real v) /\ jpack (o_dist v).
Lemma jops_more : forall x y m, jops x -> re_ops y = re_ops x ++ m -> Forall (fun of => just (fst of)) m -> jops y.
Proof. intros x y m (n & E & F) M FM. exists (n ++ m). split; [now rewrite M, E, app_assoc|apply Forall_app; auto]. Qed.
Lemma jops_same : forall x y, jops x -> re_ops y = re_ops x -> jops y.
Proof. intros x y J E. apply (jops_more (m := []) J); [now rewrite E, app_nil_r|constructor]. Qed.
Lemma calls_just : forall x a, In a seen -> Forall (fun of => just (fst of)) (flat_map (fun h => match h with HOp o f => [(o, f)] | _ => [] end) (calls_of x a)).
Proof.
  intros x a I. destruct a as [from m|[from h|from|]|]; cbn [calls_of flat_map]; try (destruct (ln_addr from); constructor); try constructor.
  destruct (ln_addr from) as [p|] eqn:A, m as [| l | ids | [b|] | s | [mi|] | [b|] | ids | | | | | | | | | | | | | | n]; cbn [flat_map app]; repeat constructor; cbn [fst just];
    eexists; eexists; (split; [exact I|]); (split; [exact A|]); [now left|reflexivity|now right].
Qed.
Lemma package_just : forall x d a d' ss p, In a seen -> handle cfg g srt cord x d a = (d', ss, Ok p) -> jpack (after_send p).
Proof.
  intros x d a d' ss [p|] I E; [|exact Logic.I]. apply handle_package in E as (from & m & -> & H). destruct p as [ad ids|ad b]; destruct H as [A H]; cbn.
  - apply Forall_forall. intros i Q. exists from, m. eauto.
  - exists from, m. auto.
Qed.
Lemma registered_ops : forall v r o h, re_ops (o_real (registered v r o h)) = re_ops (o_real v).
Proof. intros v r o h. destruct o; cbn; now rewrite ?app_nil_r. Qed.
Lemma registered_just : forall v r o h, jst v -> jst (registered v r o h).
Proof.
  intros v r o h [J P]. destruct (registered_rest v r o h) as (D & _). split; [|now rewrite D]. eapply jops_same; [exact J|]. apply registered_ops.
Qed.
Lemma respawn_just : forall v b ds, jst v -> jst (set_respawn v b ds).
Proof. intros v b ds J. exact J. Qed.
Lemma move_just : forall v m, incl (o_seen (mstep v m)) seen -> jst v -> jst (mstep v m).
Proof.
  intros v m IN J. unfold move_step in *. destruct (o_dead v); [exact J|]. destruct m as [x a|[clock|]|x n|x n up|x [a|]|t].
  - destruct (o_dist v) eqn:D; try exact J. destruct (handle cfg g srt cord x (stores v) a) as [[d ss] [p|e| |]] eqn:E; try exact J.
    assert (IA : In a seen) by (apply IN; cbn; apply in_or_app; right; now left).
    split; [|exact (package_just IA E)]. eapply jops_more; [apply J|reflexivity|]. now apply calls_just.
  - destruct (o_armed v); [|exact J]. destruct (take_available cfg (re_reg (o_real v)) clock) as [r [l|e| |]]; apply respawn_just, registered_just, J.
  - destruct (o_armed v); exact J.
  - destruct (nth_error (o_dials v) n) as [[a|a|a]|]; try exact J. destruct (suggest_version _ _ _ _ _) as [r []]; apply respawn_just, registered_just, J.
  - destruct (nth_error (o_dials v) n) as [[a|a|a]|]; try exact J; [destruct up; [exact J|]|]; unfold hung_up; destruct (unregister_peer _ _ _ _); apply respawn_just, registered_just, J.
  - destruct (suggest_version _ _ _ _ _) as [r o]. apply registered_just, J.
  - exact J.
  - destruct J as [J P]. split; [|exact P]. eapply jops_same; [exact J|]. cbn. now rewrite app_nil_r.
Qed.
Lemma grow_seen : forall v v', grow v v' -> incl (o_seen v') seen -> incl (o_seen v) seen.
Proof. intros v v' [_ [m E]] I. rewrite E in I. intros a Q. apply I. apply in_or_app. now left. Qed.
Lemma others_just : forall ms v, incl (o_seen (others v ms)) seen -> jst v -> jst (others v ms).
Proof.
  induction ms as [|m ms IH]; intros v I J; cbn [WholeModel.others fold_left]; [exact J|]. apply IH; [exact I|]. apply move_just; auto.
  eapply grow_seen; [|exact I]. destruct (others_grow cfg g cord srt ms (mstep v m)) as (A & B & _). split; auto.
Qed.
Definition jb (a : addr) (b : pblock) : Prop := just (Put b a).
Definition ji (a : addr) (i : id) : Prop := just (Move i a).
Lemma meanwhile_ops : forall x hs, re_ops (fold_left happens hs x) = re_ops x ++ hops hs.
Proof.
  intros x hs. revert x. induction hs as [|h hs IH]; intros x; cbn [fold_left hops flat_map]; [now rewrite app_nil_r|]. rewrite IH. cbn [LoadModel.happens re_ops].
  rewrite <- app_assoc. now destruct h.
Qed.
Notation from_peer := (sourced jb ji (fun _ _ => True)).
Lemma call_ops : forall c x, re_env x = [] -> from_peer c x -> jops x -> jops (fst (rw c x)).
Proof.
  intros c x N S J. assert (M : meanwhile cfg g x = x). { unfold meanwhile. rewrite N. cbn [hd tl fold_left]. destruct x. cbn in N |- *. now subst. }
  unfold real_world. rewrite M. destruct c; cbn [fst]; try exact J; unfold writes; destruct (exec g (re_lk x) _ _); (eapply jops_more; [exact J|reflexivity|]); repeat constructor; exact S || exact (proj1 S).
Qed.
(** The environment of the real world stays empty. *)
Definition no_env (v : whole) : Prop := re_env (o_real v) = [].
Lemma move_env : forall v m, re_env (o_real (mstep v m)) = re_env (o_real v).
Proof.
  intros v m. unfold move_step. assert (RE : forall r o h, re_env (o_real (registered v r o h)) = re_env (o_real v)) by (intros r o h; destruct o; reflexivity).
  destruct (o_dead v); [reflexivity|]. destruct m as [x a|[clock|]|x n|x n up|x [a|]|t]; try reflexivity.
  - destruct (o_dist v); try reflexivity. destruct (handle cfg g srt cord x (stores v) a) as [[d ss] [p|e| |]]; reflexivity.
  - destruct (o_armed v); [|reflexivity]. destruct (take_available cfg (re_reg (o_real v)) clock) as [r [l|e| |]]; apply RE.
  - destruct (o_armed v); reflexivity.
  - destruct (nth_error (o_dials v) n) as [[a|a|a]|]; try reflexivity. destruct (suggest_version _ _ _ _ _) as [r []]; apply RE.
  - destruct (nth_error (o_dials v) n) as [[a|a|a]|]; try reflexivity; [destruct up; [reflexivity|]|]; unfold hung_up; destruct (unregister_peer _ _ _ _); apply RE.
  - destruct (suggest_version _ _ _ _ _) as [r o]. apply RE.
Qed.
Lemma others_env : forall ms v, re_env (o_real (others v ms)) = re_env (o_real v).
Proof. induction ms as [|m ms IH]; intros v; cbn [WholeModel.others fold_left]; [reflexivity|]. etransitivity; [apply IH|apply move_env]. Qed.
Definition jrel (v v' : whole) : Prop := grow v v' /\ (no_env v -> no_env v') /\ (no_env v -> incl (o_seen v') seen -> jst v -> jst v').
Lemma jrel_trans : forall v1 v2 v3, jrel v1 v2 -> jrel v2 v3 -> jrel v1 v3.
Proof.
  intros v1 v2 v3 (A & B & C) (D & E & F). split; [eapply grow_trans; eauto|]. split; [auto|]. intros N I J. apply F; auto. apply C; auto. eapply grow_seen; eauto.
Qed.
Lemma call_jrel : forall c v, from_peer c v -> jrel v (fst (ww c v)).
Proof.
  intros c v S. split; [apply call_grow|]. rewrite world_at. cbn [fst]. unfold no_env. cbn [add_call o_real o_dist].
  change (o_real (v_pre cfg g cord srt v)) with (o_real (others v (hd [] (o_todo v)))).
  assert (NE : re_env (o_real v) = [] -> re_env (o_real (others v (hd [] (o_todo v)))) = []) by (intros N; now rewrite others_env). split.
  - intros N. exact (proj2 (proj2 (@call_keeps cfg g ord cord srt c _ (NE N)))).
  - intros N I J. cbn in I. assert (J' : jst (others v (hd [] (o_todo v)))) by (apply others_just; auto). destruct J' as [J1 J2].
    split; [|exact J2]. cbn [add_call o_real]. apply call_ops; auto.
Qed.
Definition lkept (l : loader) : Prop := kept jb l.
Lemma handling_just : forall i l v ms l' v' r, no_env v -> jst v -> lkept l -> gives jb ji i -> handling cfg g ord cord srt i l v ms = ((l', v'), r) ->
  incl (o_seen v') seen -> jst v' /\ lkept l' /\ no_env v'.
Proof.
  intros i l v ms l' v' r N J KL G E I. unfold handling in E.
  pose proof (@step_source _ ww jb ji (fun _ _ => True) (jrel (set_todo v ms)) (fun c v' R S => jrel_trans R (call_jrel S)) (fun _ _ _ _ => Logic.I) (fun _ _ _ _ _ => Logic.I) i l (set_todo v ms)) as K.
  assert (R0 : jrel (set_todo v ms) (set_todo v ms)) by (split; [apply grow_refl|auto]). specialize (K R0 KL G).
  destruct (loader_step ww i l (set_todo v ms)) as [[l1 v1] r1]. destruct K as [(GR & NE & JJ) K2]. injection E as <- <- <-.
  split; [exact (JJ N I J)|]. split; [exact K2|exact (NE N)].
Qed.
Lemma turn_just : forall t l v l' v' r, no_env v -> jst v -> lkept l -> tstep l v t = ((l', v'), r) -> incl (o_seen v') seen -> jst v' /\ lkept l' /\ no_env v'.
Proof.
  intros [m|ms|ms|ms] l v l' v' r N J KL E I; cbn [turn_step] in E.
  - injection E as <- <- <-. split; [now apply move_just|]. split; [exact KL|]. unfold no_env. now rewrite move_env.
  - destruct (l_timer l); [|injection E as <- <- <-; auto]. eapply handling_just; try exact E; auto. exact Logic.I.
  - destruct (l_ticker l); [|injection E as <- <- <-; auto]. eapply handling_just; try exact E; auto. exact Logic.I.
  - destruct (o_dist v) as [|p|] eqn:D; try (injection E as <- <- <-; auto). eapply handling_just; try exact E; auto.
    + split; [apply J|exact Logic.I].
    + destruct J as [_ P]. rewrite D in P. destruct p as [a ids|a b]; exact P.
Qed.
Lemma process_just : forall ts l v l' v' r, no_env v -> jst v -> lkept l -> process l v ts = ((l', v'), r) -> incl (o_seen v') seen -> jst v' /\ lkept l' /\ no_env v'.
Proof.
  induction ts as [|t ts IH]; intros l v l' v' r N J KL E I; cbn [WholeModel.process] in E; [injection E as <- <- <-; auto|].
  destruct (tstep l v t) as [[l1 v1] r1] eqn:T.
  assert (G1 : grow v1 v').
  { destruct r1; [destruct (o_dead v1)|destruct (o_dead v1)| |]; try (injection E as <- <- <-; apply grow_refl); eapply process_grow; eauto. }
  destruct (turn_just N J KL T (grow_seen G1 I)) as (J1 & K1 & N1).
  destruct r1; [destruct (o_dead v1)|destruct (o_dead v1)| |]; try (injection E as <- <- <-; auto); eapply IH; eauto.
Qed.
End Source.

(** * Every state is reachable, however the process ends *)
Section History.
Variable cfg : config.
Variable g : pblock.
Variable ord : list group -> list group.
Variable cord : list (addr * conn) -> list (addr * conn).
Variable srt : list Peer -> list Peer.
Notation mstep := (move_step cfg g cord srt).
Notation others := (others cfg g cord srt).
Notation ww := (whole_world cfg g ord cord srt).
Notation tstep := (turn_step cfg g ord cord srt).
Notation process := (process cfg g ord cord srt).
Definition wf_seen (v : whole) : Prop := Forall (fun a => wf_arrival a /\ wf_ids a) (o_seen v).
Definition past (v : whole) : Prop := fit v /\ history cfg g (o_real v) /\ wf_seen v.
Lemma move_seen : forall v m, wf_move m -> wf_seen v -> wf_seen (mstep v m).
Proof.
  intros v m W H. unfold move_step. assert (RE : forall r o h b ds, wf_seen (set_respawn (registered v r o h) b ds)).
  { intros r o h b ds. unfold wf_seen. cbn [set_respawn o_seen]. destruct (registered_rest v r o h) as (_ & _ & _ & _ & -> & _). exact H. }
  assert (SE : forall a, wf_arrival a /\ wf_ids a -> Forall (fun a => wf_arrival a /\ wf_ids a) (o_seen v ++ [a])) by (intros a WA; apply Forall_app; auto).
  destruct (o_dead v); [exact H|]. destruct m as [x a|[clock|]|x n|x n up|x [a|]|t]; try exact H.
  - destruct (o_dist v); try exact H. destruct (handle cfg g srt cord x (stores v) a) as [[d ss] [p|e| |]]; try exact H; exact (SE a W).
  - destruct (o_armed v); [|exact H]. destruct (take_available cfg (re_reg (o_real v)) clock) as [r [l|e| |]]; apply RE.
  - destruct (o_armed v); exact H.
  - destruct (nth_error (o_dials v) n) as [[a|a|a]|]; try exact H. destruct (suggest_version _ _ _ _ _) as [r []]; apply RE.
  - destruct (nth_error (o_dials v) n) as [[a|a|a]|]; try exact H; [destruct up; [exact H|]|]; unfold hung_up; destruct (unregister_peer _ _ _ _); apply RE.
  - destruct (suggest_version _ _ _ _ _) as [r o]. exact (RE r (ignored o) _ (o_armed v) (o_dials v)).
Qed.
Lemma move_past : forall v m, wf_move m -> past v -> past (mstep v m).
Proof.
  intros v m W ([RI SH] & H & S). split; [now apply move_shape|]. split; [|now apply move_seen].
  destruct (@move_effect cfg g cord srt v m RI SH W) as (hs & WH & ->). now apply happens_history.
Qed.
Lemma others_past : forall ms v, Forall wf_move ms -> past v -> past (others v ms).
Proof. induction ms as [|m ms IH]; intros v W P; cbn [WholeModel.others fold_left]; [exact P|]. apply IH; [now apply Forall_inv_tail in W|]. apply move_past; [now apply Forall_inv in W|exact P]. Qed.
Lemma call_past : forall c v, past v -> past (fst (ww c v)).
Proof.
  intros c v P. destruct (todo_hd (proj2 (proj1 P))) as [T1 T2]. split; [apply call_fit, P|]. rewrite world_at. cbn [fst].
  pose proof (others_past T1 P) as ([RI SH] & H & S). split; [|exact S]. cbn [add_call o_real]. apply call_history; [apply SH|exact H].
Qed.
Lemma todo_past : forall v t, past v -> Forall (Forall wf_move) t -> past (set_todo v t).
Proof. intros v t ([RI [A B C D]] & H & S) W. split; [|split; [exact H|exact S]]. split; [exact RI|]. constructor; auto. Qed.
Lemma handling_past : forall i l v ms l' v' r, past v -> Forall (Forall wf_move) ms -> handling cfg g ord cord srt i l v ms = ((l', v'), r) -> past v'.
Proof.
  intros i l v ms l' v' r P W E. unfold handling in E.
  pose proof (@step_all _ ww (fun x y => past x -> past y) (fun _ H => H) (fun _ _ _ H K Q => K (H Q)) call_past i l (set_todo v ms) (todo_past P W)) as K.
  destruct (loader_step ww i l (set_todo v ms)) as [[l1 v1] r1]. injection E as <- <- <-. apply todo_past; [exact K|constructor].
Qed.
Lemma turn_past : forall t l v l' v' r, past v -> wf_turn t -> tstep l v t = ((l', v'), r) -> past v'.
Proof.
  intros [m|ms|ms|ms] l v l' v' r P W E; unfold wf_turn in W; cbn [turn_step moves_in] in *.
  - injection E as <- <- <-. apply move_past; [now apply Forall_inv in W|exact P].
  - destruct (l_timer l); [exact (handling_past P (todo_turn W) E)|injection E as <- <- <-; exact P].
  - destruct (l_ticker l); [exact (handling_past P (todo_turn W) E)|injection E as <- <- <-; exact P].
  - destruct (o_dist v) as [|p|]; try (injection E as <- <- <-; exact P). refine (handling_past _ (todo_turn W) E).
    destruct P as ([RI [A B C D]] & H & S). split; [|split; [exact H|exact S]]. split; [exact RI|]. constructor; auto. exact Logic.I.
Qed.
Lemma process_past : forall ts l v l' v' r, past v -> Forall wf_turn ts -> process l v ts = ((l', v'), r) -> past v'.
Proof.
  induction ts as [|t ts IH]; intros l v l' v' r P W E; cbn [WholeModel.process] in E; [injection E as <- <- <-; exact P|].
  destruct (tstep l v t) as [[l1 v1] r1] eqn:T. pose proof (turn_past P (Forall_inv W) T) as P1. apply Forall_inv_tail in W.
  destruct r1; [destruct (o_dead v1)|destruct (o_dead v1)| |]; try (injection E as <- <- <-; exact P1); eapply IH; eauto.
Qed.

Variable x0 : real.
Hypothesis X0 : initial cfg g x0.
Lemma begun_past : past (begun x0).
Proof.
  destruct X0 as (S0 & M0 & N). assert (RI := real_reg S0). destruct S0 as (A & B & C & D & E & F). split; [|split].
  - split; [exact RI|]. constructor; cbn; auto.
  - repeat split; auto.
  - constructor.
Qed.
(** What is known of the stores at any moment of a run; the lemmas below only use this. *)
Definition ran (v : whole) : Prop := jst (o_seen v) (re_ops x0) v /\ past v.
Lemma process_ran : forall ts l v r, Forall wf_turn ts -> process new_loader (begun x0) ts = ((l, v), r) -> ran v /\ lkept (o_seen v) l /\ no_env v.
Proof.
  intros ts l v r W E. assert (N : no_env (begun x0)) by apply X0.
  assert (J : jst (o_seen v) (re_ops x0) (begun x0)). { split; [|exact Logic.I]. exists []. split; [cbn; now rewrite app_nil_r|constructor]. }
  assert (K : lkept (o_seen v) new_loader) by (intros p B; discriminate).
  destruct (process_just N J K E (incl_refl _)) as (A & B & C). split; [|auto]. split; [exact A|]. exact (process_past begun_past W E).
Qed.
(** C78 *)
Lemma jst_justified : forall v, jst (o_seen v) (re_ops x0) v -> exists more, re_ops (o_real v) = re_ops x0 ++ more /\ Forall (fun of => justified v (fst of)) more.
Proof.
  intros v [(more & M & F) _]. exists more. split; [exact M|]. eapply Forall_impl; [|exact F]. intros [o f]. destruct o; exact (fun H => H).
Qed.
Lemma ops_justified : forall ts l v r, process new_loader (begun x0) ts = ((l, v), r) ->
  exists more, re_ops (o_real v) = re_ops x0 ++ more /\ Forall (fun of => justified v (fst of)) more.
Proof.
  intros ts l v r E. assert (N : no_env (begun x0)) by apply X0.
  assert (J : jst (o_seen v) (re_ops x0) (begun x0)). { split; [|exact Logic.I]. exists []. split; [cbn; now rewrite app_nil_r|constructor]. }
  assert (K : lkept (o_seen v) new_loader) by (intros p B; discriminate). apply jst_justified. apply (process_just N J K E (incl_refl _)).
Qed.
Lemma told_wf : forall v a P, wf_seen v -> told_by v a P -> exists m, P m /\ wf_message m /\ wf_addr a /\ match m with MSignatures ids | MBlockIds ids => Forall wf_id ids | _ => True end.
Proof.
  intros v a P W (from & m & I & A & H). pose proof (proj1 (Forall_forall _ _) W _ I) as [[WL WM] WI]. exists m. split; [exact H|]. split; [exact WM|]. unfold wf_link in WL. rewrite A in WL.
  split; [exact WL|]. destruct m; auto.
Qed.
Lemma justified_wf : forall v o, wf_seen v -> justified v o -> wf_op o.
Proof.
  intros v o W J. destruct o as [b a|mi a|i a|]; cbn [justified wf_op] in *; try destruct (told_wf W J) as (m & H & WM & WA & WI).
  - destruct H as [-> | ->]; auto.
  - subst m. destruct WM. auto.
  - destruct H as (ids & [-> | ->] & Q); (split; [|exact WA]); exact (proj1 (Forall_forall _ _) WI i Q).
  - exact Logic.I.
Qed.
Lemma ran_reach : forall v, ran v -> short (o_real v) -> dreach cfg g (re_ops (o_real v)) (re_rops (o_real v)) (stores v).
Proof.
  intros v [J (_ & H & WS)] SH. destruct (jst_justified J) as (more & M & F).
  apply history_reach; auto; [apply X0|]. unfold wf_history. rewrite M. apply Forall_app. split; [apply X0|]. eapply Forall_impl; [|exact F]. intros of. now apply justified_wf.
Qed.
Lemma ran_leash : forall v a i, ran v -> short (o_real v) -> wf_addr a ->
  leash (re_lk (o_real v)) a = Ok i -> leash (re_lk x0) a = Ok i \/ said v a i.
Proof.
  intros v a i E SH WA L. destruct (ran_reach E SH) as [(WG & WH & l0 & S0 & RL) _]. cbn [stores d_lk] in RL. destruct (jst_justified (proj1 E)) as (more & M & F).
  rewrite M in *. rewrite RL in L. destruct (leash_source WG S0 WH WA L) as [L0|(o & f & I & T)].
  - left. destruct X0 as ((_ & (l1 & S1 & ->) & _) & _). congruence.
  - right. pose proof (proj1 (Forall_forall _ _) F _ I) as J. cbn [fst] in J. destruct o as [b a'|mi a'|j a'|]; cbn [target justified] in *; try discriminate; injection T as -> <-;
      destruct J as (from & m & IN & A & H); exists from, m; (split; [exact IN|]); (split; [exact A|]).
    + destruct H as [-> | ->]; reflexivity.
    + subst m. reflexivity.
    + destruct H as (ids & [-> | ->] & Q); exact Q.
Qed.
Lemma ran_block : forall v i b, ran v -> short (o_real v) -> wf_id i ->
  block (re_lk (o_real v)) i = Ok b -> block (re_lk x0) i = Ok b \/ vouched v b.
Proof.
  intros v i b E SH WI B. destruct (ran_reach E SH) as [R' _]. cbn [stores d_lk] in R'. destruct (jst_justified (proj1 E)) as (more & M & F).
  assert (SH0 : short x0) by (unfold short in *; rewrite M, app_length in SH; lia).
  assert (R0 : reachable g (re_ops x0) (re_lk x0)) by (eapply real_reach; [apply X0|exact SH0]). rewrite M in R'.
  destruct (block_source R0 R' WI B) as [B0|(o & f & I & H)]; [auto|right]. pose proof (proj1 (Forall_forall _ _) F _ I) as J. cbn [fst] in J.
  destruct o as [p a|mi a|j a|]; try destruct H; cbn [justified] in J; [left|right].
  - exists a, p. tauto.
  - destruct H0 as (y & H0). exists a, mi, y. tauto.
Qed.

(** MoveLeash is only called with stored blocks, in every run. *)
Section Moves.
Variable fin : list (op * option nat).
Hypothesis WF : wf_hist fin.
Definition pre (v : whole) : Prop := exists more, fin = re_ops (o_real v) ++ more.
Lemma pre_grow : forall v v', grow v v' -> pre v' -> pre v.
Proof. intros v v' [[m E] _] [n F]. exists (m ++ n). now rewrite F, E, <- app_assoc. Qed.
Lemma pre_reach : forall v, past v -> pre v -> reachable g (re_ops (o_real v)) (re_lk (o_real v)).
Proof.
  intros v (_ & ((l0 & S0 & E) & _) & _) [more F]. split; [apply X0|]. split; [|eauto]. destruct WF as [A B]. rewrite F in A, B. apply Forall_app in A. rewrite app_length in B. split; [apply A|lia].
Qed.
Lemma has_grows : forall ops l more l' i, reachable g ops l -> reachable g (ops ++ more) l' -> wf_id i -> lk_has_block l i = Ok true -> lk_has_block l' i = Ok true.
Proof.
  intros ops l more l' i H H' W B. destruct (reach_view H) as (s & Es & R & _ & _ & SM). destruct (reach_view H') as (s' & Es' & R' & _ & _ & SM').
  apply (v_has_true R' SM' W). apply (v_has_true R SM W) in B. rewrite Es', srun_app, <- Es. exact (grows_stored (grows_srun more s) B).
Qed.
Definition minds (v : whole) : Prop := past v /\ (pre v -> moved_well g (o_real v)).
Definition seen_true (v : whole) (i : id) : Prop := pre v -> wf_id i -> lk_has_block (re_lk (o_real v)) i = Ok true.
Lemma no_moves : forall hs l, Forall wf_happening hs -> good_moves g l (hops hs).
Proof.
  induction hs as [|h hs IH]; intros l W; [exact Logic.I|]. pose proof (Forall_inv W) as W1. apply Forall_inv_tail in W. destruct h as [o f|o|t]; cbn [hops flat_map app]; [|now apply IH..].
  cbn [good_moves]. split; [|now apply IH]. destruct o; try exact Logic.I. exfalso. exact (proj2 W1 _ _ eq_refl).
Qed.
Lemma move_minds : forall v m, wf_move m -> minds v -> minds (mstep v m).
Proof.
  intros v m W [P M]. split; [now apply move_past|]. intros PR. destruct P as ([RI SH] & H & S).
  assert (P0 : pre v) by (eapply pre_grow; [|exact PR]; destruct (move_grow cfg g cord srt v m) as [A _]; exact A).
  destruct (@move_effect cfg g cord srt v m RI SH W) as (hs & WH & ->). intros l0 S0. rewrite meanwhile_ops. apply good_moves_app. split; [exact (M P0 l0 S0)|now apply no_moves].
Qed.
Lemma others_minds : forall ms v, Forall wf_move ms -> minds v -> minds (others v ms).
Proof. induction ms as [|m ms IH]; intros v W P; cbn [WholeModel.others fold_left]; [exact P|]. apply IH; [now apply Forall_inv_tail in W|]. apply move_minds; [now apply Forall_inv in W|exact P]. Qed.
Lemma others_seen_true : forall ms v i, Forall wf_move ms -> past v -> seen_true v i -> seen_true (others v ms) i.
Proof.
  intros ms v i W P S PR WI. destruct (others_grow cfg g cord srt ms v) as (A & B & _). assert (P0 : pre v) by (eapply pre_grow; [|exact PR]; split; auto).
  destruct A as [more E]. pose proof (pre_reach (others_past W P) PR) as R'. rewrite E in R'. exact (has_grows (pre_reach P P0) R' WI (S P0 WI)).
Qed.
Lemma call_minds : forall c v, minds v -> sourced (fun _ _ => True) (fun _ _ => True) seen_true c v -> minds (fst (ww c v)).
Proof.
  intros c v [P M] S. split; [now apply call_past|]. intros PR. destruct (todo_hd (proj2 (proj1 P))) as [T1 T2].
  pose proof (others_minds T1 (conj P M)) as [P1 M1]. set (v1 := others v (hd [] (o_todo v))) in *.
  assert (N : re_env (o_real v1) = []) by (unfold v1; rewrite others_env; apply (sh_env (proj2 (proj1 P)))).
  assert (X : o_real (fst (ww c v)) = fst (real_world cfg g ord cord srt c (o_real v1))) by (rewrite world_at; reflexivity).
  assert (PR1 : pre v1).
  { destruct PR as [more F]. rewrite X in F. assert (L : later (o_real v1) (fst (real_world cfg g ord cord srt c (o_real v1)))).
    { pose proof (@later_all cfg g ord cord srt c (o_real v1, [])) as L. rewrite log_call in L. cbn [fst] in L. destruct (real_world _ _ _ _ _ c (o_real v1)) as [y r]. exact L. }
    destruct L as [m E]. rewrite E in F. exists (m ++ more). now rewrite F, <- app_assoc. }
  specialize (M1 PR1).
  assert (ME : meanwhile cfg g (o_real v1) = o_real v1). { unfold meanwhile. rewrite N. cbn [hd tl fold_left]. destruct (o_real v1). cbn in N |- *. now subst. }
  destruct PR as [more F]. rewrite X in F |- *. clear X. unfold moved_well, real_world in *. rewrite ME in *. intros l0 S0.
  destruct c; cbn [fst] in *; try exact (M1 l0 S0).
  all: unfold writes in *; destruct (exec g (re_lk (o_real v1)) _ _) as [lk r]; cbn [fst re_ops] in *; apply good_moves_app; (split; [exact (M1 l0 S0)|]); cbn [good_moves]; (split; [|exact Logic.I]); try exact Logic.I.
  destruct S as [_ S]. destruct P1 as (F1 & ((l1 & S1 & E1) & H1) & W1). assert (l1 = l0) by congruence. subst l1. rewrite <- E1.
  apply (others_seen_true T1 P S PR1). destruct WF as [A _]. rewrite F in A. apply Forall_app in A as [A _]. apply Forall_app in A as [_ A]. apply Forall_inv in A. exact (proj1 A).
Qed.
Lemma at_once : forall c v, (match c with CHas _ | CLeash _ => True | _ => False end) -> o_real (fst (ww c v)) = meanwhile cfg g (o_real (others v (hd [] (o_todo v)))).
Proof. intros c v H. rewrite world_at. cbn [fst add_call o_real]. destruct c; try destruct H; reflexivity. Qed.
Lemma found_true : forall i v, minds v -> snd (ww (CHas i) v) = Ok true -> seen_true (fst (ww (CHas i) v)) i.
Proof. intros i v _ H _ _. rewrite at_once by exact Logic.I. rewrite world_at in H. exact H. Qed.
Lemma still_true : forall a i v, minds v -> seen_true v i -> seen_true (fst (ww (CLeash a) v)) i.
Proof.
  intros a i v [P _] S PR WI. destruct (todo_hd (proj2 (proj1 P))) as [T1 _]. set (v1 := others v (hd [] (o_todo v))) in *.
  assert (N : re_env (o_real v1) = []) by (unfold v1; rewrite others_env; apply (sh_env (proj2 (proj1 P)))).
  assert (ME : meanwhile cfg g (o_real v1) = o_real v1). { unfold meanwhile. rewrite N. cbn [hd tl fold_left]. destruct (o_real v1). cbn in N |- *. now subst. }
  pose proof (@at_once (CLeash a) v Logic.I) as X. fold v1 in X. rewrite ME in X. destruct PR as [more F]. rewrite X in *. apply (others_seen_true T1 P S); [|exact WI]. exists more. exact F.
Qed.
Lemma todo_minds : forall v t, minds v -> Forall (Forall wf_move) t -> minds (set_todo v t).
Proof. intros v t [P M] W. split; [now apply todo_past|exact M]. Qed.
Definition rested (l : loader) : Prop := kept (fun _ _ => True) l.
Lemma handling_minds : forall i l v ms l' v' r, minds v -> rested l -> Forall (Forall wf_move) ms -> handling cfg g ord cord srt i l v ms = ((l', v'), r) -> minds v' /\ rested l'.
Proof.
  intros i l v ms l' v' r M KL W E. unfold handling in E.
  assert (G : gives (fun _ _ => True) (fun _ _ => True) i) by (destruct i as [a ids|a [b|]| |]; cbn; auto; apply Forall_forall; auto).
  pose proof (@step_source _ ww (fun _ _ => True) (fun _ _ => True) seen_true minds call_minds found_true still_true i l (set_todo v ms) (todo_minds M W) KL G) as K.
  destruct (loader_step ww i l (set_todo v ms)) as [[l1 v1] r1]. destruct K as [K1 K2]. injection E as <- <- <-. split; [|exact K2]. apply todo_minds; [exact K1|constructor].
Qed.
Lemma turn_minds : forall t l v l' v' r, minds v -> rested l -> wf_turn t -> tstep l v t = ((l', v'), r) -> minds v' /\ rested l'.
Proof.
  intros [m|ms|ms|ms] l v l' v' r M KL W E; unfold wf_turn in W; cbn [turn_step moves_in] in *.
  - injection E as <- <- <-. split; [apply move_minds; [now apply Forall_inv in W|exact M]|exact KL].
  - destruct (l_timer l); [exact (handling_minds M KL (todo_turn W) E)|injection E as <- <- <-; auto].
  - destruct (l_ticker l); [exact (handling_minds M KL (todo_turn W) E)|injection E as <- <- <-; auto].
  - destruct (o_dist v) as [|p|]; try (injection E as <- <- <-; now auto). refine (handling_minds _ KL (todo_turn W) E).
    destruct M as [([RI [A B C D]] & H & S) M]. split; [|exact M]. split; [|split; [exact H|exact S]]. split; [exact RI|]. constructor; auto. exact Logic.I.
Qed.
Lemma process_minds : forall ts l v l' v' r, minds v -> rested l -> Forall wf_turn ts -> process l v ts = ((l', v'), r) -> minds v' /\ rested l'.
Proof.
  induction ts as [|t ts IH]; intros l v l' v' r M KL W E; cbn [WholeModel.process] in E; [injection E as <- <- <-; auto|].
  destruct (tstep l v t) as [[l1 v1] r1] eqn:T. destruct (turn_minds M KL (Forall_inv W) T) as [M1 K1]. apply Forall_inv_tail in W.
  destruct r1; [destruct (o_dead v1)|destruct (o_dead v1)| |]; try (injection E as <- <- <-; auto); eapply IH; eauto.
Qed.
End Moves.
Lemma ran_well : forall v, ran v -> short (o_real v) -> minds (re_ops (o_real v)) v -> initial cfg g (o_real v).
Proof.
  intros v E SH M. destruct (ran_reach E SH) as [(WG & WH & l0 & S0 & RL) [WR RR]]. cbn [stores d_lk d_reg] in *.
  destruct M as [((RI & SHP) & H & S) M]. split; [|split; [apply M; exists []; now rewrite app_nil_r|apply (sh_env SHP)]].
  split; [exact WG|]. split; [eauto|]. split; [apply WH|]. split; [exact WR|]. split; [exact RR|]. rewrite (sh_env SHP). constructor.
Qed.
Lemma always_reach : forall ts l v r, Forall wf_turn ts -> process new_loader (begun x0) ts = ((l, v), r) -> short (o_real v) ->
  dreach cfg g (re_ops (o_real v)) (re_rops (o_real v)) (stores v).
Proof. intros ts l v r W E. apply ran_reach. apply (process_ran W E). Qed.
Lemma leash_said : forall ts l v r a i, Forall wf_turn ts -> process new_loader (begun x0) ts = ((l, v), r) -> short (o_real v) -> wf_addr a ->
  leash (re_lk (o_real v)) a = Ok i -> leash (re_lk x0) a = Ok i \/ said v a i.
Proof. intros ts l v r a i W E. apply ran_leash. apply (process_ran W E). Qed.
Lemma block_vouched : forall ts l v r i b, Forall wf_turn ts -> process new_loader (begun x0) ts = ((l, v), r) -> short (o_real v) -> wf_id i ->
  block (re_lk (o_real v)) i = Ok b -> block (re_lk x0) i = Ok b \/ vouched v b.
Proof. intros ts l v r i b W E. apply ran_block. apply (process_ran W E). Qed.
Lemma process_well : forall ts l v r fin, wf_hist fin -> Forall wf_turn ts -> process new_loader (begun x0) ts = ((l, v), r) -> minds fin v /\ rested l.
Proof.
  intros ts l v r fin WH W E. assert (KN : rested new_loader) by (intros p B; discriminate). refine (process_minds WH _ KN W E). split; [apply begun_past|]. intros _. apply X0.
Qed.
Lemma always_well : forall ts l v r, Forall wf_turn ts -> process new_loader (begun x0) ts = ((l, v), r) -> short (o_real v) -> initial cfg g (o_real v).
Proof.
  intros ts l v r W E SH. apply ran_well; [apply (process_ran W E)|exact SH|]. eapply process_well; try exact E; [|exact W]. apply (proj1 (always_reach W E SH)).
Qed.
End History.
