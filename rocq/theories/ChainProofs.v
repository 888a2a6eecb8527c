(** Lemmas behind the theorems of ChainProps.v about single calls and histories. *)
From Verif Require Import Base Kv BytesFacts KvFacts ChainModel ChainSpec ChainTree ChainRep ChainStep ChainQueries ChainLca.
Set Implicit Arguments.
Unset Strict Implicit.

Lemma addr_eqb_eq : forall a b, addr_eqb a b = true <-> a = b.
Proof. intros a b. destruct (addr_eqb_spec a b); split; intros; auto; discriminate. Qed.

Lemma with_db_same : forall l, with_db l (lk_db l) = l.
Proof. now intros []. Qed.

(** * What a linkage shows of the specification state it represents *)

Section View.
  Variables (l : linkage) (s : state).
  Hypothesis R : Rep (lk_db l) s.
  Hypothesis SM : small (st_blocks s).
  Notation es := (st_blocks s).

  Lemma v_has : forall i, wf_id i -> lk_has_block l i = Ok (if stored_dec es i then true else false).
  Proof. intros i W. apply (rep_has_block R SM W). Qed.
  Lemma v_has_true : forall i, wf_id i -> (lk_has_block l i = Ok true <-> stored es i).
  Proof. intros i W. rewrite (v_has W). destruct (stored_dec es i); split; intros; auto; try contradiction; discriminate. Qed.
  Lemma v_has_false : forall i, wf_id i -> (lk_has_block l i = Ok false <-> ~ stored es i).
  Proof.
    intros i W. rewrite (v_has W).
    destruct (stored_dec es i); split; intros; auto; try contradiction; discriminate.
  Qed.
  Lemma v_block : forall i e c, chain es i = e :: c -> block l i = if ts_ok e then Ok (block_of e (e :: c)) else Panic.
  Proof. intros. eapply q_block; eauto. Qed.
  Lemma v_block_none : forall i, wf_id i -> ~ stored es i -> block l i = Err ENotFound.
  Proof. intros. eapply q_block_none; eauto. Qed.
  Lemma v_block_Ok : forall i b, wf_id i -> block l i = Ok b ->
    exists e c, chain es i = e :: c /\ ts_ok e = true /\ b = block_of e (e :: c).
  Proof.
    intros i b W H. destruct (stored_dec es i) as [S|S].
    - destruct (chain_hd S) as (e & c & C & _). rewrite (v_block C) in H. exists e, c. destruct (ts_ok e); [|discriminate].
      split; auto. split; auto. congruence.
    - rewrite (v_block_none W S) in H. discriminate.
  Qed.
  Lemma v_leash : forall a, wf_addr a -> leash l a = Ok (match st_leash s a with Some i => i | None => lk_genesis l end).
  Proof. intros a W. unfold leash. rewrite (rep_leash R _ W). now destruct (st_leash s a). Qed.
  Lemma v_has_leash : forall a, wf_addr a -> has_leash l a = Ok (match st_leash s a with Some i => true | None => false end).
  Proof. intros a W. unfold has_leash. rewrite (rep_leash R _ W). now destruct (st_leash s a). Qed.
  Lemma v_heads : lk_heads l = Ok (number 1 (sheads es)).
  Proof. apply (q_heads R SM). Qed.
End View.

(** Two linkages with the same stored blocks show the same blocks. *)
Lemma v_same_blocks : forall l l' s s', Rep (lk_db l) s -> Rep (lk_db l') s' -> small (st_blocks s) ->
  st_blocks s = st_blocks s' -> forall i, wf_id i -> block l' i = block l i.
Proof.
  intros l l' s s' R R' SM E i W. assert (SM' : small (st_blocks s')) by now rewrite <- E.
  destruct (stored_dec (st_blocks s) i) as [S|S].
  - destruct (chain_hd S) as (e & c & C & _). rewrite (v_block R SM C). rewrite E in C. now rewrite (v_block R' SM' C).
  - rewrite (v_block_none R W S). rewrite E in S. now rewrite (v_block_none R' W S).
Qed.

(** * Histories *)

Lemma srun_app : forall o1 o2 s, srun s (o1 ++ o2) = srun (srun s o1) o2.
Proof. induction o1 as [|[o f] o1 IH]; intros; cbn [app srun]; auto. Qed.
Lemma run_app : forall g o1 o2 l, run g l (o1 ++ o2) = run g (run g l o1) o2.
Proof. induction o1 as [|[o f] o1 IH]; intros; cbn [app run]; auto. Qed.

Lemma reach_view : forall g ops l, reachable g ops l -> exists s, s = srun (sstart g) ops /\
  Rep (lk_db l) s /\ lk_genesis l = pb_id g /\ (N.of_nat (length (st_blocks s)) < 2 ^ 32 - 8)%N /\ small (st_blocks s).
Proof.
  intros g ops l H. destruct (reach_rep H) as (A & B & C). eexists. split; [reflexivity|].
  split; [exact A|]. split; [exact B|]. split; [exact C|]. unfold small. lia.
Qed.

(** One more fault-free call. *)
Lemma step_view : forall g l s o f, Rep (lk_db l) s -> (N.of_nat (length (st_blocks s)) < 2 ^ 32 - 8)%N -> wf_op o ->
  Rep (lk_db (fst (exec g l o f))) (fst (sexec s o f)) /\ snd (exec g l o f) = snd (sexec s o f) /\
  lk_genesis (fst (exec g l o f)) = lk_genesis l /\ small (st_blocks (fst (sexec s o f))).
Proof.
  intros g l s o f R B W. assert (SM : small (st_blocks s)) by (unfold small; lia).
  destruct (exec_refines g f R SM W) as (A & C & D). split; [exact A|]. split; [exact C|]. split; [exact D|].
  pose proof (sexec_length s o f). unfold small. lia.
Qed.

(** ** Stored blocks stay, unchanged. *)
Inductive grows : list entry -> list entry -> Prop :=
| grows_refl : forall es, grows es es
| grows_add : forall es es' e, grows es es' -> grows es (e :: es').
Lemma grows_trans : forall a b c, grows a b -> grows b c -> grows a c.
Proof. intros a b c A B. revert A. induction B; intros; auto. constructor. auto. Qed.

Lemma grows_effects : forall s o k, grows (st_blocks s) (st_blocks (apply_effects s (firstn k (fst (effects s o))))).
Proof.
  intros s o k.
  assert (Q0 : grows (st_blocks s) (st_blocks (apply_effects s (firstn k [])))) by (destruct k; constructor).
  assert (Q1 : forall a i, grows (st_blocks s) (st_blocks (apply_effects s (firstn k [st_set_leash a i]))))
    by (intros; destruct k as [|[|k]]; cbn; constructor).
  assert (Q2 : forall e a i, grows (st_blocks s) (st_blocks (apply_effects s (firstn k [st_add e; st_set_leash a i]))))
    by (intros; destruct k as [|[|[|k]]]; cbn; repeat constructor).
  destruct o as [b a|m a|i a|]; cbn [effects].
  - destruct (chain _ (pb_id b)); [|apply Q1]. destruct (chain _ (pb_parent b)); [apply Q0|].
    destruct (pb_gen b); [|apply Q0]. destruct (_ <? _)%N; [apply Q0|apply Q2].
  - destruct (chain _ (mi_total m)); [|apply Q1]. destruct (chain _ (mi_ref m)) as [|r ?]; [apply Q0|].
    destruct (e_parent r); [apply Q2|apply Q0].
  - apply Q1.
  - apply Q0.
Qed.
Lemma grows_sexec : forall s o f, grows (st_blocks s) (st_blocks (fst (sexec s o f))).
Proof.
  intros s o f. unfold sexec. assert (Q := grows_effects s o). destruct (effects s o) as [fs r]. cbn [fst] in Q.
  destruct f as [k|]; [destruct (Nat.ltb k (length fs))|]; cbn [fst]; auto; rewrite <- (firstn_all fs); auto.
Qed.
Lemma grows_srun : forall ops s, grows (st_blocks s) (st_blocks (srun s ops)).
Proof.
  induction ops as [|[o f] ops IH]; intros s; cbn [srun]; [constructor|].
  eapply grows_trans; [apply (grows_sexec s o f)|apply IH].
Qed.
Lemma grows_stored : forall a b i, grows a b -> stored a i -> stored b i.
Proof. intros a b i H. induction H; auto. intros S. apply stored_cons. auto. Qed.
Lemma grows_chain : forall a b i, grows a b -> WF b -> stored a i -> chain b i = chain a i.
Proof.
  intros a b i H. induction H as [|es es' e G IH]; intros W S; auto.
  inversion W; subst.
  - inversion G; subst. now apply stored_nil in S.
  - rewrite chain_fresh; auto. eapply grows_stored; eauto.
Qed.

(** * C01: a new block *)

Definition put_entry (b : pblock) (ga : bytes) : entry :=
  {| e_id := pb_id b; e_parent := Some (pb_parent b); e_ext := Some (pb_parent b);
     e_own := block_score (pb_bt b); e_ts := pb_ts b; e_gen := ga |}.

Lemma sexec_put_new : forall s b a ga, ~ stored (st_blocks s) (pb_id b) -> stored (st_blocks s) (pb_parent b) ->
  pb_gen b = Some ga -> (pb_bt b <= max_int64)%N ->
  sexec s (Put b a) None = (st_set_leash a (pb_id b) (st_add (put_entry b ga) s), Ok tt).
Proof.
  intros s b a ga F SP G B. unfold sexec. cbn [effects]. rewrite (chain_nil F).
  destruct (chain_hd SP) as (p & cp & -> & _). rewrite G. destruct (N.ltb_spec max_int64 (pb_bt b)); [lia|]. reflexivity.
Qed.

Definition micro_entry (m : minv) (r : entry) : entry :=
  {| e_id := mi_total m; e_parent := e_parent r; e_ext := Some (mi_ref m); e_own := e_own r; e_ts := e_ts r;
     e_gen := e_gen r |}.

Lemma set_leash_get : forall a i s a', st_leash (st_set_leash a i s) a' = if addr_eqb a' a then Some i else st_leash s a'.
Proof. reflexivity. Qed.

Lemma put_new : forall g ops l b a ga, reachable g ops l -> wf_pblock b -> wf_addr a ->
  lk_has_block l (pb_id b) = Ok false -> lk_has_block l (pb_parent b) = Ok true ->
  pb_gen b = Some ga -> (pb_bt b <= max_int64)%N -> (pb_ts b < max_int64)%N ->
  exists l', exec g l (Put b a) None = (l', Ok tt) /\
    block l' (pb_id b) =
      Ok {| b_id := pb_id b; b_parent := pb_parent b; b_height := N.of_nat (height (hist g ops) (pb_parent b)) + 1;
            b_gen := ga; b_score := score (hist g ops) (pb_parent b) + block_score (pb_bt b); b_ts := Z.of_N (pb_ts b) |} /\
    (forall pb, block l (pb_parent b) = Ok pb ->
       b_height pb = N.of_nat (height (hist g ops) (pb_parent b)) /\ b_score pb = score (hist g ops) (pb_parent b)) /\
    (forall i, wf_id i -> i <> pb_id b -> block l' i = block l i) /\
    leash l' a = Ok (pb_id b) /\
    (forall a', wf_addr a' -> a' <> a -> leash l' a' = leash l a').
Proof.
  intros g ops l b a ga H WB WA F SP G B T. destruct (reach_view H) as (s & Es & R & GE & BD & SM).
  assert (WI := proj1 WB). assert (WP := proj1 (proj2 WB)).
  apply (v_has_false R SM WI) in F. apply (v_has_true R SM WP) in SP.
  assert (WO : wf_op (Put b a)) by (split; auto).
  destruct (step_view g None R BD WO) as (R' & RE & GE' & SM').
  rewrite (sexec_put_new a F SP G B) in *. cbn [fst snd] in *.
  assert (RES : hist g ops = st_blocks s) by (unfold hist; now rewrite <- Es). rewrite RES.
  destruct (chain_hd SP) as (ep & cp & CP & _).
  exists (fst (exec g l (Put b a) None)).
  split; [rewrite <- RE; now destruct (exec g l (Put b a) None)|].
  assert (C' : chain (st_blocks (st_set_leash a (pb_id b) (st_add (put_entry b ga) s))) (pb_id b)
               = put_entry b ga :: chain (st_blocks s) (pb_parent b)).
  { cbn [st_set_leash st_add st_blocks]. apply (chain_cons_eq (put_entry b ga) _ (p := pb_parent b) eq_refl). }
  split.
  { rewrite (v_block R' SM' C'). unfold ts_ok. cbn [put_entry e_ts]. destruct (N.ltb_spec (pb_ts b) max_int64); [|lia].
    f_equal. unfold block_of, height, score. cbn [put_entry e_id e_parent e_gen e_ts length sum_own fold_right e_own].
    f_equal; [lia|]. unfold sum_own. lia. }
  split.
  { intros pb E. destruct (v_block_Ok R SM WP E) as (e1 & c1 & C1 & _ & ->). unfold height, score, block_of.
    rewrite C1. split; reflexivity. }
  split.
  { intros i W N. destruct (stored_dec (st_blocks s) i) as [S|S].
    - destruct (chain_hd S) as (e & c & C & _). rewrite (v_block R SM C).
      apply (v_block R' SM'). rewrite <- C. cbn [st_set_leash st_add st_blocks].
      apply chain_cons_neq. cbn [put_entry e_id]. congruence.
    - rewrite (v_block_none R W S). apply (v_block_none R' W).
      cbn [st_set_leash st_add st_blocks]. rewrite stored_cons. cbn [put_entry e_id]. intros [E|E]; [congruence|contradiction]. }
  split.
  { rewrite (v_leash R' WA), set_leash_get. destruct (addr_eqb_spec a a); [reflexivity|contradiction]. }
  intros a' W' N. rewrite (v_leash R' W'), (v_leash R W'), set_leash_get, GE'.
  destruct (addr_eqb_spec a' a); [contradiction|]. reflexivity.
Qed.

(** * C02 *)
Lemma put_no_parent : forall g ops l b a f, reachable g ops l -> wf_pblock b ->
  lk_has_block l (pb_id b) = Ok false -> lk_has_block l (pb_parent b) = Ok false ->
  exec g l (Put b a) f = (l, Err EParentNotFound).
Proof.
  intros g ops l b a f H WB F SP. unfold exec, op_writes, put_block, lk_has_block in *. rewrite F, SP.
  destruct f; cbn; now rewrite with_db_same.
Qed.

(** * C03 *)
Lemma hist_immutable : forall g ops more l l' i, reachable g ops l -> reachable g (ops ++ more) l' -> wf_id i ->
  lk_has_block l i = Ok true -> lk_has_block l' i = Ok true /\ block l' i = block l i.
Proof.
  intros g ops more l l' i H H' W S. destruct (reach_view H) as (s & Es & R & _ & _ & SM).
  destruct (reach_view H') as (s' & Es' & R' & _ & _ & SM').
  apply (v_has_true R SM W) in S. rewrite srun_app, <- Es in Es'.
  assert (G : grows (st_blocks s) (st_blocks s')) by (rewrite Es'; apply grows_srun).
  assert (S' := grows_stored G S). split; [now apply (v_has_true R' SM' W)|].
  destruct (chain_hd S) as (e & c & C & _). rewrite (v_block R SM C).
  apply (v_block R' SM'). rewrite <- C. apply grows_chain; auto. apply (R_wf R').
Qed.

(** * C04, C05: known IDs *)
Lemma leash_only : forall l a i, let l' := with_db l (apply_writes (lk_db l) [update_leash a i]) in
  ksorted (lk_db l) -> forall k, k <> addr_key a -> kv_get k (lk_db l') = kv_get k (lk_db l).
Proof.
  intros l a i l' S k N. unfold l'. cbn. apply kv_get_put_neq. exact N.
Qed.

Lemma set_leash_view : forall l s a i, Rep (lk_db l) s -> small (st_blocks s) -> wf_addr a -> wf_id i ->
  let l' := with_db l (apply_writes (lk_db l) [update_leash a i]) in
  Rep (lk_db l') (st_set_leash a i s).
Proof. intros l s a i R SM WA WI. cbn. now apply rep_leash_set. Qed.

Lemma known_block : forall g ops l o a i, reachable g ops l -> wf_op o -> target o = Some (a, i) ->
  lk_has_block l i = Ok true ->
  exists l', exec g l o None = (l', Ok tt) /\
    leash l' a = Ok i /\ (forall a', wf_addr a' -> a' <> a -> leash l' a' = leash l a') /\
    (forall j, wf_id j -> block l' j = block l j) /\ lk_heads l' = lk_heads l /\
    (forall k, k <> addr_key a -> kv_get k (lk_db l') = kv_get k (lk_db l)).
Proof.
  intros g ops l o a i H WO T S. destruct (reach_view H) as (s & Es & R & GE & BD & SM).
  assert (W : wf_id i /\ wf_addr a).
  { destruct o as [b a'|m a'|i' a'|]; cbn in T, WO; try discriminate; injection T as <- <-; unfold wf_pblock in *; tauto. }
  destruct W as [WI WA].
  assert (E : exec g l o None = (with_db l (apply_writes (lk_db l) [update_leash a i]), Ok tt)).
  { destruct o as [b a'|m a'|i' a'|]; cbn in T; try discriminate; injection T as <- <-;
      unfold exec, op_writes, put_block, put_micro_block, move_leash, lk_has_block in *; rewrite ?S; reflexivity. }
  assert (R' := set_leash_view R SM WA WI). cbn zeta in R'.
  eexists. split; [exact E|].
  split. { rewrite (v_leash R' WA), set_leash_get. destruct (addr_eqb_spec a a); [reflexivity|contradiction]. }
  split. { intros a' W' N. rewrite (v_leash R' W'), (v_leash R W'), set_leash_get.
           destruct (addr_eqb_spec a' a); [contradiction|reflexivity]. }
  split. { intros j WJ. exact (@v_same_blocks l _ s (st_set_leash a i s) R R' SM eq_refl j WJ). }
  split. { rewrite (v_heads R SM). apply (v_heads (s := st_set_leash a i s) R' SM). }
  apply leash_only. apply (R_sorted R).
Qed.

(** * C05: micro-blocks *)
Lemma sexec_micro_new : forall s m a r c p, ~ stored (st_blocks s) (mi_total m) ->
  chain (st_blocks s) (mi_ref m) = r :: c -> e_parent r = Some p ->
  sexec s (Micro m a) None = (st_set_leash a (mi_total m) (st_add (micro_entry m r) s), Ok tt).
Proof.
  intros s m a r c p F C P. unfold sexec. cbn [effects]. rewrite (chain_nil F), C, P. unfold micro_entry.
  now rewrite P.
Qed.

Lemma genesis_iff : forall g ops l i e c, reachable g ops l -> chain (hist g ops) i = e :: c ->
  (e_parent e = None <-> i = pb_id g).
Proof.
  intros g ops l i e c H C. destruct (reach_view H) as (s & Es & R & _ & _ & SM).
  unfold hist in C. rewrite <- Es in C.
  assert (SG : grows (st_blocks (sstart g)) (st_blocks s)) by (rewrite Es; apply grows_srun).
  assert (S0 : stored (st_blocks (sstart g)) (pb_id g)) by (apply stored_cons; left; reflexivity).
  assert (CG := grows_chain SG (R_wf R) S0). cbn [sstart st_blocks chain e_id] in CG. rewrite id_eqb_refl in CG.
  cbn [e_parent] in CG. split.
  - intros P. destruct (chain_last (R_wf R)) as (g' & _ & _ & _ & L).
    destruct (L _ (stored_chain C)) as (c1 & E1 & F1). destruct (L _ (grows_stored SG S0)) as (c2 & E2 & F2).
    rewrite C in E1. rewrite CG in E2.
    assert (c1 = []).
    { destruct c1 as [|x c1]; auto. cbn in E1. injection E1 as <- _. inversion F1; subst. contradiction. }
    subst c1. cbn in E1. injection E1 as -> _.
    assert (c2 = []) by (destruct c2 as [|x [|y c2]]; auto; discriminate). subst c2. cbn in E2. injection E2 as E2.
    rewrite <- (chain_hd_id C). now rewrite <- E2.
  - intros ->. rewrite CG in C. injection C as <- _. reflexivity.
Qed.

Lemma micro_new : forall g ops l m a, reachable g ops l -> wf_id (mi_total m) -> wf_id (mi_ref m) -> wf_addr a ->
  lk_has_block l (mi_total m) = Ok false -> lk_has_block l (mi_ref m) = Ok true -> mi_ref m <> pb_id g ->
  exists l', exec g l (Micro m a) None = (l', Ok tt) /\
    lk_has_block l' (mi_total m) = Ok true /\
    (forall rb, block l (mi_ref m) = Ok rb ->
       block l' (mi_total m) =
         Ok {| b_id := mi_total m; b_parent := b_parent rb; b_height := b_height rb; b_gen := b_gen rb;
               b_score := b_score rb; b_ts := b_ts rb |}) /\
    height (hist g (ops ++ [(Micro m a, None)])) (mi_total m) = height (hist g ops) (mi_ref m) /\
    score (hist g (ops ++ [(Micro m a, None)])) (mi_total m) = score (hist g ops) (mi_ref m) /\
    (forall i, wf_id i -> i <> mi_total m -> block l' i = block l i) /\
    leash l' a = Ok (mi_total m) /\
    (forall a', wf_addr a' -> a' <> a -> leash l' a' = leash l a').
Proof.
  intros g ops l m a H WI WP WA F SP NG. destruct (reach_view H) as (s & Es & R & GE & BD & SM).
  apply (v_has_false R SM WI) in F. apply (v_has_true R SM WP) in SP.
  destruct (chain_hd SP) as (r & c & C & IDr & Ir).
  assert (P : exists p, e_parent r = Some p).
  { destruct (e_parent r) as [p|] eqn:P; eauto. exfalso. apply NG.
    apply (genesis_iff (e := r) (c := c) H); auto. unfold hist. now rewrite <- Es. }
  destruct P as [p P].
  assert (WO : wf_op (Micro m a)) by (repeat split; auto).
  destruct (step_view g None R BD WO) as (R' & RE & GE' & SM').
  assert (EX := sexec_micro_new a F C P).
  assert (HE : st_blocks (srun (sstart g) (ops ++ [(Micro m a, None)])) = micro_entry m r :: st_blocks s).
  { rewrite srun_app, <- Es. cbn [srun]. now rewrite EX. }
  rewrite EX in *. cbn [fst snd] in *.
  exists (fst (exec g l (Micro m a) None)).
  split; [rewrite <- RE; now destruct (exec g l (Micro m a) None)|].
  assert (PC := WF_parent (R_wf R) C). rewrite P in PC. destruct PC as [SPP EC].
  assert (C0 : chain (micro_entry m r :: st_blocks s) (mi_total m) = micro_entry m r :: c).
  { rewrite EC. apply (chain_cons_eq (micro_entry m r) _ P). }
  assert (C' : chain (st_blocks (st_set_leash a (mi_total m) (st_add (micro_entry m r) s))) (mi_total m)
               = micro_entry m r :: c) by exact C0.
  split. { apply (v_has_true R' SM' WI). eapply stored_chain, C'. }
  split.
  { intros rb E. destruct (v_block_Ok R SM WP E) as (e1 & c1 & C1 & T1 & ->). rewrite C in C1. injection C1 as <- <-.
    rewrite (v_block R' SM' C'). change (ts_ok (micro_entry m r)) with (ts_ok r). rewrite T1. f_equal. }
  split. { unfold height, hist. rewrite HE, <- Es, C0, C. reflexivity. }
  split. { unfold score, hist. rewrite HE, <- Es, C0, C. reflexivity. }
  split.
  { intros i W N. destruct (stored_dec (st_blocks s) i) as [S|S].
    - destruct (chain_hd S) as (e & ci & Ci & _). rewrite (v_block R SM Ci).
      apply (v_block R' SM'). rewrite <- Ci. cbn [st_set_leash st_add st_blocks].
      apply chain_cons_neq. cbn [micro_entry e_id]. congruence.
    - rewrite (v_block_none R W S). apply (v_block_none R' W).
      cbn [st_set_leash st_add st_blocks]. rewrite stored_cons. cbn [micro_entry e_id]. intros [E|E]; [congruence|contradiction]. }
  split.
  { rewrite (v_leash R' WA), set_leash_get. destruct (addr_eqb_spec a a); [reflexivity|contradiction]. }
  intros a' W' N. rewrite (v_leash R' W'), (v_leash R W'), set_leash_get, GE'.
  destruct (addr_eqb_spec a' a); [contradiction|]. reflexivity.
Qed.

Lemma micro_refused : forall g ops l m a f, reachable g ops l -> wf_op (Micro m a) ->
  lk_has_block l (mi_total m) = Ok false ->
  (lk_has_block l (mi_ref m) = Ok false -> exec g l (Micro m a) f = (l, Err ERefNotFound)) /\
  (mi_ref m = pb_id g -> exec g l (Micro m a) f = (l, Err EOther)).
Proof.
  intros g ops l m a f H WO F. split.
  - intros SP. unfold exec, op_writes, put_micro_block, lk_has_block in *. rewrite F, SP.
    destruct f; cbn; now rewrite with_db_same.
  - intros RG. destruct (reach_view H) as (s & Es & R & GE & BD & SM).
    assert (SG : grows (st_blocks (sstart g)) (st_blocks s)) by (rewrite Es; apply grows_srun).
    assert (S0 : stored (st_blocks (sstart g)) (pb_id g)) by (apply stored_cons; left; reflexivity).
    assert (CG := grows_chain SG (R_wf R) S0). cbn [sstart st_blocks chain e_id] in CG. rewrite id_eqb_refl in CG.
    cbn [e_parent] in CG.
    assert (W := proj1 WO).
    assert (NS : ~ stored (st_blocks s) (mi_total m)) by now apply (v_has_false R SM W).
    assert (Q := op_refines g R SM WO). destruct (op_writes g l (Micro m a)) as [ws r] eqn:OW.
    cbn [effects] in Q. rewrite (chain_nil NS), RG, CG in Q. cbn [e_parent] in Q. destruct Q as (-> & L & _).
    destruct ws; [|discriminate]. unfold exec. rewrite OW. destruct f; cbn; now rewrite with_db_same.
Qed.

(** * C06: heads *)
Lemma number_fst : forall hs k, map fst (number (N.of_nat k) hs) = map N.of_nat (seq k (length hs)).
Proof.
  induction hs as [|h hs IH]; intros k; cbn [number map seq length fst]; auto.
  replace (N.of_nat k + 1)%N with (N.of_nat (S k)) by lia. now rewrite IH.
Qed.
Lemma number_snd : forall hs k, map snd (number k hs) = hs.
Proof. induction hs as [|h hs IH]; intros k; cbn [number map snd]; auto. now rewrite IH. Qed.
Lemma number_length : forall hs k, length (number k hs) = length hs.
Proof. induction hs as [|h hs IH]; intros k; cbn [number length]; auto. Qed.
Lemma number_app : forall hs k x, number k (hs ++ [x]) = number k hs ++ [(k + N.of_nat (length hs), x)%N].
Proof.
  induction hs as [|h hs IH]; intros k x; cbn [number app length].
  - now replace (k + N.of_nat 0)%N with k by lia.
  - rewrite IH. replace (k + N.of_nat (S (length hs)))%N with (k + 1 + N.of_nat (length hs))%N by lia. reflexivity.
Qed.
Lemma number_replace : forall x y hs k, number k (map (fun h => if id_eqb h x then y else h) hs) =
  map (fun h => if id_eqb (snd h) x then (fst h, y) else h) (number k hs).
Proof.
  induction hs as [|h hs IH]; intros k; cbn [number map snd fst]; auto. rewrite IH. destruct (id_eqb h x); auto.
Qed.
Lemma number_existsb : forall x hs k, existsb (fun h => id_eqb (snd h) x) (number k hs) = existsb (id_eqb x) hs.
Proof.
  induction hs as [|h hs IH]; intros k; cbn [number existsb snd]; auto. rewrite IH. f_equal.
  destruct (id_eqb_spec h x), (id_eqb_spec x h); congruence.
Qed.
Lemma number_upd : forall x y hs, number 1 (replace_head x y hs) = upd_heads x y (number 1 hs).
Proof.
  intros. unfold replace_head, upd_heads. rewrite number_existsb, number_length. destruct (existsb (id_eqb x) hs).
  - apply number_replace.
  - rewrite number_app. now replace (1 + N.of_nat (length hs))%N with (N.of_nat (length hs) + 1)%N by lia.
Qed.

Lemma heads_spec : forall g ops l, reachable g ops l -> exists hs, lk_heads l = Ok hs /\
  map fst hs = map N.of_nat (seq 1 (length hs)) /\ NoDup (map snd hs) /\
  (forall i, In i (map snd hs) <-> stored (hist g ops) i /\ ~ extended (hist g ops) i).
Proof.
  intros g ops l H. destruct (reach_view H) as (s & Es & R & GE & BD & SM).
  exists (number 1 (sheads (st_blocks s))). split; [apply (v_heads R SM)|].
  rewrite number_snd, number_length. split; [apply (number_fst _ 1)|]. split; [apply sheads_NoDup, (R_wf R)|].
  intros i. unfold hist. rewrite <- Es. apply sheads_spec, (R_wf R).
Qed.

(** How the heads change with a call. *)
Lemma heads_step : forall g ops l o f hs, reachable g ops l -> wf_op o -> lk_heads l = Ok hs ->
  let l' := fst (exec g l o f) in
  lk_heads l' = Ok hs \/
  exists a x y, target o = Some (a, y) /\ lk_has_block l y = Ok false /\ lk_has_block l' y = Ok true /\
    match o with Put b _ => x = pb_parent b | Micro m _ => x = mi_ref m | _ => False end /\
    lk_heads l' = Ok (upd_heads x y hs).
Proof.
  intros g ops l o f hs H WO HS. cbv zeta. destruct (reach_view H) as (s & Es & R & GE & BD & SM).
  destruct (step_view g f R BD WO) as (R' & _ & _ & SM').
  rewrite (v_heads R SM) in HS. injection HS as <-.
  assert (Q : st_blocks (fst (sexec s o f)) = st_blocks s \/
     exists e a x y, e_id e = y /\ target o = Some (a, y) /\ e_ext e = Some x /\ ~ stored (st_blocks s) y /\
       match o with Put b _ => x = pb_parent b | Micro m _ => x = mi_ref m | _ => False end /\
       st_blocks (fst (sexec s o f)) = e :: st_blocks s).
  { assert (P : forall fs (r : outcome unit), (forall k, st_blocks (apply_effects s (firstn k fs)) = st_blocks s \/
       exists e a x y, e_id e = y /\ target o = Some (a, y) /\ e_ext e = Some x /\ ~ stored (st_blocks s) y /\
       match o with Put b _ => x = pb_parent b | Micro m _ => x = mi_ref m | _ => False end /\
       st_blocks (apply_effects s (firstn k fs)) = e :: st_blocks s) -> effects s o = (fs, r) ->
       st_blocks (fst (sexec s o f)) = st_blocks s \/
       exists e a x y, e_id e = y /\ target o = Some (a, y) /\ e_ext e = Some x /\ ~ stored (st_blocks s) y /\
       match o with Put b _ => x = pb_parent b | Micro m _ => x = mi_ref m | _ => False end /\
       st_blocks (fst (sexec s o f)) = e :: st_blocks s).
    { intros fs r K E. unfold sexec. rewrite E. destruct f as [k|]; [destruct (Nat.ltb k (length fs))|]; cbn [fst]; auto;
        specialize (K (length fs)); rewrite firstn_all in K; exact K. }
    assert (P1 : forall a i k, st_blocks (apply_effects s (firstn k [st_set_leash a i])) = st_blocks s)
      by (intros a i [|[|k]]; reflexivity).
    assert (P0 : forall k, st_blocks (apply_effects s (firstn k [])) = st_blocks s) by (intros [|k]; reflexivity).
    assert (P2 : forall e a i k, st_blocks (apply_effects s (firstn k [st_add e; st_set_leash a i])) = st_blocks s \/
       st_blocks (apply_effects s (firstn k [st_add e; st_set_leash a i])) = e :: st_blocks s)
      by (intros e a i [|[|[|k]]]; auto).
    destruct o as [b a|m a|i a|]; cbn [effects target] in *.
    - destruct (chain (st_blocks s) (pb_id b)) eqn:C1; [|eapply P; [|reflexivity]; auto].
      apply chain_nil_iff in C1.
      destruct (chain (st_blocks s) (pb_parent b)); [eapply P; [|reflexivity]; auto|].
      destruct (pb_gen b); [|eapply P; [|reflexivity]; auto]. destruct (_ <? _)%N; [eapply P; [|reflexivity]; auto|].
      eapply P; [|reflexivity]. intros k. destruct (P2 (put_entry b b0) a (pb_id b) k) as [E|E]; [left; exact E|right].
      exists (put_entry b b0), a, (pb_parent b), (pb_id b). repeat (split; [reflexivity || assumption|]). exact E.
    - destruct (chain (st_blocks s) (mi_total m)) eqn:C1; [|eapply P; [|reflexivity]; auto].
      apply chain_nil_iff in C1.
      destruct (chain (st_blocks s) (mi_ref m)) as [|r c]; [eapply P; [|reflexivity]; auto|].
      destruct (e_parent r) as [p|] eqn:PR; [|eapply P; [|reflexivity]; auto].
      eapply P; [|reflexivity]. intros k. rewrite <- PR.
      destruct (P2 (micro_entry m r) a (mi_total m) k) as [E|E]; [left; exact E|right].
      exists (micro_entry m r), a, (mi_ref m), (mi_total m). repeat (split; [reflexivity || assumption|]). exact E.
    - eapply P; [|reflexivity]; auto.
    - eapply P; [|reflexivity]; auto. }
  destruct Q as [E|(e & a & x & y & ID & T & X & F & O & E)].
  - left. rewrite (v_heads R' SM'). now rewrite E.
  - right. exists a, x, y. assert (WY : wf_id y).
    { destruct o as [b' ?|m' ?|i' ?|]; cbn in T, WO; try discriminate; injection T as ? <-; unfold wf_pblock in *; tauto. }
    split; [exact T|]. split; [now apply (v_has_false R SM WY)|].
    split. { apply (v_has_true R' SM' WY). rewrite E. apply stored_cons. auto. }
    split; [exact O|]. rewrite (v_heads R' SM'), E. cbn [sheads]. rewrite X, number_upd. congruence.
Qed.

(** * C07: LastIDs *)
Lemma last_ids_spec : forall g ops l i n, reachable g ops l -> wf_id i -> (0 <= n)%Z ->
  (lk_has_block l i = Ok true -> last_ids l i n = Ok (firstn (Z.to_nat n) (chain_ids (hist g ops) i))) /\
  (lk_has_block l i = Ok false -> last_ids l i n = Err ENotFound).
Proof.
  intros g ops l i n H W N. destruct (reach_view H) as (s & Es & R & GE & BD & SM). split; intros S.
  - apply (v_has_true R SM W) in S. unfold last_ids, hist. rewrite <- Es. now apply (q_last_ids R SM).
  - apply (v_has_false R SM W) in S. unfold last_ids, get_ancestors. now rewrite (rep_num_none R W S).
Qed.

(** The chain of a stored block is exactly what repeatedly reading the parent gives. *)
Lemma chain_shape : forall g ops l i, reachable g ops l -> wf_id i -> lk_has_block l i = Ok true ->
  exists c, chain_ids (hist g ops) i = i :: c /\ last (i :: c) zero_id = pb_id g /\
    NoDup (i :: c) /\
    (forall k x y, nth_error (i :: c) k = Some x -> nth_error (i :: c) (S k) = Some y ->
       forall b, block l x = Ok b -> b_parent b = y) /\
    (forall k x, nth_error (i :: c) k = Some x -> lk_has_block l x = Ok true /\
       forall b, block l x = Ok b -> b_height b = N.of_nat (length (i :: c) - k)).
Proof.
  intros g ops l i H W S. assert (H' := H). destruct (reach_view H) as (s & Es & R & GE & BD & SM).
  apply (v_has_true R SM W) in S. destruct (chain_hd S) as (e & c & C & ID & _).
  assert (WFs := R_wf R).
  assert (CI : chain_ids (hist g ops) i = i :: map e_id c).
  { unfold chain_ids, hist. rewrite <- Es, C. cbn. congruence. }
  exists (map e_id c). split; [exact CI|].
  assert (NTH : forall k x, nth_error (i :: map e_id c) k = Some x ->
     exists y c', nth_error (chain (st_blocks s) i) k = Some y /\ e_id y = x /\
       chain (st_blocks s) x = y :: c' /\ y :: c' = skipn k (chain (st_blocks s) i)).
  { intros k x K. replace (i :: map e_id c) with (map e_id (chain (st_blocks s) i)) in K
      by (rewrite C; cbn; congruence).
    rewrite nth_error_map in K. destruct (nth_error (chain (st_blocks s) i) k) as [y|] eqn:Y; [|discriminate].
    cbn in K. injection K as <-. assert (SK := chain_skip WFs _ _ Y).
    assert (SY : stored (st_blocks s) (e_id y)) by (apply In_stored; eapply chain_In, nth_error_In, Y).
    destruct (chain_hd SY) as (y' & c' & C' & ID' & I').
    assert (y' = y). { apply (entry_unique WFs); auto. eapply chain_In, nth_error_In, Y. } subst y'.
    exists y, c'. rewrite <- SK. auto. }
  split.
  { destruct (chain_last WFs) as (ge & PG & _ & _ & L). destruct (L _ S) as (c1 & E1 & _).
    assert (LE : last (i :: map e_id c) zero_id = e_id ge).
    { replace (i :: map e_id c) with (map e_id (chain (st_blocks s) i)) by (rewrite C; cbn; congruence).
      rewrite E1, map_app. cbn [map]. apply last_last. }
    rewrite LE.
    assert (SG : stored (st_blocks s) (e_id ge)).
    { apply In_stored. eapply chain_In with (i := i). rewrite E1. apply in_or_app. right. now left. }
    destruct (chain_hd SG) as (x & cx & CX & IDX & IX).
    assert (x = ge).
    { apply (entry_unique WFs); auto. eapply chain_In with (i := i). rewrite E1. apply in_or_app. right. now left. }
    subst x. apply (genesis_iff (e := ge) (c := cx) H'); auto. unfold hist. now rewrite <- Es. }
  split.
  { replace (i :: map e_id c) with (map e_id (chain (st_blocks s) i)) by (rewrite C; cbn; congruence).
    assert (Q : forall es, WF es -> forall j, NoDup (map e_id (chain es j))).
    { clear. induction 1 as [e W P X G | e older p x W IH I F P SP X SX G]; intros j; cbn [chain].
      - destruct (id_eqb (e_id e) j); cbn; [rewrite P; cbn|]; repeat constructor; auto.
      - destruct (id_eqb (e_id e) j); [|apply IH]. rewrite P. cbn [map]. constructor; [|apply IH].
        intros Q. apply in_map_iff in Q as (z & EZ & Z). apply F. rewrite <- EZ. apply In_stored. eapply chain_In, Z. }
    now apply Q. }
  split.
  { intros k x y X Y b B. destruct (NTH _ _ X) as (ex & cx & NX & IX & CX & SX).
    destruct (NTH _ _ Y) as (ey & cy & NY & IY & CY & SY).
    rewrite (v_block R SM CX) in B. destruct (ts_ok ex); [|discriminate]. injection B as <-.
    cbn [block_of b_parent]. assert (P := WF_parent WFs CX).
    assert (E : cx = ey :: cy).
    { apply (f_equal (skipn 1)) in SX. change (skipn 1 (ex :: cx)) with cx in SX. rewrite SX, SY.
      clear. generalize (chain (st_blocks s) i) as z. induction k as [|k IH]; intros z; [reflexivity|].
      destruct z as [|a z]; [reflexivity|]. apply (IH z). }
    destruct (e_parent ex) as [p|].
    - destruct P as [SP EP]. assert (C2 : chain (st_blocks s) p = ey :: cy) by congruence.
      rewrite <- (chain_hd_id C2). exact IY.
    - congruence. }
  intros k x X. destruct (NTH _ _ X) as (ex & cx & NX & IX & CX & SX).
  assert (SXT := stored_chain CX).
  split. { apply (v_has_true R SM); [apply (stored_wf WFs SXT)|exact SXT]. }
  intros b B. rewrite (v_block R SM CX) in B. destruct (ts_ok ex); [|discriminate]. injection B as <-.
  cbn [block_of b_height]. rewrite SX, skipn_length. rewrite C. cbn [length]. now rewrite map_length.
Qed.

(** * C08, C09: lca *)
Lemma lca_sound : forall g ops l i j k, reachable g ops l -> wf_id i -> wf_id j -> lca (lk_db l) i j = Ok k ->
  is_lca (hist g ops) i j k.
Proof.
  intros g ops l i j k H WI WJ E. destruct (reach_view H) as (s & Es & R & GE & BD & SM).
  unfold hist. rewrite <- Es.
  destruct (stored_dec (st_blocks s) i) as [SI|SI]; [|rewrite (lca_missing R SM WI WJ) in E by auto; discriminate].
  destruct (stored_dec (st_blocks s) j) as [SJ|SJ]; [|rewrite (lca_missing R SM WI WJ) in E by auto; discriminate].
  destruct (lca_total R SM SI SJ) as (k' & D & L & _ & V). rewrite V in E.
  destruct (Nat.eqb D 0 || _); [|discriminate]. injection E as <-. exact L.
Qed.

Lemma lca_exact : forall g ops l i j, reachable g ops l ->
  wf_id i -> wf_id j -> lk_has_block l i = Ok true -> lk_has_block l j = Ok true ->
  exists k, is_lca (hist g ops) i j k /\
    let a := height (hist g ops) k in
    let D := Nat.min (height (hist g ops) i) (height (hist g ops) j) - a in
    (safe D a -> lca (lk_db l) i j = Ok k) /\ (~ safe D a -> lca (lk_db l) i j = Panic).
Proof.
  intros g ops l i j H WI WJ SI SJ. destruct (reach_view H) as (s & Es & R & GE & BD & SM).
  unfold hist. rewrite <- Es. apply (v_has_true R SM WI) in SI. apply (v_has_true R SM WJ) in SJ.
  destruct (lca_total R SM SI SJ) as (k & D & L & HD & V). exists k. split; [exact L|]. cbv zeta.
  replace (Nat.min _ _ - height (st_blocks s) k) with D by lia.
  assert (HK : 1 <= height (st_blocks s) k).
  { destruct L as (A & _ & _). apply anc_stored in A. destruct (chain_hd A) as (e & c & C & _).
    unfold height. rewrite C. cbn. lia. }
  destruct (Nat.eqb_spec D 0) as [->|ND].
  - cbn in V. split; auto. intros NS. exfalso. apply NS. intros t T. lia.
  - cbn [orb] in V. assert (Q := @lca_ok_safe D (height (st_blocks s) k)).
    specialize (Q ltac:(lia) HK). destruct (lca_ok _ _ _).
    + split; auto. intros NS. exfalso. apply NS, Q. reflexivity.
    + split; auto. intros SF. apply Q in SF. discriminate.
Qed.

(** * C10: scores *)
Definition own_ok (e : entry) : Prop := exists bt, (bt <= max_int64)%N /\ e_own e = block_score bt.
Lemma own_ok_effects : forall s o k, Forall own_ok (st_blocks s) ->
  Forall own_ok (st_blocks (apply_effects s (firstn k (fst (effects s o))))).
Proof.
  intros s o k F.
  assert (Q0 : Forall own_ok (st_blocks (apply_effects s (firstn k [])))) by (destruct k; exact F).
  assert (Q1 : forall a i, Forall own_ok (st_blocks (apply_effects s (firstn k [st_set_leash a i]))))
    by (intros; destruct k as [|[|k]]; exact F).
  assert (Q2 : forall e a i, own_ok e -> Forall own_ok (st_blocks (apply_effects s (firstn k [st_add e; st_set_leash a i]))))
    by (intros; destruct k as [|[|[|k]]]; cbn; auto).
  destruct o as [b a|m a|i a|]; cbn [effects].
  - destruct (chain _ (pb_id b)); [|apply Q1]. destruct (chain _ (pb_parent b)); [apply Q0|].
    destruct (pb_gen b); [|apply Q0]. destruct (N.ltb_spec max_int64 (pb_bt b)); [apply Q0|apply Q2].
    exists (pb_bt b). auto.
  - destruct (chain _ (mi_total m)); [|apply Q1]. destruct (chain _ (mi_ref m)) as [|r c] eqn:C; [apply Q0|].
    destruct (e_parent r); [apply Q2|apply Q0].
    assert (I : In r (st_blocks s)) by (eapply chain_In; rewrite C; now left).
    rewrite Forall_forall in F. exact (F _ I).
  - apply Q1.
  - apply Q0.
Qed.
Lemma own_ok_sexec : forall s o f, Forall own_ok (st_blocks s) -> Forall own_ok (st_blocks (fst (sexec s o f))).
Proof.
  intros s o f F. unfold sexec. assert (Q := fun k => own_ok_effects o k F).
  destruct (effects s o) as [fs r]. cbn [fst] in Q.
  destruct f as [k|]; [destruct (Nat.ltb k (length fs))|]; cbn [fst]; auto; rewrite <- (firstn_all fs); auto.
Qed.
Lemma own_ok_srun : forall ops s, Forall own_ok (st_blocks s) -> Forall own_ok (st_blocks (srun s ops)).
Proof. induction ops as [|[o f] ops IH]; intros s F; cbn [srun]; auto. apply IH. now apply own_ok_sexec. Qed.

Lemma block_score_pos : forall bt, (1 <= bt <= max_int64)%N -> (2 <= block_score bt)%Z.
Proof.
  intros bt B. unfold block_score. destruct (N.eqb_spec bt 0); [lia|]. unfold max_int64 in B.
  apply Z.div_le_lower_bound; [lia|]. change (2 ^ 64)%Z with 18446744073709551616%Z. lia.
Qed.
Lemma block_score_nonneg : forall bt, (0 <= block_score bt)%Z.
Proof.
  intros bt. unfold block_score. destruct (N.eqb_spec bt 0); [lia|]. apply Z.div_pos; [|lia].
  apply Z.pow_nonneg. lia.
Qed.

Lemma start_bt : forall g l0, start g = Ok l0 -> (pb_bt g <= max_int64)%N.
Proof.
  intros g l0 H. unfold start, new_linkage, initialize in H.
  change (get_counter [] blocksCounter) with (Ok 0%N) in H. cbn [bind] in H. change (0 =? 0)%N with true in H. cbv iota in H.
  destruct (pb_gen g); [|discriminate]. rewrite calculate_score_spec in H.
  destruct (N.ltb_spec max_int64 (pb_bt g)); [discriminate|]. exact H0.
Qed.

Lemma score_spec : forall g ops l i b, reachable g ops l -> wf_id i -> block l i = Ok b ->
  b_score b = score (hist g ops) i /\ b_height b = N.of_nat (height (hist g ops) i) /\
  (0 <= b_score b)%Z /\
  (i <> pb_id g -> exists bt, (bt <= max_int64)%N /\
     forall pb, block l (b_parent b) = Ok pb -> (b_score b = b_score pb + block_score bt)%Z /\ b_height b = (b_height pb + 1)%N).
Proof.
  intros g ops l i b H W B. assert (H' := H). destruct (reach_view H) as (s & Es & R & GE & BD & SM).
  destruct (v_block_Ok R SM W B) as (e & c & C & T & ->).
  assert (HE : hist g ops = st_blocks s) by (unfold hist; now rewrite Es).
  unfold score, height. rewrite HE, C.
  assert (OWN : Forall own_ok (st_blocks s)).
  { rewrite Es. apply own_ok_srun. constructor; [|constructor]. exists (pb_bt g). split; [|reflexivity].
    destruct H' as (_ & _ & l0 & S0 & _). eapply start_bt, S0. }
  assert (SUM : forall es' j, incl es' (st_blocks s) -> (0 <= sum_own (chain es' j))%Z).
  { intros es' j IC. assert (F : Forall own_ok (chain es' j)).
    { apply Forall_forall. intros x X. rewrite Forall_forall in OWN. apply OWN, IC. eapply chain_In, X. }
    induction F as [|x c' (bt & _ & Ex) F IH]; cbn [sum_own fold_right]; [lia|].
    pose proof (@block_score_nonneg bt). unfold sum_own in IH. lia. }
  split; [reflexivity|]. split; [reflexivity|].
  split. { cbn [block_of b_score]. rewrite <- C. apply SUM. apply incl_refl. }
  intros NG.
  assert (P := WF_parent (R_wf R) C).
  assert (IE : In e (st_blocks s)) by (eapply chain_In; rewrite C; now left).
  assert (OE : own_ok e) by (rewrite Forall_forall in OWN; auto).
  destruct OE as (bt & BB & OB). exists bt. split; [exact BB|].
  intros pb PB. cbn [block_of b_parent b_score b_height] in *.
  destruct (e_parent e) as [p|] eqn:PE.
  - destruct P as [SP ->]. assert (WP := stored_wf (R_wf R) SP).
    destruct (v_block_Ok R SM WP PB) as (e1 & c1 & C1 & _ & ->). cbn [block_of b_score b_height]. rewrite <- C1.
    cbn [sum_own fold_right length]. unfold sum_own. rewrite OB. split; lia.
  - exfalso. apply NG. apply (genesis_iff (e := e) (c := c) H'); auto. now rewrite HE.
Qed.

(** * C11: the leash is the last successful call *)
Lemma sexec_leash : forall s o f a, st_leash (fst (sexec s o f)) a =
  match target o, snd (sexec s o f) with
  | Some (a', i), Ok _ => if addr_eqb a a' then Some i else st_leash s a
  | _, _ => st_leash s a
  end.
Proof.
  intros s o f a. unfold sexec. destruct o as [b a'|m a'|i a'|]; cbn [effects target].
  - destruct (chain _ (pb_id b)).
    + destruct (chain _ (pb_parent b)); [destruct f as [[|k]|]; reflexivity|].
      destruct (pb_gen b); [|destruct f as [[|k]|]; reflexivity].
      destruct (_ <? _)%N; [destruct f as [[|k]|]; reflexivity|].
      destruct f as [[|[|k]]|]; reflexivity.
    + destruct f as [[|k]|]; reflexivity.
  - destruct (chain _ (mi_total m)).
    + destruct (chain _ (mi_ref m)) as [|r c]; [destruct f as [[|k]|]; reflexivity|].
      destruct (e_parent r); destruct f as [[|[|k]]|]; reflexivity.
    + destruct f as [[|k]|]; reflexivity.
  - destruct f as [[|k]|]; reflexivity.
  - destruct f as [[|k]|]; reflexivity.
Qed.

Lemma leash_trace : forall g ops l s, Rep (lk_db l) s -> Forall (fun of => wf_op (fst of)) ops ->
  (N.of_nat (length (st_blocks s) + length ops) < 2 ^ 32 - 1)%N ->
  forall a, st_leash (srun s ops) a = last_success a (trace g l ops) (st_leash s a).
Proof.
  intros g ops. induction ops as [|[o f] ops IH]; intros l s R FA B a; cbn [srun trace last_success]; auto.
  inversion FA; subst. cbn [fst] in *. cbn [length] in B.
  assert (SM : small (st_blocks s)) by (unfold small; lia).
  destruct (exec_refines g f R SM H1) as (R' & RE & G). pose proof (sexec_length s o f).
  rewrite (IH _ _ R' H2) by lia. f_equal. rewrite sexec_leash, RE. reflexivity.
Qed.

Lemma leash_last : forall g l0 ops a, wf_pblock g -> start g = Ok l0 -> wf_hist ops -> wf_addr a ->
  leash (run g l0 ops) a =
  Ok (match last_success a (trace g l0 ops) None with Some i => i | None => pb_id g end) /\
  has_leash (run g l0 ops) a =
  Ok (match last_success a (trace g l0 ops) None with Some _ => true | None => false end).
Proof.
  intros g l0 ops a WG S0 WH WA. assert (H : reachable g ops (run g l0 ops)) by (split; [auto|split; eauto]).
  destruct (reach_view H) as (s & Es & R & GE & BD & SM). rewrite (v_leash R WA), (v_has_leash R WA), GE.
  destruct (start_rep WG S0) as [R0 _]. destruct WH as [FA B].
  rewrite Es. rewrite (@leash_trace g ops l0 (sstart g) R0 FA); [split; reflexivity|].
  cbn [sstart st_blocks length]. lia.
Qed.

(** * C12: Leashes *)
Lemma leashes_spec : forall g ops l, reachable g ops l -> exists ls, lk_leashes l = Ok ls /\ NoDup (map fst ls) /\
  forall a, wf_addr a -> a <> all_ones ->
    forall i, In (a, i) ls <-> has_leash l a = Ok true /\ leash l a = Ok i.
Proof.
  intros g ops l H. destruct (reach_view H) as (s & Es & R & GE & BD & SM).
  destruct (q_leashes R) as (ls & E & ND & I & _). exists ls. split; [exact E|]. split; [exact ND|].
  intros a W N i. rewrite I, (v_has_leash R W), (v_leash R W).
  destruct (st_leash s a) as [j|]; split; intros Q.
  - destruct Q as (_ & Q & _). split; congruence.
  - destruct Q as (_ & Q). repeat split; auto; congruence.
  - destruct Q as (_ & Q & _). discriminate.
  - destruct Q as (Q & _). discriminate.
Qed.
Lemma leashes_only : forall g ops l ls a i, reachable g ops l -> lk_leashes l = Ok ls -> In (a, i) ls ->
  wf_addr a /\ leash l a = Ok i /\ has_leash l a = Ok true.
Proof.
  intros g ops l ls a i H E I. destruct (reach_view H) as (s & Es & R & GE & BD & SM).
  destruct (q_leashes R) as (ls' & E' & ND & Q & _). unfold lk_leashes in E. rewrite E' in E. injection E as <-.
  destruct (proj1 (Q _ _) I) as (W & L & _). split; auto. rewrite (v_leash R W), (v_has_leash R W), L. auto.
Qed.

(** * C13: leashes point at stored blocks *)
Definition leash_stored (s : state) : Prop := forall a i, st_leash s a = Some i -> stored (st_blocks s) i.
Lemma leash_stored_sexec : forall s o f, leash_stored s ->
  match o with Move i _ => stored (st_blocks s) i | _ => True end -> leash_stored (fst (sexec s o f)).
Proof.
  intros s o f L M a i. rewrite sexec_leash.
  assert (G := grows_sexec s o f).
  destruct (target o) as [[a' j]|] eqn:T; [|intros E; eapply grows_stored; eauto].
  destruct (snd (sexec s o f)) as [u| | |] eqn:RS; try (intros E; eapply grows_stored; eauto; fail).
  destruct (addr_eqb a a'); [|intros E; eapply grows_stored; eauto].
  intros [= <-]. unfold sexec in *. destruct o as [b a0|m a0|i0 a0|]; cbn [effects target] in *; try discriminate;
    injection T as <- <-.
  - destruct (chain (st_blocks s) (pb_id b)) eqn:C.
    + destruct (chain _ (pb_parent b)); [destruct f as [[|k]|]; discriminate|].
      destruct (pb_gen b); [|destruct f as [[|k]|]; discriminate].
      destruct (_ <? _)%N; [destruct f as [[|k]|]; discriminate|].
      destruct f as [[|[|k]]|]; try discriminate; apply stored_cons; left; reflexivity.
    + eapply grows_stored; [exact G|]. eapply stored_chain, C.
  - destruct (chain (st_blocks s) (mi_total m)) eqn:C.
    + destruct (chain _ (mi_ref m)) as [|r c]; [destruct f as [[|k]|]; discriminate|].
      destruct (e_parent r); destruct f as [[|[|k]]|]; try discriminate; apply stored_cons; left; reflexivity.
    + eapply grows_stored; [exact G|]. eapply stored_chain, C.
  - eapply grows_stored; eauto.
Qed.

Lemma leash_stored_run : forall g ops l s, Rep (lk_db l) s -> Forall (fun of => wf_op (fst of)) ops ->
  (N.of_nat (length (st_blocks s) + length ops) < 2 ^ 32 - 1)%N -> good_moves g l ops ->
  leash_stored s -> leash_stored (srun s ops).
Proof.
  intros g ops. induction ops as [|[o f] ops IH]; intros l s R FA B GM L; cbn [srun]; auto.
  inversion FA; subst. cbn [fst] in *. cbn [length] in B.
  assert (SM : small (st_blocks s)) by (unfold small; lia).
  destruct (exec_refines g f R SM H1) as (R' & RE & G). pose proof (sexec_length s o f).
  cbn [good_moves] in GM. destruct GM as [M GM].
  eapply IH; eauto; [lia|]. apply leash_stored_sexec; auto. destruct o; auto.
  apply (v_has_true R SM (proj1 H1)). exact M.
Qed.

Lemma good_state : forall g l0 ops, wf_pblock g -> start g = Ok l0 -> wf_hist ops -> good_moves g l0 ops ->
  leash_stored (srun (sstart g) ops).
Proof.
  intros g l0 ops WG S0 WH GM. destruct (start_rep WG S0) as [R0 _]. destruct WH as [FA B].
  eapply leash_stored_run; eauto; [cbn [sstart st_blocks length]; lia|]. intros a i E. discriminate.
Qed.

Lemma genesis_stored : forall g ops, stored (st_blocks (srun (sstart g) ops)) (pb_id g).
Proof. intros. eapply grows_stored; [apply grows_srun|]. apply stored_cons. left. reflexivity. Qed.

Lemma leash_points : forall g l0 ops a, wf_pblock g -> start g = Ok l0 -> wf_hist ops -> good_moves g l0 ops -> wf_addr a ->
  exists i, leash (run g l0 ops) a = Ok i /\ lk_has_block (run g l0 ops) i = Ok true /\
    leash_score (run g l0 ops) a = Ok (score (hist g ops) i).
Proof.
  intros g l0 ops a WG S0 WH GM WA. assert (H : reachable g ops (run g l0 ops)) by (split; [auto|split; eauto]).
  destruct (reach_view H) as (s & Es & R & GE & BD & SM). rewrite (v_leash R WA), GE.
  eexists. split; [reflexivity|].
  assert (S : stored (st_blocks s) match st_leash s a with Some i => i | None => pb_id g end).
  { assert (L := good_state WG S0 WH GM). destruct (st_leash s a) eqn:E.
    - rewrite Es in *. eapply L, E.
    - rewrite Es. apply genesis_stored. }
  assert (W := stored_wf (R_wf R) S).
  split; [now apply (v_has_true R SM W)|].
  unfold leash_score. rewrite (rep_leash R _ WA), GE.
  destruct (chain_hd S) as (e & c & C & _).
  replace (match match st_leash s a with Some i => Ok i | None => Err ENotFound end with
           | Ok i => i | Err ENotFound => pb_id g | _ => zero_id end)
    with (match st_leash s a with Some i => i | None => pb_id g end) by now destruct (st_leash s a).
  rewrite (rep_block_by_id R SM _ C). cbn [bind sblock_of sb_score]. unfold score, hist. now rewrite <- Es, C.
Qed.

(** * C23: crash and retry *)
Lemma kv_put_twice : forall (d : db) k v, ksorted d -> kv_put k v (kv_put k v d) = kv_put k v d.
Proof.
  intros d k v S. assert (S1 : ksorted (kv_put k v d)) by now apply ksorted_put.
  assert (S2 : ksorted (kv_put k v (kv_put k v d))) by now apply ksorted_put.
  apply ksorted_ext; auto. intros [k' v']. rewrite (kv_In_iff _ _ S2), (kv_In_iff _ _ S1).
  destruct (bytes_eq_dec k' k) as [->|N]; [rewrite !kv_get_put_eq|rewrite !kv_get_put_neq by auto]; tauto.
Qed.

Lemma exec_known : forall g l o a i, target o = Some (a, i) -> lk_has_block l i = Ok true ->
  op_writes g l o = ([update_leash a i], Ok tt).
Proof.
  intros g l o a i T S. destruct o as [b a'|m a'|i' a'|]; cbn in T; try discriminate; injection T as <- <-;
    unfold op_writes, put_block, put_micro_block, move_leash, lk_has_block in *; rewrite ?S; reflexivity.
Qed.
Lemma exec_new : forall g l o a i l3, target o = Some (a, i) -> lk_has_block l i <> Ok true -> (forall x y, o <> Move x y) ->
  exec g l o None = (l3, Ok tt) -> exists bt, op_writes g l o = ([bt; update_leash a i], Ok tt).
Proof.
  intros g l o a i l3 T N M E. destruct o as [b a'|m a'|i' a'|]; cbn in T; try discriminate; injection T as <- <-.
  - unfold exec, op_writes, put_block, lk_has_block in *. destruct (has_block (lk_db l) (pb_id b)) as [[|]| | |];
      try (cbn in E; congruence).
    destruct (has_block (lk_db l) (pb_parent b)) as [[|]| | |]; try (cbn in E; congruence).
    destruct (put_proto_block (lk_db l) b); try (cbn in E; congruence). eauto.
  - unfold exec, op_writes, put_micro_block, lk_has_block in *. destruct (has_block (lk_db l) (mi_total m)) as [[|]| | |];
      try (cbn in E; congruence).
    destruct (has_block (lk_db l) (mi_ref m)) as [[|]| | |]; try (cbn in E; congruence).
    destruct (put_micro_block_st (lk_db l) m); try (cbn in E; congruence). eauto.
  - exfalso. eapply M. reflexivity.
Qed.

Lemma crash_retry : forall g ops l o l3 k l1 r1, reachable g ops l -> wf_op o ->
  exec g l o None = (l3, Ok tt) -> exec g l o (Some k) = (l1, r1) ->
  exec g l1 o None = (l3, Ok tt) /\
  (l1 = l \/ l1 = l3 \/
   exists a i, target o = Some (a, i) /\ r1 = Err EOther /\ lk_has_block l1 i = Ok true /\
     (forall key, key <> addr_key a -> kv_get key (lk_db l1) = kv_get key (lk_db l3)) /\
     kv_get (addr_key a) (lk_db l1) = kv_get (addr_key a) (lk_db l)).
Proof.
  intros g ops l o l3 k l1 r1 H WO E3 E1. destruct (reach_view H) as (s & Es & R & GE & BD & SM).
  destruct (target o) as [[a i]|] eqn:T.
  2: { destruct o; cbn in T; try discriminate. unfold exec in *.
       assert (Q := op_refines g R SM WO). destruct (op_writes g l Reopen) as [ws r] eqn:OW.
       cbn [effects] in Q. destruct Q as (-> & L & _). destruct ws; [|discriminate].
       cbn in E1, E3. injection E1 as <- <-. injection E3 as <-. rewrite with_db_same. rewrite OW. cbn.
       rewrite with_db_same. auto. }
  assert (W : wf_id i /\ wf_addr a).
  { destruct o as [b' ?|m' ?|i' ?|]; cbn in T, WO; try discriminate; injection T as <- <-; unfold wf_pblock in *; tauto. }
  destruct W as [WI WA].
  (* the retry on a store in which the write of the leash is all that is left, or has been done already *)
  assert (RT : forall l', lk_genesis l' = lk_genesis l -> (lk_has_block l' i = Ok true \/ exists x y, o = Move x y) ->
     exec g l' o None = (with_db l' (kv_put (addr_key a) (VBytes i) (lk_db l')), Ok tt)).
  { intros l' _ [S'|(x & y & ->)].
    - unfold exec. rewrite (exec_known g T S'). reflexivity.
    - cbn in T. injection T as <- <-. reflexivity. }
  assert (KN : (lk_has_block l i = Ok true \/ exists x y, o = Move x y) ->
     exec g l1 o None = (l3, Ok tt) /\
     (l1 = l \/ l1 = l3 \/
      exists a0 i0, Some (a, i) = Some (a0, i0) /\ r1 = Err EOther /\ lk_has_block l1 i0 = Ok true /\
        (forall key, key <> addr_key a0 -> kv_get key (lk_db l1) = kv_get key (lk_db l3)) /\
        kv_get (addr_key a0) (lk_db l1) = kv_get (addr_key a0) (lk_db l))).
  { intros S.
    assert (E0 := RT l eq_refl S). rewrite E0 in E3. injection E3 as <-.
    assert (OW : op_writes g l o = ([update_leash a i], Ok tt)).
    { destruct S as [S|(x & y & ->)]; [now apply exec_known|]. cbn in T. injection T as <- <-. reflexivity. }
    unfold exec in E1. rewrite OW in E1. destruct k as [|k]; cbn in E1; injection E1 as <- <-.
    - rewrite with_db_same. split; [exact E0|]. auto.
    - split; [|auto].
      rewrite RT; auto.
      + cbn [with_db lk_db lk_genesis]. rewrite kv_put_twice by apply (R_sorted R). reflexivity.
      + destruct S as [S|S]; auto. left.
        assert (R1 := set_leash_view R SM WA WI). cbv zeta in R1.
        apply (v_has_true (s := st_set_leash a i s) R1 SM WI). now apply (v_has_true R SM WI). }
  assert (MD : (exists x y, o = Move x y) \/ (forall x y, o <> Move x y)).
  { destruct o as [? ?|? ?|x y|]; [right|right|left|right]; try (intros; discriminate). eauto. }
  destruct MD as [MV|NM]; [apply KN; auto|].
  destruct (stored_dec (st_blocks s) i) as [S|S].
  { apply KN. left. now apply (v_has_true R SM WI). }
  assert (NS : lk_has_block l i <> Ok true) by (apply (v_has_false R SM WI) in S; congruence).
  destruct (exec_new T NS NM E3) as (bt & OW).
  assert (Q := op_refines g R SM WO). rewrite OW in Q.
  assert (E3' := E3). unfold exec in E3'. rewrite OW in E3'. cbn [apply_writes fold_left] in E3'. injection E3' as <-.
  set (d1 := apply_batch (lk_db l) bt) in *.
  assert (SE : snd (sexec s o None) = Ok tt).
  { destruct (exec_refines g None R SM WO) as (_ & RE & _). rewrite <- RE, E3. reflexivity. }
  (* after the first write the block is stored *)
  assert (R1S : exists s1, Rep d1 s1 /\ small (st_blocks s1) /\ stored (st_blocks s1) i /\ st_leash s1 = st_leash s).
  { destruct (effects s o) as [fs r'] eqn:EF. destruct Q as (_ & L & Q). specialize (Q 1).
    change (apply_writes (lk_db l) (firstn 1 [bt; update_leash a i])) with d1 in Q.
    exists (apply_effects s (firstn 1 fs)). split; [exact Q|].
    pose proof (effects_length s o 1) as EL. rewrite EF in EL. cbn [fst] in EL.
    split; [unfold small; lia|].
    destruct o as [b' a'|m' a'|i' a'|]; cbn in T; try discriminate; injection T as <- <-; cbn [effects] in EF;
      rewrite (chain_nil S) in EF.
    - destruct (chain (st_blocks s) (pb_parent b')); [injection EF as <- <-; discriminate|].
      destruct (pb_gen b'); [|injection EF as <- <-; discriminate].
      destruct (_ <? _)%N; injection EF as <- <-; [discriminate|]. cbn. split; [apply stored_cons; left|]; reflexivity.
    - destruct (chain (st_blocks s) (mi_ref m')) as [|r0 c0]; [injection EF as <- <-; discriminate|].
      destruct (e_parent r0); injection EF as <- <-; [|discriminate]. cbn. split; [apply stored_cons; left|]; reflexivity. }
  destruct R1S as (s1 & R1 & SM1 & S1 & LS).
  assert (G1 : lk_has_block (with_db l d1) i = Ok true) by now apply (v_has_true (l := with_db l d1) R1 SM1 WI).
  unfold exec in E1. rewrite OW in E1. destruct k as [|[|k]]; cbn [length Nat.ltb Nat.leb firstn] in E1; injection E1 as <- <-.
  - cbn [apply_writes fold_left]. rewrite with_db_same. split; [|auto]. exact E3.
  - cbn [apply_writes fold_left]. fold d1. split.
    + rewrite RT; auto.
    + right. right. exists a, i. split; auto. split; auto. split; auto. split.
      * intros key N. cbn. symmetry. now apply kv_get_put_neq.
      * cbn [with_db lk_db]. rewrite (R_leash R1 a WA), (R_leash R a WA), LS. reflexivity.
  - cbn [apply_writes fold_left]. fold d1. split; [|auto].
    assert (R2 := set_leash_view (l := with_db l d1) R1 SM1 WA WI). cbn in R2.
    rewrite RT; auto.
    + cbn [with_db lk_db lk_genesis]. unfold update_leash, apply_batch. cbn [fold_left apply_bop put_leash].
      rewrite kv_put_twice by apply (R_sorted R1). reflexivity.
    + left. apply (v_has_true (l := with_db l (kv_put (addr_key a) (VBytes i) d1)) (s := st_set_leash a i s1) R2 SM1 WI).
      exact S1.
Qed.

(** * C24: reopening *)
Lemma reopen_same : forall g ops l g', reachable g ops l -> new_linkage (lk_db l) g' = Ok ([], pb_id g').
Proof.
  intros g ops l g' H. destruct (reach_view H) as (s & Es & R & GE & BD & SM).
  unfold new_linkage, initialize. rewrite (rep_counter_blocks R SM). cbn [bind].
  destruct (N.eqb_spec (N.of_nat (length (st_blocks s))) 0) as [E|E]; [|reflexivity].
  assert (st_blocks s = []) by (destruct (st_blocks s); [reflexivity|discriminate]).
  pose proof (genesis_stored g ops) as S. rewrite <- Es, H0 in S. now apply stored_nil in S.
Qed.
Lemma reopen_exec : forall g ops l f, reachable g ops l -> exec g l Reopen f = (l, Ok tt).
Proof.
  intros g ops l f H. unfold exec, op_writes. rewrite (reopen_same g H). cbn.
  destruct f; cbn; now rewrite with_db_same.
Qed.

(** * C26: keys *)
Lemma cons_inv : forall A (x y : A) r r', x :: r = y :: r' -> r = r'.
Proof. intros. congruence. Qed.
Lemma key_inj : forall k1 k2, wf_key k1 -> wf_key k2 -> key_of k1 = key_of k2 -> k1 = k2.
Proof.
  assert (NK : forall n p q r, num_key p n = q :: r -> length r = 8).
  { intros n p q r E. apply cons_inv in E. rewrite <- E. apply be_length. }
  intros k1 k2 W1 W2 E. destruct k1 as [c|i|n|n|a|n|n], k2 as [c'|i'|n'|n'|a'|n'|n']; try discriminate E; cbn [key_of wf_key] in *.
  - unfold counter_key in E. congruence.
  - unfold id_key in E. congruence.
  - exfalso. unfold id_key in E. symmetry in E. apply NK in E. destruct W1; lia.
  - exfalso. unfold id_key in E. apply NK in E. destruct W2; lia.
  - apply cons_inv in E. f_equal. now apply be8_inj.
  - apply cons_inv in E. f_equal. now apply be8_inj.
  - f_equal. assert (Q := addr_key_roundtrip W1). rewrite E, (addr_key_roundtrip W2) in Q. congruence.
  - apply cons_inv in E. f_equal. now apply be8_inj.
  - apply cons_inv in E. f_equal. now apply be8_inj.
Qed.
Lemma key_order : forall p n m, (n < 2 ^ 64)%N -> (m < 2 ^ 64)%N -> bcmp (num_key p n) (num_key p m) = N.compare n m.
Proof. intros. unfold num_key. rewrite bcmp_cons. now apply be8_cmp. Qed.
Lemma scan_heads : forall k, wf_key k ->
  (bleb (num_key headToBlockPrefix 0) (key_of k) && bltb (key_of k) (num_key headToBlockPrefix (2 ^ 64 - 1)) = true <->
   exists n, k = KHead n /\ (n < 2 ^ 64 - 1)%N).
Proof.
  intros k W. split.
  - intros H. apply andb_true_iff in H as [A B]. unfold num_key in A, B. destruct (range_prefix A B) as [r E].
    destruct k as [c|i|n|n|a|n|n]; cbn [key_of] in *; try discriminate E. exists n. split; auto.
    unfold bltb in B. fold (num_key headToBlockPrefix (2 ^ 64 - 1)) in B. rewrite key_order in B; [|exact W|reflexivity].
    destruct (N.compare_spec n (2 ^ 64 - 1)); try discriminate. assumption.
  - intros (n & -> & B). cbn [key_of wf_key] in *. unfold bleb, bltb. rewrite !key_order by (try exact W; reflexivity).
    destruct (N.compare_spec 0 n), (N.compare_spec n (2 ^ 64 - 1)); try reflexivity; lia.
Qed.
Lemma scan_leashes : forall k, wf_key k ->
  (bleb leashes_start (key_of k) && bltb (key_of k) leashes_limit = true <-> exists a, k = KLeash a /\ a <> all_ones).
Proof.
  intros k W. split.
  - intros H. apply andb_true_iff in H as [A B]. unfold leashes_start, leashes_limit, addr_key in A, B.
    destruct (range_prefix A B) as [r E]. destruct k as [c|i|n|n|a|n|n]; cbn [key_of] in *; try discriminate E.
    exists a. split; auto. intros ->. unfold bltb in B. change (addr_key all_ones) with (leashPrefix :: addr_bytes all_ones) in B.
    change (addr_bytes (A6 (repeat xff 16) [])) with (addr_bytes all_ones) in B. rewrite bcmp_refl in B. discriminate.
  - intros (a & -> & N). cbn [key_of wf_key] in *. unfold leashes_start, leashes_limit, addr_key, bleb, bltb.
    rewrite !bcmp_cons. apply andb_true_iff. cbn [addr_bytes]. split.
    + assert (Q := @zeros_le 4 (addr_bytes a)). destruct (addr_len W) as [L|L]; rewrite L in Q;
      destruct (bcmp (repeat x00 4) (addr_bytes a)); auto; exfalso; apply Q; auto; lia.
    + rewrite ones_lt; auto; [destruct (addr_len W) as [L|L]; rewrite L; lia|].
      intros E. apply N. destruct a as [|x|x z]; cbn in W, E; [tauto| |]; subst; [discriminate|]. destruct W as [_ ->]. reflexivity.
Qed.
Lemma put_other : forall (d : db) k1 k2 v, wf_key k1 -> wf_key k2 -> k1 <> k2 ->
  kv_get (key_of k2) (kv_put (key_of k1) v d) = kv_get (key_of k2) d /\
  kv_get (key_of k2) (kv_del (key_of k1) d) = kv_get (key_of k2) d.
Proof.
  intros d k1 k2 v W1 W2 N. assert (E : key_of k2 <> key_of k1) by (intros E; apply N; symmetry; now apply key_inj).
  split; [now apply kv_get_put_neq | now apply kv_get_del_neq].
Qed.

(** * Blocks PutBlock does not store *)
Lemma put_bad : forall g ops l b a f, reachable g ops l -> wf_pblock b -> wf_addr a ->
  lk_has_block l (pb_id b) = Ok false -> lk_has_block l (pb_parent b) = Ok true ->
  (pb_gen b = None -> exec g l (Put b a) f = (l, Err EOther)) /\
  (pb_gen b <> None -> (max_int64 < pb_bt b)%N -> exec g l (Put b a) f = (l, Panic)).
Proof.
  intros g ops l b a f H WB WA F SP. destruct (reach_view H) as (s & Es & R & GE & BD & SM).
  assert (WO : wf_op (Put b a)) by (split; auto).
  apply (v_has_false R SM (proj1 WB)) in F. apply (v_has_true R SM (proj1 (proj2 WB))) in SP.
  assert (Q := op_refines g R SM WO). destruct (op_writes g l (Put b a)) as [ws r] eqn:OW.
  cbn [effects] in Q. rewrite (chain_nil F) in Q. destruct (chain_hd SP) as (p & cp & CP & _). rewrite CP in Q.
  assert (X : forall r', r = r' -> ws = [] -> exec g l (Put b a) f = (l, r')).
  { intros r' -> ->. unfold exec. rewrite OW. destruct f; cbn; now rewrite with_db_same. }
  destruct (pb_gen b); split; try congruence; intros; [|destruct Q as (-> & L & _); apply X; auto; now destruct ws].
  destruct (N.ltb_spec max_int64 (pb_bt b)); [|lia]. destruct Q as (-> & L & _). apply X; auto. now destruct ws.
Qed.
Lemma put_big_ts : forall g ops l b a ga, reachable g ops l -> wf_pblock b -> wf_addr a ->
  lk_has_block l (pb_id b) = Ok false -> lk_has_block l (pb_parent b) = Ok true ->
  pb_gen b = Some ga -> (pb_bt b <= max_int64)%N -> (max_int64 <= pb_ts b)%N ->
  exists l', exec g l (Put b a) None = (l', Ok tt) /\ lk_has_block l' (pb_id b) = Ok true /\
    leash l' a = Ok (pb_id b) /\ block l' (pb_id b) = Panic.
Proof.
  intros g ops l b a ga H WB WA F SP G B T. destruct (reach_view H) as (s & Es & R & GE & BD & SM).
  assert (WI := proj1 WB). assert (WP := proj1 (proj2 WB)).
  apply (v_has_false R SM WI) in F. apply (v_has_true R SM WP) in SP.
  assert (WO : wf_op (Put b a)) by (split; auto).
  destruct (step_view g None R BD WO) as (R' & RE & GE' & SM').
  rewrite (sexec_put_new a F SP G B) in *. cbn [fst snd] in *.
  exists (fst (exec g l (Put b a) None)).
  split; [rewrite <- RE; now destruct (exec g l (Put b a) None)|].
  assert (C' : chain (st_blocks (st_set_leash a (pb_id b) (st_add (put_entry b ga) s))) (pb_id b)
               = put_entry b ga :: chain (st_blocks s) (pb_parent b)).
  { cbn [st_set_leash st_add st_blocks]. apply (chain_cons_eq (put_entry b ga) _ (p := pb_parent b) eq_refl). }
  split; [apply (v_has_true R' SM' WI); eapply stored_chain, C'|].
  split. { rewrite (v_leash R' WA), set_leash_get. destruct (addr_eqb_spec a a); [reflexivity|contradiction]. }
  rewrite (v_block R' SM' C'). unfold ts_ok. cbn [put_entry e_ts]. destruct (N.ltb_spec (pb_ts b) max_int64); [lia|reflexivity].
Qed.

Lemma reopen_rep : forall g l s f, Rep (lk_db l) s -> small (st_blocks s) -> exec g l Reopen f = (l, Ok tt).
Proof.
  intros g l s f R SM. assert (Q := op_refines g (o := Reopen) R SM I). unfold exec.
  destruct (op_writes g l Reopen) as [ws r]. cbn [effects] in Q. destruct Q as (-> & L & _).
  destruct ws; [|discriminate]. destruct f; cbn; now rewrite with_db_same.
Qed.

Lemma crash_retry' : forall g ops l o l3 k l1 r1, reachable g ops l -> wf_op o ->
  exec g l o None = (l3, Ok tt) -> exec g l o (Some k) = (l1, r1) ->
  exec g l1 Reopen None = (l1, Ok tt) /\ exec g l1 o None = (l3, Ok tt) /\
  (l1 = l \/ l1 = l3 \/
   exists a i, target o = Some (a, i) /\ r1 = Err EOther /\ lk_has_block l1 i = Ok true /\
     (forall key, key <> addr_key a -> kv_get key (lk_db l1) = kv_get key (lk_db l3)) /\
     kv_get (addr_key a) (lk_db l1) = kv_get (addr_key a) (lk_db l)).
Proof.
  intros g ops l o l3 k l1 r1 H WO E3 E1. split; [|eapply crash_retry; eauto].
  destruct (reach_view H) as (s & Es & R & GE & BD & SM).
  destruct (step_view g (Some k) R BD WO) as (R' & _ & _ & SM'). rewrite E1 in R'. eapply reopen_rep; eauto.
Qed.

Lemma score_strict : forall g ops l i e b pb, reachable g ops l -> In e (hist g ops) -> e_id e = i ->
  block l i = Ok b -> block l (b_parent b) = Ok pb -> i <> pb_id g ->
  (b_score b = b_score pb + e_own e)%Z /\ (b_score pb <= b_score b)%Z /\
  (forall bt, (1 <= bt <= max_int64)%N -> e_own e = block_score bt -> (b_score pb < b_score b)%Z).
Proof.
  intros g ops l i e b pb H IE ID B PB NG. destruct (reach_view H) as (s & Es & R & GE & BD & SM).
  assert (HE : hist g ops = st_blocks s) by (unfold hist; now rewrite Es). rewrite HE in IE.
  assert (W : wf_id i) by (apply (stored_wf (R_wf R)); exists e; auto).
  destruct (score_spec H W B) as (_ & _ & _ & Q). destruct (Q NG) as (bt & BB & Q1). destruct (Q1 _ PB) as [Q2 _].
  destruct (v_block_Ok R SM W B) as (e' & c & C & T & ->).
  assert (e' = e).
  { apply (entry_unique (R_wf R)); auto; [eapply chain_In; rewrite C; now left|]. rewrite ID. eapply chain_hd_id, C. }
  subst e'. cbn [block_of b_parent b_score] in *.
  assert (P := WF_parent (R_wf R) C). destruct (e_parent e) as [p|] eqn:PE.
  - destruct P as [SP ->]. assert (WP := stored_wf (R_wf R) SP).
    destruct (v_block_Ok R SM WP PB) as (e1 & c1 & C1 & _ & ->). cbn [block_of b_score] in *. rewrite <- C1 in *.
    cbn [sum_own fold_right] in *. fold (sum_own (chain (st_blocks s) p)) in *.
    pose proof (@block_score_nonneg bt). split; [lia|]. split; [lia|].
    intros bt' B' E'. pose proof (block_score_pos B'). lia.
  - exfalso. apply NG. apply (genesis_iff (e := e) (c := c) H); auto. now rewrite HE.
Qed.

Lemma put_other_cases : forall g ops l b a, reachable g ops l -> wf_pblock b -> wf_addr a ->
  lk_has_block l (pb_id b) = Ok false -> lk_has_block l (pb_parent b) = Ok true ->
  (pb_gen b = None -> forall f, exec g l (Put b a) f = (l, Err EOther)) /\
  (pb_gen b <> None -> (max_int64 < pb_bt b)%N -> forall f, exec g l (Put b a) f = (l, Panic)) /\
  (pb_gen b <> None -> (pb_bt b <= max_int64)%N -> (max_int64 <= pb_ts b)%N ->
     exists l', exec g l (Put b a) None = (l', Ok tt) /\ lk_has_block l' (pb_id b) = Ok true /\
       leash l' a = Ok (pb_id b) /\ block l' (pb_id b) = Panic).
Proof.
  intros g ops l b a H WB WA F SP. split; [|split].
  - intros G f. now apply (put_bad f H WB WA F SP).
  - intros G B f. now apply (put_bad f H WB WA F SP).
  - intros G B T. destruct (pb_gen b) as [ga|] eqn:E; [|congruence]. eapply put_big_ts; eauto.
Qed.
Lemma lca_short : forall g ops l i j k, reachable g ops l ->
  wf_id i -> wf_id j -> lk_has_block l i = Ok true -> lk_has_block l j = Ok true -> is_lca (hist g ops) i j k ->
  Nat.min (height (hist g ops) i) (height (hist g ops) j) <= 3 * height (hist g ops) k + 1 -> lca (lk_db l) i j = Ok k.
Proof.
  intros g ops l i j k H WI WJ SI SJ L B. destruct (lca_exact H WI WJ SI SJ) as (k' & L' & Q & _). cbv zeta in Q.
  assert (k = k').
  { destruct (reach_view H) as (s & Es & R & _). unfold hist in *. rewrite <- Es in *. eapply is_lca_unique; eauto. }
  subst k'. apply Q, safe_short. lia.
Qed.
Lemma leashes_full : forall g ops l, reachable g ops l -> exists ls, lk_leashes l = Ok ls /\ NoDup (map fst ls) /\
  (forall a i, In (a, i) ls -> wf_addr a /\ leash l a = Ok i /\ has_leash l a = Ok true) /\
  forall a, wf_addr a -> a <> all_ones ->
    forall i, In (a, i) ls <-> has_leash l a = Ok true /\ leash l a = Ok i.
Proof.
  intros g ops l H. destruct (leashes_spec H) as (ls & E & ND & Q). exists ls. split; auto. split; auto. split; auto.
  intros a i I. eapply leashes_only; eauto.
Qed.
Lemma reopen_both : forall g ops l g' f, reachable g ops l ->
  new_linkage (lk_db l) g' = Ok ([], pb_id g') /\ exec g l Reopen f = (l, Ok tt).
Proof. intros. split; [eapply reopen_same|eapply reopen_exec]; eauto. Qed.
