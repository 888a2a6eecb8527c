(** From the peers to the loader in the running process (C86): distributor.go:84-100, 207-213, 265-281, loader.go:160-183. *)
From Verif Require Import Base Kv ChainModel ChainSpec ChainExample PeersModel PeersSpec PeersProofs PeersCalls PeersProps LoadModel LoadSpec LoadProofs LoadRule LoadLoop LoadProps
  NetModel NetSpec NetProps FeedProps WholeModel WholeSpec WholeProofs WholeProps DialProofs.
Set Implicit Arguments.
Unset Strict Implicit.

(** What the loader's select can receive: what the distributor offers, or a timer that runs. *)
Definition offered (t : turn) (l : loader) (v : whole) : option input :=
  match t with
  | TMove _ => None
  | TSync _ => if l_timer l then Some InSync else None
  | TTick _ => if l_ticker l then Some InTick else None
  | TTake _ => match o_dist v with DSending (PIDs a ids) => Some (InIDs a ids) | DSending (PBlock a b) => Some (InBlock a (Some b)) | _ => None end
  end.
Definition packages (i : input) : list package := match i with InIDs a ids => [PIDs a ids] | InBlock a (Some b) => [PBlock a b] | _ => [] end.
Definition opt {A} (o : option A) : list A := match o with Some x => [x] | None => [] end.
(** What the other goroutines do during the turn. *)
Definition moves_of (t : turn) : list (list move) := match t with TMove _ => [] | TSync ms | TTick ms | TTake ms => ms end.
(** The package the distributor waits to send. *)
Definition flight (v : whole) : list package := match o_dist v with DSending p => [p] | _ => [] end.

Section Deliver.
Variable cfg : config.
Variable g : pblock.
Variable ord : list group -> list group.
Variable cord : list (addr * conn) -> list (addr * conn).
Variable srt : list Peer -> list Peer.
Notation mstep := (move_step cfg g cord srt).
Notation others := (others cfg g cord srt).
Notation ww := (whole_world cfg g ord cord srt).
Notation tstep := (turn_step cfg g ord cord srt).
Notation process := (process cfg g ord cord srt).

(** All that the loader has received. *)
Fixpoint inputs (l : loader) (v : whole) (ts : list turn) : list input :=
  match ts with
  | [] => []
  | t :: ts' => opt (offered t l v) ++ (let '((l1, v1), _) := tstep l v t in inputs l1 v1 ts')
  end.

Lemma served_snoc : forall rs ps r p, served rs ps -> sent_for r p -> served (rs ++ [r]) (ps ++ opt p).
Proof.
  intros rs ps r p S H. induction S; cbn [app].
  - destruct H as [(a & ids & A & ->)|[(a & b & A & [-> | ->])|(A & B & ->)]]; cbn [opt].
    + exact (served_ids A served_nil).
    + exact (served_block A served_nil).
    + exact (served_kept A served_nil).
    + exact (served_none A B served_nil).
  - now apply served_ids.
  - now apply served_block.
  - now apply served_kept with a b.
  - now apply served_none.
Qed.

Definition balance (ps : list package) (v : whole) : Prop := o_dead v = false -> served (o_seen v) (ps ++ flight v).
Lemma registered_balance : forall ps v r o h, balance ps v -> balance ps (registered v r o h).
Proof. intros ps v r o h B. destruct o; try exact B; intros D; discriminate D. Qed.
Lemma move_balance : forall ps v m, balance ps v -> balance ps (mstep v m).
Proof.
  intros ps v m B. unfold move_step. destruct (o_dead v) eqn:D; [exact B|]. destruct m as [x a|[clock|]|x n|x n up|x [a|]|t]; try exact B.
  - destruct (o_dist v) eqn:O; try exact B. destruct (handle _ _ _ _ _ _ _) as [[d ss] [p|e| |]] eqn:H; try exact B; try (intros Q; discriminate Q).
    intros _. cbn [set_dist set_real set_seen o_seen]. specialize (B D). unfold flight in B. rewrite O, app_nil_r in B.
    assert (F : forall w, flight (set_dist w (after_send p)) = opt p) by (intros w; destruct p; reflexivity). rewrite F.
    apply served_snoc; [exact B|]. exact (handle_sends H).
  - destruct (o_armed v); [|exact B]. destruct (take_available _ _ _) as [r [l|e| |]]; apply (registered_balance (v := v)); exact B.
  - destruct (o_armed v); exact B.
  - destruct (nth_error _ _) as [[a|a|a]|]; try exact B. destruct (suggest_version _ _ _ _ _) as [r []]; apply (registered_balance (v := v)); exact B.
  - destruct (nth_error _ _) as [[a|a|a]|]; try destruct up; try exact B; unfold hung_up; destruct (unregister_peer _ _ _ _); apply (registered_balance (v := v)); exact B.
  - destruct (suggest_version _ _ _ _ _). now apply registered_balance.
Qed.
Lemma others_balance : forall ps ms v, balance ps v -> balance ps (others v ms).
Proof. induction ms as [|m ms IH]; intros v B; [exact B|]. cbn [WholeModel.others fold_left]. apply IH. now apply move_balance. Qed.
Lemma call_balance : forall ps c v, balance ps v -> balance ps (fst (ww c v)).
Proof.
  intros ps c v B. rewrite world_at. cbn [fst]. change (balance ps (others v (hd [] (o_todo v)))). now apply others_balance.
Qed.
Lemma handling_balance : forall ps i l v ms, balance ps v -> balance ps (snd (fst (handling cfg g ord cord srt i l v ms))).
Proof.
  intros ps i l v ms B. unfold handling.
  pose proof (@step_all _ ww (fun x y => balance ps x -> balance ps y) (fun _ H => H) (fun _ _ _ H Q R => Q (H R)) (call_balance (ps := ps)) i l (set_todo v ms) B) as S1.
  destruct (loader_step ww i l (set_todo v ms)) as [[l1 v1] r1]. exact S1.
Qed.
Lemma turn_balance : forall ps t l v, balance ps v -> o_dead v = false ->
  balance (ps ++ flat_map packages (opt (offered t l v))) (snd (fst (tstep l v t))).
Proof.
  intros ps [m|ms|ms|ms] l v B D; cbn [turn_step offered].
  - cbn [opt flat_map]. rewrite app_nil_r. now apply move_balance.
  - destruct (l_timer l); cbn [opt flat_map packages app]; rewrite app_nil_r; [now apply handling_balance|exact B].
  - destruct (l_ticker l); cbn [opt flat_map packages app]; rewrite app_nil_r; [now apply handling_balance|exact B].
  - destruct (o_dist v) as [|p|] eqn:O; try (cbn [opt flat_map]; rewrite app_nil_r; exact B).
    apply handling_balance. intros _. specialize (B D). unfold flight in B. rewrite O in B. cbn [set_dist o_seen flight o_dist]. rewrite app_nil_r.
    destruct p; cbn [opt flat_map packages app] in *; exact B.
Qed.
Lemma process_balance : forall ts ps l v l' v', balance ps v -> o_dead v = false -> process l v ts = ((l', v'), Ok tt) ->
  balance (ps ++ flat_map packages (inputs l v ts)) v'.
Proof.
  induction ts as [|t ts IH]; intros ps l v l' v' B D E; cbn [WholeModel.process inputs] in *.
  - injection E as <- <-. cbn [flat_map]. now rewrite app_nil_r.
  - pose proof (@turn_balance ps t l v B D) as B1. destruct (tstep l v t) as [[l1 v1] r1]. cbn [fst snd] in B1. rewrite flat_map_app, app_assoc.
    destruct r1; try discriminate E; (destruct (o_dead v1) eqn:D1; [discriminate E|]; now apply (IH _ l1 v1 l')).
Qed.

Definition running (l : loader) : Prop := busy_ticker l /\ l_timer l = true.
Lemma handling_running : forall i l v ms l' v' r, handling cfg g ord cord srt i l v ms = ((l', v'), r) -> returned r -> running l -> running l'.
Proof.
  intros i l v ms l' v' r H R [A B]. unfold handling in H. rewrite unlogged in H.
  destruct (loader_step (logging ww) i l (set_todo v ms, [])) as [[l1 [v1 es]] r1] eqn:E. injection H as <- <- <-.
  destruct (step_tracks E R) as (X & Y & _). split; auto.
Qed.
Lemma process_running : forall ts l v l' v', running l -> process l v ts = ((l', v'), Ok tt) -> running l'.
Proof.
  induction ts as [|t ts IH]; intros l v l' v' R E; cbn [WholeModel.process] in E; [injection E as <- <-; exact R|].
  assert (T : forall l1 v1 r1, tstep l v t = ((l1, v1), r1) -> returned r1 -> running l1).
  { intros l1 v1 r1 Q RR. assert (ID : ((l, v), Ok tt) = ((l1, v1), r1) -> running l1) by (intros [= <- _ _]; exact R).
    destruct t as [m|ms|ms|ms]; cbn [turn_step] in Q.
    - injection Q as <- _ _. exact R.
    - destruct (l_timer l); [|auto]. eapply handling_running; eauto.
    - destruct (l_ticker l); [|auto]. eapply handling_running; eauto.
    - destruct (o_dist v); auto. eapply handling_running; eauto. }
  destruct (tstep l v t) as [[l1 v1] r1]. specialize (T _ _ _ eq_refl).
  destruct r1; try discriminate E; (destruct (o_dead v1); [discriminate E|]; apply (IH l1 v1 l' v'); auto; apply T; exact Logic.I).
Qed.
End Deliver.

(** * C86 *)
(** A turn of the loader is its reaction to what its select receives; otherwise only the other goroutines move. What is taken from
    the distributor is gone from it. *)
Theorem C86_select : forall cfg g ord cord srt l v t,
  match offered t l v with
  | None => turn_step cfg g ord cord srt l v t = ((l, match t with TMove m => move_step cfg g cord srt v m | _ => v end), Ok tt)
  | Some i => exists u, o_real u = o_real v /\ o_seen u = o_seen v /\ o_dead u = o_dead v /\ flight u = (match t with TTake _ => [] | _ => flight v end) /\ o_todo u = moves_of t /\
      let '((l1, u1), r1) := loader_step (whole_world cfg g ord cord srt) i l u in turn_step cfg g ord cord srt l v t = ((l1, set_todo u1 []), r1)
  end.
Proof.
  intros cfg g ord cord srt l v [m|ms|ms|ms]; cbn [offered turn_step moves_of].
  - reflexivity.
  - destruct (l_timer l); [|reflexivity]. exists (set_todo v ms). repeat split. unfold handling. now destruct (loader_step _ _ _ _) as [[l1 u1] r1].
  - destruct (l_ticker l); [|reflexivity]. exists (set_todo v ms). repeat split. unfold handling. now destruct (loader_step _ _ _ _) as [[l1 u1] r1].
  - destruct (o_dist v) as [|p|]; try reflexivity.
    destruct p; exists (set_todo (set_dist v DSelect) ms); repeat split; unfold handling; cbn [input_of]; now destruct (loader_step _ _ _ _) as [[l1 u1] r1].
Qed.
Print Assumptions C86_select.

(** Everything peers announce reaches the loader, once and in the order of the arrivals; at most one package is still to be sent. *)
Theorem C86_delivered : forall cfg g ord cord srt x ts l v,
  process cfg g ord cord srt new_loader (begun x) ts = ((l, v), Ok tt) ->
  served (o_seen v) (flat_map packages (inputs cfg g ord cord srt new_loader (begun x) ts) ++ flight v) /\ length (flight v) <= 1.
Proof.
  intros cfg g ord cord srt x ts l v E. split; [|unfold flight; destruct (o_dist v); cbn; lia].
  assert (B : balance [] (begun x)) by (intros _; exact served_nil). apply (process_balance (ps := []) B eq_refl E).
  eapply process_alive; [|exact E]. reflexivity.
Qed.
Print Assumptions C86_delivered.

(** While the process runs, the timer of the synchronisations is set, and that of the timeouts if there is a current peer: neither
    a new synchronisation nor the end of one is ever forgotten. *)
Theorem C86_timers : forall cfg g ord cord srt x ts l v, process cfg g ord cord srt new_loader (begun x) ts = ((l, v), Ok tt) ->
  l_timer l = true /\ (l_pl l <> None -> l_ticker l = true).
Proof.
  intros cfg g ord cord srt x ts l v E. assert (R : running new_loader) by (split; [intros Q; contradiction Q; reflexivity|reflexivity]).
  destruct (process_running R E). auto.
Qed.
Print Assumptions C86_timers.

(** While the distributor waits for the loader, it receives nothing. *)
Theorem C86_waits : forall cfg g cord srt v p x a, o_dist v = DSending p -> move_step cfg g cord srt v (VArrive x a) = v.
Proof. intros cfg g cord srt v p x a O. unfold move_step. rewrite O. now destruct (o_dead v). Qed.
Print Assumptions C86_waits.

Example C86_example :
  inputs xcfg xg (@asis _) (@asis _) (@asis _) new_loader (begun (xblank [] [])) busy_day =
    [InBlock pa (Some (xblk 1 0)); InSync; InBlock pb (Some (xblk 4 1)); InIDs pa [xid 1; xid 2; xid 3]; InBlock pa (Some (xblk 3 2)); InBlock pa (Some (xblk 2 1)); InTick] /\
  length (o_seen (end_of busy_day)) = 7 /\ flight (end_of busy_day) = [].
Proof. split; [|split]; vm_compute; reflexivity. Qed.
