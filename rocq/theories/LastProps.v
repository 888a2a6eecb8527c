(** Where exactly the last life is cut off (C79). *)
From Verif Require Import Base Kv BytesFacts ChainModel ChainSpec ChainProofs ChainExample PeersModel PeersSpec PeersProps LoadModel LoadSpec LoadProofs LoadSim LoadRule LoadUpto
  LoadReal LoadProps NetModel NetSpec NetProps WholeModel WholeSpec WholeProofs WholeProps LifeModel LifeSpec LifeProofs LifeProps.
Set Implicit Arguments.
Unset Strict Implicit.

(** * Specification *)
Section Spec.
Variable cfg : config.
Variable g : pblock.
Variable ord : list group -> list group.
Variable cord : list (addr * conn) -> list (addr * conn).
Variable srt : list Peer -> list Peer.
(** The living process, with the states in which the loader makes its calls. *)
Definition watching : world (whole * list whole) := fun c vs =>
  let (v, r) := whole_world cfg g ord cord srt c (fst vs) in ((v, snd vs ++ [fst vs]), r).
Definition moments (i : input) (l : loader) (v : whole) (ms : list (list move)) : list whole :=
  snd (snd (fst (loader_step watching i l (set_todo v ms, [])))).
(** What the loader does in a turn, if anything. *)
Definition at_work (l : loader) (v : whole) (t : turn) : option (input * whole * list (list move)) :=
  match t with
  | TMove _ => None
  | TSync ms => if l_timer l then Some (InSync, v, ms) else None
  | TTick ms => if l_ticker l then Some (InTick, v, ms) else None
  | TTake ms => match o_dist v with DSending p => Some (input_of p, set_dist v DSelect, ms) | _ => None end
  end.
(** The others have moved, and the call that was about to begin is not made. *)
Definition cut (v : whole) : whole := set_todo (others cfg g cord srt v (hd [] (o_todo v))) (tl (o_todo v)).

(** * Proofs *)
Notation ww := (whole_world cfg g ord cord srt).
Notation dw := (dying cfg g ord cord srt).
Lemma watching_sim : simulates watching ww (@fst whole (list whole)).
Proof. intros c [v vs]. unfold watching. cbn [fst snd]. now destruct (ww c v) as [v' r]. Qed.

Section N.
Variable n : nat.
Definition alike (u : whole * list whole) (w : whole * option nat) : Prop := length (snd u) <= n /\ w = (fst u, Some (n - length (snd u))).
Definition passed (z : whole) (u : whole * list whole) : Prop := exists v, nth_error (snd u) n = Some v /\ z = cut v.
Definition ended (z : whole) (w : whole * option nat) : Prop := w = (z, None).
Lemma call_alike : forall c u w, alike u w -> agree alike passed ended (watching c u) (dw c w).
Proof.
  intros c [v vs] w [L ->]. cbn [fst snd] in *. unfold watching, dying. cbn [fst snd]. destruct (n - length vs) as [|k] eqn:E.
  - right. exists (cut v). destruct (ww c v) as [v' r]. cbn [fst snd]. split; [|reflexivity]. exists v. split; [|reflexivity].
    cbn [snd]. rewrite nth_error_app2 by lia. now replace (n - length vs) with 0 by lia.
  - left. destruct (ww c v) as [v' r]. cbn [fst snd]. split; [|reflexivity]. split; cbn [fst snd]; rewrite app_length; cbn [length]; [lia|]. f_equal. f_equal. lia.
Qed.
Lemma passed_keep : forall z c u, passed z u -> passed z (fst (watching c u)).
Proof.
  intros z c [v vs] (u & N & ->). unfold watching. destruct (ww c v) as [v' r] eqn:E. cbn [fst snd] in *. rewrite E. cbn [fst].
  exists u. split; [|reflexivity]. cbn [snd]. rewrite nth_error_app1; [exact N|]. apply nth_error_Some. congruence.
Qed.
Lemma ended_keep : forall z c w, ended z w -> ended z (fst (dw c w)).
Proof. intros z c w ->. reflexivity. Qed.
End N.

Lemma last_handling_at : forall i l v ms n, last_handling cfg g ord cord srt i l v ms n =
  match nth_error (moments i l v ms) n with Some u => cut u | None => snd (fst (loader_step ww i l (set_todo v ms))) end.
Proof.
  intros i l v ms n. unfold last_handling, moments.
  pose proof (@step_upto _ _ _ watching dw (alike n) (passed n) ended (@call_alike n) (@passed_keep n) ended_keep i l (set_todo v ms, []) (set_todo v ms, Some n)
    (conj (Nat.le_0_l n) (f_equal (fun k => (set_todo v ms, Some k)) (eq_sym (Nat.sub_0_r n))))) as K.
  pose proof (@loader_step_sim _ _ watching ww (@fst _ _) watching_sim i l (set_todo v ms, [])) as S. cbn [fst] in S.
  destruct (loader_step watching i l (set_todo v ms, [])) as ((l1 & v1 & vs) & r1). destruct (loader_step dw i l (set_todo v ms, Some n)) as ((l2 & v2 & k) & r2).
  rewrite S. unfold lonto. cbn [fst snd] in *. destruct K as [[[E [L R]] E2]|(z & (u & N & ->) & R)]; cbn [fst snd] in *.
  - injection R as -> ->. destruct (nth_error vs n) eqn:Q; [|reflexivity]. exfalso. assert (nth_error vs n <> None) by congruence. apply nth_error_Some in H. lia.
  - rewrite N. now injection R.
Qed.

(** The moments and the calls. *)
Definition in_step (a b : whole * list whole) : Prop := exists new vs, o_calls (fst b) = o_calls (fst a) ++ new /\ snd b = snd a ++ vs /\ length vs = length new /\
  forall k u, nth_error vs k = Some u -> o_calls u = o_calls (fst a) ++ firstn k new.
Lemma in_step_refl : forall a, in_step a a.
Proof. intros a. exists [], []. rewrite !app_nil_r. repeat split; auto. intros [|k] u; discriminate. Qed.
Lemma in_step_trans : forall a b c, in_step a b -> in_step b c -> in_step a c.
Proof.
  intros a b c (n1 & v1 & A1 & B1 & C1 & D1) (n2 & v2 & A2 & B2 & C2 & D2). exists (n1 ++ n2), (v1 ++ v2). rewrite A2, A1, B2, B1, !app_assoc, !app_length.
  split; [reflexivity|]. split; [reflexivity|]. split; [lia|]. intros k u N. destruct (Nat.lt_ge_cases k (length v1)) as [L|L].
  - rewrite nth_error_app1 in N by exact L. rewrite (D1 k u N). f_equal. rewrite firstn_app. replace (k - length n1) with 0 by lia. now rewrite app_nil_r.
  - rewrite nth_error_app2 in N by exact L. rewrite (D2 _ u N), A1, <- app_assoc. f_equal. rewrite firstn_app, (@firstn_all2 _ k n1) by lia. now rewrite C1.
Qed.
Lemma in_step_call : forall c a, in_step a (fst (watching c a)).
Proof.
  intros c [v vs]. unfold watching. cbn [fst snd]. rewrite world_at. cbn [fst snd].
  eexists [_], [v]. cbn [add_call o_calls fst snd]. split; [|split; [reflexivity|split; [reflexivity|]]].
  - f_equal. unfold v_pre. cbn [set_todo o_calls]. exact (proj2 (proj2 (others_grow cfg g cord srt (hd [] (o_todo v)) v))).
  - intros [|[|k]] u; try discriminate. intros [= ->]. cbn [firstn]. now rewrite app_nil_r.
Qed.
Lemma moments_calls : forall i l v ms, exists new, o_calls (snd (fst (handling cfg g ord cord srt i l v ms))) = o_calls v ++ new /\
  length (moments i l v ms) = length new /\ forall k u, nth_error (moments i l v ms) k = Some u -> o_calls u = o_calls v ++ firstn k new.
Proof.
  intros i l v ms. pose proof (@step_all _ watching in_step in_step_refl in_step_trans in_step_call i l (set_todo v ms, [])) as K. unfold moments, handling.
  pose proof (@loader_step_sim _ _ watching ww (@fst _ _) watching_sim i l (set_todo v ms, [])) as S. cbn [fst] in S.
  destruct (loader_step watching i l (set_todo v ms, [])) as ((l1 & v1 & vs) & r1). rewrite S. unfold lonto. cbn [fst snd] in *.
  destruct K as (new & vs' & A & B & C & D). cbn [fst snd app] in *. subst vs. exists new. auto.
Qed.
End Spec.

(** * C79 *)
(** Every state in which a life can end: when the loader was at work, it is the state in which it was about to make its next call,
    after the moves of the others; or else the state after the turn. The calls up to there are the first calls of the whole turn. *)
Theorem C79_last_turn : forall cfg g ord cord srt l v t n, match at_work l v t with
  | None => last_turn cfg g ord cord srt l v t n = snd (fst (turn_step cfg g ord cord srt l v t))
  | Some (i, v0, ms) => turn_step cfg g ord cord srt l v t = handling cfg g ord cord srt i l v0 ms /\
      match nth_error (moments cfg g ord cord srt i l v0 ms) n with
      | Some u => last_turn cfg g ord cord srt l v t n = cut cfg g cord srt u
      | None => set_todo (last_turn cfg g ord cord srt l v t n) [] = snd (fst (turn_step cfg g ord cord srt l v t))
      end
  end.
Proof.
  intros cfg g ord cord srt l v t n.
  assert (X : forall i v0 ms, match nth_error (moments cfg g ord cord srt i l v0 ms) n with
      | Some u => last_handling cfg g ord cord srt i l v0 ms n = cut cfg g cord srt u
      | None => set_todo (last_handling cfg g ord cord srt i l v0 ms n) [] = snd (fst (handling cfg g ord cord srt i l v0 ms)) end).
  { intros i v0 ms. rewrite last_handling_at. destruct (nth_error _ n); [reflexivity|]. unfold handling.
    now destruct (loader_step (whole_world cfg g ord cord srt) i l (set_todo v0 ms)) as ((l1 & v1) & r1). }
  destruct t as [m|ms|ms|ms]; cbn [at_work last_turn turn_step]; [reflexivity|..].
  - destruct (l_timer l); [split; [reflexivity|apply X]|reflexivity].
  - destruct (l_ticker l); [split; [reflexivity|apply X]|reflexivity].
  - destruct (o_dist v); try reflexivity. split; [reflexivity|apply X].
Qed.
Print Assumptions C79_last_turn.
Theorem C79_moments : forall cfg g ord cord srt i l v ms, exists new, o_calls (snd (fst (handling cfg g ord cord srt i l v ms))) = o_calls v ++ new /\
  length (moments cfg g ord cord srt i l v ms) = length new /\
  forall k u, nth_error (moments cfg g ord cord srt i l v ms) k = Some u -> o_calls u = o_calls v ++ firstn k new /\ o_calls (cut cfg g cord srt u) = o_calls v ++ firstn k new.
Proof.
  intros cfg g ord cord srt i l v ms. destruct (moments_calls cfg g ord cord srt i l v ms) as (new & A & B & C). exists new. split; [exact A|]. split; [exact B|].
  intros k u N. split; [now apply C|]. rewrite <- (C k u N). unfold cut. cbn [set_todo o_calls]. exact (proj2 (proj2 (others_grow cfg g cord srt (hd [] (o_todo u)) u))).
Qed.
Print Assumptions C79_moments.
(** The last block of three arrives, and the process is killed while the loader stores them. *)
Definition before_last : loader * whole := fst (xprocess new_loader (begun (xblank [] [])) (li_turns (first_life 0))).
Definition killed_at (n : nat) : whole := last_turn xcfg xg (@asis _) (@asis _) (@asis _) (fst before_last) (snd before_last) (TTake []) n.
Definition xmoments : list whole := match at_work (fst before_last) (snd before_last) (TTake []) with
  | Some (i, v, ms) => moments xcfg xg (@asis _) (@asis _) (@asis _) i (fst before_last) v ms | None => [] end.
Example C79_last_example : length xmoments = 9 /\ map (fun n => length (o_calls (killed_at n)) - length (o_calls (snd before_last))) (seq 0 11) = [0; 1; 2; 3; 4; 5; 6; 7; 8; 9; 9].
Proof. split; vm_compute; reflexivity. Qed.
