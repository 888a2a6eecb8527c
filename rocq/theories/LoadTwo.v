(** The loader in two worlds that answer alike, as long as it makes no call other than requests and readings of the clock after its first
    request: it does not, so it does the same in both. *)
From Verif Require Import Base Kv BytesFacts ChainModel ChainSpec PeersModel PeersSpec LoadModel LoadSpec LoadProofs LoadRule.
Set Implicit Arguments.
Unset Strict Implicit.

(** A request to a peer; a call that leaves the stores alone. *)
Definition is_ask (c : call) : bool := match c with CAskIDs _ _ | CAskBlock _ _ => true | _ => false end.
Definition is_light (c : call) : bool := match c with CAskIDs _ _ | CAskBlock _ _ | CNow => true | _ => false end.
Definition is_report (c : call) : bool := match c with COk _ _ | CFail _ _ => true | _ => false end.

(** The four assumptions: [H] is kept until the first request, [L] afterwards; [B] is for ever; [K]: there is a session. *)
Section TwoWorlds.
Variables U W : Type.
Variable x : world U.
Variable y : world W.
Variables H L : U -> W -> Prop.
Variables B K : U -> Prop.
Record alike : Prop := {
  al_bad : forall c u, B u -> B (fst (x c u));
  al_first : forall c u w, H u w -> is_ask c = false -> B (fst (x c u)) \/ (H (fst (x c u)) (fst (y c w)) /\ snd (x c u) = snd (y c w));
  al_ask : forall c u w, H u w -> is_ask c = true -> B (fst (x c u)) \/ (L (fst (x c u)) (fst (y c w)) /\ snd (x c u) = snd (y c w));
  al_then : forall c u w, L u w -> is_light c = true -> B (fst (x c u)) \/ (L (fst (x c u)) (fst (y c w)) /\ snd (x c u) = snd (y c w));
  al_keep : forall c u, K u -> is_report c = false -> K (fst (x c u));
  al_ok : forall a s u, snd (x (COk a s) u) = Ok true -> K (fst (x (COk a s) u)) }.
Hypothesis al : alike.
Definition same (P : U -> W -> Prop) A (p : U * A) (q : W * A) : Prop := B (fst p) \/ (P (fst p) (fst q) /\ snd p = snd q).
Definition HK (u : U) (w : W) : Prop := H u w /\ K u.
Definition LK (u : U) (w : W) : Prop := L u w /\ K u.
Lemma call_first : forall c u w, HK u w -> is_ask c = false -> is_report c = false -> same HK (x c u) (y c w).
Proof.
  intros c u w [X Y] A R. destruct (al_first al X A) as [Z|[Z1 Z2]]; [now left|]. right. split; [|exact Z2]. split; [exact Z1|]. now apply (al_keep al).
Qed.
Lemma call_ask : forall c u w, HK u w -> is_ask c = true -> same LK (x c u) (y c w).
Proof.
  intros c u w [X Y] A. destruct (al_ask al X A) as [Z|[Z1 Z2]]; [now left|]. right. split; [|exact Z2]. split; [exact Z1|]. apply (al_keep al); [exact Y|]. now destruct c.
Qed.
Lemma call_then : forall c u w, LK u w -> is_light c = true -> same LK (x c u) (y c w).
Proof.
  intros c u w [X Y] A. destruct (al_then al X A) as [Z|[Z1 Z2]]; [now left|]. right. split; [|exact Z2]. split; [exact Z1|]. apply (al_keep al); [exact Y|]. now destruct c.
Qed.
Lemma put_bad : forall a bs u, B u -> B (fst (put_all x a bs u)).
Proof. intros a bs u. apply (@put_all_all _ x (fun p q => B p -> B q)); auto. intros c v. apply (al_bad al). Qed.
Lemma skip_bad : forall a bs u, B u -> B (fst (skip_known x a bs u)).
Proof. intros a bs u. apply (@skip_known_all _ x (fun p q => B p -> B q)); auto. intros c v. apply (al_bad al). Qed.
Lemma asks_bad : forall a bs u, B u -> B (ask_blocks x a bs u).
Proof. intros a bs u. apply (@ask_blocks_all _ x (fun p q => B p -> B q)); auto. intros c v. apply (al_bad al). Qed.
Lemma from_bad : forall i p u, B u -> B (fst (ask_from x i p u)).
Proof. intros a bs u. apply (@ask_from_all _ x (fun p q => B p -> B q)); auto. intros c v. apply (al_bad al). Qed.
Lemma one_bad : forall t p u, B u -> B (fst (fire_one x t p u)).
Proof. intros a bs u. apply (@fire_one_all _ x (fun p q => B p -> B q)); auto. intros c v. apply (al_bad al). Qed.
Lemma loop_bad : forall n p u, B u -> B (fst (fire_loop x n p u)).
Proof. intros a bs u. apply (@fire_loop_all _ x (fun p q => B p -> B q)); auto. intros c v. apply (al_bad al). Qed.

Lemma put_two : forall a bs u w, HK u w -> same HK (put_all x a bs u) (put_all y a bs w).
Proof.
  intros a. induction bs as [|b bs IH]; intros u w X; cbn [put_all]; [right; auto|].
  destruct (@call_first (CPut b a) u w X eq_refl eq_refl) as [Z|[Z1 Z2]].
  - left. destruct (x (CPut b a) u) as [u1 r]. cbn [fst] in Z. destruct r; auto. now apply put_bad.
  - destruct (x (CPut b a) u) as [u1 r], (y (CPut b a) w) as [w1 r']. cbn [fst snd] in Z1, Z2. subst r'. destruct r; try (right; auto; fail). now apply IH.
Qed.
Lemma skip_two : forall a ids u w, HK u w -> same HK (skip_known x a ids u) (skip_known y a ids w).
Proof.
  intros a. induction ids as [|i ids IH]; intros u w X; cbn [skip_known]; [right; auto|].
  destruct (@call_first (CHas i) u w X eq_refl eq_refl) as [Z|[Z1 Z2]].
  { left. destruct (x (CHas i) u) as [u1 r]. cbn [fst] in Z. destruct r as [[|]| | |]; auto.
    pose proof (al_bad al (CLeash a) Z) as Z1. destruct (x (CLeash a) u1) as [u2 r]. cbn [fst] in Z1. destruct r as [j| | |]; auto. destruct (id_eqb i j); [now apply skip_bad|].
    pose proof (al_bad al (CMove i a) Z1) as Z2. destruct (x (CMove i a) u2) as [u3 r]. cbn [fst] in Z2. destruct r; auto. now apply skip_bad. }
  destruct (x (CHas i) u) as [u1 r], (y (CHas i) w) as [w1 r']. cbn [fst snd] in Z1, Z2. subst r'. destruct r as [[|]| | |]; try (right; auto; fail). clear X.
  destruct (@call_first (CLeash a) u1 w1 Z1 eq_refl eq_refl) as [Z|[X1 X2]].
  { left. destruct (x (CLeash a) u1) as [u2 r]. cbn [fst] in Z. destruct r as [j| | |]; auto. destruct (id_eqb i j); [now apply skip_bad|].
    pose proof (al_bad al (CMove i a) Z) as Z2. destruct (x (CMove i a) u2) as [u3 r]. cbn [fst] in Z2. destruct r; auto. now apply skip_bad. }
  destruct (x (CLeash a) u1) as [u2 r], (y (CLeash a) w1) as [w2 r']. cbn [fst snd] in X1, X2. subst r'. destruct r as [j| | |]; try (right; auto; fail). clear Z1.
  destruct (id_eqb i j); [now apply IH|].
  destruct (@call_first (CMove i a) u2 w2 X1 eq_refl eq_refl) as [Z|[Y1 Y2]].
  { left. destruct (x (CMove i a) u2) as [u3 r]. cbn [fst] in Z. destruct r; auto. now apply skip_bad. }
  destruct (x (CMove i a) u2) as [u3 r], (y (CMove i a) w2) as [w3 r']. cbn [fst snd] in Y1, Y2. subst r'. destruct r; try (right; auto; fail). now apply IH.
Qed.
Lemma asks_then : forall a ids u w, LK u w -> B (ask_blocks x a ids u) \/ LK (ask_blocks x a ids u) (ask_blocks y a ids w).
Proof.
  intros a. induction ids as [|i ids IH]; intros u w X; cbn [ask_blocks]; [now right|].
  destruct (@call_then (CAskBlock a i) u w X eq_refl) as [Z|[Z1 Z2]]; [left; now apply asks_bad|]. now apply IH.
Qed.
Lemma asks_first : forall a i ids u w, HK u w -> B (ask_blocks x a (i :: ids) u) \/ LK (ask_blocks x a (i :: ids) u) (ask_blocks y a (i :: ids) w).
Proof.
  intros a i ids u w X. cbn [ask_blocks]. destruct (@call_ask (CAskBlock a i) u w X eq_refl) as [Z|[Z1 Z2]]; [left; now apply asks_bad|]. now apply asks_then.
Qed.
(** The result of one trigger: no request so far, and no session without further triggers; or requests, and no further triggers. *)
Definition two (T : list trigger) (p : U * (ploader * outcome (list trigger))) (q : W * (ploader * outcome (list trigger))) : Prop :=
  B (fst p) \/ (snd p = snd q /\ pl_triggers (fst (snd p)) = T /\
    ((H (fst p) (fst q) /\ match snd (snd p) with Ok [] => True | Ok [_] => K (fst p) | Ok _ => False | _ => True end) \/ (LK (fst p) (fst q) /\ snd (snd p) = Ok []))).
Lemma two_fail : forall T A p u w (r : outcome A), HK u w -> pl_triggers p = T -> two T (fails p u r) (fails p w r).
Proof. intros T A p u w r [X _] E. right. split; [reflexivity|]. split; [exact E|]. left. split; [exact X|]. now destruct r. Qed.
Lemma from_two : forall i p u w, HK u w -> two (pl_triggers p) (ask_from x i p u) (ask_from y i p w).
Proof.
  intros i p u w X. unfold ask_from. destruct (@call_first (CLast i idsBatchSize) u w X eq_refl eq_refl) as [Z|[Z1 Z2]].
  { left. pose proof (@from_bad i p) as F. destruct (x (CLast i idsBatchSize) u) as [u1 r]. cbn [fst] in Z. destruct r as [[|j ids]|e| |]; auto.
    pose proof (al_bad al (CAskIDs (pl_peer p) (j :: ids)) Z) as Z1. destruct (x (CAskIDs (pl_peer p) (j :: ids)) u1) as [u2 r]. cbn [fst] in Z1.
    pose proof (al_bad al CNow Z1) as Z2. destruct (x CNow u2) as [u3 r3]. exact Z2. }
  destruct (x (CLast i idsBatchSize) u) as [u1 r], (y (CLast i idsBatchSize) w) as [w1 r']. cbn [fst snd] in Z1, Z2. subst r'.
  destruct r as [[|j ids]|e| |]; try (apply two_fail; auto; fail); [right; split; [reflexivity|]; split; [reflexivity|]; left; split; [apply Z1|exact I]|].
  destruct (@call_ask (CAskIDs (pl_peer p) (j :: ids)) u1 w1 Z1 eq_refl) as [Z|[Y1 Y2]].
  { left. destruct (x (CAskIDs (pl_peer p) (j :: ids)) u1) as [u2 r]. cbn [fst] in Z. pose proof (al_bad al CNow Z) as Z2. destruct (x CNow u2) as [u3 r3]. exact Z2. }
  destruct (x (CAskIDs (pl_peer p) (j :: ids)) u1) as [u2 r], (y (CAskIDs (pl_peer p) (j :: ids)) w1) as [w2 r']. cbn [fst snd] in Y1, Y2. clear Y2.
  destruct (@call_then CNow u2 w2 Y1 eq_refl) as [Z|[X1 X2]]; [left; now destruct (x CNow u2)|].
  destruct (x CNow u2) as [u3 t], (y CNow w2) as [w3 t']. cbn [fst snd] in X1, X2. subst t'. right. split; [reflexivity|]. split; [reflexivity|]. right. auto.
Qed.
Lemma one_two : forall t p u w, HK u w -> two (pl_triggers p) (fire_one x t p u) (fire_one y t p w).
Proof.
  intros t p u w X. assert (NO : forall p' ts, pl_triggers p' = pl_triggers p -> length ts <= 1 -> two (pl_triggers p) (u, (p', Ok ts)) (w, (p', Ok ts))).
  { intros p' ts E LE. right. split; [reflexivity|]. split; [exact E|]. left. split; [apply X|]. destruct ts as [|? [|? ?]]; [exact I|apply X|]. cbn [length] in LE. lia. }
  pose proof (@one_bad t p u) as OB. unfold fire_one in *. destruct (pl_state p), t; cbn [behave on_entry] in *;
    try (apply NO; [reflexivity|auto]; fail); try (right; split; [reflexivity|]; split; [reflexivity|]; left; split; [apply X|exact I]).
  - unfold request_ids. destruct (@call_first (CLeash (pl_peer (set_state p WaitIDs))) u w X eq_refl eq_refl) as [Z|[Z1 Z2]].
    { left. destruct (x (CLeash _) u) as [u1 r]. cbn [fst] in Z. destruct r; auto. now apply from_bad. }
    destruct (x (CLeash _) u) as [u1 r], (y (CLeash _) w) as [w1 r']. cbn [fst snd] in Z1, Z2. subst r'. destruct r; try (apply two_fail; auto; fail). now apply (@from_two a (set_state p WaitIDs)).
  - unfold request_ids_from_lca. destruct (@call_first (CLcb (pl_peer (set_state p WaitIDs))) u w X eq_refl eq_refl) as [Z|[Z1 Z2]].
    { left. destruct (x (CLcb _) u) as [u1 r]. cbn [fst] in Z. destruct r; auto. now apply from_bad. }
    destruct (x (CLcb _) u) as [u1 r], (y (CLcb _) w) as [w1 r']. cbn [fst snd] in Z1, Z2. subst r'. destruct r; try (apply two_fail; auto; fail). now apply (@from_two a (set_state p WaitIDs)).
  - unfold request_blocks. destruct (@skip_two (pl_peer (set_state p WaitBlocks)) ids u w X) as [Z|[Z1 Z2]].
    { left. destruct (skip_known x _ ids u) as [u1 r]. cbn [fst] in Z. destruct r as [[|i rest]|e| |]; auto. cbv zeta.
      pose proof (@asks_bad (pl_peer (set_state p WaitBlocks)) (i :: rest) u1 Z) as Z2. pose proof (al_bad al CNow Z2) as Z3. destruct (x CNow _) as [u3 r3]. exact Z3. }
    destruct (skip_known x _ ids u) as [u1 r], (skip_known y _ ids w) as [w1 r']. cbn [fst snd] in Z1, Z2. subst r'. destruct r as [[|i rest]|e| |]; try (apply two_fail; auto; fail).
    + right. split; [reflexivity|]. split; [reflexivity|]. left. exact Z1.
    + cbv zeta. destruct (@asks_first (pl_peer (set_state p WaitBlocks)) i rest u1 w1 Z1) as [Z|Z].
      { left. pose proof (al_bad al CNow Z) as Z3. destruct (x CNow _) as [u3 r3]. exact Z3. }
      destruct (@call_then CNow _ _ Z eq_refl) as [Y|[X1 X2]]; [left; now destruct (x CNow _)|].
      destruct (x CNow _) as [u3 t], (y CNow _) as [w3 t']. cbn [fst snd] in X1, X2. subst t'. right. split; [reflexivity|]. split; [reflexivity|]. right. auto.
  - apply NO; [reflexivity|]. destruct (Z.ltb _ _); cbn; lia.
  - unfold handle_failure. destruct (@put_two (pl_peer (set_state p Done)) (arrived_prefix (pl_queue (set_state p Done))) u w X) as [Z|[Z1 Z2]].
    { left. destruct (put_all x _ _ u) as [u1 r]. cbn [fst] in Z. destruct r; auto. pose proof (al_bad al (CFail (pl_peer (set_state p Done)) (pl_state (set_state p Done))) Z) as Z1.
      destruct (x (CFail _ _) u1) as [u2 r]. exact Z1. }
    destruct (put_all x _ _ u) as [u1 r], (put_all y _ _ w) as [w1 r']. cbn [fst snd] in Z1, Z2. subst r'. destruct r; try (apply two_fail; auto; fail).
    destruct (@al_first al (CFail (pl_peer (set_state p Done)) (pl_state (set_state p Done))) u1 w1 (proj1 Z1) eq_refl) as [Z|[Y1 Y2]]; [left; now destruct (x (CFail _ _) u1)|].
    destruct (x (CFail _ _) u1) as [u2 r], (y (CFail _ _) w1) as [w2 r']. cbn [fst snd] in Y1, Y2. subst r'. right. split; [reflexivity|]. split; [reflexivity|]. left. split; [exact Y1|]. now destruct r.
  - unfold append_block. cbv zeta. destruct (queue_ready _); [|apply NO; [reflexivity|auto]]. destruct (@put_two (pl_peer p) (received (queue_put_ptr (pl_queue p) b)) u w X) as [Z|[Z1 Z2]].
    { left. cbn [set_queue pl_queue]. destruct (put_all x _ _ u) as [u1 r]. cbn [fst] in Z. destruct r; auto. }
    cbn [set_queue pl_queue]. destruct (put_all x _ _ u) as [u1 r], (put_all y _ _ w) as [w1 r']. cbn [fst snd] in Z1, Z2. subst r'. destruct r; try (apply two_fail; auto; fail).
    right. split; [reflexivity|]. split; [reflexivity|]. left. exact Z1.
  - apply NO; [reflexivity|]. destruct (Z.ltb _ _); cbn; lia.
  - unfold handle_failure. destruct (@put_two (pl_peer (set_state p Done)) (arrived_prefix (pl_queue (set_state p Done))) u w X) as [Z|[Z1 Z2]].
    { left. destruct (put_all x _ _ u) as [u1 r]. cbn [fst] in Z. destruct r; auto. pose proof (al_bad al (CFail (pl_peer (set_state p Done)) (pl_state (set_state p Done))) Z) as Z1.
      destruct (x (CFail _ _) u1) as [u2 r]. exact Z1. }
    destruct (put_all x _ _ u) as [u1 r], (put_all y _ _ w) as [w1 r']. cbn [fst snd] in Z1, Z2. subst r'. destruct r; try (apply two_fail; auto; fail).
    destruct (@al_first al (CFail (pl_peer (set_state p Done)) (pl_state (set_state p Done))) u1 w1 (proj1 Z1) eq_refl) as [Z|[Y1 Y2]]; [left; now destruct (x (CFail _ _) u1)|].
    destruct (x (CFail _ _) u1) as [u2 r], (y (CFail _ _) w1) as [w2 r']. cbn [fst snd] in Y1, Y2. subst r'. right. split; [reflexivity|]. split; [reflexivity|]. left. split; [exact Y1|]. now destruct r.
  - unfold report_ok. set (c := COk (pl_peer (set_state p Idle)) (pl_state (set_state p Idle))). destruct (@al_first al c u w (proj1 X) eq_refl) as [Z|[Y1 Y2]].
    { left. destruct (x c u) as [u1 r]. cbn [fst] in Z. destruct r; auto. }
    pose proof (@al_ok al (pl_peer (set_state p Idle)) (pl_state (set_state p Idle)) u) as KO. fold c in KO.
    destruct (x c u) as [u2 r], (y c w) as [w2 r']. cbn [fst snd] in *. subst r'. right. destruct r as [[|]|e| |]; (split; [reflexivity|]; split; [reflexivity|]; left; split; [exact Y1|]); first [exact I|exact (KO eq_refl)].
Qed.
Lemma loop_two : forall n p u w, HK u w -> length (pl_triggers p) <= 1 ->
  B (fst (fire_loop x n p u)) \/ (snd (fire_loop x n p u) = snd (fire_loop y n p w) /\
    (H (fst (fire_loop x n p u)) (fst (fire_loop y n p w)) \/ (LK (fst (fire_loop x n p u)) (fst (fire_loop y n p w)) /\ snd (snd (fire_loop x n p u)) = Ok tt))).
Proof.
  induction n as [|n IH]; intros p u w X LE; cbn [fire_loop]; destruct (pl_triggers p) as [|t [|t2 ts]] eqn:TR; try (cbn [length] in LE; lia);
    try (right; split; [reflexivity|]; left; apply X).
  destruct (@one_two t (set_triggers p []) u w X) as [Z|(Z1 & Z2 & Z3)].
  { left. destruct (fire_one x t _ u) as (u1 & p1 & [more|e| |]); try exact Z. now apply loop_bad. }
  destruct (fire_one x t _ u) as (u1 & p1 & r), (fire_one y t _ w) as (w1 & p2 & r'). cbn [fst snd] in *. injection Z1 as <- <-. cbn [set_triggers pl_triggers] in Z2.
  destruct Z3 as [[Y1 Y2]|[Y1 ->]].
  - destruct r as [[|t1 [|t2 more]]|e| |]; try (exfalso; exact Y2); try (right; split; [reflexivity|]; left; exact Y1).
    + assert (TR1 : pl_triggers (set_triggers p1 (pl_triggers p1 ++ [])) = []) by (cbn [set_triggers pl_triggers]; rewrite app_nil_r; exact Z2).
      right. destruct n as [|n]; cbn [fire_loop]; rewrite TR1; (split; [reflexivity|]); left; exact Y1.
    + apply IH; [split; auto|]. cbn [set_triggers pl_triggers]. rewrite Z2. cbn. lia.
  - assert (TR1 : pl_triggers (set_triggers p1 (pl_triggers p1 ++ [])) = []) by (cbn [set_triggers pl_triggers]; rewrite app_nil_r; exact Z2).
    right. destruct n as [|n]; cbn [fire_loop]; rewrite TR1; (split; [reflexivity|]); right; (split; [exact Y1|reflexivity]).
Qed.
End TwoWorlds.

Section TwoLoaders.
Variables U W : Type.
Variable x : world U.
Variable y : world W.
Variables H L : U -> W -> Prop.
Variable B : U -> Prop.
Hypothesis al : alike x y H L B (fun _ => True).
Lemma ok_two : forall a s h u w, H u w -> B (snd (fst (loader_ok x a s h u))) \/
  (H (snd (fst (loader_ok x a s h u))) (snd (fst (loader_ok y a s h w))) /\ fst (fst (loader_ok x a s h u)) = fst (fst (loader_ok y a s h w)) /\
   snd (loader_ok x a s h u) = snd (loader_ok y a s h w)).
Proof.
  intros a s h u w X. assert (BB : forall c v, B v -> B (fst (x c v))) by (intros c v; apply (al_bad al)).
  unfold loader_ok. destruct (h_pl h), s; try (right; auto; fail). cbv zeta.
  destruct (@al_first _ _ _ _ _ _ _ _ al (CPeer a) u w X eq_refl) as [Z|[Z1 Z2]].
  { left. destruct (x (CPeer a) u) as [u1 r]. cbn [fst] in Z. destruct r as [sc| | |]; try exact Z; [|now apply BB].
    specialize (BB (CScore a) u1 Z) as Y. destruct (x (CScore a) u1) as [u2 r]. cbn [fst] in Y. destruct r as [le| | |]; try exact Y; [|now apply BB].
    destruct sc; [|exact Y]. destruct (is_lagging _ z le) as [d [|]]; now apply BB. }
  destruct (x (CPeer a) u) as [u1 r], (y (CPeer a) w) as [w1 r']. cbn [fst snd] in Z1, Z2. subst r'.
  assert (LG : forall z (h' : held) (r : outcome bool) v1 v2, H v1 v2 -> B (snd (fst ((h', fst (x (CLog z) v1)), r))) \/
    (H (snd (fst ((h', fst (x (CLog z) v1)), r))) (snd (fst ((h', fst (y (CLog z) v2)), r))) /\ h' = h' /\ r = r)).
  { intros z h' r1 v1 v2 X1. cbn [fst snd]. destruct (@al_first _ _ _ _ _ _ _ _ al (CLog z) v1 v2 X1 eq_refl) as [Y|[Y _]]; auto. }
  destruct r as [sc| | |]; try (right; auto; fail); [|now apply LG].
  destruct (@al_first _ _ _ _ _ _ _ _ al (CScore a) u1 w1 Z1 eq_refl) as [Z|[Y1 Y2]].
  { left. destruct (x (CScore a) u1) as [u2 r]. cbn [fst] in Z. destruct r as [le| | |]; try exact Z; [|now apply BB].
    destruct sc; [|exact Z]. destruct (is_lagging _ z le) as [d [|]]; now apply BB. }
  destruct (x (CScore a) u1) as [u2 r], (y (CScore a) w1) as [w2 r']. cbn [fst snd] in Y1, Y2. subst r'.
  destruct r as [le| | |]; try (right; auto; fail); [|now apply LG].
  destruct sc; [|right; auto]. destruct (is_lagging _ z le) as [d [|]]; now apply LG.
Qed.
Definition hrel (P : U -> W -> Prop) (p : held * U) (q : held * W) : Prop := fst p = fst q /\ P (snd p) (snd q).
Lemma inner_alike : alike (inner x) (inner y) (hrel H) (hrel L) (fun p => B (snd p)) (fun p => h_pl (fst p) = true).
Proof.
  assert (PL : forall P c (p : held * U) (q : held * W), fst p = fst q -> (B (fst (x c (snd p))) \/ (P (fst (x c (snd p))) (fst (y c (snd q))) /\ snd (x c (snd p)) = snd (y c (snd q)))) ->
    B (snd (fst (let (v', r) := x c (snd p) in ((fst p, v'), r)))) \/
    (hrel P (fst (let (v', r) := x c (snd p) in ((fst p, v'), r))) (fst (let (v', r) := y c (snd q) in ((fst q, v'), r))) /\
     snd (let (v', r) := x c (snd p) in ((fst p, v'), r)) = snd (let (v', r) := y c (snd q) in ((fst q, v'), r)))).
  { intros P c [h u] [h' w]. cbn [fst snd]. intros -> D. destruct (x c u) as [u1 r], (y c w) as [w1 r']. cbn [fst snd] in *. destruct D as [D|[D1 D2]]; [now left|]. right. split; [split; auto|exact D2]. }
  constructor.
  - intros c p. apply (@inner_all _ x (fun v v' => B v -> B v')); auto. intros c0 v. apply (al_bad al).
  - intros c [h u] [h' w] [E X] A. cbn [fst snd] in E, X. subst h'. destruct c; try discriminate A; cbn [inner]; try (apply PL; [reflexivity|]; apply (al_first al X); reflexivity).
    + cbn [fst snd]. destruct (@ok_two a s h u w X) as [Z|(Z1 & Z2 & Z3)]; [now left|]. right. split; [split; auto|exact Z3].
    + cbn [fst snd]. unfold loader_fail. destruct (h_pl h), s; try (right; split; [split; auto|reflexivity]; fail).
      destruct (al_first al X (eq_refl (is_ask (CLog (LFailed a))))) as [Z|[Z1 Z2]]; [now left|]. right. split; [split; auto|reflexivity].
  - intros c [h u] [h' w] [E X] A. cbn [fst snd] in E, X. subst h'. destruct c; try discriminate A; cbn [inner]; (apply PL; [reflexivity|]; apply (al_ask al X); reflexivity).
  - intros c [h u] [h' w] [E X] A. cbn [fst snd] in E, X. subst h'. destruct c; try discriminate A; cbn [inner]; (apply PL; [reflexivity|]; apply (al_then al X); reflexivity).
  - intros c [h u] X A. cbn [fst] in X. destruct c; try discriminate A; cbn [inner fst snd]; match goal with |- context [x ?c u] => destruct (x c u) end; exact X.
  - intros a s [h u]. cbn [inner fst snd]. unfold loader_ok. destruct (h_pl h) eqn:HP, s; try discriminate; try (intros; exact HP). cbv zeta.
    destruct (x (CPeer a) u) as [u1 [sc| | |]]; try discriminate. destruct (x (CScore a) u1) as [u2 [le| | |]]; try discriminate.
    destruct sc; try discriminate. destruct (is_lagging _ z le) as [d [|]]; try discriminate. reflexivity.
Qed.
Lemma drive_two : forall t p l u w, H u w -> pl_triggers p = [] -> B (snd (fst (drive x t p l u))) \/
  (fst (fst (drive x t p l u)) = fst (fst (drive y t p l w)) /\ snd (drive x t p l u) = snd (drive y t p l w) /\
   (H (snd (fst (drive x t p l u))) (snd (fst (drive y t p l w))) \/
    (L (snd (fst (drive x t p l u))) (snd (fst (drive y t p l w))) /\ l_pl (fst (fst (drive x t p l u))) <> None /\ snd (drive x t p l u) = Ok tt))).
Proof.
  intros t p l u w X TR. unfold drive. set (h := {| h_pl := true; h_prev := l_prev l; h_fc := l_fc l; h_ticker := l_ticker l |}). unfold fire.
  destruct (@loop_two _ _ _ _ _ _ _ _ inner_alike 8 (set_triggers p (pl_triggers p ++ [t])) (h, u) (h, w)) as [Z|(Z1 & Z2)].
  - split; [split; auto|reflexivity].
  - cbn [set_triggers pl_triggers]. rewrite TR. cbn. lia.
  - left. now destruct (fire_loop (inner x) 8 _ (h, u)) as ((h1 & u1) & p1 & r).
  - right. destruct (fire_loop (inner x) 8 _ (h, u)) as ((h1 & u1) & p1 & r), (fire_loop (inner y) 8 _ (h, w)) as ((h2 & w1) & p2 & r'). cbn [fst snd] in *. injection Z1 as <- <-.
    destruct Z2 as [[E Y]|[[[E Y] KK] OK]]; cbn [fst snd] in *; subst h2; (split; [reflexivity|]; split; [reflexivity|]); [now left|right]. split; [exact Y|]. rewrite KK. split; [discriminate|exact OK].
Qed.
(** A message of a peer is handled in the same way in both worlds. *)
Theorem step_two : forall i l u w, H u w -> (forall p, l_pl l = Some p -> pl_triggers p = []) -> i <> InTick -> i <> InSync ->
  B (snd (fst (loader_step x i l u))) \/
  (fst (fst (loader_step x i l u)) = fst (fst (loader_step y i l w)) /\ snd (loader_step x i l u) = snd (loader_step y i l w) /\
   (H (snd (fst (loader_step x i l u))) (snd (fst (loader_step y i l w))) \/
    (L (snd (fst (loader_step x i l u))) (snd (fst (loader_step y i l w))) /\ l_pl (fst (fst (loader_step x i l u))) <> None /\ snd (loader_step x i l u) = Ok tt))).
Proof.
  intros i l u w X TR N1 N2. destruct i as [a ids|a b| |]; try congruence; cbn [loader_step].
  - unfold handle_ids. destruct (l_pl l) as [p|]; [|right; auto]. destruct ids; [right; auto|]. destruct (addr_eqb _ _); [|right; auto]. now apply drive_two; auto.
  - unfold LoadModel.handle_block. destruct (l_pl l) as [p|]; [|right; auto]. destruct (addr_eqb _ _); [|right; auto]. now apply drive_two; auto.
Qed.
End TwoLoaders.
