(** Text for the log (C96) and the routes of the API (C97). *)
From Coq Require Import Strings.Byte Strings.String.
From Verif Require Import Base Kv BytesFacts ChainModel PeersModel LoadModel CborModel CborProofs ApiModel ChainExample LoadProps ApiProps TextModel.
Set Implicit Arguments.
Unset Strict Implicit.

(** * C96 *)

Lemma decimal_inj : forall a b, decimal a = decimal b -> a = b.
Proof. intros a b E. destruct (decimal_spec a) as (_ & _ & A), (decimal_spec b) as (_ & _ & B). rewrite E in A. congruence. Qed.
Lemma format_inj : forall i j, format_int i = format_int j -> i = j.
Proof.
  assert (D : forall n s, decimal n <> text "-" ++ s).
  { intros n s E. destruct (decimal_spec n) as (_ & F & _). rewrite E in F. inversion F; subst. cbn in *. lia. }
  intros i j. unfold format_int. destruct (Z.ltb_spec i 0), (Z.ltb_spec j 0); intros E.
  - apply app_inv_head, decimal_inj in E. lia.
  - now apply eq_sym, D in E.
  - now apply D in E.
  - apply decimal_inj in E. lia.
Qed.

(** What the text of a value is: its name, or the type with the number. *)
Definition says (typ : string) (names : list string) (i : Z) (s : bytes) : Prop :=
  (exists n x, i = Z.of_nat n /\ nth_error names n = Some x /\ s = text x) \/
  ((i < 0 \/ Z.of_nat (List.length names) <= i)%Z /\ s = text typ ++ text "(" ++ format_int i ++ text ")").
Lemma says_one : forall typ names i j s, NoDup (map text names) -> (forall x, In x names -> firstn 1 (text x) <> firstn 1 (text typ)) -> text typ <> [] ->
  (forall x, In x names -> text x <> []) -> says typ names i s -> says typ names j s -> i = j.
Proof.
  intros typ names i j s D F T E. assert (Q : forall x t, In x names -> text x = text typ ++ t -> False).
  { intros x t I Eq. apply (F x I). rewrite Eq. destruct (text typ); [contradiction|reflexivity]. }
  intros [(n & x & -> & X & ->)|[_ ->]] [(m & y & -> & Y & Es)|[_ Es]].
  - f_equal. apply (proj1 (NoDup_nth_error (map text names)) D).
    + rewrite map_length. apply nth_error_Some. congruence.
    + rewrite !nth_error_map, X, Y. cbn. now rewrite Es.
  - exfalso. exact (Q x _ (nth_error_In _ _ X) Es).
  - exfalso. exact (Q y _ (nth_error_In _ _ Y) (eq_sym Es)).
  - apply app_inv_head, app_inv_head, app_inv_tail in Es. now apply format_inj.
Qed.

Definition event_names : list string := ["Start"; "Restart"; "IDs"; "Block"; "Tick"; "Timeout"; "QueueReady"]%string.
Definition state_names : list string := ["Idle"; "WaitingForIDs"; "WaitingForBlocks"; "Done"]%string.
Definition peer_names : list string := ["Unknown"; "Connected"; "Hostile"]%string.

Lemma said : forall typ names index l i, (Z.of_nat (List.length index) = Z.of_nat (List.length l) + 1)%Z ->
  Forall (fun n => exists x, nth_error l n = Some x /\ (do a <- entry index (Z.of_nat n); do b <- entry index (Z.of_nat n + 1); slice (text names) a b) = Ok (text x)) (seq 0 (List.length l)) ->
  exists s, stringer typ names index i = Ok s /\ says typ l i s.
Proof.
  intros typ names index l i L F. unfold stringer. rewrite L. replace (Z.of_nat (List.length l) + 1 - 1)%Z with (Z.of_nat (List.length l)) by lia.
  destruct (Z.ltb_spec i 0); [eexists; split; [reflexivity|right; split; [now left|reflexivity]]|].
  destruct (Z.leb_spec (Z.of_nat (List.length l)) i); [eexists; split; [reflexivity|right; split; [now right|reflexivity]]|]. cbn [orb].
  rewrite Forall_forall in F. destruct (F (Z.to_nat i)) as (x & X & E); [apply in_seq; lia|]. rewrite Z2Nat.id in E by lia. exists (text x). split; [exact E|].
  left. exists (Z.to_nat i), x. split; [lia|]. now split.
Qed.
Ltac table := repeat constructor; eexists; split; reflexivity.

(** Every value of the three types has a text (no index is out of range), it is the name of the constant or the number, and it tells
    the values apart. *)
Theorem C96_names : (forall i, exists s, event_string i = Ok s /\ says "event" event_names i s) /\
  (forall i, exists s, lstate_string i = Ok s /\ says "state" state_names i s) /\
  (forall i, exists s, pstate_string i = Ok s /\ says "State" peer_names (Z.of_N i) s).
Proof. repeat split; intros i; apply said; try reflexivity; table. Qed.
Print Assumptions C96_names.
Ltac apart S T := eapply says_one; [| | | |exact S|exact T];
  [repeat constructor; cbn; intros Q; repeat (destruct Q as [Q|Q]; [discriminate Q|]); exact Q
  |intros x I; cbn in I; repeat (destruct I as [<-|I]; [discriminate|]); contradiction
  |discriminate
  |intros x I; cbn in I; repeat (destruct I as [<-|I]; [discriminate|]); contradiction].
Theorem C96_apart : (forall i j, event_string i = event_string j -> i = j) /\ (forall i j, lstate_string i = lstate_string j -> i = j) /\
  (forall i j, pstate_string i = pstate_string j -> i = j).
Proof.
  destruct C96_names as (A & B & C). repeat split; intros i j E.
  - destruct (A i) as (s & Es & S), (A j) as (t & Et & T). assert (s = t) by congruence. subst t. apart S T.
  - destruct (B i) as (s & Es & S), (B j) as (t & Et & T). assert (s = t) by congruence. subst t. apart S T.
  - destruct (C i) as (s & Es & S), (C j) as (t & Et & T). assert (s = t) by congruence. subst t. apply N2Z.inj. apart S T.
Qed.
Print Assumptions C96_apart.
(** The numbers of the constants are those of their names. *)
Theorem C96_constants : (forall e, event_string (event_number e) = Ok (text (match e with EStart => "Start" | ERestart => "Restart" | EIDs _ => "IDs" | EBlock _ => "Block"
      | ETick _ => "Tick" | ETimeout => "Timeout" | EQueueReady => "QueueReady" end))) /\
  (forall s, lstate_string (lstate_number s) = Ok (text (match s with Idle => "Idle" | WaitIDs => "WaitingForIDs" | WaitBlocks => "WaitingForBlocks" | Done => "Done" end))) /\
  (forall s, pstate_string (state_number s) = Ok (text (match s with PeerUnknown => "Unknown" | PeerConnected => "Connected" | PeerHostile => "Hostile" end))).
Proof. repeat split; intros x; destruct x; reflexivity. Qed.
Print Assumptions C96_constants.

(** The text of a queue never panics; it names the first and the last block and says READY exactly when the queue is ready, else how
    many blocks are there. *)
Definition there (it : LoadModel.item) : Prop := exists b, it_rcv it = Some b /\ pb_id b = it_req it.
Definition counts (q : queue) (n : nat) : Prop := exists ys, (forall k it, nth_error q k = Some it -> (In k ys <-> there it)) /\ NoDup ys /\ (forall k, In k ys -> k < List.length q)%nat /\ List.length ys = n.
Theorem C96_queue : forall short q, q = [] /\ range_string short q = Ok (text "[](EMPTY)") \/
  exists a b size, nth_error q 0 = Some a /\ nth_error q (List.length q - 1) = Some b /\
    range_string short q = Ok (text "[" ++ short (it_req a) ++ text ".." ++ short (it_req b) ++ text "](" ++ size ++ text ")") /\
    (queue_ready q = true -> size = text "READY/" ++ decimal (N.of_nat (List.length q))) /\
    (queue_ready q = false -> exists n, counts q n /\ (n < List.length q)%nat /\ size = decimal (N.of_nat n) ++ text "/" ++ decimal (N.of_nat (List.length q))).
Proof.
  assert (T : forall it, arrived it = true <-> there it).
  { intros it. unfold arrived, there. destruct (it_rcv it) as [b|]; [|split; [discriminate|intros (b & E & _); discriminate E]].
    unfold id_eqb. rewrite beqb_eq. split; [intros E; now exists b|intros (c & Ec & E); injection Ec as ->; exact E]. }
  assert (C : forall q, counts q (List.length (filter arrived q))).
  { induction q as [|it q (ys & IN & ND & B & L)].
    - exists []. split; [intros [|k] it E; discriminate E|]. split; [constructor|]. split; [intros k []|reflexivity].
    - assert (ND' : NoDup (map S ys)) by (apply FinFun.Injective_map_NoDup; [intros x y E; now injection E|exact ND]).
      assert (K : forall k, In (S k) (map S ys) <-> In k ys) by (intros k; rewrite in_map_iff; split; [intros (x & E & I); now injection E as ->|intros I; now exists k]).
      assert (Z0 : ~ In 0%nat (map S ys)) by (intros I; apply in_map_iff in I; destruct I as (x & E & _); discriminate E).
      cbn [filter]. destruct (arrived it) eqn:A.
      + exists (0%nat :: map S ys). split; [|split; [now constructor|split; [|cbn [List.length]; now rewrite map_length, L]]].
        * intros [|k] it' E; cbn in E; [injection E as <-; split; [intros _; now apply T|now left]|]. rewrite <- (IN _ _ E), <- K. split; [intros [X|I]; [discriminate X|exact I]|now right].
        * intros k [<-|I]; [cbn; lia|]. apply in_map_iff in I. destruct I as (x & <- & I). specialize (B _ I). cbn. lia.
      + exists (map S ys). split; [|split; [exact ND'|split; [|now rewrite map_length]]].
        * intros [|k] it' E; cbn in E; [injection E as <-; split; [contradiction|intros H; apply T in H; congruence]|]. now rewrite K, (IN _ _ E).
        * intros k I. apply in_map_iff in I. destruct I as (x & <- & I). specialize (B _ I). cbn. lia. }
  assert (F : forall q, (List.length (filter arrived q) <= List.length q)%nat /\ (List.length (filter arrived q) = List.length q <-> queue_ready q = true)).
  { induction q as [|it q [IL IE]]; [split; [apply Nat.le_refl|now split]|]. cbn [filter queue_ready forallb List.length]. fold (queue_ready q). destruct (arrived it); cbn [List.length andb].
    - split; [lia|]. rewrite <- IE. split; lia.
    - split; [lia|]. split; [lia|discriminate]. }
  intros short [|a q]; [now left|]. right. set (Q := a :: q). assert (NB : nth_error Q (List.length Q - 1) <> None) by (apply nth_error_Some; cbn; lia).
  destruct (nth_error Q (List.length Q - 1)) as [b|] eqn:B; [|contradiction]. destruct (F Q) as [FL FE].
  exists a, b, (if N.of_nat (List.length (filter arrived Q)) =? N.of_nat (List.length Q) then text "READY/" ++ decimal (N.of_nat (List.length Q))
    else decimal (N.of_nat (List.length (filter arrived Q))) ++ text "/" ++ decimal (N.of_nat (List.length Q))).
  split; [reflexivity|]. split; [reflexivity|]. split; [unfold range_string; fold Q; change (match Q with [] => _ | _ => ?x end) with x; now rewrite B|].
  destruct (N.eqb_spec (N.of_nat (List.length (filter arrived Q))) (N.of_nat (List.length Q))) as [E|E].
  - split; [reflexivity|]. intros H. assert (X : List.length (filter arrived Q) = List.length Q) by (now apply Nat2N.inj). apply FE in X. congruence.
  - split; [intros H; apply FE in H; exfalso; apply E; now rewrite H|]. intros _. exists (List.length (filter arrived Q)). split; [apply C|]. split; [|reflexivity]. apply Nat.le_neq. split; [exact FL|]. intros X. apply E. now rewrite X.
Qed.
Print Assumptions C96_queue.
Example C96_example : event_string (-1) = Ok (text "event(-1)") /\ lstate_string 9223372036854775807 = Ok (text "state(9223372036854775807)") /\ pstate_string 255 = Ok (text "State(255)") /\
  range_string (firstn 1) (new_queue [[x61; x62]; [x63; x64]]) = Ok (text "[a..c](0/2)") /\
  range_string (firstn 1) (queue_put (new_queue [[x61; x62]; [x63; x64]]) {| pb_id := [x63; x64]; pb_parent := []; pb_ts := 0; pb_bt := 1; pb_gen := None |}) = Ok (text "[a..c](1/2)").
Proof. repeat split; vm_compute; reflexivity. Qed.

(** * C97 *)

(** The paths of the API, with what they ask for; an argument is a segment of the path, the last one is not empty. *)
Definition segment (w : bytes) : Prop := ~ In slash w.
Inductive path_of : bytes -> endpoint -> list bytes -> Prop :=
| p_peers : path_of (text "/api/peers/all") EPeers []
| p_friendly : path_of (text "/api/peers/friendly") EFriendly []
| p_connections : path_of (text "/api/connections") EConnections []
| p_heads : path_of (text "/api/heads") EHeads []
| p_leashes : path_of (text "/api/leashes") ELeashes []
| p_status : path_of (text "/api/status") EStatus []
| p_forks : path_of (text "/api/forks") EForks []
| p_active : path_of (text "/api/active-forks") EActive []
| p_fork : forall a, segment a -> a <> [] -> path_of (text "/api/fork/" ++ a) EFork [a]
| p_generators : forall a n, segment a -> segment n -> n <> [] -> path_of (text "/api/fork/" ++ a ++ text "/generators/" ++ n) EGenerators [a; n].

Fixpoint joined_by (ws : list bytes) : bytes := match ws with [] => [] | [w] => w | w :: ws' => w ++ slash :: joined_by ws' end.
Lemma slash_eq : forall b, (Byte.to_N b =? 47) = true <-> b = slash.
Proof. intros b. rewrite N.eqb_eq. split; [intros E; now apply (@BytesFacts.to_N_inj b slash)|now intros ->]. Qed.
Lemma split_ne : forall s, split_slash s <> [].
Proof. intros [|b s]; cbn [split_slash]; [discriminate|]. destruct (Byte.to_N b =? 47); [discriminate|]. destruct (split_slash s); discriminate. Qed.
Lemma split_joined : forall s, joined_by (split_slash s) = s /\ Forall segment (split_slash s).
Proof.
  induction s as [|b s [J F]]; [split; [reflexivity|constructor; [intros []|constructor]]|]. cbn [split_slash]. pose proof (@split_ne s) as NE. destruct (Byte.to_N b =? 47) eqn:B.
  - apply slash_eq in B. subst b. split; [|constructor; [intros []|exact F]]. rewrite <- J at 2. destruct (split_slash s); [contradiction|reflexivity].
  - destruct (split_slash s) as [|w ws]; [contradiction|]. inversion F; subst. split; [|constructor; [intros [->|I]; [cbn in B; discriminate B|contradiction]|assumption]].
    destruct ws; reflexivity.
Qed.
Lemma split_app : forall w s, segment w -> split_slash (w ++ slash :: s) = w :: split_slash s.
Proof.
  induction w as [|b w IH]; intros s N; [reflexivity|]. cbn [app split_slash]. destruct (Byte.to_N b =? 47) eqn:B; [apply slash_eq in B; exfalso; apply N; now left|].
  rewrite IH; [reflexivity|]. intros I. apply N. now right.
Qed.
Lemma split_seg : forall w, segment w -> split_slash w = [w].
Proof.
  induction w as [|b w IH]; intros N; [reflexivity|]. cbn [split_slash]. destruct (Byte.to_N b =? 47) eqn:B; [apply slash_eq in B; exfalso; apply N; now left|].
  rewrite IH; [reflexivity|]. intros I. apply N. now right.
Qed.

(** A path has a handler exactly when it is one of these, and it has the right one, with the right arguments. *)
Theorem C97_routes : forall path e args, route path = Some (e, args) <-> path_of path e args.
Proof.
  intros path e args. unfold route. split.
  - destruct (split_joined path) as [J F]. set (ws := split_slash path) in *. clearbody ws. subst path. intros R. cbn [routes map fst snd find_route] in R.
    repeat match type of R with
    | context [match matches ?p ?ws with Some _ => _ | None => _ end] => destruct (matches p ws) as [l|] eqn:M; [injection R as <- <-|clear M]
    | None = Some _ => discriminate R
    end;
    repeat (cbn [matches] in M; match type of M with
    | context [match ?ws with [] => _ | _ :: _ => _ end] => is_var ws; destruct ws; try discriminate M
    | context [if beqb ?t ?w then _ else _] => destruct (beqb t w) eqn:?B; [apply BytesFacts.beqb_eq in B; subst w|discriminate M]
    end); try discriminate M; try (injection M as <-);
    repeat match goal with H : Forall segment (_ :: _) |- _ => inversion H; clear H; subst end; try now constructor.
  - intros P. destruct P; try reflexivity.
    + change (split_slash (text "/api/fork/" ++ a)) with (text "" :: text "api" :: text "fork" :: split_slash a). rewrite (split_seg H). destruct a; [contradiction|reflexivity].
    + change (split_slash (text "/api/fork/" ++ ?x)) with (text "" :: text "api" :: text "fork" :: split_slash x).
      change (text "/generators/" ++ n) with (slash :: text "generators/" ++ n). rewrite (split_app _ H).
      change (split_slash (text "generators/" ++ n)) with (text "generators" :: split_slash n). rewrite (split_seg H0). destruct n; [contradiction|reflexivity].
Qed.
Print Assumptions C97_routes.
Theorem C97_one : forall path e e' args args', path_of path e args -> path_of path e' args' -> e = e' /\ args = args'.
Proof. intros path e e' args args' A B. apply C97_routes in A. apply C97_routes in B. rewrite A in B. now injection B. Qed.
Print Assumptions C97_one.

(** No path fits two patterns, so that the order in which the routes are registered (and searched) does not matter. *)
Fixpoint overlap (p p' : list seg) : bool :=
  match p, p' with
  | [], [] => true
  | Fixed s :: q, Fixed s' :: q' => beqb (text s) (text s') && overlap q q'
  | _ :: q, _ :: q' => overlap q q'
  | _, _ => false
  end.
Lemma matches_cons : forall x p w ws l, matches (x :: p) (w :: ws) = Some l -> (exists l', matches p ws = Some l') /\ forall s, x = Fixed s -> w = text s.
Proof.
  intros x p w ws l M. destruct x as [s|].
  - cbn [matches] in M. destruct (beqb (text s) w) eqn:B; [|discriminate M]. apply BytesFacts.beqb_eq in B. split; [eauto|]. intros s' E. injection E as <-. now symmetry.
  - split; [|discriminate]. cbn [matches] in M. destruct p as [|y p]; [destruct ws; [eexists; reflexivity|discriminate M]|]. destruct (matches (y :: p) ws); [eauto|discriminate M].
Qed.
Lemma matches_nil : forall p l, matches p [] = Some l -> p = [].
Proof. intros [|[s|] [|y p]] l M; try reflexivity; discriminate M. Qed.
Lemma both_overlap : forall p p' ws l l', matches p ws = Some l -> matches p' ws = Some l' -> overlap p p' = true.
Proof.
  induction p as [|x p IH]; intros p' ws l l' M M'.
  - destruct ws as [|w ws]; [|discriminate M]. apply matches_nil in M'. now subst p'.
  - destruct ws as [|w ws]; [apply matches_nil in M; discriminate M|]. destruct p' as [|x' p']; [discriminate M'|].
    destruct (matches_cons M) as [[l1 M1] F], (matches_cons M') as [[l1' M1'] F']. specialize (IH _ _ _ _ M1 M1').
    destruct x as [s|], x' as [s'|]; cbn [overlap]; try exact IH. rewrite <- (F _ eq_refl), <- (F' _ eq_refl), BytesFacts.beqb_refl. exact IH.
Qed.
Lemma alone : ForallOrdPairs (fun r r' => overlap (fst r) (fst r') = false) routes.
Proof. repeat constructor. Qed.
Lemma find_exact : forall ws rs, ForallOrdPairs (fun r r' => forall l l', matches (fst r) ws = Some l -> matches (fst r') ws = Some l' -> False) rs ->
  forall e l, find_route rs ws = Some (e, l) <-> exists p, In (p, e) rs /\ matches p ws = Some l.
Proof.
  induction 1 as [|[p0 e0] rs A P IH]; intros e l; cbn [find_route]; [split; [discriminate|intros (p & [] & _)]|]. rewrite Forall_forall in A.
  destruct (matches p0 ws) as [l0|] eqn:M.
  - split; [intros E; injection E as <- <-; exists p0; split; [now left|exact M]|]. intros (p & [E|I] & M'); [injection E as -> ->; congruence|]. exfalso. exact (A _ I _ _ M M').
  - rewrite IH. split; intros (p & I & M'); exists p; (split; [|exact M']); [now right|]. destruct I as [E|I]; [injection E as -> ->; congruence|exact I].
Qed.
Lemma pairs_perm : forall A (R : A -> A -> Prop) l l', (forall x y, R x y -> R y x) -> Permutation l l' -> ForallOrdPairs R l -> ForallOrdPairs R l'.
Proof.
  intros A R l l' S P. induction P; intros F; [exact F| | |auto].
  - inversion F; subst. constructor; [|auto]. rewrite Forall_forall in *. intros y I. apply H1. eapply Permutation_in; [apply Permutation_sym, P|exact I].
  - inversion F as [|? ? F1 F2]; subst. inversion F2 as [|? ? F3 F4]; subst. inversion F1; subst. constructor; [constructor; auto|]. now constructor.
Qed.
Lemma pairs_impl : forall A (R R' : A -> A -> Prop) l, (forall x y, R x y -> R' x y) -> ForallOrdPairs R l -> ForallOrdPairs R' l.
Proof. intros A R R' l I. induction 1 as [|a l Fa F IH]; constructor; [|exact IH]. eapply Forall_impl; [|exact Fa]. auto. Qed.
Theorem C97_any_order : forall rs path, Permutation rs routes -> find_route rs (split_slash path) = route path.
Proof.
  intros rs path P. unfold route. set (ws := split_slash path).
  assert (F : ForallOrdPairs (fun r r' : list seg * endpoint => forall l l', matches (fst r) ws = Some l -> matches (fst r') ws = Some l' -> False) routes).
  { eapply pairs_impl; [|apply alone]. cbn beta. intros a b O l1 l2 M1 M2. rewrite (both_overlap M1 M2) in O. discriminate O. }
  assert (F' : ForallOrdPairs (fun r r' : list seg * endpoint => forall l l', matches (fst r) ws = Some l -> matches (fst r') ws = Some l' -> False) rs).
  { eapply pairs_perm; [|apply Permutation_sym, P|exact F]. intros x y H l l' M M'. exact (H _ _ M' M). }
  pose proof (find_exact F) as E. pose proof (find_exact F') as E'.
  assert (X : forall e l, find_route rs ws = Some (e, l) <-> find_route routes ws = Some (e, l)).
  { intros e l. rewrite E, E'. split; intros (p & I & M); exists p; (split; [|exact M]); eapply Permutation_in; try exact I; [exact P|apply Permutation_sym, P]. }
  destruct (find_route rs ws) as [[e l]|]; [symmetry; now apply X|]. destruct (find_route routes ws) as [[e l]|]; [|reflexivity]. exfalso. destruct (X e l) as [_ Y]. now discriminate Y.
Qed.
Print Assumptions C97_any_order.

(** Requests: 404 for every other path, 405 for every other method, else what the handler of the path answers. *)
Theorem C97_requests : forall ev o srt l r q,
  (forall get path, (forall e args, ~ path_of path e args) -> request ev o srt l r get path q = Code 404) /\
  (forall path e args, path_of path e args -> request ev o srt l r false path q = Code 405) /\
  (let reply path := request ev o srt l r true path q in
   reply (text "/api/peers/all") = in_body BPeers (api_peers o r) /\ reply (text "/api/peers/friendly") = in_body BPeers (api_friendly o r) /\
   reply (text "/api/connections") = in_body BPeers (api_connections o r) /\ reply (text "/api/heads") = in_body BHeads (api_heads ev l) /\
   reply (text "/api/leashes") = in_body BLeashes (api_leashes ev o srt l) /\ reply (text "/api/status") = in_body BStatus (api_status o l r) /\
   reply (text "/api/forks") = in_body BForks (api_forks ev o l q) /\ reply (text "/api/active-forks") = in_body BForks (api_active_forks ev o l r q) /\
   (forall a, segment a -> a <> [] -> reply (text "/api/fork/" ++ a) = in_body BFork (api_fork ev o l a)) /\
   (forall a n, segment a -> segment n -> n <> [] -> reply (text "/api/fork/" ++ a ++ text "/generators/" ++ n) = in_body BGenerators (api_generators ev o l a n))).
Proof.
  intros ev o srt l r q. assert (K : forall path e args, path_of path e args -> route path = Some (e, args)) by (intros; now apply C97_routes).
  split; [|split].
  - intros get path N. unfold request. destruct (route path) as [[e args]|] eqn:R; [|reflexivity]. apply C97_routes in R. now apply N in R.
  - intros path e args P. unfold request. now rewrite (K _ _ _ P).
  - cbv zeta. repeat match goal with |- _ /\ _ => split end; unfold request; intros; erewrite K by (constructor; eassumption); reflexivity.
Qed.
Print Assumptions C97_requests.
Example C97_example : route (text "/api/fork/10.0.0.1/generators/100") = Some (EGenerators, [text "10.0.0.1"; text "100"]) /\
  route (text "/api/fork//generators/100") = Some (EGenerators, [[]; text "100"]) /\ route (text "/api/fork/") = None /\ route (text "/api/peers") = None /\
  route (text "/api/heads/") = None /\ route (text "/peers/all") = None /\ segment (text "10.0.0.1").
Proof. repeat split; try reflexivity. intros I. cbn in I. repeat (destruct I as [I|I]; [discriminate I|]). exact I. Qed.

(** * C62: the built-in seeds, as they are written in parameters.go:119-142. *)
Definition dotted (s : addr * N) : bytes :=
  match fst s with
  | A4 [a; b; c; d] => decimal (Byte.to_N a) ++ text "." ++ decimal (Byte.to_N b) ++ text "." ++ decimal (Byte.to_N c) ++ text "." ++ decimal (Byte.to_N d) ++ text ":" ++ decimal (snd s)
  | _ => []
  end.
Theorem C62_addresses : forall n b, builtin n = Ok b -> map dotted b = map text (match n with
  | MainNet => ["34.253.153.4:6868"; "168.119.116.189:6868"; "135.181.87.72:6868"; "162.55.39.115:6868"; "168.119.155.201:6868"]
  | TestNet => ["159.69.126.149:6868"; "94.130.105.239:6868"; "159.69.126.153:6868"; "94.130.172.201:6868"; "35.157.247.122:6868"]
  | StageNet => ["88.99.185.128:6868"; "49.12.15.166:6868"; "95.216.205.3:6868"; "88.198.179.16:6868"; "52.58.254.101:6868"]
  | _ => []
  end)%string.
Proof. intros [] b E; try discriminate E; injection E as <-; vm_compute; reflexivity. Qed.
Print Assumptions C62_addresses.
(** The text tells addresses apart. *)
Example C62_addresses_example : (exists b, builtin MainNet = Ok b /\ List.length b = 5%nat) /\ dotted (ipv4 1 20 3 4, 80%N) = text "1.20.3.4:80" /\ dotted (ipv4 1 2 3 4, 80%N) <> dotted (ipv4 1 2 3 4, 81%N).
Proof. split; [eexists; split; reflexivity|]. split; vm_compute; [reflexivity|discriminate]. Qed.
