(** C110: the text of a peer in the log tells everything about it, whatever name the peer has chosen. *)
From Coq Require Import Strings.Byte Strings.String.
From Verif Require Import Base Kv BytesFacts ChainModel PeersModel CborModel CborProofs ApiModel TextModel TextProps
  NetipModel NetipProofs NetipProofs2 NetipProofs3 NetipProps PeersProps PeerTextModel.
Set Implicit Arguments.
Unset Strict Implicit.
Local Open Scope N_scope.

(** * C110 *)

(** No byte [c] in the text. *)
Definition free (c : byte) (s : bytes) : Prop := ~ In c s.
Lemma free_app : forall c s t, free c s -> free c t -> free c (s ++ t).
Proof. intros c s t A B I. apply in_app_or in I as [I|I]; auto. Qed.
Lemma free_split : forall c s t x y, free c s -> free c t -> s ++ c :: x = t ++ c :: y -> s = t /\ x = y.
Proof.
  intros c s. induction s as [|a s IH]; intros [|b t] x y A B E; cbn [app] in E.
  - now inversion E.
  - inversion E; subst. exfalso. apply B. now left.
  - inversion E; subst. exfalso. apply A. now left.
  - inversion E; subst. destruct (IH t x y) as (-> & ->); auto; intros I; [apply A|apply B]; now right.
Qed.
Lemma free_split_last : forall c s t x y, free c x -> free c y -> s ++ c :: x = t ++ c :: y -> s = t /\ x = y.
Proof.
  intros c s t x y A B E. apply (f_equal (@rev byte)) in E. rewrite !rev_app_distr in E. cbn [rev] in E. rewrite <- !app_assoc in E. cbn [app] in E.
  apply free_split in E as (P & Q); [|intros I; apply A; now apply in_rev|intros I; apply B; now apply in_rev].
  split; [rewrite <- (rev_involutive s), <- (rev_involutive t); now rewrite Q|rewrite <- (rev_involutive x), <- (rev_involutive y); now rewrite P].
Qed.
(** Digits, dots, colons and the letters of hexadecimal numbers. *)
Definition numeral (b : byte) : Prop := hex_digit b <> None \/ b = dot \/ b = colon.
Lemma numeral_free : forall c s, Forall numeral s -> ~ numeral c -> free c s.
Proof. intros c s F N I. rewrite Forall_forall in F. now apply N, F. Qed.
Lemma digit_numeral : forall b, 48 <= Byte.to_N b <= 57 -> numeral b.
Proof. intros b H. left. unfold hex_digit. destruct ((48 <=? Byte.to_N b) && (Byte.to_N b <=? 57)) eqn:E; [discriminate|lia]. Qed.
Lemma decimal_numeral : forall n, Forall numeral (decimal n).
Proof. intros n. destruct (decimal_spec n) as (_ & F & _). eapply Forall_impl; [|exact F]. exact digit_numeral. Qed.
Lemma print4_numeral : forall b, Forall numeral (print4 b).
Proof.
  intros b. eapply Forall_impl; [|apply print4_chars]. cbv beta. intros c [D| ->]; [|right; now left]. apply digit_numeral. unfold digit in D. lia.
Qed.
Lemma nth_small : forall gs i, small16 gs -> nth i gs 0 < 65536.
Proof.
  intros gs i S. destruct (Nat.lt_ge_cases i (List.length gs)) as [L|L]; [|rewrite nth_overflow by exact L; lia].
  unfold small16 in S. rewrite Forall_forall in S. apply S. now apply nth_In.
Qed.
Lemma print_hex_numeral : forall x, x < 65536 -> Forall numeral (print_hex x).
Proof. intros x L. destruct (print_hexes L) as (H & _). eapply Forall_impl; [|exact H]. intros b B. now left. Qed.
Lemma append6_numeral : forall f gs zs ze i, small16 gs -> Forall numeral (append6 f gs zs ze i).
Proof.
  assert (C : numeral colon) by (right; now right).
  induction f as [|f IH]; intros gs zs ze i S; cbn [append6]; [constructor|]. destruct (Nat.leb 8 i); [constructor|]. destruct (Nat.eqb i zs).
  - apply Forall_app. split; [now repeat constructor|]. destruct (Nat.leb 8 ze); [constructor|]. apply Forall_app. split; [apply print_hex_numeral; now apply nth_small|now apply IH].
  - apply Forall_app. split; [destruct (Nat.ltb 0 i); now repeat constructor|]. apply Forall_app. split; [apply print_hex_numeral; now apply nth_small|now apply IH].
Qed.

(** An address without a zone, or with a zone without a dash. *)
Definition undashed (a : addr) : Prop := match a with A6 _ z => free x2d z | _ => True end.
Lemma zone_free : forall z, free x2d z -> free x2d (print_zone z).
Proof. intros [|c z] F; [exact F|]. unfold print_zone. intros [I|I]; [discriminate I|now apply F]. Qed.
Lemma undashed_free : forall a n, undashed a -> free x2d (print_addrport (a, n)).
Proof.
  assert (D : ~ numeral x2d) by (intros [H|[H|H]]; [now apply H|discriminate H|discriminate H]).
  assert (W : forall s, Forall numeral s -> free x2d s) by (intros s F; now apply numeral_free).
  intros a n Z. unfold print_addrport. destruct a as [|b|b z].
  - intros I. vm_compute in I. repeat (destruct I as [I|I]; [discriminate I|]). exact I.
  - apply W. apply Forall_app. split; [apply print4_numeral|]. apply Forall_app. split; [repeat constructor; right; now right|apply decimal_numeral].
  - cbn [undashed] in Z. apply zone_free in Z. apply free_app; [intros [I|[]]; discriminate I|]. apply free_app.
    + unfold print_addr. destruct (is4in6 b).
      * apply free_app; [|apply free_app; [apply W, print4_numeral|exact Z]]. intros I. vm_compute in I. repeat (destruct I as [I|I]; [discriminate I|]). exact I.
      * destruct (best (pairs b) 0 (255, 255)%nat) as [zs ze] eqn:E. apply free_app; [apply W, append6_numeral, pairs_small|exact Z].
    + apply free_app; [|apply W, decimal_numeral]. intros [I|[I|[]]]; discriminate I.
Qed.
Lemma version_numeral : forall v, Forall numeral (version_string v).
Proof.
  intros v. unfold version_string. assert (P : Forall numeral [dot]) by (repeat constructor; right; now left).
  repeat (apply Forall_app; split; [first [apply decimal_numeral|exact P]|]). apply decimal_numeral.
Qed.
Lemma format_free : forall c z, ~ numeral c -> c <> x2d -> free c (format_int z).
Proof.
  intros c z N D. unfold format_int. assert (F : forall n, free c (decimal n)) by (intros n; apply numeral_free; [apply decimal_numeral|exact N]).
  destruct (z <? 0)%Z; [|apply F]. apply free_app; [|apply F]. intros [I|[]]. now apply D.
Qed.

(** The name of the state; the score that is not known counts as zero. *)
Definition state_word (s : pstate) : bytes := text (match s with PeerUnknown => "Unknown" | PeerConnected => "Connected" | PeerHostile => "Hostile" end)%string.
Definition score_of (p : Peer) : Z := match p_score p with None => 0%Z | Some s => s end.
Lemma state_text : forall s, pstate_string (state_number s) = Ok (state_word s).
Proof. intros []; reflexivity. Qed.
(** The dates are written without quotation marks and semicolons. *)
Definition sober (date : time -> bytes) : Prop := forall t, free x27 (date t) /\ free x3b (date t).

Lemma ok_inj : forall (A : Type) (a b : A), Ok a = Ok b -> a = b.
Proof. intros A a b E. now inversion E. Qed.
(** The text of a peer, and that there always is one. *)
Theorem C110_text : forall date p, peer_string date p =
  Ok (print_addrport (p_addr p, p_port p) ++ text "-" ++ decimal (p_nonce p) ++ text " '" ++ p_name p ++ text "' v" ++ version_string (p_version p) ++
      text " (" ++ state_word (p_state p) ++ text "; " ++ date (p_next p) ++ text "; " ++ format_int (score_of p) ++ text ")").
Proof. intros date p. unfold peer_string. rewrite state_text. reflexivity. Qed.
Print Assumptions C110_text.

(** Two peers with the same text agree on everything the text shows, so no name makes a peer look like another one.
    Partial: addresses without a zone or with a zone without a dash; with dashes it is false, see below. *)
Theorem C110_one_peer_partial : forall date p q s, sober date -> undashed (p_addr p) -> undashed (p_addr q) ->
  peer_string date p = Ok s -> peer_string date q = Ok s ->
  print_addrport (p_addr p, p_port p) = print_addrport (p_addr q, p_port q) /\
  (go_addr (p_addr p) -> go_addr (p_addr q) -> p_addr p <> AZero -> p_addr q <> AZero -> p_port p < 65536 -> p_port q < 65536 -> p_addr p = p_addr q /\ p_port p = p_port q) /\
  p_nonce p = p_nonce q /\ p_name p = p_name q /\ p_state p = p_state q /\ date (p_next p) = date (p_next q) /\ score_of p = score_of q /\
  (version_fits (p_version p) -> version_fits (p_version q) -> p_version p = p_version q).
Proof.
  intros date p q s D ZP ZQ P Q. rewrite C110_text in P, Q. pose proof (ok_inj (eq_trans P (eq_sym Q))) as E. clear P Q.
  remember (print_addrport (p_addr p, p_port p)) as A eqn:HA. remember (print_addrport (p_addr q, p_port q)) as B eqn:HB.
  assert (NA : free x2d A) by (rewrite HA; now apply undashed_free). assert (NB : free x2d B) by (rewrite HB; now apply undashed_free).
  assert (N20 : ~ numeral x20) by (intros [H|[H|H]]; [now apply H|discriminate H|discriminate H]).
  assert (N27 : ~ numeral x27) by (intros [H|[H|H]]; [now apply H|discriminate H|discriminate H]).
  assert (N3b : ~ numeral x3b) by (intros [H|[H|H]]; [now apply H|discriminate H|discriminate H]).
  change (text "-") with [x2d] in E. change (text " '") with [x20; x27] in E. change (text "' v") with [x27; x20; x76] in E.
  change (text " (") with [x20; x28] in E. change (text "; ") with [x3b; x20] in E. change (text ")") with [x29] in E. cbn [app] in E.
  apply (free_split NA NB) in E as (EA & E).
  apply free_split in E as (EN & E); [|apply numeral_free; [apply decimal_numeral|exact N20]|apply numeral_free; [apply decimal_numeral|exact N20]].
  apply decimal_inj in EN. apply (f_equal (@tl byte)) in E; cbn [tl] in E.
  assert (R : forall r, free x27 (x20 :: x76 :: version_string (p_version r) ++ x20 :: x28 :: state_word (p_state r) ++ x3b :: x20 :: date (p_next r) ++ x3b :: x20 :: format_int (score_of r) ++ [x29])).
  { intros r. assert (K : forall b t, b <> x27 -> free x27 t -> free x27 (b :: t)) by (intros b t H1 H2 [I|I]; auto).
    repeat (apply K; [discriminate|]). apply free_app; [apply numeral_free; [apply version_numeral|exact N27]|]. repeat (apply K; [discriminate|]).
    apply free_app; [destruct (p_state r); intros I; vm_compute in I; repeat (destruct I as [I|I]; [discriminate I|]); exact I|]. repeat (apply K; [discriminate|]).
    apply free_app; [apply D|]. repeat (apply K; [discriminate|]). apply free_app; [apply format_free; [exact N27|discriminate]|]. apply K; [discriminate|]. intros []. }
  apply free_split_last in E as (EM & E); [|apply R|apply R]. apply (f_equal (@tl byte)) in E; cbn [tl] in E. apply (f_equal (@tl byte)) in E; cbn [tl] in E.
  apply free_split in E as (EV & E); [|apply numeral_free; [apply version_numeral|exact N20]|apply numeral_free; [apply version_numeral|exact N20]]. apply (f_equal (@tl byte)) in E; cbn [tl] in E.
  assert (W : forall x, free x3b (state_word x)) by (intros [] I; vm_compute in I; repeat (destruct I as [I|I]; [discriminate I|]); exact I).
  apply free_split in E as (ES & E); [|apply W|apply W]. apply (f_equal (@tl byte)) in E; cbn [tl] in E.
  apply free_split in E as (ET & E); [|apply D|apply D]. apply (f_equal (@tl byte)) in E; cbn [tl] in E. apply app_inj_tail in E as (E & _). apply format_inj in E.
  split; [exact EA|]. split.
  { intros GP GQ XP XQ LP LQ. destruct C100_ports as (C & _). pose proof (C _ _ GP XP LP) as CP. pose proof (C _ _ GQ XQ LQ) as CQ.
    rewrite <- HA in CP. rewrite <- HB in CQ. rewrite EA in CP. rewrite CP in CQ. now injection CQ. }
  split; [exact EN|]. split; [exact EM|]. split; [destruct (p_state p), (p_state q); try reflexivity; discriminate ES|]. split; [exact ET|]. split; [exact E|].
  intros FP FQ. apply parse_string in FP, FQ. rewrite EV in FP. congruence.
Qed.
Print Assumptions C110_one_peer_partial.

(** With a dash in the zone two different peers have the same text: the end of the zone of the one is read as port, nonce and beginning of the name of the other. *)
Definition fe80 : bytes := [xfe; x80] ++ repeat x00 13 ++ [x01].
Definition known (a : addr) (port nonce : N) (name : bytes) : Peer :=
  {| p_addr := a; p_port := port; p_nonce := nonce; p_name := name; p_version := ver 1 5 3; p_state := PeerConnected; p_next := 0%Z; p_score := Some 42%Z; p_conn := None |}.
Definition some_date (t : time) : bytes := text "1970-01-01T00:00:00Z".
Theorem C110_one_peer_refuted : exists p q s, sober some_date /\ go_addr (p_addr p) /\ go_addr (p_addr q) /\
  peer_string some_date p = Ok s /\ peer_string some_date q = Ok s /\
  p_addr p <> p_addr q /\ p_port p <> p_port q /\ p_nonce p <> p_nonce q /\ p_name p <> p_name q.
Proof.
  exists (known (A6 fe80 (text "a]:1-2 'x")) 3 4 (text "y")), (known (A6 fe80 (text "a")) 1 2 (text "x]:3-4 'y")),
    (text "[fe80::1%a]:1-2 'x]:3-4 'y' v1.5.3 (Connected; 1970-01-01T00:00:00Z; 42)").
  split. { intros t. split; intros I; vm_compute in I; repeat (destruct I as [I|I]; [discriminate I|]); exact I. }
  repeat (split; [vm_compute; first [reflexivity|discriminate]|]). vm_compute. discriminate.
Qed.
Print Assumptions C110_one_peer_refuted.

(** A peer whose name imitates the rest of the line. *)
Example C110_example : sober some_date /\ undashed pa /\ go_addr pa /\ undashed (A6 fe80 (text "eth0")) /\ go_addr (A6 fe80 (text "eth0")) /\
  peer_string some_date (known pa 6863 7 (text "x' v1.5.0 (Hostile; ; 0)")) =
    Ok (text "1.2.3.4:6863-7 'x' v1.5.0 (Hostile; ; 0)' v1.5.3 (Connected; 1970-01-01T00:00:00Z; 42)") /\
  peer_string some_date zero_peer = Ok (text "invalid AddrPort-0 '' v0.0.0 (Unknown; 1970-01-01T00:00:00Z; 0)").
Proof.
  split. { intros t. split; intros I; vm_compute in I; repeat (destruct I as [I|I]; [discriminate I|]); exact I. }
  split; [exact I|]. split; [reflexivity|]. split; [|repeat split].
  intros I; vm_compute in I; repeat (destruct I as [I|I]; [discriminate I|]); exact I.
Qed.

(** Different heads have different texts. *)
Theorem C110_head : forall show h k, (forall i j : id, show i = show j -> i = j) -> head_string show h = head_string show k -> h = k.
Proof.
  intros show [n i] [m j] I E. unfold head_string in E. cbn [fst snd] in E.
  change (text "(") with [x28] in E. change (text ")'") with [x29; x27] in E. change (text "'") with [x27] in E. cbn [app] in E.
  apply (f_equal (@tl byte)) in E. cbn [tl] in E. assert (N29 : ~ numeral x29) by (intros [H|[H|H]]; [now apply H|discriminate H|discriminate H]).
  apply free_split in E as (EN & E); [|apply numeral_free; [apply decimal_numeral|exact N29]|apply numeral_free; [apply decimal_numeral|exact N29]].
  apply (f_equal (@tl byte)) in E. cbn [tl] in E. apply app_inj_tail in E as (E & _). apply decimal_inj in EN. apply I in E. now subst.
Qed.
Print Assumptions C110_head.
Example C110_head_example : (forall i j : id, (fun x : id => x) i = (fun x : id => x) j -> i = j) /\
  head_string (fun x => x) (7, text "3") = text "(7)'3'" /\ head_string (fun x => x) (73, text "") <> head_string (fun x => x) (7, text "3").
Proof. split; [intros i j E; exact E|]. split; [reflexivity|]. vm_compute. discriminate. Qed.
