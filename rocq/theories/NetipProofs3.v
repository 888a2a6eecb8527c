(** Proofs about the text functions of the Go library, end: address and port, sockets, white space, numbers (C100). *)
From Coq Require Import Strings.Byte Strings.String.
From Verif Require Import Base Kv BytesFacts ChainModel PeersModel LoadModel CborModel CborProofs ApiModel TextModel NetipModel NetipProofs NetipProofs2.
Set Implicit Arguments.
Unset Strict Implicit.
Local Open Scope N_scope.

(** * Address and port *)
Definition no_colon (s : bytes) : Prop := Forall (fun b => is 58 b = false) s.
Lemma last_none : forall s, no_colon s -> last_colon s = None.
Proof. induction s as [|b s IH]; intros F; [reflexivity|]. inversion F; subst. cbn [last_colon]. now rewrite IH, H1. Qed.
Lemma last_split : forall x y, no_colon y -> last_colon (x ++ colon :: y) = Some (x, y).
Proof.
  induction x as [|b x IH]; intros y F; cbn [app last_colon]; [now rewrite last_none|]. now rewrite IH.
Qed.
Lemma last_text : forall s x y, last_colon s = Some (x, y) -> s = x ++ colon :: y /\ no_colon y.
Proof.
  induction s as [|b s IH]; intros x y H; [discriminate|]. cbn [last_colon] in H. destruct (last_colon s) as [[u v]|] eqn:E.
  - injection H as <- <-. destruct (IH _ _ eq_refl) as (-> & F). split; [reflexivity|exact F].
  - destruct (is 58 b) eqn:B; [|discriminate]. injection H as <- <-. apply is_byte in B; [|lia]. subst b. split; [reflexivity|].
    clear IH. induction s as [|c s IH]; [constructor|]. cbn [last_colon] in E. destruct (last_colon s) as [[]|] eqn:E'; [discriminate|]. destruct (is 58 c) eqn:C; [discriminate|]. constructor; [exact C|now apply IH].
Qed.
Lemma port_decimal : forall n, n < 65536 -> parse_port (decimal n) = Some n.
Proof.
  intros n L. unfold parse_port. destruct (decimal_spec n) as (NE & _ & V). rewrite V. destruct (decimal n); [contradiction|]. destruct (N.ltb_spec n 65536); [reflexivity|lia].
Qed.
Lemma empty_dec : forall n, empty (decimal n) = false.
Proof. intros n. pose proof (empty_decimal n []) as E. now rewrite app_nil_r in E. Qed.
Lemma print4_first : forall b r, length b = 4%nat -> empty (print4 b ++ r) = false /\ brackets (print4 b ++ r) = Some (print4 b ++ r, false).
Proof.
  intros b r L. destruct (print4_head L) as (a & s & E & _). rewrite E. destruct (decimal_spec (Byte.to_N a)) as (NE & F & _). destruct (decimal (Byte.to_N a)) as [|c d]; [contradiction|].
  inversion F; subst. cbn [app]. split; [reflexivity|]. unfold brackets. assert (X : is 91 c = false) by (unfold is; lia). now rewrite X.
Qed.
Lemma parse_addr4 : forall b, length b = 4%nat -> parse_addr (print4 b) = Some (A4 b).
Proof. intros b L. apply (@parse_print (A4 b)). split; [exact L|discriminate]. Qed.
Lemma parse_print_port : forall a n, proper a -> n < 65536 -> parse_addrport (print_addrport (a, n)) = Some (a, n).
Proof.
  intros a n P L. destruct (octet_plain n) as (_ & ND & _ & _). destruct a as [|b|b z]; [now destruct P| |].
  - unfold print_addrport. unfold parse_addrport. cbn [app]. rewrite last_split by exact ND. destruct P as (G & _). cbn in G. destruct (@print4_first b [] G) as (E & B). rewrite app_nil_r in E, B.
    rewrite E, B, empty_dec. cbn [orb]. rewrite port_decimal by exact L. now rewrite parse_addr4.
  - unfold print_addrport, parse_addrport. set (t := print_addr (A6 b z)) in *. assert (PP : parse_addr t = Some (A6 b z)) by now apply parse_print. clearbody t.
    change (text "[" ++ t ++ text "]:" ++ decimal n) with (x5b :: t ++ [x5d] ++ colon :: decimal n). rewrite app_comm_cons, app_assoc. rewrite last_split by exact ND. rewrite empty_dec.
    cbn [app empty orb brackets]. change (is 91 x5b) with true. cbv iota. rewrite rev_app_distr. cbn [rev app]. change (is 93 x5d) with true. cbv iota. rewrite rev_involutive.
    rewrite port_decimal by exact L. now rewrite PP.
Qed.
Lemma port_range : forall s n, parse_port s = Some n -> n < 65536.
Proof. unfold parse_port. intros s n H. destruct s; [discriminate|]. destruct (number _ 0) as [m|]; [|discriminate]. destruct (N.ltb_spec m 65536); [|discriminate]. now injection H as <-. Qed.
Lemma parsed_port : forall s a n, parse_addrport s = Some (a, n) -> proper a /\ n < 65536.
Proof.
  intros s a n H. unfold parse_addrport in H. destruct (last_colon s) as [[x y]|]; [|discriminate]. destruct (empty x || empty y); [discriminate|]. destruct (brackets x) as [[ip v]|]; [|discriminate].
  destruct (parse_port y) as [m|] eqn:M; [|discriminate]. apply port_range in M. destruct (parse_addr ip) as [[|b|b z]|] eqn:P; try discriminate; apply parsed_proper in P.
  - destruct v; [discriminate|]. injection H as <- <-. now split.
  - destruct v; [|discriminate]. injection H as <- <-. now split.
Qed.
(** The texts that are read as an IPv4 address and port. *)
Lemma port4_text : forall s b n, parse_addrport s = Some (A4 b, n) <-> length b = 4%nat /\ exists p, s = print4 b ++ colon :: p /\ parse_port p = Some n.
Proof.
  intros s b n. split.
  - intros H. unfold parse_addrport in H. destruct (last_colon s) as [[x y]|] eqn:LC; [|discriminate]. apply last_text in LC as (-> & _). destruct (empty x || empty y) eqn:EM; [discriminate|]. destruct (brackets x) as [[ip v]|] eqn:B; [|discriminate].
    destruct (parse_port y) as [m|] eqn:M; [|discriminate]. destruct (parse_addr ip) as [[|b'|b' z]|] eqn:P; try discriminate H.
    + destruct v; [discriminate|]. injection H as -> ->.
      assert (X : ip = x).
      { unfold brackets in B. destruct x as [|c x]; [now injection B|]. destruct (is 91 c); [|now injection B]. destruct (rev x) as [|d u]; [discriminate|]. destruct (is 93 d); discriminate. }
      subst ip. assert (Q : parse4 x = Some b).
      { unfold parse_addr in P. destruct (first_mark x) as [k|]; [|discriminate]. assert (C : k = 46 \/ k = 58 \/ (k <> 46 /\ k <> 58)) by lia. destruct C as [->|[->|(C1 & C2)]].
        - destruct (parse4 x); [now injection P as ->|discriminate].
        - exfalso. unfold parse6 in P. destruct (split_zone x) as [t z0]. destruct z0 as [[|]|]; try discriminate P; destruct (leading t) as [u e]; destruct (match e with Some _ => empty u | None => false end); try discriminate P;
            destruct (groups 8 u [] e) as [[[ip' e'] [|]]|]; try discriminate P; destruct (expand ip' e'); discriminate P.
        - exfalso. destruct k as [|p]; [discriminate|]. do 6 (destruct p as [p|p|]; try discriminate P; try contradiction). }
      apply parse4_text in Q as (L & ->). split; [exact L|]. exists y. split; [reflexivity|exact M].
    + destruct v; discriminate.
  - intros (L & p & -> & P). unfold parse_addrport.
    assert (ND : no_colon p /\ empty p = false).
    { unfold parse_port in P. destruct p as [|c p]; [discriminate|]. split; [|reflexivity]. destruct (number (c :: p) 0) as [m|] eqn:M; [|discriminate]. clear P. set (q := c :: p) in *. clearbody q. clear c p.
      assert (A : forall q a m, number q a = Some m -> no_colon q); [|exact (A _ _ _ M)]. clear. induction q as [|d q IH]; intros a m M; [constructor|]. cbn [number] in M. destruct (_ && _) eqn:D; [|discriminate]. constructor; [unfold is; lia|]. now apply IH in M. }
    destruct ND as (ND & NE). rewrite last_split by exact ND. destruct (@print4_first b [] L) as (E & B). rewrite app_nil_r in E, B. rewrite E, B, NE. cbn [orb]. rewrite P. now rewrite parse_addr4.
Qed.

(** * Sockets *)
Lemma existsb_colon : forall s, no_colon s -> existsb (is 58) s = false.
Proof. induction s as [|b s IH]; intros F; [reflexivity|]. inversion F; subst. cbn [existsb]. now rewrite H1, IH. Qed.
Lemma colon_exists : forall s, existsb (is 58) s = false -> no_colon s.
Proof. induction s as [|b s IH]; intros E; [constructor|]. cbn [existsb] in E. apply orb_false_iff in E as [A B]. constructor; [exact A|now apply IH]. Qed.
Lemma first_colon : forall s, first_mark s = Some 58 -> existsb (is 58) s = true.
Proof.
  induction s as [|b s IH]; intros H; [discriminate|]. cbn [first_mark] in H. cbn [existsb]. destruct (is 58 b) eqn:C; [reflexivity|]. cbn [orb]. rewrite orb_false_r in H.
  destruct (is 46 b || is 37 b); [|now apply IH]. injection H as H. apply is_eq in H. congruence.
Qed.
Lemma print6_mark : forall b z, length b = 16%nat -> is4in6 b = false -> first_mark (print_addr (A6 b z)) = Some 58.
Proof.
  intros b z L M. assert (P : parse_addr (print_addr (A6 b z)) = Some (A6 b z)) by (apply parse_print; split; [exact L|discriminate]). unfold parse_addr in P.
  destruct (first_mark _) as [k|]; [|discriminate]. assert (C : k = 46 \/ k = 58 \/ (k <> 46 /\ k <> 58)) by lia. destruct C as [->|[->|(C1 & C2)]]; [|reflexivity|].
  - destruct (parse4 _); discriminate.
  - exfalso. destruct k as [|p]; [discriminate|]. do 6 (destruct p as [p|p|]; try discriminate P; try contradiction).
Qed.
Lemma print6_zone : forall b z, is4in6 b = false -> print_addr (A6 b []) ++ print_zone z = print_addr (A6 b z).
Proof. intros b z M. unfold print_addr. rewrite M. destruct (best _ _ _). cbn [print_zone]. now rewrite app_nil_r. Qed.
Lemma boxed : forall t n a, parse_addr t = a -> n < 65536 -> parse_addrport (text "[" ++ t ++ text "]:" ++ decimal n) =
  match a with Some (A6 b z) => Some (A6 b z, n) | _ => None end.
Proof.
  intros t n a PP L. destruct (octet_plain n) as (_ & ND & _ & _). unfold parse_addrport.
  change (text "[" ++ t ++ text "]:" ++ decimal n) with (x5b :: t ++ [x5d] ++ colon :: decimal n). rewrite app_comm_cons, app_assoc. rewrite last_split by exact ND. rewrite empty_dec.
  cbn [app empty orb brackets]. change (is 91 x5b) with true. cbv iota. rewrite rev_app_distr. cbn [rev app]. change (is 93 x5d) with true. cbv iota. rewrite rev_involutive.
  rewrite port_decimal by exact L. rewrite PP. destruct a as [[]|]; reflexivity.
Qed.
Lemma zone4_none : forall b z, length b = 4%nat -> z <> [] -> parse_addr (print4 b ++ print_zone z) = None.
Proof.
  intros b z L NZ. unfold parse_addr. rewrite print4_mark by exact L. destruct (parse4 _) as [f|] eqn:P; [|reflexivity]. exfalso. apply parse4_text in P as (_ & E).
  destruct (print4_plain f) as (X & _). rewrite <- E in X. apply Forall_app in X as (_ & X). destruct z; [contradiction|]. inversion X; subst. discriminate.
Qed.
(** The address of the other end of a TCP connection, as the program reads it from its text. *)
Lemma socket4 : forall b n, length b = 4%nat -> n < 65536 -> parse_addrport (tcp_string b [] n) = Some (A4 b, n).
Proof.
  intros b n L N. unfold tcp_string, ip_string. rewrite L. cbn [print_zone]. rewrite app_nil_r. rewrite existsb_colon by apply print4_plain.
  apply (@parse_print_port (A4 b) n); [split; [exact L|discriminate]|exact N].
Qed.
Lemma socket_mapped : forall b n, length b = 16%nat -> is4in6 b = true -> n < 65536 -> parse_addrport (tcp_string b [] n) = Some (A4 (skipn 12 b), n).
Proof.
  intros b n L M N. unfold tcp_string, ip_string. rewrite L, M. cbn [print_zone]. rewrite app_nil_r. rewrite existsb_colon by apply print4_plain.
  apply (@parse_print_port (A4 (skipn 12 b)) n); [split; [now apply mapped_length|discriminate]|exact N].
Qed.
Lemma socket6 : forall b z n, length b = 16%nat -> is4in6 b = false -> n < 65536 -> parse_addrport (tcp_string b z n) = Some (A6 b z, n).
Proof.
  intros b z n L M N. unfold tcp_string, ip_string. rewrite L, M. cbv iota zeta. rewrite print6_zone by exact M. rewrite first_colon by now apply print6_mark.
  rewrite (@boxed _ _ (Some (A6 b z))); [reflexivity|apply parse_print; split; [exact L|discriminate]|exact N].
Qed.
Lemma socket4_zone : forall b z n, length b = 4%nat \/ (length b = 16%nat /\ is4in6 b = true) -> z <> [] -> n < 65536 -> parse_addrport (tcp_string b z n) = None.
Proof.
  intros b z n C NZ N. set (q := if Nat.eqb (length b) 4 then b else skipn 12 b).
  assert (Q : length q = 4%nat /\ ip_string b = print4 q).
  { unfold q, ip_string. destruct C as [L|(L & M)]; rewrite L; cbn [Nat.eqb]; [now split|]. rewrite M. split; [now apply mapped_length|reflexivity]. }
  destruct Q as (L & E). unfold tcp_string. rewrite E. cbv zeta. pose proof (zone4_none L NZ) as Z. destruct (existsb _ _) eqn:X.
  - rewrite (@boxed _ _ None Z N). reflexivity.
  - apply colon_exists in X. unfold parse_addrport. change ([colon] ++ decimal n) with (colon :: decimal n). destruct (octet_plain n) as (_ & ND & _ & _). rewrite last_split by exact ND. destruct (@print4_first q (print_zone z) L) as (E1 & E2). rewrite E1, E2, empty_dec. cbn [orb]. rewrite port_decimal by exact N. now rewrite Z.
Qed.
Lemma socket_none : forall z n, n < 65536 -> parse_addrport (tcp_string [] z n) = None.
Proof.
  intros z n N. unfold tcp_string, ip_string. cbn [length app]. cbv zeta. assert (Z : parse_addr (print_zone z) = None) by (destruct z; reflexivity). destruct (existsb _ _) eqn:X.
  - rewrite (@boxed _ _ None Z N). reflexivity.
  - unfold parse_addrport. change ([colon] ++ decimal n) with (colon :: decimal n). destruct (octet_plain n) as (_ & ND & _ & _). rewrite last_split by exact ND. rewrite empty_dec. destruct z as [|c z]; [reflexivity|]. cbn [print_zone empty orb brackets].
    change (is 91 percent) with false. cbv iota. rewrite port_decimal by exact N. reflexivity.
Qed.

(** ** An address with a port is no address *)
Lemma bracket_none : forall s, parse_addr (x5b :: s) = None.
Proof.
  intros s. unfold parse_addr. destruct (first_mark (x5b :: s)) as [k|]; [|reflexivity]. assert (P6 : parse6 (x5b :: s) = None).
  { unfold parse6. cbn [split_zone]. change (is 37 x5b) with false. cbv iota. destruct (split_zone s) as [t z]. assert (E : leading (x5b :: t) = (x5b :: t, None)) by (destruct t; reflexivity).
    destruct z as [[|]|]; cbv zeta; try reflexivity; rewrite E; reflexivity. }
  destruct k as [|p]; [reflexivity|]. do 6 (destruct p as [p|p|]; try reflexivity); exact P6.
Qed.
Lemma hex_plain : forall x k a r j v t, Forall (fun b => is 46 b = false /\ is 58 b = false) x -> hex (x ++ colon :: r) k a = Some (j, v, t) ->
  t = colon :: r \/ exists c t', t = c :: t' /\ is 46 c = false /\ is 58 c = false.
Proof.
  induction x as [|b x IH]; intros k a r j v t F H.
  - cbn in H. injection H as <- <- <-. now left.
  - inversion F as [|? ? FB FX]; subst. cbn [app hex] in H. destruct (hex_digit b) as [d|].
    + destruct (Nat.ltb 3 k || _); [discriminate|]. exact (IH _ _ _ _ _ _ FX H).
    + injection H as <- <- <-. right. eauto.
Qed.
Lemma hex_digits : forall p k a j v t, Forall (fun b => digit b = true) p -> hex p k a = Some (j, v, t) -> t = [].
Proof.
  induction p as [|b p IH]; intros k a j v t F H; [now injection H as <- <- <-|]. inversion F; subst. cbn [hex] in H. destruct (hex_digit b) as [d|] eqn:D.
  - destruct (Nat.ltb 3 k || _); [discriminate|]. eauto.
  - exfalso. unfold hex_digit, digit in *. rewrite H2 in D. discriminate.
Qed.
Lemma split_none : forall s, plain s -> split_zone s = (s, None).
Proof. intros s P. pose proof (@split_plain s [] P) as E. cbn in E. now rewrite app_nil_r in E. Qed.
Lemma one_colon : forall x p, no_colon x -> Forall (fun b => digit b = true) p -> parse_addr (x ++ colon :: p) = None.
Proof.
  intros x p NX DP. unfold parse_addr. destruct (first_mark (x ++ colon :: p)) as [k|] eqn:FM; [|reflexivity].
  assert (C : k = 46 \/ k = 58 \/ (k <> 46 /\ k <> 58)) by lia. destruct C as [->|[->|(C1 & C2)]].
  - destruct (parse4 _) as [f|] eqn:P; [|reflexivity]. exfalso. apply parse4_text in P as (_ & E). destruct (print4_plain f) as (_ & F). rewrite <- E in F.
    apply Forall_app in F as (_ & F). inversion F; subst. discriminate.
  - assert (PX : plain x /\ Forall (fun b => is 46 b = false /\ is 58 b = false) x).
    { clear DP. revert FM NX. induction x as [|b x IH]; intros FM NX; [split; constructor|]. inversion NX; subst. cbn [app first_mark] in FM. rewrite H1 in FM.
      destruct (is 46 b) eqn:B4; [injection FM as FM; apply is_eq in B4; lia|]. destruct (is 37 b) eqn:B3; [injection FM as FM; apply is_eq in B3; lia|]. cbn [orb] in FM.
      destruct (IH FM H2) as (I1 & I2). split; constructor; try assumption. now split. }
    destruct PX as (PX & FX). unfold parse6.
    assert (PL : plain (x ++ colon :: p)).
    { apply Forall_app. split; [exact PX|]. constructor; [reflexivity|]. eapply Forall_impl; [|exact DP]. cbv beta. intros b B. unfold digit, is in *. lia. }
    rewrite split_none by exact PL. cbv zeta.
    assert (E : leading (x ++ colon :: p) = (x ++ colon :: p, None)).
    { destruct x as [|b x]; [destruct p as [|d p]; [reflexivity|]|].
      - inversion DP; subst. cbn [app leading]. assert (X : is 58 d = false) by (unfold digit, is in *; lia). rewrite X. now rewrite andb_false_r.
      - inversion NX; subst. cbn [app leading]. destruct x; cbn [app]; rewrite H1; reflexivity. }
    rewrite E. cbv iota. cbn [groups]. destruct (hex (x ++ colon :: p) 0 0) as [[[[|k] v] t]|] eqn:H; try reflexivity. apply hex_plain in H as [->|(c & t' & -> & D4 & D8)]; [|rewrite D4, D8; reflexivity|exact FX].
    change (is 46 colon) with false. change (is 58 colon) with true. cbn [negb]. cbv iota. destruct p as [|d p]; [reflexivity|]. assert (X : is 58 d = false) by (inversion DP; subst; unfold digit, is in *; lia). rewrite X.
    cbn [app]. destruct (hex (d :: p) 0 0) as [[[[|k'] v'] t]|] eqn:H'; try reflexivity. apply hex_digits in H'; [|exact DP]. subst t. reflexivity.
  - destruct k as [|q]; [reflexivity|]. do 6 (destruct q as [q|q|]; try reflexivity; try contradiction).
Qed.
Lemma hostile_none : forall ip z n, hostile_key ip z n = None.
Proof.
  intros ip z n. unfold hostile_key, tcp_string. destruct (existsb _ _) eqn:X; [apply bracket_none|]. apply colon_exists in X. apply one_colon; [exact X|apply octet_plain].
Qed.

(** * White space *)
Lemma cut_text : forall p s r, cut p s = Some r <-> s = p ++ r.
Proof.
  induction p as [|a p IH]; intros s r; cbn [cut app].
  - split; [now intros [= ->]|now intros ->].
  - destruct s as [|b s]; [split; discriminate|]. destruct (Byte.eqb a b) eqn:E.
    + apply Byte.byte_dec_bl in E. subst b. rewrite IH. split; [now intros ->|now intros [= ->]].
    + split; [discriminate|]. intros [= -> _]. rewrite Byte.byte_dec_lb in E by reflexivity. discriminate.
Qed.
Lemma cut_some : forall ps s r, cut_any ps s = Some r -> exists p, In p ps /\ s = p ++ r.
Proof.
  induction ps as [|p ps IH]; intros s r H; [discriminate|]. cbn [cut_any] in H. destruct (cut p s) as [q|] eqn:C.
  - injection H as ->. apply cut_text in C. exists p. split; [now left|exact C].
  - destruct (IH _ _ H) as (p' & I & E). exists p'. split; [now right|exact E].
Qed.
Lemma cut_none : forall ps s, cut_any ps s = None <-> forall p r, In p ps -> s <> p ++ r.
Proof.
  induction ps as [|p ps IH]; intros s; cbn [cut_any]; [split; [intros _ p r []|reflexivity]|]. destruct (cut p s) as [q|] eqn:C.
  - split; [discriminate|]. intros H. apply cut_text in C. exfalso. exact (H p q (or_introl eq_refl) C).
  - rewrite IH. split; [|intros H p' r I; apply H; now right]. intros H p' r [<-|I]; [|now apply H]. intros E. apply cut_text in E. congruence.
Qed.
Lemma strip_spec : forall ps f s, (forall p, In p ps -> p <> []) -> (length s <= f)%nat ->
  cut_any ps (strip ps f s) = None /\ exists l, Forall (fun p => In p ps) l /\ s = concat l ++ strip ps f s.
Proof.
  induction f as [|f IH]; intros s NE L.
  - destruct s; [|cbn in L; lia]. cbn [strip]. split; [|exists []; split; [constructor|reflexivity]]. apply cut_none. intros p r I E. symmetry in E. apply app_eq_nil in E as (E & _). now apply (NE p).
  - cbn [strip]. destruct (cut_any ps s) as [r|] eqn:C; [|split; [exact C|exists []; split; [constructor|reflexivity]]].
    apply cut_some in C as (p & I & ->). destruct (IH r NE) as (A & l & F & E). { rewrite app_length in L. specialize (NE p I). destruct p; [contradiction|]. cbn in L. lia. }
    split; [exact A|]. exists (p :: l). split; [now constructor|]. cbn [concat]. rewrite <- app_assoc. now rewrite <- E.
Qed.
Lemma strip_fix : forall ps f s, cut_any ps s = None -> strip ps f s = s.
Proof. intros ps f s H. destruct f; [reflexivity|]. cbn [strip]. now rewrite H. Qed.
Definition space (p : bytes) : Prop := In p spaces.
Lemma spaces_nonempty : (forall p, In p spaces -> p <> []) /\ forall p, In p (map (@rev byte) spaces) -> p <> [].
Proof. split; intros p I; cbn in I; repeat (destruct I as [<-|I]; [discriminate|]); destruct I. Qed.
Lemma rev_concat : forall l : list bytes, rev (concat l) = concat (rev (map (@rev byte) l)).
Proof. induction l as [|x l IH]; [reflexivity|]. cbn [concat map rev]. rewrite rev_app_distr, IH, concat_app. cbn [concat]. now rewrite app_nil_r. Qed.
Lemma trim_spec : forall s, (exists l r, Forall space l /\ Forall space r /\ s = concat l ++ trim_space s ++ concat r) /\
  forall p t, space p -> trim_space s <> p ++ t /\ trim_space s <> t ++ p.
Proof.
  intros s. destruct spaces_nonempty as (N1 & N2). unfold trim_space, trim_left, trim_right.
  destruct (@strip_spec spaces (length s) s N1 ltac:(lia)) as (A & l & FL & EL). set (u := strip spaces (length s) s) in *. clearbody u.
  destruct (@strip_spec (map (@rev byte) spaces) (length u) (rev u) N2 ltac:(rewrite rev_length; lia)) as (B & r & FR & ER). set (v := strip _ _ (rev u)) in *. clearbody v.
  assert (EU : u = rev v ++ concat (rev (map (@rev byte) r))) by (rewrite <- rev_concat, <- rev_app_distr, <- ER; now rewrite rev_involutive).
  split.
  - exists l, (rev (map (@rev byte) r)). split; [exact FL|]. split.
    + apply Forall_rev. apply Forall_map. eapply Forall_impl; [|exact FR]. cbv beta. intros p I. apply in_map_iff in I as (q & <- & I). unfold space. now rewrite rev_involutive.
    + rewrite <- EU. exact EL.
  - intros p t I. split; intros E.
    + apply (proj1 (cut_none _ _) A p (t ++ concat (rev (map (@rev byte) r))) I). rewrite EU, E. now rewrite app_assoc.
    + apply (proj1 (cut_none _ _) B (rev p) (rev t)); [now apply in_map|]. rewrite <- rev_app_distr, <- E. now rewrite rev_involutive.
Qed.
Lemma trim_twice : forall s, trim_space (trim_space s) = trim_space s.
Proof.
  intros s. destruct (trim_spec s) as (_ & N). set (t := trim_space s) in *. clearbody t. unfold trim_space, trim_left, trim_right.
  assert (L : strip spaces (length t) t = t) by (apply strip_fix, cut_none; intros p r I; exact (proj1 (N p r I))). rewrite L. rewrite strip_fix; [apply rev_involutive|]. apply cut_none. intros p r I E. apply in_map_iff in I as (q & <- & I).
  apply (proj2 (N q (rev r) I)). rewrite <- (rev_involutive t), E, rev_app_distr. now rewrite rev_involutive.
Qed.

(** * Numbers *)
Lemma unsigned_decimal : forall n, unsigned (decimal n) = Some n.
Proof. intros n. unfold unsigned. destruct (decimal_spec n) as (NE & _ & V). destruct (decimal n); [contradiction|exact V]. Qed.
Lemma atoi_format : forall z, (- 2 ^ 63 <= z < 2 ^ 63)%Z -> atoi (format_int z) = Some z.
Proof.
  intros z R. unfold format_int. destruct (Z.ltb_spec z 0).
  - cbn [text list_byte_of_string app atoi]. change (text "-" ++ decimal (Z.to_N (- z))) with (x2d :: decimal (Z.to_N (- z))). cbn [atoi]. change (is 45 x2d) with true. cbv iota. rewrite unsigned_decimal.
    destruct (N.leb_spec (Z.to_N (- z)) (2 ^ 63)); [|lia]. f_equal. lia.
  - destruct (decimal_spec (Z.to_N z)) as (NE & F & _). pose proof (unsigned_decimal (Z.to_N z)) as U. destruct (decimal (Z.to_N z)) as [|c s]; [contradiction|]. inversion F; subst. unfold atoi.
    assert (X : is 45 c = false /\ is 43 c = false) by (unfold is; lia). destruct X as (-> & ->). rewrite U. destruct (N.ltb_spec (Z.to_N z) (2 ^ 63)); [|lia]. f_equal. lia.
Qed.
Lemma atoi_range : forall s z, atoi s = Some z -> (- 2 ^ 63 <= z < 2 ^ 63)%Z.
Proof.
  intros s z H. unfold atoi in H. destruct s as [|b s]; [discriminate|]. destruct (is 45 b).
  - destruct (unsigned s) as [n|]; [|discriminate]. destruct (N.leb_spec n (2 ^ 63)); [|discriminate]. injection H as <-. lia.
  - destruct (unsigned _) as [n|]; [|discriminate]. destruct (N.ltb_spec n (2 ^ 63)); [|discriminate]. injection H as <-. lia.
Qed.
