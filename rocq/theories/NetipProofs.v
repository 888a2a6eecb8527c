(** Proofs about the text functions of the Go library (C100). *)
From Coq Require Import Strings.Byte Strings.String.
From Verif Require Import Base Kv BytesFacts ChainModel PeersModel LoadModel CborModel CborProofs ApiModel TextModel NetipModel.
Set Implicit Arguments.
Unset Strict Implicit.
Local Open Scope N_scope.

(** * IPv4 *)
Lemma octet : forall a s acc, fields4 (decimal (Byte.to_N a) ++ dot :: s) true 0 0 acc =
  if empty s || Nat.eqb (length acc) 3 then None else fields4 s true 0 0 (acc ++ [a]).
Proof. intros a s acc. destruct a; reflexivity. Qed.
Lemma octet_last : forall a acc, fields4 (decimal (Byte.to_N a)) true 0 0 acc = if Nat.eqb (length acc) 3 then Some (acc ++ [a]) else None.
Proof. intros a acc. destruct a; reflexivity. Qed.
Lemma empty_decimal : forall n s, empty (decimal n ++ s) = false.
Proof. intros n s. destruct (decimal_spec n) as (NE & _). destruct (decimal n); [contradiction|reflexivity]. Qed.
Lemma parse_print4 : forall b, length b = 4%nat -> parse4 (print4 b) = Some b.
Proof.
  intros b L. destruct b as [|a [|b [|c [|d [|]]]]]; try discriminate L. unfold parse4, print4. cbn [app].
  rewrite octet, empty_decimal. cbn [length Nat.eqb orb app]. rewrite octet, empty_decimal. cbn [length Nat.eqb orb app].
  rewrite octet. pose proof (empty_decimal (Byte.to_N d) []) as E. rewrite app_nil_r in E. rewrite E. cbn [length Nat.eqb orb app].
  now rewrite octet_last.
Qed.

(** The text is the only one that is read as the address. *)
Lemma decimal_step : forall v, v < 256 -> decimal v = (if v <? 10 then [] else decimal (v / 10)) ++ [byte_of (48 + v mod 10)].
Proof.
  assert (A : forall b, (fun v => beqb (decimal v) ((if v <? 10 then [] else decimal (v / 10)) ++ [byte_of (48 + v mod 10)])) (Byte.to_N b) = true)
    by (intros b; destruct b; vm_compute; reflexivity).
  intros v L. specialize (A (byte_of v)). cbn beta in A. rewrite to_N_byte_of in A by lia. now apply beqb_eq.
Qed.
Definition octets (acc : bytes) : bytes := flat_map (fun a => decimal (Byte.to_N a) ++ [dot]) acc.
Lemma digit_byte : forall b, digit b = true -> b = byte_of (48 + (Byte.to_N b - 48)) /\ Byte.to_N b - 48 < 10.
Proof.
  unfold digit. intros b H. apply andb_true_iff in H as [H1 H2]. apply N.leb_le in H1, H2. split; [|lia].
  replace (48 + (Byte.to_N b - 48)) with (Byte.to_N b) by lia. now rewrite byte_of_to_N.
Qed.
Lemma is_eq : forall c b, is c b = true <-> Byte.to_N b = c.
Proof. intros c b. unfold is. apply N.eqb_eq. Qed.
Lemma is_byte : forall c b, c < 256 -> is c b = true -> b = byte_of c.
Proof. intros c b L H. apply is_eq in H. subst c. now rewrite byte_of_to_N. Qed.
Lemma fields4_text : forall s d val n acc f, fields4 s d val n acc = Some f -> val < 256 -> (length acc <= 3)%nat ->
  (n = 0 -> val = 0 /\ (s <> [] \/ acc = [])) -> (d = true <-> n = 0) -> (val = 0 -> n <= 1) ->
  exists x y, f = x ++ [y] /\ length x = 3%nat /\ octets acc ++ (if n =? 0 then [] else decimal val) ++ s = octets x ++ decimal (Byte.to_N y).
Proof.
  induction s as [|b s IH]; intros d val n acc f H V L Z D O; cbn [fields4] in H.
  - destruct (Nat.eqb_spec (length acc) 3) as [E|]; [|discriminate]. injection H as <-. exists acc, (byte_of val). split; [reflexivity|]. split; [exact E|].
    destruct (N.eqb_spec n 0) as [N0|N0].
    + destruct (Z N0) as (_ & [X|X]); [contradiction|]. subst acc. discriminate E.
    + rewrite to_N_byte_of by lia. now rewrite app_nil_r.
  - destruct (digit b) eqn:DG.
    + apply digit_byte in DG as [EB LB]. destruct ((n =? 1) && (val =? 0)) eqn:G; [discriminate|].
      set (v := val * 10 + (Byte.to_N b - 48)) in *. cbv zeta in H. destruct (N.ltb_spec 255 v) as [|LV]; [discriminate|].
      destruct (IH _ _ _ _ _ H) as (x & y & E1 & E2 & E3); [lia|exact L|lia| |lia|].
      { split; [discriminate|lia]. }
      exists x, y. split; [exact E1|]. split; [exact E2|]. rewrite <- E3. f_equal. replace (n + 1 =? 0) with false by lia.
      rewrite (@decimal_step v) by lia. replace (v mod 10) with (Byte.to_N b - 48) by (unfold v; symmetry; rewrite N.add_comm, N.mod_add by lia; apply N.mod_small; lia).
      rewrite <- EB. rewrite <- app_assoc. cbn [app]. f_equal.
      replace (v / 10) with val by (unfold v; symmetry; rewrite N.add_comm, N.div_add by lia; rewrite N.div_small by lia; lia).
      destruct (N.eqb_spec n 0) as [N0|N0].
      * destruct (Z N0) as (-> & _). subst v. now replace (0 * 10 + (Byte.to_N b - 48) <? 10) with true by lia.
      * assert (val <> 0) by lia. subst v. now replace (val * 10 + (Byte.to_N b - 48) <? 10) with false by lia.
    + destruct (is 46 b) eqn:IS; [|discriminate]. apply is_byte in IS; [|lia]. subst b.
      destruct (d || empty s || Nat.eqb (length acc) 3) eqn:G; [discriminate|]. apply orb_false_iff in G as [G G3]. apply orb_false_iff in G as [G1 G2].
      assert (S0 : s <> []) by (destruct s; [discriminate|discriminate]).
      destruct (IH _ _ _ _ _ H) as (x & y & E1 & E2 & E3); [lia|rewrite app_length; cbn [length]; apply Nat.eqb_neq in G3; lia| | |lia|].
      { intros _. split; [reflexivity|now left]. } { split; reflexivity. }
      exists x, y. split; [exact E1|]. split; [exact E2|]. rewrite <- E3. cbn [N.eqb app]. unfold octets. rewrite flat_map_app. cbn [flat_map].
      rewrite app_nil_r, to_N_byte_of by lia. destruct (N.eqb_spec n 0) as [N0|N0]; [apply D in N0; congruence|].
      rewrite <- !app_assoc. reflexivity.
Qed.
Lemma parse4_text : forall s f, parse4 s = Some f <-> length f = 4%nat /\ s = print4 f.
Proof.
  intros s f. split.
  - intros H. apply fields4_text in H as (x & y & E1 & E2 & E3); [|lia|cbn; lia|auto|split; reflexivity|lia].
    cbn in E3. subst f. rewrite app_length, E2. split; [reflexivity|]. destruct x as [|a [|b [|c [|]]]]; try discriminate E2. subst s. unfold octets, print4. cbn [flat_map app].
    rewrite ?app_nil_r, <- ?app_assoc. reflexivity.
  - intros (L & ->). now apply parse_print4.
Qed.

(** * Hexadecimal groups *)
Lemma hex_digit_char : forall n, n < 16 -> hex_digit (hex_char n) = Some n.
Proof.
  assert (A : forall b, (if Byte.to_N b <? 16 then match hex_digit (hex_char (Byte.to_N b)) with Some m => m =? Byte.to_N b | None => false end else true) = true)
    by (intros b; destruct b; reflexivity).
  intros n L. specialize (A (byte_of n)). rewrite to_N_byte_of in A by lia. destruct (N.ltb_spec n 16); [|lia]. destruct (hex_digit _); [|discriminate]. apply N.eqb_eq in A. now subst.
Qed.
Definition stops (r : bytes) : Prop := match r with [] => True | c :: _ => hex_digit c = None end.
Lemma hex_stop : forall r k a, stops r -> hex r k a = Some (k, a, r).
Proof. intros r k a S. destruct r as [|c r]; [reflexivity|]. cbn in S |- *. now rewrite S. Qed.
Lemma hex_one : forall n s k a, n < 16 -> (k <= 3)%nat -> a * 16 + n <= 65535 -> hex (hex_char n :: s) k a = hex s (S k) (a * 16 + n).
Proof.
  intros n s k a L K A. cbn [hex]. rewrite hex_digit_char by exact L. destruct (Nat.ltb_spec 3 k); [lia|]. destruct (N.ltb_spec 65535 (a * 16 + n)); [lia|]. reflexivity.
Qed.
Lemma hex_print : forall x r, x < 65536 -> stops r -> exists k, hex (print_hex x ++ r) 0 0 = Some (S k, x, r).
Proof.
  intros x r L S. unfold print_hex.
  assert (M0 : x mod 16 < 16) by (apply N.mod_lt; lia). assert (M1 : x / 16 mod 16 < 16) by (apply N.mod_lt; lia). assert (M2 : x / 256 mod 16 < 16) by (apply N.mod_lt; lia).
  assert (D0 := N.div_mod' x 16). assert (D1 := N.div_mod' (x / 16) 16). assert (D2 := N.div_mod' (x / 256) 16).
  assert (Q1 : x / 16 / 16 = x / 256) by (rewrite N.div_div by lia; reflexivity). assert (Q2 : x / 256 / 16 = x / 4096) by (rewrite N.div_div by lia; reflexivity).
  assert (B3 : x / 4096 < 16) by (apply N.div_lt_upper_bound; lia).
  destruct (N.leb_spec 4096 x) as [L3|L3]; [|rewrite (N.div_small x 4096) in * by lia].
  - replace (256 <=? x) with true by lia. replace (16 <=? x) with true by lia. cbn [app]. exists 3%nat.
    rewrite hex_one by lia. rewrite hex_one by lia. rewrite hex_one by lia. rewrite hex_one by lia. rewrite hex_stop by exact S. repeat f_equal. lia.
  - destruct (N.leb_spec 256 x) as [L2|L2]; [|rewrite (N.div_small x 256) in * by lia].
    + replace (16 <=? x) with true by lia. cbn [app]. exists 2%nat. rewrite hex_one by lia. rewrite hex_one by lia. rewrite hex_one by lia.
      rewrite hex_stop by exact S. repeat f_equal. lia.
    + destruct (N.leb_spec 16 x) as [L1|L1]; [|rewrite (N.div_small x 16) in * by lia].
      * cbn [app]. exists 1%nat. rewrite hex_one by lia. rewrite hex_one by lia. rewrite hex_stop by exact S. repeat f_equal. lia.
      * cbn [app]. exists 0%nat. rewrite hex_one by lia. rewrite hex_stop by exact S. repeat f_equal. lia.
Qed.
Definition hexes (s : bytes) : Prop := Forall (fun b => hex_digit b <> None) s.
Lemma print_hexes : forall x, x < 65536 -> hexes (print_hex x) /\ print_hex x <> [].
Proof.
  intros x L. assert (B3 : x / 4096 < 16) by (apply N.div_lt_upper_bound; lia).
  assert (C : forall n, n < 16 -> hex_digit (hex_char n) <> None) by (intros n A; now rewrite hex_digit_char). unfold print_hex, hexes. split.
  - repeat (apply Forall_app; split); repeat match goal with |- context [if ?b then _ else _] => destruct b end; repeat constructor; apply C; try exact B3; apply N.mod_lt; lia.
  - destruct (4096 <=? x), (256 <=? x), (16 <=? x); discriminate.
Qed.
Lemma hex_not : forall b, hex_digit b <> None -> is 46 b = false /\ is 58 b = false /\ is 37 b = false.
Proof. intros b. destruct b; vm_compute; intros H; repeat split; try reflexivity; exfalso; now apply H. Qed.

(** * IPv6 *)
Fixpoint join (gs : list N) : bytes :=
  match gs with [] => [] | [g] => print_hex g | g :: gs' => print_hex g ++ colon :: join gs' end.
Definition flat (gs : list N) : bytes := flat_map (fun g => [byte_of (g / 256); byte_of (g mod 256)]) gs.
Definition small16 (gs : list N) : Prop := Forall (fun g => g < 65536) gs.
Lemma join_head : forall gs, small16 gs -> gs <> [] -> exists c s, join gs = c :: s /\ hex_digit c <> None.
Proof.
  intros gs S NE. destruct gs as [|g gs]; [contradiction|]. inversion S; subst. destruct (@print_hexes g ltac:(assumption)) as (A & B). destruct (print_hex g) as [|c p] eqn:E; [contradiction|].
  inversion A; subst. destruct gs; cbn [join]; rewrite E; cbn [app]; eauto.
Qed.
Lemma groups_join : forall gs f ip e, gs <> [] -> (length gs <= f)%nat -> small16 gs -> groups f (join gs) ip e = Some (ip ++ flat gs, e, []).
Proof.
  induction gs as [|g gs IH]; intros f ip e NE L S; [contradiction|]. destruct f as [|f]; [cbn in L; lia|]. inversion S; subst. destruct gs as [|g' gs].
  - cbn [join groups]. destruct (@hex_print g [] ltac:(assumption) I) as (k & H). rewrite app_nil_r in H. rewrite H. reflexivity.
  - assert (J : join (g :: g' :: gs) = print_hex g ++ colon :: join (g' :: gs)) by reflexivity. rewrite J. clear J. cbn [groups].
    destruct (@hex_print g (colon :: join (g' :: gs)) ltac:(assumption) eq_refl) as (k & H). rewrite H.
    change (is 46 colon) with false. change (is 58 colon) with true. cbn [negb]. cbv iota.
    destruct (@join_head (g' :: gs) ltac:(assumption) ltac:(discriminate)) as (c & s & E & X). rewrite E. apply hex_not in X as (_ & X & _). rewrite X. rewrite <- E.
    rewrite IH; [|discriminate|cbn in L |- *; lia|assumption]. cbn [flat flat_map]. rewrite <- app_assoc. reflexivity.
Qed.
Lemma groups_two : forall gs gs' f ip, gs <> [] -> (length gs + length gs' <= f)%nat -> small16 gs -> small16 gs' ->
  groups f (join gs ++ [colon; colon] ++ join gs') ip None = Some (ip ++ flat gs ++ flat gs', Some (length (ip ++ flat gs)), []).
Proof.
  induction gs as [|g gs IH]; intros gs' f ip NE L S S'; [contradiction|]. destruct f as [|f]; [cbn in L; lia|]. inversion S; subst. destruct gs as [|g' gs].
  - cbn [join groups app]. destruct (@hex_print g (colon :: colon :: join gs') ltac:(assumption) eq_refl) as (k & H). rewrite H.
    change (is 46 colon) with false. change (is 58 colon) with true. cbn [negb]. cbv iota.
    set (ip' := ip ++ [byte_of (g / 256); byte_of (g mod 256)]). assert (F : ip ++ flat [g] = ip') by reflexivity. rewrite F. rewrite app_assoc, F.
    destruct gs' as [|h gs'].
    + cbn [join empty flat flat_map]. now rewrite app_nil_r.
    + destruct (@join_head (h :: gs') S' ltac:(discriminate)) as (c & s & E & X). rewrite E. cbn [empty]. rewrite <- E.
      apply groups_join; [discriminate|cbn in L |- *; lia|exact S'].
  - assert (J : join (g :: g' :: gs) = print_hex g ++ colon :: join (g' :: gs)) by reflexivity. rewrite J. clear J. rewrite <- app_assoc. cbn [groups].
    rewrite <- app_comm_cons. set (rest := join (g' :: gs) ++ [colon; colon] ++ join gs').
    destruct (@hex_print g (colon :: rest) ltac:(assumption) eq_refl) as (k & H). rewrite H.
    change (is 46 colon) with false. change (is 58 colon) with true. cbn [negb]. cbv iota.
    destruct (@join_head (g' :: gs) ltac:(assumption) ltac:(discriminate)) as (c & s & E & X). assert (R : rest = c :: s ++ [colon; colon] ++ join gs') by (unfold rest; rewrite E; reflexivity).
    rewrite R. apply hex_not in X as (_ & X & _). rewrite X. rewrite <- R. unfold rest.
    rewrite IH; [|discriminate|cbn in L |- *; lia|assumption|assumption]. cbn [flat flat_map]. rewrite <- !app_assoc. reflexivity.
Qed.

(** ** The printed form *)
Lemma pairs_flat : forall b, Nat.even (length b) = true -> flat (pairs b) = b.
Proof.
  assert (A : forall n b, (length b <= n)%nat -> Nat.even (length b) = true -> flat (pairs b) = b).
  { induction n as [|n IH]; intros [|x [|y b]] L E; try reflexivity; try discriminate E; cbn in L; try lia. cbn [pairs flat flat_map].
    pose proof (to_N_lt x) as X. pose proof (to_N_lt y) as Y. rewrite N.div_add_l, N.div_small, N.add_0_r by lia. rewrite (N.add_comm (_ * 256)), N.mod_add, N.mod_small by lia. rewrite !byte_of_to_N.
    cbn [app]. do 2 f_equal. apply IH; [lia|exact E]. }
  intros b. apply (A (length b)). lia.
Qed.
Lemma pairs_small : forall b, small16 (pairs b).
Proof.
  assert (A : forall n b, (length b <= n)%nat -> small16 (pairs b)).
  { induction n as [|n IH]; intros [|x [|y b]] L; cbn [pairs]; try constructor; cbn in L; try lia.
    - pose proof (to_N_lt x). pose proof (to_N_lt y). lia.
    - apply IH. lia. }
  intros b. apply (A (length b)). lia.
Qed.
Definition run (gs : list N) (b : nat * nat) : Prop :=
  b = (255, 255)%nat \/ ((fst b + 2 <= snd b <= length gs)%nat /\ forall j, (fst b <= j < snd b)%nat -> nth j gs 0 = 0).
Lemma zeros_nth : forall gs, (zeros gs <= length gs)%nat /\ forall j, (j < zeros gs)%nat -> nth j gs 0 = 0.
Proof.
  induction gs as [|g gs (L & IH)]; cbn [zeros length]; [split; [lia|intros; lia]|]. destruct (N.eqb_spec g 0) as [->|]; [|split; [lia|intros; lia]].
  split; [lia|]. intros [|j] J; [reflexivity|]. cbn [nth]. apply IH. lia.
Qed.
Lemma best_run : forall gs pre b, run (pre ++ gs) b -> run (pre ++ gs) (best gs (length pre) b).
Proof.
  induction gs as [|g gs IH]; intros pre b R; [exact R|]. cbn [best].
  replace (S (length pre)) with (length (pre ++ [g])) by (rewrite app_length; cbn; lia). replace (pre ++ g :: gs) with ((pre ++ [g]) ++ gs) in * by (rewrite <- app_assoc; reflexivity).
  apply IH. set (n := zeros (g :: gs)). destruct (Nat.leb 2 n && _) eqn:C; [|exact R]. right. cbn [fst snd]. apply andb_true_iff in C as [C _]. apply Nat.leb_le in C.
  destruct (zeros_nth (g :: gs)) as (L & Z). fold n in L, Z. rewrite <- app_assoc. cbn [app]. rewrite app_length. split; [lia|].
  intros j J. rewrite app_nth2 by lia. apply Z. lia.
Qed.
Lemma append_none : forall gs, length gs = 8%nat -> append6 8 gs 255 255 0 = join gs.
Proof.
  intros gs L. do 8 (destruct gs as [|? gs]; [discriminate L|]). destruct gs; [|discriminate L].
  cbn [append6 Nat.leb Nat.eqb Nat.ltb nth join app]. rewrite app_nil_r. reflexivity.
Qed.
Lemma append_run : forall gs zs ze, length gs = 8%nat -> (zs + 2 <= ze <= 8)%nat -> append6 8 gs zs ze 0 = join (firstn zs gs) ++ [colon; colon] ++ join (skipn ze gs).
Proof.
  intros gs zs ze L R. do 8 (destruct gs as [|? gs]; [discriminate L|]). destruct gs; [|discriminate L].
  do 7 (destruct zs as [|zs]; [do 9 (destruct ze as [|ze]; [try (exfalso; lia); cbn [append6 Nat.leb Nat.eqb Nat.ltb nth firstn skipn join app]; rewrite ?app_nil_r; do 6 (rewrite <- ?app_assoc; cbn [app]); reflexivity|]); exfalso; lia|]).
  exfalso. lia.
Qed.
Lemma split_run : forall gs zs ze, length gs = 8%nat -> (zs + 2 <= ze <= 8)%nat -> (forall j, (zs <= j < ze)%nat -> nth j gs 0 = 0) ->
  gs = firstn zs gs ++ repeat 0 (ze - zs) ++ skipn ze gs.
Proof.
  intros gs zs ze L R Z. do 8 (destruct gs as [|? gs]; [discriminate L|]). destruct gs; [|discriminate L].
  pose proof (Z 0%nat) as Z0. pose proof (Z 1%nat) as Z1. pose proof (Z 2%nat) as Z2. pose proof (Z 3%nat) as Z3. pose proof (Z 4%nat) as Z4. pose proof (Z 5%nat) as Z5.
  pose proof (Z 6%nat) as Z6. pose proof (Z 7%nat) as Z7. clear Z. cbn [nth] in *.
  do 7 (destruct zs as [|zs]; [do 9 (destruct ze as [|ze]; [try (exfalso; lia); cbn [firstn skipn app repeat Nat.sub]; repeat (f_equal; try (first [apply Z0|apply Z1|apply Z2|apply Z3|apply Z4|apply Z5|apply Z6|apply Z7]; lia)); reflexivity|]); exfalso; lia|]).
  exfalso. lia.
Qed.
