(** The text of an IPv6 address, exactly (C100). *)
From Coq Require Import Strings.Byte Strings.String.
From Verif Require Import Base Kv BytesFacts ChainModel ChainSpec PeersModel LoadModel CborModel CborProofs ApiModel ApiSpec TextModel TextProps
  NetipModel NetipProofs NetipProofs2 NetipProofs3 NetipProps.
Set Implicit Arguments.
Unset Strict Implicit.
Local Open Scope N_scope.

(** [s] is the number [x] in lower-case hexadecimal digits without leading zeros. *)
Definition digits16 : list (byte * N) := combine (text "0123456789abcdef") [0; 1; 2; 3; 4; 5; 6; 7; 8; 9; 10; 11; 12; 13; 14; 15].
Inductive hexadecimal : bytes -> N -> Prop :=
| hexa_one : forall c v, In (c, v) digits16 -> hexadecimal [c] v
| hexa_more : forall s x c v, hexadecimal s x -> x <> 0 -> In (c, v) digits16 -> hexadecimal (s ++ [c]) (x * 16 + v).
(** The texts of the groups, separated by colons. *)
Inductive grouped : list N -> bytes -> Prop :=
| grouped_none : grouped [] []
| grouped_one : forall g s, hexadecimal s g -> grouped [g] s
| grouped_more : forall g s gs t, hexadecimal s g -> gs <> [] -> grouped gs t -> grouped (g :: gs) (s ++ text ":" ++ t).
(** The big-endian groups of 16 bits. *)
Inductive groups16 : bytes -> list N -> Prop :=
| groups16_none : groups16 [] []
| groups16_more : forall h l b gs, groups16 b gs -> groups16 (h :: l :: b) (256 * Byte.to_N h + Byte.to_N l :: gs).

Lemma digit_of : forall x, x < 16 -> In (hex_char x, x) digits16.
Proof.
  intros x L. assert (A : Forall (fun y => In (hex_char y, y) digits16) [0; 1; 2; 3; 4; 5; 6; 7; 8; 9; 10; 11; 12; 13; 14; 15]).
  { repeat (constructor; [vm_compute; auto 20|]). constructor. }
  rewrite Forall_forall in A. apply A. assert (C : In x (map N.of_nat (seq 0 16))) by (apply in_map_iff; exists (N.to_nat x); split; [lia|apply in_seq; lia]). exact C.
Qed.
Lemma hexadecimal_print : forall x, x < 65536 -> hexadecimal (print_hex x) x.
Proof.
  intros x L. unfold print_hex.
  assert (D0 : x = x / 16 * 16 + x mod 16) by lia. assert (D1 : x / 16 = x / 256 * 16 + x / 16 mod 16) by lia.
  assert (D2 : x / 256 = x / 4096 * 16 + x / 256 mod 16) by lia.
  assert (M : forall y, In (hex_char (y mod 16), y mod 16) digits16) by (intros; apply digit_of; lia).
  destruct (N.leb_spec 16 x); [|rewrite !(proj2 (N.leb_gt _ _)) by lia; cbn [app]; apply hexa_one; rewrite N.mod_small by lia; apply digit_of; lia].
  destruct (N.leb_spec 256 x).
  2:{ rewrite !(proj2 (N.leb_gt _ _)) by lia. cbn [app]. rewrite D0 at 3. apply (@hexa_more [hex_char (x / 16 mod 16)]); auto; [|lia].
      rewrite D1. replace (x / 256) with 0 by lia. cbn [N.mul N.add]. apply hexa_one. rewrite N.mod_small by lia. rewrite N.mod_small by lia. apply digit_of. lia. }
  destruct (N.leb_spec 4096 x).
  - cbn [app]. rewrite D0 at 5. apply (@hexa_more [hex_char (x / 4096); hex_char (x / 256 mod 16); hex_char (x / 16 mod 16)]); auto; [|lia].
    rewrite D1 at 2. apply (@hexa_more [hex_char (x / 4096); hex_char (x / 256 mod 16)]); auto; [|lia].
    rewrite D2 at 2. apply (@hexa_more [hex_char (x / 4096)]); auto; [|lia]. apply hexa_one. apply digit_of. lia.
  - cbn [app]. rewrite D0 at 4. apply (@hexa_more [hex_char (x / 256 mod 16); hex_char (x / 16 mod 16)]); auto; [|lia].
    rewrite D1 at 2. apply (@hexa_more [hex_char (x / 256 mod 16)]); auto; [|lia].
    rewrite D2. replace (x / 4096) with 0 by lia. cbn [N.mul N.add]. rewrite (N.mod_small (x / 256 mod 16)) by lia. apply hexa_one. auto.
Qed.
Lemma grouped_join : forall gs, small16 gs -> grouped gs (join gs).
Proof.
  induction 1 as [|g gs L F IH]; [constructor|]. destruct gs as [|g' gs].
  - apply grouped_one. now apply hexadecimal_print.
  - change (join (g :: g' :: gs)) with (print_hex g ++ text ":" ++ join (g' :: gs)). apply grouped_more; [now apply hexadecimal_print|discriminate|exact IH].
Qed.
Lemma groups16_pairs : forall b, Nat.even (length b) = true -> groups16 b (pairs b).
Proof.
  assert (A : forall n b, (length b <= n)%nat -> Nat.even (length b) = true -> groups16 b (pairs b)).
  { induction n as [|n IH]; intros [|h [|l b]] L E; cbn in L; try lia; try discriminate E; cbn [pairs]; try constructor.
    rewrite N.mul_comm. constructor. apply IH; [lia|exact E]. }
  intros b. apply (A (length b)). lia.
Qed.
Lemma zeros_run : forall m (q : list N), (m <= zeros (repeat 0%N m ++ q))%nat.
Proof. induction m as [|m IH]; intros q; cbn [repeat app zeros]; [lia|]. change (0 =? 0) with true. cbv iota. specialize (IH q). lia. Qed.
(** [b] beats the runs that start before position [k]. *)
Definition beats (gs : list N) (k : nat) (b : nat * nat) : Prop :=
  (forall p, (p < k)%nat -> let m := zeros (skipn p gs) in (m < 2)%nat \/ (m <= snd b - fst b /\ (m = snd b - fst b -> fst b <= p))%nat) /\
  ((snd b - fst b <> 0 -> fst b < k)%nat).
Lemma best_beats : forall gs pre b, beats (pre ++ gs) (length pre) b -> beats (pre ++ gs) (length (pre ++ gs)) (best gs (length pre) b).
Proof.
  induction gs as [|g gs IH]; intros pre b B; [now rewrite app_nil_r in *|]. cbn [best]. cbv zeta.
  replace (S (length pre)) with (length (pre ++ [g])) by (rewrite app_length; cbn; lia). replace (pre ++ g :: gs) with ((pre ++ [g]) ++ gs) in * by (rewrite <- app_assoc; reflexivity).
  apply IH. destruct B as [B B2].
  assert (N : zeros (g :: gs) = zeros (skipn (length pre) ((pre ++ [g]) ++ gs))).
  { rewrite <- app_assoc, skipn_app, skipn_all, Nat.sub_diag. reflexivity. }
  assert (LP : length (pre ++ [g]) = S (length pre)) by (rewrite app_length; cbn; lia). rewrite LP.
  destruct (Nat.leb_spec 2 (zeros (g :: gs))) as [C1|C1]; cbn [andb].
  - destruct (Nat.ltb_spec (snd b - fst b) (zeros (g :: gs))) as [C2|C2]; (split; [intros p P; cbv zeta|]); cbn [fst snd]; try lia.
    + destruct (Nat.eq_dec p (length pre)) as [->|NE]; [rewrite <- N; right; lia|]. destruct (B p) as [Q|Q]; [lia|left; exact Q|right; lia].
    + destruct (Nat.eq_dec p (length pre)) as [->|NE]; [|apply B; lia]. rewrite <- N. right. lia.
  - split; [|lia]. intros p P. cbv zeta. destruct (Nat.eq_dec p (length pre)) as [->|NE]; [left; lia|apply B; lia].
Qed.

(** The eight groups in hexadecimal, separated by colons, where the first of the longest runs of two or more zero groups is written as two colons. *)
Theorem C100_canonical : forall b z, length b = 16%nat -> ~ v4 (A6 b z) ->
  exists gs zone, groups16 b gs /\ length gs = 8%nat /\ ((z = [] /\ zone = []) \/ (z <> [] /\ zone = text "%" ++ z)) /\
  (((forall p q, gs <> p ++ [0; 0] ++ q) /\ exists t, grouped gs t /\ print_addr (A6 b z) = t ++ zone) \/
   (exists p n q t u, gs = p ++ repeat 0 n ++ q /\ (2 <= n)%nat /\ grouped p t /\ grouped q u /\ print_addr (A6 b z) = t ++ text "::" ++ u ++ zone /\
      forall p' m q', gs = p' ++ repeat 0 m ++ q' -> (m <= n /\ (m = n -> length p <= length p'))%nat)).
Proof.
  intros b z L V. assert (M : is4in6 b = false).
  { destruct (is4in6 b) eqn:M; [|reflexivity]. exfalso. apply V. cbn [v4]. exists (skipn 12 b). apply is4in6_eq in M. rewrite M at 1. now rewrite <- app_assoc. }
  pose proof (pairs_length L) as PL. pose proof (pairs_small b) as PS. exists (pairs b), (print_zone z).
  split; [apply groups16_pairs; now rewrite L|]. split; [exact PL|]. split; [destruct z; [left|right]; (split; [first [reflexivity|discriminate]|reflexivity])|].
  unfold print_addr. rewrite M. cbv zeta. set (gs := pairs b) in *. clearbody gs.
  pose proof (@best_run gs [] (255, 255)%nat) as R. cbn [app length] in R. specialize (R (or_introl eq_refl)).
  pose proof (@best_beats gs [] (255, 255)%nat) as B. cbn [app length] in B. destruct B as [B _]; [split; [intros p P; lia|cbn; lia]|].
  destruct (best gs 0 (255, 255)%nat) as [zs ze]. cbn [fst snd] in B.
  assert (BB : forall p' m q', gs = p' ++ repeat 0 m ++ q' -> (m < 2 \/ (m <= ze - zs /\ (m = ze - zs -> zs <= length p')))%nat).
  { intros p' m q' E. destruct (Nat.le_gt_cases 2 m) as [H2|H2]; [|left; exact H2].
    assert (LG : length gs = (length p' + (m + length q'))%nat) by (rewrite E, !app_length, repeat_length; reflexivity).
    specialize (B (length p') ltac:(lia)). cbv zeta in B. rewrite E, skipn_app, skipn_all, Nat.sub_diag in B. cbn [skipn app] in B.
    pose proof (zeros_run m q'). right. destruct B as [B|[B1 B2]]; [lia|]. split; [lia|]. intros Q. apply B2. lia. }
  destruct R as [E|(R & Z)].
  - left. injection E as -> ->. split.
    + intros p q E. destruct (BB p 2%nat q E); lia.
    + rewrite append_none by exact PL. exists (join gs). split; [now apply grouped_join|reflexivity].
  - right. cbn [fst snd] in R, Z. rewrite PL in R. rewrite append_run by (assumption || lia). destruct (@small_parts gs zs PS) as (SA & _), (@small_parts gs ze PS) as (_ & SB).
    exists (firstn zs gs), (ze - zs)%nat, (skipn ze gs), (join (firstn zs gs)), (join (skipn ze gs)).
    split; [now apply split_run|]. split; [lia|]. split; [now apply grouped_join|]. split; [now apply grouped_join|]. split.
    + rewrite <- !app_assoc. reflexivity.
    + intros p' m q' E. assert (LF : length (firstn zs gs) = zs) by (rewrite firstn_length; lia). rewrite LF. destruct (BB p' m q' E) as [Q|Q]; [split; lia|exact Q].
Qed.
Print Assumptions C100_canonical.
Example C100_canonical_example : option_map print_addr (parse_addr (text "1:0:0:2:00:000:ABC:3")) = Some (text "1::2:0:0:abc:3") /\ option_map print_addr (parse_addr (text "1:0:0:2:0:0:0:3%eth0")) = Some (text "1:0:0:2::3%eth0") /\ option_map print_addr (parse_addr (text "1:0:2:0:3:0:4:0")) = Some (text "1:0:2:0:3:0:4:0").
Proof. split; [|split]; vm_compute; reflexivity. Qed.

(** The white space that is removed: the UTF-8 forms of these code points. *)
Definition utf8_of (c : N) : bytes :=
  map byte_of (if c <? 128 then [c] else if c <? 2048 then [192 + c / 64; 128 + c mod 64]
               else [224 + c / 4096; 128 + c / 64 mod 64; 128 + c mod 64]).
Definition white (c : N) : Prop :=
  9 <= c <= 13 \/ c = 32 \/ c = 133 \/ c = 160 \/ c = 5760 \/ 8192 <= c <= 8202 \/ c = 8232 \/ c = 8233 \/ c = 8239 \/ c = 8287 \/ c = 12288.
Theorem C100_white : forall p, space p <-> exists c, white c /\ p = utf8_of c.
Proof.
  intros p. split.
  - intros I. unfold space in I.
    assert (A : forall c, In c [9; 10; 11; 12; 13; 32; 133; 160; 5760; 8192; 8193; 8194; 8195; 8196; 8197; 8198; 8199; 8200; 8201; 8202; 8232; 8233; 8239; 8287; 12288] -> white c)
      by (intros c C; unfold white; repeat (destruct C as [<-|C]; [lia|]); destruct C).
    assert (B : spaces = map utf8_of [9; 10; 11; 12; 13; 32; 133; 160; 5760; 8192; 8193; 8194; 8195; 8196; 8197; 8198; 8199; 8200; 8201; 8202; 8232; 8233; 8239; 8287; 12288]) by (vm_compute; reflexivity).
    rewrite B in I. apply in_map_iff in I as (c & <- & I). exists c. auto.
  - intros (c & W & ->). unfold space.
    assert (C : In c [9; 10; 11; 12; 13; 32; 133; 160; 5760; 8192; 8193; 8194; 8195; 8196; 8197; 8198; 8199; 8200; 8201; 8202; 8232; 8233; 8239; 8287; 12288]) by (unfold white in W; cbn [In]; lia).
    repeat (destruct C as [<-|C]; [vm_compute; auto 40|]). destruct C.
Qed.
Print Assumptions C100_white.
Example C100_white_example : white 160 /\ utf8_of 160 = [xc2; xa0] /\ trim_space ([xc2; xa0] ++ text "1 2" ++ [xe3; x80; x80; x0a]) = text "1 2".
Proof. split; [unfold white; lia|]. split; vm_compute; reflexivity. Qed.
