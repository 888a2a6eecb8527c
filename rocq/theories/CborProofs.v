(** Facts about the codec of CborModel.v. *)
From Coq Require Import Strings.Byte.
From Verif Require Import Base Kv ChainModel PeersModel BytesFacts KvFacts CborModel.
Set Implicit Arguments.
Unset Strict Implicit.
Open Scope N_scope.

(** * Heads *)
Lemma take_app : forall b r, take (N.of_nat (length b)) (b ++ r) = Some (b, r).
Proof.
  intros. unfold take. rewrite app_length. destruct (N.leb_spec (N.of_nat (length b)) (N.of_nat (length b + length r)%nat)); [|lia].
  rewrite Nat2N.id, firstn_app, Nat.sub_diag, firstn_all, skipn_app, Nat.sub_diag, skipn_all, firstn_O, app_nil_r. reflexivity.
Qed.
Lemma take_len : forall n b r, n = N.of_nat (length b) -> take n (b ++ r) = Some (b, r).
Proof. intros n b r ->. apply take_app. Qed.
Lemma take_be : forall k n r, take (N.of_nat k) (be k n ++ r) = Some (be k n, r).
Proof. intros. apply take_len. now rewrite be_length. Qed.
Lemma take_ext : forall n s x r t, take n s = Some (x, r) -> take n (s ++ t) = Some (x, r ++ t).
Proof.
  unfold take. intros n s x r t H. destruct (N.leb_spec n (N.of_nat (length s))); [|discriminate]. injection H as <- <-.
  rewrite app_length. destruct (N.leb_spec n (N.of_nat (length s + length t)%nat)); [|lia].
  rewrite firstn_app, skipn_app. replace (N.to_nat n - length s)%nat with 0%nat by lia. now rewrite firstn_O, app_nil_r.
Qed.
Lemma mt_ai : forall mt ai, mt < 8 -> ai < 32 -> Byte.to_N (byte_of (mt * 32 + ai)) = mt * 32 + ai /\ (mt * 32 + ai) / 32 = mt /\ (mt * 32 + ai) mod 32 = ai.
Proof.
  intros mt ai M A. split; [apply to_N_byte_of; lia|]. split.
  - rewrite N.div_add_l by lia. rewrite N.div_small by lia. lia.
  - rewrite N.add_comm, N.mod_add by lia. now apply N.mod_small.
Qed.
Lemma unhead_head : forall mt n r, mt < 8 -> n < 2 ^ 64 -> unhead (head mt n ++ r) = Some (mt, n, r).
Proof.
  intros mt n r M B. unfold head. destruct (N.ltb_spec n 24) as [L|L]; [|destruct (N.ltb_spec n (2 ^ 8)) as [L1|L1]; [|destruct (N.ltb_spec n (2 ^ 16)) as [L2|L2]; [|destruct (N.ltb_spec n (2 ^ 32)) as [L3|L3]]]].
  - destruct (@mt_ai mt n M) as (A & E1 & E2); [lia|]. cbn [app unhead]. rewrite A, E1, E2. now destruct (N.ltb_spec n 24); [|lia].
  - destruct (@mt_ai mt 24 M) as (A & E1 & E2); [lia|]. cbn [app unhead]. rewrite A, E1, E2. cbn -[take be unbe]. rewrite (take_be 1). now rewrite unbe_be_id.
  - destruct (@mt_ai mt 25 M) as (A & E1 & E2); [lia|]. cbn [app unhead]. rewrite A, E1, E2. cbn -[take be unbe]. rewrite (take_be 2). now rewrite unbe_be_id.
  - destruct (@mt_ai mt 26 M) as (A & E1 & E2); [lia|]. cbn [app unhead]. rewrite A, E1, E2. cbn -[take be unbe]. rewrite (take_be 4). now rewrite unbe_be_id.
  - destruct (@mt_ai mt 27 M) as (A & E1 & E2); [lia|]. cbn [app unhead]. rewrite A, E1, E2. cbn -[take be unbe]. rewrite (take_be 8). now rewrite unbe_be_id.
Qed.
Lemma unhead_ext : forall s mt n r t, unhead s = Some (mt, n, r) -> unhead (s ++ t) = Some (mt, n, r ++ t).
Proof.
  intros [|b s] mt n r t H; [discriminate|]. cbn [app unhead] in *.
  destruct (_ <? 24); [injection H as <- <- <-; reflexivity|].
  assert (W : forall k, match take k s with Some (x, r') => Some (Byte.to_N b / 32, unbe x, r') | None => None end = Some (mt, n, r) ->
                        match take k (s ++ t) with Some (x, r') => Some (Byte.to_N b / 32, unbe x, r') | None => None end = Some (mt, n, r ++ t)).
  { intros k Q. destruct (take k s) as [[x r']|] eqn:T; [|discriminate]. apply (@take_ext _ _ _ _ t) in T. rewrite T. injection Q as <- <- <-. reflexivity. }
  destruct (_ =? 24); [auto|]. destruct (_ =? 25); [auto|]. destruct (_ =? 26); [auto|]. destruct (_ =? 27); [auto|]. discriminate.
Qed.
Lemma head_nonempty : forall mt n, exists b r, head mt n = b :: r.
Proof. intros. unfold head. repeat destruct (_ <? _); eauto. Qed.
Lemma head_length : forall mt n, (1 <= length (head mt n))%nat.
Proof. intros. destruct (head_nonempty mt n) as (b & r & ->). cbn. lia. Qed.
Lemma head_first : forall mt n, mt < 8 -> exists b r, head mt n = b :: r /\ Byte.to_N b / 32 = mt.
Proof.
  intros mt n M. unfold head.
  destruct (N.ltb_spec n 24); [|destruct (n <? 2 ^ 8); [|destruct (n <? 2 ^ 16); [|destruct (n <? 2 ^ 32)]]]; do 2 eexists; (split; [reflexivity|]).
  1: destruct (@mt_ai mt n M) as (E & E1 & _); [lia|]; now rewrite E, E1.
  1: destruct (@mt_ai mt 24 M) as (E & E1 & _); [lia|]; now rewrite E, E1.
  1: destruct (@mt_ai mt 25 M) as (E & E1 & _); [lia|]; now rewrite E, E1.
  1: destruct (@mt_ai mt 26 M) as (E & E1 & _); [lia|]; now rewrite E, E1.
  destruct (@mt_ai mt 27 M) as (E & E1 & _); [lia|]; now rewrite E, E1.
Qed.
Lemma unuint_head : forall n r, n < 2 ^ 64 -> unuint (head 0 n ++ r) = Some (n, r).
Proof. intros. unfold unuint. rewrite unhead_head; auto. lia. Qed.
Lemma unuint_ext : forall s n r t, unuint s = Some (n, r) -> unuint (s ++ t) = Some (n, r ++ t).
Proof.
  unfold unuint. intros s n r t H. destruct (unhead s) as [[[[|mt] m] q]|] eqn:U; try discriminate. injection H as <- <-.
  now rewrite (unhead_ext t U).
Qed.

(** * Items *)
Lemma dec_uints_enc : forall l r, Forall (fun n => n < 2 ^ 64) l -> dec_uints (length l) (flat_map (head 0) l ++ r) = Some (l, r).
Proof.
  induction l as [|n l IH]; intros r F; [reflexivity|]. inversion F; subst. cbn [length flat_map dec_uints]. rewrite <- app_assoc, unuint_head by auto.
  now rewrite IH.
Qed.
Lemma dec_uints_ext : forall k s l r t, dec_uints k s = Some (l, r) -> dec_uints k (s ++ t) = Some (l, r ++ t).
Proof.
  induction k as [|k IH]; intros s l r t H; cbn [dec_uints] in *; [injection H as <- <-; reflexivity|].
  destruct (unuint s) as [[n q]|] eqn:U; [|discriminate]. rewrite (unuint_ext t U). destruct (dec_uints k q) as [[l' r']|] eqn:D; [|discriminate].
  rewrite (IH _ _ _ t D). injection H as <- <-. reflexivity.
Qed.
Lemma flat_heads_length : forall l, (length l <= length (flat_map (head 0) l))%nat.
Proof. induction l as [|n l IH]; cbn [flat_map length]; [lia|]. rewrite app_length. pose proof (head_length 0 n). lia. Qed.

Lemma be_min_value : forall n, unbe (be_min n) = n.
Proof.
  intros n. unfold be_min. destruct (N.eqb_spec n 0) as [->|H]; [reflexivity|]. apply unbe_be_id. rewrite N2Nat.id.
  change 256 with (2 ^ 8). rewrite <- N.pow_mul_r. apply N.lt_le_trans with (2 ^ N.succ (N.log2 n)); [apply N.log2_spec; lia|].
  apply N.pow_le_mono_r; [lia|]. pose proof (N.div_mod' (N.log2 n) 8). pose proof (N.mod_lt (N.log2 n) 8). lia.
Qed.

(** What an item needs so that its lengths and numbers fit their heads. *)
Definition int_fits (z : Z) : Prop := N.of_nat (length (be_min (Z.to_N z))) < 2 ^ 64 /\ N.of_nat (length (be_min (Z.to_N (- z - 1)))) < 2 ^ 64.
Definition item_fits (i : item) : Prop :=
  match i with
  | IInt z => int_fits z
  | IBytes b => N.of_nat (length b) < 2 ^ 64
  | IText b => N.of_nat (length b) < 2 ^ 64 /\ utf8_valid b = true
  | IInts l => N.of_nat (length l) < 2 ^ 64 /\ Forall (fun n => n < 2 ^ 64) l
  | INull => True
  end.

Lemma dec_head : forall mt n q, mt < 8 -> n < 2 ^ 64 -> mt <> 7 ->
  dec_item (head mt n ++ q) =
  match Some (mt, n, q) with
      | Some (0, n, r) => Some (IInt (Z.of_N n), r)
      | Some (1, n, r) => Some (IInt (- Z.of_N n - 1), r)
      | Some (2, n, r) => match take n r with Some (x, r') => Some (IBytes x, r') | None => None end
      | Some (3, n, r) => match take n r with Some (x, r') => if utf8_valid x then Some (IText x, r') else None | None => None end
      | Some (4, n, r) =>
          if n <=? N.of_nat (length r)
          then match dec_uints (N.to_nat n) r with Some (l, r') => Some (IInts l, r') | None => None end
          else None
      | Some (6, t, r) =>
          match unhead r with
          | Some (2, n, r') =>
              match take n r' with
              | Some (x, r'') => if t =? 2 then Some (IInt (Z.of_N (unbe x)), r'')
                                 else if t =? 3 then Some (IInt (- Z.of_N (unbe x) - 1), r'') else None
              | None => None
              end
          | _ => None
          end
      | _ => None
  end.
Proof.
  intros mt n q M B H7. rewrite <- (@unhead_head mt n q) by auto. destruct (head_first n M) as (b & r & E & D). rewrite E. cbn [app dec_item].
  destruct (N.eqb_spec (Byte.to_N b) (Byte.to_N null_byte)) as [Q|Q]; [|reflexivity].
  exfalso. apply H7. rewrite <- D, Q. reflexivity.
Qed.
Lemma dec_enc_int : forall z r, int_fits z -> dec_item (enc_int z ++ r) = Some (IInt z, r).
Proof.
  intros z r [F1 F2]. unfold enc_int. destruct (Z.leb_spec 0 z) as [P|P].
  - destruct (N.ltb_spec (Z.to_N z) (2 ^ 64)) as [L|L].
    + rewrite dec_head by lia. now rewrite Z2N.id.
    + rewrite <- !app_assoc, dec_head, unhead_head, take_app, be_min_value by lia. cbn [N.eqb Pos.eqb]. now rewrite Z2N.id.
  - destruct (N.ltb_spec (Z.to_N (- z - 1)) (2 ^ 64)) as [L|L].
    + rewrite dec_head by lia. rewrite Z2N.id by lia. do 3 f_equal. lia.
    + rewrite <- !app_assoc, dec_head, unhead_head, take_app, be_min_value by lia. cbn [N.eqb Pos.eqb]. rewrite Z2N.id by lia. do 3 f_equal. lia.
Qed.
Lemma dec_enc_item : forall i r, item_fits i -> dec_item (enc_item i ++ r) = Some (i, r).
Proof.
  intros [z|b|b|l|] r F; cbn [enc_item item_fits] in *.
  - now apply dec_enc_int.
  - rewrite <- app_assoc, dec_head, take_app by lia. reflexivity.
  - destruct F as [F U]. rewrite <- app_assoc, dec_head, take_app, U by lia. reflexivity.
  - destruct F as [F U]. rewrite <- app_assoc, dec_head by lia. rewrite app_length.
    destruct (N.leb_spec (N.of_nat (length l)) (N.of_nat (length (flat_map (head 0) l) + length r)%nat)); [|pose proof (flat_heads_length l); lia].
    now rewrite Nat2N.id, dec_uints_enc.
  - reflexivity.
Qed.
Lemma dec_item_ext : forall s i r t, dec_item s = Some (i, r) -> dec_item (s ++ t) = Some (i, r ++ t).
Proof.
  intros [|b s] i r t H; [discriminate|]. cbn [app]. unfold dec_item in *. destruct (_ =? _); [injection H as <- <-; reflexivity|].
  change (b :: s ++ t) with ((b :: s) ++ t).
  destruct (unhead (b :: s)) as [[[mt n] q]|] eqn:U; [|discriminate]. rewrite (unhead_ext t U).
  destruct mt as [|[[[]|[]|]|[[]|[]|]|]]; try discriminate.
  - injection H as <- <-. reflexivity.
  - destruct (take n q) as [[x r']|] eqn:T; [|discriminate]. rewrite (take_ext t T). destruct (utf8_valid x); [|discriminate]. injection H as <- <-. reflexivity.
  - destruct (unhead q) as [[[m2 n2] q2]|] eqn:U2; [|discriminate]. rewrite (unhead_ext t U2). destruct m2 as [|[[]|[[]|[]|]|]]; try discriminate.
    destruct (take n2 q2) as [[x r']|] eqn:T; [|discriminate]. rewrite (take_ext t T).
    destruct (n =? 2); [injection H as <- <-; reflexivity|]. destruct (n =? 3); [injection H as <- <-; reflexivity|discriminate].
  - destruct (N.leb_spec n (N.of_nat (length q))); [|discriminate]. rewrite app_length.
    destruct (N.leb_spec n (N.of_nat (length q + length t)%nat)); [|lia].
    destruct (dec_uints (N.to_nat n) q) as [[l r']|] eqn:D; [|discriminate]. rewrite (dec_uints_ext t D). injection H as <- <-. reflexivity.
  - destruct (take n q) as [[x r']|] eqn:T; [|discriminate]. rewrite (take_ext t T). injection H as <- <-. reflexivity.
  - injection H as <- <-. reflexivity.
Qed.

(** * Maps *)
Notation enc_fields m := (flat_map (fun f : N * item => head 0 (fst f) ++ enc_item (snd f)) m).
Definition fields_fit (m : list (N * item)) : Prop := Forall (fun f => fst f < 2 ^ 64 /\ item_fits (snd f)) m.
Lemma dec_fields_enc : forall m r, fields_fit m -> dec_fields (length m) (enc_fields m ++ r) = Some (m, r).
Proof.
  induction m as [|[k i] m IH]; intros r F; [reflexivity|]. inversion F as [|? ? [F1 F2] F3]; subst. cbn [length flat_map dec_fields fst snd] in *.
  rewrite <- !app_assoc, unuint_head, dec_enc_item by auto. now rewrite IH.
Qed.
Lemma dec_fields_ext : forall k s m r t, dec_fields k s = Some (m, r) -> dec_fields k (s ++ t) = Some (m, r ++ t).
Proof.
  induction k as [|k IH]; intros s m r t H; cbn [dec_fields] in *; [injection H as <- <-; reflexivity|].
  destruct (unuint s) as [[n q]|] eqn:U; [|discriminate]. rewrite (unuint_ext t U). destruct (dec_item q) as [[i q']|] eqn:D; [|discriminate].
  rewrite (dec_item_ext t D). destruct (dec_fields k q') as [[m' r']|] eqn:F; [|discriminate]. rewrite (IH _ _ _ t F). injection H as <- <-. reflexivity.
Qed.
Lemma enc_fields_length : forall m, (length m <= length (enc_fields m))%nat.
Proof. induction m as [|[k i] m IH]; cbn [flat_map length fst snd]; [lia|]. rewrite !app_length. pose proof (head_length 0 k). lia. Qed.
Lemma dec_enc_map : forall m, fields_fit m -> N.of_nat (length m) < 2 ^ 64 -> dec_map (enc_map m) = Some m.
Proof.
  intros m F L. unfold dec_map, enc_map. rewrite unhead_head by lia.
  destruct (N.leb_spec (N.of_nat (length m)) (N.of_nat (length (enc_fields m)))); [|pose proof (enc_fields_length m); lia].
  rewrite Nat2N.id. pose proof (dec_fields_enc [] F) as D. rewrite app_nil_r in D. now rewrite D.
Qed.
(** No data can follow a map. *)
Lemma dec_map_ext : forall s m t, dec_map s = Some m -> t <> [] -> dec_map (s ++ t) = None.
Proof.
  unfold dec_map. intros s m t H T. destruct (unhead s) as [[[mt n] q]|] eqn:U; [|discriminate]. rewrite (unhead_ext t U).
  destruct mt as [|[[|[]|]| |]]; try discriminate. destruct (N.leb_spec n (N.of_nat (length q))); [|discriminate].
  destruct (dec_fields (N.to_nat n) q) as [[m' r']|] eqn:D; [|discriminate]. destruct r'; [|discriminate].
  destruct (_ <=? _); [|reflexivity]. rewrite (dec_fields_ext t D). destruct t; [contradiction|reflexivity].
Qed.
(** A map cut short is not read. *)
Lemma dec_map_cut : forall s m k, dec_map s = Some m -> (k < length s)%nat -> dec_map (firstn k s) = None.
Proof.
  intros s m k H K. destruct (dec_map (firstn k s)) as [m'|] eqn:D; [|reflexivity].
  apply (@dec_map_ext _ _ (skipn k s)) in D.
  - rewrite firstn_skipn in D. congruence.
  - intros E. apply (f_equal (@length _)) in E. rewrite skipn_length in E. cbn in E. lia.
Qed.

(** * Versions *)
Lemma number_digits : forall f n acc a, (N.to_nat (N.log2 n) < f)%nat -> exists ds, digits f n acc = ds ++ acc /\ ds <> [] /\
  Forall (fun b => 48 <= Byte.to_N b <= 57) ds /\ forall t, number (ds ++ t) a = number t (a * 10 ^ N.of_nat (length ds) + n).
Proof.
  induction f as [|f IH]; intros n acc a L; [lia|]. cbn [digits]. assert (M : n mod 10 < 10) by (apply N.mod_lt; lia).
  assert (B : Byte.to_N (byte_of (48 + n mod 10)) = 48 + n mod 10) by (apply to_N_byte_of; lia).
  destruct (N.eqb_spec (n / 10) 0) as [Z|Z].
  - exists [byte_of (48 + n mod 10)]. split; [reflexivity|]. split; [discriminate|]. split; [constructor; [rewrite B; lia|constructor]|].
    intros t. cbn [app number length]. rewrite B. destruct (N.leb_spec 48 (48 + n mod 10)); [|lia]. destruct (N.leb_spec (48 + n mod 10) 57); [|lia]. cbn [andb].
    f_equal. change (10 ^ N.of_nat 1) with 10. pose proof (N.div_mod' n 10). lia.
  - assert (D : (N.to_nat (N.log2 (n / 10)) < f)%nat).
    { assert (N.log2 (n / 10) < N.log2 n); [|lia]. apply N.log2_lt_pow2; [lia|]. apply N.div_lt_upper_bound; [lia|].
      destruct (N.eq_dec n 0) as [->|N0]; [now cbn in Z|]. pose proof (N.log2_spec n ltac:(lia)) as [_ U]. rewrite N.pow_succ_r' in U. lia. }
    destruct (IH (n / 10) (byte_of (48 + n mod 10) :: acc) a D) as (ds & E & NE & F & V).
    exists (ds ++ [byte_of (48 + n mod 10)]). split; [rewrite E, <- app_assoc; reflexivity|]. split; [destruct ds; discriminate|].
    split; [apply Forall_app; split; [exact F|]; constructor; [rewrite B; lia|constructor]|].
    intros t. rewrite <- app_assoc, V. cbn [app number]. rewrite B. destruct (N.leb_spec 48 (48 + n mod 10)); [|lia]. destruct (N.leb_spec (48 + n mod 10) 57); [|lia].
    cbn [andb]. f_equal. rewrite app_length. cbn [length]. replace (N.of_nat (length ds + 1)) with (N.succ (N.of_nat (length ds))) by lia. rewrite N.pow_succ_r'.
    pose proof (N.div_mod' n 10). lia.
Qed.
Lemma decimal_spec : forall n, decimal n <> [] /\ Forall (fun b => 48 <= Byte.to_N b <= 57) (decimal n) /\ number (decimal n) 0 = Some n.
Proof.
  intros n. unfold decimal. destruct (@number_digits (S (N.to_nat (N.log2 n))) n [] 0 ltac:(lia)) as (ds & E & NE & F & V). rewrite E, app_nil_r.
  split; [exact NE|]. split; [exact F|]. specialize (V []). rewrite app_nil_r in V. rewrite V. reflexivity.
Qed.
Lemma parse_decimal : forall n, n < 2 ^ 32 -> parse_uint32 (decimal n) = Some n.
Proof.
  intros n L. unfold parse_uint32. destruct (decimal_spec n) as (NE & _ & V). rewrite V. destruct (decimal n); [contradiction|].
  destruct (N.ltb_spec n (2 ^ 32)); [reflexivity|lia].
Qed.
Lemma split_digits : forall d s, Forall (fun b => 48 <= Byte.to_N b <= 57) d -> split_dot (d ++ dot :: s) = d :: split_dot s.
Proof.
  induction d as [|b d IH]; intros s F; [reflexivity|]. inversion F; subst. cbn [app split_dot]. destruct (N.eqb_spec (Byte.to_N b) 46); [lia|]. now rewrite IH.
Qed.
Lemma split_last : forall d, Forall (fun b => 48 <= Byte.to_N b <= 57) d -> split_dot d = [d].
Proof. induction d as [|b d IH]; intros F; [reflexivity|]. inversion F; subst. cbn [split_dot]. destruct (N.eqb_spec (Byte.to_N b) 46); [lia|]. now rewrite IH. Qed.
Definition version_fits (v : version) : Prop := ve_major v < 2 ^ 32 /\ ve_minor v < 2 ^ 32 /\ ve_patch v < 2 ^ 32.
Lemma parse_string : forall v, version_fits v -> parse_version (version_string v) = Some v.
Proof.
  intros [a b c] (A & B & C). cbn [ve_major ve_minor ve_patch] in *. unfold parse_version, version_string. cbn [ve_major ve_minor ve_patch app].
  destruct (decimal_spec a) as (_ & FA & _), (decimal_spec b) as (_ & FB & _), (decimal_spec c) as (_ & FC & _).
  rewrite split_digits, split_digits, split_last by auto. cbn [map]. now rewrite !parse_decimal.
Qed.
Lemma ascii_valid : forall s t, Forall (fun b => Byte.to_N b < 128) s -> utf8_valid (s ++ t) = utf8_valid t.
Proof.
  induction s as [|b s IH]; intros t F; [reflexivity|]. inversion F; subst. cbn [app utf8_valid]. unfold in_range at 1.
  destruct (N.leb_spec 0 (Byte.to_N b)); [|lia]. destruct (N.leb_spec (Byte.to_N b) 127); [|lia]. cbn [andb]. now apply IH.
Qed.
Lemma string_ascii : forall v, Forall (fun b => Byte.to_N b < 128) (version_string v).
Proof.
  intros v. unfold version_string. repeat (apply Forall_app; split); try (constructor; [reflexivity|constructor]);
  (eapply Forall_impl; [|apply decimal_spec]); cbn; intros; lia.
Qed.
Lemma string_valid : forall v, utf8_valid (version_string v) = true.
Proof. intros. rewrite <- (app_nil_r (version_string v)), ascii_valid; [reflexivity|apply string_ascii]. Qed.
Lemma digits_length : forall f n acc, (length (digits f n acc) <= length acc + f)%nat.
Proof. induction f as [|f IH]; intros; cbn [digits]; [lia|]. destruct (_ =? 0); cbn [length]; [lia|]. pose proof (IH (n / 10) (byte_of (48 + n mod 10) :: acc)). cbn [length] in *. lia. Qed.
Lemma decimal_length : forall n, n < 2 ^ 32 -> (length (decimal n) <= 33)%nat.
Proof.
  intros n H. unfold decimal. pose proof (digits_length (S (N.to_nat (N.log2 n))) n []). cbn [length] in *.
  destruct (N.eq_dec n 0) as [->|N0]; [vm_compute; lia|]. assert (N.log2 n < 32) by (apply N.log2_lt_pow2; lia). lia.
Qed.
Lemma string_length : forall v, version_fits v -> N.of_nat (length (version_string v)) < 2 ^ 64.
Proof.
  intros v (A & B & C). unfold version_string. rewrite !app_length. cbn [length].
  pose proof (decimal_length A). pose proof (decimal_length B). pose proof (decimal_length C). lia.
Qed.

(** * Records *)
Definition long (b : bytes) : Prop := N.of_nat (length b) < 2 ^ 64.
Definition block_fits (b : sblock) : Prop :=
  sb_height b < 2 ^ 32 /\ sb_ts b < 2 ^ 64 /\ int_fits (sb_score b) /\ long (sb_id b) /\ long (sb_parent b) /\ long (sb_gen b).
Definition link_fits (l : slink) : Prop :=
  sl_height l < 2 ^ 32 /\ long (sl_id l) /\ N.of_nat (length (sl_parents l)) < 2 ^ 64 /\ Forall (fun n => n < 2 ^ 64) (sl_parents l).
Definition value_fits (v : value) : Prop :=
  v_port v < 2 ^ 16 /\ v_nonce v < 2 ^ 64 /\ long (v_name v) /\ utf8_valid (v_name v) = true /\ version_fits (v_version v) /\
  in_int64 (v_next v) = true /\ match v_score v with Some z => int_fits z | None => True end.

Lemma int_small : forall z, (- 2 ^ 64 <= z < 2 ^ 64)%Z -> int_fits z.
Proof.
  assert (K : forall n, n < 2 ^ 64 -> N.of_nat (length (be_min n)) < 2 ^ 64).
  { intros n H. unfold be_min. destruct (N.eqb_spec n 0); [reflexivity|]. rewrite be_length, N2Nat.id.
    assert (N.log2 n < 64) by (apply N.log2_lt_pow2; lia). assert (N.log2 n / 8 <= 8) by (apply N.div_le_upper_bound; lia). lia. }
  intros z H. split; apply K; lia.
Qed.
Lemma as_of_uint : forall lim n, n < lim -> as_uint lim (of_uint n) = Some n.
Proof. intros. unfold as_uint, of_uint. destruct (Z.leb_spec 0 (Z.of_N n)); [|lia]. destruct (Z.ltb_spec (Z.of_N n) (Z.of_N lim)); [|lia]. cbn [andb]. now rewrite N2Z.id. Qed.
Lemma as_of_bytes : forall b, as_bytes (of_bytes b) = Some b.
Proof. intros []; reflexivity. Qed.
Lemma as_of_ints : forall b, as_ints (of_ints b) = Some b.
Proof. intros []; reflexivity. Qed.
Lemma as_of_big : forall b, as_big (of_big b) = Some b.
Proof. intros []; reflexivity. Qed.
Lemma as_of_time : forall z, in_int64 z = true -> as_time (of_time z) = Some z.
Proof. intros z H. unfold of_time. destruct (Z.eqb_spec z zero_seconds); cbn [as_time]; [now subst|]. now rewrite H. Qed.
Lemma fits_uint : forall n, n < 2 ^ 64 -> item_fits (of_uint n).
Proof. intros. cbn. apply int_small. lia. Qed.
Lemma fits_bytes : forall b, long b -> item_fits (of_bytes b).
Proof. intros [] H; [exact I|exact H]. Qed.
Lemma state_of_number : forall s, state_of (state_number s) = Some s.
Proof. intros []; reflexivity. Qed.

Ltac fit := unfold fields_fit; repeat (constructor; cbn [fst snd]); try (split; [reflexivity|]); try reflexivity.
Lemma block_fields : forall b, block_fits b -> dec_map (enc_block b) =
  Some [(0, of_uint (sb_height b)); (1, of_uint (sb_ts b)); (2, IInt (sb_score b)); (3, of_bytes (sb_id b)); (4, of_bytes (sb_parent b)); (5, of_bytes (sb_gen b))].
Proof.
  intros b (H1 & H2 & H3 & H4 & H5 & H6). apply dec_enc_map; [|reflexivity]. unfold fields_fit.
  repeat (apply Forall_cons; [split; [reflexivity|cbn [snd]]|]); [apply fits_uint; lia|now apply fits_uint|exact H3|now apply fits_bytes..|constructor].
Qed.
Lemma dec_enc_block : forall b, block_fits b -> dec_block (enc_block b) = Some b.
Proof.
  intros b F. unfold dec_block. rewrite block_fields by exact F. destruct F as (H1 & H2 & _). cbn [field N.eqb Pos.eqb].
  rewrite !as_of_uint, !as_of_bytes by auto. cbn [as_big]. now destruct b.
Qed.
Lemma link_fields : forall l, link_fits l -> dec_map (enc_link l) =
  Some [(0, of_uint (sl_height l)); (1, of_bytes (sl_id l)); (2, of_ints (sl_parents l))].
Proof.
  intros l (H1 & H2 & H3 & H4). apply dec_enc_map; [|reflexivity]. unfold fields_fit.
  repeat (apply Forall_cons; [split; [reflexivity|cbn [snd]]|]); [apply fits_uint; lia|now apply fits_bytes| |constructor].
  unfold of_ints. destruct (sl_parents l) eqn:E; [exact I|]. split; [exact H3|exact H4].
Qed.
Lemma dec_enc_link : forall l, link_fits l -> dec_link (enc_link l) = Some l.
Proof.
  intros l F. unfold dec_link. rewrite link_fields by exact F. destruct F as (H1 & _). cbn [field N.eqb Pos.eqb].
  rewrite as_of_uint, as_of_bytes, as_of_ints by auto. now destruct l.
Qed.
Lemma value_fields : forall v, value_fits v -> dec_map (enc_value v) =
  Some [(0, of_uint (v_port v)); (1, of_uint (v_nonce v)); (2, IText (v_name v)); (3, IText (version_string (v_version v)));
        (4, of_uint (state_number (v_state v))); (5, of_time (v_next v)); (6, of_big (v_score v))].
Proof.
  intros v (H1 & H2 & H3 & H4 & H5 & H6 & H7). apply dec_enc_map; [|reflexivity]. unfold fields_fit.
  repeat (apply Forall_cons; [split; [reflexivity|cbn [snd]]|]).
  - apply fits_uint. lia.
  - now apply fits_uint.
  - split; auto.
  - split; [now apply string_length|apply string_valid].
  - apply fits_uint. destruct (v_state v); reflexivity.
  - unfold of_time. destruct (_ =? _)%Z; [exact I|]. cbn. apply int_small. unfold in_int64 in H6. lia.
  - destruct (v_score v); [exact H7|exact I].
  - constructor.
Qed.
Lemma dec_enc_value : forall v, value_fits v -> dec_value (enc_value v) = Some (Some v).
Proof.
  intros v F. unfold dec_value. rewrite value_fields by exact F. destruct F as (H1 & H2 & H3 & H4 & H5 & H6 & H7). cbn [field N.eqb Pos.eqb].
  rewrite !as_of_uint, as_of_time, as_of_big by (auto; destruct (v_state v); reflexivity). cbn [as_text].
  rewrite state_of_number, parse_string by auto. now destruct v.
Qed.
