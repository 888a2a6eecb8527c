(** Whatever the bytes of a record are, what is read fits the Go types of its fields (C91). *)
From Coq Require Import Strings.Byte.
From Verif Require Import Base Kv ChainModel PeersModel BytesFacts CborModel CborProofs CborProps.
Set Implicit Arguments.
Unset Strict Implicit.
Open Scope N_scope.

Definition item_typed (s : bytes) (i : item) : Prop := match i with
  | IInt _ | INull => True
  | IBytes b => (length b <= length s)%nat
  | IText b => (length b <= length s)%nat /\ utf8_valid b = true
  | IInts l => (length l <= length s)%nat /\ Forall (fun n => n < 2 ^ 64) l end.
Lemma item_typed_le : forall s t i, (length s <= length t)%nat -> item_typed s i -> item_typed t i.
Proof. intros s t [z|b|b|l|] L; cbn [item_typed]; intuition; lia. Qed.
Lemma unhead_typed : forall s m n r, unhead s = Some (m, n, r) -> n < 2 ^ 64 /\ (length r < length s)%nat.
Proof.
  intros [|b s] m n r H; [discriminate H|]. unfold unhead in H. cbv zeta in H. cbn [length].
  assert (W : forall k, k <= 8 -> match take k s with Some (x, r') => Some (Byte.to_N b / 32, unbe x, r') | None => None end = Some (m, n, r) -> n < 2 ^ 64 /\ (length r < S (length s))%nat).
  { intros k K E. destruct (take k s) as [[x r']|] eqn:T; [|discriminate E]. injection E as _ <- <-. destruct (take_length T) as [L1 L2]. split; [|lia].
    eapply N.lt_le_trans; [apply unbe_lt|]. rewrite L2. change (2 ^ 64) with (256 ^ 8). apply N.pow_le_mono_r; lia. }
  destruct (N.ltb_spec (Byte.to_N b mod 32) 24).
  - injection H as _ <- <-. split; [|lia]. eapply N.lt_trans; [exact H0|reflexivity].
  - repeat match type of H with context [if ?c then _ else _] => destruct c end; try discriminate H; (eapply W; [|exact H]; lia).
Qed.
Lemma uints_typed : forall k s l r, dec_uints k s = Some (l, r) -> length l = k /\ Forall (fun n => n < 2 ^ 64) l /\ (length r + k <= length s)%nat.
Proof.
  induction k as [|k IH]; intros s l r H; cbn [dec_uints] in H; [injection H as <- <-; repeat split; [constructor|lia]|].
  unfold unuint in H. destruct (unhead s) as [[[m n] t]|] eqn:U; [|discriminate H]. destruct (unhead_typed U) as [A B]. destruct m; [|discriminate H].
  destruct (dec_uints k t) as [[l' r']|] eqn:D; [|discriminate H]. injection H as <- <-. destruct (IH _ _ _ D) as (C & E & F). cbn [length].
  split; [lia|]. split; [now constructor|lia].
Qed.
Lemma dec_item_typed : forall s i r, dec_item s = Some (i, r) -> item_typed s i /\ (length r < length s)%nat.
Proof.
  intros [|b s] i r H; [discriminate H|]. cbn [dec_item] in H. destruct (_ =? _); [injection H as <- <-; split; [exact I|cbn [length]; lia]|].
  destruct (unhead (b :: s)) as [[[m n] t]|] eqn:U; [|discriminate H]. destruct (unhead_typed U) as [A B].
  destruct m as [|[[[p|p|]|[p|p|]|]|[[p|p|]|[p|p|]|]|]]; try discriminate H.
  - injection H as <- <-. split; [exact I|exact B].
  - destruct (take n t) as [[x r']|] eqn:T; [|discriminate H]. destruct (utf8_valid x) eqn:V; [|discriminate H]. injection H as <- <-. destruct (take_length T). cbn [item_typed]. split; [split; [lia|exact V]|lia].
  - destruct (unhead t) as [[[m' n'] t']|] eqn:U2; [|discriminate H]. destruct (unhead_typed U2) as [A2 B2].
    destruct m' as [|[p|[p|p|]|]]; try discriminate H. destruct (take n' t') as [[x r']|] eqn:T; [|discriminate H]. destruct (take_length T).
    destruct (n =? 2); [injection H as <- <-; split; [exact I|lia]|]. destruct (n =? 3); [injection H as <- <-; split; [exact I|lia]|discriminate H].
  - destruct (N.leb_spec n (N.of_nat (length t))); [|discriminate H]. destruct (dec_uints (N.to_nat n) t) as [[l r']|] eqn:D; [|discriminate H]. injection H as <- <-.
    destruct (uints_typed D) as (E & F & G). cbn [item_typed]. split; [split; [lia|exact F]|lia].
  - destruct (take n t) as [[x r']|] eqn:T; [|discriminate H]. injection H as <- <-. destruct (take_length T). cbn [item_typed]. split; lia.
  - injection H as <- <-. split; [exact I|exact B].
Qed.
Lemma fields_typed : forall k s m r, dec_fields k s = Some (m, r) -> Forall (fun f => item_typed s (snd f)) m /\ (length r <= length s)%nat.
Proof.
  induction k as [|k IH]; intros s m r H; cbn [dec_fields] in H; [injection H as <- <-; split; [constructor|lia]|].
  unfold unuint in H. destruct (unhead s) as [[[m0 n] t]|] eqn:U; [|discriminate H]. destruct (unhead_typed U) as [A B]. destruct m0; [|discriminate H].
  destruct (dec_item t) as [[i r']|] eqn:D; [|discriminate H]. destruct (dec_item_typed D) as [C E].
  destruct (dec_fields k r') as [[m' r'']|] eqn:F; [|discriminate H]. injection H as <- <-. destruct (IH _ _ _ F) as [G J]. split; [|lia].
  constructor; [apply item_typed_le with (2 := C); lia|]. eapply Forall_impl; [|exact G]. intros f. apply item_typed_le. lia.
Qed.
Lemma map_typed : forall s m, dec_map s = Some m -> Forall (fun f => item_typed s (snd f)) m.
Proof.
  intros s m H. unfold dec_map in H. destruct (unhead s) as [[[m0 n] t]|] eqn:U; [|discriminate H]. destruct (unhead_typed U) as [A B].
  destruct m0 as [|[[p|[p|p|]|]|p|]]; try discriminate H. destruct (_ <=? _); [|discriminate H]. destruct (dec_fields _ t) as [[m' [|x r]]|] eqn:D; try discriminate H.
  injection H as <-. destruct (fields_typed D) as [G _]. eapply Forall_impl; [|exact G]. intros f. apply item_typed_le. lia.
Qed.
Lemma field_typed : forall s m k, Forall (fun f => item_typed s (snd f)) m -> item_typed s (field k m).
Proof. intros s m k F. induction F as [|[j i] m H F IH]; cbn [field]; [exact I|]. destruct (j =? k); [exact H|exact IH]. Qed.
Lemma as_uint_typed : forall lim i n, 0 < lim -> as_uint lim i = Some n -> n < lim.
Proof.
  intros lim [z|b|b|l|] n P H; try discriminate H; cbn [as_uint] in H; [|injection H as <-; exact P]. destruct ((0 <=? z)%Z && (z <? Z.of_N lim)%Z) eqn:E; [|discriminate H].
  injection H as <-. lia.
Qed.
Lemma as_bytes_typed : forall s i b, item_typed s i -> as_bytes i = Some b -> (length b <= length s)%nat.
Proof. intros s [z|x|x|l|] b T H; try discriminate H; injection H as <-; [exact T|cbn; lia]. Qed.
Lemma as_text_typed : forall s i b, item_typed s i -> as_text i = Some b -> (length b <= length s)%nat /\ utf8_valid b = true.
Proof. intros s [z|x|x|l|] b T H; try discriminate H; injection H as <-; [exact T|split; [cbn; lia|reflexivity]]. Qed.
Lemma as_ints_typed : forall s i l, item_typed s i -> as_ints i = Some l -> (length l <= length s)%nat /\ Forall (fun n => n < 2 ^ 64) l.
Proof. intros s [z|x|x|l|] b T H; try discriminate H; injection H as <-; [exact T|split; [cbn; lia|constructor]]. Qed.
Lemma parse_uint32_typed : forall s n, parse_uint32 s = Some n -> n < 2 ^ 32.
Proof. intros [|b s] n H; [discriminate H|]. unfold parse_uint32 in H. destruct (number _ 0); [|discriminate H]. destruct (N.ltb_spec n0 (2 ^ 32)); [|discriminate H]. injection H as <-. assumption. Qed.
Lemma parse_version_typed : forall s v, parse_version s = Some v -> ve_major v < 2 ^ 32 /\ ve_minor v < 2 ^ 32 /\ ve_patch v < 2 ^ 32.
Proof.
  intros s v H. unfold parse_version in H. destruct (split_dot s) as [|a [|b [|c [|d l]]]]; cbn [map] in H; try discriminate H.
  - destruct (parse_uint32 a) eqn:A; [|discriminate H]. injection H as <-. apply parse_uint32_typed in A. split; [exact A|split; reflexivity].
  - destruct (parse_uint32 a) eqn:A; [|discriminate H]. destruct (parse_uint32 b) eqn:B; [|discriminate H]. injection H as <-.
    apply parse_uint32_typed in A. apply parse_uint32_typed in B. split; [exact A|split; [exact B|reflexivity]].
  - destruct (parse_uint32 a) eqn:A; [|discriminate H]. destruct (parse_uint32 b) eqn:B; [|discriminate H]. destruct (parse_uint32 c) eqn:C; [|discriminate H]. injection H as <-.
    apply parse_uint32_typed in A. apply parse_uint32_typed in B. apply parse_uint32_typed in C. auto.
  - destruct (parse_uint32 a); [|discriminate H]. destruct (parse_uint32 b); [|discriminate H]. destruct (parse_uint32 c); [|discriminate H]. discriminate H.
Qed.

(** * C91 *)
(** Heights are uint32, times of blocks and numbers uint64, ports uint16, nonces uint64, names valid UTF-8, the numbers of a version uint32
    and times of peers int64; no string is longer than the record. *)
Theorem C91_typed :
  (forall s b, dec_block s = Some b -> sb_height b < 2 ^ 32 /\ sb_ts b < 2 ^ 64 /\
     (length (sb_id b) <= length s /\ length (sb_parent b) <= length s /\ length (sb_gen b) <= length s)%nat) /\
  (forall s l, dec_link s = Some l -> sl_height l < 2 ^ 32 /\ Forall (fun n => n < 2 ^ 64) (sl_parents l) /\ (length (sl_id l) <= length s /\ length (sl_parents l) <= length s)%nat) /\
  (forall s v, dec_value s = Some (Some v) -> v_port v < 2 ^ 16 /\ v_nonce v < 2 ^ 64 /\ utf8_valid (v_name v) = true /\ (length (v_name v) <= length s)%nat /\
     (ve_major (v_version v) < 2 ^ 32 /\ ve_minor (v_version v) < 2 ^ 32 /\ ve_patch (v_version v) < 2 ^ 32) /\ (- 2 ^ 63 <= v_next v < 2 ^ 63)%Z).
Proof.
  split; [|split].
  - intros s b H. unfold dec_block in H. destruct (dec_map s) as [m|] eqn:M; [|discriminate H]. apply map_typed in M. pose proof (fun k => field_typed k M) as F.
    destruct (as_uint (2 ^ 32) (field 0 m)) eqn:E0; [|discriminate H]. destruct (as_uint (2 ^ 64) (field 1 m)) eqn:E1; [|discriminate H].
    destruct (as_big (field 2 m)) as [[z|]|]; try discriminate H. destruct (as_bytes (field 3 m)) eqn:E3; [|discriminate H].
    destruct (as_bytes (field 4 m)) eqn:E4; [|discriminate H]. destruct (as_bytes (field 5 m)) eqn:E5; [|discriminate H]. injection H as <-. cbn [sb_height sb_ts sb_id sb_parent sb_gen].
    apply as_uint_typed in E0; [|reflexivity]. apply as_uint_typed in E1; [|reflexivity]. apply (as_bytes_typed (F 3)) in E3. apply (as_bytes_typed (F 4)) in E4. apply (as_bytes_typed (F 5)) in E5. auto.
  - intros s b H. unfold dec_link in H. destruct (dec_map s) as [m|] eqn:M; [|discriminate H]. apply map_typed in M. pose proof (fun k => field_typed k M) as F.
    destruct (as_uint (2 ^ 32) (field 0 m)) eqn:E0; [|discriminate H]. destruct (as_bytes (field 1 m)) eqn:E1; [|discriminate H].
    destruct (as_ints (field 2 m)) eqn:E2; [|discriminate H]. injection H as <-. cbn [sl_height sl_id sl_parents].
    apply as_uint_typed in E0; [|reflexivity]. apply (as_bytes_typed (F 1)) in E1. apply (as_ints_typed (F 2)) in E2. tauto.
  - intros s v H. unfold dec_value in H. destruct (dec_map s) as [m|] eqn:M; [|discriminate H]. apply map_typed in M. pose proof (fun k => field_typed k M) as F.
    destruct (as_uint (2 ^ 16) (field 0 m)) eqn:E0; [|discriminate H]. destruct (as_uint (2 ^ 64) (field 1 m)) eqn:E1; [|discriminate H].
    destruct (as_text (field 2 m)) eqn:E2; [|discriminate H]. destruct (as_text (field 3 m)) eqn:E3; [|discriminate H]. destruct (as_uint (2 ^ 8) (field 4 m)); [|discriminate H].
    destruct (as_time (field 5 m)) as [t|] eqn:E5; [|discriminate H]. destruct (as_big (field 6 m)); [|discriminate H]. destruct (state_of n1); [|discriminate H].
    destruct (parse_version b0) eqn:V; [|discriminate H]. injection H as <-. cbn [v_port v_nonce v_name v_version v_next].
    apply as_uint_typed in E0; [|reflexivity]. apply as_uint_typed in E1; [|reflexivity]. apply (as_text_typed (F 2)) in E2. apply parse_version_typed in V.
    split; [exact E0|]. split; [exact E1|]. split; [apply E2|]. split; [apply E2|]. split; [exact V|].
    destruct (field 5 m); try discriminate E5; cbn [as_time] in E5.
    + destruct (in_int64 z) eqn:Z; [|discriminate E5]. injection E5 as <-. unfold in_int64 in Z. lia.
    + injection E5 as <-. split; vm_compute; [discriminate|reflexivity].
Qed.
Print Assumptions C91_typed.
(** Every value of the Go types is read back, where the integers and texts are not astronomically long. *)
Theorem C91_all_values : forall v, v_port v < 2 ^ 16 -> v_nonce v < 2 ^ 64 -> N.of_nat (length (v_name v)) < 2 ^ 64 -> utf8_valid (v_name v) = true ->
  ve_major (v_version v) < 2 ^ 32 -> ve_minor (v_version v) < 2 ^ 32 -> ve_patch (v_version v) < 2 ^ 32 -> (- 2 ^ 63 <= v_next v < 2 ^ 63)%Z ->
  match v_score v with Some z => (- 2 ^ 64 <= z < 2 ^ 64)%Z | None => True end -> dec_value (enc_value v) = Some (Some v).
Proof.
  intros v A B C D E F G H K. apply dec_enc_value. unfold value_fits, long, version_fits, in_int64. repeat (split; [assumption|]). split; [split; [|split]; assumption|].
  split; [lia|]. destruct (v_score v); [|exact I]. now apply int_small.
Qed.
Print Assumptions C91_all_values.
(** The earliest time; one second earlier, the record is refused. *)
Definition early (t : Z) : value :=
  {| v_port := 6863; v_nonce := 2 ^ 64 - 1; v_name := [x61]; v_version := {| ve_major := 1; ve_minor := 5; ve_patch := 0 |}; v_state := PeerConnected; v_next := t; v_score := Some (2 ^ 63)%Z |}.
Example C91_range_example : dec_value (enc_value (early (- 2 ^ 63))) = Some (Some (early (- 2 ^ 63))) /\ dec_value (enc_value (early (- 2 ^ 63 - 1))) = None.
Proof. split; vm_compute; reflexivity. Qed.
