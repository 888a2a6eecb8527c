(** Proofs about the text functions of the Go library, continued: round trips of addresses, sockets, spaces, numbers (C100). *)
From Coq Require Import Strings.Byte Strings.String.
From Verif Require Import Base Kv BytesFacts ChainModel PeersModel LoadModel CborModel CborProofs ApiModel TextModel NetipModel NetipProofs.
Set Implicit Arguments.
Unset Strict Implicit.
Local Open Scope N_scope.

(** * Round trip of addresses *)
Definition plain (s : bytes) : Prop := Forall (fun b => is 37 b = false) s.
Lemma split_plain : forall s z, plain s -> split_zone (s ++ print_zone z) = (s, match z with [] => None | _ => Some z end).
Proof.
  induction s as [|b s IH]; intros z P.
  - destruct z as [|c z]; reflexivity.
  - inversion P; subst. cbn [app split_zone]. rewrite H1, IH by assumption. reflexivity.
Qed.
Lemma hexes_plain : forall s, hexes s -> plain s.
Proof. intros s H. eapply Forall_impl; [|exact H]. intros b B. now apply hex_not in B. Qed.
Lemma join_plain : forall gs, small16 gs -> plain (join gs).
Proof.
  induction gs as [|g gs IH]; intros S; [constructor|]. inversion S; subst. destruct (@print_hexes g ltac:(assumption)) as (A & _). apply hexes_plain in A.
  destruct gs; [exact A|]. apply Forall_app. split; [exact A|]. constructor; [reflexivity|]. now apply IH.
Qed.
Lemma hexes_mark : forall s r, hexes s -> first_mark (s ++ r) = first_mark r.
Proof.
  induction s as [|b s IH]; intros r H; [reflexivity|]. inversion H; subst. cbn [app first_mark]. match goal with X : hex_digit b <> None |- _ => apply hex_not in X as (-> & -> & ->) end.
  cbn [orb]. now apply IH.
Qed.
Lemma join_mark : forall gs r, small16 gs -> (2 <= length gs)%nat -> first_mark (join gs ++ r) = Some 58.
Proof.
  intros gs r S L. destruct gs as [|g [|g' gs]]; cbn in L; try lia. inversion S; subst. destruct (@print_hexes g ltac:(assumption)) as (A & _).
  change (join (g :: g' :: gs)) with (print_hex g ++ colon :: join (g' :: gs)). rewrite <- app_assoc. rewrite hexes_mark by exact A. reflexivity.
Qed.
Lemma flat_length : forall gs, length (flat gs) = (2 * length gs)%nat.
Proof. induction gs as [|g gs IH]; [reflexivity|]. cbn [flat flat_map length app] in *. unfold flat in IH. rewrite IH. lia. Qed.
Lemma flat_app : forall a b, flat (a ++ b) = flat a ++ flat b.
Proof. intros. unfold flat. apply flat_map_app. Qed.
Lemma flat_zeros : forall n, flat (repeat 0 n) = repeat x00 (2 * n).
Proof. induction n as [|n IH]; [reflexivity|]. cbn [repeat flat flat_map]. fold (flat (repeat 0 n)). rewrite IH. replace (2 * S n)%nat with (S (S (2 * n))) by lia. reflexivity. Qed.

Lemma parse6_plain : forall s z, plain s -> parse6 (s ++ print_zone z) =
  let (t, e) := leading s in
  if match e with Some _ => empty t | None => false end then Some (A6 (repeat x00 16) z)
  else match groups 8 t [] e with
       | Some (ip, e', []) => match expand ip e' with Some b => Some (A6 b z) | None => None end
       | _ => None
       end.
Proof. intros s z P. unfold parse6. rewrite split_plain by exact P. destruct z; reflexivity. Qed.

Lemma pairs_length : forall b, length b = 16%nat -> length (pairs b) = 8%nat.
Proof. intros b L. do 16 (destruct b as [|? b]; [discriminate L|]). destruct b; [reflexivity|discriminate L]. Qed.
Lemma small_parts : forall gs n, small16 gs -> small16 (firstn n gs) /\ small16 (skipn n gs).
Proof. intros gs n S. apply Forall_app. now rewrite firstn_skipn. Qed.
Lemma join_not_colons : forall gs r, small16 gs -> gs <> [] -> exists a s, join gs ++ r = a :: s /\ is 58 a = false.
Proof. intros gs r S NE. destruct (join_head S NE) as (c & s & E & X). rewrite E. exists c, (s ++ r). split; [reflexivity|]. now apply hex_not in X. Qed.

Lemma parse_print6 : forall b z, length b = 16%nat -> is4in6 b = false -> parse_addr (print_addr (A6 b z)) = Some (A6 b z).
Proof.
  intros b z L M. unfold print_addr. rewrite M. pose proof (pairs_length L) as PL. pose proof (pairs_small b) as PS. assert (PF : flat (pairs b) = b) by (apply pairs_flat; now rewrite L).
  set (gs := pairs b) in *. clearbody gs. pose proof (@best_run gs [] (255, 255)%nat) as R. cbn [app length] in R. specialize (R (or_introl eq_refl)). destruct (best gs 0 (255, 255)%nat) as [zs ze].
  destruct R as [E|(R & Z)].
  - injection E as -> ->. rewrite append_none by exact PL. unfold parse_addr. rewrite join_mark by (assumption || lia).
    rewrite parse6_plain by now apply join_plain. destruct (@join_not_colons gs [] PS) as (a & s & E & N); [intros ->; discriminate PL|]. rewrite app_nil_r in E.
    assert (X : leading (join gs) = (join gs, None)) by (unfold leading; rewrite E; destruct s; [reflexivity|rewrite N; reflexivity]).
    rewrite X. rewrite groups_join; [|intros ->; discriminate PL|lia|exact PS]. cbn [app]. unfold expand. rewrite flat_length, PL. cbn [Nat.mul Nat.add Nat.ltb Nat.leb]. now rewrite PF.
  - cbn [fst snd] in R, Z. rewrite PL in R. rewrite append_run by (assumption || lia). destruct (@small_parts gs zs PS) as (SA & _), (@small_parts gs ze PS) as (_ & SB).
    pose proof (split_run PL R Z) as G. set (A := firstn zs gs) in *. set (B := skipn ze gs) in *.
    assert (LA : length A = zs) by (unfold A; rewrite firstn_length; lia). assert (LB : length B = (8 - ze)%nat) by (unfold B; rewrite skipn_length; lia).
    assert (FB : b = flat A ++ repeat x00 (2 * (ze - zs)) ++ flat B) by (rewrite <- PF, G, !flat_app, flat_zeros; reflexivity).
    clearbody A B.
    assert (PL' : plain (join A ++ [colon; colon] ++ join B)).
    { apply Forall_app. split; [now apply join_plain|]. constructor; [reflexivity|]. constructor; [reflexivity|]. now apply join_plain. }
    assert (FM : first_mark ((join A ++ [colon; colon] ++ join B) ++ print_zone z) = Some 58).
    { destruct A as [|g [|g' A]].
      - reflexivity.
      - inversion SA; subst. cbn [join]. rewrite <- app_assoc. rewrite hexes_mark; [reflexivity|now apply print_hexes].
      - rewrite <- app_assoc. apply join_mark; [exact SA|cbn; lia]. }
    unfold parse_addr. rewrite FM. rewrite parse6_plain by exact PL'. destruct A as [|g A].
    + cbn [join app]. change (leading (colon :: colon :: join B)) with (join B, Some 0%nat). cbv iota beta. destruct B as [|h B].
      * cbn [join empty]. cbv iota. rewrite FB. cbn [flat flat_map app]. rewrite app_nil_r. cbn [length] in LA, LB. replace (2 * (ze - zs))%nat with 16%nat by lia. reflexivity.
      * destruct (@join_not_colons (h :: B) [] SB) as (a & s & E & N); [discriminate|]. rewrite app_nil_r in E.
        rewrite E. cbn [empty]. cbv iota. rewrite <- E. rewrite groups_join; [|discriminate|lia|exact SB]. cbn [app]. unfold expand. rewrite flat_length.
        destruct (Nat.ltb_spec (2 * length (h :: B)) 16); [|lia]. cbn [firstn skipn app]. rewrite FB. cbn [flat flat_map app]. cbn [length] in LA. replace (16 - 2 * length (h :: B))%nat with (2 * (ze - zs))%nat by lia. reflexivity.
    + destruct (@join_not_colons (g :: A) ([colon; colon] ++ join B) SA) as (a & s & E & N); [discriminate|].
      set (T := join (g :: A) ++ [colon; colon] ++ join B) in *.
      assert (X : leading T = (T, None)) by (unfold leading; rewrite E; destruct s; [reflexivity|rewrite N; reflexivity]).
      rewrite X. unfold T. rewrite groups_two; [|discriminate|lia|exact SA|exact SB]. cbn [app]. unfold expand. rewrite app_length, !flat_length.
      destruct (Nat.ltb_spec (2 * length (g :: A) + 2 * length B) 16); [|lia].
      rewrite <- (flat_length (g :: A)). rewrite firstn_app, Nat.sub_diag, firstn_all, firstn_O, app_nil_r. rewrite skipn_app, Nat.sub_diag, skipn_all, skipn_O. cbn [app].
      rewrite FB. rewrite flat_length. replace (16 - (2 * length (g :: A) + 2 * length B))%nat with (2 * (ze - zs))%nat by lia. reflexivity.
Qed.
Lemma octet_plain : forall n, plain (decimal n) /\ Forall (fun b => is 58 b = false) (decimal n) /\ Forall (fun b => is 46 b = false) (decimal n) /\ Forall (fun b => digit b = true) (decimal n).
Proof.
  intros n. destruct (decimal_spec n) as (_ & F & _). repeat split; (eapply Forall_impl; [|exact F]); cbv beta; unfold is, digit; intros b B; lia.
Qed.
Lemma print4_chars : forall b, Forall (fun c => digit c = true \/ c = dot) (print4 b).
Proof.
  intros b. destruct b as [|a [|b [|c [|d [|]]]]]; try constructor. unfold print4.
  assert (K : forall n, Forall (fun c => digit c = true \/ c = dot) (decimal n)) by (intros n; eapply Forall_impl; [|apply (octet_plain n)]; cbv beta; auto).
  repeat (apply Forall_app; split); try apply K; constructor; auto.
Qed.
Lemma print4_plain : forall b, plain (print4 b) /\ Forall (fun b => is 58 b = false) (print4 b).
Proof.
  intros b. split; (eapply Forall_impl; [|apply print4_chars]); cbv beta; intros c [H| ->]; try reflexivity; unfold digit, is in *; lia.
Qed.
Lemma skip_mark : forall s r, Forall (fun b => digit b = true) s -> first_mark (s ++ r) = first_mark r.
Proof.
  induction s as [|b s IH]; intros r F; [reflexivity|]. inversion F; subst. cbn [app first_mark]. unfold digit in H1.
  assert (E : is 46 b || is 58 b || is 37 b = false) by (unfold is; lia). rewrite E. now apply IH.
Qed.
Lemma print4_mark : forall (b r : bytes), length b = 4%nat -> first_mark (print4 b ++ r) = Some 46.
Proof.
  intros b r L. destruct b as [|a [|b [|c [|d [|]]]]]; try discriminate L. unfold print4. rewrite <- app_assoc. rewrite skip_mark by apply octet_plain. reflexivity.
Qed.
Lemma hex_octet : forall a s, exists k v, hex (decimal (Byte.to_N a) ++ dot :: s) 0 0 = Some (S k, v, dot :: s).
Proof. intros a s. destruct a; do 2 eexists; reflexivity. Qed.
Lemma is4in6_eq : forall b : bytes, is4in6 b = true -> b = (repeat x00 10 ++ [xff; xff]) ++ skipn 12 b.
Proof. intros b H. unfold is4in6 in H. apply beqb_eq in H. rewrite <- H. symmetry. apply firstn_skipn. Qed.
Lemma mapped_length : forall b : bytes, length b = 16%nat -> length (skipn 12 b) = 4%nat.
Proof. intros b L. rewrite skipn_length. lia. Qed.
Lemma print4_head : forall q, length q = 4%nat -> exists a s, print4 q = decimal (Byte.to_N a) ++ dot :: s /\ s <> [].
Proof.
  intros q L. destruct q as [|a [|b [|c [|d [|]]]]]; try discriminate L. exists a. unfold print4. eexists. split; [reflexivity|]. cbn [app]. destruct (decimal_spec (Byte.to_N b)) as (NE & _).
  destruct (decimal (Byte.to_N b)); [contradiction|discriminate].
Qed.
Lemma parse_print_mapped : forall b z, length b = 16%nat -> is4in6 b = true -> parse_addr (print_addr (A6 b z)) = Some (A6 b z).
Proof.
  intros b z L M. unfold print_addr. rewrite M. pose proof (is4in6_eq M) as E. pose proof (mapped_length L) as L4. set (q := skipn 12 b) in *. clearbody q.
  unfold parse_addr. change (first_mark (text "::ffff:" ++ print4 q ++ print_zone z)) with (Some 58). cbv iota.
  rewrite app_assoc. rewrite parse6_plain.
  2:{ apply Forall_app. split; [|apply print4_plain]. repeat constructor. }
  change (text "::ffff:" ++ print4 q) with (colon :: colon :: (text "ffff:" ++ print4 q)). change (leading (colon :: colon :: (text "ffff:" ++ print4 q))) with (text "ffff:" ++ print4 q, Some 0%nat). cbv iota beta.
  destruct (print4_head L4) as (a & s & H & _). destruct (hex_octet a s) as (k & v & HX). rewrite <- H in HX.
  assert (G : groups 8 (text "ffff:" ++ print4 q) [] (Some 0%nat) = Some ([xff; xff] ++ q, Some 0%nat, [])).
  { assert (NC : exists d r, print4 q = d :: r /\ is 58 d = false).
    { rewrite H. destruct (octet_plain (Byte.to_N a)) as (_ & N & _). destruct (decimal_spec (Byte.to_N a)) as (NE & _). destruct (decimal (Byte.to_N a)) as [|d r]; [contradiction|]. inversion N; subst. eexists _, _. split; [reflexivity|assumption]. }
    change (text "ffff:" ++ print4 q) with ([x66; x66; x66; x66; x3a] ++ print4 q). cbn [groups app]. cbn -[groups print4 parse4].
    change (hex_digit x66) with (Some 15). change (hex_digit x3a) with (@None N). cbn -[groups print4 parse4 hex]. destruct NC as (d & r & ER & ND). rewrite ER. rewrite ND. rewrite <- ER.
    cbn [groups]. rewrite HX. change (is 46 dot) with true. cbv iota. cbn [length Nat.add Nat.ltb Nat.leb]. rewrite parse_print4 by exact L4. reflexivity. }
  destruct (empty (text "ffff:" ++ print4 q)) eqn:EM; [discriminate EM|]. rewrite G. unfold expand. rewrite app_length, L4. cbn [length Nat.add Nat.ltb Nat.leb]. cbn [firstn skipn app]. rewrite E. reflexivity.
Qed.
(** The addresses that have a text: all but the zero one. *)
Definition proper (a : addr) : Prop := go_addr a /\ a <> AZero.
Lemma parse_print : forall a, proper a -> parse_addr (print_addr a) = Some a.
Proof.
  intros [|b|b z] (G & NZ); [contradiction| |].
  - cbn [print_addr go_addr] in *. unfold parse_addr. pose proof (@print4_mark b [] G) as M. rewrite app_nil_r in M. rewrite M. now rewrite parse_print4.
  - cbn [go_addr] in G. destruct (is4in6 b) eqn:E; [now apply parse_print_mapped|now apply parse_print6].
Qed.

(** * What is read is a proper address *)
Lemma groups_length : forall f s ip e ip' e' r, groups f s ip e = Some (ip', e', r) -> (length ip + 2 * f = 16)%nat ->
  match e with Some k => (k <= length ip)%nat | None => True end -> (length ip' <= 16)%nat /\ match e' with Some k => (k <= length ip')%nat | None => True end.
Proof.
  induction f as [|f IH]; intros s ip e ip' e' r H L K.
  - injection H as <- <- <-. split; [lia|exact K].
  - cbn [groups] in H. destruct (hex s 0 0) as [[[[|k] acc] t]|]; try discriminate H. destruct (match t with c :: _ => is 46 c | [] => false end).
    + destruct (match e with None => _ | Some _ => _ end); [discriminate|]. destruct (Nat.ltb_spec 16 (length ip + 4)); [discriminate|].
      destruct (parse4 s) as [q|] eqn:P; [|discriminate]. injection H as <- <- <-. apply parse4_text in P as (P & _). rewrite app_length. split; [lia|]. destruct e; [lia|exact I].
    + set (jp := ip ++ [byte_of (acc / 256); byte_of (acc mod 256)]) in *. assert (J : length jp = (length ip + 2)%nat) by (unfold jp; rewrite app_length; reflexivity). clearbody jp.
      assert (KJ : match e with Some k => (k <= length jp)%nat | None => True end) by (destruct e; [lia|exact I]).
      destruct t as [|c t]; [injection H as <- <- <-; split; [lia|exact KJ]|]. destruct (negb (is 58 c)); [discriminate|]. destruct t as [|d t]; [discriminate|]. destruct (is 58 d).
      * destruct e; [discriminate|]. destruct (empty t); [injection H as <- <- <-; split; lia|]. apply (IH _ _ _ _ _ _ H); [lia|lia].
      * apply (IH _ _ _ _ _ _ H); [lia|exact KJ].
Qed.
Lemma parsed_proper : forall s a, parse_addr s = Some a -> proper a.
Proof.
  assert (P6 : forall s a, parse6 s = Some a -> proper a).
  { intros s a H. unfold parse6 in H. destruct (split_zone s) as [t z]. assert (X : forall b zone, length b = 16%nat -> proper (A6 b zone)) by (intros; split; [assumption|discriminate]).
    assert (H' : (let zone := match z with Some z => z | None => [] end in
      let (t, e) := leading t in
      if match e with Some _ => empty t | None => false end then Some (A6 (repeat x00 16) zone)
      else match groups 8 t [] e with
           | Some (ip, e', []) => match expand ip e' with Some b => Some (A6 b zone) | None => None end
           | _ => None
           end) = Some a) by (destruct z as [[|]|]; [discriminate H|exact H|exact H]). clear H. rename H' into H. cbv zeta in H.
    set (w := leading t) in H.
    assert (W : match snd w with Some k => k = 0%nat | None => True end).
    { unfold w, leading. destruct t as [|x [|y t']]; cbn; auto. destruct (is 58 x && is 58 y); cbn; auto. }
    destruct w as [u e]. cbn [snd] in W. destruct (match e with Some _ => empty u | None => false end); [injection H as <-; now apply X|].
    destruct (groups 8 u [] e) as [[[ip e'] [|]]|] eqn:G; try discriminate. apply groups_length in G as (GL & GE); [|reflexivity|destruct e; [subst; cbn; lia|exact I]].
    unfold expand in H. destruct (Nat.ltb_spec (length ip) 16).
    - destruct e' as [k|]; [|discriminate]. cbv iota in GE. apply (f_equal (fun o => match o with Some x => x | None => a end)) in H. cbv beta iota in H. subst a. apply X. rewrite !app_length, firstn_length, repeat_length, skipn_length. lia.
    - destruct e'; [discriminate|]. injection H as <-. apply X. lia. }
  intros s a H. unfold parse_addr in H. destruct (first_mark s) as [n|]; [|discriminate].
  assert (C : n = 46 \/ n = 58 \/ (n <> 46 /\ n <> 58)) by lia. destruct C as [->|[->|(C1 & C2)]].
  - destruct (parse4 s) as [f|] eqn:P; [|discriminate]. injection H as <-. apply parse4_text in P as (P & _). split; [exact P|discriminate].
  - now apply P6 in H.
  - exfalso. destruct n as [|p]; [discriminate|]. do 6 (destruct p as [p|p|]; try discriminate H; try contradiction).
Qed.
