(** Facts about the specification: chains, numbers of blocks, heads. *)
From Verif Require Import Base Kv BytesFacts ChainModel ChainSpec.
Set Implicit Arguments.

Lemma id_eqb_spec : forall a b, reflect (a = b) (id_eqb a b).
Proof. exact beqb_spec. Qed.
Lemma id_eqb_refl : forall a, id_eqb a a = true.
Proof. exact beqb_refl. Qed.

(** Well-formed block histories. *)
Inductive WF : list entry -> Prop :=
| WF_gen : forall e, wf_id (e_id e) -> e_parent e = None -> e_ext e = None -> length (e_gen e) = 26 -> WF [e]
| WF_cons : forall e older p x, WF older -> wf_id (e_id e) -> ~ stored older (e_id e) ->
    e_parent e = Some p -> stored older p -> e_ext e = Some x -> stored older x -> length (e_gen e) = 26 ->
    WF (e :: older).

Lemma stored_cons : forall e es i, stored (e :: es) i <-> e_id e = i \/ stored es i.
Proof.
  unfold stored. intros. split.
  - intros [x [[->|H] E]]; eauto.
  - intros [E|[x [H E]]]; [exists e | exists x]; simpl; auto.
Qed.
Lemma stored_nil : forall i, ~ stored [] i.
Proof. intros i [e [[] _]]. Qed.

Lemma stored_dec : forall es i, {stored es i} + {~ stored es i}.
Proof.
  induction es as [|e es IH]; intros i.
  - right. apply stored_nil.
  - destruct (id_eqb_spec (e_id e) i).
    + left. apply stored_cons. auto.
    + destruct (IH i).
      * left. apply stored_cons. auto.
      * right. rewrite stored_cons. tauto.
Qed.

Lemma stored_wf : forall es i, WF es -> stored es i -> wf_id i.
Proof.
  induction 1; rewrite stored_cons.
  - intros [<-|H4]; auto. now apply stored_nil in H4.
  - intros [<-|]; auto.
Qed.

Lemma WF_nonempty : forall es, WF es -> es <> [].
Proof. intros es H. destruct H; discriminate. Qed.

Lemma chain_In : forall es i a, In a (chain es i) -> In a es.
Proof.
  induction es as [|e es IH]; simpl; intros i a H; auto.
  destruct (id_eqb (e_id e) i).
  - destruct H as [->|H]; auto. destruct (e_parent e); [right; eauto|destruct H].
  - right. eauto.
Qed.

Lemma chain_hd : forall es i, stored es i -> exists e c, chain es i = e :: c /\ e_id e = i /\ In e es.
Proof.
  induction es as [|e es IH]; intros i H.
  - now apply stored_nil in H.
  - simpl. destruct (id_eqb_spec (e_id e) i).
    + eauto 6.
    + apply stored_cons in H as [H|H]; [contradiction|].
      destruct (IH _ H) as (x & c & E & F & I). exists x, c. auto.
Qed.
Lemma chain_nil : forall es i, ~ stored es i -> chain es i = [].
Proof.
  induction es as [|e es IH]; intros i H; simpl; auto.
  rewrite stored_cons in H. destruct (id_eqb_spec (e_id e) i); [tauto|]. apply IH. tauto.
Qed.
Lemma chain_nil_iff : forall es i, chain es i = [] <-> ~ stored es i.
Proof.
  split; [|apply chain_nil]. intros E H. destruct (chain_hd H) as (e & c & F & _). congruence.
Qed.

Lemma chain_cons_neq : forall e es i, e_id e <> i -> chain (e :: es) i = chain es i.
Proof. intros e es i H. simpl. destruct (id_eqb_spec (e_id e) i); [contradiction|reflexivity]. Qed.
Lemma chain_cons_eq : forall e es p, e_parent e = Some p -> chain (e :: es) (e_id e) = e :: chain es p.
Proof. intros e es p H. simpl. now rewrite id_eqb_refl, H. Qed.

Lemma chain_fresh : forall e es i, ~ stored es (e_id e) -> stored es i -> chain (e :: es) i = chain es i.
Proof. intros. apply chain_cons_neq. intros E. rewrite <- E in *. contradiction. Qed.

Lemma In_stored : forall es a, In a es -> stored es (e_id a).
Proof. intros es a H. exists a. auto. Qed.

Lemma chain_skip : forall es, WF es -> forall i k a,
  nth_error (chain es i) k = Some a -> chain es (e_id a) = skipn k (chain es i).
Proof.
  induction 1 as [e W P X G | e older p x W IH I F P SP X SX G]; intros i k a H.
  - simpl in *. destruct (id_eqb_spec (e_id e) i) as [E|E].
    + rewrite P in *. destruct k as [|k]; [|destruct k; discriminate].
      simpl in H. inversion H; subst a. now rewrite id_eqb_refl.
    + destruct k; discriminate.
  - destruct (id_eqb_spec (e_id e) i) as [E|E].
    + subst i. rewrite (chain_cons_eq e older P) in *. destruct k as [|k].
      * simpl in H. injection H as <-. now rewrite (chain_cons_eq e older P).
      * simpl in H. cbn [skipn]. rewrite <- (IH _ _ _ H). apply chain_fresh; auto.
        apply In_stored. eapply chain_In, nth_error_In, H.
    + rewrite (chain_cons_neq e older E) in *. rewrite <- (IH _ _ _ H). apply chain_fresh; auto.
      apply In_stored. eapply chain_In, nth_error_In, H.
Qed.

Lemma chain_last : forall es, WF es -> exists g, e_parent g = None /\ In g es /\ e_id g = e_id (last es g) /\
  forall i, stored es i -> exists c, chain es i = c ++ [g] /\ Forall (fun e => e_parent e <> None) c.
Proof.
  induction 1 as [e W P X G | e older p x W IH I F P SP X SX G].
  - exists e. simpl. repeat split; auto. intros i S. apply stored_cons in S as [<-|S]; [|now apply stored_nil in S].
    rewrite id_eqb_refl, P. now exists [].
  - destruct IH as (g & GP & GI & GL & IH). exists g. repeat split; simpl; auto.
    { pose proof (WF_nonempty W). destruct older; congruence. }
    intros i S. destruct (id_eqb_spec (e_id e) i) as [E|E].
    + rewrite P. destruct (IH _ SP) as (c & C & FA). exists (e :: c). rewrite C. split; auto.
      constructor; auto. congruence.
    + apply stored_cons in S as [S|S]; [contradiction|]. apply IH, S.
Qed.

Lemma chain_length : forall es i, length (chain es i) <= length es.
Proof.
  induction es as [|e es IH]; simpl; intros i; auto.
  destruct (id_eqb (e_id e) i); simpl.
  - destruct (e_parent e); simpl; [pose proof (IH i0)|]; lia.
  - pose proof (IH i). lia.
Qed.

(** Distinct blocks have distinct IDs. *)
Lemma entry_unique : forall es, WF es -> forall a b, In a es -> In b es -> e_id a = e_id b -> a = b.
Proof.
  induction 1 as [e W P X G | e older p x W IH I F P SP X SX G]; simpl; intros a b A B E.
  - destruct A as [<-|[]]; destruct B as [<-|[]]; auto.
  - destruct A as [<-|A]; destruct B as [<-|B]; auto.
    + exfalso. apply F. rewrite E. now apply In_stored.
    + exfalso. apply F. rewrite <- E. now apply In_stored.
Qed.

Lemma NoDup_ids : forall es, WF es -> NoDup (map e_id es).
Proof.
  induction 1 as [e W P X G | e older p x W IH I F P SP X SX G]; simpl; constructor; auto.
  - constructor.
  - intros H. apply in_map_iff in H as (a & E & A). apply F. rewrite <- E. now apply In_stored.
Qed.

(** * Numbers *)

Fixpoint num_of (es : list entry) (i : id) : option nat :=
  match es with
  | [] => None
  | e :: older => if id_eqb (e_id e) i then Some (length es) else num_of older i
  end.
Definition numN (es : list entry) (i : id) : option N := option_map N.of_nat (num_of es i).

Lemma num_of_stored : forall es i, stored es i <-> exists n, num_of es i = Some n.
Proof.
  induction es as [|e es IH]; intros i; simpl.
  - split; [intros H; now apply stored_nil in H | intros [n H]; discriminate].
  - rewrite stored_cons, IH. destruct (id_eqb_spec (e_id e) i); split; eauto.
    intros [H|H]; [contradiction|auto].
Qed.
Lemma num_of_None : forall es i, ~ stored es i -> num_of es i = None.
Proof. intros es i H. destruct (num_of es i) eqn:E; auto. exfalso. apply H, num_of_stored. eauto. Qed.
Lemma num_of_bound : forall es i n, num_of es i = Some n -> 0 < n <= length es.
Proof.
  induction es as [|e es IH]; simpl; intros i n H; [discriminate|].
  destruct (id_eqb (e_id e) i).
  - injection H as <-. lia.
  - apply IH in H. lia.
Qed.
Lemma num_of_inj : forall es i j n, num_of es i = Some n -> num_of es j = Some n -> i = j.
Proof.
  induction es as [|e es IH]; simpl; intros i j n H J; [discriminate|].
  destruct (id_eqb_spec (e_id e) i); destruct (id_eqb_spec (e_id e) j); try congruence; eauto.
  - injection H as <-. apply num_of_bound in J. lia.
  - injection J as <-. apply num_of_bound in H. lia.
Qed.
Lemma num_of_fresh : forall e es i, ~ stored es (e_id e) -> stored es i -> num_of (e :: es) i = num_of es i.
Proof. intros e es i F S. simpl. destruct (id_eqb_spec (e_id e) i); auto. subst. contradiction. Qed.

(** * Heads *)

Definition replace_head (x y : id) (hs : list id) : list id :=
  if existsb (id_eqb x) hs then map (fun h => if id_eqb h x then y else h) hs else hs ++ [y].
Fixpoint sheads (es : list entry) : list id :=
  match es with
  | [] => []
  | e :: older => match e_ext e with None => [e_id e] | Some x => replace_head x (e_id e) (sheads older) end
  end.

Lemma existsb_id : forall x hs, existsb (id_eqb x) hs = true <-> In x hs.
Proof.
  intros x hs. rewrite existsb_exists. split.
  - intros (y & H & E). destruct (id_eqb_spec x y); congruence.
  - intros H. exists x. split; auto. apply id_eqb_refl.
Qed.
Lemma existsb_id_false : forall x hs, existsb (id_eqb x) hs = false <-> ~ In x hs.
Proof. intros. rewrite <- existsb_id. destruct (existsb (id_eqb x) hs); split; congruence. Qed.

Lemma In_replace_head : forall x y hs h, x <> y ->
  (In h (replace_head x y hs) <-> h = y \/ (In h hs /\ h <> x)).
Proof.
  intros x y hs h N. unfold replace_head. destruct (existsb (id_eqb x) hs) eqn:E.
  - apply existsb_id in E. rewrite in_map_iff. split.
    + intros (z & Z & I). destruct (id_eqb_spec z x); subst; auto.
    + intros [->|[I H]].
      * exists x. now rewrite id_eqb_refl.
      * exists h. split; auto. destruct (id_eqb_spec h x); congruence.
  - apply existsb_id_false in E. rewrite in_app_iff. simpl. split.
    + intros [H|[<-|[]]]; auto. right. split; auto. congruence.
    + intros [->|[H _]]; auto.
Qed.
Lemma NoDup_replace_head : forall x y hs, ~ In y hs -> NoDup hs -> NoDup (replace_head x y hs).
Proof.
  intros x y hs Y H. unfold replace_head. destruct (existsb (id_eqb x) hs) eqn:E.
  - clear E. induction H as [|h hs N H IH]; simpl; constructor.
    + rewrite in_map_iff. intros (z & Z & I). simpl in Y.
      destruct (id_eqb_spec z x); destruct (id_eqb_spec h x); subst; tauto.
    + apply IH. simpl in Y. tauto.
  - clear E. induction H as [|h hs N H IH]; simpl.
    + constructor; auto. constructor.
    + constructor.
      * rewrite in_app_iff. simpl in *. intros [I|[I|[]]]; auto.
      * apply IH. simpl in Y. tauto.
Qed.

Lemma sheads_stored : forall es i, In i (sheads es) -> stored es i.
Proof.
  induction es as [|e es IH]; simpl; intros i H; [tauto|]. rewrite stored_cons.
  destruct (e_ext e) as [x|].
  - unfold replace_head in H. destruct (existsb (id_eqb x) (sheads es)) eqn:E.
    + apply in_map_iff in H as (z & Z & I). destruct (id_eqb_spec z x); subst; auto.
    + apply in_app_iff in H as [H|[H|[]]]; auto.
  - destruct H as [H|[]]; auto.
Qed.

Lemma ext_stored : forall es, WF es -> forall e x, In e es -> e_ext e = Some x -> stored es x.
Proof.
  induction 1 as [e W P X G | e older p x W IH I F P SP X SX G]; simpl; intros e' x' [<-|H] E.
  - congruence.
  - destruct H.
  - apply stored_cons. right. congruence.
  - apply stored_cons. right. eauto.
Qed.

Lemma sheads_spec : forall es, WF es -> forall i, In i (sheads es) <-> stored es i /\ ~ extended es i.
Proof.
  induction 1 as [e W P X G | e older p x W IH I F P SP X SX G]; intros i; simpl.
  - rewrite X. simpl. rewrite stored_cons. unfold extended. simpl. split.
    + intros [<-|[]]. split; auto. intros (e' & [<-|[]] & E). congruence.
    + intros [[<-|S] _]; auto. now apply stored_nil in S.
  - rewrite X. rewrite In_replace_head by (intros ->; contradiction). rewrite stored_cons, IH.
    unfold extended. simpl. split.
    + intros [->|[[S E] N]].
      * split; auto. intros (e' & [<-|Q] & E').
        { rewrite X in E'. injection E' as ->. contradiction. }
        { apply F. eapply ext_stored; eauto. }
      * split; auto. intros (e' & [<-|Q] & E'); [congruence|]. apply E. eauto.
    + intros [[<-|S] N]; auto. right. repeat split; auto.
      * intros (e' & Q & E'). apply N. eauto.
      * intros ->. apply N. eauto.
Qed.

Lemma sheads_NoDup : forall es, WF es -> NoDup (sheads es).
Proof.
  induction 1 as [e W P X G | e older p x W IH I F P SP X SX G]; simpl.
  - rewrite X. repeat constructor. auto.
  - rewrite X. apply NoDup_replace_head; auto. intros H. now apply sheads_stored in H.
Qed.

Lemma sheads_length : forall es, length (sheads es) <= length es.
Proof.
  induction es as [|e es IH]; simpl; auto. destruct (e_ext e); simpl; [|lia].
  unfold replace_head. destruct (existsb _ _); rewrite ?map_length, ?app_length; simpl; lia.
Qed.

(** Position of a head. *)
Fixpoint index_of (i : id) (hs : list id) : option nat :=
  match hs with
  | [] => None
  | h :: hs' => if id_eqb h i then Some 0 else option_map S (index_of i hs')
  end.
Lemma index_of_nth : forall hs i k, index_of i hs = Some k -> nth_error hs k = Some i.
Proof.
  induction hs as [|h hs IH]; simpl; intros i k H; [discriminate|].
  destruct (id_eqb_spec h i).
  - injection H as <-. simpl. congruence.
  - destruct (index_of i hs) as [j|] eqn:E; [|discriminate]. injection H as <-. simpl. auto.
Qed.
Lemma nth_index_of : forall hs, NoDup hs -> forall i k, nth_error hs k = Some i -> index_of i hs = Some k.
Proof.
  induction 1 as [|h hs N H IH]; intros i k E; [destruct k; discriminate|].
  destruct k as [|k]; simpl in *.
  - injection E as ->. now rewrite id_eqb_refl.
  - destruct (id_eqb_spec h i).
    + subst. apply nth_error_In in E. contradiction.
    + now rewrite (IH _ _ E).
Qed.
Lemma index_of_None : forall hs i, index_of i hs = None <-> ~ In i hs.
Proof.
  induction hs as [|h hs IH]; simpl; intros i; [tauto|].
  destruct (id_eqb_spec h i).
  - split; [discriminate|]. intros N. exfalso. auto.
  - specialize (IH i). destruct (index_of i hs); simpl; split; intros H; try discriminate.
    + exfalso. apply H. right. destruct (in_dec bytes_eq_dec i hs) as [|NI]; auto. apply IH in NI. discriminate.
    + intros [|I]; auto. now apply IH in I.
    + reflexivity.
Qed.
Lemma index_of_bound : forall hs i k, index_of i hs = Some k -> k < length hs.
Proof. intros hs i k H. apply index_of_nth in H. apply nth_error_Some. congruence. Qed.

(** * Common ancestors *)

Lemma anc_stored : forall es i j, anc es i j -> stored es j.
Proof.
  unfold anc, chain_ids. intros es i j H. apply in_map_iff in H as (e & <- & I). apply In_stored. eapply chain_In, I.
Qed.
Lemma anc_nth : forall es i j, anc es i j <-> exists k a, nth_error (chain es i) k = Some a /\ e_id a = j.
Proof.
  unfold anc, chain_ids. intros. rewrite in_map_iff. split.
  - intros (a & E & I). apply In_nth_error in I as [k K]. eauto.
  - intros (k & a & H & E). exists a. split; auto. eapply nth_error_In, H.
Qed.
Lemma anc_refl : forall es i, stored es i -> anc es i i.
Proof. intros es i S. destruct (chain_hd S) as (e & c & E & F & _). unfold anc, chain_ids. rewrite E. simpl. auto. Qed.
Lemma anc_trans : forall es, WF es -> forall i j k, anc es i j -> anc es j k -> anc es i k.
Proof.
  intros es W i j k H J. apply anc_nth in H as (n & a & N & <-). apply anc_nth in J as (m & b & M & <-).
  rewrite (chain_skip W _ _ N) in M. apply anc_nth. exists (n + m), b. split; auto.
  rewrite <- M. rewrite <- (firstn_skipn n (chain es i)) at 1.
  rewrite nth_error_app2; rewrite firstn_length_le; try lia.
  - f_equal. lia.
  - apply Nat.lt_le_incl, nth_error_Some. congruence.
  - apply Nat.lt_le_incl, nth_error_Some. congruence.
Qed.
