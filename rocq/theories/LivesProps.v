(** The property C109 of /verif/properties.jsonl: in every life of the process, whatever happened in the lives before, the peer that lags behind leads to the detected fork. *)
From Coq Require Import Strings.Byte.
From Verif Require Import Base Kv ChainModel ChainSpec ChainTree ChainLca ChainProofs ChainExample PeersModel PeersSpec PeersProofs PeersCalls PeersProps LoadModel LoadSpec LoadProofs LoadReal LoadLeash LoadProps
  NetModel NetSpec NetProps WholeModel WholeSpec WholeProofs WholeSource WholeProps SyncSpec SyncProofs SyncProps LockSpec HonestSpec HonestProofs HonestSync HonestProps NetProofs
  ForkProofs ForkProps AlarmProofs AlarmProps StallProps DeliverProps DetectProps BeginProofs BeginProps RestartProofs RestartProps LifeModel LifeSpec LifeProofs LifeProps.
Set Implicit Arguments.
Unset Strict Implicit.

(** The loader is idle; [a] is connected, has announced the score [sc], and has the proper chain [xs]; the last block known of it, from this life or an earlier one, is
    number [k] of this chain; no difference of scores is left over from a session of this life, or it is not less than the differences up to number [k]. *)
Definition at_rest (g : pblock) (m : meaning) (a : addr) (sc : Z) (xs : list pblock) (k : nat) (l : loader) (v : whole) : Prop :=
  l_pl l = None /\ fair m a sc (o_real v) /\ HonestSpec.on_line a v /\
  (exists i, leash (re_lk (o_real v)) a = Ok i /\ nth_error (cids g xs) k = Some i) /\
  (forall j d, j <= k -> l_prev l = Some d -> (sc - weight g (firstn j xs) <= d)%Z).

(** * C109 *)
Theorem C109_life : forall cfg g ord cord srt m a sc xs k x seen li l v, map_order ord -> permutes cord -> permutes srt -> ip4 a -> proper_chain m g xs -> (weight g xs <= sc)%Z ->
  lived cfg g x seen -> wf_life li ->
  process cfg g ord cord srt new_loader (begun (opened cfg g x li)) (li_turns li) = ((l, v), Ok tt) -> short (o_real v) ->
  at_rest g m a sc xs k l v -> (k < length xs \/ (weight g xs < sc)%Z) -> (forall b, connected (re_reg (o_real v)) b -> known (re_reg (o_real v)) b) ->
  (forall b, lags_behind (o_real v) b -> b = a) ->
  (10 <= fc_count (l_fc l) a /\ lcb ord (re_lk (o_real v)) a = Panic /\ snd (process cfg g ord cord srt l v [TSync []]) = Panic) \/
  exists l' v' j c js, process cfg g ord cord srt l v [TSync []] = ((l', v'), Ok tt) /\ j <= k /\ (fc_count (l_fc l) a < 10 -> j = k) /\ nth_error (cids g xs) j = Some c /\
    re_sent (o_real v') = re_sent (o_real v) ++ [(a, MsgIDs (c :: js))] /\
    inevitably (honest_turn cfg g ord cord srt m a xs) (fun s' => detected g m a xs s' \/ ~ short (o_real (st_v s')))
      {| st_l := l'; st_v := v'; st_open := [MsgIDs (c :: js)]; st_res := Ok tt |}.
Proof.
  intros cfg g ord cord srt m a sc xs k x seen li l v OM PO PS IP PC WS LV WL E SV (IL & F & ON & LE & PV) MO KN UN.
  assert (SX : short x).
  { assert (G := process_grow E). destruct G as [[more G] _]. cbn [begun o_real opened re_ops] in G. unfold short in *. rewrite G, !app_length in SV. lia. }
  assert (X0 := opened_initial (lived_initial LV SX) WL). assert (W : Forall wf_turn (li_turns li)) by apply WL.
  destruct (Nat.lt_ge_cases (fc_count (l_fc l) a) 10) as [FC|FC].
  - right. destruct (@C105_sole cfg g ord cord srt m a sc xs k (opened cfg g x li) (li_turns li) l v PO PS IP PC WS X0 W E SV) as (l' & v' & i & js & ET & NT & SN & IV); auto.
    { split; [exact IL|]. split; [exact FC|]. split; [exact F|]. split; [exact ON|]. split; [exact LE|]. intros d D. now apply (PV k). }
    exists l', v', k, i, js. auto 8.
  - destruct (@C107_sole cfg g ord cord srt m a sc xs k (opened cfg g x li) (li_turns li) l v OM PO PS IP PC WS X0 W E SV) as [CR|(l' & v' & j & c & js & _ & ET & JK & NT & SN & IV)]; auto.
    { split; [exact IL|]. split; [exact FC|]. split; [exact F|]. split; [exact ON|]. split; [exact LE|]. exact PV. }
    right. exists l', v', j, c, js. split; [exact ET|]. split; [exact JK|]. split; [lia|]. auto.
Qed.
Print Assumptions C109_life.

(** In the first life b sends its chain and a the first four blocks of its own; in the second one only a comes back, and announces its score. *)
Definition one_life : life := xlife [] (visit pa hgood (map (fun b => MBlock (Some b)) (firstn 4 left_side)) ++
  visit pb (greet (ver 1 5 3) DeclEmpty x57 [x6e]) (map (fun b => MBlock (Some b)) right_side)) None.
Definition next_life : life := xlife [] (visit pa hgood [MScore (repeat xff 12)]) None.
Definition left_stores : real := o_real (xlive (xblank [] []) one_life).
Notation next := (xprocess new_loader (begun (opened xcfg xg left_stores next_life)) (li_turns next_life)).
Example C109_example : exists seen, let l := fst (fst next) in let v := snd (fst next) in
  lived xcfg xg left_stores seen /\ wf_life next_life /\ starts xg left_stores = Ok tt /\ snd next = Ok tt /\ short (o_real v) /\
  at_rest xg sides pa (2 ^ 96 - 1)%Z left_side 4 l v /\ 4 < length left_side /\ fc_count (l_fc l) pa = 0 /\
  (forall b, connected (re_reg (o_real v)) b -> known (re_reg (o_real v)) b) /\ (forall b, lags_behind (o_real v) b -> b = pa) /\
  proper_chain sides xg left_side /\ leash (re_lk (o_real v)) pb = Ok (tip xg right_side).
Proof.
  eexists. cbv zeta. split; [exact (@xlived (xblank [] []) [] one_life xlived_new eq_refl)|]. split; [apply wf_lifeb_ok; vm_compute; reflexivity|].
  split; [vm_compute; reflexivity|]. split; [vm_compute; reflexivity|]. split; [vm_compute; reflexivity|]. split.
  { split; [vm_compute; reflexivity|]. split.
    { split; [vm_compute; constructor|]. split; [apply true_opsb; vm_compute; reflexivity|]. split; [vm_compute; constructor|]. eexists. split; vm_compute; reflexivity. }
    split. { split; [vm_compute; auto|]. split; [vm_compute; constructor|]. assert (D : o_dist (snd (fst next)) = DSelect) by (vm_compute; reflexivity). intros p. rewrite D. discriminate. }
    split; [exists (xid 4); split; vm_compute; reflexivity|]. assert (D : l_prev (fst (fst next)) = None) by (vm_compute; reflexivity). rewrite D. discriminate. }
  split; [cbn; lia|]. split; [vm_compute; reflexivity|].
  assert (CN : forall b, connected (re_reg (o_real (snd (fst next)))) b -> b = pa).
  { intros b C. assert (D : map fst (r_conns (re_reg (o_real (snd (fst next))))) = [pa]) by (vm_compute; reflexivity). unfold connected in C. rewrite D in C. destruct C as [<-|[]]; auto. }
  split. { intros b C. assert (D1 : (do q <- reg_peer (re_reg (o_real (snd (fst next)))) pa; Ok tt) = Ok tt) by (vm_compute; reflexivity).
    rewrite (CN b C). destruct (there D1) as (q & Q & _). exists q. exact Q. }
  split. { intros b (C & _). exact (CN b C). }
  split; [apply sides_proper|vm_compute; reflexivity].
Qed.
