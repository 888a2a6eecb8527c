(** The order of the end (C83). *)
From Verif Require Import Base Kv ChainModel ChainSpec ChainExample PeersModel PeersSpec PeersProps LoadModel NetModel NetSpec NetProofs NetDist NetProps.
Set Implicit Arguments.
Unset Strict Implicit.

(** The services still run. *)
Definition serving (s : sys) : Prop :=
  y_loader s <> LStopped /\ y_dist s <> DStopped /\ y_respawn s = true /\ y_listener s <> Closed /\ y_listener s <> Returned.
(** The stage of main comes after the wait for the respawner, the loader, the distributor. *)
Definition past_respawn (m : stage) : Prop := m = AtLoader \/ m = AtDistributor \/ m = Ended.
Definition past_loader (m : stage) : Prop := m = AtDistributor \/ m = Ended.
Definition past_listener (m : stage) : Prop := m = AtRespawn \/ past_respawn m.
Definition ordered (s : sys) : Prop :=
  (y_term s = false -> (y_main s = Serving \/ y_main s = Crashed) /\ serving s) /\
  (past_listener (y_main s) -> y_listener s = NoServer \/ y_listener s = Accepting \/ y_listener s = Returned) /\
  (past_respawn (y_main s) -> y_respawn s = false) /\ (past_loader (y_main s) -> y_loader s = LStopped) /\ (y_main s = Ended -> y_dist s = DStopped).

Lemma ordered_step : forall cfg g srt ord s s', ordered s -> next cfg g srt ord s s' -> ordered s'.
Proof.
  intros cfg g srt ord s s' (O1 & O2 & O3 & O4 & O5) [A M]. destruct M; unfold ordered, serving, past_listener, past_respawn, past_loader in *;
    cbn [set_main set_listener set_procs set_state set_left set_inbox set_term y_term y_main y_listener y_respawn y_loader y_dist] in *;
    try (destruct p as [p|]; cbn [after_send]); (split; [|split; [|split; [|split]]]); intros X; try (destruct (O1 ltac:(assumption)) as ([?|?] & ? & ? & ? & ? & ?));
    intuition congruence.
Qed.
Lemma ordered_run : forall cfg g srt ord server inbox left d s, runs cfg g srt ord (started server inbox left d) s -> ordered s.
Proof.
  intros cfg g srt ord server inbox left d s R. induction R as [|s1 s2 R IH N]; [|eapply ordered_step; eauto].
  unfold ordered, serving, past_listener, past_respawn, past_loader, started. cbn. repeat split; intros; try (destruct server; discriminate); try discriminate; intuition discriminate.
Qed.

(** * C83 *)

(** When main returns, the signal has come, and the respawner, the loader, the distributor and the listener have returned, the
    latter unless its Close failed. *)
Theorem C83_all_stopped : forall cfg g srt ord server inbox left d s, runs cfg g srt ord (started server inbox left d) s -> y_main s = Ended ->
  y_term s = true /\ y_respawn s = false /\ y_loader s = LStopped /\ y_dist s = DStopped /\
  (y_listener s = NoServer \/ y_listener s = Accepting \/ y_listener s = Returned).
Proof.
  intros cfg g srt ord server inbox left d s R E. destruct (ordered_run R) as (O1 & O2 & O3 & O4 & O5). unfold past_listener, past_respawn, past_loader in *.
  split; [|split; [|split; [|split]]]; try tauto. destruct (y_term s); [reflexivity|]. destruct (O1 eq_refl) as [[X|X] _]; congruence.
Qed.
Print Assumptions C83_all_stopped.
(** Before the signal every service runs, unless the process has crashed. *)
Theorem C83_serves : forall cfg g srt ord server inbox left d s, runs cfg g srt ord (started server inbox left d) s -> y_term s = false ->
  (y_main s = Serving \/ y_main s = Crashed) /\ serving s.
Proof. intros cfg g srt ord server inbox left d s R E. destruct (ordered_run R) as (O1 & _). now apply O1. Qed.
Print Assumptions C83_serves.
(** What has returned does not come back, and main goes forward only. *)
Definition rank (m : stage) : nat :=
  match m with Serving => 0 | AtAPI => 1 | AtListener => 2 | AtRespawn => 3 | AtLoader => 4 | AtDistributor => 5 | Ended => 6 | Crashed => 6 end.
Theorem C83_forward : forall cfg g srt ord s s', runs cfg g srt ord s s' ->
  rank (y_main s) <= rank (y_main s') /\ (y_term s = true -> y_term s' = true) /\ (y_respawn s = false -> y_respawn s' = false) /\
  (y_loader s = LStopped -> y_loader s' = LStopped) /\ (y_dist s = DStopped -> y_dist s' = DStopped).
Proof.
  intros cfg g srt ord s s' R. induction R as [|s1 s2 R IH [A M]]; [auto|].
  destruct IH as (I1 & I2 & I3 & I4 & I5). destruct M;
    cbn [set_main set_listener set_procs set_state set_left set_inbox set_term y_term y_main y_listener y_respawn y_loader y_dist] in *;
    (split; [|split; [|split; [|split]]]); try exact I1; auto; try (intros X; intuition congruence);
    repeat match goal with H : y_main _ = _ |- _ => rewrite H in I1 end; cbn [rank] in *; try lia.
  all: destruct (y_main s1); cbn [rank] in *; lia.
Qed.
Print Assumptions C83_forward.
(** A run without a server: the signal, everything returns, and main ends. *)
Definition quick (n : nat) : sys :=
  let s0 := started false [] 0 {| d_reg := new_registry []; d_lk := xl0 |} in
  let s1 := set_term s0 in
  let s2 := set_procs s1 false LSelect DSelect in
  let s3 := set_procs s2 false LStopped DSelect in
  let s4 := set_procs s3 false LStopped DStopped in
  nth n [s0; s1; s2; s3; s4; set_main s4 AtAPI; set_main s4 AtListener; set_main s4 AtRespawn; set_main s4 AtLoader; set_main s4 AtDistributor; set_main s4 Ended] s0.
Example C83_example : runs xcfg xg (fun l => l) (fun l => l) (started false [] 0 {| d_reg := new_registry []; d_lk := xl0 |}) (quick 10) /\ y_main (quick 10) = Ended /\
  serving (quick 1) /\ ~ serving (quick 4).
Proof.
  split; [|split; [reflexivity|split; [repeat split; discriminate|intros (X & _); now apply X]]].
  assert (A : forall n, n < 10 -> alive (quick n)) by (intros n L; do 10 (destruct n as [|n]; [split; discriminate|]); lia).
  apply runs_next with (s1 := quick 9); [|split; [apply A; lia|apply m_distributed; reflexivity]].
  apply runs_next with (s1 := quick 8); [|split; [apply A; lia|exact (@m_loaded xcfg xg (fun l => l) (fun l => l) (quick 8) eq_refl eq_refl)]].
  apply runs_next with (s1 := quick 7); [|split; [apply A; lia|exact (@m_respawned xcfg xg (fun l => l) (fun l => l) (quick 7) eq_refl eq_refl)]].
  apply runs_next with (s1 := quick 6); [|split; [apply A; lia|exact (@m_no_listener xcfg xg (fun l => l) (fun l => l) (quick 6) eq_refl eq_refl)]].
  apply runs_next with (s1 := quick 5); [|split; [apply A; lia|exact (@m_api xcfg xg (fun l => l) (fun l => l) (quick 5) eq_refl)]].
  apply runs_next with (s1 := quick 4); [|split; [apply A; lia|exact (@m_done xcfg xg (fun l => l) (fun l => l) (quick 4) eq_refl eq_refl)]].
  apply runs_next with (s1 := quick 3); [|split; [apply A; lia|exact (@m_dist_exit xcfg xg (fun l => l) (fun l => l) (quick 3) eq_refl eq_refl)]].
  apply runs_next with (s1 := quick 2); [|split; [apply A; lia|exact (@m_load_exit xcfg xg (fun l => l) (fun l => l) (quick 2) eq_refl eq_refl)]].
  apply runs_next with (s1 := quick 1); [|split; [apply A; lia|exact (@m_respawn_exit xcfg xg (fun l => l) (fun l => l) (quick 1) eq_refl eq_refl)]].
  apply runs_next with (s1 := quick 0); [constructor|split; [apply A; lia|exact (@m_signal xcfg xg (fun l => l) (fun l => l) (quick 0) eq_refl)]].
Qed.
