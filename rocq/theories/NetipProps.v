(** The text functions of the Go library (C100) and the properties of the API and of the start-up that they make unconditional. *)
From Coq Require Import Strings.Byte Strings.String.
From Verif Require Import Base Kv BytesFacts ChainModel ChainSpec PeersModel LoadModel CborModel CborProofs ApiModel ApiSpec ApiProofs ApiProps ChainExample TextModel TextProps
  NetipModel NetipProofs NetipProofs2 NetipProofs3.
Set Implicit Arguments.
Unset Strict Implicit.
Local Open Scope N_scope.

(** * C100 *)

(** Every address has a text that is read back as itself; what is read is an address; so different addresses have different texts. *)
Theorem C100_addresses : (forall a, go_addr a -> a <> AZero -> parse_addr (print_addr a) = Some a) /\
  (forall s a, parse_addr s = Some a -> go_addr a /\ a <> AZero) /\
  (forall a b, go_addr a -> go_addr b -> a <> AZero -> b <> AZero -> print_addr a = print_addr b -> a = b).
Proof.
  assert (P : forall a, go_addr a -> a <> AZero -> parse_addr (print_addr a) = Some a) by (intros a G N; apply parse_print; now split).
  split; [exact P|]. split; [intros s a H; exact (parsed_proper H)|]. intros a b A B NA NB E. apply P in A, B; try assumption. congruence.
Qed.
Print Assumptions C100_addresses.
(** The same with a port. *)
Theorem C100_ports : (forall a n, go_addr a -> a <> AZero -> n < 65536 -> parse_addrport (print_addrport (a, n)) = Some (a, n)) /\
  (forall s a n, parse_addrport s = Some (a, n) -> go_addr a /\ a <> AZero /\ n < 65536).
Proof.
  split; [intros a n G N L; apply parse_print_port; [now split|exact L]|]. intros s a n H. apply parsed_port in H as ((A & B) & C). repeat split; assumption.
Qed.
Print Assumptions C100_ports.
(** An IPv4 address has one text only: four numbers without leading zeros; the port may have leading zeros. *)
Theorem C100_one_text : (forall s b, parse_addr s = Some (A4 b) <-> length b = 4%nat /\ s = print_addr (A4 b)) /\
  (forall s b n, parse_addrport s = Some (A4 b, n) <-> length b = 4%nat /\ exists p, s = print_addr (A4 b) ++ text ":" ++ p /\ parse_port p = Some n) /\
  (forall a b c d, print_addr (A4 [a; b; c; d]) = decimal (Byte.to_N a) ++ text "." ++ decimal (Byte.to_N b) ++ text "." ++ decimal (Byte.to_N c) ++ text "." ++ decimal (Byte.to_N d)).
Proof.
  split; [|split; [|reflexivity]].
  - intros s b. split.
    + intros H. pose proof (parsed_proper H) as (L & _). cbn in L. split; [exact L|]. assert (Q : parse_addrport (s ++ colon :: [x31]) = Some (A4 b, 1)).
      { unfold parse_addrport. rewrite last_split by (repeat constructor). destruct (brackets s) as [[ip v]|] eqn:B.
        - unfold brackets in B. destruct s as [|c s]; [discriminate H|]. destruct (is 91 c) eqn:C; [apply is_byte in C; [subst c; cbn [byte_of] in H|lia]; pose proof (bracket_none s) as X; change (byte_of 91) with x5b in H; congruence|].
          injection B as <- <-. cbn [empty orb]. rewrite H. reflexivity.
        - unfold brackets in B. destruct s as [|c s]; [discriminate H|]. destruct (is 91 c) eqn:C; [|discriminate B]. apply is_byte in C; [|lia]. subst c. change (byte_of 91) with x5b in H. pose proof (bracket_none s). congruence. }
      apply port4_text in Q as (_ & p & E & P). cbn [print_addr]. assert (NP : no_colon p).
      { unfold parse_port in P. destruct p as [|c p]; [discriminate|]. destruct (number (c :: p) 0) as [m|] eqn:M; [|discriminate]. clear P E. set (q := c :: p) in *. clearbody q.
        assert (A : forall q a m, number q a = Some m -> no_colon q); [|exact (A _ _ _ M)]. clear. induction q as [|d q IH]; intros a m M; [constructor|]. cbn [number] in M. destruct (_ && _) eqn:D; [|discriminate]. constructor; [unfold is; lia|]. now apply IH in M. }
      pose proof (@last_split s [x31] ltac:(repeat constructor)) as E1. rewrite E in E1. rewrite last_split in E1 by exact NP. congruence.
    + intros (L & ->). apply parse_print. split; [exact L|discriminate].
  - intros s b n. exact (port4_text s b n).
Qed.
Print Assumptions C100_one_text.
(** The address of the other end of a TCP connection is read from its text as what it is: IPv4 also if the socket has it in IPv6
    form (distributor.go:116, 128, 165, 205, 256, 270, 285; connection_manager.go:73, 106). *)
Theorem C100_sockets : forall ip zone port, port < 65536 ->
  (length ip = 4%nat -> zone = [] -> parse_addrport (tcp_string ip zone port) = Some (A4 ip, port)) /\
  (forall b, ip = repeat x00 10 ++ [xff; xff] ++ b -> length b = 4%nat -> zone = [] -> parse_addrport (tcp_string ip zone port) = Some (A4 b, port)) /\
  (length ip = 16%nat -> ~ v4 (A6 ip zone) -> parse_addrport (tcp_string ip zone port) = Some (A6 ip zone, port)) /\
  (ip = [] -> parse_addrport (tcp_string ip zone port) = None).
Proof.
  intros ip zone port P. split; [intros L ->; now apply socket4|]. split; [|split].
  - intros b -> L ->. pose proof (@socket_mapped (repeat x00 10 ++ [xff; xff] ++ b) port) as S. apply S; [rewrite !app_length, L; reflexivity|reflexivity|exact P].
  - intros L N. apply socket6; [exact L| |exact P]. destruct (is4in6 ip) eqn:M; [|reflexivity]. exfalso. apply N. cbn [v4]. exists (skipn 12 ip). apply is4in6_eq in M. rewrite M at 1. now rewrite <- app_assoc.
  - intros ->. now apply socket_none.
Qed.
Print Assumptions C100_sockets.
(** Registry.MarkAsHostile reads the text of a socket, which has a port, as an address: it fails for every socket, without touching
    the registry (registry.go:181-189). Nothing in /repo calls it. *)
Theorem C100_hostile_never : forall ip zone port, hostile_key ip zone port = None.
Proof. exact hostile_none. Qed.
Print Assumptions C100_hostile_never.
(** White space is removed at both ends, as much as there is; twice is once. *)
Theorem C100_trim : forall s, (exists l r, Forall space l /\ Forall space r /\ s = concat l ++ trim_space s ++ concat r) /\
  (forall p t, space p -> trim_space s <> p ++ t /\ trim_space s <> t ++ p) /\ trim_space (trim_space s) = trim_space s.
Proof. intros s. destruct (trim_spec s) as (A & B). split; [exact A|]. split; [exact B|apply trim_twice]. Qed.
Print Assumptions C100_trim.
(** Numbers of 64 bits. *)
Theorem C100_numbers : (forall z, (- 2 ^ 63 <= z < 2 ^ 63)%Z -> atoi (format_int z) = Some z) /\ (forall s z, atoi s = Some z -> (- 2 ^ 63 <= z < 2 ^ 63)%Z).
Proof. split; [exact atoi_format|exact atoi_range]. Qed.
Print Assumptions C100_numbers.
(** So the library functions are as the properties of the API and of the parameters assume. *)
Theorem C100_library : forall dir clean, renders (go_env dir clean) /\ trims (go_env dir clean) /\ dates (go_env dir clean).
Proof.
  intros dir clean. split; [|split; [|intros t; reflexivity]].
  - intros s [a n] H. cbn [go_env ev_addrport ev_render] in *. apply parsed_port in H as (P & L). now apply parse_print_port.
  - intros w. apply trim_twice.
Qed.
Print Assumptions C100_library.
Example C100_example : parse_addr (text "10.0.0.1") = Some (ipv4 10 0 0 1) /\ parse_addr (text "10.0.0.01") = None /\ parse_addr (text "10.0.0.256") = None /\
  parse_addr (text "1:0:0:2:0:0:0:3") = parse_addr (text "1:0:0:2::3") /\ option_map print_addr (parse_addr (text "1:0:0:2:0:0:0:3")) = Some (text "1:0:0:2::3") /\
  option_map print_addr (parse_addr (text "::ffff:1.2.3.4%eth0")) = Some (text "::ffff:1.2.3.4%eth0") /\ option_map print_addr (parse_addr (text "2001:DB8::1.2.3.4")) = Some (text "2001:db8::102:304") /\
  option_map print_addr (parse_addr (text "::")) = Some (text "::") /\ parse_addr (text "1::2::3") = None /\ parse_addr (text "1:2:3:4:5:6:7:8:9") = None /\
  parse_addrport (text "[::1]:6868") = Some (A6 (repeat x00 15 ++ [x01]) [], 6868) /\ parse_addrport (text "::1:6868") = None /\ parse_addrport (text "1.2.3.4:65536") = None /\
  parse_addrport (text "1.2.3.4:0080") = Some (ipv4 1 2 3 4, 80) /\ tcp_string (repeat x00 10 ++ map byte_of [255; 255; 1; 2; 3; 4]) [] 80 = text "1.2.3.4:80" /\
  trim_space (text " 1.2.3.4	 ") = text "1.2.3.4" /\ map atoi [text "-5"; text "+7"; text "1_0"; []] = [Some (-5)%Z; Some 7%Z; None; None].
Proof. vm_compute. repeat split. Qed.

(** * C57: exactly when the start-up is accepted, reports an error, crashes *)

(** Everything about the options that is checked, apart from the IPv4 form of the two addresses. *)
Definition admissible (ev : env) (o : options) : Prop :=
  op_db o <> [] /\ ev_dir ev (op_db o) = true /\ (exists n, op_network o = Some n /\ supported n) /\
  (forall w, ApiSpec.item (op_peers o) w -> ev_trim ev w <> [] -> exists ap, ev_addrport ev (ev_trim ev w) = Some ap) /\
  (forall w, ApiSpec.item (op_versions o) w -> exists v, ev_version ev w = Some v) /\
  bindable ev (op_api o) /\ bindable ev (op_net o) /\ (1 <= length (op_name o) <= 255)%nat.
Lemma seeds_exact : forall ev s n, trims ev -> supported n ->
  (forall w, ApiSpec.item s w -> ev_trim ev w <> [] -> exists ap, ev_addrport ev (ev_trim ev w) = Some ap) -> exists r, parse_seed_peers ev s n = Ok r.
Proof.
  intros ev s n T SU A. unfold parse_seed_peers. destruct (proj1 (builtin_supported n) SU) as (b & -> & _). cbn [bind].
  assert (F : exists aps, Forall2 (fun w ap => ev_addrport ev (ev_trim ev w) = Some ap) (filter (fun w => negb (blank ev w)) (split_comma s)) aps).
  { assert (A' : forall w, In w (split_comma s) -> ev_trim ev w <> [] -> exists ap, ev_addrport ev (ev_trim ev w) = Some ap) by (intros w I; apply A; now apply split_item).
    revert A'. generalize (split_comma s). induction l as [|w l IH]; intros A'; [exists []; constructor|]. destruct IH as (aps & F); [intros; apply A'; [now right|assumption]|].
    cbn [filter]. unfold blank at 1. destruct (ev_trim ev w) as [|c t] eqn:E; cbn [negb]; [eauto|].
    destruct (A' w (or_introl eq_refl)) as (ap & P); [rewrite E; discriminate|]. exists (ap :: aps). constructor; assumption. }
  destruct F as (aps & F). exists (b ++ aps). exact (proj1 (add_seeds_spec _ b T) _ F).
Qed.
Lemma seeds_only : forall ev s n r, trims ev -> parse_seed_peers ev s n = Ok r -> supported n /\
  forall w, ApiSpec.item s w -> ev_trim ev w <> [] -> exists ap, ev_addrport ev (ev_trim ev w) = Some ap.
Proof.
  intros ev s n r T H. unfold parse_seed_peers in H. destruct (builtin n) as [b| | |] eqn:B; try discriminate. cbn [bind] in H. split.
  { unfold supported. destruct n; auto; discriminate. }
  intros w I NE. apply split_item in I. clear B. revert b H I. generalize (split_comma s). induction l as [|x l IH]; intros b H I; [contradiction|]. cbn [add_seeds] in H.
  destruct (ev_trim ev x) as [|c t] eqn:E.
  - destruct I as [->|I]; [contradiction|]. exact (IH _ H I).
  - destruct (ev_addrport ev (ev_trim ev (c :: t))) as [ap|] eqn:P; [|discriminate]. destruct I as [->|I]; [|exact (IH _ H I)]. exists ap. rewrite <- E in P. rewrite T in P. exact P.
Qed.
Lemma versions_exact : forall ev s, (forall w, ApiSpec.item s w -> exists v, ev_version ev w = Some v) <-> exists r, parse_versions ev s = Ok r.
Proof.
  intros ev s. unfold parse_versions. split.
  - intros A. assert (A' : forall w, In w (split_comma s) -> exists v, ev_version ev w = Some v) by (intros w I; apply A; now apply split_item).
    revert A'. generalize (split_comma s). induction l as [|w l IH]; intros A'; cbn [mapM]; [eauto|]. destruct (A' w (or_introl eq_refl)) as (v & ->). cbn [bind].
    destruct IH as (r & ->); [intros; apply A'; now right|]. cbn [bind]. eauto.
  - intros (r & H) w I. apply split_item in I. revert r H I. generalize (split_comma s). induction l as [|x l IH]; intros r H I; [contradiction|]. cbn [mapM] in H.
    destruct (ev_version ev x) as [v|] eqn:E; [|discriminate]. cbn [bind] in H. destruct (mapM _ l) as [r'| | |] eqn:M; try discriminate. destruct I as [->|I]; [eauto|exact (IH _ eq_refl I)].
Qed.
Lemma start_up_cases : forall ev o, renders ev -> trims ev ->
  (admissible ev o -> (only_v4 ev (op_net o) /\ only_v4 ev (op_declared o) -> exists p, new_parameters ev o = Ok p) /\
     (~ only_v4 ev (op_net o) \/ ~ only_v4 ev (op_declared o) -> new_parameters ev o = Panic)) /\
  (admissible ev o \/ exists e, new_parameters ev o = Err e).
Proof.
  intros ev o RD T. split.
  - intros (D1 & D2 & (n & EN & SU) & SP & VS & BA & BN & NM). unfold new_parameters.
    destruct (check_folder ev (op_db o)) as [x| | |] eqn:CF; [|unfold check_folder in CF; destruct (op_db o); [now destruct D1|rewrite D2 in CF; discriminate]..].
    cbn [bind]. rewrite EN. cbn [bind]. destruct (seeds_exact T SU SP) as (r & ->). cbn [bind]. apply versions_exact in VS as (vs & ->). cbn [bind].
    destruct (proj1 (bind_cases (op_api o) RD) BA) as (aa & -> & _). cbn [bind]. destruct (proj1 (bind_cases (op_net o) RD) BN) as (na & -> & E). cbn [bind].
    destruct (check_name (op_name o)) as [nm| | |] eqn:CN.
    2-4: exfalso; unfold check_name in CN; destruct (op_name o) as [|c nm0]; [cbn in NM; lia|]; destruct (Nat.ltb_spec 255 (length (c :: nm0))); [lia|discriminate].
    cbn [bind]. assert (ON : only_v4 ev na <-> only_v4 ev (op_net o)) by (unfold only_v4; rewrite E; reflexivity). split.
    + intros (V1 & V2). apply ON in V1. destruct (proj1 (parse_address_cases ev na) V1) as [x1 ->]. cbn [bind]. destruct (proj1 (parse_address_cases ev (op_declared o)) V2) as [x2 ->]. cbn [bind]. eauto.
    + intros [V|V].
      * rewrite <- ON in V. now rewrite (proj2 (parse_address_cases ev na) V).
      * rewrite (proj2 (parse_address_cases ev (op_declared o)) V). unfold parse_address. destruct (ev_addrport ev na) as [[a port]|]; [|reflexivity]. unfold as4. destruct a as [| |b z]; try reflexivity. destruct (beqb _ _); reflexivity.
  - unfold new_parameters, admissible. destruct (check_folder ev (op_db o)) as [x|e| |] eqn:CF; [|right; exists e; reflexivity|unfold check_folder in CF; destruct (op_db o); [discriminate|]; destruct (ev_dir ev _); discriminate..].
    assert (FD : op_db o <> [] /\ ev_dir ev (op_db o) = true).
    { unfold check_folder in CF. destruct (op_db o); [discriminate|]. split; [discriminate|]. destruct (ev_dir ev _); [reflexivity|discriminate]. }
    cbn [bind]. destruct (op_network o) as [n|]; [|right; eexists; reflexivity]. cbn [bind]. destruct (parse_seed_peers ev (op_peers o) n) as [sp|e| |] eqn:SP; [|right; exists e; reflexivity|destruct (seeds_cases ev (op_peers o) n) as [(? & X)|(? & X)]; congruence..].
    apply seeds_only in SP as (SU & SP); [|exact T]. cbn [bind].
    destruct (parse_versions ev (op_versions o)) as [vs|e| |] eqn:VS; [|right; exists e; reflexivity|destruct (versions_cases ev (op_versions o)) as [(? & X)|(? & X)]; congruence..].
    assert (VX : exists r, parse_versions ev (op_versions o) = Ok r) by eauto. rewrite <- versions_exact in VX. cbn [bind].
    assert (BD : forall s, (exists y, check_bind ev s = Ok y /\ bindable ev s) \/ exists e, check_bind ev s = Err e).
    { intros s. unfold check_bind. destruct s as [|c s]; [right; eauto|]. destruct (ev_addrport ev (c :: s)) as [ap|] eqn:EP; [|right; eauto]. left. eexists. split; [reflexivity|]. split; [discriminate|eauto]. }
    destruct (BD (op_api o)) as [(aa & -> & BA)|(e & ->)]; [|right; exists e; reflexivity]. cbn [bind]. destruct (BD (op_net o)) as [(na & -> & BN)|(e & ->)]; [|right; exists e; reflexivity]. cbn [bind].
    destruct (check_name (op_name o)) as [nm|e| |] eqn:CN; [|right; exists e; reflexivity|unfold check_name in CN; destruct (op_name o); [discriminate|]; destruct (Nat.ltb _ _); discriminate..].
    left. destruct FD as (F1 & F2). split; [exact F1|]. split; [exact F2|]. split; [eauto|]. split; [exact SP|]. split; [exact VX|]. split; [exact BA|]. split; [exact BN|].
    unfold check_name in CN. destruct (op_name o) as [|c nm0]; [discriminate|]. destruct (Nat.ltb_spec 255 (length (c :: nm0))); [discriminate|]. cbn [length] in *. lia.
Qed.
(** With the functions of the Go library: the start-up crashes exactly for options that are right in everything but the form of one
    of the two addresses, is accepted exactly for options that are right in everything, and reports an error for all others. *)
Theorem C57_exactly : forall dir clean o, let ev := go_env dir clean in
  let v4s := only_v4 ev (op_net o) /\ only_v4 ev (op_declared o) in
  (new_parameters ev o = Panic <-> admissible ev o /\ ~ v4s) /\ ((exists p, new_parameters ev o = Ok p) <-> admissible ev o /\ v4s) /\
  ((exists e, new_parameters ev o = Err e) <-> ~ admissible ev o).
Proof.
  intros dir clean o ev v4s. destruct (C100_library dir clean) as (RD & T & _). fold ev in RD, T. destruct (start_up_cases o RD T) as (A & B).
  assert (DEC : forall s, only_v4 ev s \/ ~ only_v4 ev s).
  { intros s. unfold only_v4. destruct (ev_addrport ev s) as [[a n]|]; [|left; intros a n H; discriminate].
    assert (D : v4 a \/ ~ v4 a).
    { destruct a as [|b|b z]; cbn [v4]; [right; auto|left; exact I|]. destruct (is4in6 b) eqn:M; [left; apply is4in6_eq in M; exists (skipn 12 b); rewrite M at 1; now rewrite <- app_assoc|].
      right. intros (t & ->). vm_compute in M. discriminate. }
    destruct D as [D|D]; [left; intros a' n' H; now injection H as <- <-|right; intros H; apply D; now apply (H a n)]. }
  assert (DV : v4s \/ (~ only_v4 ev (op_net o) \/ ~ only_v4 ev (op_declared o))).
  { unfold v4s. destruct (DEC (op_net o)), (DEC (op_declared o)); tauto. }
  assert (NV : ~ only_v4 ev (op_net o) \/ ~ only_v4 ev (op_declared o) -> ~ v4s) by (unfold v4s; tauto).
  destruct B as [AD|(e & E)].
  - destruct (A AD) as (A1 & A2). destruct DV as [V|V].
    + destruct (A1 V) as (p & E). rewrite E. split; [split; [discriminate|tauto]|]. split; [split; [tauto|eauto]|]. split; [intros (? & X); discriminate|tauto].
    + specialize (A2 V). rewrite A2. apply NV in V. split; [split; [tauto|reflexivity]|]. split; [split; [intros (? & X); discriminate|tauto]|]. split; [intros (? & X); discriminate|tauto].
  - rewrite E. assert (NA : ~ admissible ev o).
    { intros AD. destruct (A AD) as (A1 & A2). destruct DV as [V|V]; [destruct (A1 V)|specialize (A2 V)]; congruence. }
    split; [split; [discriminate|tauto]|]. split; [split; [intros (? & X); discriminate|tauto]|]. split; [auto|eauto].
Qed.
Print Assumptions C57_exactly.
(** The options as they are written on the command line. *)
Definition gopts (net declared : string) : options :=
  {| op_db := text "/data"; op_network := Some MainNet; op_peers := text " 1.2.3.4:6868 , [2001:db8::1]:6863,"; op_api := text "127.0.0.1:8080"; op_net := text net; op_declared := text declared;
     op_name := text "fd"; op_versions := text "1.4.0,1.5" |}.
Definition genv : env := go_env (fun _ => true) (fun b => b).
Theorem C57_text_refuted : new_parameters genv (gopts "[::1]:6868" "") = Panic /\ new_parameters genv (gopts "0.0.0.0:6868" "[2001:db8::1]:6868") = Panic /\
  new_parameters genv (gopts "[::]:6868" "") = Panic /\
  (exists p, new_parameters genv (gopts "0.0.0.0:6868" "example.com:6868") = Ok p /\ pr_declared p = None).
Proof. split; [vm_compute; reflexivity|]. split; [vm_compute; reflexivity|]. split; [vm_compute; reflexivity|]. eexists. split; vm_compute; reflexivity. Qed.
Print Assumptions C57_text_refuted.
Example C57_exactly_example : exists p, new_parameters genv (gopts "0.0.0.0:6868" "1.2.3.4:6868") = Ok p /\ pr_declared p = Some (map byte_of [1; 2; 3; 4], 6868) /\
  map print_addrport (skipn 5 (pr_seeds p)) = [text "1.2.3.4:6868"; text "[2001:db8::1]:6863"] /\ map print_addrport (firstn 1 (pr_seeds p)) = [text "34.253.153.4:6868"].
Proof. eexists. split; [vm_compute; reflexivity|]. repeat split. Qed.

(** * C62: the built-in seeds are what the library makes of the literals of parameters.go:119-142 *)
Theorem C62_literals : forall n b, builtin n = Ok b -> map (@Some (addr * N)) b = map (fun s => parse_addrport (text s)) (match n with
  | MainNet => ["34.253.153.4:6868"; "168.119.116.189:6868"; "135.181.87.72:6868"; "162.55.39.115:6868"; "168.119.155.201:6868"]
  | TestNet => ["159.69.126.149:6868"; "94.130.105.239:6868"; "159.69.126.153:6868"; "94.130.172.201:6868"; "35.157.247.122:6868"]
  | StageNet => ["88.99.185.128:6868"; "49.12.15.166:6868"; "95.216.205.3:6868"; "88.198.179.16:6868"; "52.58.254.101:6868"]
  | _ => []
  end)%string.
Proof. intros [] b E; try discriminate E; injection E as <-; vm_compute; reflexivity. Qed.
Print Assumptions C62_literals.

(** * C58, C56: the addresses in their text *)

Lemma text_chars : forall a, wf_addr a -> Forall (fun b => 46 <= Byte.to_N b <= 102) (print_addr a) /\ print_addr a <> [].
Proof.
  assert (P4 : forall b, Forall (fun c => 46 <= Byte.to_N c <= 102) (print4 b)).
  { intros b. eapply Forall_impl; [|apply print4_chars]. cbv beta. intros c [H| ->]; [unfold digit in H; lia|]. vm_compute. split; discriminate. }
  assert (HX : forall x, x < 65536 -> Forall (fun c => 46 <= Byte.to_N c <= 102) (print_hex x)).
  { intros x L. eapply Forall_impl; [|exact (proj1 (print_hexes L))]. cbv beta. intros c H. unfold hex_digit in H. cbv zeta in H. destruct ((48 <=? Byte.to_N c) && (Byte.to_N c <=? 57)) eqn:E1; [lia|]. destruct ((97 <=? Byte.to_N c) && (Byte.to_N c <=? 102)) eqn:E2; [lia|].
    destruct ((65 <=? Byte.to_N c) && (Byte.to_N c <=? 70)) eqn:E3; [lia|contradiction]. }
  assert (CC : 46 <= Byte.to_N colon <= 102) by (vm_compute; split; discriminate).
  assert (JN : forall gs, small16 gs -> Forall (fun c => 46 <= Byte.to_N c <= 102) (join gs)).
  { induction gs as [|g gs IH]; intros S; [constructor|]. inversion S; subst. destruct gs; [now apply HX|]. apply Forall_app. split; [now apply HX|]. constructor; [exact CC|now apply IH]. }
  intros a W. split.
  - destruct a as [|b|b z]; [contradiction|apply P4|]. destruct W as (L & ->). unfold print_addr. destruct (is4in6 b) eqn:M.
    + cbn [print_zone]. rewrite app_nil_r. apply Forall_app. split; [|apply P4]. repeat (constructor; [vm_compute; split; discriminate|]). constructor.
    + pose proof (pairs_length L) as PL. pose proof (pairs_small b) as PS. set (gs := pairs b) in *. clearbody gs. pose proof (@best_run gs [] (255, 255)%nat) as R. cbn [app length] in R. specialize (R (or_introl eq_refl)).
      destruct (best gs 0 (255, 255)%nat) as [zs ze]. cbn [print_zone]. rewrite app_nil_r. destruct R as [E|(R & _)].
      * injection E as -> ->. rewrite append_none by exact PL. now apply JN.
      * cbn [fst snd] in R. rewrite PL in R. rewrite append_run by (assumption || lia). destruct (@small_parts gs zs PS) as (SA & _), (@small_parts gs ze PS) as (_ & SB). apply Forall_app. split; [now apply JN|].
        constructor; [exact CC|]. constructor; [exact CC|now apply JN].
  - intros E. assert (P : parse_addr (print_addr a) = Some a).
    { apply parse_print. destruct a as [|b|b z]; [contradiction|split; [exact W|discriminate]|]. destruct W as (L & _). split; [exact L|discriminate]. }
    rewrite E in P. discriminate.
Qed.
Lemma trim_plain : forall s, Forall (fun b => 46 <= Byte.to_N b <= 102) s -> trim_space s = s.
Proof.
  intros s F. destruct (trim_spec s) as ((l & r & FL & FR & E) & _). set (t := trim_space s) in *. clearbody t.
  assert (K : forall q, space q -> ~ Forall (fun b => 46 <= Byte.to_N b <= 102) q).
  { intros q I Q. unfold space in I. cbn in I. repeat (destruct I as [<-|I]; [inversion Q as [|? ? X _]; subst; vm_compute in X; destruct X as (X1 & X2); (now apply X1) || (now apply X2)|]). destruct I. }
  assert (Z : forall l, Forall space l -> Forall (fun b => 46 <= Byte.to_N b <= 102) (concat l) -> l = []).
  { intros l0 Fl Fc. destruct l0 as [|q l0]; [reflexivity|]. exfalso. inversion Fl; subst. cbn [concat] in Fc. apply Forall_app in Fc as (Fq & _). now apply (K q). }
  rewrite E in F. apply Forall_app in F as (F1 & F). apply Forall_app in F as (F2 & F3). apply (Z _ FL) in F1. apply (Z _ FR) in F3. subst l r. cbn [concat app] in E. now rewrite app_nil_r in E.
Qed.
(** The addresses written in their text and separated by commas are selected, and no others. *)
Theorem C58_text : forall dir clean addrs, Forall wf_addr addrs -> let q := with_commas (map print_addr addrs) in
  well_formed (go_env dir clean) q /\ forall a, asks (go_env dir clean) q a <-> In a addrs.
Proof.
  intros dir clean addrs W q. assert (TX : forall a, In a addrs -> trim_space (print_addr a) = print_addr a /\ print_addr a <> [] /\ parse_addr (print_addr a) = Some a /\ ~ In comma (print_addr a)).
  { intros a I. rewrite Forall_forall in W. specialize (W a I). destruct (text_chars W) as (F & NE). split; [now apply trim_plain|]. split; [exact NE|]. split.
    - apply parse_print. destruct a as [|b|b z]; [contradiction|split; [exact W|discriminate]|]. destruct W as (L & _). split; [exact L|discriminate].
    - intros C. rewrite Forall_forall in F. specialize (F _ C). vm_compute in F. destruct F as (F & _). now apply F. }
  assert (IT : forall w, ApiSpec.item q w <-> match addrs with [] => w = [] | _ => In w (map print_addr addrs) end).
  { intros w. destruct addrs as [|a0 addrs]; [apply item_single; auto|]. apply item_In. split; [discriminate|]. split; [reflexivity|]. apply Forall_map, Forall_forall. intros a I. now apply TX. }
  split.
  - intros w I NE. cbn [go_env ev_trim ev_addr] in *. apply IT in I. destruct addrs as [|a0 addrs]; [subst w; now destruct NE|]. apply in_map_iff in I as (a & <- & I). exists a. destruct (TX a I) as (-> & _ & P & _). exact P.
  - intros a. unfold asks. cbn [go_env ev_trim ev_addr]. split.
    + intros (w & I & NE & P). apply IT in I. destruct addrs as [|a0 addrs]; [subst w; now destruct NE|]. apply in_map_iff in I as (a' & <- & I). destruct (TX a' I) as (E & _ & P' & _). rewrite E in P. congruence.
    + intros I. destruct (TX a I) as (E & NE & P & _). exists (print_addr a). split; [|rewrite E; split; assumption]. apply IT. destruct addrs; [contradiction|]. now apply in_map.
Qed.
Print Assumptions C58_text.
Example C58_text_example : let addrs := [ipv4 1 2 3 4; A6 (repeat x00 15 ++ [x01]) []] in Forall wf_addr addrs /\ with_commas (map print_addr addrs) = text "1.2.3.4,::1" /\
  get_peers genv (text " 1.2.3.4 ,, ::1") = Some addrs.
Proof. split; [repeat constructor|]. split; vm_compute; reflexivity. Qed.
(** Every peer with a leash can be asked for by the text of its address: the answer is neither 400 nor 404. *)
Theorem C56_text : forall g ops l dir clean o a i, reachable g ops l -> leashed l a i ->
  api_fork (go_env dir clean) o l (print_addr a) <> Code 400 /\ api_fork (go_env dir clean) o l (print_addr a) <> Code 404.
Proof.
  intros g ops l dir clean o a i R (W & _ & H & _). assert (P : parse_addr (print_addr a) = Some a).
  { apply parse_print. destruct a as [|b|b z]; [contradiction|split; [exact W|discriminate]|]. destruct W as (L & _). split; [exact L|discriminate]. }
  destruct (@C56_fork_codes g ops l (go_env dir clean) o (print_addr a) R) as (A & B). split.
  - intros E. apply A in E. cbn in E. congruence.
  - intros E. apply (B a P W) in E. congruence.
Qed.
Print Assumptions C56_text.
Example C56_text_example : reachable xg xops xl /\ exists a i, leashed xl a i /\ exists f, api_fork genv xord xl (print_addr a) = Reply f.
Proof. split; [apply xl_reachable|]. exists (xpeer 3). exists (xid 4). split; [|eexists; vm_compute; reflexivity]. split; [reflexivity|]. split; [discriminate|]. split; vm_compute; reflexivity. Qed.
