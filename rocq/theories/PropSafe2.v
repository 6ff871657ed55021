(** C54 for connections, stated with the vocabulary of SafeSpec.v and SafeSpec2.v. *)
From Verif Require Import Base Types Clamp Entry EntryProofs Hash Map MapProofs MapInv Shard
  Spec Trace ShardProofs ScanProofs LoopProofs Cache Refine Reach Observe PropCache PropItems CursorProofs PropCursor PropScan
  Text IntText IntTextProofs Glob GlobProofs CmdTable CmdTableProofs PropText Prog CmdSpec CmdSpec2 CmdSpec3 Cmds
  CmdsProofs CmdsProofs2 CmdsProofs3 PropCmds PropCmds2 CmdsProofs4 PropCmds3 CmdsProofs5 PropCmds4 SafeSpec SafeProofs PropSafe
  Resp Memcache Http Reply Postgres Conn ConnSpec ConnProofs ConnProofs2 ConnProofs3 ConnProofs4 ConnProofs6 PgProofs3 ConnProofs7
  FitProofs FitProofs2 SafeSpec2 SafeProofs2.
From Coq Require Import String Lia.
Local Open Scope N_scope.
Notation length := List.length.
Notation concat := List.concat.

(** Whatever bytes a client sends, in whatever packets, up to 2^44 of them: the server
    reads them, runs the commands in them and can go on, unless the bytes contain one of the
    texts of C50_trouble. Needed: each time a command runs, the cache is within its limits,
    and the command is not the SCAN of C53_cursor_refuted. *)
Theorem C54_connection : forall o cf orc tls packets ch,
  reachable (ctx_of o) ch -> cf_nshards cf = shards_of o ->
  (forall j, fine (orc j) /\ manned (orc j) /\ steady (orc j)) ->
  Forall bytes_ok packets -> N.of_nat (length (concat packets)) < 2 ^ 44 ->
  (forall ch' args, meets (ctx_of o) cf orc packets 0 [] (conn_new tls) ch ch' args ->
     SafeSpec.sized o (cf_fuel cf) ch' /\ ~ bad_cursor o args) ->
  match evpackets (ctx_of o) cf orc 0 packets (conn_new tls) ch with
  | Ok (_, ch', _, _, _) => reachable (ctx_of o) ch'
  | Bad _ => exists a b d, concat packets = a ++ b ++ d /\ troubled b
  end.
Proof.
  intros o cf orc tls packets ch R Ns H B Le M.
  set (L := (length (concat packets) + 10)%nat).
  assert (HL : (10 <= L)%nat) by (unfold L; lia).
  assert (Big : N.of_nat L * 65536 < 2 ^ 61).
  { unfold L. rewrite Nat2N.inj_add. change (2 ^ 44) with 17592186044416 in Le. change (2 ^ 61) with 2305843009213693952. change (N.of_nat 10) with 10. lia. }
  assert (X := stream_safe o cf orc Ns (fun j => proj1 (H j)) (fun j => proj1 (proj2 (H j))) (fun j => proj2 (proj2 (H j))) L HL Big
    packets 0%nat (conn_new tls) ch (sound_new tls) (fitting_new L tls) B (Forall_nil _)).
  cbn [conn_new k_packet app] in X. specialize (X ltac:(unfold L; lia) R). apply X.
  intros _ p ps' E ch2 args Me. apply M. rewrite E. apply meets_after_all. exact Me.
Qed.

(** *** Cases *)
(** All commands that a connection meets. *)
Fixpoint met (c : ctx) (cf : config) (orc : nat -> nat -> input) (fuel : nat) (ps : list bytes) (i : nat) (data : bytes) (k : conn) (ch : cache)
  : option (list (cache * list bytes)) :=
  match fuel with
  | O => None
  | S f =>
      match data with
      | [] => match ps with [] => Some [] | p :: ps' => met c cf orc f ps' i p (with_packet [] k) ch end
      | _ :: _ =>
          match conn_turn cf data k with
          | Ok (Turn n k1 ws None) => met c cf orc f ps i (skipn n data) k1 ch
          | Ok (Turn n k1 ws (Some args)) =>
              match prun c (orc i) 0 ch (evcommand cf (k_auth k1) (proto_of k1) args) with
              | Ok (ch1, es, _) => option_map (cons (ch, args)) (met c cf orc f ps (S i) (skipn n data) (after es k1) ch1)
              | Bad _ => Some [(ch, args)]
              end
          | Ok (Wait k1) => match ps with [] => Some [] | p :: ps' => met c cf orc f ps' i (data ++ p) (with_packet [] k1) ch end
          | _ => Some []
          end
      end
  end.
Lemma met_all : forall c cf orc fuel ps i data k ch l ch' args, met c cf orc fuel ps i data k ch = Some l ->
  meets c cf orc ps i data k ch ch' args -> In (ch', args) l.
Proof.
  intros c cf orc fuel. induction fuel as [|f IH]; intros ps i data k ch l ch' args E M; [discriminate|]. cbn [met] in E.
  destruct M as [ps i data k ch n k1 ws args Ne T|ps i data k ch n k1 ws ch' args' Ne T Cl Np M|ps i data k ch n k1 ws args ch1 es evs ch' args' Ne T P Cl Np M
    |p ps i data k ch k1 ch' args' Ne T M|p ps i k ch ch' args' M].
  5: exact (IH _ _ _ _ _ _ _ _ E M).
  all: destruct data as [|b d] eqn:Ed; [contradiction|]; rewrite <- Ed in *; rewrite T in E.
  - destruct (prun _ _ _ _ _) as [[[ch1 es] evs]|]; [|injection E as <-; left; reflexivity].
    destruct (met _ _ _ _ _ _ _ _ _); [|discriminate]. injection E as <-. left. reflexivity.
  - exact (IH _ _ _ _ _ _ _ _ E M).
  - rewrite P in E. destruct (met c cf orc f ps (S i) (skipn n data) (after es k1) ch1) as [l'|] eqn:E'; [|discriminate]. injection E as <-. right. exact (IH _ _ _ _ _ _ _ _ E' M).
  - exact (IH _ _ _ _ _ _ _ _ E M).
Qed.
Definition case_cf : config := mkConfig false [] 2 (bs "1") 40.
Definition case_args : list bytes := [bs "SET"; bs "k9"; bs "v"].
Definition case_ch : cache :=
  match prun demo_c demo_orc 0 demo_ch (evcommand case_cf false RESP case_args) with Ok (ch, _, _) => ch | Bad _ => demo_ch end.
Lemma demo_sized : SafeSpec.sized demo_opts 40 demo_ch.
Proof. apply small_sized; [exact demo_reachable|apply cursor_fits_b|apply Nat.leb_le|apply N.leb_le]; vm_compute; reflexivity. Qed.
Lemma short_args : forall args, forallb (fun a => bytes_okb a && (length a <=? 100)%nat) args = true -> args_fit args.
Proof.
  intros args H. apply Forall_forall. intros a Ha. rewrite forallb_forall in H. specialize (H a Ha). apply andb_true_iff in H.
  destruct H as [A B]. split; [apply bytes_okb_ok; exact A|]. apply Nat.leb_le in B. apply N.le_lt_trans with 100; [lia|reflexivity].
Qed.
(** The hypotheses of C54_command, for the cache with three keys in two shards. *)
Lemma not_scan : forall o args, is_word (hd [] args) "scan" = false -> ~ bad_cursor o args.
Proof. intros o args H (a0 & cur & rest & x & -> & Wd & _). apply is_word_iff in Wd. cbn [hd] in H. congruence. Qed.
Example C54_case : reachable demo_c demo_ch /\ SafeSpec.sized demo_opts (cf_fuel case_cf) demo_ch /\ cf_nshards case_cf = shards_of demo_opts /\
  fine demo_orc /\ manned demo_orc /\ steady demo_orc /\ args_fit case_args /\ ~ outside (hd [] case_args) /\ ~ bad_cursor demo_opts case_args.
Proof.
  split; [exact demo_reachable|]. split; [exact demo_sized|]. split; [reflexivity|]. split; [exact demo_fine|]. split; [exact demo_manned|].
  split; [exact demo_steady|]. split; [apply short_args; reflexivity|]. split; [|apply not_scan; reflexivity].
  intros [X|[X|[X|[X|X]]]]; vm_compute in X; discriminate X.
Qed.
Lemma case_reachable : reachable demo_c case_ch.
Proof.
  destruct C54_case as (A1 & A2 & A3 & A4 & A5 & A6 & A7 & A8 & A9).
  destruct (C54_command demo_opts case_cf false RESP case_args demo_orc 0 demo_ch A1 A2 A3 A4 A5 (fun _ => A6) A7 A8 A9) as (ch' & es & evs & E & R & _).
  change (ctx_of demo_opts) with demo_c in E. unfold case_ch. rewrite E. exact R.
Qed.
Lemma case_sized : SafeSpec.sized demo_opts 40 case_ch.
Proof. apply small_sized; [exact case_reachable|apply cursor_fits_b|apply Nat.leb_le|apply N.leb_le]; vm_compute; reflexivity. Qed.
(** A SET and a SCAN, the SCAN cut into three packets. *)
Definition case_packets : list bytes := [bs "SET k9 v" ++ crlf ++ bs "sC"; bs "AN "; bs "0" ++ crlf].
Lemma case_met : met demo_c case_cf (fun _ => demo_orc) 9 case_packets 0 [] (conn_new false) demo_ch =
  Some [(demo_ch, case_args); (case_ch, [bs "sCAN"; bs "0"])].
Proof. vm_compute. reflexivity. Qed.
Lemma good_cursor : ~ bad_cursor demo_opts [bs "sCAN"; bs "0"].
Proof.
  intros (a0 & cur & rest & x & E & _ & T & Sh). injection E as _ <- _. apply nat_text_parse in T.
  vm_compute in T. injection T as <-. vm_compute in Sh. discriminate Sh.
Qed.
Lemma case_set : exists es evs, prun demo_c demo_orc 0 demo_ch (evcommand case_cf false RESP case_args) = Ok (case_ch, es, evs) /\ after es = fun k => k.
Proof. eexists. eexists. split; vm_compute; reflexivity. Qed.
Lemma two_cases : forall (P : cache -> list bytes -> Prop) c cf orc fuel ps i data k ch ch1 a1 ch2 a2,
  met c cf orc fuel ps i data k ch = Some [(ch1, a1); (ch2, a2)] -> P ch1 a1 -> P ch2 a2 ->
  forall ch' args, meets c cf orc ps i data k ch ch' args -> P ch' args.
Proof.
  intros P c cf orc fuel ps i data k ch ch1 a1 ch2 a2 E P1 P2 ch' args M. apply (met_all _ _ _ _ _ _ _ _ _ _ _ _ E) in M.
  destruct M as [M|[M|[]]]; injection M as <- <-; assumption.
Qed.
Lemma case_decent1 : SafeSpec.sized demo_opts (cf_fuel case_cf) demo_ch /\ ~ bad_cursor demo_opts case_args.
Proof. split; [exact demo_sized|apply not_scan; reflexivity]. Qed.
Lemma case_decent2 : SafeSpec.sized demo_opts (cf_fuel case_cf) case_ch /\ ~ bad_cursor demo_opts [bs "sCAN"; bs "0"].
Proof. split; [exact case_sized|exact good_cursor]. Qed.
Lemma case_decent : forall ch' args, meets demo_c case_cf (fun _ => demo_orc) case_packets 0 [] (conn_new false) demo_ch ch' args ->
  SafeSpec.sized demo_opts (cf_fuel case_cf) ch' /\ ~ bad_cursor demo_opts args.
Proof.
  exact (two_cases (fun ch args => SafeSpec.sized demo_opts (cf_fuel case_cf) ch /\ ~ bad_cursor demo_opts args)
    demo_c case_cf (fun _ => demo_orc) 9%nat case_packets 0%nat [] (conn_new false) demo_ch demo_ch case_args case_ch _ case_met case_decent1 case_decent2).
Qed.
Definition case_k : conn := with_proto RESP (conn_new false).
Lemma case_turn1 : conn_turn case_cf (bs "SET k9 v" ++ crlf ++ bs "sC") (with_packet [] (conn_new false)) = Ok (Turn 10 case_k [] (Some case_args)).
Proof. vm_compute. reflexivity. Qed.
Lemma case_turn2 : conn_turn case_cf (bs "sC") case_k = Ok (Wait case_k).
Proof. vm_compute. reflexivity. Qed.
Lemma case_turn3 : conn_turn case_cf (bs "sC" ++ bs "AN ") (with_packet [] case_k) = Ok (Wait case_k).
Proof. vm_compute. reflexivity. Qed.
Lemma case_turn4 : conn_turn case_cf ((bs "sC" ++ bs "AN ") ++ bs "0" ++ crlf) (with_packet [] case_k) = Ok (Turn 8 case_k [] (Some [bs "sCAN"; bs "0"])).
Proof. vm_compute. reflexivity. Qed.
Lemma case_meets : forall c cf orc ch ch1 es evs p1 p2 p3 k args1 args2 n1 n2,
  p1 <> [] -> skipn n1 p1 <> [] -> k_closed k = false -> k_proto k <> Some HTTP -> after es k = k ->
  conn_turn cf p1 (with_packet [] (conn_new false)) = Ok (Turn n1 k [] (Some args1)) ->
  prun c (orc 0%nat) 0 ch (evcommand cf (k_auth k) (proto_of k) args1) = Ok (ch1, es, evs) ->
  conn_turn cf (skipn n1 p1) k = Ok (Wait k) -> conn_turn cf (skipn n1 p1 ++ p2) (with_packet [] k) = Ok (Wait k) ->
  conn_turn cf ((skipn n1 p1 ++ p2) ++ p3) (with_packet [] k) = Ok (Turn n2 k [] (Some args2)) ->
  meets c cf orc [p1; p2; p3] 0 [] (conn_new false) ch ch1 args2.
Proof.
  intros c cf orc ch ch1 es evs p1 p2 p3 k args1 args2 n1 n2 N1 N2 Cl Np Af T1 P T2 T3 T4. apply meets_after_all.
  eapply meets_after_command; [exact N1|exact T1|exact P|rewrite Af; exact Cl|exact Np|]. rewrite Af.
  eapply meets_after_wait; [exact N2|exact T2|].
  eapply meets_after_wait; [|exact T3|]. { destruct (skipn n1 p1); [contradiction|discriminate]. }
  eapply meets_now; [|exact T4]. destruct (skipn n1 p1); [contradiction|discriminate].
Qed.
Lemma case_met2 : meets demo_c case_cf (fun _ => demo_orc) case_packets 0 [] (conn_new false) demo_ch case_ch [bs "sCAN"; bs "0"].
Proof.
  destruct case_set as (es & evs & E & A).
  refine (case_meets demo_c case_cf (fun _ => demo_orc) demo_ch case_ch es evs _ _ _ case_k case_args _ 10%nat 8%nat _ _ _ _ _ case_turn1 E case_turn2 case_turn3 case_turn4);
    [discriminate|discriminate|reflexivity|discriminate|rewrite A; reflexivity].
Qed.
Example C54_connection_case :
  (forall j : nat, fine demo_orc /\ manned demo_orc /\ steady demo_orc) /\
  Forall bytes_ok case_packets /\ N.of_nat (length (concat case_packets)) < 2 ^ 44 /\
  (forall ch' args, meets demo_c case_cf (fun _ => demo_orc) case_packets 0 [] (conn_new false) demo_ch ch' args ->
     SafeSpec.sized demo_opts (cf_fuel case_cf) ch' /\ ~ bad_cursor demo_opts args) /\
  meets demo_c case_cf (fun _ => demo_orc) case_packets 0 [] (conn_new false) demo_ch case_ch [bs "sCAN"; bs "0"].
Proof.
  split; [intros _; split; [exact demo_fine|split; [exact demo_manned|exact demo_steady]]|].
  split; [repeat (constructor; [apply bytes_okb_ok; reflexivity|]); constructor|]. split; [reflexivity|].
  split; [exact case_decent|exact case_met2].
Qed.

(** *** What the hypotheses exclude *)
(** A clock that jumps ahead between its two readings: the time that a memcache client
    asks for, a date, becomes a negative time, and an assertion fails. *)
Definition jump_orc : nat -> input := fun n => mkInput (plenty_env 110) 110 (if (n <? 2)%nat then 1700000000000000000 else 1900000000000000000) false 4 true.
Theorem C54_clock_refuted : exists args, reachable demo_c demo_ch /\ SafeSpec.sized demo_opts (cf_fuel case_cf) demo_ch /\ fine jump_orc /\ manned jump_orc /\
  args_fit args /\ ~ outside (hd [] args) /\ ~ bad_cursor demo_opts args /\
  prun demo_c jump_orc 0 demo_ch (evcommand case_cf false MEMCACHE args) = Bad AssertFail.
Proof.
  exists [bs "set"; bs "k"; bs "v"; bs "ex"; bs "1800000000"]. split; [exact demo_reachable|]. split; [exact demo_sized|].
  split. { intros n. split; [destruct n as [|[|n]]; split; cbn; unfold INT64_MAX; lia|intros s; split; reflexivity]. }
  split; [intro n; cbn; lia|]. split; [apply short_args; reflexivity|].
  split; [intros [X|[X|[X|[X|X]]]]; vm_compute in X; discriminate X|]. split; [apply not_scan; reflexivity|]. vm_compute. reflexivity.
Qed.
(** The cursor of SCAN whose upper half is the number of shards. *)
Theorem C54_cursor_refuted : exists args, reachable demo_c demo_ch /\ SafeSpec.sized demo_opts (cf_fuel case_cf) demo_ch /\ fine demo_orc /\ manned demo_orc /\
  steady demo_orc /\ args_fit args /\ ~ outside (hd [] args) /\
  exists t, prun demo_c demo_orc 0 demo_ch (evcommand case_cf false RESP args) = Bad t.
Proof.
  exists [bs "SCAN"; bs "8589934592"]. split; [exact demo_reachable|]. split; [exact demo_sized|].
  split; [exact demo_fine|]. split; [exact demo_manned|]. split; [exact demo_steady|]. split; [apply short_args; reflexivity|].
  split; [intros [X|[X|[X|[X|X]]]]; vm_compute in X; discriminate X|]. eexists. vm_compute. reflexivity.
Qed.
