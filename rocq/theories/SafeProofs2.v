(** Facts for C54 on connections. *)
From Verif Require Import Base Types Clamp Entry EntryProofs Hash Map MapProofs MapInv Shard
  Spec Trace ShardProofs ScanProofs LoopProofs Cache Refine Reach Observe PropCache PropItems CursorProofs PropCursor PropScan
  Text IntText IntTextProofs Glob GlobProofs CmdTable CmdTableProofs PropText Prog CmdSpec CmdSpec2 CmdSpec3 Cmds
  CmdsProofs CmdsProofs2 CmdsProofs3 PropCmds PropCmds2 CmdsProofs4 PropCmds3 CmdsProofs5 PropCmds4 SafeSpec SafeProofs PropSafe
  Resp Memcache Http Reply Postgres Conn ConnSpec ConnProofs ConnProofs2 ConnProofs3 ConnProofs4 ConnProofs6 PgProofs3 ConnProofs7
  FitProofs FitProofs2 SafeSpec2.
From Coq Require Import String Lia.
Local Open Scope N_scope.
Notation length := List.length.
Notation concat := List.concat.

Lemma small_sized : forall o ch steps, reachable (ctx_of o) ch -> cursor_fits (ctx_of o) ch ->
  (length (allents (maps ch)) <= 253)%nat ->
  (N.of_nat (length (allents (maps ch))) + 1) * (N.of_nat (length (allents (maps ch))) + 1) <= N.of_nat steps -> SafeSpec.sized o steps ch.
Proof.
  intros o ch steps R Cf L St. pose proof (reach_cinv o ch R) as I.
  assert (K : forall k, kept o ch k <-> In k (List.map (ekey (ctx_of o)) (allents (maps ch)))).
  { intro k. split.
    - intros (t & v & S). destruct (entry_live o ch k t R) as (e & A & B & _); [exists v; exact S|]. apply in_map_iff. exists e. auto.
    - intro H. apply in_map_iff in H. destruct H as (e & <- & He). apply kept_entry; assumption. }
  assert (Nd : NoDup (List.map (ekey (ctx_of o)) (allents (maps ch)))) by (apply allents_nodup; [exact (opts_load o)|exact I]).
  constructor.
  - intro key. apply (roomy_small _ (opts_load o)). intros ks Nk H.
    assert (length ks <= length (List.map (ekey (ctx_of o)) (allents (maps ch))))%nat; [|rewrite map_length in *; lia].
    apply NoDup_incl_length; [exact Nk|]. intros k Hk. apply K. apply (PropScan.holds_iff _ (opts_load o)); [exact I|]. apply (H k Hk).
  - exact Cf.
  - exists (N.of_nat (length (allents (maps ch)))). split; [|exact St].
    exists (List.map (ekey (ctx_of o)) (allents (maps ch))). split; [exact Nd|]. split; [intro k; symmetry; apply K|rewrite map_length; reflexivity].
Qed.

Section W.
Variable o : opts.
Let c := ctx_of o.
Variable cf : config.
Variable orc : nat -> nat -> input.
Hypothesis Ns : cf_nshards cf = shards_of o.
Hypothesis Fi : forall j, fine (orc j).
Hypothesis Ma : forall j, manned (orc j).
Hypothesis St : forall j, steady (orc j).
Variable L : nat.
Hypothesis HL : (10 <= L)%nat.
Hypothesis Big : N.of_nat L * 65536 < 2 ^ 61.
Definition decent (ch : cache) (args : list bytes) : Prop := SafeSpec.sized o (cf_fuel cf) ch /\ ~ bad_cursor o args.

Lemma outside_dec : forall name, outside name \/ ~ outside name.
Proof.
  intro name. unfold outside, word.
  assert (D : forall w : string, lower name = bs w \/ lower name <> bs w) by
    (intro w; destruct (is_word name w) eqn:E; [left; apply is_word_iff; exact E|right; intro X; apply is_word_iff in X; congruence]).
  destruct (D "monitor"%string); [tauto|]. destruct (D "debug"%string); [tauto|]. destruct (D "save"%string); [tauto|].
  destruct (D "load"%string); [tauto|]. destruct (D "stats"%string); [tauto|]. right. tauto.
Qed.
Lemma outside_runs : forall or n ch b pr args, outside (hd [] args) ->
  exists es, prun c or n ch (evcommand cf b pr args) = Ok (ch, es, []).
Proof.
  intros or n ch b pr args Out. unfold evcommand. destruct (cf_useauth cf && negb b && negb (is_http pr)).
  { unfold cmdAUTH. cbv zeta. replace (is_word (hd [] args) "auth") with false.
    - cbn [negb]. destruct (is_mc pr); unfold error, answer; rewrite prun_puts; cbn [prun]; eexists; reflexivity.
    - symmetry. apply not_true_iff_false. intro X. apply is_word_iff in X. unfold outside, word in Out. rewrite X in Out.
      destruct Out as [Y|[Y|[Y|[Y|Y]]]]; vm_compute in Y; discriminate Y. }
  destruct (C33_lookup (hd [] args)) as (_ & Lk & _).
  assert (U : exists i, get_cmd (hd [] args) = Some (Some i) /\ cmd_func cf i = (fun _ _ => Unmodelled)).
  { unfold outside, word in Out. destruct Out as [X|[X|[X|[X|X]]]].
    - exists 16%nat. split; [apply Lk; rewrite X; reflexivity|reflexivity].
    - exists 23%nat. split; [apply Lk; rewrite X; reflexivity|reflexivity].
    - exists 35%nat. split; [apply Lk; rewrite X; reflexivity|reflexivity].
    - exists 36%nat. split; [apply Lk; rewrite X; reflexivity|reflexivity].
    - exists 37%nat. split; [apply Lk; rewrite X; reflexivity|reflexivity]. }
  destruct U as (i & -> & ->). eexists. reflexivity.
Qed.
Lemma fit_args : forall args, Forall (fit (L + W * L)) args -> args_fit args.
Proof.
  intros args F. eapply Forall_impl; [|exact F]. intros a [B Le]. split; [exact B|].
  assert (E : N.of_nat (L + W * L) = N.of_nat L * 65536).
  { unfold W. rewrite Nat2N.inj_add, Nat2N.inj_mul, N2Nat.id. lia. }
  lia.
Qed.
Lemma command_ends : forall i ch b pr args, reachable c ch -> decent ch args -> Forall (fit (L + W * L)) args ->
  exists ch' es evs, prun c (orc i) 0 ch (evcommand cf b pr args) = Ok (ch', es, evs) /\ reachable c ch'.
Proof.
  intros i ch b pr args R [Sz Nb] F. destruct (outside_dec (hd [] args)) as [O|O].
  - destruct (outside_runs (orc i) 0 ch b pr args O) as [es E]. exists ch, es, []. split; assumption.
  - destruct (C54_command o cf b pr args (orc i) 0 ch R Sz Ns (Fi i) (Ma i) (fun _ => St i) (fit_args _ F) O Nb) as (ch' & es & evs & E & R' & _).
    exists ch', es, evs. split; assumption.
Qed.

Lemma loop_safe : forall fuel ps i data k ch, sound (k_pg k) -> fitting L (k_pg k) -> fit L data -> (length data < fuel)%nat -> reachable c ch ->
  (forall ch' args, meets c cf orc ps i data k ch ch' args -> decent ch' args) ->
  match conn_loop c cf orc fuel i data k ch with
  | Bad t => exists a b, data = a ++ b /\ troubled b
  | Ok (k', ch', i', _, _) => sound (k_pg k') /\ fitting L (k_pg k') /\ reachable c ch' /\ (exists a, data = a ++ k_packet k') /\
      (k_closed k' = false -> forall p ps', ps = p :: ps' -> forall ch2 args,
         meets c cf orc ps' i' (k_packet k' ++ p) (with_packet [] k') ch' ch2 args -> decent ch2 args)
  end.
Proof.
  intro fuel. induction fuel as [|f IH]; intros ps i data k ch Sd Fg Fd Lf R H; [lia|]. cbn [conn_loop].
  destruct data as [|b0 d0] eqn:Ed.
  { split; [exact Sd|]. split; [exact Fg|]. split; [exact R|]. split; [exists []; reflexivity|].
    intros _ p ps' -> ch2 args M. apply H. apply meets_after_all. exact M. }
  rewrite <- Ed in *. assert (Ne : data <> []) by (rewrite Ed; discriminate). clear Ed b0 d0.
  pose proof (turn_sound cf data k Sd (proj1 Fd)) as T. pose proof (turn_fit L cf data k) as TF.
  destruct (conn_turn cf data k) as [[k1|k1 ws|n k1 ws cmd]|t] eqn:Et.
  - destruct (TF _ HL Fd Fg eq_refl) as [F1 _]. split; [exact T|]. split; [exact F1|]. split; [exact R|]. split; [exists []; reflexivity|].
    intros _ p ps' -> ch2 args M. apply H. eapply meets_after_wait; [exact Ne|exact Et|exact M].
  - destruct (TF _ HL Fd Fg eq_refl) as [F1 _]. split; [exact T|]. split; [exact F1|]. split; [exact R|].
    split; [exists data; cbn [conn_shut k_packet]; rewrite app_nil_r; reflexivity|]. discriminate.
  - destruct (TF _ HL Fd Fg eq_refl) as [F1 A1]. cbn [turn_conn] in T, F1. pose proof (turn_within cf data k n k1 ws cmd Ne Et) as Wn.
    set (go := fun (i : nat) (d : option (list bytes * list eff)) (k2 : conn) (ch2 : cache) (ev2 : list event) =>
      let k3 := match k_proto k2 with Some HTTP => conn_shut k2 | _ => k2 end in
      let this := mkDid (firstn n data) (proto_of k1) (pgout_of (k_pg k1)) (ws, d) in
      if k_closed k3 then Ok (conn_shut k3, ch2, i, [this], ev2)
      else match conn_loop c cf orc f i (skipn n data) k3 ch2 with
      | Bad t => Bad t
      | Ok (k4, ch4, i4, ds, evs) => Ok (k4, ch4, i4, this :: ds, ev2 ++ evs)
      end).
    assert (G : forall j d k2 ch2 ev2, sound (k_pg k2) -> fitting L (k_pg k2) -> reachable c ch2 ->
      (k_closed k2 = false -> k_proto k2 <> Some HTTP -> forall ch' args, meets c cf orc ps j (skipn n data) k2 ch2 ch' args -> decent ch' args) ->
      match go j d k2 ch2 ev2 with
      | Bad t => exists a b, data = a ++ b /\ troubled b
      | Ok (k', ch', i', _, _) => sound (k_pg k') /\ fitting L (k_pg k') /\ reachable c ch' /\ (exists a, data = a ++ k_packet k') /\
          (k_closed k' = false -> forall p ps', ps = p :: ps' -> forall ch2 args,
             meets c cf orc ps' i' (k_packet k' ++ p) (with_packet [] k') ch' ch2 args -> decent ch2 args)
      end).
    { intros j d k2 ch2 ev2 S2 F2 R2 H2. unfold go. cbv zeta.
      set (k3 := match k_proto k2 with Some HTTP => conn_shut k2 | _ => k2 end).
      assert (S3 : sound (k_pg k3)) by (unfold k3; destruct (k_proto k2) as [[]|]; exact S2).
      assert (F3 : fitting L (k_pg k3)) by (unfold k3; destruct (k_proto k2) as [[]|]; exact F2).
      destruct (k_closed k3) eqn:Cl.
      { split; [exact S3|]. split; [exact F3|]. split; [exact R2|].
        split; [exists data; cbn [conn_shut k_packet]; rewrite app_nil_r; reflexivity|]. discriminate. }
      assert (E3 : k3 = k2 /\ k_proto k2 <> Some HTTP).
      { unfold k3 in *. destruct (k_proto k2) as [[]|]; split; try reflexivity; try discriminate; cbn in Cl; discriminate. }
      destruct E3 as [E3 Np]. rewrite E3 in *.
      assert (L2 : (length (skipn n data) < f)%nat) by (rewrite skipn_length; lia).
      specialize (IH ps j (skipn n data) k2 ch2 S2 F2 (fit_skipn _ n _ Fd) L2 R2 (H2 Cl Np)).
      destruct (conn_loop c cf orc f j (skipn n data) k2 ch2) as [[[[[k4 ch4] i4] ds] evs]|t].
      - destruct IH as (I1 & I2 & I3 & (a & I4) & I5). split; [exact I1|]. split; [exact I2|]. split; [exact I3|]. split; [|exact I5].
        exists (firstn n data ++ a). rewrite <- app_assoc, <- I4. symmetry. apply firstn_skipn.
      - destruct IH as (a & b & E & Tr). exists (firstn n data ++ a), b. split; [|exact Tr]. rewrite <- app_assoc, <- E. symmetry. apply firstn_skipn. }
    destruct cmd as [args|].
    + destruct (command_ends i ch (k_auth k1) (proto_of k1) args R) as (ch2 & es & ev2 & P & R2).
      { apply H. eapply meets_now; [exact Ne|exact Et]. }
      { eapply A1. reflexivity. }
      rewrite P. apply (G (S i) (Some (args, es)) (after es k1) ch2 ev2); [rewrite after_pg; exact T|rewrite after_pg; exact F1|exact R2|].
      intros C2 P2 ch' args' M. apply H. eapply meets_after_command; [exact Ne|exact Et|exact P|exact C2| |exact M].
      intro X. apply P2. unfold after. destruct (existsb _ es); destruct (existsb _ es); exact X.
    + apply (G i None k1 ch [] T F1 R). intros C2 P2 ch' args' M. apply H. eapply meets_after_turn; [exact Ne|exact Et|exact C2|exact P2|exact M].
  - exists [], data. split; [reflexivity|]. exact (turn_troubled cf data k t Sd (proj1 Fd) Et).
Qed.
Lemma stream_safe : forall packets i k ch, sound (k_pg k) -> fitting L (k_pg k) -> Forall bytes_ok packets -> bytes_ok (k_packet k) ->
  (length (k_packet k ++ concat packets) <= L)%nat -> reachable c ch ->
  (k_closed k = false -> forall p ps', packets = p :: ps' -> forall ch2 args,
     meets c cf orc ps' i (k_packet k ++ p) (with_packet [] k) ch ch2 args -> decent ch2 args) ->
  match evpackets c cf orc i packets k ch with
  | Bad t => exists a b d, k_packet k ++ concat packets = a ++ b ++ d /\ troubled b
  | Ok (_, ch', _, _, _) => reachable c ch'
  end.
Proof.
  intro packets. induction packets as [|x packets IH]; intros i k ch Sd Fg F B Le R H; [exact R|].
  inversion F as [|? ? Bx F']. subst. rewrite evpackets_then. destruct (k_closed k) eqn:Cl.
  { unfold evdata. rewrite Cl. cbn [then_]. rewrite closed_packets by exact Cl. exact R. }
  assert (E0 : evdata c cf orc i x k ch = conn_loop c cf orc (S (length (k_packet k ++ x))) i (k_packet k ++ x) (with_packet [] k) ch) by (unfold evdata; rewrite Cl; reflexivity).
  assert (B0 : bytes_ok (k_packet k ++ x)) by (apply Forall_app; split; assumption).
  cbn [List.concat] in Le. rewrite !app_length in Le.
  assert (Fd : fit L (k_packet k ++ x)) by (split; [exact B0|rewrite app_length; lia]).
  pose proof (loop_safe (S (length (k_packet k ++ x))) packets i (k_packet k ++ x) (with_packet [] k) ch Sd Fg Fd (Nat.lt_succ_diag_r _) R
    (H eq_refl x packets eq_refl)) as G.
  rewrite <- E0 in G. destruct (evdata c cf orc i x k ch) as [[[[[k1 ch1] i1] ds1] ev1]|t1] eqn:E1.
  - cbn [then_]. destruct G as (S1 & F1 & R1 & (a & Ea) & H1).
    assert (B1 : bytes_ok (k_packet k1)) by (rewrite Ea in B0; apply Forall_app in B0; apply B0).
    assert (L1 : (length (k_packet k1 ++ concat packets) <= L)%nat).
    { rewrite app_length. assert (length (k_packet k ++ x) = length (a ++ k_packet k1)) as X by (rewrite Ea; reflexivity). rewrite !app_length in X. lia. }
    specialize (IH i1 k1 ch1 S1 F1 F' B1 L1 R1 H1).
    destruct (evpackets c cf orc i1 packets k1 ch1) as [[[[[k2 ch2] i2] ds2] ev2]|t].
    + exact IH.
    + destruct IH as (a2 & b & d & E2 & Tr). exists (a ++ a2), b, d. split; [|exact Tr].
      cbn [List.concat]. rewrite app_assoc, Ea, <- app_assoc, E2, app_assoc. reflexivity.
  - cbn [then_]. destruct G as (a & b & E2 & Tr). exists a, b, (concat packets). split; [|exact Tr].
    cbn [List.concat]. rewrite app_assoc, E2, <- app_assoc. reflexivity.
Qed.
End W.
