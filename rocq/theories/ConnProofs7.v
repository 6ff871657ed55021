(** Proofs about connections: what a stream of packets that ends in trouble looks
    like. *)
From Verif Require Import Base Types Clamp Entry Hash Map Shard Cache Text IntText CmdTable CmdSpec CmdsProofs Prog Cmds Resp Memcache Postgres Conn ConnSpec ConnProofs ConnProofs2 ConnProofs3 ConnProofs4 ConnProofs6 PgProofs3.
From Coq Require Import String Lia.
Local Open Scope N_scope.
Notation length := List.length.
Notation concat := List.concat.
Notation map := List.map.

Lemma turn_troubled : forall cf data k t, sound (k_pg k) -> bytes_ok data -> conn_turn cf data k = Bad t -> troubled data.
Proof.
  intros cf data k t S B H. pose proof (turn_sound cf data k S B) as T. rewrite H in T. destruct T as [T|[T|T]].
  - left. exact (proj2 (resp_bad _ _ T)).
  - right. destruct (memcache_bad _ _ T) as [_ [Q|Q]]; [left; exact Q|right; left; exact Q].
  - right; right; right. exact T.
Qed.
Lemma bytes_skip : forall n s, bytes_ok s -> bytes_ok (skipn n s).
Proof. intros n s B. rewrite <- (firstn_skipn n s) in B. apply Forall_app in B. apply B. Qed.
Lemma failed_app : forall c cf orc ds b i ch b1 i1 ch1 evs text t, runs c cf orc b i ch ds b1 i1 ch1 evs ->
  failed_command c cf orc b1 i1 ch1 text t -> failed_command c cf orc b i ch (concat (map d_raw ds) ++ text) t.
Proof.
  intros c cf orc ds b i ch b1 i1 ch1 evs text t R (ds2 & b2 & i2 & ch2 & ev2 & p & args & raw & rest & E & Rd & R2 & P).
  exists (ds ++ ds2), b2, i2, ch2, (evs ++ ev2), p, args, raw, rest. split; [rewrite map_app, concat_app, E, app_assoc; reflexivity|]. split; [exact Rd|].
  split; [exact (runs_app _ _ _ _ _ _ _ _ _ _ _ _ _ _ _ _ R R2)|exact P].
Qed.
Lemma reads_more : forall cf text p args raw more, reads_as cf text p args raw -> reads_as cf (text ++ more) p args raw.
Proof.
  intros cf text p args raw more (k & k1 & ws & rest & m & E & R & T & P). exists k, k1, ws, rest, (m ++ more). split; [rewrite E, <- !app_assoc; reflexivity|auto].
Qed.
Lemma failed_more : forall c cf orc b i ch text more t, failed_command c cf orc b i ch text t -> failed_command c cf orc b i ch (text ++ more) t.
Proof.
  intros c cf orc b i ch text more t (ds2 & b2 & i2 & ch2 & ev2 & p & args & raw & rest & E & Rd & R2 & P).
  exists ds2, b2, i2, ch2, ev2, p, args, raw, (rest ++ more). split; [rewrite E, <- app_assoc; reflexivity|]. split; [apply reads_more; exact Rd|auto].
Qed.
Lemma reached_like : forall cf k k', reached cf k -> k_pg k' = k_pg k -> reached cf k'.
Proof.
  intros cf k k' R E. destruct R as [tls k R|k data t k1 R B T R2]; [apply (reached_new cf tls); congruence|]. eapply reached_turn; [exact R|exact B|exact T|]. destruct t; congruence.
Qed.
Lemma reached_next : forall cf k data t k', reached cf k -> bytes_ok data -> conn_turn cf data k = Ok t -> k_pg k' = k_pg (turn_conn t) -> reached cf k'.
Proof. intros cf k data t k' R B T E. eapply reached_turn; [exact R|exact B|exact T|]. destruct t; exact E. Qed.
Lemma turn_reads : forall cf data k n k1 ws args, reached cf k -> data <> [] -> conn_turn cf data k = Ok (Turn n k1 ws (Some args)) -> reads_as cf data (proto_of k1) args (firstn n data).
Proof.
  intros cf data k n k1 ws args R N T. pose proof (turn_within cf data k n k1 ws _ N T) as W. exists k, k1, ws, (skipn n data), [].
  rewrite app_nil_r, firstn_skipn, firstn_length. split; [reflexivity|]. split; [exact R|]. split; [|reflexivity]. rewrite T. do 2 f_equal. lia.
Qed.
Lemma loop_troubled : forall c cf orc fuel i data k ch, sound (k_pg k) -> reached cf k -> bytes_ok data -> (length data < fuel)%nat ->
  match conn_loop c cf orc fuel i data k ch with
  | Bad t => (exists a b, data = a ++ b /\ troubled b) \/ failed_command c cf orc (k_auth k) i ch data t
  | Ok (k', _, _, ds, _) => sound (k_pg k') /\ reached cf k' /\ exists a, data = a ++ k_packet k' /\ (k_closed k' = false -> a = concat (map d_raw ds))
  end.
Proof.
  intros c cf orc fuel. induction fuel as [|f IH]; intros i data k ch Sd Rc B L; [lia|]. cbn [conn_loop].
  destruct data as [|b0 d0] eqn:Ed; [split; [exact Sd|split; [apply (reached_like _ k); [exact Rc|reflexivity]|exists []; split; [reflexivity|reflexivity]]]|]. rewrite <- Ed in *.
  assert (Ne : data <> []) by (rewrite Ed; discriminate). clear Ed b0 d0.
  pose proof (turn_sound cf data k Sd B) as T.
  destruct (conn_turn cf data k) as [[k1|k1 ws|n k1 ws cmd]|t] eqn:Et.
  - split; [exact T|]. split; [eapply reached_next; [exact Rc|exact B|exact Et|reflexivity]|]. exists []. split; reflexivity.
  - split; [exact T|]. split; [eapply reached_next; [exact Rc|exact B|exact Et|reflexivity]|]. exists data. cbn [conn_shut k_packet k_closed]. rewrite app_nil_r. split; [reflexivity|discriminate].
  - cbn [turn_conn] in T. pose proof (turn_within cf data k n k1 ws cmd Ne Et) as W. pose proof (turn_auth cf data k _ Et) as Au. cbn beta iota in Au.
    set (go := fun (i : nat) (d : option (list bytes * list eff)) (k2 : conn) (ch2 : cache) (ev2 : list event) =>
      let k3 := match k_proto k2 with Some HTTP => conn_shut k2 | _ => k2 end in
      let this := mkDid (firstn n data) (proto_of k1) (pgout_of (k_pg k1)) (ws, d) in
      if k_closed k3 then Ok (conn_shut k3, ch2, i, [this], ev2)
      else match conn_loop c cf orc f i (skipn n data) k3 ch2 with
      | Bad t => Bad t
      | Ok (k4, ch4, i4, ds, evs) => Ok (k4, ch4, i4, this :: ds, ev2 ++ evs)
      end).
    assert (G : forall j d k2 ch2 ev2, sound (k_pg k2) -> k_pg k2 = k_pg k1 ->
      runs c cf orc (k_auth k) i ch [mkDid (firstn n data) (proto_of k1) (pgout_of (k_pg k1)) (ws, d)] (k_auth k2) j ch2 (ev2 ++ []) ->
      match go j d k2 ch2 ev2 with
      | Bad t => (exists a b, data = a ++ b /\ troubled b) \/ failed_command c cf orc (k_auth k) i ch data t
      | Ok (k', _, _, ds, _) => sound (k_pg k') /\ reached cf k' /\ exists a, data = a ++ k_packet k' /\ (k_closed k' = false -> a = concat (map d_raw ds))
      end).
    { intros j d k2 ch2 ev2 S2 Eq R2. unfold go.
      assert (S3 : sound (k_pg (match k_proto k2 with Some HTTP => conn_shut k2 | _ => k2 end))) by (destruct (k_proto k2) as [[]|]; exact S2).
      assert (A3 : k_auth (match k_proto k2 with Some HTTP => conn_shut k2 | _ => k2 end) = k_auth k2) by (destruct (k_proto k2) as [[]|]; reflexivity).
      assert (R3 : reached cf (match k_proto k2 with Some HTTP => conn_shut k2 | _ => k2 end)) by (apply (reached_next _ _ _ _ _ Rc B Et); cbn [turn_conn]; destruct (k_proto k2) as [[]|]; exact Eq).
      cbv zeta. destruct (k_closed _) eqn:C3.
      { split; [exact S3|]. split; [eapply reached_like; [exact R3|reflexivity]|]. exists data. cbn [conn_shut k_packet k_closed]. rewrite app_nil_r. split; [reflexivity|discriminate]. }
      assert (L2 : (length (skipn n data) < f)%nat) by (rewrite skipn_length; lia).
      specialize (IH j (skipn n data) _ ch2 S3 R3 (bytes_skip n data B) L2).
      destruct (conn_loop _ _ _ _ _ _ _ _) as [[[[[k4 ch4] i4] ds] evs]|t].
      - destruct IH as (IH1 & IHr & a & IH2 & IH3). split; [exact IH1|]. split; [exact IHr|]. exists (firstn n data ++ a). split; [rewrite <- app_assoc, <- IH2; symmetry; apply firstn_skipn|]. intro C4. rewrite (IH3 C4). reflexivity.
      - destruct IH as [(a & b & E & Tr)|F]; [left|right].
        + exists (firstn n data ++ a), b. split; [|exact Tr]. rewrite <- app_assoc, <- E. symmetry. apply firstn_skipn.
        + rewrite A3 in F. pose proof (failed_app _ _ _ _ _ _ _ _ _ _ _ _ _ R2 F) as F2. cbn [List.map List.concat d_raw] in F2. rewrite app_nil_r, firstn_skipn in F2. exact F2. }
    destruct cmd as [args|].
    + destruct (prun c (orc i) 0 ch (evcommand cf (k_auth k1) (proto_of k1) args)) as [[[ch2 es] ev2]|t] eqn:P.
      * apply (G (S i) (Some (args, es)) (after es k1) ch2 ev2); [rewrite after_pg; exact T|apply after_pg|].
        rewrite Au in P. eapply runs_command; [reflexivity|exact P| |apply runs_end]. rewrite after_auth, Au. reflexivity.
      * right. exists [], (k_auth k), i, ch, [], (proto_of k1), args, (firstn n data), data. split; [reflexivity|]. split; [exact (turn_reads _ _ _ _ _ _ _ Rc Ne Et)|]. split; [apply runs_end|]. rewrite <- Au. exact P.
    + apply (G i None k1 ch [] T eq_refl). eapply runs_reply; [reflexivity|exact Au|apply runs_end].
  - left. exists [], data. split; [reflexivity|]. exact (turn_troubled cf data k t Sd B Et).
Qed.
Lemma stream_troubled : forall c cf orc packets i k ch t, sound (k_pg k) -> reached cf k -> bytes_ok (k_packet k) -> Forall bytes_ok packets ->
  evpackets c cf orc i packets k ch = Bad t ->
  (exists a b d, k_packet k ++ concat packets = a ++ b ++ d /\ troubled b) \/ failed_command c cf orc (k_auth k) i ch (k_packet k ++ concat packets) t.
Proof.
  intros c cf orc packets. induction packets as [|x packets IH]; intros i k ch t Sd Rc B F H; [discriminate|].
  inversion F as [|? ? Bx F']. subst. rewrite evpackets_then in H. destruct (k_closed k) eqn:Cl.
  { unfold evdata in H. rewrite Cl in H. cbn [then_] in H. rewrite closed_packets in H by exact Cl. discriminate. }
  assert (E0 : evdata c cf orc i x k ch = conn_loop c cf orc (S (length (k_packet k ++ x))) i (k_packet k ++ x) (with_packet [] k) ch) by (unfold evdata; rewrite Cl; reflexivity).
  assert (B0 : bytes_ok (k_packet k ++ x)) by (apply Forall_app; split; assumption).
  pose proof (loop_troubled c cf orc (S (length (k_packet k ++ x))) i (k_packet k ++ x) (with_packet [] k) ch Sd (reached_like cf k (with_packet [] k) Rc eq_refl) B0 (Nat.lt_succ_diag_r _)) as G.
  rewrite <- E0 in G. destruct (evdata c cf orc i x k ch) as [[[[[k1 ch1] i1] ds1] ev1]|t1] eqn:E1.
  - symmetry in E0. cbn [then_] in H.
    assert (H1 : evpackets c cf orc i1 packets k1 ch1 = Bad t) by (destruct (evpackets c cf orc i1 packets k1 ch1) as [[[[[? ?] ?] ?] ?]|]; [discriminate|exact H]).
    destruct G as (S1 & Rc1 & a & Ea & Ed).
    assert (B1 : bytes_ok (k_packet k1)) by (rewrite Ea in B0; apply Forall_app in B0; apply B0).
    destruct (IH i1 k1 ch1 t S1 Rc1 B1 F' H1) as [(a2 & b & d & E2 & Tr)|Fc]; [left|right].
    + exists (a ++ a2), b, d. split; [|exact Tr]. cbn [List.concat]. rewrite app_assoc, Ea, <- app_assoc, E2, app_assoc. reflexivity.
    + destruct (loop_runs c cf orc _ i _ (with_packet [] k) ch _ _ _ _ _ Cl E0) as [R _]. pose proof (failed_app _ _ _ _ _ _ _ _ _ _ _ _ _ R Fc) as F2.
      assert (C1 : k_closed k1 = false) by (destruct (k_closed k1) eqn:C1; [rewrite closed_packets in H1 by exact C1; discriminate|reflexivity]).
      rewrite <- (Ed C1), app_assoc, <- Ea, <- app_assoc in F2. exact F2.
  - cbn [then_] in H. injection H as <-. destruct G as [(a & b & E2 & Tr)|Fc]; [left|right; cbn [List.concat]; rewrite app_assoc; apply failed_more; exact Fc].
    exists a, b, (concat packets). split; [|exact Tr]. cbn [List.concat]. rewrite app_assoc, E2, <- app_assoc. reflexivity.
Qed.
