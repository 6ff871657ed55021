(** C59: the server as a whole. *)
From Verif Require Import Base Types Clamp Entry Hash Map Shard Cache Text IntText CmdTable CmdSpec CmdsProofs Prog Cmds Resp Memcache Postgres PgProofs3 Http HttpSpec HttpProofs PropHttp Reply ReplySpec ReplyProofs PropReply PgSpec PgProofs PgProofs2 RespSpec RespProofs TelnetProofs McSpec McProofs Conn ConnSpec ConnProofs ConnProofs2 ConnProofs3 ConnProofs4 ConnProofs6 ConnProofs5 ConnProofs7 PropCache PropCmds PropSafe PropSafe2 PropConn Net NetSpec NetProofs PropNet Server ServerSpec ServerProofs ServerProofs2 ServerProofs3.
From Coq Require Import String Lia Permutation.
Local Open Scope N_scope.
Notation length := List.length.
Notation concat := List.concat.
Notation map := List.map.

Lemma view_deeds : forall n : sconnection, sdeeds (conn_view cdata shared job n) = done_on n.
Proof. intro n. unfold sdeeds, done_on. cbn. destruct (c_bg n); reflexivity. Qed.
Lemma view_all : forall t : thread cdata shared job, all (view cdata shared job t) = map (conn_view cdata shared job) (t_conns t ++ t_gone t).
Proof. intro t. unfold all. cbn. rewrite map_app. reflexivity. Qed.
Lemma polite_told : forall c cf orc ss, Forall (polite c cf orc) ss -> Forall (told shared (fun _ => True) (fun _ => True) (others_ok c cf orc)) ss.
Proof. intros c cf orc ss H. induction H as [|s ss P H IH]; constructor; [|exact IH]. destruct s as [w es|fd|f]; [|exact I|exact P]. intro fd. split; [auto|]. split; [auto|exact (P fd)]. Qed.
Lemma server_inv : forall c cf orc pg size ss ch t, server_possible c cf orc pg size ss (thread_new (shared_new ch)) -> Forall (polite c cf orc) ss ->
  server_run c cf orc pg size ss (thread_new (shared_new ch)) = NOk t ->
  sinv c cf orc pg ch (view cdata shared job t) /\
  (forall n, In n (t_conns t) -> served cdata shared job cdata_new (serve c cf orc pg) (job_done pg) n) /\
  (forall n, In n (t_gone t) -> ended cdata shared job cdata_new (serve c cf orc pg) (job_done pg) n).
Proof.
  intros c cf orc pg size ss ch t P Po E. split.
  - eapply steps_inv; [|apply (sinv_new c cf orc pg ch)]. exact (C56_serial _ _ _ _ _ _ _ _ _ _ _ _ _ _ P (polite_told _ _ _ _ Po) E).
  - destruct (C56_loop _ _ _ _ _ _ _ _ _ _ P) as [E2|(t2 & E2 & A & B)]; unfold server_run in E; rewrite E2 in E; [discriminate|]. injection E as <-. auto.
Qed.
Lemma got_fed : forall c cf orc pg (t : thread cdata shared job) n,
  (forall n, In n (t_conns t) -> served cdata shared job cdata_new (serve c cf orc pg) (job_done pg) n) ->
  (forall n, In n (t_gone t) -> ended cdata shared job cdata_new (serve c cf orc pg) (job_done pg) n) -> In n (t_conns t ++ t_gone t) -> gots shared job (c_acts n) = feds shared job (c_acts n).
Proof. intros c cf orc pg t n A B I. apply in_app_iff in I. destruct I as [I|I]; [exact (proj1 (proj1 (proj2 (A n I))))|exact (proj1 (proj2 (B n I)))]. Qed.

(** Any number of clients, whatever they send, in whatever pieces and however the event loop, the background
    jobs and other threads take turns: there is one order of everything that was done, in which every
    command ran on the cache as the commands before it left it; what one client asked for is done in the order in which
    it came, from the bytes that came, beginning unauthenticated; and each client was sent
    the answers to what was done for it, in order, and nothing else. *)
Theorem C59_server : forall c cf orc pg size ss ch t,
  server_possible c cf orc pg size ss (thread_new (shared_new ch)) -> Forall (polite c cf orc) ss ->
  server_run c cf orc pg size ss (thread_new (shared_new ch)) = NOk t -> g_bad (t_shared t) = None ->
  ran c cf orc 0 ch (g_log (t_shared t)) (g_num (t_shared t)) (g_cache (t_shared t)) /\
  (exists others, shuffle (others :: map done_on (t_conns t ++ t_gone t)) (g_log (t_shared t))) /\
  forall n, In n (t_conns t ++ t_gone t) ->
    (exists b, flags false (done_on n) b) /\
    (exists rest, received n = read_on n ++ rest) /\
    exists groups, concat groups = said_on n /\
      (In n (t_conns t) -> sent n = concat (map (emit_all pg 0) groups)) /\
      (sent n = concat (map (emit_all pg 0) groups) \/ broken shared job (c_acts n)).
Proof.
  intros c cf orc pg size ss ch t P Po E B. destruct (server_inv _ _ _ _ _ _ _ _ P Po E) as (I & Sv & En).
  destruct I as [(_ & Fc & R & others & S)|(t0 & B2 & _)]; [|cbn in B2; congruence].
  rewrite view_all in *. rewrite map_map in S. cbn [view s_shared] in *. split; [exact R|]. split.
  - exists others. rewrite (map_ext _ done_on) in S by (intro n; apply view_deeds). exact S.
  - intros n In_. assert (Ci : cinv cf pg (conn_view cdata shared job n)) by (rewrite Forall_forall in Fc; apply Fc; apply in_map; exact In_).
    pose proof (got_fed _ _ _ _ _ _ Sv En In_) as Gf. split; [|split].
    + destruct (cinv_plays _ _ _ Ci) as (k & s & b & Pl). rewrite view_deeds in Pl. exists (k_auth k). exact (plays_flags _ _ _ _ _ _ Pl).
    + destruct (cinv_read _ _ _ Ci) as (rest & Er). exists rest. unfold received, read_on. rewrite Gf. cbn in Er. destruct (c_bg n); exact Er.
    + destruct Ci as [(groups & G1 & G2) _]. exists groups. split; [rewrite G1; unfold ssays, said_on; cbn; destruct (c_bg n) as [j|]; reflexivity|]. cbn in G2. unfold sent. rewrite <- G2.
      split; [intro Io; exact (proj2 (proj1 (proj2 (Sv n Io))))|]. apply in_app_iff in In_. destruct In_ as [Io|Ig]; [left; exact (proj2 (proj1 (proj2 (Sv n Io))))|exact (proj1 (proj2 (proj2 (En n Ig))))].
Qed.

(** A client that sends requests, with RESP, telnet or memcache: the first so many were done, each
    once, in order, and nothing else; if the connection is open and no job of it runs, these are all that
    came in completely; a job that runs is the next request. *)
Theorem C59_requests : forall c cf orc pg size ss ch t n p argss texts later,
  server_possible c cf orc pg size ss (thread_new (shared_new ch)) -> Forall (polite c cf orc) ss ->
  server_run c cf orc pg size ss (thread_new (shared_new ch)) = NOk t -> g_bad (t_shared t) = None ->
  In n (t_conns t ++ t_gone t) ->
  Forall2 (asked p) argss texts -> opens p (gots shared job (c_acts n) ++ later) -> received n ++ concat later = concat texts ->
  exists m, map (fun e => d_raw (e_did e)) (done_on n) = firstn m texts /\ Forall2 did_command (firstn m argss) (map e_did (done_on n)) /\
    (In n (t_conns t) -> match c_bg n with
     | None => forall x, (x <= length texts)%nat -> (length (concat (firstn x texts)) <= length (received n))%nat -> (x <= m)%nat
     | Some j => j_effs j = None -> nth_error texts m = Some (j_raw j) /\ nth_error argss m = Some (j_args j)
     end).
Proof.
  intros c cf orc pg size ss ch t n p argss texts later P Po E B In_ F O Et. destruct (server_inv _ _ _ _ _ _ _ _ P Po E) as (I & Sv & En).
  destruct I as [(_ & Fc & R & others & S)|(t0 & B2 & _)]; [|cbn in B2; congruence]. clear S R.
  rewrite view_all in Fc. assert (Ci : cinv cf pg (conn_view cdata shared job n)) by (rewrite Forall_forall in Fc; apply Fc; apply in_map; exact In_).
  pose proof (got_fed _ _ _ _ _ _ Sv En In_) as Gf. unfold received in *. rewrite Gf in *. apply opens_sniff in O. apply opens_less in O.
  destruct (c_bg n) as [j|] eqn:Bg.
  - destruct Ci as [_ Ci]. cbn in Ci. rewrite Bg in Ci. destruct Ci as [Jo _]. 
    destruct (job_asked cf p argss texts F _ _ _ _ Jo _ O Et) as (m & A1 & A2 & A3 & A4 & A5 & A6). unfold done_on. rewrite Bg. cbn [job_deeds].
    destruct (j_effs j) as [es|].
    + exists (S m). destruct (nth_error_split _ _ A3) as (l1 & l2 & El & Ll). destruct (nth_error_split _ _ A4) as (r1 & r2 & Er & Lr).
      assert (F1 : firstn (S m) texts = firstn m texts ++ [j_raw j]).
      { apply (skipn_next _ _ _ _ l2). rewrite El, skipn_app, <- Ll, skipn_all, Nat.sub_diag. reflexivity. }
      assert (F2 : firstn (S m) argss = firstn m argss ++ [j_args j]).
      { apply (skipn_next _ _ _ _ r2). rewrite Er, skipn_app, <- Lr, skipn_all, Nat.sub_diag. reflexivity. }
      rewrite !map_app, F1, F2, A1. split; [reflexivity|]. split; [|discriminate]. apply Forall2_app; [exact A2|]. constructor; [|constructor]. cbn. split; [exact A5|]. cbn. destruct (j_args j); [congruence|reflexivity].
    + rewrite app_nil_r. exists m. auto.
  - destruct (cinv_plays _ _ _ Ci) as (k & s & b & Pl). rewrite view_deeds in Pl. cbn in Pl.
    destruct (plays_asked cf p argss texts F _ _ _ _ _ Pl _ O Et) as (m & A1 & A2 & A3 & A4 & A5 & A6). 
    assert (D : In n (t_conns t) -> exists k s, plays cf (feds shared job (c_acts n)) (done_on n) k s false).
    { intro Io. destruct (Sv n Io) as (_ & _ & _ & _ & Cl & _ & Du). destruct Ci as [_ Ci]. cbn in Ci. rewrite Bg, Cl, Du in Ci. unfold done_on. rewrite Bg. cbn [job_deeds]. rewrite app_nil_r.
      destruct Ci as [(b0 & (_ & k0 & s0 & P0 & _) & _ & Q)|[_ Q]]; [|discriminate]. rewrite (Q eq_refl) in P0. eauto. }
    exists m. split; [exact A1|]. split; [exact A2|]. intros Io x Lx Le. destruct (D Io) as (k0 & s0 & P0). clear k s b Pl A3 A5 A6.
    destruct (plays_asked cf p argss texts F _ _ _ _ _ P0 _ O Et) as (m' & A1' & A2' & A3 & A4' & _ & A6).
    assert (Em : m' = m). { assert (Q : length (firstn m' texts) = length (firstn m texts)) by (rewrite <- A1, <- A1'; reflexivity). rewrite !firstn_length in Q. lia. }
    subst m'. destruct (Nat.le_gt_cases x m) as [L|L]; [exact L|exfalso].
    assert (Nt : Forall (fun s : bytes => s <> []) texts). { clear -F cf. induction F as [|a s l l' A F IH]; constructor; [|exact IH]. exact (proj1 (proj1 (proj2 (asked_turn cf _ _ _ A)))). }
    rewrite (plays_raw _ _ _ _ _ _ P0) in Le. rewrite A1 in Le. rewrite <- (firstn_skipn m texts) in Le at 1. rewrite firstn_app, firstn_firstn, firstn_length in Le.
    replace (Nat.min x m) with m in Le by lia. replace (Nat.min m (length texts)) with m in Le by lia. rewrite concat_app, !app_length in Le.
    rewrite <- (firstn_skipn m texts) in Nt. apply Forall_app in Nt. destruct Nt as [_ Nt].
    assert (Ls : (0 < length (skipn m texts))%nat) by (rewrite skipn_length; lia).
    assert (Ex : exists y, (x - m)%nat = S y) by (exists (x - m - 1)%nat; lia). destruct Ex as [y Ey]. rewrite Ey in Le.
    destruct (A6 eq_refl) as [-> |(tx & ts & q & E1 & E2 & Nq)].
    + destruct (skipn m texts) as [|tx ts]; [cbn in Ls; lia|]. inversion Nt; subst. cbn in Le. rewrite app_length in Le. destruct tx; [congruence|cbn in Le; lia].
    + rewrite E1 in Le. cbn in Le. rewrite app_length, E2, app_length in Le. destruct q; [congruence|cbn in Le; lia].
Qed.

(** What is done later comes later in the order: it agrees with real time. *)
Theorem C59_order : forall c cf orc pg size ss1 ss2 ch t1 t2,
  server_possible c cf orc pg size (ss1 ++ ss2) (thread_new (shared_new ch)) -> Forall (polite c cf orc) (ss1 ++ ss2) ->
  server_run c cf orc pg size ss1 (thread_new (shared_new ch)) = NOk t1 ->
  server_run c cf orc pg size ss2 t1 = NOk t2 ->
  exists later, g_log (t_shared t2) = g_log (t_shared t1) ++ later.
Proof.
  intros c cf orc pg size ss1 ss2 ch t1 t2 P Po E1 E2. apply Forall_app in Po. destruct Po as [Po1 Po2].
  assert (Sp : forall ss t, server_possible c cf orc pg size (ss ++ ss2) t -> server_possible c cf orc pg size ss t /\ forall t', server_run c cf orc pg size ss t = NOk t' -> server_possible c cf orc pg size ss2 t').
  { clear. unfold server_possible, server_run. induction ss as [|s ss IH]; intros t P; [split; [exact I|]; intros t' E; injection E as <-; exact P|]. cbn [app possible_all] in *. destruct P as [P1 P2]. split.
    - split; [exact P1|]. intros t' E. exact (proj1 (IH t' (P2 t' E))).
    - intros t' E. cbn [nrun] in E. destruct (nstep_run _ _ _ _ _ _ _) as [t0|] eqn:E0; [|discriminate]. exact (proj2 (IH t0 (P2 t0 eq_refl)) t' E). }
  destruct (Sp _ _ P) as [P1 P2]. specialize (P2 t1 E1). clear Sp.
  pose proof (polite_told _ _ _ _ Po1) as T1. pose proof (polite_told _ _ _ _ Po2) as T2. unfold server_run, server_possible in *.
  destruct (run_ok _ _ _ _ _ _ _ _ _ _ size ss1 _ T1 (inv_new _ _ _ _ _ _ _) P1) as [Q|(t & Q & V1 & I1)]; rewrite Q in E1; [discriminate|]. injection E1 as ->.
  destruct (run_ok _ _ _ _ _ _ _ _ _ _ size ss2 _ T2 I1 P2) as [Q2|(t & Q2 & V2 & I2)]; rewrite Q2 in E2; [discriminate|]. injection E2 as ->.
  exact (steps_log c cf orc pg _ _ _ _ V2).
Qed.

(** With a password, whatever else the server does: on each connection every command was refused and had no
    effect on the cache, up to a request that carries the password, if there is one. *)
Theorem C59_auth : forall c cf orc pg size ss ch t n,
  server_possible c cf orc pg size ss (thread_new (shared_new ch)) -> Forall (polite c cf orc) ss ->
  server_run c cf orc pg size ss (thread_new (shared_new ch)) = NOk t -> g_bad (t_shared t) = None ->
  In n (t_conns t ++ t_gone t) ->
  cf_useauth cf = true -> cf_password cf <> [] -> no_nul (cf_password cf) ->
  let bland e := refused (e_did e) /\ forall i ch i' ch', ran c cf orc i ch [e] i' ch' -> ch' = ch in
  Forall bland (done_on n) \/
  exists ds1 e ds2, done_on n = ds1 ++ e :: ds2 /\ Forall bland ds1 /\ presents (cf_password cf) (e_did e).
Proof.
  intros c cf orc pg size ss ch t n P Po E B In_ Us Ne Np bland0. destruct (server_inv _ _ _ _ _ _ _ _ P Po E) as (I & Sv & En).
  destruct I as [(_ & Fc & R & others & S)|(t0 & B2 & _)]; [|cbn in B2; congruence].
  rewrite view_all in *. rewrite map_map in S. cbn [view s_shared] in *. rewrite (map_ext _ done_on) in S by (intro; apply view_deeds).
  assert (Ci : cinv cf pg (conn_view cdata shared job n)) by (rewrite Forall_forall in Fc; apply Fc; apply in_map; exact In_).
  destruct (cinv_plays _ _ _ Ci) as (k & s & b & Pl). rewrite view_deeds in Pl.
  assert (Ho : Forall (honest c cf orc) (done_on n)).
  { apply Forall_forall. intros e Ie args es Q. assert (Il : In e (g_log (t_shared t))) by (eapply shuffle_in; [exact S|right; apply in_map; exact In_|exact Ie]). exact (ran_in _ _ _ _ _ _ _ _ R e args es Il Q). }
  destruct (plays_locked c cf orc Us Ne Np _ _ _ _ _ Pl Ho) as [(A & _)|X]; [left; exact A|right; exact X].
Qed.

(** If the server runs into trouble, the text of some client contains one of the texts of C50_trouble, or the
    next command in it ended in trouble, on the cache that the commands before it left. *)
Theorem C59_trouble : forall c cf orc pg size ss ch t trouble,
  server_possible c cf orc pg size ss (thread_new (shared_new ch)) -> Forall (polite c cf orc) ss ->
  server_run c cf orc pg size ss (thread_new (shared_new ch)) = NOk t -> g_bad (t_shared t) = Some trouble ->
  (forall n, In n (t_conns t ++ t_gone t) -> bytes_ok (received n)) ->
  (exists n a b d, In n (t_conns t ++ t_gone t) /\ received n = a ++ b ++ d /\ troubled b) \/
  (exists n, In n (t_conns t ++ t_gone t) /\ failed_request c cf orc ch (g_log (t_shared t)) n trouble).
Proof.
  intros c cf orc pg size ss ch t tr P Po E B By. destruct (server_inv _ _ _ _ _ _ _ _ P Po E) as (I & Sv & En).
  destruct I as [(B2 & _)|(t0 & B2 & _ & x & ins & m & ds & l & Ix & Ei & Ed & T)]; [cbn in B2; congruence|]. cbn in B2. rewrite B in B2. injection B2 as <-.
  rewrite view_all in Ix. apply in_map_iff in Ix. destruct Ix as (n & <- & In_). rewrite view_deeds in Ed. cbn in Ei.
  pose proof (got_fed _ _ _ _ _ _ Sv En In_) as Gf.
  specialize (By n In_). unfold received in By. rewrite Gf, Ei, concat_app in By. apply Forall_app in By. destruct By as [By _].
  destruct T as [T|(g1 & l2 & Lg & l1 & i & ch1 & w & k & s & k0 & k1 & ws & args & L1 & R & Pl & Ns & Tn & Pr)].
  - left. destruct (text_troubled _ _ _ _ T By) as (a & b & Ec & Tb). exists n, a, b, (concat m). split; [exact In_|]. split; [|exact Tb].
    unfold received. rewrite Gf, Ei, concat_app, Ec, app_assoc. reflexivity.
  - right. exists n. split; [exact In_|]. exists ds, l, l1, l2, (s ++ concat m), (proto_of k1), args, (firstn k0 s), (k_auth k), i, ch1, w.
    split; [exact Ed|]. split; [unfold received; rewrite Gf, Ei, concat_app, (plays_raw _ _ _ _ _ _ Pl), app_assoc; reflexivity|]. split; [exact (plays_flags _ _ _ _ _ _ Pl)|].
    split; [apply reads_more; exact (turn_reads _ _ _ _ _ _ _ (plays_reached _ _ _ _ _ _ Pl By) Ns Tn)|]. cbn in L1, R. split; [cbn in Lg; rewrite Lg, L1; reflexivity|]. split; [exact R|exact Pr].
Qed.

(** *** Cases *)
Definition server_answers (r : nat -> rres) : answers shared := mkAnswers r (fun _ _ => [WTook 1; WTook 1000]) (fun _ => true) (fun _ g => g) None.
Definition server_orc : nat -> nat -> input := fun _ => demo_orc.
(** Another thread sets "b" to "9". *)
Definition other_args : list bytes := [bs "SET"; bs "b"; bs "9"].
Definition other (g : shared) : shared :=
  match prun demo_c (working true (server_orc (g_num g))) 0 (g_cache g) (evcommand case_cf false RESP other_args) with
  | Ok (ch, es, _) => ran_to ch (mkDeed false (mkDid [] RESP (pgout_of (k_pg (Conn.conn_new false))) ([], Some (other_args, es)))) g
  | Bad _ => g
  end.
(** Connection 5 sets "a", flushes in the background and asks for "a"; meanwhile connection 6, whose
    requests come in pieces, sets "b", still sees "a" and then sees the "b" of the other thread. *)
Definition text_a : bytes := bs "SET a 1" ++ crlf ++ bs "FLUSHALL" ++ crlf ++ bs "GET a" ++ crlf.
Definition server_steps : list (nstep shared) :=
  [SRound (server_answers (demo_read [(5%nat, RData text_a); (6%nat, RData (bs "SET b 2" ++ crlf ++ bs "GE"))])) [mkEvent 5 true; mkEvent 6 true];
   SRound (server_answers (demo_read [(6%nat, RData (bs "T a" ++ crlf))])) [mkEvent 6 false];
   SFinish 5; SOther other;
   SRound (server_answers (demo_read [(6%nat, RData (bs "GET b" ++ crlf))])) [mkEvent 5 false; mkEvent 6 false]].
Notation case_run := (server_run demo_c case_cf server_orc no_pages 8).
Definition end_of (r : nres (thread cdata shared job)) : thread cdata shared job := match r with NOk t => t | NBad _ => thread_new (shared_new demo_ch) end.
Definition server_end : thread cdata shared job := Eval vm_compute in end_of (case_run server_steps (thread_new (shared_new demo_ch))).
Lemma server_ran : case_run server_steps (thread_new (shared_new demo_ch)) = NOk server_end.
Proof. vm_compute. reflexivity. Qed.
Lemma server_next : forall c cf orc pg size s ss t t', possible cdata shared job size s t ->
  nstep_run cdata_new (serve c cf orc pg) (job_work c cf orc) (job_done pg) size s t = NOk t' -> server_possible c cf orc pg size ss t' -> server_possible c cf orc pg size (s :: ss) t.
Proof. intros c cf orc pg size s ss t t' P E H. split; [exact P|]. intros t2 E2. assert (Q : NOk t' = NOk t2) by (rewrite <- E; exact E2). injection Q as <-. exact H. Qed.
Ltac watching := let c := fresh in let H := fresh in let I := fresh in intros c H I; cbn in H; repeat (destruct H as [H|H]; [subst c; first [discriminate|exfalso; cbn in I; intuition discriminate]|]); contradiction.
Ltac next_round := eapply server_next; [split; [cbn; lia|]; split; [cbn; nodups|]; split; [watching|discriminate]|vm_compute; reflexivity|].
Lemma server_can : server_possible demo_c case_cf server_orc no_pages 8 server_steps (thread_new (shared_new demo_ch)).
Proof.
  unfold server_steps. next_round. next_round.
  eapply server_next; [cbn; eexists; split; [right; left; reflexivity|]; auto|vm_compute; reflexivity|].
  eapply server_next; [exact I|vm_compute; reflexivity|]. next_round. exact I.
Qed.
Lemma no_others : forall c cf orc (g : shared), exists l, runs_more c cf orc l g g.
Proof. intros c cf orc g. exists []. split; [reflexivity|]. split; [rewrite app_nil_r; reflexivity|constructor]. Qed.
Lemma server_polite : Forall (polite demo_c case_cf server_orc) server_steps.
Proof.
  assert (R : forall r es, polite demo_c case_cf server_orc (SRound (server_answers r) es)) by (intros r es fd g; apply no_others).
  constructor; [apply R|]. constructor; [apply R|]. constructor; [exact I|]. constructor; [|constructor; [apply R|constructor]].
  intro g. unfold other. destruct (prun _ _ _ _ _) as [[[ch es] evs]|] eqn:E; [|apply no_others]. eexists. split; [reflexivity|]. split; [reflexivity|].
  eapply ran_command; [reflexivity|exact E|constructor].
Qed.
Example C59_case : server_possible demo_c case_cf server_orc no_pages 8 server_steps (thread_new (shared_new demo_ch)) /\ Forall (polite demo_c case_cf server_orc) server_steps /\
  case_run server_steps (thread_new (shared_new demo_ch)) = NOk server_end /\ g_bad (t_shared server_end) = None /\
  map (fun e => option_map fst (snd (d_what (e_did e)))) (g_log (t_shared server_end)) =
    [Some [bs "SET"; bs "a"; bs "1"]; Some [bs "SET"; bs "b"; bs "2"]; Some [bs "GET"; bs "a"]; Some [bs "FLUSHALL"]; Some other_args; Some [bs "GET"; bs "b"]; Some [bs "GET"; bs "a"]] /\
  map (fun n => (c_fd n, sent n)) (t_conns server_end) =
    [(6%nat, bs "+OK" ++ crlf ++ bs "$1" ++ crlf ++ bs "1" ++ crlf ++ bs "$1" ++ crlf ++ bs "9" ++ crlf); (5%nat, bs "+OK" ++ crlf ++ bs "+OK" ++ crlf ++ bs "$-1" ++ crlf)].
Proof. split; [exact server_can|]. split; [exact server_polite|]. split; [exact server_ran|]. repeat split; vm_compute; reflexivity. Qed.
(** A line of plain words. *)
Definition plainb (b : byte) : bool := negb (is_space b) && negb (b =? 34) && negb (b =? 39).
Fixpoint words (ws : list bytes) : bytes := match ws with [] => [10] | w :: r => w ++ [match r with [] => 13 | _ => 32 end] ++ words r end.
Lemma words_line : forall ws, forallb (fun w => negb (beq w []) && forallb plainb w && (length w <=? 100)%nat) ws = true -> (length ws <= 100)%nat -> telnet_line ws (words ws).
Proof.
  intros ws H L. split; [|split; [lia|]].
  - clear L. induction ws as [|w ws IH]; [constructor|]. cbn [forallb words] in *. apply andb_true_iff in H. destruct H as [H H2]. apply andb_true_iff in H. destruct H as [H _]. apply andb_true_iff in H. destruct H as [Hn Hp].
    apply ln_arg; [|destruct ws; split; (reflexivity || discriminate)|auto]. apply tk_plain; [intro E; rewrite E in Hn; discriminate Hn|].
    apply Forall_forall. intros b Ib. rewrite forallb_forall in Hp. specialize (Hp b Ib). unfold plainb in Hp. apply andb_true_iff in Hp. destruct Hp as [Hp H3]. apply andb_true_iff in Hp. destruct Hp as [H1 H4].
    split; [destruct (is_space b); [discriminate|reflexivity]|]. split; intro E; rewrite E in *; discriminate.
  - apply Forall_forall. intros w Iw. rewrite forallb_forall in H. specialize (H w Iw). apply andb_true_iff in H. destruct H as [_ H]. apply Nat.leb_le in H. lia.
Qed.
(** The same requests as the specification reads them, with one more to come. *)
Example C59_requests_case : exists n argss texts later, In n (t_conns server_end ++ t_gone server_end) /\ c_fd n = 6%nat /\
  Forall2 (asked RESP) argss texts /\ opens RESP (gots shared job (c_acts n) ++ later) /\ received n ++ concat later = concat texts /\
  argss = [[bs "SET"; bs "b"; bs "2"]; [bs "GET"; bs "a"]; [bs "GET"; bs "b"]; [bs "GET"; bs "c"]] /\ map (fun e => d_raw (e_did e)) (done_on n) = firstn 3 texts.
Proof.
  eexists. exists [[bs "SET"; bs "b"; bs "2"]; [bs "GET"; bs "a"]; [bs "GET"; bs "b"]; [bs "GET"; bs "c"]], [bs "SET b 2" ++ crlf; bs "GET a" ++ crlf; bs "GET b" ++ crlf; bs "GET c" ++ crlf], [bs "GET c"; crlf].
  split; [left; reflexivity|]. split; [reflexivity|]. split.
  - repeat (apply Forall2_cons; [apply asked_line; [|discriminate]|]); try apply Forall2_nil; match goal with |- telnet_line ?a ?s => replace s with (words a) by reflexivity; apply words_line; [reflexivity|cbn; lia] end.
  - split; [|split; [vm_compute; reflexivity|split; [reflexivity|vm_compute; reflexivity]]].
    right; right. exists [], (bs "SET b 2" ++ [13]), (bs "GE"), [bs "T a" ++ crlf; bs "GET b" ++ crlf; bs "GET c"; crlf]. split; [vm_compute; reflexivity|]. split; [constructor|].
    split; [vm_compute; intuition discriminate|]. apply (speaks_telnet []); [constructor|unfold upper; cbn; lia|].
    intros (a & v & w & x & Q). apply (f_equal (@rev byte)) in Q. rewrite !rev_app_distr in Q. vm_compute in Q. discriminate Q.
Qed.
(** Two clients of a server with a password: one does not know it. *)
Definition locked_cf : config := mkConfig true (bs "pw") 2 (bs "1") 40.
Notation locked_run := (server_run demo_c locked_cf server_orc no_pages 8).
Definition locked_steps : list (nstep shared) :=
  [SRound (server_answers (demo_read [(5%nat, RData (bs "SET k1 9" ++ crlf ++ bs "AUTH wp" ++ crlf)); (6%nat, RData (bs "GET k1" ++ crlf ++ bs "AUTH pw" ++ crlf ++ bs "GET k1" ++ crlf))])) [mkEvent 5 true; mkEvent 6 true]].
Definition locked_end : thread cdata shared job := Eval vm_compute in end_of (locked_run locked_steps (thread_new (shared_new demo_ch))).
Example C59_auth_case : server_possible demo_c locked_cf server_orc no_pages 8 locked_steps (thread_new (shared_new demo_ch)) /\ Forall (polite demo_c locked_cf server_orc) locked_steps /\
  locked_run locked_steps (thread_new (shared_new demo_ch)) = NOk locked_end /\ g_bad (t_shared locked_end) = None /\ cf_password locked_cf <> [] /\ no_nul (cf_password locked_cf) /\
  map (fun n => (c_fd n, length (done_on n), map e_auth (done_on n))) (t_conns locked_end) = [(6%nat, 3%nat, [false; false; true]); (5%nat, 2%nat, [false; false])] /\ g_cache (t_shared locked_end) <> demo_ch.
Proof.
  split; [unfold locked_steps; next_round; exact I|]. split; [constructor; [intros fd g; apply no_others|constructor]|]. split; [vm_compute; reflexivity|]. split; [reflexivity|]. split; [discriminate|].
  split; [repeat constructor; discriminate|]. split; [vm_compute; reflexivity|]. vm_compute. discriminate.
Qed.
(** A client that sends "*" and an empty line brings the server into trouble. *)
Definition star_steps : list (nstep shared) := [SRound (server_answers (demo_read [(5%nat, RData (bs "*" ++ crlf))])) [mkEvent 5 true]].
Example C59_trouble_case : server_possible demo_c case_cf server_orc no_pages 8 star_steps (thread_new (shared_new demo_ch)) /\ Forall (polite demo_c case_cf server_orc) star_steps /\
  exists t, case_run star_steps (thread_new (shared_new demo_ch)) = NOk t /\ g_bad (t_shared t) = Some OutOfBounds.
Proof.
  split; [unfold star_steps; next_round; exact I|]. split; [constructor; [intros fd g; apply no_others|constructor]|]. eexists. split; vm_compute; reflexivity.
Qed.
(** The order of C59_order, for the first two steps and the others. *)
Example C59_order_case : exists t1, case_run (firstn 2 server_steps) (thread_new (shared_new demo_ch)) = NOk t1 /\ case_run (skipn 2 server_steps) t1 = NOk server_end /\ length (g_log (t_shared t1)) = 3%nat.
Proof. eexists. split; [vm_compute; reflexivity|]. split; vm_compute; reflexivity. Qed.
