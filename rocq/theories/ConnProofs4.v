(** Proofs about connections: the first packet, the Postgres session, what is read
    and what is run. *)
From Verif Require Import Base Types Clamp Entry Hash Map Shard Cache Text IntText CmdTable CmdSpec CmdsProofs Prog Cmds Resp RespSpec RespProofs Memcache McSpec Http HttpSpec Reply ReplySpec ReplyProofs Postgres PgSpec PgProofs PgProofs2 Conn ConnSpec ConnProofs ConnProofs2 ConnProofs3.
From Coq Require Import String Lia.
Local Open Scope N_scope.
Notation length := List.length.
Notation concat := List.concat.
Notation map := List.map.

(** ** The first packet *)
Lemma fresh_packets : forall c cf orc empties x rest i k ch p, k_proto k = None -> k_packet k = [] -> k_closed k = false ->
  Forall (fun e => e = []) empties -> x <> [] -> sniff_proto x = Some p ->
  evpackets c cf orc i (empties ++ x :: rest) k ch = evpackets c cf orc i (empties ++ x :: rest) (with_proto p k) ch.
Proof.
  intros c cf orc empties x rest i k ch p P Pk Cl F Nx Sn. induction F as [|e empties He F IH].
  - cbn [app]. rewrite !evpackets_then. f_equal. unfold evdata. cbn [with_proto k_closed k_packet]. rewrite Cl, Pk. cbn [app].
    destruct x as [|b x]; [congruence|]. cbn [conn_loop].
    assert (E : conn_turn cf (b :: x) (with_packet [] k) = conn_turn cf (b :: x) (with_packet [] (with_proto p k))).
    { rewrite !conn_turn_of. unfold parse_command. cbn [with_packet with_proto k_proto]. rewrite P, Sn. reflexivity. }
    rewrite E. reflexivity.
  - subst e. cbn [app]. rewrite !evpackets_then. unfold evdata. cbn [with_proto k_closed k_packet]. rewrite Cl, Pk. cbn [app conn_loop length].
    rewrite (with_packet_nil _ Pk). assert (Pk' : k_packet (with_proto p k) = []) by exact Pk. rewrite (with_packet_nil _ Pk').
    rewrite !then_ok. cbn [with_packet]. 
    replace (with_packet [] k) with k by (symmetry; apply with_packet_nil; exact Pk).
    replace (with_packet [] (with_proto p k)) with (with_proto p k) by (symmetry; apply with_packet_nil; exact Pk'). exact IH.
Qed.
Lemma first_nonempty : forall (packets : list bytes) b s, concat packets = b :: s -> exists empties x rest, packets = empties ++ (b :: x) :: rest /\ Forall (fun e => e = []) empties.
Proof.
  induction packets as [|[|y x] packets IH]; intros b s H; [discriminate| |].
  - destruct (IH b s H) as (e & x & r & -> & F). exists ([] :: e), x, r. split; [reflexivity|constructor; auto].
  - cbn [List.concat app] in H. injection H as <- _. exists [], x, packets. auto.
Qed.
Lemma fresh_first : forall c cf orc packets i k ch p b s, k_proto k = None -> k_packet k = [] -> k_closed k = false ->
  concat packets = b :: s -> (b = 42 /\ p = RESP \/ b = 0 /\ p = POSTGRES) ->
  evpackets c cf orc i packets k ch = evpackets c cf orc i packets (with_proto p k) ch.
Proof.
  intros c cf orc packets i k ch p b s P Pk Cl E B. destruct (first_nonempty _ _ _ E) as (em & x & r & -> & F).
  apply fresh_packets; auto; [discriminate|]. destruct B as [[-> ->]|[-> ->]]; reflexivity.
Qed.

(** ** The Postgres session *)
Lemma cmsg_frames : forall cf m t, cmsg_text m t -> frames cf POSTGRES t.
Proof.
  intros cf m t M. destruct m as [name l|portal name params|portal|l|]; cbn [cmsg_text] in M.
  - destruct M as (q & Q & Nu & Nl & cnt & types & body & Nq & _ & _ & _ & _ & Bb & Ms).
    apply (frames_message cf 80 body); [discriminate|exact Ms|]. change (2 ^ 30) with 1073741824 in Bb. change (2 ^ 31 - 4) with 2147483644. lia.
  - destruct M as (nf & fs & np & ps & nr & rs & body & _ & _ & _ & _ & _ & _ & _ & _ & _ & _ & Bb & Ms).
    apply (frames_message cf 66 body); [discriminate|exact Ms|]. change (2 ^ 30) with 1073741824 in Bb. change (2 ^ 31 - 4) with 2147483644. lia.
  - destruct M as (rows & (Np & Lp) & Lr & Ms).
    apply (frames_message cf 69 (portal ++ [0] ++ rows)); [discriminate|exact Ms|]. rewrite !app_length. cbn [length]. change (2 ^ 31 - 4) with 2147483644. lia.
  - destruct M as (q & Q & Nu & Nq & Lq & Ms). apply (frames_message cf 81 (q ++ [0])); [discriminate|exact Ms|].
    rewrite app_length. cbn [length]. change (2 ^ 31 - 4) with 2147483644. change (2 ^ 30) with 1073741824 in Lq. lia.
  - apply (frames_message cf 83 []); [discriminate|exact M|reflexivity].
Qed.
Lemma after_pg : forall es k, k_pg (after es k) = k_pg k.
Proof. intros es k. unfold after. destruct (existsb _ es), (existsb _ es); reflexivity. Qed.
Lemma after_closed : forall es k, k_closed (after es k) = false -> k_packet (after es k) = k_packet k.
Proof. intros es k H. unfold after in *. destruct (existsb _ es), (existsb _ es); cbn in *; congruence. Qed.
Lemma session_run : forall c cf orc ms texts, Forall2 cmsg_text ms texts -> forall i k ch s k' ch' i' ds evs,
  k_proto k = Some POSTGRES -> k_packet k = [] -> k_closed k = false -> repr (k_pg k) s ->
  evpackets c cf orc i texts k ch = Ok (k', ch', i', ds, evs) ->
  exists n, map d_raw ds = firstn n texts /\ Forall2 did_answer (map shown_as (firstn n (sess_answers s ms))) ds /\
    (n = length ms \/ stopped k' ds).
Proof.
  intros c cf orc ms texts F. induction F as [|m t ms texts M F IH]; intros i k ch s k' ch' i' ds evs P Pk Cl R H.
  { injection H as <- <- <- <- <-. exists 0%nat. split; [reflexivity|]. split; [constructor|left; reflexivity]. }
  destruct (turn_session cf k s m t P R M) as (g & ws & cmd & T & Sh & R1).
  assert (Nt : t <> []) by exact (proj1 (cmsg_frames cf m t M)).
  rewrite evpackets_then in H.
  rewrite (evdata_turn c cf orc i t k ch _ ws cmd POSTGRES Cl Pk Nt T (like_pg g k) P ltac:(discriminate)) in H.
  cbn [sess_answers]. destruct (sess_step s m) as [s1 a] eqn:St. cbn [fst snd] in Sh, R1.
  assert (Next : forall i1 k1 ch1 ev1 d, did_answer (shown_as a) d -> d_raw d = t ->
    ((k_closed k1 = true /\ exists args es, snd (d_what d) = Some (args, es) /\ In Closed es) \/ (k_proto k1 = Some POSTGRES /\ k_packet k1 = [] /\ k_closed k1 = false /\ repr (k_pg k1) s1)) ->
    then_ (Ok (k1, ch1, i1, [d], ev1)) (fun i k ch => evpackets c cf orc i texts k ch) = Ok (k', ch', i', ds, evs) ->
    exists n, map d_raw ds = firstn n (t :: texts) /\ Forall2 did_answer (map shown_as (firstn n (a :: sess_answers s1 ms))) ds /\
    (n = length (m :: ms) \/ stopped k' ds)).
  { intros i1 k1 ch1 ev1 d Da Dr K E. cbn [then_] in E. destruct K as [[K Cs]|(K1 & K2 & K3 & K4)].
    - rewrite closed_packets in E by exact K. injection E as <- <- <- <- <-. exists 1%nat. cbn [map firstn app].
      split; [rewrite Dr; reflexivity|]. split; [constructor; [exact Da|constructor]|]. right. split; [exact K|]. destruct Cs as (args & es & Cs). exists [], d, args, es. split; [reflexivity|exact Cs].
    - destruct (evpackets c cf orc i1 texts k1 ch1) as [[[[[k2 ch2] i2] ds2] ev2]|] eqn:E2; [|discriminate]. injection E as <- <- <- <- <-.
      destruct (IH _ _ _ _ _ _ _ _ _ K1 K2 K3 K4 E2) as (n & A & B & C). exists (S n). cbn [map firstn app].
      split; [rewrite Dr, A; reflexivity|]. split; [constructor; assumption|]. destruct C as [C|(C & ds0 & d0 & args & es & Cs & C1)]; [left; cbn [length]; rewrite C; reflexivity|right].
      split; [exact C|]. exists (d :: ds0), d0, args, es. split; [rewrite Cs; reflexivity|exact C1]. }
  destruct cmd as [args|].
  - destruct (prun _ _ _ _ _) as [[[ch2 es] ev2]|]; [|discriminate]. eapply Next; [| | |exact H]; [exact Sh|reflexivity|].
    destruct (k_closed (after es (with_pg g k))) eqn:C2; [left; split; [reflexivity|]|right].
    { exists args, es. split; [reflexivity|]. unfold after in C2. destruct (existsb (fun e => match e with Closed => true | _ => false end) es) eqn:X.
      - apply existsb_exists in X. destruct X as (e & I & X). destruct e; try discriminate. exact I.
      - exfalso. destruct (existsb _ es) in C2; cbn in C2; congruence. }
    split; [rewrite after_proto; exact P|]. split; [rewrite after_closed by exact C2; exact Pk|]. split; [reflexivity|]. rewrite after_pg. exact R1.
  - eapply Next; [| | |exact H]; [exact Sh|reflexivity|]. right. exact (conj P (conj Pk (conj Cl R1))).
Qed.
Lemma strings_field : forall s r cur, no_nul s -> rev cur ++ s <> [] -> startup_strings (s ++ 0 :: r) cur = (rev cur ++ s) :: startup_strings r [].
Proof.
  induction s as [|b s IH]; intros r cur F Ne.
  - cbn [app startup_strings]. rewrite app_nil_r in *. destruct cur; [destruct Ne; reflexivity|reflexivity].
  - inversion F as [|? ? Fb Fs]; subst. cbn [app startup_strings]. destruct (N.eqb_spec b 0); [congruence|].
    rewrite IH; [|exact Fs|cbn [rev]; ns; rewrite <- app_assoc; destruct (rev cur); discriminate]. cbn [rev]. ns. rewrite <- app_assoc. reflexivity.
Qed.
Lemma strings_settings : forall settings, Forall (fun p => no_nul (fst p) /\ no_nul (snd p) /\ fst p <> [] /\ snd p <> []) settings ->
  startup_strings (concat (map (fun p : bytes * bytes => fst p ++ [0] ++ snd p ++ [0]) settings) ++ [0]) [] = flat_map (fun p => [fst p; snd p]) settings.
Proof.
  induction 1 as [|[n v] l (A & B & C & D) F IH]; [reflexivity|]. cbn [map List.concat flat_map fst snd] in *.
  match goal with |- startup_strings ?x [] = _ => replace x with (n ++ 0 :: v ++ 0 :: concat (map (fun p : bytes * bytes => fst p ++ [0] ++ snd p ++ [0]) l) ++ [0]) end.
  2: { ns. rewrite <- !app_assoc. cbn [app]. rewrite <- ?app_assoc. cbn [app]. reflexivity. }
  rewrite strings_field; [|exact A|exact C]. rewrite strings_field; [|exact B|exact D].
  cbn [rev app]. do 2 f_equal. exact IH.
Qed.
Lemma encoding_ok : forall settings cur, cur = [] \/ cur = bs "UTF8" -> utf8_client settings ->
  client_encoding (flat_map (fun p : bytes * bytes => [fst p; snd p]) settings) cur = [] \/
  client_encoding (flat_map (fun p : bytes * bytes => [fst p; snd p]) settings) cur = bs "UTF8".
Proof.
  induction settings as [|[n v] l IH]; intros cur C U; [exact C|]. cbn [flat_map fst snd app client_encoding]. apply IH.
  - destruct (beq n (bs "client_encoding")) eqn:E; [|exact C]. apply beq_eq in E. subst n. right. apply U. left. reflexivity.
  - intros v' I. apply U. right. exact I.
Qed.
Lemma startup_text_of : forall settings t, startup_msg settings t -> startup_text t.
Proof.
  intros settings t (len & magic & L & M & B & F & E). exists len, (magic ++ concat (map (fun p => fst p ++ [0] ++ snd p ++ [0]) settings) ++ [0]).
  split; [exact E|]. split; [exact L|]. split; [|exact B]. rewrite E, !app_length. destruct L as [L _], M as [M _]. rewrite L, M. lia.
Qed.
Lemma startup_parse : forall pw settings t g, startup_msg settings t -> utf8_client settings ->
  parse_postgres pw t g = Ok (PgGot (length t) [] (set_startup true (set_err None g))).
Proof.
  intros pw settings t g (len & magic & (L1 & L2 & L3) & (M1 & M2 & M3) & B & F & E) U.
  set (body := concat (map (fun p : bytes * bytes => fst p ++ [0] ++ snd p ++ [0]) settings) ++ [0]) in *.
  assert (E' : t = len ++ magic ++ body) by exact E. clear E. rename E' into E. ns.
  assert (Lt : length t = (8 + length body)%nat) by (rewrite E, !app_length; lia).
  assert (Z0 : hd 1 t = 0).
  { rewrite E. destruct len as [|l0 [|l1 [|l2 [|l3 [|]]]]]; try discriminate L1. cbn [app hd].
    unfold number_of in L3. cbn [fold_left] in L3. inversion L2 as [|? ? B0 Bl1]; subst. lia. }
  unfold parse_postgres. destruct t as [|b t']; [discriminate Lt|]. cbn [hd] in Z0. subst b. change (0 =? 0) with true. cbv iota.
  f_equal. set (t := 0 :: t') in *. unfold parse_magic.
  destruct (Nat.ltb_spec (length t) 4) as [|_]; [lia|].
  assert (F4 : firstn 4 t = len) by (rewrite E, <- L1; rewrite firstn_app, Nat.sub_diag, firstn_all; cbn [firstn]; apply app_nil_r).
  assert (S4 : skipn 4 t = magic ++ body) by (rewrite E, <- L1; rewrite skipn_app, Nat.sub_diag, skipn_all; reflexivity).
  assert (F44 : firstn 4 (magic ++ body) = magic) by (rewrite <- M1; rewrite firstn_app, Nat.sub_diag, firstn_all; cbn [firstn]; apply app_nil_r).
  assert (S8 : skipn 8 t = body).
  { rewrite E, app_assoc. replace 8%nat with (length (len ++ magic)) by (rewrite app_length, L1, M1; reflexivity). rewrite skipn_app, Nat.sub_diag, skipn_all. reflexivity. }
  rewrite F4, S4, F44, S8. change (read_be len) with (number_of len). change (read_be magic) with (number_of magic). rewrite L3, M3.
  destruct (N.ltb_spec 65536 (N.of_nat (length t))); [lia|]. rewrite N.ltb_irrefl.
  destruct (N.ltb_spec (N.of_nat (length t)) 8); [lia|]. rewrite Nat2N.id.
  assert (Fb : firstn (length t - 8) body = body) by (apply firstn_all2; lia). rewrite Fb.
  change (196608 =? 80877103) with false. change (196608 =? 196608) with true. cbv iota.
  unfold body. rewrite strings_settings by exact F.
  destruct (encoding_ok settings [] (or_introl eq_refl) U) as [X|X]; rewrite X; reflexivity.
Qed.
Definition fresh_pg (g : pgst) : Prop := pg_flags g = [] /\ pg_stmts g = [] /\ pg_portals g = [].
Definition logged (k : conn) : Prop := k_proto k = Some POSTGRES /\ k_packet k = [] /\ k_closed k = false.
Lemma short_frame : forall tag body, N.of_nat (length body) < 2 ^ 30 -> pg_message tag body (pg_frame tag body).
Proof. intros. apply frame_message. change (2 ^ 32 - 4) with 4294967292. change (2 ^ 30) with 1073741824 in *. lia. Qed.
Lemma welcome_shows : forall v g, no_nul v -> (length v <= 100)%nat -> welcomes v (fst (auth_ok v g), None).
Proof.
  intros v g Nv Lv. unfold auth_ok, welcomes. cbn [fst]. do 4 eexists. split; [reflexivity|].
  split; [apply (short_frame 82 [0; 0; 0; 0]); reflexivity|].
  split; [apply short_frame; reflexivity|]. split; [apply short_frame; reflexivity|].
  rewrite firstn_all2 by (rewrite cstr_no_nul by exact Nv; rewrite app_length; cbn; lia). rewrite (cstr_no_nul v Nv). unfold setting, pg_status.
  rewrite (cstr_no_nul (v ++ bs " (Pogocache)")).
  2: { apply Forall_app. split; [exact Nv|]. repeat constructor; discriminate. }
  apply short_frame. rewrite !app_length. cbn [length]. change (2 ^ 30) with 1073741824.
  change (length (cstr (bs "server_version"))) with 14%nat. change (length (bs " (Pogocache)")) with 12%nat. lia.
Qed.
Lemma login_texts : forall pw v ts l, login pw v ts l -> forall cf, Forall (frames cf POSTGRES) ts /\ exists t r, ts = (0 :: t) :: r.
Proof.
  assert (H0 : forall settings t, startup_msg settings t -> exists r, t = 0 :: r).
  { intros settings t (len & magic & (L1 & L2 & L3) & _ & B & _ & E). rewrite E. destruct len as [|l0 [|l1 [|l2 [|l3 [|]]]]]; try discriminate L1.
    exists ([l1; l2; l3] ++ magic ++ concat (map (fun p => fst p ++ [0] ++ snd p ++ [0]) settings) ++ [0]).
    replace l0 with 0; [reflexivity|]. unfold number_of in L3. cbn [fold_left] in L3. inversion L2 as [|? ? B0 Bl1]; subst. lia. }
  intros pw v ts l L cf. induction L as [settings t Pw S U|settings t u Pw S U Pm|ts l L IH Ns].
  - split; [constructor; [|constructor]; apply frames_startup, (startup_text_of settings); exact S|]. destruct (H0 _ _ S) as [r ->]. eauto.
  - destruct Pm as (P1 & P2 & P3). split.
    + constructor; [apply frames_startup, (startup_text_of settings); exact S|]. constructor; [|constructor].
      apply (frames_message cf 112 (pw ++ [0])); [discriminate|exact P3|]. rewrite app_length. cbn [length]. change (2 ^ 31 - 4) with 2147483644. change (2 ^ 30) with 1073741824 in P2. lia.
    + destruct (H0 _ _ S) as [r ->]. eauto.
  - split; [constructor; [|exact (proj1 IH)]|exists (tl ssl_request), ts; reflexivity].
    apply frames_startup. exists [0; 0; 0; 8], [4; 210; 22; 47]. split; [reflexivity|]. split; [|cbn; lia]. split; [reflexivity|]. split; [|reflexivity].
    repeat constructor.
Qed.
Lemma turn_startup : forall cf settings t k, startup_msg settings t -> utf8_client settings -> k_proto k = Some POSTGRES -> fresh_pg (k_pg k) ->
  no_nul (cf_password cf) -> no_nul (cf_version cf) -> (length (cf_version cf) <= 100)%nat ->
  exists g ws, conn_turn cf t k = Ok (Turn (length t) (with_pg g k) ws None) /\ fresh_pg g /\
    (cf_password cf = [] -> welcomes (cf_version cf) (ws, None) /\ Postgres.pg_ready g = true) /\
    (cf_password cf <> [] -> asks (ws, None) /\ pg_startup g = true).
Proof.
  intros cf settings t k S U P (F1 & F2 & F3) Np Nv Lv. rewrite (turn_by cf POSTGRES) by exact P. cbn [parse_by].
  rewrite (startup_parse _ settings t _ S U). cbn [turn_of with_pg k_proto k_pg]. rewrite P. unfold pg_respond.
  cbn [set_startup set_err pg_err has_flag pg_flags pg_startup]. unfold has_flag. cbn [pg_flags set_startup set_err]. rewrite F1. cbn [existsb].
  rewrite (cstr_no_nul _ Np). destruct (cf_password cf) as [|x pw] eqn:Ep.
  - destruct (auth_ok (cf_version cf) (set_startup true (set_err None (k_pg k)))) as [ws g] eqn:A. cbn [r_out r_keep r_auth r_pg].
    exists (set_startup false g), ws. split; [reflexivity|]. unfold auth_ok in A. injection A as A1 A2.
    split; [subst g; split; [exact F1|split; [exact F2|exact F3]]|]. split; [|congruence]. intros _. split; [|subst g; reflexivity].
    subst ws. exact (welcome_shows (cf_version cf) (k_pg k) Nv Lv).
  - exists (set_startup true (set_err None (k_pg k))), [WRaw (pg_auth 3)]. split; [reflexivity|]. split; [split; [exact F1|split; [exact F2|exact F3]]|].
    split; [congruence|]. intros _. split; [|reflexivity]. exists (pg_auth 3). split; [reflexivity|]. apply (short_frame 82 [0; 0; 0; 3]). reflexivity.
Qed.
Lemma turn_password : forall cf t k, password_msg (cf_password cf) t -> k_proto k = Some POSTGRES -> fresh_pg (k_pg k) -> pg_startup (k_pg k) = true ->
  no_nul (cf_version cf) -> (length (cf_version cf) <= 100)%nat ->
  exists g ws, conn_turn cf t k = Ok (Turn (length t) (with_pg g (conn_authed k)) ws None) /\ fresh_pg g /\
    welcomes (cf_version cf) (ws, None) /\ Postgres.pg_ready g = true.
Proof.
  intros cf t k (P1 & P2 & P3) P (F1 & F2 & F3) St Nv Lv.
  assert (B31 : N.of_nat (length (cf_password cf ++ [0])) < 2 ^ 31 - 4).
  { rewrite app_length. cbn [length]. change (2 ^ 31 - 4) with 2147483644. change (2 ^ 30) with 1073741824 in P2. lia. }
  destruct (turn_message cf k 112 _ t P ltac:(discriminate) P3 B31) as [L T].
  rewrite (pg_do_step _ 112 _ _ (Ok (parsep (cf_password cf) (cf_password cf ++ [0]) (set_err None (k_pg k))))) in T by (try lia; auto 8).
  unfold parsep in T. rewrite cstr_field in T by exact P1. cbn [field at_end] in T. rewrite (cstr_no_nul _ P1), beq_refl in T.
  cbn [turn_of with_pg k_proto k_pg] in T. rewrite P in T. rewrite <- L in T.
  destruct (k_pg k) as [g1 g2 g3 g4 g5 g6 g7 g8 g9] eqn:Eg. cbn in F1, F2, F3, St. subst.
  cbn -[auth_ok] in T. unfold pg_respond in T. cbn -[auth_ok] in T.
  destruct (auth_ok (cf_version cf) _) as [ws g] eqn:A. cbn in T. unfold auth_ok in A. injection A as A1 A2.
  do 2 eexists. split; [exact T|]. subst g. split; [split; [reflexivity|split; reflexivity]|]. split; [|reflexivity]. subst ws.
  exact (welcome_shows (cf_version cf) pg_new Nv Lv).
Qed.
Lemma fresh_repr : forall g, fresh_pg g -> Postgres.pg_ready g = true -> repr g no_sess.
Proof.
  intros g (A & B & C) R. split; [exact A|]. split; [exact R|]. split; [intro name; rewrite B; reflexivity|]. split; [discriminate|].
  intro name. rewrite C. reflexivity.
Qed.
Lemma login_run : forall c cf orc ts l, login (cf_password cf) (cf_version cf) ts l -> no_nul (cf_version cf) -> (length (cf_version cf) <= 100)%nat ->
  no_nul (cf_password cf) -> forall i k ch, logged k -> k_tls k = false -> fresh_pg (k_pg k) ->
  exists k' ds, evpackets c cf orc i ts k ch = Ok (k', ch, i, ds, []) /\ logged k' /\ repr (k_pg k') no_sess /\
    map d_raw ds = ts /\ Forall2 did_answer l ds.
Proof.
  intros c cf orc ts l L Nv Lv Np. induction L as [settings t Pw S U|settings t u Pw S U Pm|ts l L IH Ns]; intros i k ch (K1 & K2 & K3) Tl F.
  - destruct (turn_startup cf settings t k S U K1 F Np Nv Lv) as (g & ws & T & F' & W & _). destruct (W Pw) as [W1 W2].
    rewrite evpackets_then. rewrite (evdata_turn c cf orc i t k ch _ ws None POSTGRES K3 K2 (proj1 (frames_startup cf t (startup_text_of _ _ S))) T (like_pg g k) K1 ltac:(discriminate)).
    do 2 eexists. split; [reflexivity|]. split; [exact (conj K1 (conj K2 K3))|]. split; [apply fresh_repr; assumption|]. split; [reflexivity|].
    constructor; [exact W1|constructor].
  - destruct (turn_startup cf settings t k S U K1 F Np Nv Lv) as (g & ws & T & F' & _ & W). destruct (W Pw) as [W1 W2].
    rewrite evpackets_then. rewrite (evdata_turn c cf orc i t k ch _ ws None POSTGRES K3 K2 (proj1 (frames_startup cf t (startup_text_of _ _ S))) T (like_pg g k) K1 ltac:(discriminate)).
    cbn [then_]. rewrite evpackets_then.
    destruct (turn_password cf u (with_pg g k) Pm K1 F' W2 Nv Lv) as (g2 & ws2 & T2 & F2 & W3 & W4).
    assert (Nu : u <> []). { destruct Pm as (_ & _ & M). inversion M. discriminate. }
    rewrite (evdata_turn c cf orc i u (with_pg g k) ch _ ws2 None POSTGRES K3 K2 Nu T2
      (like_trans _ _ _ (like_authed _) (like_pg g2 (conn_authed (with_pg g k)))) K1 ltac:(discriminate)).
    cbn [then_ evpackets app]. do 2 eexists. split; [reflexivity|]. split; [exact (conj K1 (conj K2 K3))|]. split; [apply fresh_repr; assumption|]. split; [reflexivity|].
    constructor; [exact W1|]. constructor; [exact W3|constructor].
  - rewrite evpackets_then.
    assert (T : conn_turn cf ssl_request k = Ok (Turn 8 (with_pg (del_flag FSsl (add_flag FSsl (set_err None (k_pg k)))) k) [WRaw (bs "N")] None)).
    { rewrite (turn_by cf POSTGRES) by exact K1. cbn [parse_by]. 
      replace (parse_postgres (cf_password cf) ssl_request (k_pg k)) with (Ok (PgGot 8 [] (add_flag FSsl (set_err None (k_pg k))))) by reflexivity.
      cbn [turn_of with_pg k_proto k_pg k_tls]. rewrite K1, Tl. destruct F as (F1 & F2 & F3). destruct (k_pg k). cbn in F1. subst. reflexivity. }
    rewrite (evdata_turn c cf orc i ssl_request k ch _ _ None POSTGRES K3 K2 ltac:(discriminate) T (like_pg _ k) K1 ltac:(discriminate)).
    destruct (IH i (with_pg (del_flag FSsl (add_flag FSsl (set_err None (k_pg k)))) k) ch) as (k' & ds & E & Lg & R & Dr & An).
    + exact (conj K1 (conj K2 K3)).
    + exact Tl.
    + destruct F as (F1 & F2 & F3). destruct (k_pg k). cbn in F1, F2, F3. subst. split; [reflexivity|split; reflexivity].
    + cbn [then_]. rewrite E. do 2 eexists. split; [reflexivity|]. split; [exact Lg|]. split; [exact R|]. cbn [app map d_raw]. split; [f_equal; exact Dr|].
      constructor; [reflexivity|exact An].
Qed.
Lemma packets_app : forall c cf orc a b i k ch, evpackets c cf orc i (a ++ b) k ch = then_ (evpackets c cf orc i a k ch) (fun i k ch => evpackets c cf orc i b k ch).
Proof.
  intros c cf orc. induction a as [|x a IH]; intros b i k ch.
  - cbn [app evpackets]. rewrite then_ok. reflexivity.
  - cbn [app]. rewrite !evpackets_then, then_assoc. destruct (evdata c cf orc i x k ch) as [[[[[k1 ch1] i1] ds1] ev1]|]; [|reflexivity]. cbn [then_]. rewrite IH. reflexivity.
Qed.
Lemma session_full : forall c cf orc ch ms ts l texts packets, login (cf_password cf) (cf_version cf) ts l -> no_nul (cf_version cf) -> (length (cf_version cf) <= 100)%nat ->
  no_nul (cf_password cf) -> Forall2 cmsg_text ms texts -> concat packets = concat (ts ++ texts) ->
  forall k' ch' i' ds evs, evpackets c cf orc 0 packets (conn_new false) ch = Ok (k', ch', i', ds, evs) ->
  exists n, map d_raw ds = ts ++ firstn n texts /\ Forall2 did_answer (l ++ map shown_as (firstn n (sess_answers no_sess ms))) ds /\
    (n = length ms \/ stopped k' ds).
Proof.
  intros c cf orc ch ms ts l texts packets L Nv Lv Np F E k' ch' i' ds evs H.
  destruct (login_texts _ _ _ _ L cf) as [Fr (t0 & r0 & E0)].
  assert (E1 : exists s, concat packets = 0 :: s) by (rewrite E, E0; cbn [app List.concat]; eauto). destruct E1 as [s E1].
  rewrite (fresh_first c cf orc packets 0 (conn_new false) ch POSTGRES 0 s eq_refl eq_refl eq_refl E1 (or_intror (conj eq_refl eq_refl))) in H.
  rewrite (split_packets c cf orc POSTGRES ltac:(discriminate) packets (ts ++ texts)) in H; [|apply Forall_app; split; [exact Fr|]|reflexivity|reflexivity|reflexivity|exact E].
  2: { clear -F. induction F as [|m t ms texts M F IH]; constructor; [exact (cmsg_frames cf m t M)|exact IH]. }
  rewrite packets_app in H.
  destruct (login_run c cf orc ts l L Nv Lv Np 0%nat (with_proto POSTGRES (conn_new false)) ch) as (k1 & ds1 & E2 & (G1 & G2 & G3) & R & Dr & An);
    [repeat split|reflexivity|split; [reflexivity|split; reflexivity]|].
  rewrite E2 in H. cbn [then_] in H. destruct (evpackets c cf orc 0 texts k1 ch) as [[[[[k2 ch2] i2] ds2] ev2]|] eqn:E3; [|discriminate]. injection H as <- <- <- <- <-.
  destruct (session_run c cf orc ms texts F _ _ _ _ _ _ _ _ _ G1 G2 G3 R E3) as (n & A & B & C).
  exists n. split; [rewrite map_app, Dr, A; reflexivity|]. split; [apply Forall2_app; assumption|]. destruct C as [C|(C & ds0 & d0 & args & es & Cs & C1)]; [left; exact C|right].
  split; [exact C|]. exists (ds1 ++ ds0), d0, args, es. split; [rewrite Cs, app_assoc; reflexivity|exact C1].
Qed.

(** ** What is run and what is read *)
Lemma turn_auth : forall cf data k t, conn_turn cf data k = Ok t ->
  match t with
  | Wait k1 => k_auth k1 = k_auth k
  | Shut k1 _ | Turn _ k1 _ None => k_auth k1 = k_auth k \/ proto_of k1 = POSTGRES
  | Turn _ k1 _ (Some _) => k_auth k1 = k_auth k
  end.
Proof.
  intros cf data k t H. rewrite conn_turn_of in H. destruct (parse_command cf data k) as [x|] eqn:E; [|discriminate].
  assert (A : k_auth (conn_of x) = k_auth k).
  { unfold parse_command in E.
    assert (B : forall p k0, parse_by cf p data k0 = Ok x -> k_auth (conn_of x) = k_auth k0).
    { intros p k0 B. destruct p; cbn [parse_by] in B.
      - destruct (parse_memcache data) as [[]|]; try discriminate B; injection B as <-; reflexivity.
      - destruct (parse_postgres _ _ _) as [[]|]; try discriminate B; injection B as <-; reflexivity.
      - destruct (parse_http _ _); injection B as <-; reflexivity.
      - destruct (match data with [] => _ | _ => _ end); [destruct (parse_resp data) as [[]|]|destruct (parse_resp_telnet data)]; try discriminate B; injection B as <-; reflexivity. }
    destruct (k_proto k); [exact (B _ _ E)|]. destruct (sniff_proto data); [exact (B _ _ E)|]. injection E as <-. reflexivity. }
  destruct x as [k1|m n k1|n args k1]; cbn [turn_of conn_of] in *.
  - injection H as <-. exact A.
  - destruct (k_proto k1) as [[]|]; injection H as <-; auto.
  - destruct args as [|a args].
    + destruct (k_proto k1) as [[]|] eqn:P; try discriminate H; try (injection H as <-; auto; fail).
      destruct (pg_respond _ _ _ _) as [r|]; [|discriminate]. cbv zeta in H.
      assert (Q : forall k0, k_proto k0 = Some POSTGRES -> proto_of k0 = POSTGRES) by (intros k0 Q; unfold proto_of; rewrite Q; reflexivity).
      destruct (r_keep r); injection H as <-; right; apply Q; destruct (r_auth r); exact P.
    + destruct (k_proto k1) as [[]|] eqn:P; try (injection H as <-; auto; fail).
      destruct (negb _); [injection H as <-; auto|]. destruct (pg_precommand _ _) as [[ws g] cmd]. injection H as <-. destruct cmd; auto.
Qed.
Lemma runs_app : forall c cf orc ds1 ds2 b i ch b1 i1 ch1 ev1 b2 i2 ch2 ev2, runs c cf orc b i ch ds1 b1 i1 ch1 ev1 ->
  runs c cf orc b1 i1 ch1 ds2 b2 i2 ch2 ev2 -> runs c cf orc b i ch (ds1 ++ ds2) b2 i2 ch2 (ev1 ++ ev2).
Proof.
  intros c cf orc ds1 ds2 b i ch b1 i1 ch1 ev1 b2 i2 ch2 ev2 H H2. induction H; [exact H2| |].
  - cbn [app]. eapply runs_reply; eauto.
  - cbn [app]. rewrite <- app_assoc. eapply runs_command; eauto.
Qed.
Lemma after_auth : forall es k, k_auth (after es k) = true <-> k_auth k = true \/ In Authed es.
Proof.
  intros es k. assert (E : k_auth (after es k) = if existsb (fun e => match e with Authed => true | _ => false end) es then true else k_auth k).
  { unfold after. destruct (existsb _ es), (existsb _ es); reflexivity. }
  rewrite E. destruct (existsb _ es) eqn:X.
  - apply existsb_exists in X. destruct X as ([] & I & X); try discriminate X. tauto.
  - split; [auto|]. intros [H|H]; [exact H|]. assert (Y : existsb (fun e => match e with Authed => true | _ => false end) es = true) by (apply existsb_exists; exists Authed; auto). congruence.
Qed.
(** The bytes that were read, and those that are left. *)
Definition reads (before after : bytes) (k' : conn) (ds : list did) : Prop :=
  exists rest, before = concat (map d_raw ds) ++ rest /\ (k_closed k' = false -> rest = k_packet k' ++ after).
Lemma loop_runs : forall c cf orc fuel i data k ch k' ch' i' ds evs, k_closed k = false -> conn_loop c cf orc fuel i data k ch = Ok (k', ch', i', ds, evs) ->
  runs c cf orc (k_auth k) i ch ds (k_auth k') i' ch' evs /\ reads data [] k' ds.
Proof.
  intros c cf orc. induction fuel as [|f IH]; intros i data k ch k' ch' i' ds evs Ck H; [discriminate|].
  cbn [conn_loop] in H. destruct data as [|x data].
  { injection H as <- <- <- <- <-. split; [constructor|]. exists []. auto. }
  set (s := x :: data) in *.
  destruct (conn_turn cf s k) as [[k1|k1 ws|n k1 ws cmd]|] eqn:T; [| | |discriminate];
    pose proof (turn_auth _ _ _ _ T) as A; cbn in A; pose proof (turn_like _ _ _ _ T) as (_ & B2 & _ & _ & B5); cbn [turn_conn] in B2, B5.
  - injection H as <- <- <- <- <-. split; [cbn [with_packet k_auth]; rewrite A; constructor|]. exists s. split; [reflexivity|]. intros _. cbn. rewrite app_nil_r. reflexivity.
  - injection H as <- <- <- <- <-. split; [|exists s; split; [reflexivity|discriminate]].
    eapply runs_reply; [reflexivity|exact A|]. constructor.
  - assert (ND : s <> []) by discriminate. pose proof (turn_within _ _ _ _ _ _ _ ND T) as W. cbv zeta in H.
    assert (Go : forall d k2 ch2 ev2 i2 (b : bool), d_raw d = firstn n s ->
      (if k_closed (match k_proto k2 with Some HTTP => conn_shut k2 | _ => k2 end) then
         Ok (conn_shut (match k_proto k2 with Some HTTP => conn_shut k2 | _ => k2 end), ch2, i2, [d], ev2)
       else match conn_loop c cf orc f i2 (skipn n s) (match k_proto k2 with Some HTTP => conn_shut k2 | _ => k2 end) ch2 with
         | Bad t => Bad t
         | Ok (k4, ch4, i4, ds, evs) => Ok (k4, ch4, i4, d :: ds, ev2 ++ evs)
         end) = Ok (k', ch', i', ds, evs) ->
      exists ds0 ev0, ds = d :: ds0 /\ evs = ev2 ++ ev0 /\ runs c cf orc (k_auth k2) i2 ch2 ds0 (k_auth k') i' ch' ev0 /\ reads s [] k' ds).
    { intros d k2 ch2 ev2 i2 b Dr E. set (k3 := match k_proto k2 with Some HTTP => conn_shut k2 | _ => k2 end) in *.
      assert (A3 : k_auth k3 = k_auth k2) by (unfold k3; destruct (k_proto k2) as [[]|]; reflexivity).
      destruct (k_closed k3) eqn:C3.
      - injection E as <- <- <- <- <-. exists [], []. rewrite app_nil_r. split; [reflexivity|]. split; [reflexivity|].
        split; [cbn [conn_shut k_auth]; rewrite A3; constructor|]. exists (skipn n s). split; [|discriminate].
        cbn [map List.concat]. rewrite Dr, app_nil_r, firstn_skipn. reflexivity.
      - destruct (conn_loop c cf orc f i2 (skipn n s) k3 ch2) as [[[[[k4 ch4] i4] ds4] evs4]|] eqn:Lp; [|discriminate].
        injection E as <- <- <- <- <-. destruct (IH _ _ _ _ _ _ _ _ _ C3 Lp) as (R & rest & R1 & R2). exists ds4, evs4. rewrite <- A3.
        split; [reflexivity|]. split; [reflexivity|]. split; [exact R|]. exists rest. split; [|exact R2].
        cbn [map List.concat]. rewrite <- app_assoc, <- R1, Dr, firstn_skipn. reflexivity. }
    destruct cmd as [args|].
    + destruct (prun c (orc i) 0 ch _) as [[[ch2 es] ev2]|] eqn:R; [|discriminate]. apply Go in H; [|exact true|reflexivity].
      destruct H as (ds0 & ev0 & -> & -> & Rn & Rd). split; [|exact Rd]. eapply runs_command; [reflexivity| | |exact Rn].
      * cbn [d_proto]. rewrite <- A. exact R.
      * rewrite <- A. apply after_auth.
    + apply Go in H; [|exact true|reflexivity]. destruct H as (ds0 & ev0 & -> & -> & Rn & Rd). split; [|exact Rd]. eapply runs_reply; [reflexivity| |exact Rn].
      exact A.
Qed.
Lemma packets_run : forall c cf orc packets i k ch k' ch' i' ds evs, evpackets c cf orc i packets k ch = Ok (k', ch', i', ds, evs) ->
  runs c cf orc (k_auth k) i ch ds (k_auth k') i' ch' evs /\ (k_closed k = false -> reads (k_packet k ++ concat packets) [] k' ds).
Proof.
  intros c cf orc. induction packets as [|x packets IH]; intros i k ch k' ch' i' ds evs H.
  { injection H as <- <- <- <- <-. split; [constructor|]. intros _. exists (k_packet k). rewrite !app_nil_r. auto. }
  cbn [evpackets] in H. destruct (evdata c cf orc i x k ch) as [[[[[k1 ch1] i1] ds1] ev1]|] eqn:E; [|discriminate].
  destruct (evpackets c cf orc i1 packets k1 ch1) as [[[[[k2 ch2] i2] ds2] ev2]|] eqn:R; [|discriminate]. injection H as <- <- <- <- <-.
  destruct (IH _ _ _ _ _ _ _ _ R) as [R1 R2]. unfold evdata in E. destruct (k_closed k) eqn:C.
  - injection E as <- <- <- <- <-. split; [exact R1|discriminate].
  - destruct (loop_runs c cf orc _ _ _ (with_packet [] k) _ _ _ _ _ _ C E) as [A B]. split; [eapply runs_app; [exact A|exact R1]|].
    intros _. destruct B as (rest & B1 & B2). destruct (k_closed k1) eqn:C1.
    + rewrite closed_packets in R by exact C1. injection R as <- <- <- <- <-. exists (rest ++ concat packets). rewrite app_nil_r. split; [|congruence].
      cbn [List.concat]. rewrite app_assoc, B1, <- app_assoc. reflexivity.
    + specialize (B2 eq_refl). rewrite app_nil_r in B2. subst rest. destruct (R2 eq_refl) as (rest & R3 & R4). exists rest. split; [|exact R4].
      cbn [List.concat]. rewrite app_assoc, B1, <- app_assoc, R3, map_app, concat_app, <- app_assoc. reflexivity.
Qed.

(** ** The protocol of the first line *)
Lemma line_end : forall line rest i, ~ In 10 line -> first_line_end (line ++ 10 :: rest) i = (i + S (length line))%nat.
Proof.
  induction line as [|b line IH]; intros rest i H; cbn [app first_line_end length]; [cbn; lia|].
  destruct (N.eqb_spec b 10) as [->|]; [destruct H; left; reflexivity|]. rewrite IH by (intro Q; apply H; right; exact Q). lia.
Qed.
Lemma line_blanks : forall line rest, exists sp l, line = sp ++ l /\ Forall (fun b => b = 32) sp /\ hd 10 l <> 32 /\
  leading_blanks (line ++ 10 :: rest) = length sp /\ nth (length sp) (line ++ 10 :: rest) 0 = hd 10 l.
Proof.
  induction line as [|b line IH]; intros rest.
  - exists [], []. repeat split; [constructor|discriminate].
  - destruct (N.eqb_spec b 32) as [->|Nb].
    + destruct (IH rest) as (sp & l & E & F & H & L & N0). exists (32 :: sp), l. split; [cbn; f_equal; exact E|]. split; [constructor; auto|]. split; [exact H|].
      cbn [app leading_blanks length nth]. change (32 =? 32) with true. cbv iota. split; [f_equal; exact L|exact N0].
    + exists [], (b :: line). split; [reflexivity|]. split; [constructor|]. split; [exact Nb|]. cbn [app leading_blanks length nth hd].
      apply N.eqb_neq in Nb. rewrite Nb. auto.
Qed.
Lemma http_test : forall line rest, let n := S (length line) in
  (11 <=? n)%nat && beq (firstn 5 (skipn (n - 11) (line ++ 10 :: rest))) (bs " HTTP")
       && (nth (n - 4) (line ++ 10 :: rest) 0 =? 46) && (nth (n - 2) (line ++ 10 :: rest) 0 =? 13) = true <-> http_line line.
Proof.
  intros line rest n. unfold n. destruct (Nat.leb_spec 11 (S (length line))) as [L|L]; cbn [andb].
  - assert (E : exists a t, line = a ++ t /\ length t = 10%nat).
    { exists (firstn (length line - 10) line), (skipn (length line - 10) line). split; [symmetry; apply firstn_skipn|]. rewrite skipn_length. lia. }
    destruct E as (a & t & -> & Lt). assert (La : length (a ++ t) = (length a + 10)%nat) by (rewrite app_length; lia).
    replace (S (length (a ++ t)) - 11)%nat with (length a) by (ns; lia). replace (S (length (a ++ t)) - 4)%nat with (length a + 7)%nat by (ns; lia).
    replace (S (length (a ++ t)) - 2)%nat with (length a + 9)%nat by (ns; lia). rewrite <- app_assoc.
    rewrite skipn_app, Nat.sub_diag, skipn_all. cbn [skipn]. 
    rewrite !app_nth2_plus.
    destruct t as [|c0 [|c1 [|c2 [|c3 [|c4 [|c5 [|c6 [|c7 [|c8 [|c9 [|]]]]]]]]]]]; try discriminate Lt. cbn [app firstn nth].
    rewrite !andb_true_iff, !N.eqb_eq. split.
    + intros [[A B] C]. apply beq_eq in A. subst. injection A as -> -> -> -> ->. exists a, c5, c6, c8. reflexivity.
    + intros (a' & v & w & x & E). 
      assert (X : rev [c0; c1; c2; c3; c4; c5; c6; c7; c8; c9] = rev (bs " HTTP" ++ [v; w; 46; x; 13])).
      { apply (f_equal (fun l => firstn 10 (rev l))) in E. rewrite !rev_app_distr in E. exact E. }
      injection X as -> -> -> -> -> -> -> -> -> ->. auto.
  - split; [discriminate|]. intros (a & v & w & x & ->). rewrite !app_length in L. cbn in L. lia.
Qed.
Lemma sniff_line : forall line rest, ~ In 10 line -> exists p, sniff_proto (line ++ 10 :: rest) = Some p /\ speaks line p.
Proof.
  intros line rest H. pose proof (line_end line rest 0 H) as E. cbn [Nat.add] in E.
  pose proof (http_test line rest) as Ht. cbv zeta in Ht.
  destruct (line_blanks line rest) as (sp & l & El & Fs & Hl & Lb & Nb). unfold sniff_proto. rewrite E, Lb, Nb.
  destruct line as [|b line].
  { destruct sp; [|discriminate El]. destruct l; [|discriminate El]. exists MEMCACHE. split; [reflexivity|].
    apply (speaks_memcache [] []); try discriminate; [constructor|unfold upper; cbn; lia|]. intros (a & v & w & x & Q). destruct a; discriminate Q. }
  cbn [app]. destruct (N.eqb_spec b 42) as [->|N42]; [exists RESP; split; [reflexivity|constructor]|].
  destruct (N.eqb_spec b 0) as [->|N0]; [exists POSTGRES; split; [reflexivity|constructor]|].
  change (b :: line ++ 10 :: rest) with ((b :: line) ++ 10 :: rest).
  match type of Ht with ?x = true <-> _ => destruct x eqn:T end.
  - exists HTTP. split; [reflexivity|]. apply speaks_http; [exact N42|exact N0|]. apply Ht. reflexivity.
  - assert (NH : ~ http_line (b :: line)) by (intro Q; apply Ht in Q; discriminate Q).
    assert (L : (length sp <= length (b :: line))%nat) by (rewrite El, app_length; lia).
    destruct (Nat.leb_spec (length sp) (S (length (b :: line)))) as [_|]; [|lia].
    replace (0 <? S (length (b :: line)) - length sp)%nat with true by (symmetry; apply Nat.ltb_lt; ns; lia).
    replace (1 <=? S (length (b :: line)) - length sp)%nat with true by (symmetry; apply Nat.leb_le; ns; lia). cbn [andb].
    destruct (N.leb_spec 65 (hd 10 l)) as [A1|A1]; [destruct (N.leb_spec (hd 10 l) 90) as [A2|A2]|]; cbn [andb].
    + exists RESP. split; [reflexivity|]. rewrite El in NH |- *. apply speaks_telnet; [exact Fs|split; assumption|exact NH].
    + exists MEMCACHE. split; [reflexivity|]. rewrite El in NH |- *. apply speaks_memcache; try assumption; try (rewrite <- El; assumption). unfold upper. lia.
    + exists MEMCACHE. split; [reflexivity|]. rewrite El in NH |- *. apply speaks_memcache; try assumption; try (rewrite <- El; assumption). unfold upper. lia.
Qed.
Lemma blanks_unique : forall sp l sp' l', Forall (fun b => b = 32) sp -> Forall (fun b => b = 32) sp' -> hd 10 l <> 32 -> hd 10 l' <> 32 -> sp ++ l = sp' ++ l' -> l = l'.
Proof.
  induction sp as [|x sp IH]; intros l [|y sp'] l' F F' H H' E; cbn [app] in E.
  - exact E.
  - inversion F'; subst. cbn in H. congruence.
  - inversion F; subst. cbn in H'. congruence.
  - inversion F; inversion F'; subst. injection E as E. eapply IH; eauto.
Qed.
Lemma speaks_unique : forall line p q, speaks line p -> speaks line q -> p = q.
Proof.
  assert (G : forall p q line line', speaks line p -> speaks line' q -> line = line' -> p = q).
  { assert (NH : forall sp l, Forall (fun b => b = 32) sp -> upper (hd 10 l) -> hd 10 (sp ++ l) <> 42 /\ hd 10 (sp ++ l) <> 0).
    { intros [|x sp] l F U; [unfold upper in U; cbn [app]; lia|]. inversion F; subst. cbn. split; discriminate. }
    assert (NU : forall l, upper (hd 10 l) -> hd 10 l <> 32) by (unfold upper; intros; lia).
    intros p q line line' A B E. destruct A; destruct B; subst; try reflexivity; try discriminate; try contradiction;
      try (cbn [hd] in *; congruence);
      try (match goal with F : Forall _ ?sp, U : upper (hd 10 ?l), X : _ = ?sp ++ ?l |- _ => destruct (NH sp l F U) as [? ?]; rewrite <- X in *; cbn [hd] in *; congruence end);
      try (match goal with F : Forall _ ?sp, U : upper (hd 10 ?l), X : ?sp ++ ?l = _ |- _ => destruct (NH sp l F U) as [? ?]; rewrite X in *; cbn [hd] in *; congruence end).
    all: try (match goal with X : _ = ?sp ++ ?l, H : hd 10 (?sp ++ ?l) <> 42 |- _ => rewrite <- X in *; cbn [hd] in *; congruence end).
    all: try (match goal with X : ?sp ++ ?l = _, H : hd 10 (?sp ++ ?l) <> 42 |- _ => rewrite X in *; cbn [hd] in *; contradiction || congruence end).
    - assert (X := blanks_unique _ _ _ _ H H2 (NU _ H0) H5 E). subst. contradiction.
    - assert (X := blanks_unique _ _ _ _ H H5 H2 (NU _ H6) E). subst. contradiction. }
  intros line p q A B. exact (G p q line line A B eq_refl).
Qed.
