(** C41: Postgres messages are parsed within their bounds and mean what they say. *)
From Verif Require Import Base Types Clamp Entry Hash Map Shard Cache Text IntText CmdTable CmdSpec Prog Cmds Reply ReplySpec ReplyProofs Postgres PgSpec PgProofs Conn ConnProofs ConnProofs2 PgProofs2 ConnSpec ConnProofs3 ConnProofs4 PgProofs3 PropCache PropCmds PropHttp.
From Coq Require Import String Lia.
Local Open Scope N_scope.
Notation length := List.length.
Notation concat := List.concat.
Notation map := List.map.

(** A client starts a session, with the password if there is one, and sends any
    well-formed messages, in packets cut anywhere. Every message is answered in
    order from exactly its own bytes, as the session says: the parameters of a
    statement stand in their places, quoted text stands for itself. The session
    goes on to the last message unless a command asked to close the
    connection. *)
Theorem C41_session : forall c cf orc ch ms ts l texts packets,
  login (cf_password cf) (cf_version cf) ts l -> no_nul (cf_version cf) -> (length (cf_version cf) <= 100)%nat -> no_nul (cf_password cf) ->
  Forall2 cmsg_text ms texts -> concat packets = concat (ts ++ texts) ->
  forall k' ch' i' ds evs, evpackets c cf orc 0 packets (conn_new false) ch = Ok (k', ch', i', ds, evs) ->
  exists n, map d_raw ds = ts ++ firstn n texts /\
    Forall2 did_answer (l ++ map shown_as (firstn n (sess_answers no_sess ms))) ds /\
    (n = length ms \/ stopped k' ds).
Proof. exact session_full. Qed.

(** A message is read from its own bytes: whatever follows changes nothing, no
    part of it is enough, and exactly its bytes are taken. *)
Theorem C41_message : forall cf tag body s k, tag <> 0 -> pg_message tag body s -> N.of_nat (length body) < 2 ^ 31 - 4 -> k_proto k = Some POSTGRES ->
  (forall rest, conn_turn cf (s ++ rest) k = conn_turn cf s k) /\
  (forall kw, conn_turn cf s k <> Ok (Wait kw)) /\
  (forall n k1 ws cmd, conn_turn cf s k = Ok (Turn n k1 ws cmd) -> n = length s) /\
  (forall a b, s = a ++ b -> a <> [] -> b <> [] -> exists kw, conn_turn cf a k = Ok (Wait kw)).
Proof. intros cf tag body s k T M L P. exact (proj2 (frames_message cf tag body s T M L) k P). Qed.

(** No data, however malformed, leads a Postgres connection into trouble, except
    a message whose declared length is smaller than the length field. *)
Theorem C41_trouble : forall cf k data t, reached cf k -> k_proto k = Some POSTGRES -> bytes_ok data -> conn_turn cf data k = Bad t -> short_length data.
Proof.
  intros cf k data t R P B H. pose proof (reached_sound cf k R) as S. rewrite (turn_by cf POSTGRES) in H by exact P. cbn [parse_by] in H.
  pose proof (pg_sound (cf_password cf) data (k_pg k) S B) as G.
  destruct (parse_postgres (cf_password cf) data (k_pg k)) as [[|m g|n args g]|x]; [discriminate H| | |exact G].
  - cbn [turn_of with_pg k_proto] in H. rewrite P in H. discriminate H.
  - cbn [turn_of with_pg k_proto k_pg k_tls] in H. rewrite P in H. destruct args as [|a args].
    + destruct (respond_sound (cf_password cf) (cf_version cf) (k_tls k) g G) as (r & E & _).
      rewrite E in H. destruct (r_keep r); discriminate H.
    + destruct (negb (Postgres.pg_ready g)); [discriminate H|]. destruct (pg_precommand (a :: args) g) as [[ws g'] cmd]. discriminate H.
Qed.

(** The parser of queries never stops early: the bound of its loop is not
    reached. *)
Theorem C41_query_ends : forall q f, (length q < f)%nat ->
  query_loop f q false false [] [] [] = query_loop (S (length q)) q false false [] [] [].
Proof. intros q f L. apply query_fuel; [exact L|apply Nat.lt_succ_diag_r]. Qed.

(** A wrong password ends the connection; nothing sent after it is looked at and
    the cache is not touched. *)
Theorem C41_wrong_password : forall c cf orc ch settings t pw u packets more,
  no_nul (cf_version cf) -> (length (cf_version cf) <= 100)%nat -> no_nul (cf_password cf) -> cf_password cf <> [] ->
  startup_msg settings t -> utf8_client settings -> password_msg pw u -> pw <> cf_password cf -> concat packets = t ++ u ->
  exists k' d d', evpackets c cf orc 0 (packets ++ more) (conn_new false) ch = Ok (k', ch, 0%nat, [d; d'], []) /\
    k_closed k' = true /\ k_auth k' = false /\ did_answer asks d /\
    d_what d' = ([WError (bs "WRONGPASS invalid username-password pair or user is disabled.")], None).
Proof.
  intros c cf orc ch settings t pw u packets more Nv Lv Np Ne S U (P1 & P2 & P3) D E.
  assert (B31 : N.of_nat (length (pw ++ [0])) < 2 ^ 31 - 4).
  { rewrite app_length. cbn [length]. change (2 ^ 31 - 4) with 2147483644. change (2 ^ 30) with 1073741824 in P2. lia. }
  pose proof (frames_startup cf t (startup_text_of _ _ S)) as Ft.
  pose proof (frames_message cf 112 (pw ++ [0]) u ltac:(discriminate) P3 B31) as Fu.
  assert (H0 : exists s, t = 0 :: s).
  { destruct S as (len & magic & (L1 & L2 & L3) & _ & L4 & _ & Et). destruct len as [|b len]; [discriminate L1|]. rewrite Et. exists (len ++ magic ++ concat (map (fun p => fst p ++ [0] ++ snd p ++ [0]) settings) ++ [0]).
    cbn [app]. f_equal. destruct len as [|b1 [|b2 [|b3 [|]]]]; try discriminate L1. unfold number_of in L3. cbn [fold_left] in L3.
    inversion L2 as [|? ? B0 L5]. inversion L5 as [|? ? B1 L6]. inversion L6 as [|? ? B2 L7]. inversion L7 as [|? ? B3 L8]. subst. lia. }
  destruct H0 as [s0 Es0].
  rewrite packets_app.
  rewrite (fresh_first c cf orc packets 0 (conn_new false) ch POSTGRES 0 (s0 ++ u) eq_refl eq_refl eq_refl)
    by (try (rewrite E, Es0; reflexivity); auto).
  rewrite (split_packets c cf orc POSTGRES ltac:(discriminate) packets [t; u]);
    [|constructor; [exact Ft|constructor; [exact Fu|constructor]]|reflexivity|reflexivity|reflexivity|rewrite E; cbn [List.concat]; rewrite app_nil_r; reflexivity].
  destruct (turn_startup cf settings t (with_proto POSTGRES (conn_new false)) S U eq_refl (conj eq_refl (conj eq_refl eq_refl)) Np Nv Lv) as (g & ws & T & F & _ & W).
  destruct (W Ne) as [W1 W2]. rewrite evpackets_then.
  rewrite (evdata_turn c cf orc 0 t (with_proto POSTGRES (conn_new false)) ch _ ws None POSTGRES eq_refl eq_refl (proj1 Ft) T (like_pg g _) eq_refl ltac:(discriminate)).
  cbn [then_]. rewrite evpackets_then.
  assert (T2 : conn_turn cf u (with_pg g (with_proto POSTGRES (conn_new false))) =
    Ok (Shut (with_pg (set_err None g) (with_proto POSTGRES (conn_new false))) [WError (bs "WRONGPASS invalid username-password pair or user is disabled.")])).
  { destruct (turn_message cf (with_pg g (with_proto POSTGRES (conn_new false))) 112 (pw ++ [0]) u eq_refl ltac:(discriminate) P3 B31) as [L2 T2].
    rewrite T2. rewrite (pg_do_step _ 112 _ _ (Ok (parsep (cf_password cf) (pw ++ [0]) (set_err None g)))) by (try lia; auto 8).
    unfold parsep. rewrite cstr_field by exact P1. cbn [field at_end]. rewrite (cstr_no_nul _ Np).
    destruct (beq pw (cf_password cf)) eqn:Q; [apply beq_eq in Q; contradiction|reflexivity]. }
  set (K := with_pg g (with_proto POSTGRES (conn_new false))) in *.
  replace (evdata c cf orc 0 u K ch) with
    (@Ok (conn * cache * nat * list did * list event) (conn_shut (with_pg (set_err None g) (with_proto POSTGRES (conn_new false))), ch, 0%nat,
       [mkDid [] POSTGRES (pgout_of (set_err None g)) ([WError (bs "WRONGPASS invalid username-password pair or user is disabled.")], None)], [])).
  2: { unfold evdata. replace (k_closed K) with false by reflexivity. replace (k_packet K ++ u) with u by reflexivity. 
       replace (with_packet [] K) with K by reflexivity. cbv zeta. cbn [conn_loop].
       destruct u as [|b u]; [exfalso; exact (proj1 Fu eq_refl)|]. rewrite T2. reflexivity. }
  cbn [then_ evpackets app].
  rewrite closed_packets by reflexivity. do 3 eexists. split; [reflexivity|]. split; [reflexivity|]. split; [reflexivity|]. split; [exact W1|reflexivity].
Qed.

(** *** Cases *)
(** The text of a message. *)
Definition demo_msg (tag : byte) (body : bytes) : bytes := pg_frame tag body.
Definition demo_start : bytes := [0; 0; 0; 38; 0; 3; 0; 0] ++ bs "user" ++ [0] ++ bs "me" ++ [0] ++ bs "client_encoding" ++ [0] ++ bs "UTF8" ++ [0; 0].
Definition demo_login : list bytes := [ssl_request; demo_start; demo_msg 112 (bs "pw" ++ [0])].
Definition demo_settings : list (bytes * bytes) := [(bs "user", bs "me"); (bs "client_encoding", bs "UTF8")].
(** "set $2 'it $1'$1E'\t\u00e9';" *)
Definition demo_tokens : list token :=
  [(Bare (bs "set"), bs "set", bs " "); (Param 2, bs "$2", bs " "); (Quoted (bs "it $1"), bs "'it $1'", []); (Param 1, bs "$1", []);
   (Escaped [9; 195; 169] (bs "\t\u00e9"), bs "E'\t\u00e9'", [])].
Definition demo_query : bytes := bs "set $2 'it $1'$1E'\t\u00e9';".
Definition demo_get : list token := [(Bare (bs "GET"), bs "GET", bs "  "); (Quoted (bs "a key"), bs "'a key'", [])].
Definition demo_ms : list cmsg :=
  [MParse (bs "s1") demo_tokens; MBind [] (bs "s1") [bs "v" ++ [0]; bs "a key"]; MExecute []; MSync; MExecute (bs "p"); MQuery demo_get].
Definition demo_texts : list bytes :=
  [demo_msg 80 (bs "s1" ++ [0] ++ demo_query ++ [0; 0; 1; 0; 0; 0; 25]);
   demo_msg 66 ([0] ++ bs "s1" ++ [0; 0; 1; 0; 1; 0; 2; 0; 0; 0; 2] ++ bs "v" ++ [0; 0; 0; 0; 5] ++ bs "a key" ++ [0; 0]);
   demo_msg 69 [0; 0; 0; 0; 0];
   demo_msg 83 [];
   demo_msg 69 (bs "p" ++ [0; 0; 0; 0; 0]);
   demo_msg 81 (bs " GET  'a key';;" ++ [0])].

Ltac msg := match goal with |- pg_message _ _ (demo_msg _ _) => apply short_frame; reflexivity end.
Ltac nonul := repeat (apply Forall_cons; [vm_compute; intuition discriminate|]); apply Forall_nil.
Lemma demo_numbers : numbered [2; 1].
Proof.
  split; [repeat constructor; cbn; intuition discriminate|]. intro i. cbn. lia.
Qed.
Lemma demo_tokens_ok : query_text demo_tokens demo_query.
Proof.
  split.
  - unfold demo_tokens. constructor; [constructor; [discriminate|nonul]|nonul|discriminate|].
    constructor; [apply (param_text 2 (bs "2")); [lia|repeat constructor; discriminate]|nonul|discriminate|].
    constructor; [apply (quoted_text (bs "it $1")); nonul|nonul|intros _; exact I|].
    constructor; [apply (param_text 1 (bs "1")); [lia|repeat constructor; discriminate]|nonul|intros _; exact I|].
    constructor; [|nonul]. apply (escaped_text 69 [9; 195; 169] (bs "\t\u00e9")); [auto|].
    apply (esc_letter 116 9 [195; 169] (bs "\u00e9")); [cbn; tauto|].
    apply (esc_unicode 48 48 101 57 0 0 14 9 [] []); try (unfold hex_value; lia). constructor.
  - exists [], (bs ";"). split; [nonul|]. split; [repeat constructor|reflexivity].
Qed.
Lemma demo_session_ok : Forall2 cmsg_text demo_ms demo_texts.
Proof.
  unfold demo_ms, demo_texts. repeat match goal with |- Forall2 _ _ _ => constructor end.
  - exists demo_query. split; [exact demo_tokens_ok|]. split; [exact demo_numbers|]. split; [discriminate|].
    exists [0; 1], [[0; 0; 0; 25]], (bs "s1" ++ [0] ++ demo_query ++ [0; 0; 1; 0; 0; 0; 25]).
    split; [nonul|]. split; [split; [nonul|cbn; lia]|]. split; [split; [reflexivity|split; [repeat constructor|reflexivity]]|]. 
    split; [repeat constructor|]. split; [reflexivity|]. split; [reflexivity|msg].
  - exists [0; 1], [[0; 1]], [0; 2], ([0; 0; 0; 2] ++ bs "v" ++ [0; 0; 0; 0; 5] ++ bs "a key"), [0; 0], [], ([0] ++ bs "s1" ++ [0; 0; 1; 0; 1; 0; 2; 0; 0; 0; 2] ++ bs "v" ++ [0; 0; 0; 0; 5] ++ bs "a key" ++ [0; 0]).
    split; [split; [nonul|cbn; lia]|]. split; [split; [nonul|cbn; lia]|].
    split; [split; [reflexivity|split; [repeat constructor|reflexivity]]|]. split; [reflexivity|]. 
    split; [constructor; [right; split; [reflexivity|split; [repeat constructor|reflexivity]]|constructor]|].
    split; [split; [reflexivity|split; [repeat constructor|reflexivity]]|].
    split. { apply (pg_column (bs "v" ++ [0]) _ [0; 0; 0; 2]); [reflexivity|repeat constructor|reflexivity|].
      apply (pg_column (bs "a key") [] [0; 0; 0; 5] []); [reflexivity|repeat constructor|reflexivity|constructor]. }
    split; [split; [reflexivity|split; [repeat constructor|reflexivity]]|]. split; [constructor|]. split; [reflexivity|]. split; [reflexivity|msg].
  - exists [0; 0; 0; 0]. split; [split; [nonul|cbn; lia]|]. split; [reflexivity|msg].
  - cbn [cmsg_text]. unfold sync_msg. msg.
  - exists [0; 0; 0; 0]. split; [split; [nonul|cbn; lia]|]. split; [reflexivity|msg].
  - exists (bs " GET  'a key';;"). split; [split|].
    + constructor; [constructor; [discriminate|nonul]|nonul|discriminate|]. constructor; [apply (quoted_text (bs "a key")); nonul|nonul].
    + exists (bs " "), (bs ";;"). split; [nonul|]. split; [repeat constructor|reflexivity].
    + split; [split; [constructor|cbn; lia]|]. split; [nonul|]. split; [reflexivity|msg].
Qed.
Lemma demo_startup_ok : startup_msg demo_settings (nth 1 demo_login []) /\ utf8_client demo_settings.
Proof.
  split.
  - exists [0; 0; 0; 38], [0; 3; 0; 0]. split; [split; [reflexivity|split; [repeat constructor|reflexivity]]|].
    split; [split; [reflexivity|split; [repeat constructor|reflexivity]]|]. split; [cbn; lia|].
    split; [|reflexivity]. repeat (constructor; [split; [nonul|split; [nonul|split; discriminate]]|]). constructor.
  - intros v [I|[I|[]]]; [discriminate I|]. injection I as <-. reflexivity.
Qed.
Lemma demo_login_ok : login (bs "pw") (bs "1") demo_login [declines; asks; welcomes (bs "1")].
Proof.
  apply login_ssl; [|discriminate]. apply (login_password _ _ demo_settings); [discriminate|apply demo_startup_ok|apply demo_startup_ok|].
  split; [nonul|]. split; [reflexivity|msg].
Qed.
(** Packets of seven bytes. *)
Fixpoint cut (fuel : nat) (s : bytes) : list bytes :=
  match fuel, s with
  | S f, _ :: _ => firstn 7 s :: cut f (skipn 7 s)
  | _, _ => []
  end.
Definition demo_packets : list bytes := cut 100 (concat (demo_login ++ demo_texts)).
Definition done_by (r : out (conn * cache * nat * list did * list event)) : option (list (list wr * option (list bytes * list eff)) * bool) :=
  match r with Ok (k, _, _, ds, _) => Some (map d_what ds, k_closed k) | Bad _ => None end.
Definition demo_run := evpackets demo_c demo_cf (fun _ => demo_orc) 0 demo_packets (conn_new false) demo_ch.
Example C41_case : login (cf_password demo_cf) (cf_version demo_cf) demo_login [declines; asks; welcomes (cf_version demo_cf)] /\
  Forall2 cmsg_text demo_ms demo_texts /\ concat demo_packets = concat (demo_login ++ demo_texts) /\
  option_map (fun r => (skipn 3 (fst r), snd r)) (done_by demo_run) =
  Some ([([WRaw [49; 0; 0; 0; 4]], None); ([WRaw [50; 0; 0; 0; 4]], None);
     ([], Some ([bs "set"; bs "a key"; bs "it $1" ++ bs "v" ++ [0; 9; 195; 169]], [Out (PComplete (bs "SET 1")); Out PReady]));
     ([PReady], None); ([WError (bs "portal not found")], None);
     ([], Some ([bs "GET"; bs "a key"], 
       [Out (PRowDesc [bs "value"]); Out (PRow [bs "it $1" ++ bs "v" ++ [0; 9; 195; 169]]); Out (PComplete (bs "GET 1")); Out PReady]))], false).
Proof.
  split; [exact demo_login_ok|]. split; [exact demo_session_ok|]. split; [vm_compute; reflexivity|]. vm_compute. reflexivity.
Qed.

Example C41_message_case : pg_message 83 [] (demo_msg 83 []) /\ demo_msg 83 [] = [83; 0; 0; 0; 4].
Proof. split; [msg|reflexivity]. Qed.
(** A connection of a reachable state, after the login and a statement. *)
Definition demo_conn : conn := match evpackets demo_c demo_cf (fun _ => demo_orc) 0 (demo_login ++ firstn 1 demo_texts) (conn_new false) demo_ch with
  | Ok (k, _, _, _, _) => k | Bad _ => conn_new false end.
Lemma demo_reached : reached demo_cf demo_conn /\ k_proto demo_conn = Some POSTGRES /\ map fst (pg_stmts (k_pg demo_conn)) = [bs "s1"].
Proof.
  split; [|split; vm_compute; reflexivity].
  assert (Go : forall k data k', reached demo_cf k -> bytes_ok data ->
    match conn_turn demo_cf data k with Ok t => k_pg k' = k_pg (turn_conn t) | Bad _ => False end -> reached demo_cf k').
  { intros k data k' R B H. destruct (conn_turn demo_cf data k) as [t|] eqn:E; [|contradiction]. apply (reached_turn demo_cf k data t k' R B E). destruct t; exact H. }
  pose (k1 := match conn_turn demo_cf ssl_request (conn_new false) with Ok t => turn_conn t | Bad _ => conn_new false end).
  pose (k2 := match conn_turn demo_cf (nth 1 demo_login []) k1 with Ok t => turn_conn t | Bad _ => conn_new false end).
  pose (k3 := match conn_turn demo_cf (nth 2 demo_login []) k2 with Ok t => turn_conn t | Bad _ => conn_new false end).
  apply (Go k3 (nth 0 demo_texts [])); [|vm_compute; repeat constructor|vm_compute; reflexivity].
  apply (Go k2 (nth 2 demo_login [])); [|vm_compute; repeat constructor|vm_compute; reflexivity].
  apply (Go k1 (nth 1 demo_login [])); [|vm_compute; repeat constructor|vm_compute; reflexivity].
  apply (Go (conn_new false) ssl_request); [apply (reached_new _ false); reflexivity|vm_compute; repeat constructor|vm_compute; reflexivity].
Qed.
Example C41_wrong_password_case : startup_msg demo_settings (nth 1 demo_login []) /\ password_msg (bs "p") (demo_msg 112 (bs "p" ++ [0])) /\
  bs "p" <> cf_password demo_cf.
Proof. split; [apply demo_startup_ok|]. split; [|discriminate]. split; [nonul|]. split; [reflexivity|msg]. Qed.

(** *** What does not hold *)
(** A client that declares a length smaller than 4 makes the server read outside of
    the data, before any authentication. *)
Theorem C41_short_refuted : exists data k, reached demo_cf k /\ k_proto k = Some POSTGRES /\ bytes_ok data /\
  conn_turn demo_cf data k = Bad OutOfBounds.
Proof.
  exists [81; 0; 0; 0; 3], demo_conn. split; [apply demo_reached|]. split; [apply demo_reached|]. split; [repeat constructor|vm_compute; reflexivity].
Qed.
(** A doubled quote does not stand for a quote: the whole text is lost. *)
Theorem C41_quote_refuted : parse_query (bs "SET k 'it''s'") = QOk [bs "SET"; bs "k"; []] [(false, false); (false, false); (false, false)] [].
Proof. vm_compute. reflexivity. Qed.
(** Nor does a quote after a backslash: it is dropped. *)
Theorem C41_backslash_quote_refuted : exists ts, parse_query (bs "SET k E'it\'s'") = QOk [bs "SET"; bs "k"; bs "its"] ts [].
Proof. eexists. vm_compute. reflexivity. Qed.
(** A parameter that is used twice is refused. *)
Theorem C41_repeated_refuted : parse_query (bs "SET $1 $1") = QErr (bs "missing parameter $2").
Proof. vm_compute. reflexivity. Qed.
(** Blanks after the last semicolon are refused. *)
Theorem C41_semicolon_refuted : exists m, parse_query (bs "GET a; ") = QErr m.
Proof. eexists. vm_compute. reflexivity. Qed.
(** Two "\u" escapes of one character give a different character: U+20001 becomes
    U+10001. *)
Theorem C41_surrogates_refuted : exists ts, parse_query (bs "GET E'\ud840\udc01'") = QOk [bs "GET"; [240; 144; 128; 129]] ts [].
Proof. eexists. vm_compute. reflexivity. Qed.
(** The same text has different words as a query and as a statement. *)
Theorem C41_words_refuted :
  snd (sess_step no_sess (MQuery [(Bare (bs "GET"), bs "GET", bs " "); (Bare (bs "a"), bs "a", []); (Quoted (bs "b"), bs "'b'", [])]))
    = ACommand [bs "GET"; bs "a"; bs "b"] /\
  map (word_value []) (words [(Bare (bs "GET"), bs "GET", bs " "); (Bare (bs "a"), bs "a", []); (Quoted (bs "b"), bs "'b'", [])])
    = [bs "GET"; bs "ab"].
Proof. split; reflexivity. Qed.
(** The description of a portal is never answered. *)
Theorem C41_describe_portal_refuted :
  option_map (fun r => skipn 1 (fst r)) (done_by (evpackets demo_c (mkConfig false [] 16 (bs "1") 10) (fun _ => demo_orc) 0
    [demo_start; demo_msg 80 ([0] ++ bs "GET a" ++ [0; 0; 0]); demo_msg 66 [0; 0; 0; 0; 0; 0; 0; 0]; demo_msg 68 (bs "P" ++ [0]); demo_msg 83 []]
    (conn_new false) demo_ch))
  = Some [([WRaw [49; 0; 0; 0; 4]], None); ([WRaw [50; 0; 0; 0; 4]], None); ([], None); ([PReady], None)].
Proof. vm_compute. reflexivity. Qed.
(** A setting with an empty value shifts the settings after it: the encoding that
    is checked is not the one that was sent. *)
Theorem C41_empty_setting_refuted :
  client_encoding (startup_strings (bs "options" ++ [0; 0] ++ bs "client_encoding" ++ [0] ++ bs "LATIN1" ++ [0; 0]) []) [] = [].
Proof. vm_compute. reflexivity. Qed.
