(** C34 and C50: what a connection does with the packets of a client, whatever they
    hold and wherever they are cut. *)
From Verif Require Import Base Types Clamp Entry Hash Map Shard Cache Text IntText CmdTable CmdSpec Prog Cmds Resp RespSpec Memcache McSpec Http HttpSpec Reply ReplySpec Postgres PgSpec PgProofs Conn ConnProofs ConnProofs2 PgProofs2 ConnSpec ConnProofs3 ConnProofs4 PgProofs3 ConnProofs5 ConnProofs6 ConnProofs7 PropCache PropCmds PropResp PropMc PropHttp PropPg.
From Coq Require Import String Lia.
Local Open Scope N_scope.
Notation length := List.length.
Notation concat := List.concat.
Notation map := List.map.

(** *** C34 *)
(** With a password configured, a client that has not shown it gets nothing: in
    every protocol and for every sequence of bytes, either all commands were
    refused, the cache is as it was, and the client would have seen the same with
    any other cache, or the first request that was not refused carried the
    password. *)
Theorem C34_stream : forall c cf orc tls packets ch k' ch' i' ds evs,
  cf_useauth cf = true -> cf_password cf <> [] -> no_nul (cf_password cf) ->
  evpackets c cf orc 0 packets (conn_new tls) ch = Ok (k', ch', i', ds, evs) ->
  (Forall refused ds /\ ch' = ch /\ evs = [] /\ (k_closed k' = true \/ k_auth k' = false) /\
    forall c2 orc2 ch2, evpackets c2 cf orc2 0 packets (conn_new tls) ch2 = Ok (k', ch2, i', ds, [])) \/
  (exists ds1 d ds2, ds = ds1 ++ d :: ds2 /\ Forall refused ds1 /\ presents (cf_password cf) d).
Proof.
  intros c cf orc tls packets ch k' ch' i' ds evs Us Ne Np H.
  assert (L : locked (conn_new tls)) by (repeat split).
  destruct (packets_locked cf Us Ne Np c orc packets 0%nat (conn_new tls) ch k' ch' i' ds evs (or_intror L) H) as [(A & B & C & D & E)|D]; [left|right; exact D].
  split; [exact A|]. split; [exact B|]. split; [exact C|]. split; [|exact E]. destruct D as [D|[D _]]; auto.
Qed.
Definition auth_packets (pw : bytes) : list bytes :=
  [bs "GET k1" ++ crlf; bs "AUTH " ++ pw ++ crlf; bs "GET k1" ++ crlf].
Example C34_stream_case : cf_useauth demo_cf = true /\ no_nul (cf_password demo_cf) /\
  done_by (evpackets demo_c demo_cf (fun _ => demo_orc) 0 (auth_packets (bs "no")) (conn_new false) demo_ch) =
  Some ([([], Some ([bs "GET"; bs "k1"], [Out (WError (bs "NOAUTH Authentication required."))]));
         ([], Some ([bs "AUTH"; bs "no"], [Out (WError (bs "WRONGPASS invalid username-password pair or user is disabled."))]));
         ([], Some ([bs "GET"; bs "k1"], [Out (WError (bs "NOAUTH Authentication required."))]))], false) /\
  exists v, done_by (evpackets demo_c demo_cf (fun _ => demo_orc) 0 (auth_packets (bs "pw")) (conn_new false) demo_ch) =
  Some ([([], Some ([bs "GET"; bs "k1"], [Out (WError (bs "NOAUTH Authentication required."))]));
         ([], Some ([bs "AUTH"; bs "pw"], [Authed; Out (WString (bs "OK"))]));
         ([], Some ([bs "GET"; bs "k1"], [Out (WBulk v)]))], false).
Proof.
  split; [reflexivity|]. split; [nonul|]. split; [vm_compute; reflexivity|]. eexists. vm_compute. reflexivity.
Qed.

(** *** C50: requests *)
(** A sequence of well-formed requests of RESP, telnet or memcache, cut into
    packets anywhere: the connection does exactly what it does when every request
    comes in a packet of its own. The cut may even be in the middle of the first
    line, if that begins with "*". *)
Theorem C50_cut : forall c cf orc p tls ch argss texts packets, Forall2 (asked p) argss texts -> concat packets = concat texts -> opens p packets -> opens p texts ->
  evpackets c cf orc 0 packets (conn_new tls) ch = evpackets c cf orc 0 texts (conn_new tls) ch.
Proof.
  intros c cf orc p tls ch argss texts packets F E O O2.
  rewrite (opens_proto c cf orc p packets 0 (conn_new tls) ch O eq_refl eq_refl eq_refl).
  rewrite (opens_proto c cf orc p texts 0 (conn_new tls) ch O2 eq_refl eq_refl eq_refl).
  assert (Np : p <> HTTP).
  { destruct F as [|a t l l' A F]; [|exact (proj1 (asked_turn cf _ _ _ A))]. exfalso. cbn [List.concat] in E.
    destruct O as [(s & Q & _)|[(s & Q & _)|(empties & line & rest & more & -> & _)]]; [congruence|congruence|].
    rewrite concat_app in E. cbn [List.concat] in E. apply app_eq_nil in E. destruct E as [_ E]. destruct line; discriminate E. }
  apply (split_packets c cf orc p Np packets texts); [|reflexivity|reflexivity|reflexivity|exact E].
  clear -F. induction F as [|a t l l' A F IH]; constructor; [exact (proj1 (proj2 (asked_turn cf _ _ _ A)))|exact IH].
Qed.
(** The commands run are those asked for, in order, each from exactly its own
    bytes, up to the end or to the command that closes the connection. *)
Theorem C50_requests : forall c cf orc p tls ch argss texts packets, Forall2 (asked p) argss texts -> concat packets = concat texts -> opens p packets ->
  forall k' ch' i' ds evs, evpackets c cf orc 0 packets (conn_new tls) ch = Ok (k', ch', i', ds, evs) ->
  exists n, map d_raw ds = firstn n texts /\ Forall2 did_command (firstn n argss) ds /\ (n = length argss \/ stopped k' ds).
Proof. exact asked_full. Qed.
(** The same for an HTTP request, the first line of which comes in one packet; it
    must not be cut before the line feed that ends the headers. The connection is
    closed after it and whatever follows is ignored. *)
Theorem C50_http : forall c cf orc tls ch r first packets more, req_ok r -> authorized (cf_useauth cf) (cf_password cf) r ->
  concat (first :: packets) = req_text r -> (exists p, first = first_line r ++ p) ->
  (forall a b, packets = a ++ b -> concat b <> [10] ++ r_body r) ->
  match prun c (orc 0%nat) 0 ch (evcommand cf false HTTP (req_args r)) with
  | Bad t => evpackets c cf orc 0 (first :: packets ++ more) (conn_new tls) ch = Bad t
  | Ok (ch', es, evs) => exists k' d, evpackets c cf orc 0 (first :: packets ++ more) (conn_new tls) ch = Ok (k', ch', 1%nat, [d], evs) /\
      k_closed k' = true /\ d_raw d = req_text r /\ d_proto d = HTTP /\ d_what d = ([], Some (req_args r, es))
  end.
Proof.
  intros c cf orc tls ch r first packets more R A E (p & Ef) Cut.
  destruct (first_line_shape r R) as (line & L1 & L2 & L3).
  assert (O : opens HTTP (first :: packets ++ more)).
  { right; right. exists [], line, p, (packets ++ more). split; [cbn [app]; f_equal; rewrite Ef, L1, <- app_assoc; reflexivity|]. auto. }
  rewrite (opens_proto c cf orc HTTP _ 0 (conn_new tls) ch O eq_refl eq_refl eq_refl).
  change (first :: packets ++ more) with ((first :: packets) ++ more).
  rewrite (http_run c cf orc r more R A (first :: packets) (with_proto HTTP (conn_new tls)) 0 ch eq_refl eq_refl).
  - cbn [with_proto conn_new k_auth]. destruct (prun c (orc 0%nat) 0 ch (evcommand cf false HTTP (req_args r))) as [[[ch2 es] ev2]|t]; [|reflexivity].
    do 2 eexists. split; [reflexivity|]. repeat split.
  - exists p, first, packets. split; [reflexivity|exact Ef].
  - exact E.
  - intros a b Q Na. destruct a as [|a0 a]; [congruence|]. injection Q as -> Q. exact (Cut a b Q).
Qed.
(** Whatever the packets hold, the commands run one after the other on the cache,
    and what was read is the beginning of what was sent; the rest is kept unless
    the connection is closed. *)
Theorem C50_runs : forall c cf orc tls packets ch k' ch' i' ds evs, evpackets c cf orc 0 packets (conn_new tls) ch = Ok (k', ch', i', ds, evs) ->
  runs c cf orc false 0 ch ds (k_auth k') i' ch' evs /\
  exists rest, concat packets = concat (map d_raw ds) ++ rest /\ (k_closed k' = false -> rest = k_packet k').
Proof.
  intros c cf orc tls packets ch k' ch' i' ds evs H. destruct (packets_run c cf orc packets 0%nat (conn_new tls) ch k' ch' i' ds evs H) as [A B].
  split; [exact A|]. destruct (B eq_refl) as (rest & E & Q). exists rest. split; [exact E|]. intro C. rewrite (Q C), app_nil_r. reflexivity.
Qed.
(** The protocol is decided by the first line, and by nothing else. *)
Theorem C50_sniff : forall line rest, ~ In 10 line -> exists p, sniff_proto (line ++ 10 :: rest) = Some p /\ speaks line p.
Proof. exact sniff_line. Qed.
Theorem C50_sniff_unique : forall line p q, speaks line p -> speaks line q -> p = q.
Proof. exact speaks_unique. Qed.

(** *** C50: trouble *)
(** No bytes lead a connection outside of its memory or into an assertion, except
    the malformed texts called [troubled], or a command that does so. *)
Theorem C50_trouble : forall c cf orc tls packets ch t, Forall bytes_ok packets ->
  evpackets c cf orc 0 packets (conn_new tls) ch = Bad t ->
  (exists a b d, concat packets = a ++ b ++ d /\ troubled b) \/ failed_command c cf orc false 0 ch (concat packets) t.
Proof.
  intros c cf orc tls packets ch t B H.
  exact (stream_troubled c cf orc packets 0%nat (conn_new tls) ch t (sound_new tls) (reached_new cf tls _ eq_refl) (Forall_nil _) B H).
Qed.
Theorem C37_trouble : forall data t, parse_resp data = Bad t -> t = OutOfBounds /\ no_number data.
Proof. exact resp_bad. Qed.
Theorem C39_trouble : forall data t, parse_memcache data = Bad t -> t = OutOfBounds /\ (blank_end data \/ too_few data).
Proof. exact memcache_bad. Qed.

(** *** Cases *)
Definition mc_add : bytes := bs "add k 7 -1 4 noreply" ++ crlf ++ [13; 10; 0; 255; 13; 10].
Definition open_cf : config := mkConfig false [] 16 (bs "1") 10.
Lemma quit_line : telnet_line [bs "QUIT"] (bs "QUIT" ++ crlf).
Proof.
  split; [|split; [discriminate|repeat constructor; discriminate]].
  apply (ln_arg (bs "QUIT") (bs "QUIT") [] 13 [10]); [|split; [reflexivity|discriminate]|constructor].
  apply tk_plain; [discriminate|]. repeat constructor; discriminate.
Qed.
Definition mixed : list bytes := [get_crlf; set_line; bs "QUIT" ++ crlf].
Definition mixed_args : list (list bytes) :=
  [[bs "GET"; [13; 10; 0; 36]]; [bs "SET"; bs "key"; bs "a" ++ [10] ++ bs """b"; bs "xy z"]; [bs "QUIT"]].
Example C50_requests_case : Forall2 (asked RESP) mixed_args mixed /\ concat (cut 100 (concat mixed)) = concat mixed /\ (5 < length (cut 100 (concat mixed)))%nat /\
  opens RESP (cut 100 (concat mixed)) /\ opens RESP mixed /\
  done_by (evpackets demo_c open_cf (fun _ => demo_orc) 0 (cut 100 (concat mixed)) (conn_new false) demo_ch) =
  Some ([([], Some ([bs "GET"; [13; 10; 0; 36]], [Out WNull]));
         ([], Some (nth 1 mixed_args [], [Out (WError (bs "ERR syntax error"))]));
         ([], Some ([bs "QUIT"], [Out (WString (bs "OK")); Closed]))], true).
Proof.
  split.
  { constructor; [constructor; apply C37_case|]. constructor; [apply asked_line; [apply C48_case|discriminate]|]. 
    constructor; [apply asked_line; [exact quit_line|discriminate]|constructor]. }
  split; [vm_compute; reflexivity|]. split; [vm_compute; lia|]. split; [left; eexists; split; [vm_compute; reflexivity|reflexivity]|].
  split; [left; eexists; split; [vm_compute; reflexivity|reflexivity]|]. vm_compute. reflexivity.
Qed.
Example C50_memcache_case : Forall2 (asked MEMCACHE) [op_args (OStore KAdd (bs "k") (bs "7") (bs "-1") (bs "4") [13; 10; 0; 255])] [mc_add] /\
  opens MEMCACHE [firstn 23 mc_add; skipn 23 mc_add].
Proof.
  split; [constructor; [apply (asked_memcache _ true); apply C39_case|constructor]|].
  right; right. exists [], (bs "add k 7 -1 4 noreply" ++ [13]), [13], [skipn 23 mc_add]. split; [reflexivity|]. split; [constructor|].
  split; [vm_compute; intuition discriminate|]. apply (speaks_memcache []); try discriminate; [constructor|unfold upper; cbn; lia|].
  intros (a & v & w & x & Q). apply (f_equal (@rev byte)) in Q. rewrite !rev_app_distr in Q. vm_compute in Q. discriminate Q.
Qed.
Definition put_head : bytes := firstn 60 (req_text demo_req).
Example C50_http_case : req_ok demo_req /\ authorized true (bs "pw") demo_req /\
  concat [put_head; firstn 30 (skipn 60 (req_text demo_req)); skipn 90 (req_text demo_req)] = req_text demo_req /\
  (exists p, put_head = first_line demo_req ++ p) /\
  (forall a b, [firstn 30 (skipn 60 (req_text demo_req)); skipn 90 (req_text demo_req)] = a ++ b -> concat b <> [10] ++ r_body demo_req) /\
  done_by (evpackets demo_c demo_cf (fun _ => demo_orc) 0 [put_head; firstn 30 (skipn 60 (req_text demo_req)); skipn 90 (req_text demo_req); [1; 2]] (conn_new false) demo_ch) =
  Some ([([], Some (req_args demo_req, [Out (WHttp 200 (bs "OK") (bs "Stored" ++ crlf))]))], true).
Proof.
  split; [apply C40_case|]. split; [apply C40_case|]. split; [vm_compute; reflexivity|].
  split; [exists (skipn 46 put_head); vm_compute; reflexivity|]. split; [|vm_compute; reflexivity].
  intros a b E Q. apply (f_equal (@length byte)) in Q. change (length ([10] ++ r_body demo_req)) with 5%nat in Q.
  destruct a as [|a0 [|a1 [|a2 a]]]; cbn [app] in E; [| | |discriminate E].
  - subst b. vm_compute in Q. discriminate Q.
  - injection E as _ E. subst b. vm_compute in Q. discriminate Q.
  - injection E as _ _ E. subst b. discriminate Q.
Qed.
Example C50_sniff_case : speaks (bs "GET / HTTP/1.1" ++ [13]) HTTP /\ speaks (bs "  GET k") RESP /\ speaks (bs "get k" ++ [13]) MEMCACHE.
Proof.
  assert (NH : forall l, nth 5 (rev l) 0 <> 80 -> ~ http_line l).
  { intros l H (a & v & w & x & ->). apply H. rewrite !rev_app_distr. reflexivity. }
  split; [|split].
  - apply speaks_http; [discriminate|discriminate|]. exists (bs "GET /"), 47, 49, 49. reflexivity.
  - apply (speaks_telnet [32; 32] (bs "GET k")); [repeat constructor|unfold upper; cbn; lia|]. apply NH. discriminate.
  - apply (speaks_memcache [] (bs "get k" ++ [13])); try discriminate; [constructor|unfold upper; cbn; lia|]. apply NH. discriminate.
Qed.
(** All the troubled texts occur. *)
Theorem C50_trouble_refuted : 
  (forall b, In b [bs "*" ++ crlf; bs "*1" ++ crlf ++ bs "$" ++ crlf; bs "get k" ++ [13; 32; 10]; bs "set k 1" ++ crlf; bs "verbosity" ++ crlf] ->
    evpackets demo_c open_cf (fun _ => demo_orc) 0 [b] (conn_new false) demo_ch = Bad OutOfBounds) /\
  evpackets demo_c open_cf (fun _ => demo_orc) 0 [demo_start; [81; 0; 0; 0; 3]] (conn_new false) demo_ch = Bad OutOfBounds.
Proof.
  split; [|vm_compute; reflexivity].
  intros b I. repeat (destruct I as [<-|I]; [vm_compute; reflexivity|]). destruct I.
Qed.

(** *** What does not hold *)
(** A first line that comes in two packets is refused, although it is accepted in
    one; with a blank before it is not. *)
Theorem C50_first_line_refuted :
  done_by (evpackets demo_c open_cf (fun _ => demo_orc) 0 [bs "PI"; bs "NG" ++ crlf] (conn_new false) demo_ch) = Some ([([WError (bs "ERROR")], None)], true) /\
  done_by (evpackets demo_c open_cf (fun _ => demo_orc) 0 [bs "PING" ++ crlf] (conn_new false) demo_ch) = Some ([([], Some ([bs "PING"], [Out (WString (bs "PONG"))]))], false) /\
  done_by (evpackets demo_c open_cf (fun _ => demo_orc) 0 [bs " PI"; bs "NG" ++ crlf] (conn_new false) demo_ch) = Some ([([], Some ([bs "PING"], [Out (WString (bs "PONG"))]))], false).
Proof. repeat split; vm_compute; reflexivity. Qed.
(** A key that looks like a version makes a memcache request an HTTP request. *)
Theorem C50_http_key_refuted : sniff_proto (bs "get a HTTP/1.1" ++ crlf) = Some HTTP /\ sniff_proto (bs "get a HTTP/1x1" ++ crlf) = Some MEMCACHE.
Proof. split; reflexivity. Qed.
(** An HTTP request that is cut before the line feed that ends its headers is not
    run. *)
Theorem C50_http_cut_refuted : exists a b, a ++ b = req_text demo_req /\ first_line demo_req = firstn 46 a /\
  done_by (evpackets demo_c demo_cf (fun _ => demo_orc) 0 [a; b] (conn_new false) demo_ch) = Some ([([WError (bs "Bad Request")], None)], true).
Proof.
  exists (firstn (length (req_text demo_req) - 5) (req_text demo_req)), (skipn (length (req_text demo_req) - 5) (req_text demo_req)).
  split; [apply firstn_skipn|]. split; vm_compute; reflexivity.
Qed.
(** "noreply" is read and not heeded: the answer is written. *)
Theorem C39_noreply_refuted : exists es,
  done_by (evpackets demo_c open_cf (fun _ => demo_orc) 0 [mc_add] (conn_new false) demo_ch) = Some ([([], Some (op_args (OStore KAdd (bs "k") (bs "7") (bs "-1") (bs "4") [13; 10; 0; 255]), es))], false) /\
  exists w, In (Out w) es.
Proof. eexists. split; [vm_compute; reflexivity|]. eexists. left. reflexivity. Qed.
