(** The vocabulary of the properties of connections (C34, C41, C50). *)
From Verif Require Import Base Types Clamp Entry Hash Map Shard Cache Text IntText CmdTable Prog RespSpec McSpec ReplySpec PgSpec HttpSpec Cmds Conn.
From Coq Require Import String.
Local Open Scope N_scope.
Notation length := List.length.
Notation concat := List.concat.
Notation map := List.map.

(** * Authentication *)
(** The answers of a command that is refused. *)
Definition refusals : list wr :=
  [ WRaw (bs "CLIENT_ERROR Authentication required" ++ crlf); WError (bs "NOAUTH Authentication required.");
    WError (bs "ERR wrong number of arguments"); WError (bs "ERR syntax error");
    WError (bs "WRONGPASS invalid username-password pair or user is disabled.") ].
Definition refused (d : did) : Prop :=
  forall args es, snd (d_what d) = Some (args, es) -> exists w, es = [Out w] /\ In w refusals.
(** A request that carries the password: the command AUTH, the password message
    of Postgres, an HTTP request with a token. *)
Definition presents (pw : bytes) (d : did) : Prop :=
  match d_proto d with
  | HTTP => shows (d_raw d) pw
  | POSTGRES => exists len, length len = 4%nat /\ d_raw d = [112] ++ len ++ pw ++ [0]
  | _ => exists w es, snd (d_what d) = Some ([w; pw], es) /\ map tolower w = bs "auth"
  end.

(** * The protocol of a connection *)
(** How the first line, without its line feed, shows the protocol. *)
Definition http_line (line : bytes) : Prop := exists a v w x, line = a ++ bs " HTTP" ++ [v; w; 46; x; 13].
Definition upper (b : byte) : Prop := 65 <= b <= 90.
Inductive speaks : bytes -> proto -> Prop :=
| speaks_resp : forall l, speaks (42 :: l) RESP
| speaks_pg : forall l, speaks (0 :: l) POSTGRES
| speaks_http : forall l, hd 10 l <> 42 -> hd 10 l <> 0 -> http_line l -> speaks l HTTP
| speaks_telnet : forall sp l, Forall (fun b => b = 32) sp -> upper (hd 10 l) -> ~ http_line (sp ++ l) -> speaks (sp ++ l) RESP
| speaks_memcache : forall sp l, Forall (fun b => b = 32) sp -> hd 10 (sp ++ l) <> 42 -> hd 10 (sp ++ l) <> 0 -> hd 10 l <> 32 -> ~ upper (hd 10 l) ->
    ~ http_line (sp ++ l) -> speaks (sp ++ l) MEMCACHE.

(** The first packet that is not empty holds the first line, unless the first byte
    alone shows the protocol. *)
Definition opens (p : proto) (packets : list bytes) : Prop :=
  (exists s, concat packets = 42 :: s /\ p = RESP) \/ (exists s, concat packets = 0 :: s /\ p = POSTGRES) \/
  (exists empties line rest more, packets = empties ++ (line ++ 10 :: rest) :: more /\ Forall (fun e => e = []) empties /\
    ~ In 10 line /\ speaks line p).
(** The texts that ask for a command: RESP arrays, lines, memcache requests. *)
Inductive asked : proto -> list bytes -> bytes -> Prop :=
| asked_resp : forall args s, request args s -> asked RESP args s
| asked_line : forall args s, telnet_line args s -> hd 42 s <> 42 -> asked RESP args s
| asked_memcache : forall op noreply s, mc_request op noreply s -> asked MEMCACHE (op_args op) s.
(** The command was run with these arguments, and nothing else; an empty request
    does nothing. *)
Definition did_command (args : list bytes) (d : did) : Prop :=
  fst (d_what d) = [] /\ option_map fst (snd (d_what d)) = match args with [] => None | _ => Some args end.

(** * What a connection does to the cache *)
(** The commands of a connection run one after the other on the cache, each with
    its own inputs; the flag tells whether the connection has authenticated. *)
Inductive runs (c : ctx) (cf : config) (orc : nat -> nat -> input) : bool -> nat -> cache -> list did -> bool -> nat -> cache -> list event -> Prop :=
| runs_end : forall b i ch, runs c cf orc b i ch [] b i ch []
| runs_reply : forall b b1 i ch d ds b' i' ch' evs, snd (d_what d) = None -> b1 = b \/ d_proto d = POSTGRES ->
    runs c cf orc b1 i ch ds b' i' ch' evs -> runs c cf orc b i ch (d :: ds) b' i' ch' evs
| runs_command : forall b b1 i ch d ds b' i' ch' evs args es ch1 ev1, snd (d_what d) = Some (args, es) ->
    prun c (orc i) 0 ch (evcommand cf b (d_proto d) args) = Ok (ch1, es, ev1) ->
    (b1 = true <-> b = true \/ In Authed es) ->
    runs c cf orc b1 (S i) ch1 ds b' i' ch' evs ->
    runs c cf orc b i ch (d :: ds) b' i' ch' (ev1 ++ evs).

(** * Postgres: the beginning of a session *)
(** The settings name no other encoding than UTF8. *)
Definition utf8_client (settings : list (bytes * bytes)) : Prop :=
  forall v, In (bs "client_encoding", v) settings -> v = bs "UTF8".
(** The request for TLS. *)
Definition ssl_request : bytes := [0; 0; 0; 8; 4; 210; 22; 47].
(** What may be answered. *)
Definition answers : Type := list wr * option (list bytes) -> Prop.
Definition declines : answers := fun x => x = ([WRaw (bs "N")], None).
Definition asks : answers := fun x => exists m, x = ([WRaw m], None) /\ pg_message 82 [0; 0; 0; 3] m.
Definition setting (name value m : bytes) : Prop := pg_message 83 (name ++ [0] ++ value ++ [0]) m.
Definition welcomes (version : bytes) : answers := fun x => exists m s1 s2 s3,
  x = ([WRaw m; WRaw s1; WRaw s2; WRaw s3; PReady], None) /\ pg_message 82 [0; 0; 0; 0] m /\
  setting (bs "client_encoding") (bs "UTF8") s1 /\ setting (bs "server_encoding") (bs "UTF8") s2 /\
  setting (bs "server_version") (version ++ bs " (Pogocache)") s3.
(** The first messages of a client that knows the password of the server, and the
    answers to them. *)
Inductive login (pw version : bytes) : list bytes -> list answers -> Prop :=
| login_open : forall settings t, pw = [] -> startup_msg settings t -> utf8_client settings -> login pw version [t] [welcomes version]
| login_password : forall settings t u, pw <> [] -> startup_msg settings t -> utf8_client settings -> password_msg pw u ->
    login pw version [t; u] [asks; welcomes version]
| login_ssl : forall ts l, login pw version ts l -> hd [] ts <> ssl_request -> login pw version (ssl_request :: ts) (declines :: l).
(** What a connection wrote and ran. *)
Definition did_answer (a : answers) (d : did) : Prop := a (fst (d_what d), option_map fst (snd (d_what d))).
Definition shown_as (a : pg_answer) : answers := fun x => shows_answer a (fst x) (snd x).
(** The last command that ran asked for the end of the connection. *)
Definition stopped (k : conn) (ds : list did) : Prop :=
  k_closed k = true /\ exists ds0 d args es, ds = ds0 ++ [d] /\ snd (d_what d) = Some (args, es) /\ In Closed es.

(** * Trouble *)
(** The connections that packets can lead to; only what they keep for Postgres matters. *)
Inductive reached (cf : config) : conn -> Prop :=
| reached_new : forall tls k, k_pg k = k_pg (conn_new tls) -> reached cf k
| reached_turn : forall k data t k', reached cf k -> bytes_ok data -> conn_turn cf data k = Ok t ->
    match t with Wait k1 | Shut k1 _ | Turn _ k1 _ _ => k_pg k' = k_pg k1 end -> reached cf k'.
(** A Postgres message whose length is smaller than the length itself takes, or
    the largest number. *)
Definition short_length (data : bytes) : Prop := exists tag len rest, data = tag :: len ++ rest /\ length len = 4%nat /\
  (number_of len < 4 \/ number_of len = 2 ^ 32 - 1).
(** A RESP count or length without digits, when nothing but blanks, a sign and
    digits has been received after it. *)
Definition no_number (data : bytes) : Prop := exists a m sp sg ds, data = a ++ m :: sp ++ sg ++ ds /\ (m = 42 \/ m = 36) /\
  Forall (fun b => is_space b = true) sp /\ In 13 sp /\ In sg [[]; [43]; [45]] /\ Forall (fun b => is_digit b = true) ds.
(** A memcache line with spaces after its carriage return. *)
Definition blank_end (data : bytes) : Prop := exists a n rest, data = a ++ [13] ++ repeat 32 (S n) ++ [10] ++ rest /\ ~ In 10 a.
(** A memcache line with fewer words than the command takes. *)
Definition line_words (ws : list bytes) (line : bytes) : Prop :=
  Forall (fun w => ~ In 32 w) ws /\ exists tail, In tail [[]; [13]; [32]; [32; 13]] /\ line = spaced ws ++ tail.
Definition too_few (data : bytes) : Prop := exists ws line rest n, data = line ++ [10] ++ rest /\ ~ In 10 line /\ line_words ws line /\
  In (hd [] ws, n) [(bs "set", 5%nat); (bs "add", 5%nat); (bs "replace", 5%nat); (bs "append", 5%nat); (bs "prepend", 5%nat); (bs "cas", 6%nat); (bs "verbosity", 2%nat)] /\
  (length ws < n)%nat.
Definition troubled (data : bytes) : Prop := no_number data \/ blank_end data \/ too_few data \/ short_length data.
(** The text begins with [raw], which a connection reads as this command. *)
Definition reads_as (cf : config) (text : bytes) (p : proto) (args : list bytes) (raw : bytes) : Prop := exists k k1 ws rest more,
  text = raw ++ rest ++ more /\ reached cf k /\ conn_turn cf (raw ++ rest) k = Ok (Turn (length raw) k1 ws (Some args)) /\ proto_of k1 = p.
(** After some commands of the connection, the next one in the text ends in trouble. *)
Definition failed_command (c : ctx) (cf : config) (orc : nat -> nat -> input) (b : bool) (i : nat) (ch : cache) (text : bytes) (t : trouble) : Prop :=
  exists ds b1 i1 ch1 evs p args raw rest, text = concat (map d_raw ds) ++ rest /\ reads_as cf rest p args raw /\
    runs c cf orc b i ch ds b1 i1 ch1 evs /\ prun c (orc i1) 0 ch1 (evcommand cf b1 p args) = Bad t.
