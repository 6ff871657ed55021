(** Connections (conn.c, parse.c): from the packets of a client to commands and
    replies. *)
From Verif Require Import Base Types Clamp Entry Hash Map Shard Cache Text IntText Prog Cmds Resp Memcache Http Reply Postgres.
From Coq Require Import String.
Local Open Scope N_scope.
Notation length := List.length.

(** The position after the first line feed, 0 if there is none
    [src/parse.c:50-57]. *)
Fixpoint first_line_end (s : bytes) (i : nat) : nat :=
  match s with [] => O | b :: r => if b =? 10 then S i else first_line_end r (S i) end.
(** The blanks trimmed by [src/parse.c:67-71]. The text is followed by a zero byte,
    so that the loop ends [src/net.c: the packet is terminated]. *)
Fixpoint leading_blanks (s : bytes) : nat :=
  match s with b :: r => if b =? 32 then S (leading_blanks r) else O | [] => O end.
(** [src/parse.c:37-84 sniff_proto]. The length of the line is decreased for every
    blank and wraps below zero. *)
Definition sniff_proto (data : bytes) : option proto :=
  if match data with b :: _ => b =? 42 | [] => false end then Some RESP
  else if match data with b :: _ => b =? 0 | [] => false end then Some POSTGRES
  else
    let n := first_line_end data 0 in
    if (11 <=? n)%nat && beq (firstn 5 (skipn (n - 11) data)) (bs " HTTP")
       && (nth (n - 4) data 0 =? 46) && (nth (n - 2) data 0 =? 13) then Some HTTP
    else
      let k := leading_blanks data in
      let n := if (k <=? n)%nat then (n - k)%nat else 1%nat in
      let c := nth k data 0 in
      if (0 <? n)%nat && (65 <=? c) && (c <=? 90) then Some RESP
      else if (1 <=? n)%nat then Some MEMCACHE
      else None.

(** [src/conn.c:26-36 struct conn] with the state of the socket that matters: TLS and
    closed. [noreply], [httpvers] and [keepalive] are written by the parsers and
    never read; the arguments are passed on by value. *)
Record conn := mkConn {
  k_tls : bool; k_proto : option proto; k_auth : bool; k_closed : bool; k_packet : bytes; k_pg : pgst
}.
(** [src/conn.c:62-68 evopened]; the context of Postgres is made by the first call of
    parse_postgres [src/postgres.c:1226-1228]. *)
Definition conn_new (tls : bool) : conn := mkConn tls None false false [] pg_new.
(** [src/conn.c:50-52 conn_setauth], [58-60 conn_close]; the buffer of a closed
    connection is dropped with it [src/conn.c:70-77 evclosed]. *)
Definition conn_authed (k : conn) : conn := mkConn (k_tls k) (k_proto k) true (k_closed k) (k_packet k) (k_pg k).
(** [src/conn.c:58-60 conn_close, 70-77 evclosed]. *)
Definition conn_shut (k : conn) : conn := mkConn (k_tls k) (k_proto k) (k_auth k) true [] (k_pg k).
(** Assignments to [proto], [pg] and [packet]. [src/conn.c:26-36] *)
Definition with_proto (p : proto) (k : conn) : conn := mkConn (k_tls k) (Some p) (k_auth k) (k_closed k) (k_packet k) (k_pg k).
(** Assignment to [conn->pg] [src/conn.c:26-36]. *)
Definition with_pg (g : pgst) (k : conn) : conn := mkConn (k_tls k) (k_proto k) (k_auth k) (k_closed k) (k_packet k) g.
(** Assignment to [conn->packet] [src/conn.c:26-36]. *)
Definition with_packet (s : bytes) (k : conn) : conn := mkConn (k_tls k) (k_proto k) (k_auth k) (k_closed k) s (k_pg k).

(** The result of parse_command: 0, -1 with the message of the error and the place
    where memcache goes on, or the number of bytes read with the arguments. [src/parse.c:105-143 parse_command] *)
Inductive command := CMore (k : conn) | CErr (msg : bytes) (n : nat) (k : conn) | CGot (n : nat) (args : list bytes) (k : conn).
(** The dispatch of [src/parse.c:122-138]. An HTTP request counts as the whole of the
    data: the connection is closed after it in any case. *)
Definition parse_by (cf : config) (p : proto) (data : bytes) (k : conn) : out command :=
  let resp (r : parsed) : command :=
    match r with More => CMore k | Wrong m => CErr m O k | Got n args => CGot n args k end in
  match p with
  | RESP =>
      if match data with b :: _ => b =? 42 | [] => false end then
        match parse_resp data with Ok r => Ok (resp r) | Bad t => Bad t end
      else Ok (resp (parse_resp_telnet data))
  | MEMCACHE =>
      match parse_memcache data with
      | Bad t => Bad t
      | Ok McMore => Ok (CMore k)
      | Ok (McErr m n) => Ok (CErr m n k)
      | Ok (McGot n _ args) => Ok (CGot n args k)
      end
  | HTTP =>
      Ok match parse_http cf data with
         | HMore => CMore k
         | HErr m => CErr m O k
         | HGot args => CGot (length data) args k
         end
  | POSTGRES =>
      match parse_postgres (cf_password cf) data (k_pg k) with
      | Bad t => Bad t
      | Ok PgMore => Ok (CMore (with_pg (set_err None (k_pg k)) k))
      | Ok (PgWrong m g) => Ok (CErr m O (with_pg g k))
      | Ok (PgGot n args g) => Ok (CGot n args (with_pg g k))
      end
  end.
(** [src/parse.c:105-143 parse_command] *)
Definition parse_command (cf : config) (data : bytes) (k : conn) : out command :=
  match k_proto k with
  | Some p => parse_by cf p data k
  | None =>
      match sniff_proto data with
      | None => Ok (CErr (bs "ERROR") O k)
      | Some p => parse_by cf p data (with_proto p k)
      end
  end.

(** One turn of the loop of evdata: it waits for more data, closes the connection
    after some replies, or reads [n] bytes, writes some replies and may call
    evcommand. [src/conn.c:113-156] *)
Inductive turn := Wait (k : conn) | Shut (k : conn) (ws : list wr) | Turn (n : nat) (k : conn) (ws : list wr) (cmd : option (list bytes)).
(** [src/conn.c:113-156], the body of the loop up to the call of evcommand. *)
Definition conn_turn (cf : config) (data : bytes) (k : conn) : out turn :=
  match parse_command cf data k with
  | Bad t => Bad t
  | Ok (CMore k1) => Ok (Wait k1)
  | Ok (CErr m n k1) =>
      match k_proto k1 with
      | Some MEMCACHE => Ok (Turn n k1 [WError m] None)
      | _ => Ok (Shut k1 [WError m])
      end
  | Ok (CGot n [] k1) =>
      match k_proto k1 with
      | Some POSTGRES =>
          match pg_respond (cf_password cf) (cf_version cf) (k_tls k1) (k_pg k1) with
          | Bad t => Bad t
          | Ok r =>
              let k2 := with_pg (r_pg r) (if r_auth r then conn_authed k1 else k1) in
              if r_keep r then Ok (Turn n k2 (r_out r) None) else Ok (Shut k2 (r_out r))
          end
      | Some MEMCACHE => Ok (Turn n k1 [WError (bs "ERROR")] None)
      | Some HTTP => Bad AssertFail
      | _ => Ok (Turn n k1 [] None)
      end
  | Ok (CGot n args k1) =>
      match k_proto k1 with
      | Some POSTGRES =>
          if negb (pg_ready (k_pg k1)) then Ok (Shut k1 [])
          else let '(ws, g, cmd) := pg_precommand args (k_pg k1) in Ok (Turn n (with_pg g k1) ws cmd)
      | _ => Ok (Turn n k1 [] (Some args))
      end
  end.

(** What a connection did: the bytes it read for it (none when it gives up), the protocol and the Postgres
    settings that shape the reply, and the replies written or the command run. For the statements, no counterpart in the code. *)
Record did := mkDid { d_raw : bytes; d_proto : proto; d_pg : pgout; d_what : list wr * option (list bytes * list eff) }.
(** The settings of [src/postgres.h:40, 48] that the reply writers read. *)
Definition pgout_of (g : pgst) : pgout := mkPgout (pg_execute g) (pg_oid g).
(** An unknown protocol writes like RESP [src/conn.c:293-295]. *)
Definition proto_of (k : conn) : proto := match k_proto k with Some p => p | None => RESP end.
(** What the effects of a command do to the connection: the calls of conn_setauth
    and conn_close [src/conn.c:46-56]. *)
Definition after (es : list eff) (k : conn) : conn :=
  let k := if existsb (fun e => match e with Authed => true | _ => false end) es then conn_authed k else k in
  if existsb (fun e => match e with Closed => true | _ => false end) es then conn_shut k else k.

(** The loop of [src/conn.c:112-167]. Command number [i] of the connection uses the
    inputs [orc i]. A command that works in the background ends the loop, which
    goes on with the rest when the work is done [src/conn.c:157-160]; here the loop
    simply goes on. The result is the connection with what is left, the cache,
    the number of commands, what was done and what the cache reported. *)
Section Loop.
Variable c : ctx.
Variable cf : config.
Variable orc : nat -> nat -> input.
(** As above: [src/conn.c:157-160]. *)
Fixpoint conn_loop (fuel : nat) (i : nat) (data : bytes) (k : conn) (ch : cache)
  : out (conn * cache * nat * list did * list event) :=
  match fuel with
  | O => Bad Hang
  | S f =>
      match data with
      | [] => Ok (with_packet [] k, ch, i, [], [])
      | _ :: _ =>
          match conn_turn cf data k with
          | Bad t => Bad t
          | Ok (Wait k1) => Ok (with_packet data k1, ch, i, [], [])
          | Ok (Shut k1 ws) => Ok (conn_shut k1, ch, i, [mkDid [] (proto_of k1) (pgout_of (k_pg k1)) (ws, None)], [])
          | Ok (Turn n k1 ws cmd) =>
              let go (i : nat) (d : option (list bytes * list eff)) (k2 : conn) (ch2 : cache) (ev2 : list event) :=
                let k3 := match k_proto k2 with Some HTTP => conn_shut k2 | _ => k2 end in
                let this := mkDid (firstn n data) (proto_of k1) (pgout_of (k_pg k1)) (ws, d) in
                if k_closed k3 then Ok (conn_shut k3, ch2, i, [this], ev2)
                else match conn_loop f i (skipn n data) k3 ch2 with
                | Bad t => Bad t
                | Ok (k4, ch4, i4, ds, evs) => Ok (k4, ch4, i4, this :: ds, ev2 ++ evs)
                end in
              match cmd with
              | None => go i None k1 ch []
              | Some args =>
                  match prun c (orc i) 0 ch (evcommand cf (k_auth k1) (proto_of k1) args) with
                  | Bad t => Bad t
                  | Ok (ch2, es, ev2) => go (S i) (Some (args, es)) (after es k1) ch2 ev2
                  end
              end
          end
      end
  end.
(** [src/conn.c:82-190 evdata] *)
Definition evdata (i : nat) (packet : bytes) (k : conn) (ch : cache) : out (conn * cache * nat * list did * list event) :=
  if k_closed k then Ok (k, ch, i, [], [])
  else let data := k_packet k ++ packet in conn_loop (S (length data)) i data (with_packet [] k) ch.
(** The packets of a connection, one after the other: the calls of evdata by the
    event loop [src/net.c:660-690]. *)
Fixpoint evpackets (i : nat) (packets : list bytes) (k : conn) (ch : cache) : out (conn * cache * nat * list did * list event) :=
  match packets with
  | [] => Ok (k, ch, i, [], [])
  | p :: r =>
      match evdata i p k ch with
      | Bad t => Bad t
      | Ok (k1, ch1, i1, ds1, ev1) =>
          match evpackets i1 r k1 ch1 with
          | Bad t => Bad t
          | Ok (k2, ch2, i2, ds2, ev2) => Ok (k2, ch2, i2, ds1 ++ ds2, ev1 ++ ev2)
          end
      end
  end.
End Loop.
