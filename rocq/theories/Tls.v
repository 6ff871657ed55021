(** TLS connections: tls.c between the event loop (net.c) and OpenSSL. Of OpenSSL this is assumed, from its manual: SSL_read_ex gives bytes of one
    record at most; what it does not give of a record it keeps and gives first the next time, without a look at the socket; it reads from the
    socket not more than it needs to finish one record (read_ahead is off); SSL_write_ex takes all or nothing, and after "try again" it must be
    called with the same bytes. Of the system: a socket is reported to the event loop if there are unread bytes in it, and only then. *)
From Verif Require Import Base Net.
Local Open Scope nat_scope.
Notation length := List.length.

(** What comes into the socket: a part of a record (or of the handshake) with more to come; the rest of a record and its content; the alert that
    the peer will not send more; the end of the stream or an error. For the statements, no counterpart in the code. *)
Inductive arrival := Part | Rec (r : bytes) | Bye | Gone.
(** What SSL_read_ex and SSL_get_error answer [src/tls.c:154-168]. *)
Inductive ssl_res := SGot (s : bytes) | SZero | SWant | SOther.
(** SSL_read_ex with room for [len] bytes, when nothing is kept: the answer, what is then kept, what is left in the socket.
    Called in [src/tls.c:154]. *)
Fixpoint ssl_fetch (len : nat) (sock : list arrival) : ssl_res * bytes * list arrival :=
  match sock with
  | [] => (SWant, [], [])
  | Part :: s => ssl_fetch len s
  | Rec [] :: s => ssl_fetch len s
  | Rec r :: s => (SGot (firstn len r), skipn len r, s)
  | Bye :: s => (SZero, [], s)
  | Gone :: s => (SOther, [], s)
  end.
(** SSL_read_ex, called in [src/tls.c:154]. *)
Definition ssl_read (len : nat) (kept : bytes) (sock : list arrival) : ssl_res * bytes * list arrival :=
  match kept with
  | [] => ssl_fetch len sock
  | _ => (SGot (firstn len kept), skipn len kept, sock)
  end.
(** [src/tls.c:149-170 tls_read]: what it answers, as for read(2). *)
Definition tls_result (r : ssl_res) : rres :=
  match r with SGot s => RData s | SZero => REof | SWant => RAgain | SOther => RErr end.

(** PACKETSIZE [src/net.c:53] less 1 [src/net.c:773]. *)
Definition ROOM : nat := 128 * 128 - 1.
(** A TLS connection that has no job and no output: unread arrivals, bytes OpenSSL keeps, the packets the handler was called
    with, and whether it is to be closed. [src/net.c:247-263 struct net_conn] *)
Record tconn := mkTconn { tc_sock : list arrival; tc_kept : bytes; tc_packets : list bytes; tc_over : bool }.
(** A new connection [src/net.c:627-640]; the handshake is not told apart from other parts of records. *)
Definition tconn_new : tconn := mkTconn [] [] [] false.
(** The event loop is told of the socket [src/net.c:918]. *)
Definition reported (x : tconn) : bool := match tc_sock x with [] => false | _ => negb (tc_over x) end.
(** One round of the loop for this connection: qread and handle_read [src/net.c:768-779, 658-680], qprocess [786-792]. *)
Definition tround (x : tconn) : tconn :=
  let '(r, kept, sock) := ssl_read ROOM (tc_kept x) (tc_sock x) in
  match tls_result r with
  | RData s => mkTconn sock kept (tc_packets x ++ [s]) false
  | RAgain => mkTconn sock kept (tc_packets x ++ [[]]) false
  | REof | RErr => mkTconn sock kept (tc_packets x) true
  end.
(** What happens: something arrives, or a round of the loop [src/net.c:916-937], which runs only if the socket is reported. *)
Inductive tstep : tconn -> option arrival -> tconn -> Prop :=
| ts_arrive : forall x a, tstep x (Some a) (mkTconn (tc_sock x ++ [a]) (tc_kept x) (tc_packets x) (tc_over x))
| ts_round : forall x, reported x = true -> tstep x None (tround x).
(** Any number of steps of [src/net.c:916-937], with all that has arrived. *)
Inductive truns : list arrival -> tconn -> Prop :=
| tr_new : truns [] tconn_new
| tr_step : forall l x a y, truns l x -> tstep x a y -> truns (l ++ match a with Some a => [a] | None => [] end) y.

(** A plain connection for comparison: the bytes in the socket, the packets [src/net.c:775]. *)
Record pconn := mkPconn { pc_sock : bytes; pc_packets : list bytes }.
(** One round, if the socket is reported [src/net.c:768-779, 658-680, 786-792, 918]. *)
Definition pround (x : pconn) : pconn := mkPconn (skipn ROOM (pc_sock x)) (pc_packets x ++ [firstn ROOM (pc_sock x)]).
(** Steps of [src/net.c:916-937], with all that has arrived. *)
Inductive pruns : bytes -> pconn -> Prop :=
| pr_new : pruns [] (mkPconn [] [])
| pr_arrive : forall l x s, pruns l x -> pruns (l ++ s) (mkPconn (pc_sock x ++ s) (pc_packets x))
| pr_round : forall l x, pruns l x -> pc_sock x <> [] -> pruns l (pround x).

(** ** Writing *)
(** What OpenSSL answers to a write: taken, try again, an error. [src/tls.c:131-145] *)
Inductive wanswer := ATook | AWant | AOther.
(** OpenSSL: the bytes of a write that is to be tried again; all that was taken; whether a retry came with other bytes.
    SSL_write_ex in [src/tls.c:131]. *)
Record ssl_out := mkSslOut { so_retry : option bytes; so_taken : bytes; so_bad : bool }.
(** SSL_write_ex, called in [src/tls.c:131]. *)
Definition ssl_write (data : bytes) (a : wanswer) (o : ssl_out) : ssl_out :=
  let bad := so_bad o || match so_retry o with Some d => negb (beq d data) | None => false end in
  match a with
  | ATook => mkSslOut None (so_taken o ++ data) bad
  | AWant => mkSslOut (Some data) (so_taken o) bad
  | AOther => mkSslOut None (so_taken o) bad
  end.
(** [src/net.c:682-703 flush_conn] with [src/tls.c:126-147 tls_write], on the bytes that are still to be written: OpenSSL afterwards and
    whether the connection is closed; nothing if the answers end before the loop. *)
Fixpoint tls_flush (out : bytes) (answers : list wanswer) (o : ssl_out) : option (ssl_out * bool) :=
  match out with
  | [] => Some (o, false)
  | _ => match answers with
         | [] => None
         | ATook :: l => tls_flush [] l (ssl_write out ATook o)
         | AWant :: l => tls_flush out l (ssl_write out AWant o)
         | AOther :: _ => Some (ssl_write out AOther o, true)
         end
  end.
(** The replies of one connection, one flush after the other, until it is closed [src/net.c:815-866 qwrite]. *)
Fixpoint tls_flushes (outs : list (bytes * list wanswer)) (o : ssl_out) : option (ssl_out * bool) :=
  match outs with
  | [] => Some (o, false)
  | (out, l) :: outs => match tls_flush out l o with
                        | Some (o, false) => tls_flushes outs o
                        | r => r
                        end
  end.
