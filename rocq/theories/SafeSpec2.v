(** The vocabulary of C54 for connections: the commands that a connection meets. *)
From Verif Require Import Base Types Clamp Entry Hash Map Shard Cache Text IntText Prog Cmds Resp Memcache Http Reply Postgres Conn.
From Coq Require Import String.
Local Open Scope N_scope.
Notation length := List.length.

(** A connection [k] with some bytes to read, the packets that follow, and the number
    of commands so far comes to run the command [args] on the cache [ch']: at once, after a
    turn that runs no command, after a command, or after the next packet. *)
Section M.
Variable c : ctx.
Variable cf : config.
Variable orc : nat -> nat -> input.
Inductive meets : list bytes -> nat -> bytes -> conn -> cache -> cache -> list bytes -> Prop :=
| meets_now : forall ps i data k ch n k1 ws args, data <> [] -> conn_turn cf data k = Ok (Turn n k1 ws (Some args)) ->
    meets ps i data k ch ch args
| meets_after_turn : forall ps i data k ch n k1 ws ch' args', data <> [] -> conn_turn cf data k = Ok (Turn n k1 ws None) ->
    k_closed k1 = false -> k_proto k1 <> Some HTTP ->
    meets ps i (skipn n data) k1 ch ch' args' -> meets ps i data k ch ch' args'
| meets_after_command : forall ps i data k ch n k1 ws args ch1 es evs ch' args', data <> [] -> conn_turn cf data k = Ok (Turn n k1 ws (Some args)) ->
    prun c (orc i) 0 ch (evcommand cf (k_auth k1) (proto_of k1) args) = Ok (ch1, es, evs) ->
    k_closed (after es k1) = false -> k_proto k1 <> Some HTTP ->
    meets ps (S i) (skipn n data) (after es k1) ch1 ch' args' -> meets ps i data k ch ch' args'
| meets_after_wait : forall p ps i data k ch k1 ch' args', data <> [] -> conn_turn cf data k = Ok (Wait k1) ->
    meets ps i (data ++ p) (with_packet [] k1) ch ch' args' -> meets (p :: ps) i data k ch ch' args'
| meets_after_all : forall p ps i k ch ch' args',
    meets ps i p (with_packet [] k) ch ch' args' -> meets (p :: ps) i [] k ch ch' args'.
End M.
