(** Commands as programs that call the cache and write replies. *)
From Verif Require Import Base Types Clamp Entry Hash Map Shard Cache.
Local Open Scope N_scope.

(** [src/conn.h:16-19], the protocol of a connection. *)
Inductive proto := MEMCACHE | POSTGRES | HTTP | RESP.

(** What is written to a connection: the calls of [src/conn.c:308-396
    conn_write_*] and [src/postgres.c:1248-1347 pg_write_*] with their arguments.
    Reply.v turns them into bytes. *)
Inductive wr :=
| WError (msg : bytes)
| WString (s : bytes)
| WNull
| WBulk (s : bytes)
| WRaw (s : bytes)
| WHttp (code : N) (status body : bytes)
| WArray (n : N)
| WUint (n : N)
| WInt (z : Z)
| PRowDesc (cols : list bytes)
| PRow (cols : list bytes)
| PComplete (tag : bytes)
| PReady.

(** What the outside world contributes to one step: memory and the clock of the
    cache library, sys_now(), sys_unixnow() [src/sys.c:164-181], the low-memory
    flag [src/cmds.c:49], sys_nprocs() and whether a worker thread can be had. *)
Record input := mkInput {
  in_env : env; in_now : Z; in_unix : Z; in_lowmem : bool; in_procs : nat; in_work : bool
}.

(** A command: it ends, writes, closes the connection, marks it as
    authenticated, asks the outside world, calls the cache, hands a program to a
    detached thread that first sleeps, or runs into undefined behaviour. The calls that the functions of [src/cmds.c] make. *)
Inductive prog :=
| Done
| Put (w : wr) (k : prog)
| CloseConn (k : prog)
| SetAuth (k : prog)
| Ask (k : input -> prog)
| Do (x : call) (k : result -> prog)
| Fork (delay : Z) (q : prog) (k : prog)
| Fail (t : trouble)
| Unmodelled.

(** What a command did besides changing the cache. [src/conn.c:50-60 conn_setauth, conn_close, 308-458 the replies] *)
Inductive eff :=
| Out (w : wr) | Closed | Authed | Forked (delay : Z) (q : prog) | Skipped.

(** Several writes one after the other [src/conn.c:308-458]. *)
Fixpoint puts (ws : list wr) (k : prog) : prog :=
  match ws with [] => k | w :: r => Put w (puts r k) end.
(** A command that only writes [src/conn.c:308-458]. *)
Definition answer (ws : list wr) : prog := puts ws Done.

(** Running a command from a cache; step [n] of the run uses [orc n]. *)
Section Run.
Variable c : ctx.
Variable orc : nat -> input.
(** A command function of [src/cmds.c] runs on the cache. *)
Fixpoint prun (n : nat) (ch : cache) (p : prog) : out (cache * list eff * list event) :=
  let also (e : eff) (r : out (cache * list eff * list event)) :=
    match r with Ok (ch', es, evs) => Ok (ch', e :: es, evs) | Bad t => Bad t end in
  match p with
  | Done => Ok (ch, [], [])
  | Put w k => also (Out w) (prun n ch k)
  | CloseConn k => also Closed (prun n ch k)
  | SetAuth k => also Authed (prun n ch k)
  | Ask k => prun (S n) ch (k (orc n))
  | Do x k =>
      match step c (in_env (orc n)) ch x with
      | Bad t => Bad t
      | Ok (ch1, r, ev1) =>
          match prun (S n) ch1 (k r) with
          | Bad t => Bad t
          | Ok (ch2, es, ev2) => Ok (ch2, es, ev1 ++ ev2)
          end
      end
  | Fork d q k => also (Forked d q) (prun n ch k)
  | Fail t => Bad t
  | Unmodelled => Ok (ch, [Skipped], [])
  end.
End Run.
