(** The counters of commands that STATS reports: counted on the connection,
    summed up by its thread, added to the process's totals once a round. *)
From Verif Require Import Base.
Local Open Scope N_scope.

(** The four counters that are buffered. [src/net.c:258-262 struct net_conn], [506-519] *)
Inductive kind := KGet | KSet | KHit | KMiss.
(** Equality of counters. For the statements, no counterpart in the code. *)
Definition kind_eqb (a b : kind) : bool :=
  match a, b with KGet, KGet | KSet, KSet | KHit, KHit | KMiss, KMiss => true | _, _ => false end.
(** The order in which sumstats_global adds them. [src/net.c:534-547 sumstats_global] *)
Definition all_kinds : list kind := [KGet; KSet; KHit; KMiss].

(** What the processing of a connection's data does to the counters:
    net_stat_*_incr adds one to a counter of the connection, and STATS reads
    the total of the process. [src/net.c:549-565 stat_cmd_get], [1304-1318 net_stat_cmd_get_incr], [src/conn.c:420-434] *)
Inductive act := Incr (k : kind) | Read (k : kind).

(** One call of ctx->data, for a connection; the calls of a round of the loop;
    the rounds of a thread. [src/net.c:786-803 qprocess], [916-933] *)
Definition dcall : Type := nat * list act.
(** As above: [src/net.c:916-933]. *)
Definition rounds : Type := list (list dcall).

(** Where a thread is: adding its counters to the totals, those in the list still
    to go [src/net.c:917]; in qprocess between two connections; inside ctx->data
    for a connection. Waiting for events is [AtFlush []]. [src/net.c:916-933 qthread] *)
Inductive pcs :=
| AtFlush (ks : list kind) (rest : rounds)
| AtQueue (q : list dcall) (rest : rounds)
| AtData (c : nat) (acts : list act) (q : list dcall) (rest : rounds).

(** The counters: the totals of the process [src/net.c:516-519], those of each
    thread [506-510 struct qthreadctx] and those of each connection of it
    [258-262 struct net_conn]; and where each thread is. *)
Record stt := mkSt {
  st_glob : kind -> N;
  st_thr : nat -> kind -> N;
  st_conn : nat -> nat -> kind -> N;
  st_pc : nat -> pcs
}.

(** Assignments. For the model, no counterpart in the code. *)
Definition put1 (f : kind -> N) (k : kind) (v : N) : kind -> N :=
  fun k' => if kind_eqb k' k then v else f k'.
(** As above. [src/net.c:521-547] *)
Definition put2 (f : nat -> kind -> N) (t : nat) (k : kind) (v : N) : nat -> kind -> N :=
  fun t' k' => if (t' =? t)%nat && kind_eqb k' k then v else f t' k'.
(** As above. [src/net.c:521-531], [1304-1318] *)
Definition put3 (f : nat -> nat -> kind -> N) (t c : nat) (k : kind) (v : N) : nat -> nat -> kind -> N :=
  fun t' c' k' => if (t' =? t)%nat && (c' =? c)%nat && kind_eqb k' k then v else f t' c' k'.
(** As above. [src/net.c:916-933] *)
Definition setpc (f : nat -> pcs) (t : nat) (p : pcs) : nat -> pcs :=
  fun t' => if (t' =? t)%nat then p else f t'.

(** What can be observed, with the thread: an increment, a total read, the total
    of a counter made up to date by a thread, the end of a round, when the
    replies of the round have been sent. For the statements, no counterpart in the code. *)
Inductive ev :=
| EInc (t : nat) (k : kind)
| ERead (t : nat) (k : kind) (v : N)
| EFlush (t : nat) (k : kind)
| ERound (t : nat).

(** [src/net.c:522-531 sumstats]: connection and thread counters belong to the
    thread, so this is one step. *)
Definition sumstats (s : stt) (t c : nat) : stt :=
  fold_left (fun s k =>
    mkSt (st_glob s) (put2 (st_thr s) t k (u64 (st_thr s t k + st_conn s t c k)))
      (put3 (st_conn s) t c k 0) (st_pc s)) all_kinds s.

(** One step of thread [t]: at most one access to memory shared by threads, which
    is an atomic addition or an atomic load. Accesses to one variable are in
    a total order with relaxed ordering too. [src/net.c:916-933 qthread], [534-547 sumstats_global], [786-803 qprocess] *)
Definition step (s : stt) (t : nat) : stt * list ev :=
  let pc p s' := mkSt (st_glob s') (st_thr s') (st_conn s') (setpc (st_pc s') t p) in
  match st_pc s t with
  | AtFlush (k :: ks) rest =>
      (mkSt (put1 (st_glob s) k (u64 (st_glob s k + st_thr s t k)))
         (put2 (st_thr s) t k 0) (st_conn s) (setpc (st_pc s) t (AtFlush ks rest)), [EFlush t k])
  | AtFlush [] (q :: rest) => (pc (AtQueue q rest) s, [])
  | AtFlush [] [] => (s, [])
  | AtQueue [] rest => (pc (AtFlush all_kinds rest) s, [ERound t])
  | AtQueue ((c, acts) :: q) rest => (pc (AtData c acts q rest) s, [])
  | AtData c (Incr k :: acts) q rest =>
      (mkSt (st_glob s) (st_thr s) (put3 (st_conn s) t c k (u32 (st_conn s t c k + 1)))
         (setpc (st_pc s) t (AtData c acts q rest)), [EInc t k])
  | AtData c (Read k :: acts) q rest => (pc (AtData c acts q rest) s, [ERead t k (st_glob s k)])
  | AtData c [] q rest => (pc (AtQueue q rest) (sumstats s t c), [])
  end.

(** The threads run in any order. [src/net.c:1230-1241 net_main] *)
Fixpoint run (s : stt) (sched : list nat) : stt * list ev :=
  match sched with
  | [] => (s, [])
  | t :: r => let '(s1, e1) := step s t in let '(s2, e2) := run s1 r in (s2, e1 ++ e2)
  end.

(** The beginning: all counters zero, every thread at the top of its loop. [src/net.c:516-519], [916-917] *)
Definition init (work : nat -> rounds) : stt :=
  mkSt (fun _ => 0) (fun _ _ => 0) (fun _ _ _ => 0) (fun t => AtFlush all_kinds (work t)).
