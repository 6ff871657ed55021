(** The event loop of a server thread (net.c): connections, queues, background jobs.
    What the server does with a packet is a parameter: the theorems hold for every
    handler. The table of connections is a list here; Cmap models the hash table. *)
From Verif Require Import Base.

(** What can go wrong: an assertion fails, memory of a freed connection is used, the
    null pointer is followed, an element is added to a full queue, the thread never
    comes out of a loop. For the statements, no counterpart in the code. *)
Inductive nfault := NAssert | NFreed | NNull | NFull | NStuck.
(** For the statements, no counterpart in the code. *)
Inductive nres (A : Type) := NOk (a : A) | NBad (f : nfault).
Arguments NOk {A} a. Arguments NBad {A} f.
(** For the statements, no counterpart in the code. *)
Definition nbind {A B : Type} (x : nres A) (f : A -> nres B) : nres B := match x with NOk a => f a | NBad e => NBad e end.
Notation "'nlet' p <- x ; y" := (nbind x (fun p => y)) (at level 200, p pattern, x at level 100, y at level 200).

(** What the system answers to a read: bytes, the end of the stream, nothing there yet
    (EAGAIN), an error. read(2) in [src/net.c:731-784 qread] *)
Inductive rres := RData (s : bytes) | REof | RAgain | RErr.
(** What it answers to a write: how many bytes it took, EAGAIN, an error. write(2) in [src/net.c:682-703 flush_conn] *)
Inductive wres := WTook (n : nat) | WAgain | WErr.

(** [src/net.c:682-703 flush_conn], the loop: the bytes that were taken, and whether all
    went well. The list has the answers of the system; when it is used up the loop has
    not ended. An answer is never larger than what was asked for. *)
Fixpoint flush_loop (out : bytes) (ws : list wres) : option (bytes * bool) :=
  match out with
  | [] => Some ([], true)
  | _ => match ws with
    | [] => None
    | WAgain :: ws => flush_loop out ws
    | WErr :: _ => Some ([], false)
    | WTook n :: ws => match flush_loop (skipn n out) ws with None => None | Some (s, ok) => Some (firstn n out ++ s, ok) end
    end
  end.

Section Loop.
(** The data of a connection that the server keeps (its [udata]), the state that all
    connections share (the cache), background jobs. *)
Variables A G J : Type.
(** What the handler did with a packet: new data, new shared state, bytes written to the
    connection, whether it closed the connection; or it asked for a background job
    [j] after writing [out], and if that is refused it goes on with [no]. [src/net.c:786-813 qprocess], the call of ctx->data *)
Inductive hres :=
  | HDone (a : A) (g : G) (out : bytes) (closed : bool)
  | HBack (a : A) (g : G) (out : bytes) (j : J) (no : A * G * bytes).
(** The handlers [net_opts.opened], [net_opts.data] and those of a job,
    [bgworkctx.work] and [bgworkctx.done]. *)
Variable opened : A.
Variable data : bytes -> A -> G -> hres.
Variable work : J -> G -> J * G.
Variable done : J -> A -> A * bytes * bool.

(** What happens on a connection, for the statements: bytes come in, the handler gets
    them (with the shared state at that time), it or a job writes, the job is refused,
    the job is done, the system takes bytes (all, or a write failed), a read says that the
    stream has ended or fails. *)
Inductive act :=
  | Got (s : bytes) | Fed (s : bytes) (g : G) | Said (s : bytes) | Refused | Worked (j : J) | Sent (s : bytes) (ok : bool) | Over.

(** [src/net.c:247-263 struct net_conn], without statistics and TLS; [c_watch] is what the
    event queue watches: nothing, reading ([false]) or writing ([true]); [c_thread]
    tells whether the background thread exists; [c_acts] is what has happened so far. *)
Record nconn := mkNconn {
  c_fd : nat; c_closed : bool; c_out : bytes; c_bg : option J; c_data : A;
  c_watch : option bool; c_thread : bool; c_acts : list act }.
(** [src/net.c:265-271 conn_new, 614 addread] and [opened] *)
Definition conn_new (fd : nat) : nconn := mkNconn fd false [] None opened (Some false) false [].
(** The state of the thread: connections, shared state, and the connections that were
    closed. [src/net.c:469-530 struct qthreadctx] *)
Record thread := mkThread { t_conns : list nconn; t_shared : G; t_gone : list nconn }.

(** [src/net.c:403-412 cmap_get] *)
Definition get_conn (fd : nat) (t : thread) : option nconn := find (fun c => c_fd c =? fd) (t_conns t).
(** A connection changes. For the statements, no counterpart in the code. *)
Definition put_conn (c : nconn) (t : thread) : thread :=
  mkThread (map (fun d => if c_fd d =? c_fd c then c else d) (t_conns t)) (t_shared t) (t_gone t).
(** A connection pointer in a queue is used: its memory must not be free. [src/net.c:706-886], the elements of the queues *)
Definition use_conn (fd : nat) (t : thread) : nres nconn :=
  match get_conn fd t with None => NBad NFreed | Some c => NOk c end.
(** Something happens. For the statements, no counterpart in the code. *)
Definition add_act (x : act) (c : nconn) : nconn :=
  mkNconn (c_fd c) (c_closed c) (c_out c) (c_bg c) (c_data c) (c_watch c) (c_thread c) (c_acts c ++ [x]).
(** The shared state changes. For the statements, no counterpart in the code. *)
Definition set_shared (g : G) (t : thread) : thread := mkThread (t_conns t) g (t_gone t).
(** [src/net.c:314-321 net_conn_out_write]: bytes are added to the output. *)
Definition say (s : bytes) (c : nconn) : nconn :=
  add_act (Said s) (mkNconn (c_fd c) (c_closed c) (c_out c ++ s) (c_bg c) (c_data c) (c_watch c) (c_thread c) (c_acts c)).
(** [src/net.c:345-347 net_conn_close] *)
Definition shut (b : bool) (c : nconn) : nconn :=
  mkNconn (c_fd c) (c_closed c || b) (c_out c) (c_bg c) (c_data c) (c_watch c) (c_thread c) (c_acts c).
(** The handler changes its data. For the statements, no counterpart in the code. *)
Definition set_data (a : A) (c : nconn) : nconn :=
  mkNconn (c_fd c) (c_closed c) (c_out c) (c_bg c) a (c_watch c) (c_thread c) (c_acts c).
(** The job and its thread. [src/net.c:1256-1298 net_conn_bgwork] *)
Definition set_bg (j : option J) (th : bool) (c : nconn) : nconn :=
  mkNconn (c_fd c) (c_closed c) (c_out c) j (c_data c) (c_watch c) th (c_acts c).
(** [src/net.c:161-175, 193-207 addread, addwrite] with the assertion of the callers: a descriptor
    that is in the queue already gives an error. *)
Definition watch (w : bool) (c : nconn) : nres nconn :=
  match c_watch c with
  | Some _ => NBad NAssert
  | None => NOk (mkNconn (c_fd c) (c_closed c) (c_out c) (c_bg c) (c_data c) (Some w) (c_thread c) (c_acts c))
  end.
(** [src/net.c:177-191, 209-223 delread, delwrite] with the assertion of the callers. *)
Definition unwatch (c : nconn) : nres nconn :=
  match c_watch c with
  | None => NBad NAssert
  | Some _ => NOk (mkNconn (c_fd c) (c_closed c) (c_out c) (c_bg c) (c_data c) None (c_thread c) (c_acts c))
  end.
(** The output is flushed: the bytes the system took. [src/net.c:682-703 flush_conn] *)
Definition flushed (s : bytes) (ok : bool) (c : nconn) : nconn :=
  add_act (Sent s ok) (mkNconn (c_fd c) (c_closed c || negb ok) [] (c_bg c) (c_data c) (c_watch c) (c_thread c) (c_acts c)).
(** [src/net.c:682-703 flush_conn], called with [written] 0 *)
Definition flush (ws : list wres) (c : nconn) : nres nconn :=
  match flush_loop (c_out c) ws with None => NBad NStuck | Some (s, ok) => NOk (flushed s ok c) end.
(** [src/net.c:837-853]: a write by io_uring took [own]; the loop takes it that it was
    [seen], and goes on with system calls. *)
Definition flush_uring (own seen : wres) (ws : list wres) (c : nconn) : nres nconn :=
  let took := match own with WTook n => firstn n (c_out c) | _ => [] end in
  match seen with
  | WErr => NOk (flushed took false c)
  | _ => match flush_loop (match seen with WTook n => skipn n (c_out c) | _ => c_out c end) ws with
    | None => NBad NStuck
    | Some (s, ok) => NOk (flushed (took ++ s) ok c)
    end
  end.

(** The answers of the system in one round of the loop, by descriptor: to reads, to writes in
    [qattach] (0), in [net_conn_bgwork] (1), in [qwrite] (2), to creating a thread; and
    what other threads did to the shared state before a packet is handled. With io_uring:
    the answers to its writes, the order in which reads and writes that were submitted
    are completed, what is in the packet buffer of a connection from earlier rounds. [src/net.c:731-784 qread], [815-853 qwrite] *)
Record uring := mkUring { u_write : nat -> wres; u_reads : list nat -> list nat; u_writes : list nat -> list nat; u_stale : nat -> bytes }.
(** [src/net.c:706-853], the results of the system calls *)
Record answers := mkAnswers {
  a_read : nat -> rres; a_write : nat -> nat -> list wres; a_spawn : nat -> bool; a_other : nat -> G -> G; a_uring : option uring }.
(** [src/net.c:734, 817] MINURINGEVENTS is 2. TLS connections are not modelled. *)
Definition uses_uring (w : answers) (reads : list nat) : option uring :=
  match a_uring w with Some u => if (2 <=? length reads)%nat then Some u else None | None => None end.
(** An event: a descriptor, and for one without a connection whether it becomes a
    connection; else the thread accepts or turns a connection away, see Accept. [src/net.c:576-642 qaccept] *)
Record event := mkEvent { e_fd : nat; e_new : bool }.
(** The queues, [src/net.c:495-508]. *)
Record queues := mkQueues { q_attach : list nat; q_reads : list nat; q_ins : list (nat * bytes); q_outs : list nat; q_closes : list nat }.
(** [src/net.c:567-574 qreset] *)
Definition q_new : queues := mkQueues [] [] [] [] [].

(** One event of [src/net.c:576-654 qaccept]; the part for listening sockets and the limit on
    connections is in Accept. *)
Definition qaccept_one (e : event) (t : thread) (q : queues) : thread * queues :=
  let go c t :=
    let fd := c_fd c in
    (t, match c_bg c with
        | Some _ => mkQueues (q_attach q ++ [fd]) (q_reads q) (q_ins q) (q_outs q) (q_closes q)
        | None => if (0 <? length (c_out c))%nat then mkQueues (q_attach q) (q_reads q) (q_ins q) (q_outs q ++ [fd]) (q_closes q)
                  else if c_closed c then mkQueues (q_attach q) (q_reads q) (q_ins q) (q_outs q) (q_closes q ++ [fd])
                  else mkQueues (q_attach q) (q_reads q ++ [fd]) (q_ins q) (q_outs q) (q_closes q)
        end) in
  match get_conn (e_fd e) t with
  | Some c => go c t
  | None => if e_new e then let c := conn_new (e_fd e) in go c (mkThread (c :: t_conns t) (t_shared t) (t_gone t)) else (t, q)
  end.
(** [src/net.c:576-654 qaccept] *)
Fixpoint qaccept (es : list event) (t : thread) (q : queues) : thread * queues :=
  match es with [] => (t, q) | e :: es => let '(t, q) := qaccept_one e t q in qaccept es t q end.

(** One connection of [src/net.c:706-728 qattach] *)
Definition qattach_one (w : answers) (fd : nat) (t : thread) (q : queues) : nres (thread * queues) :=
  nlet c <- use_conn fd t;
  match c_bg c with
  | None => NBad NNull
  | Some j =>
    let '(a, out, cl) := done j (c_data c) in
    nlet c <- unwatch (set_bg None false (shut cl (say out (set_data a (add_act (Worked j) c)))));
    nlet c <- watch false c;
    nlet c <- flush (a_write w 0 fd) c;
    NOk (put_conn c t, if c_closed c then mkQueues (q_attach q) (q_reads q) (q_ins q) (q_outs q) (q_closes q ++ [fd])
                       else mkQueues (q_attach q) (q_reads q ++ [fd]) (q_ins q) (q_outs q) (q_closes q))
  end.
(** [src/net.c:706-728 qattach] *)
Fixpoint qattach (w : answers) (fds : list nat) (t : thread) (q : queues) : nres (thread * queues) :=
  match fds with [] => NOk (t, q) | fd :: fds => nlet (t, q) <- qattach_one w fd t q; qattach w fds t q end.

(** [src/net.c:658-680 handle_read] with the answer [r], when the answer to the read of this
    connection was [own]. The terminating zero is not modelled, for the packet buffers
    see [uring_packet]. *)
Definition handle_read (own r : rres) (fd : nat) (t : thread) (q : queues) : nres (thread * queues) :=
  nlet c <- use_conn fd t;
  if negb (length (c_out c) =? 0)%nat then NBad NAssert
  else match c_bg c with
  | Some _ => NBad NAssert
  | None =>
    let got := match own with RData d => d | _ => [] end in
    let take s := NOk (put_conn (add_act (Got got) c) t, mkQueues (q_attach q) (q_reads q) (q_ins q ++ [(fd, s)]) (q_outs q) (q_closes q)) in
    match r with
    | REof | RErr => NOk (put_conn (add_act Over (match own with RData d => add_act (Got d) c | _ => c end)) t,
                          mkQueues (q_attach q) (q_reads q) (q_ins q) (q_outs q) (q_closes q ++ [fd]))
    | RAgain => take []
    | RData s => take s
    end
  end.
(** [src/net.c:750-763]: the packet that goes with a completion [seen]: its length is that
    of the completion, its bytes are those in the buffer of the connection, which has what was read
    for that connection, [own], over what was there before. *)
Definition uring_packet (stale : bytes) (own seen : rres) : rres :=
  match seen with
  | RData s => RData (firstn (length s) (match own with RData d => d ++ skipn (length d) stale | _ => stale end))
  | r => r
  end.
(** [src/net.c:731-783 qread], the system calls: by system call or by io_uring, where the
    i-th completion is taken for that of the i-th connection. *)
Definition read_results (w : answers) (fds : list nat) : list (nat * (rres * rres)) :=
  match uses_uring w fds with
  | None => map (fun fd => (fd, (a_read w fd, a_read w fd))) fds
  | Some u => map (fun p => (fst p, (a_read w (fst p), uring_packet (u_stale u (fst p)) (a_read w (fst p)) (a_read w (snd p))))) (combine fds (u_reads u fds))
  end.
(** [src/net.c:731-783 qread] *)
Fixpoint qread (rs : list (nat * (rres * rres))) (t : thread) (q : queues) : nres (thread * queues) :=
  match rs with [] => NOk (t, q) | (fd, (own, r)) :: rs => nlet (t, q) <- handle_read own r fd t q; qread rs t q end.

(** [src/net.c:1256-1298 net_conn_bgwork]: whether the job was taken. The result of
    [pthread_create] is compared with -1, which it never is: when there is no thread
    (error EAGAIN = 11) the function goes on as if there were. *)
Definition bgwork (w : answers) (fd : nat) (j : J) (c : nconn) : nres (nconn * bool) :=
  if match c_bg c with Some _ => true | None => false end || c_closed c then NOk (c, false)
  else nlet c <- flush (a_write w 1 fd) c;
    if c_closed c then NOk (c, false)
    else nlet c <- unwatch c; NOk (set_bg (Some j) (a_spawn w fd) c, true).
(** The handler [ctx->data] runs on a packet. [src/net.c:786-813 qprocess] *)
Definition feed (w : answers) (fd : nat) (s : bytes) (c : nconn) (g : G) : nres (nconn * G) :=
  let f := add_act (Fed s g) c in
  match data s (c_data c) g with
  | HDone a g out cl => NOk (shut cl (say out (set_data a f)), g)
  | HBack a g out j (a2, g2, out2) =>
    nlet (c, taken) <- bgwork w fd j (say out (set_data a f));
    if taken then NOk (c, g) else NOk (say out2 (set_data a2 (add_act Refused c)), g2)
  end.
(** One packet of [src/net.c:786-806 qprocess] *)
Definition qprocess_one (w : answers) (p : nat * bytes) (t : thread) (q : queues) : nres (thread * queues) :=
  let '(fd, s) := p in
  nlet c <- use_conn fd t;
  nlet (c, g) <- feed w fd s c (a_other w fd (t_shared t));
  NOk (set_shared g (put_conn c t),
       match c_bg c with
       | Some _ => q
       | None => if (0 <? length (c_out c))%nat then mkQueues (q_attach q) (q_reads q) (q_ins q) (q_outs q ++ [fd]) (q_closes q)
                 else if c_closed c then mkQueues (q_attach q) (q_reads q) (q_ins q) (q_outs q) (q_closes q ++ [fd])
                 else q
       end).
(** [src/net.c:786-806 qprocess] *)
Fixpoint qprocess (w : answers) (ps : list (nat * bytes)) (t : thread) (q : queues) : nres (thread * queues) :=
  match ps with [] => NOk (t, q) | p :: ps => nlet (t, q) <- qprocess_one w p t q; qprocess w ps t q end.

(** [src/net.c:815-835 qwrite], the writes by io_uring, if it is used: what the system took and the
    completion that is taken for it. *)
Definition write_results (w : answers) (reads fds : list nat) : list (nat * option (wres * wres)) :=
  match uses_uring w reads with
  | None => map (fun fd => (fd, None)) fds
  | Some u => map (fun p => (fst p, Some (u_write u (fst p), u_write u (snd p)))) (combine fds (u_writes u fds))
  end.
(** One connection of [src/net.c:815-868 qwrite] *)
Definition qwrite_one (w : answers) (fd : nat) (u : option (wres * wres)) (t : thread) (q : queues) : nres (thread * queues) :=
  nlet c <- use_conn fd t;
  nlet c <- match u with None => flush (a_write w 2 fd) c | Some (own, seen) => flush_uring own seen (a_write w 2 fd) c end;
  NOk (put_conn c t, if c_closed c then mkQueues (q_attach q) (q_reads q) (q_ins q) (q_outs q) (q_closes q ++ [fd]) else q).
(** [src/net.c:815-868 qwrite] *)
Fixpoint qwrite (w : answers) (rs : list (nat * option (wres * wres))) (t : thread) (q : queues) : nres (thread * queues) :=
  match rs with [] => NOk (t, q) | (fd, u) :: rs => nlet (t, q) <- qwrite_one w fd u t q; qwrite w rs t q end.

(** [src/net.c:870-886 qclose]: the connection is removed and freed. *)
Fixpoint qclose (fds : list nat) (t : thread) : nres thread :=
  match fds with
  | [] => NOk t
  | fd :: fds =>
    nlet c <- use_conn fd t;
    qclose fds (mkThread (filter (fun d => negb (c_fd d =? fd)%nat) (t_conns t)) (t_shared t) (c :: t_gone t))
  end.

(** The arrays have room for [size] elements, [src/net.c:908-916]. *)
Definition fits (size : nat) (q : queues) : bool :=
  (length (q_attach q) <=? size)%nat && (length (q_reads q) <=? size)%nat && (length (q_ins q) <=? size)%nat &&
  (length (q_outs q) <=? size)%nat && (length (q_closes q) <=? size)%nat.
(** The queues only grow within a round; they are checked after each phase. As above: [src/net.c:908-916]. *)
Definition room (size : nat) (x : nres (thread * queues)) : nres (thread * queues) :=
  nlet (t, q) <- x; if fits size q then NOk (t, q) else NBad NFull.
(** [src/net.c:918-937 qthread], one round of the loop. *)
Definition round (size : nat) (w : answers) (es : list event) (t : thread) : nres thread :=
  nlet (t, q) <- room size (NOk (qaccept es t q_new));
  nlet (t, q) <- room size (qattach w (q_attach q) t q);
  nlet (t, q) <- room size (qread (read_results w (q_reads q)) t q);
  nlet (t, q) <- room size (qprocess w (q_ins q) t q);
  nlet (t, q) <- room size (qwrite w (write_results w (q_reads q) (q_outs q)) t q);
  qclose (q_closes q) t.
(** [src/net.c:1244-1254 bgwork], the background thread: the work is done, then the
    connection is put into the event queue. The work counts as done at one moment. *)
Definition finish (fd : nat) (t : thread) : nres thread :=
  nlet c <- use_conn fd t;
  match c_bg c with
  | None => NBad NNull
  | Some j => let '(j, g) := work j (t_shared t) in
    nlet c <- watch true (set_bg (Some j) false c); NOk (set_shared g (put_conn c t))
  end.

(** One step: a round of the loop, a background job ends, another thread changes the shared
    state. For the statements, no counterpart in the code. *)
Inductive nstep := SRound (w : answers) (es : list event) | SFinish (fd : nat) | SOther (f : G -> G).
(** [src/net.c:918-937], [1244-1254 bgwork] *)
Definition nstep_run (size : nat) (s : nstep) (t : thread) : nres thread :=
  match s with SRound w es => round size w es t | SFinish fd => finish fd t | SOther f => NOk (set_shared (f (t_shared t)) t) end.
(** [src/net.c:918-937] *)
Fixpoint nrun (size : nat) (ss : list nstep) (t : thread) : nres thread :=
  match ss with [] => NOk t | s :: ss => nlet t <- nstep_run size s t; nrun size ss t end.
(** A thread starts without connections, [src/net.c:889-916]. *)
Definition thread_new (g : G) : thread := mkThread [] g [].
End Loop.
Arguments HDone {A G J}. Arguments HBack {A G J}.
Arguments Got {G J}. Arguments Fed {G J}. Arguments Said {G J}. Arguments Refused {G J}. Arguments Worked {G J}. Arguments Sent {G J}. Arguments Over {G J}.
Arguments mkNconn {A G J}. Arguments c_fd {A G J}. Arguments c_closed {A G J}. Arguments c_out {A G J}. Arguments c_bg {A G J}.
Arguments c_data {A G J}. Arguments c_watch {A G J}. Arguments c_thread {A G J}. Arguments c_acts {A G J}.
Arguments mkThread {A G J}. Arguments t_conns {A G J}. Arguments t_shared {A G J}. Arguments t_gone {A G J}.
Arguments mkAnswers {G}. Arguments a_read {G}. Arguments a_write {G}. Arguments a_spawn {G}. Arguments a_other {G}. Arguments a_uring {G}.
Arguments SRound {G}. Arguments SFinish {G}. Arguments SOther {G}.
Arguments get_conn {A G J}. Arguments put_conn {A G J}. Arguments use_conn {A G J}. Arguments add_act {A G J}. Arguments set_shared {A G J}.
Arguments say {A G J}. Arguments shut {A G J}. Arguments set_data {A G J}. Arguments set_bg {A G J}. Arguments watch {A G J}. Arguments unwatch {A G J}.
Arguments flush {A G J}. Arguments qaccept_one {A G J}. Arguments qaccept {A G J}. Arguments qattach_one {A G J}. Arguments qattach {A G J}.
Arguments handle_read {A G J}. Arguments read_results {G}. Arguments write_results {G}. Arguments uses_uring {G}. Arguments flushed {A G J}. Arguments flush_uring {A G J}. Arguments qread {A G J}. Arguments bgwork {A G J}. Arguments feed {A G J}. Arguments qprocess_one {A G J}.
Arguments qprocess {A G J}. Arguments qwrite_one {A G J}. Arguments qwrite {A G J}. Arguments qclose {A G J}. Arguments room {A G J}.
Arguments round {A G J}. Arguments finish {A G J}. Arguments nstep_run {A G J}. Arguments nrun {A G J}. Arguments thread_new {A G J}.
