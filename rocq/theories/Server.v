(** The server (conn.c with net.c): the handlers that the event loop calls, over one cache that
    all connections share. *)
From Verif Require Import Base Types Clamp Entry Hash Map Shard Cache Text IntText Prog Cmds Reply Postgres Conn Net.
From Coq Require Import String.
Local Open Scope N_scope.
Notation length := List.length.

(** For the statements: what was done on a connection [src/conn.c:112-167], see Conn, and whether the connection was authenticated then. *)
Record deed := mkDeed { e_auth : bool; e_did : did }.
(** What the connections share: the cache, the number of commands so far, the first trouble
    if there was any, and, for the statements, everything that was done, in order. *)
Record shared := mkShared { g_cache : cache; g_num : nat; g_bad : option trouble; g_log : list deed }.
(** At the start [src/main.c:761]. *)
Definition shared_new (ch : cache) : shared := mkShared ch 0 None [].
(** What the handlers keep of a connection [src/conn.c:26-36 struct conn] and, for the statements,
    what was done on it. TLS connections are not modelled in Net. *)
Record cdata := mkCdata { a_conn : conn; a_did : list deed }.
(** [src/conn.c:62-68 evopened] *)
Definition cdata_new : cdata := mkCdata (Conn.conn_new false) [].
(** A background job: the command and, when the work is done, what it gives
    [src/conn.c:193-198 struct bgworkctx]. *)
Record job := mkJob { j_auth : bool; j_raw : bytes; j_proto : proto; j_pg : pgout; j_ws : list wr; j_args : list bytes; j_effs : option (list eff) }.
(** For the statements: what a job with these effects has done [src/conn.c:205-210 done5]. *)
Definition job_deed (j : job) (es : list eff) : deed := mkDeed (j_auth j) (mkDid (j_raw j) (j_proto j) (j_pg j) (j_ws j, Some (j_args j, es))).

(** The server has run into trouble (undefined behaviour, a failed assertion, no end) somewhere in
    [src/conn.c:82-190 evdata]; what happens then is not modelled, only the first trouble is kept. *)
Definition failed (t : trouble) (g : shared) : shared :=
  mkShared (g_cache g) (g_num g) (match g_bad g with None => Some t | b => b end) (g_log g).
(** For the statements: something was done without the cache [src/conn.c:112-167]. *)
Definition noted (e : deed) (g : shared) : shared := mkShared (g_cache g) (g_num g) (g_bad g) (g_log g ++ [e]).
(** A command was run [src/conn.c:158 evcommand]. *)
Definition ran_to (ch : cache) (e : deed) (g : shared) : shared := mkShared ch (S (g_num g)) (g_bad g) (g_log g ++ [e]).
(** The inputs, when a worker thread can be had or not [src/conn.c:215-228 conn_bgwork, its result]. *)
Definition worker (b : bool) (i : input) : input := mkInput (in_env i) (in_now i) (in_unix i) (in_lowmem i) (in_procs i) b.
(** The same for a sequence of inputs [src/conn.c:215-228 conn_bgwork]. *)
Definition working (b : bool) (orc : nat -> input) : nat -> input := fun n => worker b (orc n).
(** The command works in the background: the programs of Cmds say so by what they answer when they
    cannot [src/cmds.c:581, 839, 1232, 1294]. *)
Definition goes_back (i : input) (p : prog) : bool :=
  match p with
  | Ask k => match k (worker false i) with Put (WError m) Done => beq m (bs "ERR failed to do work") | _ => false end
  | _ => false
  end.
(** What a command wrote [src/conn.c:230-420 the conn_write functions], see Reply. *)
Definition outs (es : list eff) : list wr := flat_map (fun e => match e with Out w => [w] | _ => [] end) es.

Section Server.
Variable c : ctx.
Variable cf : config.
Variable orc : nat -> nat -> input.
Variable pg : pages.

(** The loop of [src/conn.c:112-167], as in Conn, with what has been written so far, [out]. It ends at
    a command that works in the background: [net_conn_bgwork] takes the job, or refuses it if the
    connection is closed, see Net; then the loop ends because the connection is closed. *)
Fixpoint serve_loop (fuel : nat) (data : bytes) (k : conn) (ds : list deed) (g : shared) (out : bytes) : hres cdata shared job :=
  match fuel with
  | O => HDone (mkCdata k ds) (failed Hang g) out false
  | S f =>
      match data with
      | [] => HDone (mkCdata (with_packet [] k) ds) g out false
      | _ :: _ =>
          match conn_turn cf data k with
          | Bad t => HDone (mkCdata k ds) (failed t g) out false
          | Ok (Wait k1) => HDone (mkCdata (with_packet data k1) ds) g out false
          | Ok (Shut k1 ws) =>
              let e := mkDeed (k_auth k) (mkDid [] (proto_of k1) (pgout_of (k_pg k1)) (ws, None)) in
              HDone (mkCdata (conn_shut k1) (ds ++ [e])) (noted e g) (out ++ emits pg (pgout_of (k_pg k1)) (proto_of k1) (length out) ws) true
          | Ok (Turn n k1 ws cmd) =>
              let write out ws := out ++ emits pg (pgout_of (k_pg k1)) (proto_of k1) (length out) ws in
              let deed d := mkDeed (k_auth k) (mkDid (firstn n data) (proto_of k1) (pgout_of (k_pg k1)) (ws, d)) in
              let next e k2 g2 out2 :=
                let k3 := match k_proto k2 with Some HTTP => conn_shut k2 | _ => k2 end in
                if k_closed k3 then HDone (mkCdata (conn_shut k3) (ds ++ [e])) g2 out2 true
                else serve_loop f (skipn n data) k3 (ds ++ [e]) g2 out2 in
              match cmd with
              | None => let e := deed None in next e k1 (noted e g) (write out ws)
              | Some args =>
                  let p := evcommand cf (k_auth k1) (proto_of k1) args in
                  let i := orc (g_num g) in
                  if goes_back (i O) p then
                    let j := mkJob (k_auth k) (firstn n data) (proto_of k1) (pgout_of (k_pg k1)) ws args None in
                    let no := match prun c (working false i) 0 (g_cache g) p with
                              | Bad t => (mkCdata k ds, failed t g, [])
                              | Ok (ch2, es, _) => let e := deed (Some (args, es)) in
                                  (mkCdata (conn_shut (after es k1)) (ds ++ [e]), ran_to ch2 e g, write [] (outs es))
                              end in
                    HBack (mkCdata (with_packet (skipn n data) k1) ds) g (write out ws) j no
                  else match prun c (working true i) 0 (g_cache g) p with
                  | Bad t => HDone (mkCdata k ds) (failed t g) out false
                  | Ok (ch2, es, _) =>
                      let e := deed (Some (args, es)) in
                      next e (after es k1) (ran_to ch2 e g) (write (write out ws) (outs es))
                  end
              end
          end
      end
  end.
(** [src/conn.c:82-190 evdata] *)
Definition serve (packet : bytes) (a : cdata) (g : shared) : hres cdata shared job :=
  let k := a_conn a in
  if k_closed k then HDone a g [] true
  else let data := k_packet k ++ packet in serve_loop (S (length data)) data (with_packet [] k) (a_did a) g [].
(** The work of a job [src/conn.c:200-203 work5]. It counts as done at one moment, and
    the clock is read then (KEYS reads it before [src/cmds.c:571]; the inputs are arbitrary). *)
Definition job_work (j : job) (g : shared) : job * shared :=
  match prun c (working true (orc (g_num g))) 0 (g_cache g) (evcommand cf (j_auth j) (j_proto j) (j_args j)) with
  | Bad t => (j, failed t g)
  | Ok (ch2, es, _) => (mkJob (j_auth j) (j_raw j) (j_proto j) (j_pg j) (j_ws j) (j_args j) (Some es), ran_to ch2 (job_deed j es) g)
  end.
(** The answers of a job [src/conn.c:205-210 done5]. *)
Definition job_done (j : job) (a : cdata) : cdata * bytes * bool :=
  match j_effs j with
  | None => (a, [], false)
  | Some es =>
      let k := after es (a_conn a) in
      (mkCdata k (a_did a ++ [job_deed j es]), emits pg (j_pg j) (j_proto j) 0 (outs es), k_closed k)
  end.
End Server.
