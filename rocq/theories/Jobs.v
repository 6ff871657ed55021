(** The background work of FLUSHALL and SWEEP while other clients use the cache (cmds.c). *)
From Verif Require Import Base Types Clamp Entry Hash Map Shard Spec Cache Refine Reach CmdTable.
Local Open Scope N_scope.

(** What a thread does to a shard: empty it (freeing the items later, or at once), or remove what has expired
    [src/cmds.c:684-691 thflush, 741-745, 1087-1097 thsweep, 1166-1167]. *)
Inductive work := Flushes (deferfree : bool) | Sweeps.
(** The call for shard [i] of a thread whose clock was [t] when it started. Without FAST it is one call for the whole cache, a loop over the shards that
    locks one after the other [src/pogocache.c:2060-2062, 1960-1964]. *)
Definition work_call (w : work) (i : nat) (t : Z) : call :=
  match w with
  | Flushes d => Clear (Some (Z.of_nat i)) d t
  | Sweeps => Sweep (Some (Z.of_nat i)) t
  end.
(** A thread: the shards it has still to visit, and its clock [src/cmds.c:684-691, 1087-1097]. *)
Record worker := mkWorker { wk_left : list nat; wk_time : Z }.
(** The threads at the start: with FAST one for each range, else a single one [src/cmds.c:693-728 flushfast, 730-752 flush_work, 1099-1154 sweepfast,
    1156-1175 sweep_work]. *)
Definition job_start (fast : bool) (procs nshards : nat) (clock : nat -> Z) : list worker :=
  if fast then List.map (fun '(j, (s, n)) => mkWorker (seq s n) (clock j)) (combine (seq 0 (length (ranges procs nshards))) (ranges procs nshards))
  else [mkWorker (seq 0 nshards) (clock O)].
(** All threads have been joined: the reply can be written [src/cmds.c:722-727, 1142-1150]. *)
Definition job_ended (ws : list worker) : bool := forallb (fun w => match wk_left w with [] => true | _ => false end) ws.
(** A change of the cache: whether the job made it, what was before and what after. [src/cmds.c:730-752, 1156-1175] *)
Record deed := mkDeed { dd_job : bool; dd_before : cache; dd_after : cache }.
Section Beside.
Variable c : ctx.
Variable kind : work.
(** The job beside clients: any thread visits its next shard [src/cmds.c:687-690, 1090-1096], or a client's command calls the cache. *)
Inductive beside (ws0 : list worker) (ch0 : cache) : list deed -> list worker -> cache -> Prop :=
| bs_start : beside ws0 ch0 [] ws0 ch0
| bs_job : forall h ws ch w1 i left t w2 en ch' r evs, beside ws0 ch0 h ws ch ->
    ws = w1 ++ mkWorker (i :: left) t :: w2 -> call_ok c en (cabs c ch) (work_call kind i t) -> step c en ch (work_call kind i t) = Ok (ch', r, evs) ->
    beside ws0 ch0 (h ++ [mkDeed true ch ch']) (w1 ++ mkWorker left t :: w2) ch'
| bs_client : forall h ws ch en op ch' r evs, beside ws0 ch0 h ws ch ->
    call_ok c en (cabs c ch) op -> step c en ch op = Ok (ch', r, evs) ->
    beside ws0 ch0 (h ++ [mkDeed false ch ch']) ws ch'.
End Beside.
