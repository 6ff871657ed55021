(** Which counters of STATS a command increments. *)
From Verif Require Import Base Types Clamp Entry Hash Map Shard Cache Prog Cmds Stats.
Local Open Scope N_scope.

(** The counters that commands increment: the four buffered ones of Stats.v, and
    those that are added to the process's totals at once. [src/stats.c:15-35] *)
Inductive stat :=
| SK (k : kind)
| STouch | STouchHit | STouchMiss
| SDelHit | SDelMiss
| SIncrHit | SIncrMiss | SDecrHit | SDecrMiss
| SNoMem.

(** The calls of the cache that a command makes, with what they return: prun of
    Prog.v, with a log. [src/cmds.c], the calls of pogocache_*. *)
Section Log.
Variable c : ctx.
Variable orc : nat -> input.
(** As above. [src/cmds.c:2379-2410 evcommand] *)
Fixpoint plog (n : nat) (ch : cache) (p : prog) : list (call * result) :=
  match p with
  | Put _ k | CloseConn k | SetAuth k | Fork _ _ k => plog n ch k
  | Ask k => plog (S n) ch (k (orc n))
  | Do x k =>
      match Cache.step c (in_env (orc n)) ch x with
      | Bad _ => []
      | Ok (ch1, r, _) => (x, r) :: plog (S n) ch1 (k r)
      end
  | Done | Fail _ | Unmodelled => []
  end.
End Log.

(** The branch on the status of a load. [src/cmds.c:424-437 cmdGET] *)
Definition hit_or_miss (r : result) : stat :=
  match r with RStatus NOTFOUND _ => SK KMiss | _ => SK KHit end.
(** [src/cmds.c:394-442 cmdGET]: counted before the arguments are looked at. *)
Definition count_get (log : list (call * result)) : list stat :=
  SK KGet :: List.map (fun x => hit_or_miss (snd x)) log.
(** [src/cmds.c:473-487 cmdMGET] *)
Definition count_mget (log : list (call * result)) : list stat :=
  flat_map (fun x => [SK KGet; hit_or_miss (snd x)]) log.
(** [src/cmds.c:988-996 cmdTTL] *)
Definition count_ttl (log : list (call * result)) : list stat :=
  List.map (fun x => hit_or_miss (snd x)) log.
(** [src/cmds.c:88, 104-106 execSET] *)
Definition count_set (log : list (call * result)) : list stat :=
  flat_map (fun x => SK KSet :: match snd x with RStatus NOMEM _ => [SNoMem] | _ => [] end) log.
(** [src/cmds.c:1601-1612 cmdTOUCH] *)
Definition count_touch (log : list (call * result)) : list stat :=
  flat_map (fun x => [STouch; match snd x with RStatus FOUND _ => STouchHit | _ => STouchMiss end]) log.
(** [src/cmds.c:627-633 cmdDEL] *)
Definition count_del (log : list (call * result)) : list stat :=
  List.map (fun x => match snd x with RStatus DELETED _ => SDelHit | _ => SDelMiss end) log.
(** [src/cmds.c:1661-1770 execINCRDECR], from the status of the load and of the
    store, when there was one. *)
Definition count_incr (pr : proto) (decr : bool) (log : list (call * result)) : list stat :=
  match log with
  | [] => []
  | [(_, RStatus FOUND _)] => []
  | [_] => if is_mc pr then [if decr then SDecrMiss else SIncrMiss] else []
  | _ :: (_, RStatus NOMEM _) :: _ => [SNoMem]
  | _ => [if decr then SDecrHit else SIncrHit]
  end.

(** The counts of a command by its place in the table of commands. [src/cmds.c:2181-2230] *)
Definition counts (i : nat) (pr : proto) (log : list (call * result)) : list stat :=
  match i with
  | 0 | 8 => count_set log
  | 1 => count_get log
  | 2 => count_del log
  | 3 | 4 => count_mget log
  | 5 | 6 => count_ttl log
  | 22 => count_touch log
  | 24 | 26 | 28 | 30 => count_incr pr false log
  | 25 | 27 | 29 | 31 => count_incr pr true log
  | _ => []
  end%nat.
(** The counts of a run of command [i]. [src/cmds.c:2379-2410 evcommand] *)
Definition counted (c : ctx) (orc : nat -> input) (cf : config) (n : nat) (ch : cache) (i : nat)
  (pr : proto) (args : list bytes) : list stat :=
  counts i pr (plog c orc n ch (cmd_func cf i pr args)).
