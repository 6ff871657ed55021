(** The reply of STATS. *)
From Verif Require Import Base Types Clamp Entry Hash Map Shard Cache Text IntText Prog Cmds Stats StatCmd.
From Coq Require Import String.
Local Open Scope N_scope.
Notation length := List.length.

(** The counters of STATS: those of StatCmd.v and four more. [src/stats.h, src/stats.c:15-35] *)
Inductive counter := CStat (s : stat) | CFlush | CTooLarge | CAuthCmds | CAuthErrors.

(** What STATS reads besides the cache [src/cmds.c:2053-2099]: the process, the
    clock as whole seconds (the quotients of doubles that "%.0f" rounds are left
    open, and taken not to be negative), the texts compiled in, getrusage when it
    succeeds (user and system time, in seconds and microseconds), the connections,
    the counters, the number of threads and the resident set. *)
Record readings := mkReadings {
  rd_pid : N; rd_uptime : N; rd_time : N; rd_version : bytes; rd_githash : bytes;
  rd_usage : option (N * N * (N * N));
  rd_maxconns : N; rd_nconns : N; rd_tconns : N; rd_rconns : N;
  rd_count : counter -> N; rd_threads : N; rd_rss : N
}.

(** The directive %06ld of a number that is not negative [src/cmds.c:2064-2067]. *)
Definition pad6 (x : N) : bytes := let d := u64toa x in repeat 48 (6 - length d) ++ d.
(** %ld.%06ld [src/cmds.c:2064-2067]. *)
Definition secs (t : N * N) : bytes := u64toa (fst t) ++ [46] ++ pad6 (snd t).
(** A name, a space, a number [src/cmds.c:2053-2099, the formats]. *)
Definition numstat (name : string) (x : N) : bytes := bs name ++ [32] ++ u64toa x.
(** A name, a space, a string [src/cmds.c:2056-2058]. *)
Definition textstat (name : string) (s : bytes) : bytes := bs name ++ [32] ++ cstr s.

(** The texts that the calls of stats_printf format, in order
    [src/cmds.c:2053-2099 stats]; uintptr_t has 64 bits. *)
Definition stat_texts (rd : readings) (size count total : N) : list bytes :=
  let ct x := rd_count rd x in
  [ numstat "pid" (rd_pid rd); numstat "uptime" (rd_uptime rd); numstat "time" (rd_time rd);
    textstat "product" (bs "pogocache"); textstat "version" (rd_version rd);
    textstat "githash" (rd_githash rd); numstat "pointer_size" (8 * 8) ] ++
  match rd_usage rd with
  | Some (u, s) => [ bs "rusage_user" ++ [32] ++ secs u; bs "rusage_system" ++ [32] ++ secs s ]
  | None => []
  end ++
  [ numstat "max_connections" (rd_maxconns rd); numstat "curr_connections" (rd_nconns rd);
    numstat "total_connections" (rd_tconns rd); numstat "rejected_connections" (rd_rconns rd);
    numstat "cmd_get" (ct (CStat (SK KGet))); numstat "cmd_set" (ct (CStat (SK KSet)));
    numstat "cmd_flush" (ct CFlush); numstat "cmd_touch" (ct (CStat STouch));
    numstat "get_hits" (ct (CStat (SK KHit))); numstat "get_misses" (ct (CStat (SK KMiss)));
    numstat "delete_misses" (ct (CStat SDelMiss)); numstat "delete_hits" (ct (CStat SDelHit));
    numstat "incr_misses" (ct (CStat SIncrMiss)); numstat "incr_hits" (ct (CStat SIncrHit));
    numstat "decr_misses" (ct (CStat SDecrMiss)); numstat "decr_hits" (ct (CStat SDecrHit));
    numstat "touch_hits" (ct (CStat STouchHit)); numstat "touch_misses" (ct (CStat STouchMiss));
    numstat "store_too_large" (ct CTooLarge); numstat "store_no_memory" (ct (CStat SNoMem));
    numstat "auth_cmds" (ct CAuthCmds); numstat "auth_errors" (ct CAuthErrors);
    numstat "threads" (rd_threads rd); numstat "rss" (rd_rss rd); numstat "bytes" size;
    numstat "curr_items" count; numstat "total_items" total ].

(** [src/cmds.c:2040-2048 stats_printf]: vsnprintf puts at most 510 bytes and a
    NUL into the 512 bytes of [line] and returns the length [len] of the whole
    text; then [len + 1] bytes of [line] are copied. What is kept is the C string
    in the copy. *)
Definition stats_printf (text : bytes) : out bytes :=
  let len := length text in
  if (512 <? len + 1)%nat then Bad OutOfBounds else Ok (firstn 510 text).
(** The calls of stats_printf one after the other [src/cmds.c:2053-2099 stats]. *)
Fixpoint stats_all (texts : list bytes) : out (list bytes) :=
  match texts with
  | [] => Ok []
  | t :: r => match stats_printf t with
      | Bad x => Bad x
      | Ok l => match stats_all r with Bad x => Bad x | Ok ls => Ok (l :: ls) end
      end
  end.

(** Key and value: strchr finds the first space, which is overwritten with a
    NUL; without a space the value is empty [src/cmds.c:2001-2009, 2025-2033]. *)
Fixpoint stat_split (s : bytes) : bytes * bytes :=
  match s with
  | [] => ([], [])
  | b :: r => if b =? 32 then ([], r) else let '(k, v) := stat_split r in (b :: k, v)
  end.
(** [src/cmds.c:2014-2020, the lines for Memcache]: snprintf puts at most 511
    bytes and a NUL into the 512 bytes of [line]; then as many bytes of [line] are
    written as the whole text has. *)
Definition mc_stat (l : bytes) : out bytes :=
  let text := bs "STAT " ++ l ++ crlf in
  let n := length text in
  if (512 <? n)%nat then Bad OutOfBounds
  else Ok (if (n <? 512)%nat then text else firstn 511 text ++ [0]).
(** The loop [src/cmds.c:2014-2020]. *)
Fixpoint mc_stats (ls : list bytes) : out (list wr) :=
  match ls with
  | [] => Ok [WRaw (bs "END" ++ crlf)]
  | l :: r => match mc_stat l with
      | Bad x => Bad x
      | Ok t => match mc_stats r with Bad x => Bad x | Ok ws => Ok (WRaw t :: ws) end
      end
  end.
(** [src/cmds.c:1997-2038 stats_end]. *)
Definition stats_end (pr : proto) (ls : list bytes) : out (list wr) :=
  if is_pg pr then
    Ok ([PRowDesc [bs "stat"; bs "value"]] ++
        List.map (fun l => let '(k, v) := stat_split l in PRow [k; v]) ls ++
        complete (tag (bs "STATS") (u64toa (N.of_nat (length ls)))))
  else if is_mc pr then mc_stats ls
  else Ok (WArray (N.of_nat (length ls)) ::
           flat_map (fun l => let '(k, v) := stat_split l in [WArray 2; WBulk k; WBulk v]) ls).

(** [src/cmds.c:2050-2101 stats, 2103-2110 cmdSTATS]. The cache is asked before
    the texts are made; neither touches the other. *)
Definition cmdSTATS (rd : readings) (pr : proto) (args : list bytes) : prog :=
  match args with
  | [_] =>
      Do (Size None true) (fun r1 => Do (Count None) (fun r2 => Do (Total None) (fun r3 =>
      match r1, r2, r3 with
      | RNum size, RNum count, RNum total =>
          match stats_all (stat_texts rd size count total) with
          | Bad t => Fail t
          | Ok ls => match stats_end pr ls with Bad t => Fail t | Ok ws => answer ws end
          end
      | _, _, _ => Fail AssertFail
      end)))
  | _ => error ERR_SYNTAX_ERROR
  end.
