(** What STATS should say. Nothing here comes from the code except the types of
    replies, caches and readings. *)
From Verif Require Import Base Types Cache Text IntText Prog CmdSpec2 Stats StatCmd StatReply.
From Coq Require Import String.
Local Open Scope N_scope.
Notation length := List.length.

(** The value of a stat: a number, a text, or a time in seconds with six decimals. *)
Inductive value := Num (x : N) | Txt (s : bytes) | Secs (s us : N).
(** [ds] is [x] as six decimal digits. *)
Definition six (ds : bytes) (x : N) : Prop := length ds = 6%nat /\ digits ds /\ decimal ds = x.
(** The text [t] says the value. *)
Definition says (v : value) (t : bytes) : Prop :=
  match v with
  | Num x => canonical t x
  | Txt s => t = s
  | Secs s us => exists a b, t = a ++ bs "." ++ b /\ canonical a s /\ six b us
  end.
(** The stats in order: what each is called and what it tells. *)
Definition stat_table (rd : readings) (size count total : N) : list (string * value) :=
  let ct x := Num (rd_count rd x) in
  [ ("pid", Num (rd_pid rd)); ("uptime", Num (rd_uptime rd)); ("time", Num (rd_time rd));
    ("product", Txt (bs "pogocache")); ("version", Txt (rd_version rd)); ("githash", Txt (rd_githash rd));
    ("pointer_size", Num 64) ]%string ++
  match rd_usage rd with
  | None => []
  | Some ((us, uu), (ss, su)) => [ ("rusage_user", Secs us uu); ("rusage_system", Secs ss su) ]%string
  end ++
  [ ("max_connections", Num (rd_maxconns rd)); ("curr_connections", Num (rd_nconns rd));
    ("total_connections", Num (rd_tconns rd)); ("rejected_connections", Num (rd_rconns rd));
    ("cmd_get", ct (CStat (SK KGet))); ("cmd_set", ct (CStat (SK KSet))); ("cmd_flush", ct CFlush);
    ("cmd_touch", ct (CStat STouch)); ("get_hits", ct (CStat (SK KHit))); ("get_misses", ct (CStat (SK KMiss)));
    ("delete_misses", ct (CStat SDelMiss)); ("delete_hits", ct (CStat SDelHit));
    ("incr_misses", ct (CStat SIncrMiss)); ("incr_hits", ct (CStat SIncrHit));
    ("decr_misses", ct (CStat SDecrMiss)); ("decr_hits", ct (CStat SDecrHit));
    ("touch_hits", ct (CStat STouchHit)); ("touch_misses", ct (CStat STouchMiss));
    ("store_too_large", ct CTooLarge); ("store_no_memory", ct (CStat SNoMem));
    ("auth_cmds", ct CAuthCmds); ("auth_errors", ct CAuthErrors); ("threads", Num (rd_threads rd));
    ("rss", Num (rd_rss rd)); ("bytes", Num size); ("curr_items", Num count); ("total_items", Num total) ]%string.
(** [kvs] gives each stat of the table, in order, by its name and a text that says its value. *)
Definition lists (tbl : list (string * value)) (kvs : list (bytes * bytes)) : Prop :=
  Forall2 (fun nv kv => fst kv = bs (fst nv) /\ says (snd nv) (snd kv)) tbl kvs.
(** The reply that gives these names and texts. [n] is the text of their number. *)
Definition stats_reply (pr : proto) (kvs : list (bytes * bytes)) (n : bytes) : list wr :=
  match pr with
  | MEMCACHE => List.map (fun kv => WRaw (bs "STAT " ++ fst kv ++ bs " " ++ snd kv ++ [13; 10])) kvs ++ [WRaw (bs "END" ++ [13; 10])]
  | POSTGRES => PRowDesc [bs "stat"; bs "value"] :: List.map (fun kv => PRow [fst kv; snd kv]) kvs ++
                [PComplete (bs "STATS " ++ n); PReady]
  | HTTP | RESP => WArray (N.of_nat (length kvs)) :: flat_map (fun kv => [WArray 2; WBulk (fst kv); WBulk (snd kv)]) kvs
  end.

(** The numbers fit their C types. *)
Definition in_range (rd : readings) : Prop :=
  rd_pid rd < 2 ^ 31 /\ rd_uptime rd < 2 ^ 64 /\ rd_time rd < 2 ^ 64 /\
  rd_maxconns rd < 2 ^ 64 /\ rd_nconns rd < 2 ^ 64 /\ rd_tconns rd < 2 ^ 64 /\ rd_rconns rd < 2 ^ 64 /\
  (forall c, rd_count rd c < 2 ^ 64) /\ rd_threads rd < 2 ^ 31 /\ rd_rss rd < 2 ^ 64 /\
  match rd_usage rd with
  | None => True
  | Some ((us, uu), (ss, su)) => us < 2 ^ 63 /\ uu < 1000000 /\ ss < 2 ^ 63 /\ su < 1000000
  end.
(** A C string. *)
Definition c_string (s : bytes) : Prop := ~ In 0 s.
