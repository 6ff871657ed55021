(** The commands (cmds.c). An argument list includes the command's name, as in
    [args->bufs]. Counters for STATS are modelled in StatCmd.v. *)
From Verif Require Import Base Types Clamp Entry Hash Map Shard Cache
  Text IntText Glob CmdTable Prog.
From Coq Require Import String.
Local Open Scope N_scope.
Notation length := List.length.

(** [src/conn.h:21-25] *)
Definition ERR_WRONG_NUM_ARGS : bytes := bs "ERR wrong number of arguments".
(** As above: [src/conn.h:21-25]. *)
Definition ERR_SYNTAX_ERROR : bytes := bs "ERR syntax error".
(** As above: [src/conn.h:21-25]. *)
Definition ERR_INDEX_OUT_OF_RANGE : bytes := bs "ERR index is out of range".
(** As above: [src/conn.h:21-25]. *)
Definition ERR_INVALID_INTEGER : bytes := bs "ERR value is not an integer or out of range".
(** As above: [src/conn.h:21-25]. *)
Definition ERR_OUT_OF_MEMORY : bytes := bs "ERR out of memory".
(** [src/util.h:22-25], [src/parse.h:22] *)
Definition MILLISECOND : Z := 1000000.
(** As above: [src/parse.h:22]. *)
Definition SECOND : Z := 1000000000.
(** As above: [src/parse.h:22]. *)
Definition HOUR : Z := 3600000000000.
(** As above: [src/parse.h:22]. *)
Definition MAXARGSZ : N := 536870912.

(** [src/conn.c:316-330 conn_write_error] as the only reply *)
Definition error (msg : bytes) : prog := answer [WError msg].
(** [argeq] of [src/util.c:36-38] for a literal. *)
Definition is_word (s : bytes) (w : string) : bool := argeq s (bs w).
(** A clamped operation; signed overflow in it would be undefined. [src/util.c:41-72] *)
Definition need (x : option Z) (k : Z -> prog) : prog :=
  match x with Some z => k z | None => Fail Overflow end.
(** A C string inside a buffer, as printed by "%.*s": up to a NUL. printf in [src/cmds.c:590-612] *)
Fixpoint cstr (s : bytes) : bytes :=
  match s with [] => [] | b :: r => if b =? 0 then [] else b :: cstr r end.
(** The tests on conn_proto(conn), e.g. [src/cmds.c:120-145] *)
Definition by_proto {A} (pr : proto) (mc pg http resp : A) : A :=
  match pr with MEMCACHE => mc | POSTGRES => pg | HTTP => http | RESP => resp end.
(** [src/cmds.c:70], conn_proto(conn) == PROTO_POSTGRES *)
Definition is_pg (pr : proto) : bool := by_proto pr false true false false.
(** conn_proto(conn) == PROTO_MEMCACHE, e.g. [src/cmds.c:120-145] *)
Definition is_mc (pr : proto) : bool := by_proto pr true false false false.
(** conn_proto(conn) == PROTO_RESP, e.g. [src/cmds.c:120-145] *)
Definition is_resp (pr : proto) : bool := by_proto pr false false false true.
(** conn_proto(conn) == PROTO_HTTP, e.g. [src/cmds.c:120-145] *)
Definition is_http (pr : proto) : bool := by_proto pr false false true false.
(** "%d"/"%zu" in a completion tag [src/postgres.c:1339-1347 pg_write_completef];
    the 126-byte limit is never reached. *)
Definition tag (name : bytes) (n : bytes) : bytes := name ++ [32] ++ n.
(** [src/postgres.c:1341-1347 pg_write_completef, 1247-1252 pg_write_ready] *)
Definition complete (t : bytes) : list wr := [PComplete t; PReady].
(** [src/postgres.c:1349-1372 pg_write_simple_row_*_ready] *)
Definition simple_row (desc row t : bytes) : list wr := [PRowDesc [desc]; PRow [row]; PComplete t; PReady].
(** [src/conn.c:364-380 conn_write_http] with status 200 *)
Definition http_ok (body : string) : list wr := [WHttp 200 (bs "OK") (bs body ++ crlf)].
(** [src/conn.c:364-380 conn_write_http] with status 404 *)
Definition http_404 : list wr := [WHttp 404 (bs "Not Found") (bs "Not Found" ++ crlf)].
(** [src/conn.c:412-414 conn_write_raw_cstr] *)
Definition raw_line (s : string) : wr := WRaw (bs s ++ crlf).

(** [src/cmds.c:63-81 set_entry] *)
Definition set_entry (pr : proto) (name : bytes) (v : view) : list wr :=
  if is_pg pr then [PRowDesc [bs "value"]; PRow [v_val v]] ++ complete (tag name (bs "1"))
  else [WBulk (v_val v)].

(** [src/cmds.c:83-153 execSET]. The callback of a GET writes and lets the store
    proceed. "NOT_FOUND\r\n" is written with length 12, that is with the
    terminating NUL of the literal [:125]. *)
Definition execSET (pr : proto) (name : bytes) (now : Z) (key val : bytes) (expires : Z)
  (nx xx get keepttl : bool) (flags cas : N) (withcas : bool) : prog :=
  Ask (fun i =>
  let so := mkStoreOpts expires 0 cas flags keepttl withcas nx xx (in_lowmem i)
    (if get then Some (fun _ => true) else None) in
  Do (Store key val so now) (fun r =>
  match r with
  | RStatus st shown =>
      puts (flat_map (fun p => set_entry pr name (snd p)) shown)
      match st with
      | NOMEM => error ERR_OUT_OF_MEMORY
      | _ =>
          if get then
            match shown with
            | _ :: _ => Done
            | [] => if is_pg pr then answer ([PRowDesc [bs "value"]] ++ complete (tag name (bs "0")))
                    else answer [WNull]
            end
          else
            let stored := match st with INSERTED | REPLACED => true | _ => false end in
            answer (by_proto pr
              (if stored then [raw_line "STORED"]
               else match st with
                    | FOUND => [raw_line "EXISTS"]
                    | _ => [WRaw (bs "NOT_FOUND" ++ crlf ++ [0])]
                    end)
              (complete (tag name (bs (if stored then "1" else "0"))))
              (if stored then http_ok "Stored" else http_404)
              (if stored then [WString (bs "OK")] else [WNull]))
      end
  | _ => Fail AssertFail
  end)).

(** [src/cmds.c:155-168 expiry_seconds_time] *)
Definition expiry_seconds_time (pr : proto) (now expiry : Z) (k : Z -> prog) : prog :=
  if is_mc pr && (expiry >? HOUR * 24 * 30)%Z then
    Ask (fun i =>
      if (expiry >? in_unix i)%Z
      then Ask (fun j => match i64_chk (expiry - in_unix j) with
                         | Some e => need (int64_add_clamp now e) k
                         | None => Fail Overflow end)
      else need (int64_add_clamp now 0) k)
  else need (int64_add_clamp now expiry) k.

(** The options parsed so far [src/cmds.c:195-205]. *)
Record setst := mkSet {
  ss_exp : Z; ss_hasex : bool; ss_nx : bool; ss_xx : bool; ss_get : bool; ss_keepttl : bool;
  ss_flags : N; ss_cas : N; ss_withcas : bool
}.
(** As above: [src/cmds.c:195-205]. *)
Definition set0 : setst := mkSet 0 false false false false false 0 0 false.
(** Assignment to expires [src/cmds.c:195-205]. *)
Definition with_ex (s : setst) (e : Z) : setst :=
  mkSet e true (ss_nx s) (ss_xx s) (ss_get s) (ss_keepttl s) (ss_flags s) (ss_cas s) (ss_withcas s).
(** Assignment to nx [src/cmds.c:195-205]. *)
Definition with_nx (s : setst) : setst :=
  mkSet (ss_exp s) (ss_hasex s) true (ss_xx s) (ss_get s) (ss_keepttl s) (ss_flags s) (ss_cas s) (ss_withcas s).
(** Assignment to xx [src/cmds.c:195-205]. *)
Definition with_xx (s : setst) : setst :=
  mkSet (ss_exp s) (ss_hasex s) (ss_nx s) true (ss_get s) (ss_keepttl s) (ss_flags s) (ss_cas s) (ss_withcas s).
(** Assignment to get [src/cmds.c:195-205]. *)
Definition with_get (s : setst) : setst :=
  mkSet (ss_exp s) (ss_hasex s) (ss_nx s) (ss_xx s) true (ss_keepttl s) (ss_flags s) (ss_cas s) (ss_withcas s).
(** Assignment to keepttl [src/cmds.c:195-205]. *)
Definition with_keepttl (s : setst) : setst :=
  mkSet (ss_exp s) (ss_hasex s) (ss_nx s) (ss_xx s) (ss_get s) true (ss_flags s) (ss_cas s) (ss_withcas s).
(** Assignment to flags [src/cmds.c:195-205]. *)
Definition with_flags (s : setst) (f : N) : setst :=
  mkSet (ss_exp s) (ss_hasex s) (ss_nx s) (ss_xx s) (ss_get s) (ss_keepttl s) f (ss_cas s) (ss_withcas s).
(** Assignment to cas and withcas [src/cmds.c:195-205]. *)
Definition with_cas (s : setst) (x : N) : setst :=
  mkSet (ss_exp s) (ss_hasex s) (ss_nx s) (ss_xx s) (ss_get s) (ss_keepttl s) (ss_flags s) x true.

(** As above: [src/cmds.c:195-205]. *)
Inductive exkind := EX | PX | EXAT | PXAT.
(** [src/cmds.c:207-218], the words that start an expiration. *)
Definition ex_word (w : bytes) : option exkind :=
  if is_word w "ex" then Some EX else if is_word w "px" then Some PX
  else if is_word w "exat" then Some EXAT else if is_word w "pxat" then Some PXAT else None.
(** [src/cmds.c:225-257], the value of an expiration. *)
Definition set_expiry (pr : proto) (now : Z) (kind : exkind) (z : Z) (k : Z -> prog) : prog :=
  if (z <=? 0)%Z then
    if is_mc pr then expiry_seconds_time pr now 0 k
    else error (bs "ERR invalid expire time")
  else match kind with
    | EX => need (int64_mul_clamp z SECOND) (fun e => expiry_seconds_time pr now e k)
    | PX => need (int64_mul_clamp z MILLISECOND) (fun e => expiry_seconds_time pr now e k)
    | EXAT => need (int64_mul_clamp z SECOND) k
    | PXAT => need (int64_mul_clamp z MILLISECOND) k
    end.
(** [src/cmds.c:206-283], the loop over the options. *)
Fixpoint set_loop (pr : proto) (now : Z) (rest : list bytes) (s : setst) (k : setst -> prog) : prog :=
  match rest with
  | [] => k s
  | w :: r =>
      match ex_word w with
      | Some kind =>
          match r with
          | [] => error ERR_SYNTAX_ERROR
          | v :: r' =>
              match parse_i64 v with
              | None => error (bs "ERR invalid expire time")
              | Some z => set_expiry pr now kind z (fun e => set_loop pr now r' (with_ex s e) k)
              end
          end
      | None =>
          if is_word w "nx" then set_loop pr now r (with_nx s) k
          else if is_word w "xx" then set_loop pr now r (with_xx s) k
          else if is_word w "get" then set_loop pr now r (with_get s) k
          else if is_word w "keepttl" then set_loop pr now r (with_keepttl s) k
          else if is_word w "flags" then
            match r with
            | [] => error ERR_SYNTAX_ERROR
            | v :: r' => match parse_u64 v with
                | None => error ERR_SYNTAX_ERROR
                | Some x => set_loop pr now r' (with_flags s (N.land x (2 ^ 32 - 1))) k
                end
            end
          else if is_word w "cas" then
            match r with
            | [] => error ERR_SYNTAX_ERROR
            | v :: r' => match parse_u64 v with
                | None => error ERR_SYNTAX_ERROR
                | Some x => set_loop pr now r' (with_cas s x) k
                end
            end
          else error ERR_SYNTAX_ERROR
      end
  end.
(** [src/cmds.c:173-298 cmdSET] *)
Definition cmdSET (pr : proto) (args : list bytes) : prog :=
  match args with
  | _ :: key :: val :: rest =>
      Ask (fun i => let now := in_now i in
      set_loop pr now rest set0 (fun s =>
        if (ss_exp s <? 0)%Z then Fail AssertFail
        else if ss_keepttl s && ss_hasex s then error ERR_SYNTAX_ERROR
        else if ss_xx s && ss_nx s then error ERR_SYNTAX_ERROR
        else execSET pr (bs "SET") now key val (ss_exp s) (ss_nx s) (ss_xx s) (ss_get s)
               (ss_keepttl s) (ss_flags s) (ss_cas s) (ss_withcas s)))
  | _ => error ERR_WRONG_NUM_ARGS
  end.

(** [src/cmds.c:300-320 cmdSETEX] *)
Definition cmdSETEX (pr : proto) (args : list bytes) : prog :=
  match args with
  | [_; key; ex; val] =>
      Ask (fun i =>
      match parse_i64 ex with
      | None => error (bs "ERR invalid expire time")
      | Some z =>
          if (z <=? 0)%Z then error (bs "ERR invalid expire time")
          else need (int64_mul_clamp z SECOND) (fun e =>
            Ask (fun j => need (int64_add_clamp (in_now j) e) (fun e' =>
              execSET pr (bs "SETEX") (in_now i) key val e' false false false false 0 0 false)))
      end)
  | _ => error ERR_WRONG_NUM_ARGS
  end.

(** [src/cmds.c:322-324] *)
Inductive get_kind := KIND_GET | KIND_MGET | KIND_MGETS.
(** [src/cmds.c:331-391 get_entry]; the pieces written raw for memcache are
    joined. *)
Definition get_entry (pr : proto) (kind : get_kind) (key : bytes) (v : view) : list wr :=
  by_proto pr
    [WRaw (bs "VALUE " ++ key ++ [32] ++ u64toa (v_flags v) ++ [32]
           ++ u64toa (N.of_nat (length (v_val v)))
           ++ match kind with KIND_MGETS => [32] ++ u64toa (v_cas v) | _ => [] end
           ++ crlf ++ v_val v ++ crlf)]
    match kind with
    | KIND_GET => [PRow [v_val v]]
    | KIND_MGET => [PRow [key; v_val v]]
    | KIND_MGETS => [PRow [key; u64toa (v_flags v); u64toa (v_cas v); v_val v]]
    end
    [WHttp 200 (bs "OK") (v_val v)]
    (match kind with
     | KIND_MGETS => [WArray 3; WUint (v_flags v); WUint (v_cas v)]
     | _ => [] end ++ [WBulk (v_val v)]).
(** A callback that asks for no update. [src/cmds.c:331-391 get_entry] *)
Definition just_look : option (view -> option update) := Some (fun _ => None).

(** [src/cmds.c:394-442 cmdGET] *)
Definition cmdGET (pr : proto) (args : list bytes) : prog :=
  match args with
  | [_; key] =>
      Ask (fun i =>
      puts (if is_pg pr then [PRowDesc [bs "value"]] else [])
      (Do (Load key (mkLoadOpts false just_look) (in_now i)) (fun r =>
      match r with
      | RStatus st shown =>
          puts (flat_map (fun p => get_entry pr KIND_GET (fst p) (snd p)) shown)
          (match st with
           | NOTFOUND => answer (by_proto pr [WNull] (complete (bs "GET 0")) http_404 [WNull])
           | _ => answer (by_proto pr [] (complete (bs "GET 1")) [] [])
           end)
      | _ => Fail AssertFail
      end)))
  | _ => error ERR_WRONG_NUM_ARGS
  end.

(** [src/cmds.c:472-487], the loop of MGET. *)
Fixpoint mget_loop (pr : proto) (kind : get_kind) (now : Z) (keys : list bytes) (count : N)
  (k : N -> prog) : prog :=
  match keys with
  | [] => k count
  | key :: r =>
      Do (Load key (mkLoadOpts false just_look) now) (fun res =>
      match res with
      | RStatus st shown =>
          puts (flat_map (fun p => get_entry pr kind (fst p) (snd p)) shown)
          (match st with
           | NOTFOUND => puts (if is_resp pr then [WNull] else []) (mget_loop pr kind now r count k)
           | _ => mget_loop pr kind now r (count + 1) k
           end)
      | _ => Fail AssertFail
      end)
  end.
(** [src/cmds.c:445-494 cmdMGET] *)
Definition cmdMGET (pr : proto) (args : list bytes) : prog :=
  match args with
  | a0 :: (_ :: _) as keys =>
      Ask (fun i =>
      let kind := if is_word a0 "mgets" then KIND_MGETS else KIND_MGET in
      puts (by_proto pr []
              [PRowDesc match kind with
                        | KIND_MGETS => [bs "key"; bs "flags"; bs "cas"; bs "value"]
                        | _ => [bs "key"; bs "value"] end]
              [] [WArray (N.of_nat (length keys))])
      (mget_loop pr kind (in_now i) (List.tl args) 0 (fun count =>
        answer (by_proto pr [raw_line "END"] (complete (tag (bs "MGET") (u64toa count))) [] []))))
  | _ => error ERR_WRONG_NUM_ARGS
  end.

(** [src/cmds.c:510-514], the condition of keys_entry. *)
Definition keys_match (pat key : bytes) : bool :=
  match pat with [42] => true | _ => gmatch pat 0 key end.
(** [src/cmds.c:502-585 KEYS]: the work in the background, then the replies. The
    keys are kept length-prefixed in a buffer in between, which is not modelled. *)
Definition cmdKEYS (pr : proto) (args : list bytes) : prog :=
  match args with
  | [_; pat] =>
      Ask (fun i =>
      if in_work i then
        Do (Iter (Some (fun _ _ _ => (false, false))) None (in_now i)) (fun r =>
        match r with
        | RStatus _ shown =>
            let keys := List.filter (keys_match pat) (List.map fst shown) in
            let n := N.of_nat (length keys) in
            if is_pg pr then
              answer ([PRowDesc [bs "key"]] ++ List.map (fun k => PRow [k]) keys
                      ++ complete (tag (bs "KEYS") (u64toa n)))
            else answer (WArray n :: List.map WBulk keys)
        | _ => Fail AssertFail
        end)
      else error (bs "ERR failed to do work"))
  | _ => error ERR_WRONG_NUM_ARGS
  end.

(** [src/cmds.c:590-612 cmdSELECT]; the message is cut at 63 bytes. *)
Definition unknown_command (limit : nat) (name : bytes) : bytes :=
  firstn limit (bs "ERR unknown command '" ++ cstr name ++ bs "'").
(** As above: [src/cmds.c:590-612 cmdSELECT]. *)
Definition cmdSELECT (pr : proto) (args : list bytes) : prog :=
  if negb (is_resp pr) then error (unknown_command 63 (hd [] args))
  else match args with
  | [_; d] =>
      match parse_i64 d with
      | None => error ERR_INVALID_INTEGER
      | Some db => if (db >? 0)%Z then error ERR_INDEX_OUT_OF_RANGE else answer [WString (bs "OK")]
      end
  | _ => error ERR_WRONG_NUM_ARGS
  end.

(** [src/cmds.c:624-634], the loop of DEL. *)
Fixpoint del_loop (now : Z) (keys : list bytes) (n : N) (k : N -> prog) : prog :=
  match keys with
  | [] => k n
  | key :: r =>
      Do (Delete key None now) (fun res =>
      match res with
      | RStatus st _ => del_loop now r (match st with DELETED => n + 1 | _ => n end) k
      | _ => Fail AssertFail
      end)
  end.
(** [src/cmds.c:614-657 cmdDEL] *)
Definition cmdDEL (pr : proto) (args : list bytes) : prog :=
  match args with
  | _ :: _ :: _ =>
      Ask (fun i =>
      del_loop (in_now i) (List.tl args) 0 (fun n =>
        answer (by_proto pr
          (if n =? 0 then [raw_line "NOT_FOUND"] else [raw_line "DELETED"])
          (complete (tag (bs "DEL") (u64toa n)))
          (if n =? 0 then http_404 else http_ok "Deleted")
          [WInt (Z.of_N n)])))
  | _ => error ERR_WRONG_NUM_ARGS
  end.

(** [src/cmds.c:659-671 cmdDBSIZE]; the count as a signed integer. *)
Definition cmdDBSIZE (pr : proto) (args : list bytes) : prog :=
  match args with
  | [_] =>
      Do (Count None) (fun r =>
      match r with
      | RNum n =>
          if is_pg pr then answer (simple_row (bs "count") (i64toa (i64_of_u64 n)) (bs "DBSIZE"))
          else answer [WInt (i64_of_u64 n)]
      | _ => Fail AssertFail
      end)
  | _ => error ERR_WRONG_NUM_ARGS
  end.

(** [src/cmds.c:941-969 ttl_entry]; C division truncates. *)
Definition ttl_value (pttl : bool) (time expires : Z) : Z :=
  if (expires >? 0)%Z then Z.quot (expires - time) (if pttl then MILLISECOND else SECOND) else (-1)%Z.
(** As above: [src/cmds.c:941-969 ttl_entry]. *)
Definition ttl_entry (pr : proto) (pttl : bool) (time : Z) (v : view) : list wr :=
  let t := ttl_value pttl time (v_exp v) in
  if is_pg pr then [PRow [i64toa t]] else [WInt t].
(** [src/cmds.c:969-1002 cmdTTL] *)
Definition cmdTTL (pr : proto) (args : list bytes) : prog :=
  match args with
  | [a0; key] =>
      let pttl := is_word a0 "pttl" in
      Ask (fun i =>
      puts (if is_pg pr then [PRowDesc [bs (if pttl then "pttl" else "ttl")]] else [])
      (Do (Load key (mkLoadOpts true just_look) (in_now i)) (fun r =>
      match r with
      | RStatus st shown =>
          puts (flat_map (fun p => ttl_entry pr pttl (in_now i) (snd p)) shown)
          (puts (match st with NOTFOUND => if is_resp pr then [WInt (-2)] else [] | _ => [] end)
          (answer (if is_pg pr
                   then complete (tag (bs (if pttl then "PTTL" else "TTL"))
                                      (bs match st with NOTFOUND => "0" | _ => "1" end))
                   else [])))
      | _ => Fail AssertFail
      end)))
  | _ => error ERR_WRONG_NUM_ARGS
  end.

(** [src/cmds.c:1004-1058 expire_entry, cmdEXPIRE] *)
Definition cmdEXPIRE (pr : proto) (args : list bytes) : prog :=
  match args with
  | _ :: key :: secs :: _ =>
      Ask (fun i =>
      match parse_i64 secs with
      | None => error ERR_INVALID_INTEGER
      | Some z =>
          need (int64_mul_clamp z SECOND) (fun d =>
          need (int64_add_clamp (in_now i) d) (fun expires =>
          Do (Load key (mkLoadOpts false
                (Some (fun v => Some (mkUpdate (v_val v) (v_flags v) expires)))) (in_now i)) (fun r =>
          match r with
          | RStatus st _ =>
              let ret := match st with FOUND => true | _ => false end in
              answer (by_proto pr
                [raw_line (if ret then "TOUCHED" else "NOT_FOUND")]
                (complete (tag (bs "EXPIRE") (bs (if ret then "1" else "0"))))
                [WInt (if ret then 1 else 0)] [WInt (if ret then 1 else 0)])
          | _ => Fail AssertFail
          end)))
      end)
  | _ => error ERR_WRONG_NUM_ARGS
  end.

(** [src/cmds.c:1074-1081], [1601-1613], the loops of EXISTS and TOUCH: the
    number of loads that found something. *)
Fixpoint found_loop (notouch : bool) (now : Z) (keys : list bytes) (n : N) (k : N -> prog) : prog :=
  match keys with
  | [] => k n
  | key :: r =>
      Do (Load key (mkLoadOpts notouch None) now) (fun res =>
      match res with
      | RStatus st _ => found_loop notouch now r (match st with FOUND => n + 1 | _ => n end) k
      | _ => Fail AssertFail
      end)
  end.
(** [src/cmds.c:1063-1087 cmdEXISTS] *)
Definition cmdEXISTS (pr : proto) (args : list bytes) : prog :=
  match args with
  | _ :: _ :: _ =>
      Ask (fun i =>
      found_loop true (in_now i) (List.tl args) 0 (fun n =>
        if is_pg pr then answer (simple_row (bs "exists") (u64toa n) (bs "EXISTS"))
        else answer [WInt (Z.of_N n)]))
  | _ => error ERR_WRONG_NUM_ARGS
  end.
(** [src/cmds.c:1591-1626 cmdTOUCH] *)
Definition cmdTOUCH (pr : proto) (args : list bytes) : prog :=
  match args with
  | _ :: _ :: _ =>
      Ask (fun i =>
      found_loop false (in_now i) (List.tl args) 0 (fun n =>
        answer (by_proto pr
          [raw_line (if 0 <? n then "TOUCHED" else "NOT_FOUND")]
          (complete (tag (bs "TOUCH") (u64toa n)))
          [WInt (Z.of_N n)] [WInt (Z.of_N n)])))
  | _ => error ERR_WRONG_NUM_ARGS
  end.

(** [src/cmds.c:1479-1490 cmdECHO], [1561-1580 cmdPING], [1582-1588 cmdQUIT],
    [2112-2128 cmdVERSION] *)
Definition cmdECHO (pr : proto) (args : list bytes) : prog :=
  match args with
  | [_; m] => if is_pg pr then answer (simple_row (bs "message") m (bs "ECHO")) else answer [WBulk m]
  | _ => error ERR_WRONG_NUM_ARGS
  end.
(** [src/cmds.c:1561-1580 cmdPING] *)
Definition cmdPING (pr : proto) (args : list bytes) : prog :=
  match args with
  | [] | [_] => if is_pg pr then answer (simple_row (bs "message") (bs "PONG") (bs "PING"))
                else answer [WString (bs "PONG")]
  | [_; m] => if is_pg pr then answer (simple_row (bs "message") m (bs "PING")) else answer [WBulk m]
  | _ => error ERR_WRONG_NUM_ARGS
  end.
(** [src/cmds.c:1582-1588 cmdQUIT] *)
Definition cmdQUIT (pr : proto) (args : list bytes) : prog :=
  puts (if is_resp pr then [WString (bs "OK")] else []) (CloseConn Done).

(** A delta: its 64 bits, read as signed or unsigned [src/cmds.c:1640-1643]. *)
Inductive delta := Unsigned (u : N) | Signed (i : Z).
(** [src/cmds.c:1690-1702], the sum and whether it overflowed. *)
Definition apply_delta (decr : bool) (cur : delta) (d : delta) : delta * bool :=
  match cur, d with
  | Unsigned x, Unsigned y =>
      if decr then (Unsigned (u64 (x + 2 ^ 64 - y)), x <? y)
      else (Unsigned (u64 (x + y)), 2 ^ 64 <=? x + y)
  | Signed x, Signed y =>
      let z := if decr then (x - y)%Z else (x + y)%Z in
      (Signed (i64_of_u64 (u64_of_i64 z)), match i64_chk z with Some _ => false | None => true end)
  | _, _ => (cur, false)
  end.
(** As above: [src/cmds.c:1690-1702]. *)
Definition print_delta (d : delta) : bytes :=
  match d with Unsigned u => u64toa u | Signed i => i64toa i end.
(** As above: [src/cmds.c:1690-1702]. *)
Definition write_delta (d : delta) : wr :=
  match d with Unsigned u => WUint u | Signed i => WInt i end.
(** [src/cmds.c:1645-1661 get64]: the number in a value. *)
Definition read_delta (isunsigned : bool) (val : bytes) : option delta :=
  if isunsigned then option_map Unsigned (parse_u64 val) else option_map Signed (parse_i64 val).
(** [src/cmds.c:1661-1770 execINCRDECR]: in a batch, so that no other call on
    the key's shard comes between the load and the store. *)
Definition execINCRDECR (pr : proto) (key : bytes) (d : delta) (decr isunsigned : bool)
  (name : bytes) : prog :=
  Ask (fun i => let now := in_now i in
  Do (Load key (mkLoadOpts false just_look) now) (fun r =>
  match r with
  | RStatus st shown =>
      let found := match st with FOUND => true | _ => false end in
      let cur := match shown with
        | (_, v) :: _ => read_delta isunsigned (v_val v)
        | [] => Some (if isunsigned then Unsigned 0 else Signed 0) end in
      let '(flags, expires, cas) := match shown with
        | (_, v) :: _ => (v_flags v, v_exp v, v_cas v) | [] => (0, 0%Z, 0) end in
      if found && match cur with None => true | _ => false end then
        (if is_mc pr
         then answer [raw_line "CLIENT_ERROR cannot increment or decrement non-numeric value"]
         else error ERR_INVALID_INTEGER)
      else if negb found && is_mc pr then answer [raw_line "NOT_FOUND"]
      else match cur with
        | None => Fail Uninit
        | Some x =>
            let '(y, overflow) := apply_delta decr x d in
            if overflow && negb (is_mc pr) then error (bs "ERR increment or decrement would overflow")
            else
              Do (Store key (print_delta y)
                    (mkStoreOpts expires 0 cas flags false false false false false None) now) (fun r2 =>
              match r2 with
              | RStatus NOMEM _ => error ERR_OUT_OF_MEMORY
              | RStatus INSERTED _ | RStatus REPLACED _ =>
                  if is_pg pr then answer (simple_row (bs "value") (print_delta y) name)
                  else answer (write_delta y :: if is_mc pr then [WRaw crlf] else [])
              | _ => Fail AssertFail
              end)
        end
  | _ => Fail AssertFail
  end)).
(** [tolower(args->bufs[0].data[0]) == 'u'] [src/cmds.c:1661-1770 execINCRDECR] *)
Definition starts_u (s : bytes) : bool := match s with b :: _ => tolower b =? 117 | [] => false end.
(** [src/cmds.c:1772-1809 cmdINCRDECRBY, cmdDECRBY, cmdINCRBY] *)
Definition cmdINCRDECRBY (pr : proto) (args : list bytes) (decr : bool) (name : bytes) : prog :=
  match args with
  | [a0; key; dl] =>
      let isunsigned := starts_u a0 in
      match read_delta isunsigned dl with
      | None =>
          if is_mc pr then answer [raw_line "CLIENT_ERROR invalid numeric delta argument"]
          else error ERR_INVALID_INTEGER
      | Some d => execINCRDECR pr key d decr isunsigned name
      end
  | _ => error ERR_WRONG_NUM_ARGS
  end.
(** [src/cmds.c:1811-1835 cmdDECR, cmdINCR] *)
Definition cmdINCRDECR (pr : proto) (args : list bytes) (decr : bool) (name : bytes) : prog :=
  match args with
  | [a0; key] =>
      let isunsigned := starts_u a0 in
      execINCRDECR pr key (if isunsigned then Unsigned 1 else Signed 1) decr isunsigned name
  | _ => error ERR_WRONG_NUM_ARGS
  end.

(** [src/cmds.c:1847-1939 append_entry, cmdAPPEND, cmdPREPEND], in a batch. *)
Definition cmdAPPEND (pr : proto) (args : list bytes) : prog :=
  Ask (fun i => let now := in_now i in
  match args with
  | [a0; key; val] =>
      let prepend := is_word a0 "prepend" in
      let finish (len : N) (r2 : result) : prog :=
        match r2 with
        | RStatus NOMEM _ => error ERR_OUT_OF_MEMORY
        | RStatus INSERTED _ | RStatus REPLACED _ =>
            answer (by_proto pr
              [raw_line "STORED"]
              (complete (tag (bs (if prepend then "PREPEND" else "APPEND")) (u64toa len)))
              [WInt (Z.of_N len)] [WInt (Z.of_N len)])
        | _ => Fail AssertFail
        end in
      Do (Load key (mkLoadOpts false just_look) now) (fun r =>
      match r with
      | RStatus NOTFOUND _ =>
          if is_mc pr then answer [raw_line "NOT_STORED"]
          else Do (Store key val (mkStoreOpts 0 0 0 0 false false false false false None) now)
                  (finish (N.of_nat (length val)))
      | RStatus _ ((_, v) :: _) =>
          let out := if prepend then val ++ v_val v else v_val v ++ val in
          let len := N.of_nat (length out) in
          if MAXARGSZ <? len then error (bs "ERR value too large")
          else Do (Store key out (mkStoreOpts (v_exp v) 0 0 (v_flags v) false false false false false None) now)
                  (finish len)
      | _ => Fail Uninit
      end)
  | _ => error ERR_WRONG_NUM_ARGS
  end).

(** [src/cmds.c:1941-1986 cmdAUTH]; [password] is the configured one. *)
Definition cmdAUTH (password : bytes) (pr : proto) (args : list bytes) : prog :=
  let wrongpass := error (bs "WRONGPASS invalid username-password pair or user is disabled.") in
  if negb (is_word (hd [] args) "auth") then
    if is_mc pr then answer [raw_line "CLIENT_ERROR Authentication required"]
    else error (bs "NOAUTH Authentication required.")
  else match args with
  | [_] | [] => error ERR_WRONG_NUM_ARGS
  | [_; p] =>
      if beq p password then
        SetAuth (if is_pg pr then answer (complete (bs "AUTH OK")) else answer [WString (bs "OK")])
      else wrongpass
  | [_; _; _] => wrongpass
  | _ => error ERR_SYNTAX_ERROR
  end.

(** [src/cmds.c:684-728 thflush, flushfast]: the calls of the worker threads, in
    the order of the ranges (any other interleaving: see PropText.v). *)
Fixpoint each_shard (mk : nat -> call) (is : list nat) (k : prog) : prog :=
  match is with [] => k | i :: r => Do (mk i) (fun _ => each_shard mk r k) end.
(** As above: [src/cmds.c:684-728 thflush, flushfast]. *)
Definition range_shards (procs nshards : nat) : list nat :=
  List.concat (List.map (fun p => seq (fst p) (snd p)) (ranges procs nshards)).
(** [src/cmds.c:730-752 flush_work] *)
Definition flush_work (nshards : nat) (fast : bool) (k : prog) : prog :=
  Ask (fun i =>
  if fast then each_shard (fun s => Clear (Some (Z.of_nat s)) false (in_now i))
                          (range_shards (in_procs i) nshards) k
  else Do (Clear None true (in_now i)) (fun _ => k)).
(** [src/cmds.c:789-816], the options of FLUSHALL: async, fast, delay. *)
Fixpoint flush_loop (rest : list bytes) (async fast : bool) (delay : Z)
  (k : bool -> bool -> Z -> prog) : prog :=
  match rest with
  | [] => k async fast delay
  | w :: r =>
      if is_word w "async" then flush_loop r true fast delay k
      else if is_word w "sync" then flush_loop r false fast delay k
      else if is_word w "fast" then flush_loop r async true delay k
      else if is_word w "delay" then
        match r with
        | [] => error ERR_SYNTAX_ERROR
        | v :: r' =>
            match parse_i64 v with
            | None => error (bs "ERR invalid delay argument")
            | Some z =>
                if ((z <? 0) || (31536000 <? z))%Z then error (bs "ERR invalid delay argument")
                else if (0 <? z)%Z then flush_loop r' true fast z k
                else flush_loop r' async fast 0 k
            end
        end
      else error ERR_SYNTAX_ERROR
  end.
(** As above: [src/cmds.c:789-816]. *)
Definition flush_name (a0 : bytes) : bytes :=
  if is_word a0 "flush" then bs "FLUSH" else if is_word a0 "flushdb" then bs "FLUSHDB" else bs "FLUSHALL".
(** [src/cmds.c:754-846 flush_done, thflush0, cmdFLUSHALL]. The detached thread
    of an asynchronous flush is a forked program; pthread_create does not return
    -1, so that branch is unreachable. *)
Definition cmdFLUSHALL (nshards : nat) (pr : proto) (args : list bytes) : prog :=
  let name := flush_name (hd [] args) in
  let ok (how : string) : prog :=
    answer (by_proto pr [raw_line "OK"] (complete (tag name (bs how))) [WString (bs "OK")] [WString (bs "OK")]) in
  flush_loop (List.tl args) false false 0 (fun async fast delay =>
    if async then Fork delay (flush_work nshards fast Done) (ok "ASYNC"%string)
    else Ask (fun i => if in_work i then flush_work nshards fast (ok "SYNC"%string)
                       else error (bs "ERR failed to do work"))).

(** [src/cmds.c:1099-1154 thsweep, sweepfast], [1156-1176 sweep_work] *)
Definition sweep_work (nshards : nat) (fast : bool) (k : prog) : prog :=
  Ask (fun i =>
  if fast then each_shard (fun s => Sweep (Some (Z.of_nat s)) (in_now i))
                          (range_shards (in_procs i) nshards) k
  else Do (Sweep None (in_now i)) (fun _ => k)).
(** As above: [src/cmds.c:1099-1154 thsweep, sweepfast]. *)
Fixpoint sweep_loop (rest : list bytes) (async fast : bool) (k : bool -> bool -> prog) : prog :=
  match rest with
  | [] => k async fast
  | w :: r => if is_word w "async" then sweep_loop r true fast k
              else if is_word w "fast" then sweep_loop r async true k
              else error ERR_SYNTAX_ERROR
  end.
(** [src/cmds.c:1178-1237 sweep_done, thsweep0, cmdSWEEP] *)
Definition cmdSWEEP (nshards : nat) (pr : proto) (args : list bytes) : prog :=
  if (2 <? length args)%nat then error ERR_WRONG_NUM_ARGS
  else sweep_loop (List.tl args) false false (fun async fast =>
    let ok (how : string) : prog :=
      answer (if is_pg pr then complete (bs how) else [WString (bs "OK")]) in
    if async then Fork 0 (sweep_work nshards fast Done) (ok "SWEEP ASYNC"%string)
    else Ask (fun i => if in_work i then sweep_work nshards fast (ok "SWEEP SYNC"%string)
                       else error (bs "ERR failed to do work"))).
(** [src/cmds.c:1239-1298 PURGE]: returns unused memory to the system; nothing
    happens to the cache. *)
Definition cmdPURGE (pr : proto) (args : list bytes) : prog :=
  let ok (how : string) : prog :=
    answer (if is_pg pr then complete (bs how) else [WString (bs "OK")]) in
  match args with
  | _ :: _ :: _ :: _ => error ERR_WRONG_NUM_ARGS
  | [_; w] => if is_word w "async" then Fork 0 Done (ok "PURGE ASYNC"%string) else error ERR_SYNTAX_ERROR
  | _ => Ask (fun i => if in_work i then ok "PURGE SYNC"%string else error (bs "ERR failed to do work"))
  end.

(** [src/cmds.c:2149-2173 scan_work]: [fuel] bounds the number of calls. *)
Fixpoint scan_work (fuel : nat) (pat : bytes) (now : Z) (count : nat) (cursor : N)
  (acc : list bytes) (k : list bytes -> N -> prog) : prog :=
  if (count <=? length acc)%nat then k acc cursor
  else match fuel with
  | O => Fail Hang
  | S f =>
      Do (EntryIter cursor now) (fun r =>
      match r with
      | REntry None cur => k acc cur
      | REntry (Some (_, key, _)) cur =>
          scan_work f pat now count cur (if gmatch pat 0 key then acc ++ [key] else acc) k
      | _ => Fail AssertFail
      end)
  end.
(** [src/cmds.c:2221-2258], the options of SCAN: pattern and count. *)
Fixpoint scan_loop (rest : list bytes) (pat : bytes) (count : N) (k : bytes -> N -> prog) : prog :=
  match rest with
  | [] => k pat count
  | w :: r =>
      if is_word w "match" then
        match r with [] => error ERR_SYNTAX_ERROR | v :: r' => scan_loop r' v count k end
      else if is_word w "count" then
        match r with
        | [] => error ERR_SYNTAX_ERROR
        | v :: r' =>
            match parse_u64 v with
            | None => error ERR_SYNTAX_ERROR
            | Some x => if (x =? 0) || (2 ^ 31 - 1 <? x) then error ERR_SYNTAX_ERROR
                        else scan_loop r' pat x k
            end
        end
      else if is_word w "type" then
        match r with
        | [] => error ERR_SYNTAX_ERROR
        | v :: r' => if is_word v "string" then scan_loop r' pat count k
                     else error (firstn 127 (bs "ERR unknown type name '" ++ cstr v ++ bs "'"))
        end
      else error ERR_SYNTAX_ERROR
  end.
(** [src/cmds.c:2175-2275 scan_done, cmdSCAN] *)
Definition cmdSCAN (fuel : nat) (pr : proto) (args : list bytes) : prog :=
  match args with
  | _ :: cur :: rest =>
      match parse_u64 cur with
      | None => error (bs "ERR invalid cursor")
      | Some cursor =>
          scan_loop rest (bs "*") 100 (fun pat count =>
          Ask (fun i =>
          scan_work fuel pat (in_now i) (N.to_nat count) cursor [] (fun keys cur' =>
            if is_pg pr then
              answer ([PRowDesc [bs "key"; bs "cursor"]]
                      ++ List.map (fun key => PRow [key; u64toa cur']) keys
                      ++ complete (tag (bs "SCAN") (u64toa (N.of_nat (length keys)))))
            else answer ([WArray 2; WBulk (u64toa cur'); WArray (N.of_nat (length keys))]
                         ++ List.map WBulk keys))))
      end
  | _ => error ERR_WRONG_NUM_ARGS
  end.

(** What the commands need of the configuration [src/cmds.c:37-53]: is a
    password required and which, the number of shards, the version; and a bound
    on the steps of a SCAN. *)
Record config := mkConfig {
  cf_useauth : bool; cf_password : bytes; cf_nshards : nat; cf_version : bytes; cf_fuel : nat
}.
(** [src/cmds.c:2112-2128 cmdVERSION] *)
Definition cmdVERSION (version : bytes) (pr : proto) (args : list bytes) : prog :=
  answer (if is_pg pr then [PRowDesc [bs "version"]; PRow [version]] ++ complete (bs "VERSION 1")
          else by_proto pr [WRaw (bs "VERSION " ++ version ++ crlf)] [] [WString version] [WString version]).

(** [src/cmds.c:2288-2329], the functions of the commands, in the order of
    [cmd_names]. DEBUG, MONITOR, SAVE, LOAD and STATS are not modelled here (for
    SAVE and LOAD see Save.v). *)
Definition cmd_func (cf : config) (i : nat) : proto -> list bytes -> prog :=
  nth i
  [ cmdSET; cmdGET; cmdDEL; cmdMGET; cmdMGET; cmdTTL; cmdTTL; cmdEXPIRE; cmdSETEX; cmdDBSIZE;
    cmdQUIT; cmdECHO; cmdEXISTS; cmdFLUSHALL (cf_nshards cf); cmdFLUSHALL (cf_nshards cf);
    cmdFLUSHALL (cf_nshards cf); (fun _ _ => Unmodelled); cmdPURGE; cmdSWEEP (cf_nshards cf);
    cmdKEYS; cmdSELECT; cmdPING; cmdTOUCH; (fun _ _ => Unmodelled);
    (fun pr a => cmdINCRDECRBY pr a false (bs "INCRBY"));
    (fun pr a => cmdINCRDECRBY pr a true (bs "DECRBY"));
    (fun pr a => cmdINCRDECR pr a false (bs "INCR"));
    (fun pr a => cmdINCRDECR pr a true (bs "DECR"));
    (fun pr a => cmdINCRDECRBY pr a false (bs "INCRBY"));
    (fun pr a => cmdINCRDECRBY pr a true (bs "DECRBY"));
    (fun pr a => cmdINCRDECR pr a false (bs "INCR"));
    (fun pr a => cmdINCRDECR pr a true (bs "DECR"));
    cmdAPPEND; cmdAPPEND; cmdAUTH (cf_password cf); (fun _ _ => Unmodelled);
    (fun _ _ => Unmodelled); (fun _ _ => Unmodelled); cmdVERSION (cf_version cf);
    cmdSCAN (cf_fuel cf) ]
  (fun _ _ => Unmodelled).

(** [src/cmds.c:2379-2410 evcommand]; printing and monitoring are not modelled. *)
Definition evcommand (cf : config) (authed : bool) (pr : proto) (args : list bytes) : prog :=
  if cf_useauth cf && negb authed && negb (is_http pr) then cmdAUTH (cf_password cf) pr args
  else match get_cmd (hd [] args) with
  | None => Fail OutOfBounds
  | Some (Some i) => cmd_func cf i pr args
  | Some None => error (unknown_command 255 (hd [] args))
  end.
