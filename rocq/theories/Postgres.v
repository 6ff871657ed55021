(** The Postgres protocol (postgres.c): messages, the query language, prepared
    statements. *)
From Verif Require Import Base Types Shard Text IntText Prog Cmds Reply.
From Coq Require Import String.
Local Open Scope N_scope.
Notation length := List.length.

(** [src/postgres.c:58-63 read_i32], [72-75 read_i16]: big endian, signed. *)
Definition read_be (s : bytes) : N := fold_left (fun a b => 256 * a + b) s 0.
(** The casts to int32_t and int16_t of [src/postgres.c:58-63 read_i32, 72-75 read_i16]. *)
Definition signed (bits : N) (x : N) : Z :=
  if x <? 2 ^ (bits - 1) then Z.of_N x else (Z.of_N x - 2 ^ Z.of_N bits)%Z.

(** The macros that read one field of a message, and return -1 from the parser
    when it is not there [src/postgres.c:95-110 parse_cstr, 112-119 parse_int16,
    121-128 parse_byte, 130-137 parse_int32, 139-146 parse_bytes]. The result is
    the field and what follows it. *)
Fixpoint parse_cstr (s : bytes) : option (bytes * bytes) :=
  match s with
  | [] => None
  | b :: r => if b =? 0 then Some ([], r)
              else match parse_cstr r with Some (c, r') => Some (b :: c, r') | None => None end
  end.
(** [src/postgres.c:139-146 parse_bytes] *)
Definition parse_bytes (n : nat) (s : bytes) : option (bytes * bytes) :=
  if (length s <? n)%nat then None else Some (firstn n s, skipn n s).
(** [src/postgres.c:112-119 parse_int16] *)
Definition parse_int16 (s : bytes) : option (Z * bytes) :=
  match parse_bytes 2 s with Some (x, r) => Some (signed 16 (read_be x), r) | None => None end.
(** [src/postgres.c:130-137 parse_int32] *)
Definition parse_int32 (s : bytes) : option (Z * bytes) :=
  match parse_bytes 4 s with Some (x, r) => Some (signed 32 (read_be x), r) | None => None end.
(** [src/postgres.c:121-128 parse_byte] *)
Definition parse_byte (s : bytes) : option (byte * bytes) :=
  match s with [] => None | b :: r => Some (b, r) end.

(** [src/postgres.c:148-161 arg_append_unescape_simplestr]: the loop runs while
    [i < str2len], the length of what has been written so far. *)
Fixpoint unescape_loop (fuel i : nat) (str str2 : bytes) : bytes :=
  match fuel with
  | O => str2
  | S f =>
      if (i <? length str2)%nat then
        let i := if (nth i str 0 =? 39) && (nth (i + 1) str 0 =? 39) then (i + 1)%nat else i in
        unescape_loop f (i + 1) str (str2 ++ [nth i str 0])
      else str2
  end.
(** [src/postgres.c:148-161 arg_append_unescape_simplestr], the text that is appended. *)
Definition unescape_simplestr (str : bytes) : bytes := unescape_loop (length str) 0 str [].

(** [src/postgres.c:327-332 hextoks]. *)
Definition hextok (c : byte) : N :=
  if (48 <=? c) && (c <=? 57) then c - 48
  else if (65 <=? c) && (c <=? 70) then c - 55
  else if (97 <=? c) && (c <=? 102) then c - 87
  else 0.
(** [src/postgres.c:334-337 decode_hex]. *)
Definition decode_hex (a b c d : byte) : N :=
  N.lor (N.lor (N.shiftl (hextok a) 12) (N.shiftl (hextok b) 8)) (N.lor (N.shiftl (hextok c) 4) (hextok d)).
(** [src/postgres.c:339-341 is_surrogate]. *)
Definition is_surrogate (cp : N) : bool := (55296 <? cp) && (cp <? 57344).
(** [src/postgres.c:343-347 decode_codepoint]. *)
Definition decode_codepoint (cp1 cp2 : N) : N :=
  if (55296 <? cp1) && (cp1 <? 56320) && (56320 <? cp2) && (cp2 <? 57344)
  then N.lor (N.shiftl (cp1 - 55296) 10) ((cp2 - 56320) + 65536)
  else 65533.
(** [src/postgres.c:349-373 encode_codepoint]; a [uint8_t] keeps the low byte. *)
Definition encode_codepoint (cp : N) : bytes :=
  let low x := x mod 256 in
  if cp <? 128 then [cp]
  else if cp <? 2048 then [low (N.lor 192 (N.shiftr cp 6)); N.lor 128 (N.land cp 63)]
  else
    let cp := if (1114111 <? cp) || is_surrogate cp then 65533 else cp in
    if cp <? 65536 then
      [low (N.lor 224 (N.shiftr cp 12)); N.lor 128 (N.land (N.shiftr cp 6) 63); N.lor 128 (N.land cp 63)]
    else
      [low (N.lor 240 (N.shiftr cp 18)); N.lor 128 (N.land (N.shiftr cp 12) 63);
       N.lor 128 (N.land (N.shiftr cp 6) 63); N.lor 128 (N.land cp 63)].
(** The one-letter escapes of [src/postgres.c:390-398]. *)
Definition escape_char (c : byte) : option byte :=
  if c =? 92 then Some 92 else if c =? 47 then Some 47 else if c =? 98 then Some 8
  else if c =? 102 then Some 12 else if c =? 110 then Some 10 else if c =? 114 then Some 13
  else if c =? 116 then Some 9 else if c =? 34 then Some 34 else None.
(** [src/postgres.c:379-421 for_each_utf8] in [423-434 arg_append_unescape_str].
    An unknown escape disappears; a cut "\u" ends the string. *)
Fixpoint unescape_str (s : bytes) : bytes :=
  match s with
  | [] => []
  | c :: r =>
      if negb (c =? 92) then c :: unescape_str r
      else match r with
      | [] => []
      | e :: r1 =>
          if e =? 117 then
            match r1 with
            | a :: b :: c' :: d :: r2 =>
                let cp := decode_hex a b c' d in
                if is_surrogate cp then
                  match r2 with
                  | b1 :: b2 :: a2 :: b2' :: c2 :: d2 :: r3 =>
                      if (b1 =? 92) && (b2 =? 117)
                      then encode_codepoint (decode_codepoint cp (decode_hex a2 b2' c2 d2)) ++ unescape_str r3
                      else encode_codepoint cp ++ unescape_str r2
                  | _ => encode_codepoint cp ++ unescape_str r2
                  end
                else encode_codepoint cp ++ unescape_str r2
            | _ => []
            end
          else match escape_char e with
          | Some x => x :: unescape_str r1
          | None => unescape_str r1
          end
      end
  end.

(** [src/postgres.c:538-547], after the opening quote: the contents, whether a
    doubled quote occurred, and what follows the closing quote. *)
Fixpoint simple_string (s : bytes) : option (bytes * bool * bytes) :=
  match s with
  | [] => None
  | c :: r =>
      if c =? 39 then
        match r with
        | d :: r' =>
            if d =? 39 then
              match simple_string r' with Some (t, _, k) => Some (39 :: 39 :: t, true, k) | None => None end
            else Some ([], false, r)
        | [] => Some ([], false, [])
        end
      else match simple_string r with Some (t, e, k) => Some (c :: t, e, k) | None => None end
  end.
(** [src/postgres.c:583-599], after the opening quote of an E string; [odd] is the
    parity of the number of backslashes just before, which the code counts
    backwards from a quote. *)
Fixpoint escape_string (odd : bool) (s : bytes) : option (bytes * bool * bytes) :=
  match s with
  | [] => None
  | c :: r =>
      if c =? 92 then match escape_string (negb odd) r with Some (t, _, k) => Some (c :: t, true, k) | None => None end
      else if (c =? 39) && negb odd then Some ([], false, r)
      else match escape_string false r with Some (t, e, k) => Some (c :: t, e, k) | None => None end
  end.
(** [src/postgres.c:624-630], the bytes of a keyword and what follows it. *)
Definition ends_keyword (c : byte) : bool :=
  is_space c || (c =? 59) || (c =? 39) || (c =? 34) || (c =? 36).
(** [src/postgres.c:624-630], the loop. *)
Fixpoint keyword (s : bytes) : bytes * bytes :=
  match s with
  | [] => ([], [])
  | c :: r => if ends_keyword c then ([], s) else let '(k, t) := keyword r in (c :: k, t)
  end.
(** [src/postgres.c:637-639]. *)
Fixpoint skip_blanks (s : bytes) : bytes :=
  match s with c :: r => if is_space c then skip_blanks r else s | [] => [] end.

(** Whether an argument is a parameter, and whether it is joined to the argument
    before it: the letters of [argtypes]. [src/postgres.c:506-645 parse_query_args] *)
Definition argtype : Type := bool * bool.
(** What a query yields: an error message, or the arguments, their types, and the
    numbers of the parameters in the order of their occurrences. [src/postgres.c:506-645 parse_query_args] *)
Inductive query_result :=
| QErr (msg : bytes) | QOk (args : list bytes) (types : list argtype) (params : list N).
(** [src/postgres.c:557, 575, 613, 635], the next argument is joined when no blank
    follows. Without [argtypes] the variable stays as it is and is not used. *)
Definition joins (rest : bytes) : bool :=
  match rest with [] => false | c :: _ => negb (is_space c) end.
(** [src/postgres.c:643-649]. *)
Definition query_end (p : bytes) (args : list bytes) (types : list argtype) (params : list N) : query_result :=
  if forallb (fun c => c =? 59) p then QOk args types params
  else QErr (bs "unexpected characters at end of query").
(** [src/postgres.c:506-641], the loop over the text of a query. The numbers of the
    parameters go to a list in place of the hash table pmap
    [src/postgres.c:436-504], which keeps every number inserted and reports
    whether one is there. [esc] is not reset before an E string. *)
Fixpoint query_loop (fuel : nat) (p : bytes) (esc join : bool)
  (args : list bytes) (types : list argtype) (params : list N) : query_result :=
  match fuel with
  | O => QErr []
  | S f =>
      match p with
      | [] => query_end [] args types params
      | c :: r =>
          let add (a : bytes) (param : bool) (ps : list N) (esc' : bool) (rest : bytes) :=
            query_loop f rest esc' (joins rest) (args ++ [a]) (types ++ [(param, join)]) ps in
          let word (_ : unit) :=
            if is_space c then query_loop f r esc join args types params
            else let '(k, rest) := keyword p in
                 query_loop f (skip_blanks rest) esc (joins rest) (args ++ [k]) (types ++ [(false, join)]) params in
          if c =? 59 then query_end p args types params
          else if c =? 34 then QErr (bs "idenifiers not allowed")
          else if c =? 39 then
            match simple_string r with
            | None => QErr (bs "unterminated quoted string")
            | Some (t, e, rest) => add (if e then unescape_simplestr t else t) false params e rest
            end
          else if c =? 36 then
            let '(v, n) := scan_digits r 0 in
            match n with
            | O => QErr (bs "dollar-quote strings not allowed")
            | _ =>
                let v := N.min v (2 ^ 63 - 1) in
                if (v =? 0) || (65535 <? v) then QErr (bs "there is no parameter $" ++ u64toa v)
                else add (firstn (S n) p) true (params ++ [v]) esc (skipn n r)
            end
          else if (c =? 69) || (c =? 101) then
            match r with
            | q :: r' =>
                if q =? 39 then
                  match escape_string false r' with
                  | None => QErr (bs "unterminated quoted string")
                  | Some (t, e, rest) =>
                      let e := esc || e in add (if e then unescape_str t else t) false params e rest
                  end
                else word tt
            | [] => word tt
            end
          else word tt
      end
  end.
(** [src/postgres.c:651-661], every number up to the count must be there. *)
Fixpoint missing (params : list N) (todo : nat) (i : N) : option N :=
  match todo with
  | O => None
  | S t => if existsb (fun x => x =? i) params then missing params t (i + 1) else Some i
  end.
(** [src/postgres.c:506-670 parse_query_args] after the blanks skipped there and in
    [672-688 parse_cache_query_args]. *)
Definition parse_query (query : bytes) : query_result :=
  let q := skip_blanks query in
  match query_loop (S (length q)) q false false [] [] [] with
  | QErr m => QErr m
  | QOk args types params =>
      match missing params (length params) 1 with
      | Some i => QErr (bs "missing parameter $" ++ u64toa i)
      | None => QOk args types params
      end
  end.

(** [src/postgres.h:18-23 struct pg_statement], without its name. *)
Record stmt := mkStmt { s_args : list bytes; s_types : list argtype; s_nparams : nat }.
(** [src/postgres.h:25-29 struct pg_portal], without its name. *)
Record portal := mkPortal { p_stmt : bytes; p_params : list bytes }.
(** The flags of [src/postgres.h:31-43] that a message sets and the response to
    it clears. *)
Inductive pflag := FSsl | FAuth | FDescribe | FParse | FBind | FClose | FSync | FEmpty.
(** [src/postgres.h:31-59 struct pg]. [pg_err] is the error flag with the message of
    the last error. The hash tables are association lists, newest first. The
    user, database and application names are stored and never used. *)
Record pgst := mkPg {
  pg_startup : bool; pg_ready : bool; pg_execute : bool; pg_err : option bytes; pg_flags : list pflag;
  pg_desc : option bytes; pg_oid : N; pg_stmts : list (bytes * stmt); pg_portals : list (bytes * portal)
}.
(** [src/postgres.c:201-206 pg_new]. *)
Definition pg_new : pgst := mkPg false false false None [] None 25 [] [].
(** Assignment to [pg->startup] [src/postgres.h:33]. *)
Definition set_startup (b : bool) (g : pgst) := mkPg b (pg_ready g) (pg_execute g) (pg_err g) (pg_flags g) (pg_desc g) (pg_oid g) (pg_stmts g) (pg_portals g).
(** Assignment to [pg->ready] [src/postgres.h:35]. *)
Definition set_ready (b : bool) (g : pgst) := mkPg (pg_startup g) b (pg_execute g) (pg_err g) (pg_flags g) (pg_desc g) (pg_oid g) (pg_stmts g) (pg_portals g).
(** Assignment to [pg->execute] [src/postgres.h:40]. *)
Definition set_execute (b : bool) (g : pgst) := mkPg (pg_startup g) (pg_ready g) b (pg_err g) (pg_flags g) (pg_desc g) (pg_oid g) (pg_stmts g) (pg_portals g).
(** Assignment to [pg->error] [src/postgres.h:36]. *)
Definition set_err (e : option bytes) (g : pgst) := mkPg (pg_startup g) (pg_ready g) (pg_execute g) e (pg_flags g) (pg_desc g) (pg_oid g) (pg_stmts g) (pg_portals g).
(** Assignment to [pg->flags] [src/postgres.h:32-43]. *)
Definition set_flags (l : list pflag) (g : pgst) := mkPg (pg_startup g) (pg_ready g) (pg_execute g) (pg_err g) l (pg_desc g) (pg_oid g) (pg_stmts g) (pg_portals g).
(** Assignment to [pg->desc] [src/postgres.h:45-46]. *)
Definition set_desc (d : option bytes) (g : pgst) := mkPg (pg_startup g) (pg_ready g) (pg_execute g) (pg_err g) (pg_flags g) d (pg_oid g) (pg_stmts g) (pg_portals g).
(** Assignment to [pg->oid] [src/postgres.h:48]. *)
Definition set_oid (o : N) (g : pgst) := mkPg (pg_startup g) (pg_ready g) (pg_execute g) (pg_err g) (pg_flags g) (pg_desc g) o (pg_stmts g) (pg_portals g).
(** Assignment to [pg->statements] [src/postgres.h:50]. *)
Definition set_stmts (l : list (bytes * stmt)) (g : pgst) := mkPg (pg_startup g) (pg_ready g) (pg_execute g) (pg_err g) (pg_flags g) (pg_desc g) (pg_oid g) l (pg_portals g).
(** Assignment to [pg->portals] [src/postgres.h:51]. *)
Definition set_portals (l : list (bytes * portal)) (g : pgst) := mkPg (pg_startup g) (pg_ready g) (pg_execute g) (pg_err g) (pg_flags g) (pg_desc g) (pg_oid g) (pg_stmts g) l.
(** Equality of the names of the flags of [src/postgres.h:32-43]. *)
Definition flag_eq (a b : pflag) : bool :=
  match a, b with
  | FSsl, FSsl | FAuth, FAuth | FDescribe, FDescribe | FParse, FParse | FBind, FBind | FClose, FClose | FSync, FSync | FEmpty, FEmpty => true
  | _, _ => false
  end.
(** A test of a flag of [src/postgres.h:32-43]. *)
Definition has_flag (f : pflag) (g : pgst) : bool := existsb (flag_eq f) (pg_flags g).
(** The assignment of true to a flag of [src/postgres.h:32-43]. *)
Definition add_flag (f : pflag) (g : pgst) : pgst := set_flags (f :: pg_flags g) g.
(** The assignment of false to a flag of [src/postgres.h:32-43]. *)
Definition del_flag (f : pflag) (g : pgst) : pgst := set_flags (List.filter (fun x => negb (flag_eq f x)) (pg_flags g)) g.
(** [src/postgres.c:283-302 statement_get, 304-323 portal_get]: a name of 64 bytes or
    more is never found; such names are never stored either. *)
Fixpoint by_name {A} (name : bytes) (l : list (bytes * A)) : option A :=
  match l with
  | [] => None
  | (k, a) :: r => if beq k name then Some a else by_name name r
  end.
(** [src/postgres.h:16 PGNAMEDATALEN] *)
Definition PGNAMEDATALEN : nat := 64.

(** What a parser of a message does: it fails (-1) with the message of the last
    error, or goes on with a new state and arguments. [src/postgres.c:700-1063], the parsers of the messages *)
Inductive pg_step := PgFail (msg : bytes) | PgStep (args : list bytes) (g : pgst).
(** The exits of the parsers that set [pg->error] after parse_seterror, for example
    [src/postgres.c:697-699]. *)
Definition pg_fault (msg : bytes) (g : pgst) : pg_step := PgStep [] (set_err (Some msg) g).
(** [parse_end]: nothing may be left [src/postgres.c:90-94]. *)
Definition at_end (s : bytes) (k : pg_step) : pg_step := match s with [] => k | _ => PgFail [] end.
(** The return of -1 in the macros of [src/postgres.c:96-147] when a field is missing. *)
Definition field {A} (x : option (A * bytes)) (k : A -> bytes -> pg_step) : pg_step :=
  match x with None => PgFail [] | Some (a, r) => k a r end.

(** [src/postgres.c:690-715 parseQ] *)
Definition parseQ (s : bytes) (g : pgst) : pg_step :=
  field (parse_cstr s) (fun query r => at_end r (
  match parse_query query with
  | QErr m => pg_fault m g
  | QOk args _ params =>
      match params with
      | _ :: _ => pg_fault (bs "query cannot have parameters") g
      | [] => PgStep args (match args with [] => add_flag FEmpty g | _ => g end)
      end
  end)).
(** The loop of [src/postgres.c:729-733]. *)
Fixpoint skip_int32 (n : nat) (s : bytes) : option bytes :=
  match n with
  | O => Some s
  | S k => match parse_int32 s with Some (_, r) => skip_int32 k r | None => None end
  end.
(** [src/postgres.c:717-762 parseP]; [(uint16_t)parse_int16()] is the unsigned
    value. *)
Definition parseP (s : bytes) (g : pgst) : pg_step :=
  field (parse_cstr s) (fun name r1 =>
  field (parse_cstr r1) (fun query r2 =>
  field (parse_bytes 2 r2) (fun cnt r3 =>
  match skip_int32 (N.to_nat (read_be cnt)) r3 with
  | None => PgFail []
  | Some r4 => at_end r4 (
      if (PGNAMEDATALEN <=? length name)%nat then pg_fault (bs "statement name too large") g
      else match parse_query query with
      | QErr m => pg_fault m g
      | QOk args types params =>
          PgStep [] (add_flag FParse (set_stmts ((name, mkStmt args types (length params)) :: pg_stmts g) g))
      end)
  end))).
(** One column of [src/postgres.c:796-804]. *)
Definition desc_field (oid : N) : bytes :=
  [0; 0; 0; 0; 0; 0; 0; 0; 0; 0; oid mod 256; 255; 255; 255; 255; 255; 255; 0; 0].
(** [src/postgres.c:764-858 parseD]. For a portal the flag is not set. *)
Definition parseD (s : bytes) (g : pgst) : pg_step :=
  if has_flag FDescribe g then PgFail (bs "double describe not allowed")
  else
  field (parse_byte s) (fun type r1 =>
  field (parse_cstr r1) (fun name r2 => at_end r2 (
  if (type =? 80) || (type =? 81) then
    match by_name name (pg_portals g) with
    | None => pg_fault (bs "portal not found") g
    | Some p =>
        PgStep [] (set_desc (Some (pg_frame 84 (be16 (N.of_nat (length (p_params p)))
          ++ flat_map (fun _ => desc_field (pg_oid g)) (p_params p)))) g)
    end
  else if type =? 83 then
    match by_name name (pg_stmts g) with
    | None => pg_fault (bs "statement not found") g
    | Some st =>
        PgStep [] (add_flag FDescribe (set_desc (Some (pg_frame 116 (be16 (N.of_nat (s_nparams st))
          ++ flat_map (fun _ => be32 (pg_oid g)) (seq 0 (s_nparams st))))) g))
    end
  else pg_fault (bs "unsupported describe type '" ++ [type] ++ bs "'") g))).
(** The loop of [src/postgres.c:886-893]: [None], the message ends early;
    [Some None], a format is neither text nor binary. *)
Fixpoint formats (n : nat) (s : bytes) : option (option bytes) :=
  match n with
  | O => Some (Some s)
  | S k => match parse_int16 s with
           | None => None
           | Some (f, r) => if ((f =? 0) || (f =? 1))%Z then formats k r else Some None
           end
  end.
(** The loop of [src/postgres.c:896-904]; a length that is not positive counts as
    0. *)
Fixpoint bind_params (n : nat) (s : bytes) (acc : list bytes) : option (list bytes * bytes) :=
  match n with
  | O => Some (acc, s)
  | S k =>
      match parse_int32 s with
      | None => None
      | Some (l, r) =>
          let l := if (l <=? 0)%Z then O else Z.to_nat l in
          match parse_bytes l r with None => None | Some (b, r') => bind_params k r' (acc ++ [b]) end
      end
  end.
(** The loop of [src/postgres.c:907-910]. *)
Fixpoint skip_int16 (n : nat) (s : bytes) : option bytes :=
  match n with
  | O => Some s
  | S k => match parse_int16 s with Some (_, r) => skip_int16 k r | None => None end
  end.
(** [src/postgres.c:860-931 parseB]; a negative number of formats is none. *)
Definition parseB (s : bytes) (g : pgst) : pg_step :=
  field (parse_cstr s) (fun pname r1 =>
  field (parse_cstr r1) (fun sname r2 =>
  field (parse_int16 r2) (fun nformats r3 =>
  match formats (Z.to_nat nformats) r3 with
  | None => PgFail []
  | Some None => pg_fault (bs "only text or binary format allowed") g
  | Some (Some r4) =>
      field (parse_bytes 2 r4) (fun np r5 =>
      field (bind_params (N.to_nat (read_be np)) r5 []) (fun params r6 =>
      field (parse_bytes 2 r6) (fun nr r7 =>
      match skip_int16 (N.to_nat (read_be nr)) r7 with
      | None => PgFail []
      | Some r8 => at_end r8 (
          if (PGNAMEDATALEN <=? length pname)%nat then pg_fault (bs "portal name too large") g
          else if (PGNAMEDATALEN <=? length sname)%nat then pg_fault (bs "statement name too large") g
          else PgStep [] (add_flag FBind (set_portals ((pname, mkPortal sname params) :: pg_portals g) g)))
      end)))
  end))).
(** [src/postgres.c:933-943 parseX] *)
Definition parseX (s : bytes) (g : pgst) : pg_step := at_end s (PgStep [] (add_flag FClose g)).
(** The loop of [src/postgres.c:976-1019]: [None] is the internal error. An argument
    that is joined when there is none before it fails an assertion. *)
Fixpoint exec_args (args : list bytes) (types : list argtype) (params acc : list bytes) : out (option (list bytes)) :=
  match args, types with
  | a :: args', (isp, join) :: types' =>
      let v := if isp : bool then
          match a with
          | d :: digits =>
              if d =? 36 then
                match parse_u64 digits with
                | Some x => if (x =? 0) || (65535 <? x) then None else nth_error params (N.to_nat (x - 1))
                | None => None
                end
              else None
          | [] => None
          end
        else Some a in
      match v with
      | None => Ok None
      | Some v =>
          if join : bool then
            match rev acc with
            | last :: before => exec_args args' types' params (rev before ++ [last ++ v])
            | [] => Bad AssertFail
            end
          else exec_args args' types' params (acc ++ [v])
      end
  | _, _ => Ok (Some acc)
  end.
(** [src/postgres.c:945-1034 parseE] *)
Definition parseE (s : bytes) (g : pgst) : out pg_step :=
  match parse_cstr s with
  | None => Ok (PgFail [])
  | Some (pname, r1) =>
      match parse_int32 r1 with
      | Some (_, []) =>
          match by_name pname (pg_portals g) with
          | None => Ok (pg_fault (bs "portal not found") g)
          | Some p =>
              match by_name (p_stmt p) (pg_stmts g) with
              | None => Ok (pg_fault (bs "statement not found") g)
              | Some st =>
                  if negb (s_nparams st =? length (p_params p))%nat then Ok (pg_fault (bs "portal params mismatch") g)
                  else match exec_args (s_args st) (s_types st) (p_params p) [] with
                  | Bad t => Bad t
                  | Ok None => Ok (pg_fault (bs "portal params internal error") g)
                  | Ok (Some args) => Ok (PgStep args (set_execute true g))
                  end
              end
          end
      | _ => Ok (PgFail [])
      end
  end.
(** [src/postgres.c:1036-1047 parseS] *)
Definition parseS (s : bytes) (g : pgst) : pg_step := at_end s (PgStep [] (add_flag FSync g)).
(** [src/postgres.c:1049-1063 parsep] *)
Definition parsep (password : bytes) (s : bytes) (g : pgst) : pg_step :=
  field (parse_cstr s) (fun pw r => at_end r (
  if beq pw (cstr password) then PgStep [] (add_flag FAuth g)
  else PgFail (bs "WRONGPASS invalid username-password pair or user is disabled."))).

(** What the parser returns to its caller. [src/postgres.c:1220-1246 parse_postgres] *)
Inductive pg_result := PgMore | PgWrong (msg : bytes) (g : pgst) | PgGot (n : nat) (args : list bytes) (g : pgst).
(** [src/postgres.c:1065-1113 parse_message] of at least one byte. The declared
    length is a signed number cast to [size_t]: with -1 the test
    [len < msglen+1] compares with 0, with less than 4 the subtraction wraps, and
    the parsers then form a pointer far outside of the data. A message of unknown
    type is not read and forms none. *)
Definition parse_message (password : bytes) (data : bytes) (g : pgst) : out pg_result :=
  match data with
  | t :: rest =>
      if (length data <? 5)%nat then Ok PgMore
      else
        let msglen := signed 32 (read_be (firstn 4 rest)) in
        if (msglen <? -1)%Z || (Z.of_nat (length data) <? msglen + 1)%Z then Ok PgMore
        else
          let body := firstn (Z.to_nat (msglen - 4)) (skipn 4 rest) in
          let n := Z.to_nat (msglen + 1) in
          let step (x : pg_step) : out pg_result :=
            if (msglen <? 4)%Z then Bad OutOfBounds
            else match x with
            | PgFail m => Ok (PgWrong m g)
            | PgStep args g' => Ok (PgGot n args g')
            end in
          if t =? 81 then step (parseQ body g)
          else if t =? 80 then step (parseP body g)
          else if t =? 88 then step (parseX body g)
          else if t =? 69 then
            match parseE body g with Bad x => Bad x | Ok x => step x end
          else if t =? 112 then step (parsep password body g)
          else if t =? 68 then step (parseD body g)
          else if t =? 66 then step (parseB body g)
          else if t =? 83 then step (parseS body g)
          else if (msglen =? -1)%Z then Ok PgMore
          else if (msglen =? 3)%Z then Ok (PgWrong (bs "unknown message '" ++ [t] ++ bs "'") g)
          else Ok (PgGot n [] (set_err (Some (bs "unknown message '" ++ [t] ++ bs "'")) g))
  | [] => Ok PgMore
  end.

(** [src/postgres.c:1122-1176 parse_magic_proto3], the loop over the parameters: the
    strings that end with a zero byte and are not empty, a name and a value in
    turn; the value of the last "client_encoding". *)
Fixpoint startup_strings (s cur : bytes) : list bytes :=
  match s with
  | [] => []
  | b :: r => if b =? 0 then (match cur with [] => [] | _ => [rev cur] end) ++ startup_strings r []
              else startup_strings r (b :: cur)
  end.
(** [src/postgres.c:1141-1142]. *)
Fixpoint client_encoding (l : list bytes) (cur : bytes) : bytes :=
  match l with
  | n :: v :: r => client_encoding r (if beq n (bs "client_encoding") then v else cur)
  | _ => cur
  end.
(** A digit of "%08x" [src/postgres.c:1211]. *)
Definition hex_digit (x : N) : byte := if x <? 10 then 48 + x else 87 + x.
(** "%08x" [src/postgres.c:1211]. *)
Definition hex8 (x : N) : bytes := map (fun i => hex_digit (x / 16 ^ i mod 16)) [7; 6; 5; 4; 3; 2; 1; 0].
(** [src/postgres.c:1115-1120 parse_magic_ssl, 1122-1176 parse_magic_proto3,
    1178-1182 parse_magic_cancel, 1184-1218 parse_magic]. *)
Definition parse_magic (data : bytes) (g : pgst) : pg_result :=
  if (length data <? 4)%nat then PgMore
  else
    let msglen := read_be (firstn 4 data) in
    if 65536 <? msglen then PgWrong (bs "message too large") g
    else if N.of_nat (length data) <? msglen then PgMore
    else if msglen <? 8 then PgWrong (bs "invalid message") g
    else
      let magic := read_be (firstn 4 (skipn 4 data)) in
      let body := firstn (N.to_nat msglen - 8) (skipn 8 data) in
      if magic =? 80877103 then PgGot (N.to_nat msglen) [] (add_flag FSsl g)
      else if magic =? 196608 then
        let enc := client_encoding (startup_strings body []) [] in
        if negb (beq enc []) && negb (beq enc (bs "UTF8")) then PgWrong [] g
        else PgGot (N.to_nat msglen) [] (set_startup true g)
      else if magic =? 4294901760 then PgWrong (bs "cancel message unsupported") g
      else PgWrong (bs "Protocol error: unknown magic number " ++ hex8 magic) g.
(** [src/postgres.c:1220-1238 parse_postgres]; [pg->error = 0] at the start. *)
Definition parse_postgres (password : bytes) (data : bytes) (g : pgst) : out pg_result :=
  let g := set_err None g in
  match data with
  | [] => Ok PgMore
  | b :: _ => if b =? 0 then Ok (parse_magic data g) else parse_message password data g
  end.

(** [src/postgres.c:1396-1407 write_auth_ok]: the last of the writes is the ready
    message. *)
Definition auth_ok (version : bytes) (g : pgst) : list wr * pgst :=
  ([WRaw (pg_auth 0); WRaw (pg_status (bs "client_encoding") (bs "UTF8"));
    WRaw (pg_status (bs "server_encoding") (bs "UTF8"));
    WRaw (pg_status (bs "server_version") (firstn 127 (cstr version ++ bs " (Pogocache)"))); PReady], set_ready true g).
(** What pg_respond does: it writes, may mark the connection as authenticated and
    asks for the connection to be kept or closed. [src/postgres.c:1412-1515 pg_respond] *)
Record pg_reply := mkReply { r_out : list wr; r_auth : bool; r_keep : bool; r_pg : pgst }.
(** [src/postgres.c:1409-1486 pg_respond] with [auth] as [password] and the kind of
    the connection. *)
Definition pg_respond (password version : bytes) (tls : bool) (g : pgst) : out pg_reply :=
  match pg_err g with
  | Some m => Ok (mkReply [WError m] false true g)
  | None =>
      if has_flag FEmpty g then Ok (mkReply [WRaw [73; 0; 0; 0; 4]; WRaw [90; 0; 0; 0; 5; 73]] false true (del_flag FEmpty g))
      else if has_flag FParse g then Ok (mkReply [WRaw [49; 0; 0; 0; 4]] false true (del_flag FParse g))
      else if has_flag FBind g then Ok (mkReply [WRaw [50; 0; 0; 0; 4]] false true (del_flag FBind g))
      else if has_flag FDescribe g then
        match pg_desc g with
        | None => Bad AssertFail
        | Some d => Ok (mkReply [WRaw d] false true (del_flag FDescribe (set_desc None g)))
        end
      else if has_flag FSync g then Ok (mkReply [PReady] false true (del_flag FSync (set_execute false g)))
      else if has_flag FClose g then Ok (mkReply [] false false (del_flag FClose g))
      else if has_flag FSsl g then Ok (mkReply [WRaw (if tls then bs "Y" else bs "N")] false true (del_flag FSsl g))
      else if has_flag FAuth g then
        if negb (pg_startup g) then Ok (mkReply [] false false g)
        else let '(ws, g') := auth_ok version g in Ok (mkReply ws true true (del_flag FAuth g'))
      else if pg_startup g then
        match cstr password with
        | _ :: _ => Ok (mkReply [WRaw (pg_auth 3)] false true g)
        | [] => let '(ws, g') := auth_ok version g in Ok (mkReply ws false true (set_startup false g'))
        end
      else Ok (mkReply [] false true g)
  end.

(** [src/postgres.c:1515-1569 pg_precommand]: the replies, the state, and the
    arguments left to run if any. *)
Definition pg_precommand (args : list bytes) (g : pgst) : list wr * pgst * option (list bytes) :=
  match args with
  | [] => ([], g, Some args)
  | a :: rest =>
      match a with
      | [] => ([], g, Some args)
      | c :: _ =>
          if is_word a "begin" then (complete (bs "BEGIN"), g, None)
          else if is_word a "rollback" then (complete (bs "ROLLBACK"), g, None)
          else if is_word a "commit" then (complete (bs "COMMIT"), g, None)
          else if (c =? 58) && (nth 1 a 0 =? 58) then
            let typed (oid : N) :=
              let g' := set_oid oid g in
              match rest with
              | [] => (complete (if oid =? 17 then bs "BYTEA" else bs "TEXT"), g', None)
              | _ => ([], g', Some rest)
              end in
            if is_word a "::bytea" || is_word a "::bytes" then typed 17
            else if is_word a "::text" then typed 25
            else ([WRaw (pg_error (firstn 127 (bs "unknown type '" ++ cstr (skipn 2 a) ++ bs "'"))); PReady], g, None)
          else ([], g, Some args)
      end
  end.
