(** The bytes of replies. *)
From Verif Require Import Base Types Text IntText Prog Cmds.
From Coq Require Import String.
Local Open Scope N_scope.
Notation length := List.length.

(** What the writers of Postgres messages read of the connection: whether an
    Execute is being answered and the type of the columns
    [src/postgres.h:31-60 struct pg, execute and oid]. *)
Record pgout := mkPgout { po_execute : bool; po_oid : N }.
(** The pages of [src/helppage.h]; their text is left open. *)
Record pages := mkPages { page_html : bytes; page_text : bytes }.

(** [src/postgres.c:65-70 write_i32]; the argument is the value as a [uint32_t]. *)
Definition be32 (x : N) : bytes := [x / 2 ^ 24 mod 256; x / 2 ^ 16 mod 256; x / 2 ^ 8 mod 256; x mod 256].
(** [src/postgres.c:76-79 write_i16]. *)
Definition be16 (x : N) : bytes := [x / 2 ^ 8 mod 256; x mod 256].
(** A [size_t] handed to write_i32 or write_i16, cut to the width
    [src/postgres.c:1278, 1279, 1311, 1312, 1315, 1335]. *)
Definition len32 (s : bytes) : bytes := be32 (N.of_nat (length s)).

(** The frame of a message: its type, its length with the four bytes of the
    length itself, its contents [src/postgres.c:1256-1267, 1269-1300, 1302-1328,
    1330-1339, 1488-1513], each of which computes the size by hand. *)
Definition pg_frame (tag : byte) (body : bytes) : bytes :=
  tag :: be32 (4 + N.of_nat (length body)) ++ body.
(** [src/postgres.c:1240-1245 pg_write_auth]. *)
Definition pg_auth (code : N) : bytes := [82; 0; 0; 0; 8; 0; 0; 0; code].
(** [src/postgres.c:1247-1254 pg_write_ready], [code] is always 'I'. *)
Definition pg_ready (po : pgout) : bytes := if po_execute po then [] else [90; 0; 0; 0; 5; 73].
(** [src/postgres.c:1256-1267 pg_write_status]. *)
Definition pg_status (key val : bytes) : bytes := pg_frame 83 (cstr key ++ [0] ++ cstr val ++ [0]).
(** One column of [src/postgres.c:1269-1300 pg_write_row_desc]. *)
Definition pg_field (po : pgout) (name : bytes) : bytes :=
  cstr name ++ [0] ++ be32 0 ++ be16 0 ++ be32 (po_oid po) ++ be16 (2 ^ 16 - 1) ++ be32 (2 ^ 32 - 1) ++ be16 1.
(** [src/postgres.c:1269-1300 pg_write_row_desc]. *)
Definition pg_row_desc (po : pgout) (cols : list bytes) : bytes :=
  pg_frame 84 (be16 (N.of_nat (length cols)) ++ flat_map (pg_field po) cols).
(** [src/postgres.c:1302-1328 pg_write_row_data]. *)
Definition pg_row_data (cols : list bytes) : bytes :=
  pg_frame 68 (be16 (N.of_nat (length cols)) ++ flat_map (fun c => len32 c ++ c) cols).
(** [src/postgres.c:1330-1339 pg_write_complete]; the tags of
    pg_write_completef [src/postgres.c:1341-1349] are all shorter than the 126
    bytes that it keeps. *)
Definition pg_complete (tag : bytes) : bytes := pg_frame 67 (cstr tag ++ [0]).
(** [src/postgres.c:1488-1513 pg_write_error]. *)
Definition pg_error (msg : bytes) : bytes :=
  pg_frame 69 (bs "SERROR" ++ [0] ++ bs "VERROR" ++ [0] ++ bs "C23505" ++ [0] ++ [77] ++ cstr msg ++ [0] ++ [0]).

(** [src/conn.c:241-245], control characters become spaces. *)
Definition tame (b : byte) : byte := if b <? 32 then 32 else b.
(** [src/conn.c:230-246 writeln] with [fill] bytes in the output buffer: the loop
    runs from [mark = fill + 1] up to the length of the message, which is not
    where the message ends. *)
Definition writeln (fill : nat) (ch : byte) (msg : bytes) : bytes :=
  let k := (length msg - (fill + 1))%nat in
  ch :: map tame (firstn k msg) ++ skipn k msg ++ crlf.

(** [src/conn.c:364-384 conn_write_http]; the head always fits in the buffer of
    512 bytes because the status texts are short literals. *)
Definition http_reply (code : N) (status body : bytes) : bytes :=
  bs "HTTP/1.1 " ++ u64toa code ++ [32] ++ status ++ crlf
  ++ bs "Content-Length: " ++ u64toa (N.of_nat (length body)) ++ crlf
  ++ bs "Connection: Close" ++ crlf ++ crlf ++ body.

(** [strstr(s, p) == s] [src/conn.c:250, 268, 281, 287]. *)
Fixpoint starts (p s : bytes) : bool :=
  match p, s with
  | [], _ => true
  | x :: p', y :: s' => (x =? y) && starts p' s'
  | _ :: _, [] => false
  end.
(** The texts "ERR " are dropped from [src/conn.c:281, 287]. *)
Definition strip_err (m : bytes) : bytes := if starts (bs "ERR ") m then skipn 4 m else m.

(** [src/conn.c:248-314 write_error] and [316-322 conn_write_error]. *)
Definition write_error (pg : pages) (po : pgout) (pr : proto) (fill : nat) (msg : bytes) : bytes :=
  let m := cstr msg in
  let server := beq m (bs "ERR out of memory") in
  match pr with
  | MEMCACHE =>
      if starts (bs "ERR ") m then (if server then bs "SERVER_ERROR " else bs "CLIENT_ERROR ") ++ skipn 4 m ++ crlf
      else if server then bs "SERVER_ERROR " ++ m ++ crlf
      else if starts (bs "CLIENT_ERROR ") m then m ++ crlf
      else bs "ERROR" ++ crlf
  | POSTGRES => pg_error (strip_err m) ++ pg_ready po
  | HTTP =>
      let e := strip_err m in
      if beq e (bs "Show Help HTML") then http_reply 200 (bs "OK") (page_html pg)
      else if beq e (bs "Show Help TEXT") then http_reply 200 (bs "OK") (page_text pg)
      else if beq e (bs "Method Not Allowed") then http_reply 405 (bs "Method Not Allowed") (bs "Method Not Allowed" ++ crlf)
      else if beq e (bs "Unauthorized") then http_reply 401 (bs "Unauthorized") (bs "Unauthorized" ++ crlf)
      else if beq e (bs "Bad Request") then http_reply 400 (bs "Bad Request") (bs "Bad Request" ++ crlf)
      else http_reply 500 (bs "Internal Server Error") (bs "ERR " ++ e ++ crlf)
  | RESP => writeln fill 45 m
  end.

(** [src/conn.c:395, 405]. *)
Definition is_memcache (pr : proto) : bool := match pr with MEMCACHE => true | _ => false end.
(** What one call appends to an output buffer with [fill] bytes
    [src/conn.c:316-410, src/postgres.c:1247-1339]. *)
Definition emit (pg : pages) (po : pgout) (pr : proto) (fill : nat) (w : wr) : bytes :=
  match w with
  | WError m => write_error pg po pr fill m
  | WString s => writeln fill 43 (cstr s)
  | WNull => bs "$-1" ++ crlf
  | WBulk s => [36] ++ u64toa (N.of_nat (length s)) ++ crlf ++ s ++ crlf
  | WRaw s => s
  | WHttp code status body => http_reply code status body
  | WArray n => writeln fill 42 (u64toa n)
  | WUint n => if is_memcache pr then u64toa n else writeln fill 43 (u64toa n)
  | WInt z => if is_memcache pr then i64toa z else writeln fill 58 (i64toa z)
  | PRowDesc cols => pg_row_desc po cols
  | PRow cols => pg_row_data cols
  | PComplete tag => pg_complete tag
  | PReady => pg_ready po
  end.
(** What a list of calls appends; the buffer is emptied only when the event loop writes it out
    [src/net.c:681-702]. *)
Fixpoint emits (pg : pages) (po : pgout) (pr : proto) (fill : nat) (ws : list wr) : bytes :=
  match ws with
  | [] => []
  | w :: r => let s := emit pg po pr fill w in s ++ emits pg po pr (fill + length s) r
  end.
