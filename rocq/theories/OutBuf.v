(** The output buffer of a connection as memory: net_conn_out_* (net.c) and the writers of replies (conn.c, postgres.c) with their own buffers, byte
    for byte. *)
From Verif Require Import Base Types Text IntText Prog Cmds Reply.
From Coq Require Import String.
Local Open Scope N_scope.
Notation length := List.length.

(** What becomes of a call: it returns; the process ends for want of memory [src/xmalloc.c:91-96 check_ptr]; it touches memory outside of a
    block; it reads memory that was never written; an assertion fails; it does not return. *)
Inductive fate (A : Type) := Fine (a : A) | NoMemory | Outside | Unset | Asserts | Endless.
Arguments Fine {A} a. Arguments NoMemory {A}. Arguments Outside {A}. Arguments Unset {A}. Arguments Asserts {A}. Arguments Endless {A}.
(** One call after the other: C's [;], as in [src/conn.c:234-239]. *)
Definition bind {A B} (f : fate A) (g : A -> fate B) : fate B :=
  match f with Fine a => g a | NoMemory => NoMemory | Outside => Outside | Unset => Unset | Asserts => Asserts | Endless => Endless end.
Notation "x <- e ;; f" := (bind e (fun x => f)) (at level 61, e at next level, right associativity).

(** A block of memory; [None] is a byte that was not written. C memory, as used in [src/net.c:290-291]. *)
Definition block := list (option N).
(** The size of a block, for [src/net.c:255 outcap] and the arrays of [src/conn.c:370, 386, 392, 402]. *)
Definition size (b : block) : N := N.of_nat (length b).
(** A fresh block or array [src/net.c:289; src/conn.c:370]. *)
Definition fresh_block (n : N) : block := repeat None (N.to_nat n).
(** Writing bytes at [i]: memcpy, or assignments one after the other [src/net.c:297, 310; src/conn.c:349-356; src/postgres.c:65-79]. *)
Definition put (b : block) (i : N) (s : bytes) : fate block :=
  if i + N.of_nat (length s) <=? size b
  then Fine (firstn (N.to_nat i) b ++ map Some s ++ skipn (N.to_nat i + length s) b) else Outside.
(** The bytes of cells that have been written. For [src/net.c:310, 690]. *)
Fixpoint all_set (l : block) : option bytes :=
  match l with
  | [] => Some []
  | None :: _ => None
  | Some x :: r => match all_set r with Some s => Some (x :: s) | None => None end
  end.
(** Reading [n] bytes at [i] [src/net.c:310, 687-690; src/conn.c:242]. *)
Definition get (b : block) (i n : N) : fate bytes :=
  if i + n <=? size b
  then match all_set (firstn (N.to_nat n) (skipn (N.to_nat i) b)) with Some s => Fine s | None => Unset end else Outside.
(** strlen and reading of a string in a block [src/conn.c:258]. *)
Fixpoint get_cstr (b : block) : fate bytes :=
  match b with
  | [] => Outside
  | None :: _ => Unset
  | Some x :: r => if x =? 0 then Fine [] else s <- get_cstr r ;; Fine (x :: s)
  end.
(** snprintf into all of a block: cut if it does not fit, with a zero [src/conn.c:254, 256, 264, 272, 305, 371]. *)
Definition snprintf (b : block) (s : bytes) : fate block :=
  put b 0 (firstn (N.to_nat (size b) - 1) s ++ [0]).
(** [size_t] arithmetic [src/net.c:282-287]. *)
Definition sub64 (x y : N) : N := (x + 2 ^ 64 - y) mod 2 ^ 64.
(** As above [src/net.c:285, 287; src/conn.c:234, 345]. *)
Definition add64 (x y : N) : N := (x + y) mod 2 ^ 64.

(** The part of [src/net.c:247-263 struct net_conn] that holds the output; [oc_calls] numbers the calls of xmalloc, [oc_live] counts the blocks
    that were allocated and not freed. *)
Record oconn := mkOconn { oc_out : option block; oc_len : N; oc_calls : nat; oc_live : nat }.
(** [src/net.c:265-271 conn_new] *)
Definition oconn_new : oconn := mkOconn None 0 0 0.
(** outcap [src/net.c:255, 293] *)
Definition cap (c : oconn) : N := match oc_out c with Some b => size b | None => 0 end.

Section Memory.
(** Whether the allocator grants the [n]th request, for so many bytes. *)
Variable grant : nat -> N -> bool.

(** [src/xmalloc.c:146-151 xmalloc], which ends the process if there is no memory [91-96]. *)
Definition xmalloc (c : oconn) (n : N) : fate (block * oconn) :=
  if grant (oc_calls c) n then Fine (fresh_block n, mkOconn (oc_out c) (oc_len c) (S (oc_calls c)) (S (oc_live c))) else NoMemory.
(** [src/xmalloc.c:162-167 xfree] of a block *)
Definition xfree (c : oconn) : oconn := mkOconn (oc_out c) (oc_len c) (oc_calls c) (pred (oc_live c)).

(** The loop of [src/net.c:286-288]; it is endless if it does not end in as many steps as there are bits. *)
Fixpoint grow (fuel : nat) (cap len amount : N) : fate N :=
  if sub64 cap len <? amount
  then match fuel with O => Endless | S f => grow f ((cap * 2) mod 2 ^ 64) len amount end
  else Fine cap.
(** [src/net.c:281-294 net_conn_out_ensure] *)
Definition ensure (c : oconn) (amount : N) : fate oconn :=
  if amount <=? sub64 (cap c) (oc_len c) then Fine c
  else
    k <- grow 66 (if cap c =? 0 then 16 else (cap c * 2) mod 2 ^ 64) (oc_len c) amount ;;
    m <- xmalloc c k ;;
    let (b, c1) := m in
    if (oc_len c <=? size b) && (oc_len c <=? cap c)
    then let old := match oc_out c with Some o => o | None => [] end in
         Fine (mkOconn (Some (firstn (N.to_nat (oc_len c)) old ++ skipn (N.to_nat (oc_len c)) b)) (oc_len c) (oc_calls c1)
                 (match oc_out c with Some _ => pred (oc_live c1) | None => oc_live c1 end))
    else Outside.
(** [src/net.c:307-312 net_conn_out_write_nocheck], and [296-298 net_conn_out_write_byte_nocheck] for one byte *)
Definition write_nocheck (c : oconn) (s : bytes) : fate oconn :=
  match oc_out c with
  | None => if N.of_nat (length s) =? 0 then Fine c else Outside
  | Some b => b' <- put b (oc_len c) s ;; Fine (mkOconn (Some b') (add64 (oc_len c) (N.of_nat (length s))) (oc_calls c) (oc_live c))
  end.
(** [src/net.c:300-305 net_conn_out_write_byte] *)
Definition write_byte (c : oconn) (x : byte) : fate oconn :=
  c <- (if cap c =? oc_len c then ensure c 1 else Fine c) ;; write_nocheck c [x].
(** [src/net.c:314-321 net_conn_out_write], [src/conn.c:360-362 conn_write_raw] *)
Definition write (c : oconn) (s : bytes) : fate oconn :=
  c <- (if sub64 (cap c) (oc_len c) <? N.of_nat (length s) then ensure c (N.of_nat (length s)) else Fine c) ;; write_nocheck c s.
(** [src/net.c:335-338 net_conn_out_setlen] *)
Definition setlen (c : oconn) (n : N) : fate oconn :=
  if n <? cap c then Fine (mkOconn (oc_out c) n (oc_calls c) (oc_live c)) else Asserts.

(** The loop of [src/conn.c:241-245] from [i], [n] times. *)
Fixpoint tame_loop (n : nat) (i : N) (b : block) : fate block :=
  match n with
  | O => Fine b
  | S n => s <- get b i 1 ;; b <- match s with [x] => if x <? 32 then put b i [32] else Fine b | _ => Outside end ;; tame_loop n (i + 1) b
  end.
(** [src/conn.c:230-246 writeln]; [msg] is what [strlen] or [len] delimit. *)
Definition out_writeln (c : oconn) (ch : byte) (msg : bytes) : fate oconn :=
  let len := N.of_nat (length msg) in
  c <- ensure c (add64 3 len) ;;
  c <- write_nocheck c [ch] ;;
  let mark := oc_len c in
  c <- write_nocheck c msg ;;
  c <- write_nocheck c [13] ;;
  c <- write_nocheck c [10] ;;
  match oc_out c with
  | None => Outside
  | Some b => b <- tame_loop (N.to_nat (len - mark)) mark b ;; Fine (mkOconn (Some b) (oc_len c) (oc_calls c) (oc_live c))
  end.
(** [src/conn.c:344-358 conn_write_bulk]; u64toa writes the digits and a zero [src/util.c:270-288]. *)
Definition out_bulk (c : oconn) (s : bytes) : fate oconn :=
  let len := N.of_nat (length s) in
  c <- ensure c (add64 32 len) ;;
  match oc_out c with
  | None => Outside
  | Some b =>
      let olen := oc_len c in
      let d := u64toa len in
      b <- put b olen [36] ;;
      b <- put b (olen + 1) (d ++ [0]) ;;
      let p := olen + 1 + N.of_nat (length d) in
      b <- put b p [13] ;;
      b <- put b (p + 1) [10] ;;
      b <- put b (p + 2) s ;;
      b <- put b (p + 2 + len) [13] ;;
      b <- put b (p + 2 + len + 1) [10] ;;
      setlen (mkOconn (Some b) olen (oc_calls c) (oc_live c)) (olen + (p + 2 + len + 2 - olen))
  end.
(** The text of a number in an array of 24 bytes: u64toa or i64toa [src/conn.c:386-387, 392-393, 402-403; src/util.c:270-301]. *)
Definition num24 (d : bytes) : fate bytes := b <- put (fresh_block 24) 0 (d ++ [0]) ;; get b 0 (N.of_nat (length d)).
(** [src/conn.c:385-389 conn_write_array] *)
Definition out_array (c : oconn) (n : N) : fate oconn := s <- num24 (u64toa n) ;; out_writeln c 42 s.
(** [src/conn.c:391-399 conn_write_uint] *)
Definition out_uint (pr : proto) (c : oconn) (n : N) : fate oconn :=
  s <- num24 (u64toa n) ;; if is_memcache pr then write c s else out_writeln c 43 s.
(** [src/conn.c:401-409 conn_write_int] *)
Definition out_int (pr : proto) (c : oconn) (z : Z) : fate oconn :=
  s <- num24 (i64toa z) ;; if is_memcache pr then write c s else out_writeln c 58 s.
(** The head of [src/conn.c:371-376] *)
Definition http_head (code : N) (status : bytes) (bodylen : nat) : bytes :=
  bs "HTTP/1.1 " ++ u64toa code ++ [32] ++ status ++ crlf
  ++ bs "Content-Length: " ++ u64toa (N.of_nat bodylen) ++ crlf ++ bs "Connection: Close" ++ crlf ++ crlf.
(** [src/conn.c:364-383 conn_write_http]; snprintf answers the length of the whole text. *)
Definition out_http (c : oconn) (code : N) (status body : bytes) : fate oconn :=
  let h := http_head code status (length body) in
  b <- snprintf (fresh_block 512) h ;;
  s <- get b 0 (N.of_nat (length h)) ;;
  c <- write c s ;;
  if 0 <? N.of_nat (length body) then write c body else Fine c.

(** A temporary block with a text: xmalloc, snprintf, conn_write_raw with strlen, xfree [src/conn.c:252-259, 262-267, 271-275]. *)
Definition out_text (c : oconn) (room : N) (s : bytes) : fate oconn :=
  m <- xmalloc c room ;; let (b, c) := m in
  b <- snprintf b s ;; t <- get_cstr b ;; c <- write c t ;; Fine (xfree c).
(** As above for [src/conn.c:303-308]. *)
Definition out_http_text (c : oconn) (room : N) (code : N) (status s : bytes) : fate oconn :=
  m <- xmalloc c room ;; let (b, c) := m in
  b <- snprintf b s ;; t <- get_cstr b ;; c <- out_http c code status t ;; Fine (xfree c).

(** Writing one thing after the other from [p] on: [memcpy(p, ..); p += ..] [src/postgres.c:1280-1297, 1313-1324, 1500-1510]. *)
Fixpoint put_all (b : block) (p : N) (l : list bytes) : fate block :=
  match l with
  | [] => Fine b
  | s :: l => b <- put b p s ;; put_all b (p + N.of_nat (length s)) l
  end.
(** A message in a block of its own: [room] bytes are allocated, the parts written, [room] bytes sent, the block freed
    [src/postgres.c:1256-1267, 1269-1300, 1302-1328, 1330-1339, 1488-1513]. *)
Definition out_message (c : oconn) (room : N) (parts : list bytes) : fate oconn :=
  m <- xmalloc c room ;; let (b, c) := m in
  b <- put_all b 0 parts ;; s <- get b 0 room ;; c <- write c s ;; Fine (xfree c).
(** [src/postgres.c:1256-1267 pg_write_status]; [size] is an [int32_t], its arguments are short *)
Definition out_status (c : oconn) (key val : bytes) : fate oconn :=
  let keylen := N.of_nat (length (cstr key)) in let vallen := N.of_nat (length (cstr val)) in
  let size := 4 + keylen + 1 + vallen + 1 in
  out_message c (1 + size) [[83]; be32 size; cstr key ++ [0]; cstr val ++ [0]].
(** [src/postgres.c:1269-1300 pg_write_row_desc] *)
Definition out_row_desc (po : pgout) (c : oconn) (cols : list bytes) : fate oconn :=
  let size := fold_left (fun size col => size + (N.of_nat (length (cstr col)) + 1) + (4 + 2 + 4 + 2 + 4 + 2)) cols (1 + 4 + 2) in
  out_message c size ([[84]; be32 (size - 1); be16 (N.of_nat (length cols))] ++
    flat_map (fun col => [cstr col ++ [0]; be32 0; be16 0; be32 (po_oid po); be16 (2 ^ 16 - 1); be32 (2 ^ 32 - 1); be16 1]) cols).
(** [src/postgres.c:1302-1328 pg_write_row_data] *)
Definition out_row_data (c : oconn) (cols : list bytes) : fate oconn :=
  let size := fold_left (fun size col => size + (4 + N.of_nat (length col))) cols (1 + 4 + 2) in
  out_message c size ([[68]; be32 (size - 1); be16 (N.of_nat (length cols))] ++
    flat_map (fun col => [be32 (N.of_nat (length col)); col]) cols).
(** [src/postgres.c:1330-1339 pg_write_complete] *)
Definition out_complete (c : oconn) (tag : bytes) : fate oconn :=
  let size := 1 + 4 + N.of_nat (length (cstr tag)) + 1 in
  out_message c size [[67]; be32 (size - 1); cstr tag ++ [0]].
(** [src/postgres.c:1488-1513 pg_write_error] *)
Definition out_pg_error (c : oconn) (msg : bytes) : fate oconn :=
  let size := (1 + 4) + (1 + 5 + 1) + (1 + 5 + 1) + (1 + 5 + 1) + (1 + N.of_nat (length (cstr msg)) + 1) + 1 in
  out_message c size [[69]; be32 (size - 1); bs "SERROR" ++ [0]; bs "VERROR" ++ [0]; bs "C23505" ++ [0]; [77]; cstr msg ++ [0]; [0]].
(** [src/postgres.c:1240-1245 pg_write_auth] *)
Definition out_auth (c : oconn) (code : N) : fate oconn := write c (pg_auth code).
(** [src/postgres.c:1247-1254 pg_write_ready] *)
Definition out_ready (po : pgout) (c : oconn) : fate oconn :=
  if po_execute po then Fine c else write c [90; 0; 0; 0; 5; 73].

(** [src/conn.c:248-314 write_error] and [316-322 conn_write_error] *)
Definition out_error (pg : pages) (po : pgout) (pr : proto) (c : oconn) (msg : bytes) : fate oconn :=
  let m := cstr msg in
  let room := N.of_nat (length m) + 32 in
  let server := beq m (bs "ERR out of memory") in
  match pr with
  | MEMCACHE =>
      if starts (bs "ERR ") m then out_text c room ((if server then bs "SERVER_ERROR " else bs "CLIENT_ERROR ") ++ skipn 4 m ++ crlf)
      else if server then out_text c room (bs "SERVER_ERROR " ++ m ++ crlf)
      else if starts (bs "CLIENT_ERROR ") m then out_text c room (m ++ crlf)
      else write c (bs "ERROR" ++ crlf)
  | POSTGRES => c <- out_pg_error c (strip_err m) ;; out_ready po c
  | HTTP =>
      let e := strip_err m in
      if beq e (bs "Show Help HTML") then out_http c 200 (bs "OK") (page_html pg)
      else if beq e (bs "Show Help TEXT") then out_http c 200 (bs "OK") (page_text pg)
      else if beq e (bs "Method Not Allowed") then out_http c 405 (bs "Method Not Allowed") (bs "Method Not Allowed" ++ crlf)
      else if beq e (bs "Unauthorized") then out_http c 401 (bs "Unauthorized") (bs "Unauthorized" ++ crlf)
      else if beq e (bs "Bad Request") then out_http c 400 (bs "Bad Request") (bs "Bad Request" ++ crlf)
      else out_http_text c (N.of_nat (length e) + 32) 500 (bs "Internal Server Error") (bs "ERR " ++ e ++ crlf)
  | RESP => out_writeln c 45 m
  end.
(** One call of a writer [src/conn.c:316-410, src/postgres.c:1247-1339]. *)
Definition out_wr (pg : pages) (po : pgout) (pr : proto) (c : oconn) (w : wr) : fate oconn :=
  match w with
  | WError m => out_error pg po pr c m
  | WString s => out_writeln c 43 (cstr s)
  | WNull => write c (bs "$-1" ++ crlf)
  | WBulk s => out_bulk c s
  | WRaw s => write c s
  | WHttp code status body => out_http c code status body
  | WArray n => out_array c n
  | WUint n => out_uint pr c n
  | WInt z => out_int pr c z
  | PRowDesc cols => out_row_desc po c cols
  | PRow cols => out_row_data c cols
  | PComplete tag => out_complete c tag
  | PReady => out_ready po c
  end.
(** The calls of one round [src/net.c:786-803]. *)
Fixpoint out_wrs (pg : pages) (po : pgout) (pr : proto) (c : oconn) (ws : list wr) : fate oconn :=
  match ws with [] => Fine c | w :: r => c <- out_wr pg po pr c w ;; out_wrs pg po pr c r end.
(** What is handed to write(2) or to TLS, and the buffer afterwards, which is kept [src/net.c:682-703 flush_conn, 815-866 qwrite]. *)
Definition out_flush (c : oconn) : fate (bytes * oconn) :=
  s <- match oc_out c with Some b => get b 0 (oc_len c) | None => if oc_len c =? 0 then Fine [] else Outside end ;;
  Fine (s, mkOconn (oc_out c) 0 (oc_calls c) (oc_live c)).
(** Round after round; [pg], [po] and [pr] may change from one to the next [src/net.c:916-937]. *)
Fixpoint out_rounds (pg : pages) (c : oconn) (rs : list (pgout * proto * list wr)) : fate (list bytes * oconn) :=
  match rs with
  | [] => Fine ([], c)
  | (po, pr, ws) :: rs =>
      c <- out_wrs pg po pr c ws ;;
      x <- out_flush c ;; let (s, c) := x in
      y <- out_rounds pg c rs ;; let (l, c) := y in Fine (s :: l, c)
  end.
(** [src/net.c:273-279 conn_free], the buffer *)
Definition out_free (c : oconn) : oconn := match oc_out c with Some _ => xfree c | None => c end.
End Memory.
