(** The LZ4 compressor and decompressor as used by SAVE and LOAD (lz4.c): LZ4_compress_default with a buffer of
    LZ4_compressBound bytes, and LZ4_decompress_safe. For x86-64: LZ4_FAST_DEC_LOOP is 1 and registers have 8 bytes.
    Positions are offsets from the start of a buffer. Comparisons of pointers such as [ip > iend - 8] are written with
    the number on the other side, since a pointer before the buffer is only compared. The tests for an overflow of a
    pointer [src/lz4.c:2101-2102, 2138, 2270-2271, 2351] never hold with 64-bit pointers and the lengths that 2 GB of input allow. *)
From Verif Require Import Base.
Local Open Scope nat_scope.
Notation length := List.length.

(** The result of an access to memory: fine, or astray, outside the buffers (or a memcpy between regions that overlap).
    No counterpart in the code. *)
Inductive lz (A : Type) := Fine (a : A) | Stray.
Arguments Fine {A} a.
Arguments Stray {A}.
(** One after the other (no counterpart in the code). *)
Definition andthen {A B} (x : lz A) (f : A -> lz B) : lz B := match x with Fine a => f a | Stray => Stray end.
Notation "x <- a ; b" := (andthen a (fun x => b)) (at level 60, right associativity).

(** ** Memory *)
(** Bytes written over others [src/lz4.c:345-361]. *)
Definition blit (mem : bytes) (d : nat) (x : bytes) : bytes := firstn d mem ++ x ++ skipn (d + length x) mem.
(** A write into the output buffer [src/lz4.c:345-361, 422]. *)
Definition put (mem : bytes) (d : nat) (x : bytes) : lz bytes := if d + length x <=? length mem then Fine (blit mem d x) else Stray.
(** LZ4_memcpy within the output buffer [src/lz4.c:345-360]; the regions may not overlap. *)
Definition memcpy (mem : bytes) (d s k : nat) : lz bytes :=
  if (s + k <=? length mem) && ((s + k <=? d) || (d + k <=? s)) then put mem d (firstn k (skipn s mem)) else Stray.
(** One byte after the other, [*op++ = *match++] in [src/lz4.c:2431] and [op[0] = match[0]] and so on in [503-506, 2410-2413]. *)
Fixpoint bytecopy (k : nat) (mem : bytes) (d s : nat) : lz bytes :=
  match k with
  | O => Fine mem
  | S k => match nth_error mem s with
           | None => Stray
           | Some b => mem <- put mem d [b]; bytecopy k mem (S d) (S s)
           end
  end.
(** LZ4_wildCopy8 within the output buffer [src/lz4.c:464-473]; [fuel] for the loop. *)
Fixpoint wild8 (fuel : nat) (mem : bytes) (d s e : nat) : lz bytes :=
  match fuel with
  | O => Stray
  | S f => mem <- memcpy mem d s 8; if d + 8 <? e then wild8 f mem (d + 8) (s + 8) e else Fine mem
  end.
(** LZ4_wildCopy32 within the output buffer [src/lz4.c:523-531]. *)
Fixpoint wild32 (fuel : nat) (mem : bytes) (d s e : nat) : lz bytes :=
  match fuel with
  | O => Stray
  | S f => mem <- memcpy mem d s 16; mem <- memcpy mem (d + 16) (s + 16) 16;
           if d + 32 <? e then wild32 f mem (d + 32) (s + 32) e else Fine mem
  end.
(** [src/lz4.c:474]. *)
Definition inc32table (offset : nat) : nat := nth offset [0; 1; 2; 1; 0; 4; 4; 4] 0.
(** [src/lz4.c:475]. *)
Definition dec64table (offset : nat) : Z := nth offset [0; 0; 0; -1; -4; 1; 2; 3]%Z 0%Z.
(** The first 8 bytes of a match that is closer than 8 bytes [src/lz4.c:501-510, 2408-2416]: the memory, and where the copying goes on. *)
Definition near8 (mem : bytes) (d s offset : nat) : lz (bytes * nat) :=
  mem <- put mem d [0; 0; 0; 0]%N;
  mem <- bytecopy 4 mem d s;
  mem <- memcpy mem (d + 4) (s + inc32table offset) 4;
  Fine (mem, Z.to_nat (Z.of_nat (s + inc32table offset) - dec64table offset)).
(** The first 8 bytes of a match [src/lz4.c:501-515, 2408-2421]. *)
Definition first8 (mem : bytes) (d s offset : nat) : lz (bytes * nat) :=
  if offset <? 8 then near8 mem d s offset else (mem <- memcpy mem d s 8; Fine (mem, s + 8)).
(** LZ4_memcpy_using_offset_base [src/lz4.c:497-518]. *)
Definition using_offset_base (mem : bytes) (d s e offset : nat) : lz bytes :=
  r <- first8 mem d s offset; wild8 (S e) (fst r) (d + 8) (snd r) e.
(** The loop at the end of LZ4_memcpy_using_offset [src/lz4.c:568-573]. *)
Fixpoint stripes (fuel : nat) (mem v : bytes) (d e : nat) : lz bytes :=
  match fuel with
  | O => Stray
  | S f => mem <- put mem d v; if d + 8 <? e then stripes f mem v (d + 8) e else Fine mem
  end.
(** Bytes read from the output buffer [src/lz4.c:543-562]. *)
Definition get (mem : bytes) (s k : nat) : lz bytes := if s + k <=? length mem then Fine (firstn k (skipn s mem)) else Stray.
(** LZ4_memcpy_using_offset [src/lz4.c:536-574]. *)
Definition using_offset (mem : bytes) (d s e offset : nat) : lz bytes :=
  match offset with
  | 1 => v <- get mem s 1; stripes (S e) mem (v ++ v ++ v ++ v ++ v ++ v ++ v ++ v) d e
  | 2 => v <- get mem s 2; stripes (S e) mem (v ++ v ++ v ++ v) d e
  | 4 => v <- get mem s 4; stripes (S e) mem (v ++ v) d e
  | _ => using_offset_base mem d s e offset
  end.

(** ** The decompressor *)
Section Decode.
Variable src : bytes.
(** The size of the output buffer [src/lz4.c:2029]. *)
Variable osz : nat.

(** LZ4_memcpy and LZ4_memmove from the input to the output [src/lz4.c:2113, 2236, 2322]. *)
Definition from_src (mem : bytes) (d s k : nat) : lz bytes :=
  if s + k <=? length src then put mem d (firstn k (skipn s src)) else Stray.
(** LZ4_wildCopy8 from the input [src/lz4.c:464-473]. *)
Fixpoint wild8_src (fuel : nat) (mem : bytes) (d s e : nat) : lz bytes :=
  match fuel with
  | O => Stray
  | S f => mem <- from_src mem d s 8; if d + 8 <? e then wild8_src f mem (d + 8) (s + 8) e else Fine mem
  end.
(** LZ4_wildCopy32 from the input [src/lz4.c:523-531]. *)
Fixpoint wild32_src (fuel : nat) (mem : bytes) (d s e : nat) : lz bytes :=
  match fuel with
  | O => Stray
  | S f => mem <- from_src mem d s 16; mem <- from_src mem (d + 16) (s + 16) 16;
           if d + 32 <? e then wild32_src f mem (d + 32) (s + 32) e else Fine mem
  end.
(** A byte of the input [src/lz4.c:2089, 2219]. *)
Definition byte_at (ip : nat) : lz nat := match nth_error src ip with Some b => Fine (N.to_nat b) | None => Stray end.
(** LZ4_readLE16 [src/lz4.c:430-438]. *)
Definition offset_at (ip : nat) : lz nat := a <- byte_at ip; b <- byte_at (S ip); Fine (a + 256 * b).
(** The loop of read_variable_length [src/lz4.c:1990-2016]; the limit is [back] bytes before the end of the input. Nothing
    is rvl_error. [fuel] for the loop. *)
Fixpoint rvl_loop (fuel ip back acc : nat) : lz (option (nat * nat)) :=
  match fuel with
  | O => Stray
  | S f =>
      s <- byte_at ip;
      if length src <? S ip + back then Fine None
      else if s =? 255 then rvl_loop f (S ip) back (acc + s) else Fine (Some (acc + s, S ip))
  end.
(** read_variable_length [src/lz4.c:1980-2016]. *)
Definition rvl (ip back : nat) (check : bool) : lz (option (nat * nat)) :=
  if check && (length src <=? ip + back) then Fine None else rvl_loop (S (length src)) ip back 0.

(** What a round of the loop leads to: an error [src/lz4.c:2444-2445]; the end, with the number of bytes written [2441]; another round of
    the fast loop [2085-2211] or of the safe one [2217-2437]. *)
Inductive dres := DErr | DEnd (mem : bytes) (op : nat) | DGo (fast : bool) (mem : bytes) (ip op : nat).

(** From the label safe_match_copy [src/lz4.c:2356-2436], without dictionary and not partial. *)
Definition match_safe (mem : bytes) (ip op length offset : nat) : lz dres :=
  if op <? offset then Fine DErr
  else
    let cpy := op + length in
    r <- first8 mem op (op - offset) offset;
    let '(mem, m) := r in
    let op8 := op + 8 in
    if osz <? cpy + 12 then
      if osz <? cpy + 5 then Fine DErr
      else if op8 + 7 <? osz then
        let lim := osz - 7 in
        mem <- wild8 (S lim) mem op8 m lim;
        mem <- bytecopy (cpy - lim) mem lim (m + (lim - op8));
        Fine (DGo false mem ip cpy)
      else mem <- bytecopy (cpy - op8) mem op8 m; Fine (DGo false mem ip cpy)
    else
      mem <- memcpy mem op8 m 8;
      if 16 <? length then mem <- wild8 (S cpy) mem (op8 + 8) (m + 8) cpy; Fine (DGo false mem ip cpy)
      else Fine (DGo false mem ip cpy).
(** From the label _copy_match [src/lz4.c:2346-2353]. *)
Definition copy_match (mem : bytes) (ip op length offset : nat) : lz dres :=
  if length =? 15 then
    r <- rvl ip 4 false;
    match r with
    | None => Fine DErr
    | Some (addl, ip) => match_safe mem ip op (length + addl + 4) offset
    end
  else match_safe mem ip op (length + 4) offset.
(** From the label safe_literal_copy [src/lz4.c:2275-2343], not partial. *)
Definition literal_safe (mem : bytes) (ip op token len : nat) : lz dres :=
  let cpy := op + len in
  if (osz <? cpy + 12) || (length src <? ip + len + 8) then
    if negb (ip + len =? length src) || (osz <? cpy) then Fine DErr
    else mem <- from_src mem op ip len; Fine (DEnd mem cpy)
  else
    mem <- wild8_src (S cpy) mem op ip cpy;
    offset <- offset_at (ip + len);
    copy_match mem (ip + len + 2) cpy (token mod 16) offset.
(** Three copies, 18 bytes [src/lz4.c:2156-2158, 2252-2254]. *)
Definition copy18 (mem : bytes) (d s : nat) : lz bytes :=
  mem <- memcpy mem d s 8; mem <- memcpy mem (d + 8) (s + 8) 8; memcpy mem (d + 16) (s + 16) 2.
(** One round of the safe loop [src/lz4.c:2217-2272]. *)
Definition round_safe (mem : bytes) (ip op : nat) : lz dres :=
  token <- byte_at ip;
  let ip := S ip in
  let len := token / 16 in
  if negb (len =? 15) && ((ip + 16 <? length src) && (op + 32 <=? osz)) then
    mem <- from_src mem op ip 16;
    let op := op + len in
    let ip := ip + len in
    offset <- offset_at ip;
    let ip := ip + 2 in
    let ml := token mod 16 in
    if negb (ml =? 15) && ((8 <=? offset) && (offset <=? op)) then
      mem <- copy18 mem op (op - offset); Fine (DGo false mem ip (op + (ml + 4)))
    else copy_match mem ip op ml offset
  else if len =? 15 then
    r <- rvl ip 15 true;
    match r with
    | None => Fine DErr
    | Some (addl, ip) => literal_safe mem ip op token (len + addl)
    end
  else literal_safe mem ip op token len.
(** The match in the fast loop [src/lz4.c:2119-2210], without dictionary. *)
Definition match_fast (mem : bytes) (ip op token : nat) : lz dres :=
  offset <- offset_at ip;
  let ip := ip + 2 in
  let ml := token mod 16 in
  let rest mem ip len :=
    if op <? offset then Fine DErr
    else
      let cpy := op + len in
      mem <- (if offset <? 16 then using_offset mem op (op - offset) cpy offset else wild32 (S cpy) mem op (op - offset) cpy);
      Fine (DGo true mem ip cpy) in
  if ml =? 15 then
    r <- rvl ip 4 false;
    match r with
    | None => Fine DErr
    | Some (addl, ip) =>
        let len := ml + addl + 4 in
        if osz <=? op + len + 64 then match_safe mem ip op len offset else rest mem ip len
    end
  else
    let len := ml + 4 in
    if osz <=? op + len + 64 then match_safe mem ip op len offset
    else if (offset <=? op) && (8 <=? offset) then
      mem <- copy18 mem op (op - offset); Fine (DGo true mem ip (op + len))
    else rest mem ip len.
(** One round of the fast loop [src/lz4.c:2085-2117]. *)
Definition round_fast (mem : bytes) (ip op : nat) : lz dres :=
  token <- byte_at ip;
  let ip := S ip in
  let len := token / 16 in
  if len =? 15 then
    r <- rvl ip 15 true;
    match r with
    | None => Fine DErr
    | Some (addl, ip) =>
        let len := len + addl in
        if (osz <? op + len + 32) || (length src <? ip + len + 32) then literal_safe mem ip op token len
        else mem <- wild32_src (S (op + len)) mem op ip (op + len); match_fast mem (ip + len) (op + len) token
    end
  else if ip + 17 <=? length src then
    mem <- from_src mem op ip 16; match_fast mem (ip + len) (op + len) token
  else literal_safe mem ip op token len.
(** The loops [src/lz4.c:2077-2441]; [fuel] bounds the number of rounds. *)
Fixpoint rounds (fuel : nat) (fast : bool) (mem : bytes) (ip op : nat) : lz (option bytes) :=
  match fuel with
  | O => Stray
  | S f =>
      r <- (if fast then round_fast mem ip op else round_safe mem ip op);
      match r with
      | DErr => Fine None
      | DEnd mem op => Fine (Some (firstn op mem))
      | DGo fast mem ip op => rounds f fast mem ip op
      end
  end.
(** LZ4_decompress_safe [src/lz4.c:2453-2458, 2024-2082]: the bytes written, or nothing for a negative result. [mem] is what the
    output buffer holds before. *)
Definition decompress_safe (mem : bytes) : lz (option bytes) :=
  if osz =? 0 then
    if length src =? 1 then (b <- byte_at 0; Fine (if b =? 0 then Some [] else None)) else Fine None
  else if length src =? 0 then Fine None
  else rounds (S (length src)) (64 <=? osz) mem 0 0.
End Decode.

(** ** The compressor *)
(** LZ4_MAX_INPUT_SIZE [src/lz4.h:214]. *)
Definition MAX_INPUT : N := 0x7E000000.
(** LZ4_compressBound [src/lz4.c:753, src/lz4.h:215]. *)
Definition compress_bound (isize : nat) : nat :=
  if (MAX_INPUT <? N.of_nat isize)%N then 0 else isize + isize / 255 + 16.
(** The length of a run after the token [src/lz4.c:1128-1129, 1322-1323]. *)
Fixpoint run_ext (fuel len : nat) : bytes :=
  match fuel with
  | O => []
  | S f => if 255 <=? len then 255%N :: run_ext f (len - 255) else [N.of_nat len]
  end.
(** The same for the length of a match [src/lz4.c:1217-1225]. *)
Definition match_ext (mc : nat) : bytes :=
  repeat 255%N (4 * (mc / 1020)) ++ repeat 255%N (mc mod 1020 / 255) ++ [N.of_nat (mc mod 1020 mod 255)].

Section Encode.
Variable src : bytes.
(** The size of the buffer for the output [src/lz4.c:1352]. *)
Variable cap : nat.
(** Whether the table is of type byU16 [src/lz4.c:1391-1395]: LZ4_64Klimit is 65547 [712]. *)
Definition small : bool := (N.of_nat (length src) <? 65547)%N.
(** LZ4_hash4 for byU16 [src/lz4.c:779-785]: LZ4_HASHLOG is 12. *)
Definition hash4 (sequence : N) : N := N.shiftr (sequence * 2654435761 mod 2 ^ 32) (32 - 13).
(** LZ4_hash5 [src/lz4.c:787-797]. *)
Definition hash5 (sequence : N) : N := N.shiftr ((sequence * 2 ^ 24 mod 2 ^ 64) * 889523592379 mod 2 ^ 64) (64 - 12).
(** LZ4_hashPosition [src/lz4.c:799-808]. *)
Definition hash_at (p : nat) : lz N :=
  let k := if small then 4 else 8 in
  if p + k <=? length src then
    let x := le_val (firstn k (skipn p src)) in Fine (if small then hash4 x else hash5 x)
  else Stray.
(** The table of positions [src/lz4.c:822-869]. *)
Definition table := N -> nat.
(** LZ4_getIndexOnHash [src/lz4.c:855-869]; the table has LZ4_HASHTABLESIZE bytes [src/lz4.h:695-697]. *)
Definition entry (t : table) (h : N) : lz nat := if (h <? (if small then 2 ^ 13 else 2 ^ 12))%N then Fine (t h) else Stray.
(** LZ4_putIndexOnHash [src/lz4.c:822-832]; an entry has 16 or 32 bits. *)
Definition enter (t : table) (h : N) (idx : nat) : table :=
  let x := N.to_nat (N.of_nat idx mod (if small then 2 ^ 16 else 2 ^ 32)) in fun g => if (g =? h)%N then x else t g.
(** [LZ4_read32(match) == LZ4_read32(ip)] in [src/lz4.c:1098, 1289]. *)
Definition same4 (a b : nat) : lz bool :=
  if (a + 4 <=? length src) && (b + 4 <=? length src) then Fine (beq (firstn 4 (skipn a src)) (firstn 4 (skipn b src))) else Stray.
(** [matchIndex+LZ4_DISTANCE_MAX < current] in [src/lz4.c:1092-1093, 1288], which is not asked for byU16. *)
Definition too_far (index current : nat) : bool := negb small && (N.of_nat index + 65535 <? N.of_nat current)%N.

(** Where the search for a match ends: at the label _last_literals [src/lz4.c:1057], or with a match [1100]. *)
Inductive sres := SLast | SFound (ip m : nat) (t : table).
(** The search [src/lz4.c:1044-1103]. mflimitPlusOne is 11 bytes before the end. [fuel] for the loop. *)
Fixpoint search (fuel : nat) (fwd : nat) (fh : N) (step nb : nat) (t : table) : lz sres :=
  match fuel with
  | O => Stray
  | S f =>
      m <- entry t fh;
      let ip := fwd in
      let fwd := fwd + step in
      let step := nb / 64 in
      if length src <? fwd + 11 then Fine SLast
      else
        fh' <- hash_at fwd;
        let t := enter t fh ip in
        if too_far m ip then search f fwd fh' step (S nb) t
        else eq <- same4 m ip;
             if eq then Fine (SFound ip m t) else search f fwd fh' step (S nb) t
  end.
(** Catch up [src/lz4.c:1106-1111]: [ip] and [match] go back while the bytes before them agree. *)
Fixpoint catch_up (anchor ip m : nat) : nat * nat :=
  match ip, m with
  | S i, S j => if (anchor <? ip) && (nth i src 0 =? nth j src 0)%N then catch_up anchor i j else (ip, m)
  | _, _ => (ip, m)
  end.
(** LZ4_count [src/lz4.c:681-705]: how many bytes agree, at most [k]. The code compares words; all reads are below the limit. *)
Fixpoint count (k p m : nat) : nat :=
  match k with
  | O => 0
  | S k => if (nth p src 0 =? nth m src 0)%N then S (count k (S p) (S m)) else 0
  end.
(** A write of [k] bytes at [o] in the output [src/lz4.c:1115-1135]: it must be within the buffer. *)
Definition room (o k : nat) : lz unit := if o + k <=? cap then Fine tt else Stray.
(** The length nibble of literals [src/lz4.c:1125-1131, 1320-1327]. *)
Definition run_nibble (len : nat) : nat := if 15 <=? len then 15 else len.
(** The bytes that follow for the length of literals [src/lz4.c:1125-1131, 1320-1327]. *)
Definition run_bytes (len : nat) : bytes := if 15 <=? len then run_ext len (len - 15) else [].
(** Encode literals [src/lz4.c:1113-1135]: the bytes after the token. The wild copy writes up to 7 bytes more and reads as many. *)
Definition put_lits (o anchor ip : nat) : lz bytes :=
  let len := ip - anchor in
  let w := Nat.max 8 (8 * ((len + 7) / 8)) in
  u <- room o (1 + length (run_bytes len) + w);
  if anchor + w <=? length src then Fine (run_bytes len ++ firstn len (skipn anchor src)) else Stray.
(** After matches: the label _last_literals [src/lz4.c:1235], or the next search from [ip] [1300]. *)
Inductive nres := NLast (out : bytes) (anchor : nat) | NSearch (out : bytes) (anchor ip : nat) (fh : N) (t : table).
(** From the label _next_match [src/lz4.c:1140-1300]: encode the match at [ip]; [hi] is the upper half of the token and [body] what follows
    the token so far. The token is written with its final value. matchlimit is 5 bytes before the end. [fuel] for the jumps back. *)
Fixpoint next_match (fuel : nat) (out : bytes) (hi : nat) (body : bytes) (ip m : nat) (t : table) : lz nres :=
  match fuel with
  | O => Stray
  | S f =>
      let o := length out + 1 + length body in
      u <- room o 2;
      let offset := N.of_nat (ip - m) in
      let body := body ++ [offset mod 256; offset / 256 mod 256]%N in
      let mc := count (length src - 5 - (ip + 4)) (ip + 4) (m + 4) in
      let ip := ip + mc + 4 in
      let ext := if 15 <=? mc then match_ext (mc - 15) else [] in
      u <- (if 15 <=? mc then room (o + 2) (4 * ((mc - 15) / 1020) + 4) else Fine tt);
      u <- room (o + 2) (length ext);
      let token := N.of_nat (16 * hi + (if 15 <=? mc then 15 else mc)) in
      let out := out ++ [token] ++ body ++ ext in
      if length src <=? ip + 11 then Fine (NLast out ip)
      else
        h <- hash_at (ip - 2);
        let t := enter t h (ip - 2) in
        h <- hash_at ip;
        m <- entry t h;
        let t := enter t h ip in
        eq <- same4 m ip;
        if negb (too_far m ip) && eq then next_match f out 0 [] ip m t
        else fh <- hash_at (S ip); Fine (NSearch out ip (S ip) fh t)
  end.
(** The last literals [src/lz4.c:1304-1330]. *)
Definition last_lits (out : bytes) (anchor : nat) : lz bytes :=
  let len := length src - anchor in
  u <- room (length out) (1 + length (run_bytes len) + len);
  Fine (out ++ [N.of_nat (16 * run_nibble len)] ++ run_bytes len ++ skipn anchor src).
(** The main loop [src/lz4.c:1015-1302]. *)
Fixpoint main_loop (fuel : nat) (out : bytes) (anchor ip : nat) (fh : N) (t : table) : lz bytes :=
  match fuel with
  | O => Stray
  | S f =>
      r <- search (S (length src)) ip fh 1 64 t;
      match r with
      | SLast => last_lits out anchor
      | SFound ip m t =>
          let '(ip, m) := catch_up anchor ip m in
          body <- put_lits (length out) anchor ip;
          r <- next_match (S (length src)) out (run_nibble (ip - anchor)) body ip m t;
          match r with
          | NLast out anchor => last_lits out anchor
          | NSearch out anchor ip fh t => main_loop f out anchor ip fh t
          end
      end
  end.
(** LZ4_compress_generic_validated, without limit and dictionary [src/lz4.c:932-1338]. LZ4_minLength is 13. *)
Definition compress_validated : lz bytes :=
  if length src <? 13 then last_lits [] 0
  else
    h <- hash_at 0;
    let t := enter (fun _ => 0) h 0 in
    fh <- hash_at 1;
    main_loop (S (length src)) [] 0 1 fh t.
(** LZ4_compress_generic and what calls it [src/lz4.c:1346-1381, 1384-1405, 1455-1477], for a buffer that is large enough: the output,
    nothing if 0 is returned. *)
Definition compress_default : lz bytes :=
  if (MAX_INPUT <? N.of_nat (length src))%N then Fine []
  else if length src =? 0 then (u <- room 0 1; Fine [0%N])
  else compress_validated.
End Encode.

(** LZ4_compress_default as SAVE uses it [src/save.c:59-63]: the buffer has LZ4_compressBound bytes. Data of 4 GB and more, whose length does not fit
    into the arguments of type int, is not modelled. *)
Definition lz4_compress (data : bytes) : bytes :=
  match compress_default data (compress_bound (length data)) with Fine z => z | Stray => [] end.
(** LZ4_decompress_safe as LOAD uses it [src/save.c:259-265]: the output buffer holds [junk] before; the size must be as expected. The sizes are
    of type int. A negative outputSize is an error [src/lz4.c:2038]; with a negative srcSize the pointer to the end is before the input, so that the first
    sequence is taken for the last and its length is wrong [src/lz4.c:2109-2117, 2234, 2268, 2281, 2314]. *)
Definition lz4_decompress (junk : N -> bytes) (z : bytes) (n : N) : option bytes :=
  if (2 ^ 31 <=? n)%N || (2 ^ 31 <=? N.of_nat (length z))%N then None
  else match decompress_safe z (N.to_nat n) (junk n) with
       | Fine (Some x) => if length x =? N.to_nat n then Some x else None
       | _ => None
       end.
