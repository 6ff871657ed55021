(** Growable buffers and lists of arguments (buf.c, args.c): memory is a set of blocks
    that are allocated, written, read and freed. *)
From Verif Require Import Base Varint.
Local Open Scope N_scope.

(** What can go wrong with memory: a block is freed that is free already, memory is freed
    that was never allocated, a free block is used, an access is outside of a block, a
    byte is read that was never written, a loop does not end. For the statements, no counterpart in the code. *)
Inductive fault := FreeTwice | FreeOther | UseFreed | Outside | Unset | Endless.
(** For the statements, no counterpart in the code. *)
Inductive res (A : Type) := Fine (a : A) | Fault (f : fault).
Arguments Fine {A} a. Arguments Fault {A} f.
(** For the statements, no counterpart in the code. *)
Definition rbind {A B : Type} (x : res A) (f : A -> res B) : res B := match x with Fine a => f a | Fault e => Fault e end.
Notation "'do' p <- x ; y" := (rbind x (fun p => y)) (at level 200, p pattern, x at level 100, y at level 200).

(** A pointer: null, the start of a block, or memory that belongs to someone else (the
    packet, a string constant), of which the bytes from there on are given. Pointers in [src/buf.c] and [src/args.c]. *)
Inductive ptr := PNull | PBlock (id : nat) | POther (s : bytes).
(** Blocks by number; a byte that was not written is [None]. Numbers are not used
    again, so that a pointer to a free block is known as such. The memory of [src/xmalloc.c:146-168]. *)
Record mem := mkMem { m_next : nat; m_block : nat -> option (list (option N)) }.
(** No block. For the statements, no counterpart in the code. *)
Definition mem_new : mem := mkMem 0 (fun _ => None).
(** One block changes. For the statements, no counterpart in the code. *)
Definition set_block (i : nat) (b : option (list (option N))) (m : mem) : mem :=
  mkMem (m_next m) (fun j => if (j =? i)%nat then b else m_block m j).
(** [src/xmalloc.c:146-151 xmalloc]; a lack of memory ends the process [91-96 check_ptr]. *)
Definition xmalloc (size : N) (m : mem) : ptr * mem :=
  (PBlock (m_next m), mkMem (S (m_next m)) (fun j => if (j =? m_next m)%nat then Some (repeat None (N.to_nat size)) else m_block m j)).
(** [src/xmalloc.c:162-168 xfree] *)
Definition xfree (p : ptr) (m : mem) : res mem :=
  match p with
  | PNull => Fine m
  | POther _ => Fault FreeOther
  | PBlock i => match m_block m i with None => Fault FreeTwice | Some _ => Fine (set_block i None m) end
  end.
(** [src/xmalloc.c:153-160 xrealloc]: here the block always moves. *)
Definition xrealloc (p : ptr) (size : N) (m : mem) : res (ptr * mem) :=
  match p with
  | PNull => Fine (xmalloc size m)
  | POther _ => Fault FreeOther
  | PBlock i =>
      match m_block m i with
      | None => Fault FreeTwice
      | Some b =>
          let '(q, m) := xmalloc size m in
          match q with
          | PBlock j => Fine (q, set_block i None (set_block j (Some (firstn (N.to_nat size) (b ++ repeat None (N.to_nat size)))) m))
          | _ => Fine (q, m)
          end
      end
  end.
(** memcpy to an address in a block. Used in [src/buf.c:17-70]. *)
Definition mwrite (p : ptr) (off : N) (s : bytes) (m : mem) : res mem :=
  match p with
  | PBlock i =>
      match m_block m i with
      | None => Fault UseFreed
      | Some b =>
          if off + N.of_nat (length s) <=? N.of_nat (length b) then
            Fine (set_block i (Some (firstn (N.to_nat off) b ++ map Some s ++ skipn (N.to_nat off + length s) b)) m)
          else Fault Outside
      end
  | _ => if (length s =? 0)%nat then Fine m else Fault Outside
  end.
(** The bytes that were written, if all were. For the statements, no counterpart in the code. *)
Fixpoint all_set (b : list (option N)) : option bytes :=
  match b with
  | [] => Some []
  | None :: _ => None
  | Some x :: r => match all_set r with Some s => Some (x :: s) | None => None end
  end.
(** Reading [n] bytes. memcpy from memory, used in [src/buf.c:17-70]. *)
Definition mread (p : ptr) (n : N) (m : mem) : res bytes :=
  if n =? 0 then Fine [] else
  match p with
  | PBlock i =>
      match m_block m i with
      | None => Fault UseFreed
      | Some b => if n <=? N.of_nat (length b) then match all_set (firstn (N.to_nat n) b) with Some s => Fine s | None => Fault Unset end else Fault Outside
      end
  | POther s => if n <=? N.of_nat (length s) then Fine (firstn (N.to_nat n) s) else Fault Outside
  | PNull => Fault Outside
  end.

(** *** Buffers *)
(** [src/buf.h:16-20 struct buf] *)
Record buf := mkBuf { bu_data : ptr; bu_len : N; bu_cap : N }.
(** A buffer of zeros. As above: [src/buf.h:16-20 struct buf]. *)
Definition buf_zero : buf := mkBuf PNull 0 0.
(** The loop of [src/buf.c:27-29]; sizes wrap at 2^64, 64 doublings are enough below. *)
Fixpoint grow_cap (fuel : nat) (need cap : N) : res N :=
  match fuel with
  | O => Fault Endless
  | S f => if cap <? need then grow_cap f need (u64 (cap * 2)) else Fine cap
  end.
(** [src/buf.c:17-33 buf_ensure] *)
Definition buf_ensure (b : buf) (n : N) (m : mem) : res (buf * mem) :=
  if bu_cap b <? u64 (bu_len b + n) then
    let data := if bu_cap b =? 0 then PNull else bu_data b in
    do cap <- grow_cap 65 (u64 (bu_len b + n)) (if bu_cap b =? 0 then 16 else u64 (bu_cap b * 2));
    do (p, m) <- xrealloc data cap m;
    Fine (mkBuf p (bu_len b) cap, m)
  else Fine (b, m).
(** [src/buf.c:35-41 buf_append]; [s] are the bytes at [data]. *)
Definition buf_append (b : buf) (s : bytes) (m : mem) : res (buf * mem) :=
  match s with
  | [] => Fine (b, m)
  | _ :: _ =>
      do (b, m) <- buf_ensure b (N.of_nat (length s)) m;
      do m <- mwrite (bu_data b) (bu_len b) s m;
      Fine (mkBuf (bu_data b) (u64 (bu_len b + N.of_nat (length s))) (bu_cap b), m)
  end.
(** [src/buf.c:43-49 buf_append_byte] *)
Definition buf_append_byte (b : buf) (x : N) (m : mem) : res (buf * mem) :=
  if bu_len b <? bu_cap b then
    do m <- mwrite (bu_data b) (bu_len b) [x] m;
    Fine (mkBuf (bu_data b) (bu_len b + 1) (bu_cap b), m)
  else buf_append b [x] m.
(** [src/buf.c:51-58 buf_clear] *)
Definition buf_clear (b : buf) (m : mem) : res (buf * mem) :=
  do m <- (if bu_cap b =? 0 then Fine m else xfree (bu_data b) m);
  Fine (buf_zero, m).
(** [src/buf.c:60-64 buf_append_uvarint] and, with the other encoding, [66-70
    buf_append_varint]: the bytes of the number are written after room for ten was made. *)
Definition buf_append_short (b : buf) (s : bytes) (m : mem) : res (buf * mem) :=
  do (b, m) <- buf_ensure b 10 m;
  do m <- mwrite (bu_data b) (bu_len b) s m;
  Fine (mkBuf (bu_data b) (u64 (bu_len b + N.of_nat (length s))) (bu_cap b), m).
(** [src/buf.c:60-64 buf_append_uvarint] *)
Definition buf_append_uvarint (b : buf) (x : N) (m : mem) : res (buf * mem) := buf_append_short b (varint_write_u64 x) m.
(** [src/buf.c:66-70 buf_append_varint] *)
Definition buf_append_varint (b : buf) (x : Z) (m : mem) : res (buf * mem) := buf_append_short b (varint_write_i64 x) m.
(** The bytes of a buffer. For the statements, no counterpart in the code. *)
Definition buf_text (b : buf) (m : mem) : res bytes := mread (bu_data b) (bu_len b) m.

(** *** Lists of arguments *)
(** [src/args.h:17-22 struct args]: the array has [cap] slots, of which the first [ar_len]
    are used; the others keep what they held. The array is not a block here. *)
Record args := mkArgs { ar_zero : bool; ar_bufs : list buf; ar_len : nat }.
(** Memory of zeros. As above: [src/args.h:17-22 struct args]. *)
Definition args_new : args := mkArgs false [] 0.
(** The slot [i] is assigned. [src/args.c:46-72 args_append] *)
Fixpoint put (i : nat) (b : buf) (l : list buf) : list buf :=
  match l, i with
  | [], _ => []
  | _ :: r, O => b :: r
  | x :: r, S j => x :: put j b r
  end.
(** [src/args.c:52-57]: the array grows by zeros. *)
Definition args_grow (a : args) : args :=
  if (ar_len a =? length (ar_bufs a))%nat then
    let cap := match length (ar_bufs a) with O => 4%nat | c => (c * 2)%nat end in
    mkArgs (ar_zero a) (ar_bufs a ++ repeat buf_zero (cap - ar_len a)) (ar_len a)
  else a.
(** [src/args.c:46-72 args_append] with [zerocopy]: the slot points to the bytes [s]. *)
Definition args_borrow (a : args) (s : bytes) (m : mem) : res (args * mem) :=
  let a := args_grow a in
  do (_, m) <- buf_clear (nth (ar_len a) (ar_bufs a) buf_zero) m;
  Fine (mkArgs (if (ar_len a =? 0)%nat then true else ar_zero a)
    (put (ar_len a) (mkBuf (POther s) (N.of_nat (length s)) 0) (ar_bufs a)) (S (ar_len a)), m).
(** [src/args.c:46-72 args_append] without [zerocopy]: the bytes are copied to the slot. *)
Definition args_append (a : args) (s : bytes) (m : mem) : res (args * mem) :=
  let a := args_grow a in
  let b := nth (ar_len a) (ar_bufs a) buf_zero in
  do (b, m) <- buf_append (mkBuf (bu_data b) 0 (bu_cap b)) s m;
  Fine (mkArgs false (put (ar_len a) b (ar_bufs a)) (S (ar_len a)), m).
(** The loop of [src/args.c:76-78]: the first [n] slots are cleared. *)
Fixpoint clear_slots (n : nat) (l : list buf) (m : mem) : res (list buf * mem) :=
  match n, l with
  | S k, b :: r =>
      do (b, m) <- buf_clear b m;
      do (r, m) <- clear_slots k r m;
      Fine (b :: r, m)
  | _, _ => Fine (l, m)
  end.
(** [src/args.c:74-81 args_clear] *)
Definition args_clear (a : args) (m : mem) : res (args * mem) :=
  if ar_zero a then Fine (mkArgs (ar_zero a) (ar_bufs a) 0, m)
  else do (l, m) <- clear_slots (ar_len a) (ar_bufs a) m; Fine (mkArgs (ar_zero a) l 0, m).
(** [src/args.c:83-86 args_free]; the list is not used again, or is zeroed before. *)
Definition args_free (a : args) (m : mem) : res (args * mem) :=
  do (_, m) <- args_clear a m; Fine (args_new, m).
(** [src/args.c:101-109 args_remove_first]: the slots move down; the last used slot
    keeps a copy. *)
Definition args_remove_first (a : args) (m : mem) : res (args * mem) :=
  match ar_len a, ar_bufs a with
  | S n, b :: r =>
      do (_, m) <- buf_clear b m;
      Fine (mkArgs (ar_zero a) (match n with O => buf_zero :: r | S k => firstn n r ++ skipn k r end) n, m)
  | _, _ => Fine (a, m)
  end.
(** [src/postgres.c:1012-1014 parseE]: bytes are added to the last argument. *)
Definition args_join (a : args) (s : bytes) (m : mem) : res (args * mem) :=
  match ar_len a with
  | O => Fault Outside
  | S n => do (b, m) <- buf_append (nth n (ar_bufs a) buf_zero) s m; Fine (mkArgs (ar_zero a) (put n b (ar_bufs a)) (ar_len a), m)
  end.
(** [src/args.c:19-22 args_at] and every use of [args->bufs[i]]: the arguments. *)
Fixpoint texts (l : list buf) (m : mem) : res (list bytes) :=
  match l with
  | [] => Fine []
  | b :: r => do s <- buf_text b m; do t <- texts r m; Fine (s :: t)
  end.
(** All arguments. As above: [src/args.c:19-22 args_at]. *)
Definition args_texts (a : args) (m : mem) : res (list bytes) := texts (firstn (ar_len a) (ar_bufs a)) m.
