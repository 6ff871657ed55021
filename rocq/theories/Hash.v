(** Hash functions and the packed fields of a bucket. *)
From Verif Require Import Base.
Local Open Scope N_scope.

(** uint64_t multiplication in [src/pogocache.c:94-100 th64] *)
Definition mul64 (a b : N) : N := u64 (a * b).
(** uint64_t addition in [src/pogocache.c:94-100 th64] *)
Definition add64 (a b : N) : N := u64 (a + b).
(** x<<k | x>>(64-k) on 64 bits. [src/pogocache.c:94-100 th64] *)
Definition rotl64 (x k : N) : N :=
  N.lor (u64 (N.shiftl x k)) (N.shiftr x (64 - k)).

(** [src/pogocache.c:94-100 th64]. The first loop takes eight bytes at a time,
    the second the rest; [fuel] bounds the number of blocks. *)
Definition th64_r : N := 0x14020a57acced8b7.
(** As above: [src/pogocache.c:94-100 th64]. *)
Fixpoint th64_tail (l : bytes) (h : N) : N :=
  match l with
  | [] => h
  | b :: r => th64_tail r (N.lxor (mul64 h th64_r) b)
  end.
(** As above: [src/pogocache.c:94-100 th64]. *)
Fixpoint th64_blocks (fuel : nat) (l : bytes) (h : N) : N :=
  match fuel with
  | O => th64_tail l h
  | S f =>
      if (8 <=? length l)%nat then
        let x := rotl64 (mul64 (le_val (firstn 8 l)) th64_r) 31 in
        let h := rotl64 (N.lxor (mul64 h th64_r) x) 31 in
        th64_blocks f (skipn 8 l) h
      else th64_tail l h
  end.
(** As above: [src/pogocache.c:94-100 th64]. *)
Definition th64 (l : bytes) (seed : N) : N :=
  let h := th64_blocks (length l) l seed in
  let h := add64 (mul64 h th64_r) (N.of_nat (length l)) in
  let h := N.lxor h (N.shiftr h 31) in
  let h := mul64 h th64_r in
  let h := N.lxor h (N.shiftr h 31) in
  let h := mul64 h th64_r in
  let h := N.lxor h (N.shiftr h 31) in
  mul64 h th64_r.

(** [src/pogocache.c:144-151, src/util.c:168-175 mix13] *)
Definition mix13 (key : N) : N :=
  let key := N.lxor key (N.shiftr key 30) in
  let key := mul64 key 0xbf58476d1ce4e5b9 in
  let key := N.lxor key (N.shiftr key 27) in
  let key := mul64 key 0x94d049bb133111eb in
  N.lxor key (N.shiftr key 31).

(** [src/pogocache.c:763-765 clip_hash], HASHSIZE 3. The argument is a uint32_t,
    so the 64-bit hash is cut to 32 bits first. *)
Definition clip_hash (h : N) : N := N.land (u32 h) 0xFFFFFF.

(** [src/pogocache.c:1243-1245 shard_index] *)
Definition shard_index (nshards h : N) : N := (N.shiftr h 32) mod nshards.

(** [src/pogocache.c:103-122 load_ptr] and [124-141 store_ptr], PTRSIZE 6. *)
Definition store_ptr (p : N) : bytes :=
  [ N.land (N.shiftr p 0) 255; N.land (N.shiftr p 8) 255;
    N.land (N.shiftr p 16) 255; N.land (N.shiftr p 24) 255;
    N.land (N.shiftr p 32) 255; N.land (N.shiftr p 40) 255 ].
(** As above: [src/pogocache.c:103-122 load_ptr]. *)
Definition load_ptr (d : bytes) : N :=
  let g i := nth i d 0 in
  N.lor (N.lor (N.lor (N.lor (N.lor (N.shiftl (g 0%nat) 0) (N.shiftl (g 1%nat) 8))
    (N.shiftl (g 2%nat) 16)) (N.shiftl (g 3%nat) 24)) (N.shiftl (g 4%nat) 32))
    (N.shiftl (g 5%nat) 40).

(** [src/pogocache.c:766-778 write_hash, read_hash] *)
Definition write_hash (h : N) : bytes :=
  [ N.land (N.shiftr h 0) 255; N.land (N.shiftr h 8) 255;
    N.land (N.shiftr h 16) 255 ].
(** As above: [src/pogocache.c:766-778 write_hash, read_hash]. *)
Definition read_hash (d : bytes) : N :=
  let g i := nth i d 0 in
  N.lor (N.lor (N.shiftl (g 0%nat) 0) (N.shiftl (g 1%nat) 8)) (N.shiftl (g 2%nat) 16).
