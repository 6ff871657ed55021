(** Variable length integers: util.c and the private copy in pogocache.c. *)
From Verif Require Import Base.
Local Open Scope N_scope.

(** [src/util.c:75-88 varint_write_u64] and [src/pogocache.c:254-267]. The C
    loop runs at most ten times for a 64-bit argument; the fuel argument counts
    iterations and [varint_write_u64] passes ten, which the proofs show to be
    enough. The special case [x < 128] is the loop's exit test here. *)
Fixpoint varint_write_loop (fuel : nat) (x : N) : bytes :=
  match fuel with
  | O => [u8 x]
  | S f =>
      if x <? 128 then [u8 x]
      else N.lor (u8 x) 128 :: varint_write_loop f (N.shiftr x 7)
  end.
(** As above: [src/pogocache.c:254-267]. *)
Definition varint_write_u64 (x : N) : bytes := varint_write_loop 10 x.

(** [src/util.c:90-108 varint_read_u64]: [VMore] is the return value 0 (not
    enough bytes), [VBad] the return value -1 (ten bytes without an end),
    [VOk n x] the return value n with *x = x. [data] is the buffer of length
    len; the list being exhausted is the loop test [i < len].
    Simplification: the special case for a first byte below 128 is not
    repeated, the loop computes the same. *)
Inductive vres := VMore | VBad | VOk (n : nat) (x : N).
(** As above: [src/util.c:90-108 varint_read_u64]. *)
Fixpoint varint_read_loop (data : bytes) (i : nat) (x : N) : vres :=
  if (i =? 10)%nat then VBad else
  match data with
  | [] => VMore
  | b :: rest =>
      let x' := N.lor x (u64 (N.shiftl (N.land b 127) (7 * N.of_nat i))) in
      if b <? 128 then VOk (S i) x' else varint_read_loop rest (S i) x'
  end.
(** As above: [src/util.c:90-108 varint_read_u64]. *)
Definition varint_read_u64 (data : bytes) : vres := varint_read_loop data 0 0.

(** [src/util.c:110-114 varint_write_i64] zigzag. [~ux] is the 64-bit
    complement. *)
Definition zigzag (x : Z) : N :=
  let ux := u64 (N.shiftl (u64_of_i64 x) 1) in
  if (x <? 0)%Z then 2 ^ 64 - 1 - ux else ux.
(** As above: [src/util.c:110-114 varint_write_i64]. *)
Definition varint_write_i64 (x : Z) : bytes := varint_write_u64 (zigzag x).

(** [src/util.c:116-122 varint_read_i64] *)
Definition unzigzag (ux : N) : Z :=
  let x := i64_of_u64 (N.shiftr ux 1) in
  if N.land ux 1 =? 1 then (- x - 1)%Z else x.
(** As above: [src/util.c:116-122 varint_read_i64]. *)
Inductive vires := IMore | IBad | IOk (n : nat) (x : Z).
(** As above: [src/util.c:116-122 varint_read_i64]. *)
Definition varint_read_i64 (data : bytes) : vires :=
  match varint_read_u64 data with
  | VMore => IMore
  | VBad => IBad
  | VOk n x => IOk n (unzigzag x)
  end.

(** [src/pogocache.c:269-286 varint_read_u64]: reads without a length. [None]
    models reading past the allocation, or shifting by 64 or more (undefined
    behaviour in C). *)
Fixpoint varint_read_nolen_loop (data : bytes) (i : nat) (x : N)
  : option (nat * N) :=
  match data with
  | [] => None
  | b :: rest =>
      if (10 <=? i)%nat then None else
      let x' := N.lor x (u64 (N.shiftl (N.land b 127) (7 * N.of_nat i))) in
      if b <? 128 then Some (S i, x') else varint_read_nolen_loop rest (S i) x'
  end.
(** As above: [src/pogocache.c:269-286 varint_read_u64]. *)
Definition varint_read_nolen (data : bytes) : option (nat * N) :=
  varint_read_nolen_loop data 0 0.
