(** Integers as text (util.c). *)
From Verif Require Import Base.
Local Open Scope N_scope.

(** ASCII. [src/util.c:270-346] *)
Definition is_digit (b : byte) : bool := (48 <=? b) && (b <=? 57).
(** isspace() of the C locale. strtoll in [src/util.c:311-346], [src/postgres.c:514, 619] *)
Definition is_space (b : byte) : bool := (b =? 32) || ((9 <=? b) && (b <=? 13)).

(** [src/util.c:270-288 u64toa]: the digits from the lowest, then reversed (the
    swapping loop is [rev]). [fuel]: 20 digits are enough for 64 bits. The
    terminating zero byte is not part of the result. *)
Fixpoint u64toa_loop (fuel : nat) (x : N) (acc : bytes) : bytes :=
  match fuel with
  | O => acc
  | S f => let acc := acc ++ [48 + x mod 10] in
      if 0 <? x / 10 then u64toa_loop f (x / 10) acc else acc
  end.
(** As above: [src/util.c:270-288 u64toa]. *)
Definition u64toa (x : N) : bytes :=
  if x <? 10 then [48 + x] else rev (u64toa_loop 20 x []).

(** [src/util.c:290-301 i64toa] *)
Definition i64toa (x : Z) : bytes :=
  if (x <? 0)%Z then
    if (x =? INT64_MIN)%Z then [45; 57;50;50;51;51;55;50;48;51;54;56;53;52;55;55;53;56;48;56]
    else 45 :: u64toa (Z.to_N (- x))
  else u64toa (Z.to_N x).

(** The C library's strtoll and strtoull with base 10 (glibc, musl): white
    space, a sign, digits. Result: the sign, the digits' value and the number of
    bytes read; nothing is read when there are no digits. Called in [src/util.c:311-346]. *)
Fixpoint skip_spaces (s : bytes) : nat :=
  match s with b :: r => if is_space b then S (skip_spaces r) else O | [] => O end.
(** Part of strtoll, called in [src/util.c:311-346]. *)
Fixpoint scan_digits (s : bytes) (acc : N) : N * nat :=
  match s with
  | b :: r => if is_digit b then let '(v, n) := scan_digits r (10 * acc + (b - 48)) in (v, S n) else (acc, O)
  | [] => (acc, O)
  end.
(** strtoll and strtoull, called in [src/util.c:311-346]. *)
Definition strto (s : bytes) : bool * N * nat :=
  let k := skip_spaces s in
  let r := skipn k s in
  let '(neg, j) := match r with
    | 45 :: _ => (true, 1%nat)
    | 43 :: _ => (false, 1%nat)
    | _ => (false, O)
    end in
  let '(v, n) := scan_digits (skipn j r) 0 in
  match n with O => (false, 0, O) | _ => (neg, v, (k + j + n)%nat) end.

(** [src/util.c:311-322 parse_i64]; errno is ERANGE when the value does not
    fit. *)
Definition parse_i64 (s : bytes) : option Z :=
  if (21 <? length s)%nat then None
  else
    let '(neg, v, n) := strto s in
    let z := if neg : bool then (- Z.of_N v)%Z else Z.of_N v in
    if ((INT64_MIN <=? z) && (z <=? INT64_MAX))%Z && (n =? length s)%nat then Some z else None.

(** [src/util.c:324-338 parse_u64]; strtoull accepts a minus sign and negates. *)
Definition parse_u64 (s : bytes) : option N :=
  if (21 <? length s)%nat then None
  else match s with
    | 45 :: _ => None
    | _ =>
        let '(neg, v, n) := strto s in
        if (v <? 2 ^ 64) && (n =? length s)%nat
        then Some (if neg : bool then u64 (2 ^ 64 - v) else v) else None
    end.

(** [src/util.c:24-34 argeq_bytes], the loop; tolower of the C locale. *)
Definition tolower (b : byte) : byte := if (65 <=? b) && (b <=? 90) then b + 32 else b.
(** As above: [src/util.c:24-34 argeq_bytes]. *)
Fixpoint argeq (s cstr : bytes) : bool :=
  match s, cstr with
  | [], [] => true
  | b :: s', x :: c' => (tolower b =? x) && argeq s' c'
  | _, _ => false
  end.

(** *** Specification *)
(** The number a list of digits denotes. For the statements, no counterpart in the code. *)
Fixpoint decimal (ds : bytes) : N :=
  match ds with
  | [] => 0
  | d :: r => (d - 48) * 10 ^ N.of_nat (length r) + decimal r
  end.
(** For the statements, no counterpart in the code. *)
Definition digits (ds : bytes) : Prop := ds <> [] /\ Forall (fun d => is_digit d = true) ds.
(** The canonical decimal form: no superfluous zeros. For the statements, no counterpart in the code. *)
Definition canonical (ds : bytes) (x : N) : Prop :=
  digits ds /\ decimal ds = x /\ (hd 0 ds = 48 -> ds = [48]).
(** White space, an optional sign, digits. For the statements, no counterpart in the code. *)
Definition reads (s : bytes) (neg : bool) (x : N) : Prop :=
  exists sp sg ds, s = sp ++ sg ++ ds /\ Forall (fun b => is_space b = true) sp /\
    (if neg then sg = [45] else sg = [] \/ sg = [43]) /\ digits ds /\ decimal ds = x.
