(** The vocabulary of C55: lists of arguments in use at the same time, as a connection
    and its Postgres session have them (the arguments of the command, the spare
    list, statements, portals), and what their contents should be. *)
From Verif Require Import Base Varint Args.
Local Open Scope N_scope.

(** An argument is its bytes and whether they were copied. *)
Record arg := mkArg { g_copied : bool; g_text : bytes }.
Definition lists := nat -> list arg.
Definition change_list (k : nat) (x : list arg) (l : lists) : lists := fun j => if (j =? k)%nat then x else l j.
(** What the code does with its lists: an argument that points to bytes owned by
    someone else, an argument that is a copy, bytes added to the last argument, a list
    emptied for the next use or for good, two lists swapped, one list
    handed over to another place, the first argument dropped. *)
Inductive aop := OBorrow (k : nat) (s : bytes) | OAppend (k : nat) (s : bytes) | OJoin (k : nat) (s : bytes)
  | OClear (k : nat) | OFree (k : nat) | OSwap (j k : nat) | OMove (j k : nat) | ORemove (k : nat).
(** What should come of it. The sizes are sizes that C can address. Bytes are added
    to copies only; a list is handed over to an empty place; and the first argument is
    dropped only when the last is not a copy (but see C55_remove_refuted), or is the first. *)
Inductive does : lists -> aop -> lists -> Prop :=
| does_borrow : forall l k s, N.of_nat (length s) < 2 ^ 62 -> does l (OBorrow k s) (change_list k (l k ++ [mkArg false s]) l)
| does_append : forall l k s, N.of_nat (length s) < 2 ^ 62 -> does l (OAppend k s) (change_list k (l k ++ [mkArg true s]) l)
| does_join : forall l k s x t, l k = x ++ [mkArg true t] -> N.of_nat (length t + length s) < 2 ^ 62 ->
    does l (OJoin k s) (change_list k (x ++ [mkArg true (t ++ s)]) l)
| does_clear : forall l k, does l (OClear k) (change_list k [] l)
| does_free : forall l k, does l (OFree k) (change_list k [] l)
| does_swap : forall l j k, does l (OSwap j k) (change_list j (l k) (change_list k (l j) l))
| does_move : forall l j k, j <> k -> l k = [] -> does l (OMove j k) (change_list k (l j) (change_list j [] l))
| does_remove : forall l k x r, l k = x :: r -> (forall r' y, r = r' ++ [y] -> g_copied y = false) -> does l (ORemove k) (change_list k r l).
Inductive does_all : lists -> list aop -> lists -> Prop :=
| does_none : forall l, does_all l [] l
| does_next : forall l o l' os l'', does l o l' -> does_all l' os l'' -> does_all l (o :: os) l''.

(** The same with the code. *)
Definition world := nat -> args.
Definition change_args (k : nat) (a : args) (w : world) : world := fun j => if (j =? k)%nat then a else w j.
Definition on (k : nat) (f : args -> mem -> res (args * mem)) (w : world) (m : mem) : res (world * mem) :=
  do (a, m) <- f (w k) m; Fine (change_args k a w, m).
(** A copy of the struct, and zeros in its old place. [src/postgres.c:925-926, 1018-1020] *)
Definition perform (o : aop) (w : world) (m : mem) : res (world * mem) :=
  match o with
  | OBorrow k s => on k (fun a => args_borrow a s) w m
  | OAppend k s => on k (fun a => args_append a s) w m
  | OJoin k s => on k (fun a => args_join a s) w m
  | OClear k => on k args_clear w m
  | OFree k => on k args_free w m
  | OSwap j k => Fine (change_args j (w k) (change_args k (w j) w), m)
  | OMove j k => Fine (change_args k (w j) (change_args j args_new w), m)
  | ORemove k => on k args_remove_first w m
  end.
Fixpoint perform_all (os : list aop) (w : world) (m : mem) : res (world * mem) :=
  match os with [] => Fine (w, m) | o :: r => do (w, m) <- perform o w m; perform_all r w m end.
Definition world_new : world := fun _ => args_new.

(** The memory in use: each block belongs to one argument, which is a copy. *)
Definition belongs (w : world) (i : nat) : Prop :=
  exists k j, (j < ar_len (w k))%nat /\ bu_data (nth j (ar_bufs (w k)) buf_zero) = PBlock i /\ bu_cap (nth j (ar_bufs (w k)) buf_zero) <> 0.

(** Appending to one buffer. *)
Inductive bop := BAppend (s : bytes) | BByte (x : N) | BUvarint (x : N) | BVarint (x : Z) | BClear.
Definition bperform (o : bop) (b : buf) (m : mem) : res (buf * mem) :=
  match o with
  | BAppend s => buf_append b s m
  | BByte x => buf_append_byte b x m
  | BUvarint x => buf_append_uvarint b x m
  | BVarint x => buf_append_varint b x m
  | BClear => buf_clear b m
  end.
Fixpoint bperform_all (os : list bop) (b : buf) (m : mem) : res (buf * mem) :=
  match os with [] => Fine (b, m) | o :: r => do (b, m) <- bperform o b m; bperform_all r b m end.
(** What a buffer should hold. *)
Definition bholds (o : bop) (t : bytes) : bytes :=
  match o with
  | BAppend s => t ++ s
  | BByte x => t ++ [x]
  | BUvarint x => t ++ varint_write_u64 x
  | BVarint x => t ++ varint_write_i64 x
  | BClear => []
  end.
(** The numbers are 64-bit numbers. *)
Definition bvalid (o : bop) : Prop :=
  match o with BUvarint x => x < 2 ^ 64 | BVarint x => i64_ok x | _ => True end.
(** From [t] on, the buffer never comes to a size that C cannot address. *)
Fixpoint bsmall (os : list bop) (t : bytes) : Prop :=
  match os with [] => True | o :: r => bvalid o /\ N.of_nat (length (bholds o t)) + 10 < 2 ^ 62 /\ bsmall r (bholds o t) end.
