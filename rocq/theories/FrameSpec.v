(** The vocabulary of C76: which keys a command may change. *)
From Verif Require Import Base Types Clamp Shard Cache Observe PropCache Text CmdTable Prog CmdSpec.
From Coq Require Import String.
Local Open Scope N_scope.
Notation length := List.length.

(** The command changes at most the key that comes first. *)
Definition first_key : list bytes := List.map bs
  ["set"; "setex"; "expire"; "append"; "prepend"; "incr"; "decr"; "incrby"; "decrby"; "uincr"; "udecr"; "uincrby"; "udecrby"]%string.
(** The command may change every key. *)
Definition every_key : list bytes := List.map bs ["flushall"; "flushdb"; "flush"; "load"; "debug"]%string.
(** The keys that a command may change. *)
Inductive writes : list bytes -> bytes -> Prop :=
| writes_first : forall name key rest, In (lower name) first_key -> writes (name :: key :: rest) key
| writes_del : forall name keys key, word name "del" -> In key keys -> writes (name :: keys) key
| writes_every : forall name rest key, In (lower name) every_key -> writes (name :: rest) key.
(** The system is not short of memory. *)
Definition ample (orc : nat -> input) : Prop := forall n, in_lowmem (orc n) = false.
(** No clock shows more than [t]. *)
Definition until (orc : nat -> input) (t : Z) : Prop := forall n, (in_now (orc n) <= t)%Z.
