(** The command table (cmds.c, util.c). *)
From Coq Require Import String.
From Verif Require Import Base Text IntText.
Local Open Scope N_scope.

(** [src/cmds.c:2288-2329 cmds], the names. *)
Definition cmd_names : list bytes := List.map bs
  ["set"; "get"; "del"; "mget"; "mgets"; "ttl"; "pttl"; "expire"; "setex"; "dbsize";
   "quit"; "echo"; "exists"; "flushdb"; "flushall"; "flush"; "monitor"; "purge"; "sweep"; "keys";
   "select"; "ping"; "touch"; "debug"; "incrby"; "decrby"; "incr"; "decr"; "uincrby"; "udecrby";
   "uincr"; "udecr"; "append"; "prepend"; "auth"; "save"; "load"; "stats"; "version"; "scan"]%string.

(** [src/util.c:303-309 fnv1a_case]. char is signed: a byte above 127 is
    extended with ones before it is xored in. *)
Definition sext (b : byte) : N := if b <? 128 then b else b + (2 ^ 32 - 256).
(** As above: [src/util.c:303-309 fnv1a_case]. *)
Fixpoint fnv1a_loop (s : bytes) (hash : N) : N :=
  match s with
  | [] => hash
  | b :: r => fnv1a_loop r (u32 (N.lxor hash (sext (tolower b)) * 0x01000193))
  end.
(** As above: [src/util.c:303-309 fnv1a_case]. *)
Definition fnv1a_case (s : bytes) : N := fnv1a_loop s 0x811c9dc5.

(** [src/cmds.c:2331-2362 build_commands_table]: the number of buckets, and the
    insertion of one command (its number in the list above). *)
Fixpoint table_size (fuel n size : nat) : nat :=
  match fuel with O => size | S f => if (size <? n)%nat then table_size f n (size * 2) else size end.
(** As above: [src/cmds.c:2331-2362 build_commands_table]. *)
Definition nbuckets : nat := table_size 64 (List.length cmd_names * 8) 2.
(** As above: [src/cmds.c:2331-2362 build_commands_table]. *)
Fixpoint place (fuel j : nat) (i : nat) (hash : N) (t : list (option nat)) : list (option nat) :=
  match fuel with
  | O => t
  | S f =>
      let k := N.to_nat (N.land (N.of_nat j + hash) (N.of_nat nbuckets - 1)) in
      match nth k t None with
      | None => firstn k t ++ Some i :: skipn (S k) t
      | Some _ => place f (S j) i hash t
      end
  end.
(** As above: [src/cmds.c:2331-2362 build_commands_table]. *)
Fixpoint build (names : list bytes) (i : nat) (t : list (option nat)) : list (option nat) :=
  match names with
  | [] => t
  | nm :: r => build r (S i) (place nbuckets 0 i (fnv1a_case nm) t)
  end.
(** As above: [src/cmds.c:2331-2362 build_commands_table]. *)
Definition table : list (option nat) := build cmd_names 0 (repeat None nbuckets).

(** [src/cmds.c:2364-2377 get_cmd]: there is no wrap-around; reading past the
    end of the buckets is [None]. The result is the number of the command. *)
Fixpoint get_loop (t : list (option nat)) (name : bytes) : option (option nat) :=
  match t with
  | [] => None
  | None :: _ => Some None
  | Some i :: r => if argeq name (nth i cmd_names []) then Some (Some i) else get_loop r name
  end.
(** As above: [src/cmds.c:2364-2377 get_cmd]. *)
Definition get_cmd (name : bytes) : option (option nat) :=
  get_loop (skipn (N.to_nat (N.land (fnv1a_case name) (N.of_nat nbuckets - 1))) table) name.

(** *** Specification *)
(** The letters of a name as lower-case letters. For the statements, no counterpart in the code. *)
Definition lower (s : bytes) : bytes := List.map tolower s.

(** ** Handing out the shards to threads *)

(** [src/cmds.c:695-728 flushfast], [1113-1154 sweepfast], [src/save.c:163-190]:
    the (start, count) of each worker. *)
Fixpoint ranges_loop (left i nprocs nshards start : nat) : list (nat * nat) :=
  match left with
  | O => []
  | S l =>
      let count := if (i =? nprocs - 1)%nat then (nshards - start)%nat else (nshards / nprocs)%nat in
      (start, count) :: ranges_loop l (S i) nprocs nshards (start + count)
  end.
(** As above: [src/save.c:163-190]. *)
Definition ranges (procs nshards : nat) : list (nat * nat) :=
  let nprocs := if (nshards <? procs)%nat then nshards else procs in
  ranges_loop nprocs 0 nprocs nshards 0.
