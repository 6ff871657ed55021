(** The vocabulary of C54: what it means that a command ends well, and what that
    needs. *)
From Verif Require Import Base Types Clamp Entry Hash Map Shard Spec Cache Refine Reach Observe PropCache PropItems PropCursor
  Text IntText Prog CmdSpec CmdSpec2 CmdSpec3.
From Coq Require Import String.
Local Open Scope N_scope.
Notation length := List.length.

(** Work left to a thread in the background does no harm whenever it is done: it ends
    without trouble, leaves a cache that can be used further and writes nothing. *)
Definition harmless (o : opts) (q : prog) : Prop :=
  forall orc n ch, reachable (ctx_of o) ch -> fine orc -> manned orc ->
  exists ch' evs, prun (ctx_of o) orc n ch q = Ok (ch', [], evs) /\ reachable (ctx_of o) ch'.
Definition eff_ok (o : opts) (e : eff) : Prop :=
  match e with Forked _ q => harmless o q | Skipped => False | _ => True end.
(** The program ends, without an assertion that fails, an access outside of
    memory, an overflow or a loop without end; the cache can be used further. *)
Definition ends_well (o : opts) (orc : nat -> input) (n : nat) (ch : cache) (p : prog) : Prop :=
  exists ch' es evs, prun (ctx_of o) orc n ch p = Ok (ch', es, evs) /\ reachable (ctx_of o) ch' /\ Forall (eff_ok o) es.

(** The size of the cache: no shard is near the limits of its table (no limit is
    near with at most 253 keys in each shard), and [steps] is a bound on the steps
    of a SCAN that is not too small (a number that C does not have). *)
Record sized (o : opts) (steps : nat) (ch : cache) : Prop := {
  sz_room : forall key, roomy (ctx_of o) (cabs (ctx_of o) ch) key;
  sz_cursor : cursor_fits (ctx_of o) ch;
  sz_steps : exists n, Spec.number (kept o ch) n /\ (n + 1) * (n + 1) <= N.of_nat steps
}.
(** Arguments of a size that C can address. *)
Definition args_fit (args : list bytes) : Prop := Forall (fun a => bytes_ok a /\ N.of_nat (length a) < 2 ^ 61) args.
(** The cursor of C53_cursor_refuted. *)
Definition bad_cursor (o : opts) (args : list bytes) : Prop :=
  exists a0 cur rest x, args = a0 :: cur :: rest /\ word a0 "scan" /\ nat_text cur x /\ N.shiftr x 32 = c_nshards (ctx_of o).
(** The commands whose work is not part of the model of commands. *)
Definition outside (name : bytes) : Prop :=
  word name "monitor" \/ word name "debug" \/ word name "save" \/ word name "load" \/ word name "stats".
