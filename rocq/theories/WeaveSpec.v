(** The vocabulary of C83: commands one after the other, and the commands that have one key. *)
From Verif Require Import Base Types Clamp Entry Hash Map Shard Cache Text CmdTable CmdSpec Prog Cmds Weave.
From Coq Require Import String.
Notation length := List.length.
Notation map := List.map.
(** The commands run one after the other, each from its start to its end: the number of each and what it did. *)
Inductive one_after_other (c : ctx) (cf : config) (cs : list cmd) : cache -> list (nat * list eff) -> cache -> Prop :=
| oa_nil : forall ch, one_after_other c cf cs ch [] ch
| oa_next : forall ch t x es evs ch1 l ch2, nth_error cs t = Some x ->
    prun c (cm_orc x) 0 ch (evcommand cf (cm_auth x) (cm_proto x) (cm_args x)) = Ok (ch1, es, evs) ->
    one_after_other c cf cs ch1 l ch2 -> one_after_other c cf cs ch ((t, es) :: l) ch2.
(** Commands on one key, or with no key at all. *)
Definition single_names : list string :=
  ["set"; "get"; "ttl"; "pttl"; "expire"; "setex"; "incr"; "decr"; "incrby"; "decrby"; "uincr"; "udecr"; "uincrby"; "udecrby"; "append"; "prepend"; "echo"; "ping"; "auth"]%string.
(** Commands that may have several keys. *)
Definition many_names : list string := ["del"; "mget"; "mgets"; "exists"; "touch"]%string.
Definition single (args : list bytes) : Prop :=
  (exists a0 rest w, args = a0 :: rest /\ In w single_names /\ word a0 w) \/
  (exists a0 key w, args = [a0; key] /\ In w many_names /\ word a0 w).
(** [j] stands before [i] in the list. *)
Definition before (j i : nat) (l : list nat) : Prop := exists x y z, l = x ++ j :: y ++ i :: z.
(** At some moment the cache is [now]: thread [t], which has begun its command before, takes a step of it then. *)
Definition during (c : ctx) (cf : config) (cs : list cmd) (ch : cache) (sched : list nat) (t : nat) (now : cache) : Prop :=
  exists A B ws, sched = A ++ t :: B /\ In t A /\ weave c A ch (map (starting cf) cs) = Ok (now, ws).
