(** The vocabulary of C82: the commands of the server on the table of all keys. *)
From Verif Require Import Base Types Clamp Shard Cache Text IntText CmdTable Prog CmdSpec CmdSpec2 CmdSpec3 Cmds Conn ConnSpec Server ServerSpec FrameSpec RegSpec Glob.
From Coq Require Import String.
Local Open Scope N_scope.
Notation length := List.length.
Notation map := List.map.

(** What stands under every key. *)
Definition table := bytes -> reg.
Definition table_at (T : table) (now : Z) : table := fun key => shows (T key) now.
Definition stands (T : table) (key : bytes) : bool := match T key with Some _ => true | None => false end.
(** [tells pr T args reply]: the reply of a command that asks about several keys, if [T] is what they show. *)
Inductive tells (pr : proto) (T : table) : list bytes -> list wr -> Prop :=
| tell_mget : forall a0 keys dec (gets : bool), word a0 (if gets then "mgets" else "mget") -> prints dec ->
    tells pr T (a0 :: keys) (mget_reply dec pr gets (combine keys (map T keys)))
| tell_exists : forall a0 keys dec, word a0 "exists" -> prints dec -> tells pr T (a0 :: keys) (exists_reply dec pr (N.of_nat (length (filter (stands T) keys))))
| tell_touch : forall a0 keys dec, word a0 "touch" -> prints dec -> tells pr T (a0 :: keys) (touch_reply dec pr (N.of_nat (length (filter (stands T) keys))))
| tell_del : forall a0 keys dec ks, word a0 "del" -> prints dec -> NoDup ks -> (forall k, In k ks <-> In k keys /\ stands T k = true) ->
    tells pr T (a0 :: keys) (del_reply dec pr (N.of_nat (length ks)))
| tell_keys : forall a0 pat dec ks, word a0 "keys" -> prints dec -> (forall k, In k ks <-> stands T k = true /\ lang pat k) ->
    tells pr T [a0; pat] (keys_reply dec pr ks)
| tell_keys_busy : forall a0 pat, word a0 "keys" -> tells pr T [a0; pat] no_worker.
(** The commands of which [tells] says what they reply: KEYS for the patterns of which the matcher follows the pattern language (C36). *)
Definition told (args : list bytes) : Prop := exists a0 key rest, args = a0 :: key :: rest /\
  (word a0 "mget" \/ word a0 "mgets" \/ word a0 "exists" \/ word a0 "touch" \/ word a0 "del" \/ (word a0 "keys" /\ rest = [] /\ plain_pattern key)).
(** The [i]th command of the log takes the table from [T] to [T']: each key by itself goes as [turn] says, as far as anyone can see who looks after the
    command, and commands on several keys tell what all of them show at the same time. *)
Definition moves (usecas : bool) (cf : config) (orc : nat -> nat -> input) (i : nat) (e : deed) (args : list bytes) (es : list eff) (T T' : table) : Prop :=
  (forall key, exists s, turn usecas cf orc key i e args es (T key) s /\
     forall t, (forall a, (in_now (orc i a) <= t)%Z) -> shows s t = shows (T' key) t) /\
  (cf_useauth cf = false \/ e_auth e = true \/ d_proto (e_did e) = HTTP -> told args ->
     exists reply, tells (d_proto (e_did e)) (table_at T (in_now (orc i O))) args reply /\ es = map Out reply).
(** The log from command number [i] on: the table goes from [T] to [T']. *)
Inductive table_plays (usecas : bool) (cf : config) (orc : nat -> nat -> input) : nat -> table -> list deed -> nat -> table -> Prop :=
| tp_end : forall i T, table_plays usecas cf orc i T [] i T
| tp_reply : forall i T e l i' T', snd (d_what (e_did e)) = None -> table_plays usecas cf orc i T l i' T' -> table_plays usecas cf orc i T (e :: l) i' T'
| tp_command : forall i T e l i' T' args es T1, snd (d_what (e_did e)) = Some (args, es) -> moves usecas cf orc i e args es T T1 ->
    table_plays usecas cf orc (S i) T1 l i' T' -> table_plays usecas cf orc i T (e :: l) i' T'.
