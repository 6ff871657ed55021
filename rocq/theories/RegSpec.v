(** The vocabulary of C80: what each command does to one key, as if the server were nothing but a table of registers. *)
From Verif Require Import Base Types Clamp Shard Cache Text IntText CmdTable Prog CmdSpec CmdSpec2 CmdSpec3 Cmds Conn ConnSpec Server ServerSpec FrameSpec.
From Coq Require Import String.
Local Open Scope N_scope.
Notation length := List.length.
Notation map := List.map.

(** A register: the value, end of life, flags and token that stand under a key. *)
Notation reg := (option Types.view).
(** What it shows at the time [now]. *)
Definition shows (s : reg) (now : Z) : reg :=
  match s with Some v => if ((v_exp v =? 0) || (now <? v_exp v))%Z then s else None | None => None end.
(** The command complains. *)
Definition complaint (w : wr) : Prop := w = WRaw (bs "CLIENT_ERROR invalid numeric delta argument" ++ crlf) \/ exists msg, w = WError msg.
(** The names under which a counter is changed by one and by a number: [u] unsigned, [d] down. *)
Definition one_name (u d : bool) : string := match u, d with false, false => "incr" | false, true => "decr" | true, false => "uincr" | true, true => "udecr" end.
Definition by_name (u d : bool) : string := match u, d with false, false => "incrby" | false, true => "decrby" | true, false => "uincrby" | true, true => "udecrby" end.
Definition signed (d : bool) (z : Z) : Z := if d then (- z)%Z else z.
(** The command is not well formed. *)
Inductive malformed (pr : proto) : list bytes -> Prop :=
| bad_set : forall a0 rest, word a0 "set" -> (forall key val r os, rest = key :: val :: r -> spelled r os -> ~ valid pr os) -> malformed pr (a0 :: rest)
| bad_setex : forall a0 rest, word a0 "setex" -> (forall key ex val z, rest = [key; ex; val] -> int_text ex z -> (z <= 0)%Z) -> malformed pr (a0 :: rest)
| bad_one : forall a0 u d rest, word a0 (one_name u d) -> length rest <> 1%nat -> malformed pr (a0 :: rest)
| bad_by : forall a0 u d rest, word a0 (by_name u d) -> (forall key dl z, rest = [key; dl] -> ~ number u dl z) -> malformed pr (a0 :: rest)
| bad_append : forall a0 rest, word a0 "append" \/ word a0 "prepend" -> length rest <> 2%nat -> malformed pr (a0 :: rest)
| bad_expire : forall a0 rest, word a0 "expire" -> (forall key secs more z, rest = key :: secs :: more -> ~ int_text secs z) -> malformed pr (a0 :: rest).
(** A counter is changed by [d]: [name] is what a Postgres client is told. *)
Inductive counts (u : bool) (name : string) (d : Z) (pr : proto) : reg -> list wr -> reg -> Prop :=
| cn_missing : pr = MEMCACHE -> counts u name d pr None [WRaw (bs "NOT_FOUND" ++ crlf)] None
| cn_text : forall v, (forall x, ~ number u (v_val v) x) -> counts u name d pr (Some v)
    [match pr with
     | MEMCACHE => WRaw (bs "CLIENT_ERROR cannot increment or decrement non-numeric value" ++ crlf)
     | _ => WError (bs "ERR value is not an integer or out of range")
     end] (Some v)
| cn_over : forall old x, pr <> MEMCACHE -> counter u old x -> ~ in_range u (x + d) ->
    counts u name d pr old [WError (bs "ERR increment or decrement would overflow")] old
| cn_ok : forall old x s tok, counter u old x -> (pr = MEMCACHE -> old <> None) -> (pr <> MEMCACHE -> in_range u (x + d)) ->
    decimal_text s (wrapped u (x + d)) ->
    counts u name d pr old (number_reply pr (bs name) u (wrapped u (x + d)) s)
      (Some match old with Some v => mkView s (v_exp v) (v_flags v) tok | None => mkView s 0 0 tok end).
(** [acts usecas pr orc key args old reply new]: a command that comes in protocol [pr] when the clock shows [in_now (orc 0)], and finds [old] under
    [key], replies [reply] and leaves [new]. *)
Inductive acts (usecas : bool) (pr : proto) (orc : nat -> input) (key : bytes) : list bytes -> reg -> list wr -> reg -> Prop :=
| act_get : forall a0 old dec, word a0 "get" -> prints dec -> acts usecas pr orc key [a0; key] old (get_reply dec pr key old) old
| act_ttl : forall a0 (p : bool) old digits, word a0 (if p then "pttl" else "ttl") ->
    (forall v, old = Some v -> decimal_text digits (left_over p (in_now (orc O)) v)) ->
    acts usecas pr orc key [a0; key] old (ttl_reply pr p (in_now (orc O)) old digits) old
| act_malformed : forall a0 rest old w, malformed pr (a0 :: key :: rest) -> complaint w -> acts usecas pr orc key (a0 :: key :: rest) old [w] old
| act_set : forall a0 val rest os old e tok reply, word a0 "set" -> spelled rest os -> valid pr os -> ~ CmdSpec.refused usecas os old ->
    new_expiry pr orc (in_now (orc O)) os old e ->
    (In Get os -> reply = value_reply pr "SET" old) -> (~ In Get os -> reply = stored_reply pr "SET") ->
    acts usecas pr orc key (a0 :: key :: val :: rest) old reply (Some (mkView val e (match last_flags os with Some x => x mod 2 ^ 32 | None => 0 end) tok))
| act_set_refused : forall a0 val rest os old reply, word a0 "set" -> spelled rest os -> valid pr os -> CmdSpec.refused usecas os old ->
    (In Get os -> reply = value_reply pr "SET" None) -> (~ In Get os -> reply = refused_reply pr "SET" old) ->
    acts usecas pr orc key (a0 :: key :: val :: rest) old reply old
| act_setex : forall a0 ex z val old tok, word a0 "setex" -> int_text ex z -> (0 < z)%Z ->
    acts usecas pr orc key [a0; key; ex; val] old (stored_reply pr "SETEX") (Some (mkView val (Z.min INT64_MAX (in_now (orc 1%nat) + z * 1000000000)) 0 tok))
| act_one : forall a0 u d old reply new, word a0 (one_name u d) -> counts u (if d then "DECR" else "INCR") (signed d 1) pr old reply new ->
    acts usecas pr orc key [a0; key] old reply new
| act_by : forall a0 u d dl z old reply new, word a0 (by_name u d) -> number u dl z -> counts u (if d then "DECRBY" else "INCRBY") (signed d z) pr old reply new ->
    acts usecas pr orc key [a0; key; dl] old reply new
| act_append_new : forall a0 (p : bool) val tok digits, word a0 (if p then "prepend" else "append") -> pr <> MEMCACHE -> canonical digits (N.of_nat (length val)) ->
    acts usecas pr orc key [a0; key; val] None (length_reply pr p (length val) digits) (Some (mkView val 0 0 tok))
| act_append_missing : forall a0 (p : bool) val, word a0 (if p then "prepend" else "append") -> pr = MEMCACHE ->
    acts usecas pr orc key [a0; key; val] None [WRaw (bs "NOT_STORED" ++ crlf)] None
| act_append_big : forall a0 (p : bool) val v, word a0 (if p then "prepend" else "append") -> max_value < N.of_nat (length (v_val v) + length val) ->
    acts usecas pr orc key [a0; key; val] (Some v) [WError (bs "ERR value too large")] (Some v)
| act_append : forall a0 (p : bool) val v tok digits, word a0 (if p then "prepend" else "append") -> N.of_nat (length (v_val v) + length val) <= max_value ->
    canonical digits (N.of_nat (length (v_val v) + length val)) ->
    acts usecas pr orc key [a0; key; val] (Some v) (length_reply pr p (length (v_val v) + length val) digits)
      (Some (mkView (if p then val ++ v_val v else v_val v ++ val) (v_exp v) (v_flags v) tok))
| act_expire : forall a0 secs z more v tok, word a0 "expire" -> int_text secs z ->
    let e := (in_now (orc O) + z * 1000000000)%Z in
    acts usecas pr orc key (a0 :: key :: secs :: more) (Some v) (expire_reply pr true) (Some (mkView (v_val v) (if (0 <? e)%Z then Z.min INT64_MAX e else 0) (v_flags v) tok))
| act_expire_missing : forall a0 secs z more, word a0 "expire" -> int_text secs z ->
    acts usecas pr orc key (a0 :: key :: secs :: more) None (expire_reply pr false) None
| act_del : forall a0 keys old reply dec, word a0 "del" -> In key keys -> prints dec ->
    (keys = [key] -> reply = del_reply dec pr (match old with Some _ => 1 | None => 0 end)) ->
    acts usecas pr orc key (a0 :: keys) old reply None
| act_flush : forall a0 rest os name old, flush_named a0 name -> flush_spelled rest os -> in_background os = false ->
    acts usecas pr orc key (a0 :: rest) old (flush_reply pr name "SYNC") None
| act_flush_busy : forall a0 rest os name old, flush_named a0 name -> flush_spelled rest os -> in_background os = false ->
    acts usecas pr orc key (a0 :: rest) old no_worker old
| act_flush_malformed : forall a0 rest name old w, flush_named a0 name -> (forall os, ~ flush_spelled rest os) -> complaint w ->
    acts usecas pr orc key (a0 :: rest) old [w] old.
(** GET, TTL and PTTL: they change nothing, but what they reply is said above. *)
Definition asks (args : list bytes) (key : bytes) : Prop := exists a0, args = [a0; key] /\ (word a0 "get" \/ word a0 "ttl" \/ word a0 "pttl").
(** One command of the log, the [i]th, and what it does to the register of [key]. A client that has not given the password is refused. FLUSH ASYNC does
    nothing now; the thread that it leaves empties the cache some time after, which is no command of the log (C51, C75). LOAD and DEBUG may leave anything. *)
Inductive turn (usecas : bool) (cf : config) (orc : nat -> nat -> input) (key : bytes) (i : nat) (e : deed) (args : list bytes) (es : list eff) : reg -> reg -> Prop :=
| turn_refused : forall s, cf_useauth cf = true -> e_auth e = false -> d_proto (e_did e) <> HTTP -> turn usecas cf orc key i e args es s s
| turn_other : forall s, ~ writes args key -> ~ asks args key -> turn usecas cf orc key i e args es s s
| turn_acts : forall s reply s', cf_useauth cf = false \/ e_auth e = true \/ d_proto (e_did e) = HTTP ->
    acts usecas (d_proto (e_did e)) (orc i) key args (shows s (in_now (orc i O))) reply s' -> es = map Out reply ->
    turn usecas cf orc key i e args es s s'
| turn_later : forall s a0 rest os name, args = a0 :: rest -> flush_named a0 name -> flush_spelled rest os -> in_background os = true -> turn usecas cf orc key i e args es s s
| turn_any : forall s s', word (hd [] args) "load" \/ word (hd [] args) "debug" -> turn usecas cf orc key i e args es s s'.
(** The log from command number [i] on: the register goes from [s] to [s']. *)
Inductive plays (usecas : bool) (cf : config) (orc : nat -> nat -> input) (key : bytes) : nat -> reg -> list deed -> nat -> reg -> Prop :=
| plays_end : forall i s, plays usecas cf orc key i s [] i s
| plays_reply : forall i s e l i' s', snd (d_what (e_did e)) = None -> plays usecas cf orc key i s l i' s' -> plays usecas cf orc key i s (e :: l) i' s'
| plays_command : forall i s e l i' s' args es s1, snd (d_what (e_did e)) = Some (args, es) -> turn usecas cf orc key i e args es s s1 ->
    plays usecas cf orc key (S i) s1 l i' s' -> plays usecas cf orc key i s (e :: l) i' s'.
