(** The vocabulary of the properties of the commands on the whole cache: FLUSHALL,
    SWEEP, PURGE (C51), KEYS, DBSIZE (C52) and SCAN (C53). *)
From Verif Require Import Base Types Clamp Entry Hash Map Shard Spec Cache Refine Reach Observe PropCache PropItems
  Text IntText Glob Prog CmdSpec CmdSpec2.
From Coq Require Import String.
Local Open Scope N_scope.
Notation length := List.length.

(** There are processors to run threads on. *)
Definition manned (orc : nat -> input) : Prop := forall n, (0 < in_procs (orc n))%nat.

(** *** C51 *)
(** No key holds anything. *)
Definition empty (o : opts) (ch : cache) : Prop := forall key, gone o ch key.
(** What had expired at [now] is gone, and nothing else happened. *)
Definition swept (o : opts) (now : Z) (ch ch' : cache) : Prop :=
  all_same o now ch ch' /\
  (forall key, ~ live o ch now key -> gone o ch' key).

(** A program for the background: on any cache it does [job] and writes nothing. *)
Definition does (o : opts) (q : prog) (job : Z -> cache -> cache -> Prop) : Prop :=
  forall orc n ch, reachable (ctx_of o) ch -> fine orc -> manned orc ->
  exists ch' evs, prun (ctx_of o) orc n ch q = Ok (ch', [], evs) /\ reachable (ctx_of o) ch' /\
    job (in_now (orc n)) ch ch'.

(** The options of FLUSHALL. *)
Inductive fopt := FAsync | FSync | FFast | FDelay (seconds : Z).
(** The longest delay: 365 days in seconds. *)
Definition year : Z := 365 * 24 * 60 * 60.
Inductive flush_spelled : list bytes -> list fopt -> Prop :=
| fs_end : flush_spelled [] []
| fs_async : forall w r os, word w "async" -> flush_spelled r os -> flush_spelled (w :: r) (FAsync :: os)
| fs_sync : forall w r os, word w "sync" -> flush_spelled r os -> flush_spelled (w :: r) (FSync :: os)
| fs_fast : forall w r os, word w "fast" -> flush_spelled r os -> flush_spelled (w :: r) (FFast :: os)
| fs_delay : forall w v z r os, word w "delay" -> int_text v z -> (0 <= z <= year)%Z -> flush_spelled r os ->
    flush_spelled (w :: v :: r) (FDelay z :: os).
(** Whether the flush is made in the background: the last word on it counts, and a
    delay says that it is. *)
Definition says (x : fopt) : option bool :=
  match x with FAsync => Some true | FSync => Some false | FFast => None
  | FDelay z => if (0 <? z)%Z then Some true else None end.
Fixpoint background (os : list fopt) : option bool :=
  match os with [] => None | x :: r => match background r with None => says x | b => b end end.
Definition in_background (os : list fopt) : bool := match background os with Some b => b | None => false end.
(** The last delay counts. *)
Fixpoint last_delay (os : list fopt) : option Z :=
  match os with
  | [] => None
  | FDelay z :: r => match last_delay r with None => Some z | d => d end
  | _ :: r => last_delay r
  end.
Definition delay_of (os : list fopt) : Z := match last_delay os with Some z => z | None => 0%Z end.
(** The names of the command, and the tag of its completion. *)
Definition flush_named (a0 : bytes) (name : string) : Prop :=
  (word a0 "flush" /\ name = "FLUSH"%string) \/ (word a0 "flushdb" /\ name = "FLUSHDB"%string) \/
  (word a0 "flushall" /\ name = "FLUSHALL"%string).
Definition flush_reply (pr : proto) (name how : string) : list wr :=
  match pr with
  | MEMCACHE => [WRaw (bs "OK" ++ crlf)]
  | POSTGRES => done_pg name how
  | _ => [WString (bs "OK")]
  end.
Definition sweep_reply (pr : proto) (name how : string) : list wr :=
  match pr with POSTGRES => done_pg name how | _ => [WString (bs "OK")] end.
Definition no_worker : list wr := [WError (bs "ERR failed to do work")].

(** *** C52 *)
(** [pat] is a pattern of which the matcher follows the pattern language (C36). *)
Definition plain_pattern (pat : bytes) : Prop := no_escaped_any pat = true /\ (star_groups pat <= 127)%nat.
Definition keys_reply (dec : N -> bytes) (pr : proto) (keys : list bytes) : list wr :=
  match pr with
  | POSTGRES => [PRowDesc [bs "key"]] ++ List.map (fun k => PRow [k]) keys ++ pg_count dec "KEYS" (N.of_nat (length keys))
  | _ => [WArray (N.of_nat (length keys))] ++ List.map WBulk keys
  end.
(** [key] is in the cache, expired or not. *)
Definition kept (o : opts) (ch : cache) (key : bytes) : Prop := exists t v, sees (ctx_of o) ch key t (Some v).
Definition dbsize_reply (dec : N -> bytes) (pr : proto) (n : N) : list wr :=
  match pr with
  | POSTGRES => [PRowDesc [bs "count"]; PRow [dec n]; PComplete (bs "DBSIZE"); PReady]
  | _ => [WInt (Z.of_N n)]
  end.

(** *** C53 *)
(** The options of SCAN; the last of each kind counts. *)
Inductive sopt := SMatch (pat : bytes) | SCount (n : N) | SType.
Inductive scan_spelled : list bytes -> list sopt -> Prop :=
| sc_end : scan_spelled [] []
| sc_match : forall w v r os, word w "match" -> scan_spelled r os -> scan_spelled (w :: v :: r) (SMatch v :: os)
| sc_count : forall w v n r os, word w "count" -> nat_text v n -> 0 < n < 2 ^ 31 -> scan_spelled r os ->
    scan_spelled (w :: v :: r) (SCount n :: os)
| sc_type : forall w v r os, word w "type" -> word v "string" -> scan_spelled r os ->
    scan_spelled (w :: v :: r) (SType :: os).
Fixpoint scan_pattern (os : list sopt) (otherwise : bytes) : bytes :=
  match os with [] => otherwise | SMatch p :: r => scan_pattern r p | _ :: r => scan_pattern r otherwise end.
Fixpoint scan_count (os : list sopt) (otherwise : N) : N :=
  match os with [] => otherwise | SCount n :: r => scan_count r n | _ :: r => scan_count r otherwise end.
(** All keys and a hundred of them, if nothing is said. *)
Definition asked_pattern (os : list sopt) : bytes := scan_pattern os (bs "*").
Definition asked_count (os : list sopt) : N := scan_count os 100.

Definition scan_reply (dec : N -> bytes) (pr : proto) (keys : list bytes) (next : N) : list wr :=
  match pr with
  | POSTGRES => [PRowDesc [bs "key"; bs "cursor"]] ++ List.map (fun k => PRow [k; dec next]) keys
                ++ pg_count dec "SCAN" (N.of_nat (length keys))
  | _ => [WArray 2; WBulk (dec next); WArray (N.of_nat (length keys))] ++ List.map WBulk keys
  end.

(** A client makes one SCAN call after the other, each with the cursor that the
    one before returned, until 0 is returned. [scan] is the command, call [i] of
    which is made with the inputs [orc i]; [keys] is everything returned. *)
Inductive series (c : ctx) (scan : bytes -> prog) (pr : proto) (dec : N -> bytes) (orc : nat -> nat -> input)
  : nat -> cache -> bytes -> list bytes -> nat -> cache -> Prop :=
| se_last : forall i ch cur keys ch' evs,
    prun c (orc i) 0 ch (scan cur) = Ok (ch', List.map Out (scan_reply dec pr keys 0), evs) ->
    series c scan pr dec orc i ch cur keys i ch'
| se_more : forall i ch cur keys next ch1 evs more last ch', next <> 0 ->
    prun c (orc i) 0 ch (scan cur) = Ok (ch1, List.map Out (scan_reply dec pr keys next), evs) ->
    series c scan pr dec orc (S i) ch1 (dec next) more last ch' ->
    series c scan pr dec orc i ch cur (keys ++ more) last ch'.
