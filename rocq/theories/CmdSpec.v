(** What the properties of commands (C28-C32, C34) are about: the meaning of a
    command in terms of what look-ups see before and after it, and its reply.
    Nothing here depends on how the commands are implemented. *)
From Verif Require Import Base Types Clamp Hash Map Shard Spec Cache Refine Observe PropCache
  Text IntText CmdTable Prog.
From Coq Require Import String.
Local Open Scope N_scope.
Notation length := List.length.

(** *** The outside world *)
(** The clocks are positive 64-bit numbers of nanoseconds. *)
Definition clock_ok (i : input) : Prop :=
  (0 < in_now i <= INT64_MAX)%Z /\ (0 <= in_unix i <= INT64_MAX)%Z.
(** Memory can be had. *)
Definition mem_ok (i : input) : Prop :=
  forall s, al_entry (en_mem (in_env i) s) = true /\ al_table (en_mem (in_env i) s) = true.
Definition fine (orc : nat -> input) : Prop := forall n, clock_ok (orc n) /\ mem_ok (orc n).
(** The time of day does not jump by more than the time since boot. *)
Definition steady (orc : nat -> input) : Prop :=
  forall a b n, (in_unix (orc a) - in_unix (orc b) < in_now (orc n))%Z.

(** [key] and [val] are byte strings of a size C can address, and the table of
    the key's shard has room (always so with at most 253 keys in the shard). *)
Record fits (o : opts) (ch : cache) (key val : bytes) : Prop := {
  ft_key : bytes_ok key;
  ft_val : bytes_ok val;
  ft_len : N.of_nat (length key) + N.of_nat (length val) < 2 ^ 62;
  ft_room : roomy (ctx_of o) (cabs (ctx_of o) ch) key
}.

(** *** What is in the cache *)
(** [key] holds [v] until it expires. *)
Definition holds (o : opts) (ch : cache) (key : bytes) (v : view) : Prop :=
  forall t, sees (ctx_of o) ch key t (if alive_at (v_exp v) t then Some v else None).
(** [key] holds nothing. *)
Definition gone (o : opts) (ch : cache) (key : bytes) : Prop :=
  forall t, sees (ctx_of o) ch key t None.
(** From time [now] on, [key] shows the same in both caches. *)
Definition same_from (o : opts) (now : Z) (ch ch' : cache) (key : bytes) : Prop :=
  forall t v, (now <= t)%Z -> (sees (ctx_of o) ch key t v <-> sees (ctx_of o) ch' key t v).
(** Keys other than [key] are as before, but in low memory one may be gone. *)
Definition others (o : opts) (lowmem : bool) (ch ch' : cache) (key : bytes) : Prop :=
  (forall k, k <> key -> same_at (ctx_of o) ch ch' k) \/
  (lowmem = true /\ exists victim, victim <> key /\ gone o ch' victim /\
     forall k, k <> key -> k <> victim -> same_at (ctx_of o) ch ch' k).

(** *** Numbers in arguments (C45) *)
Definition int_text (s : bytes) (z : Z) : Prop :=
  (length s <= 21)%nat /\ i64_ok z /\
  ((s = [] /\ z = 0%Z) \/ exists neg x, reads s neg x /\ z = if neg then (- Z.of_N x)%Z else Z.of_N x).
Definition nat_text (s : bytes) (x : N) : Prop :=
  (length s <= 21)%nat /\ hd 0 s <> 45 /\
  ((s = [] /\ x = 0) \/ exists neg v, reads s neg v /\ v < 2 ^ 64 /\ x = if neg then u64 (2 ^ 64 - v) else v).
(** [w] is the word [name], in any case. *)
Definition word (w : bytes) (name : string) : Prop := lower w = bs name.

(** *** SET *)
Inductive unit_of_time := Ex | Px | Exat | Pxat.
Inductive opt :=
| Expire (u : unit_of_time) (z : Z) | Nx | Xx | Get | Keepttl | Flags (x : N) | Cas (x : N).
Definition unit_name (u : unit_of_time) : string :=
  match u with Ex => "ex" | Px => "px" | Exat => "exat" | Pxat => "pxat" end.
(** Which arguments after the value spell which options. *)
Inductive spelled : list bytes -> list opt -> Prop :=
| spell_end : spelled [] []
| spell_expire : forall w v u z r os, word w (unit_name u) -> int_text v z -> spelled r os ->
    spelled (w :: v :: r) (Expire u z :: os)
| spell_nx : forall w r os, word w "nx" -> spelled r os -> spelled (w :: r) (Nx :: os)
| spell_xx : forall w r os, word w "xx" -> spelled r os -> spelled (w :: r) (Xx :: os)
| spell_get : forall w r os, word w "get" -> spelled r os -> spelled (w :: r) (Get :: os)
| spell_keepttl : forall w r os, word w "keepttl" -> spelled r os -> spelled (w :: r) (Keepttl :: os)
| spell_flags : forall w v x r os, word w "flags" -> nat_text v x -> spelled r os ->
    spelled (w :: v :: r) (Flags x :: os)
| spell_cas : forall w v x r os, word w "cas" -> nat_text v x -> spelled r os ->
    spelled (w :: v :: r) (Cas x :: os).
(** Expirations must be positive (memcache allows others), KEEPTTL excludes an
    expiration, NX excludes XX. *)
Definition positive (pr : proto) (os : list opt) : Prop :=
  pr <> MEMCACHE -> forall u z, In (Expire u z) os -> (0 < z)%Z.
Definition valid (pr : proto) (os : list opt) : Prop :=
  positive pr os /\
  (In Keepttl os -> forall u z, ~ In (Expire u z) os) /\
  ~ (In Nx os /\ In Xx os).
(** If an option is given several times, the last one counts. *)
Fixpoint last_expire (os : list opt) : option (unit_of_time * Z) :=
  match os with
  | [] => None
  | Expire u z :: r => match last_expire r with None => Some (u, z) | x => x end
  | _ :: r => last_expire r
  end.
Fixpoint last_flags (os : list opt) : option N :=
  match os with
  | [] => None
  | Flags x :: r => match last_flags r with None => Some x | y => y end
  | _ :: r => last_flags r
  end.
Fixpoint last_cas (os : list opt) : option N :=
  match os with
  | [] => None
  | Cas x :: r => match last_cas r with None => Some x | y => y end
  | _ :: r => last_cas r
  end.
Definition unit_ns (u : unit_of_time) : Z :=
  match u with Ex | Exat => 1000000000 | Px | Pxat => 1000000 end.
(** 30 days in nanoseconds *)
Definition thirty_days : Z := 2592000000000000.
(** The time at which [z] units say an item expires, at boot time [now]. A
    memcache expiration is now if not positive, relative up to thirty days, and
    otherwise a unix time (the unix clock is read twice). *)
Definition expires_at (pr : proto) (orc : nat -> input) (now : Z) (u : unit_of_time) (z e : Z) : Prop :=
  let d := Z.min INT64_MAX (z * unit_ns u) in
  let absolute := match u with Exat | Pxat => true | _ => false end in
  match pr with
  | MEMCACHE =>
      if (z <=? 0)%Z then e = now
      else if absolute then e = d
      else if (d <=? thirty_days)%Z then e = Z.min INT64_MAX (now + d)
      else exists a b, e = if (in_unix (orc a) <? d)%Z
                           then Z.min INT64_MAX (now + (d - in_unix (orc b))) else now
  | _ => e = if absolute then d else Z.min INT64_MAX (now + d)
  end.
(** The expiration of an item stored with options [os] when the key held [old]. *)
Definition new_expiry (pr : proto) (orc : nat -> input) (now : Z) (os : list opt) (old : option view)
  (e : Z) : Prop :=
  match last_expire os with
  | Some (u, z) => expires_at pr orc now u z e
  | None => (In Keepttl os -> e = match old with Some v => v_exp v | None => 0%Z end) /\
            (~ In Keepttl os -> e = 0%Z)
  end.
(** The condition under which SET refuses, when the key holds [old]. *)
Definition refused (usecas : bool) (os : list opt) (old : option view) : Prop :=
  match old, last_cas os with
  | Some v, Some x => usecas = false \/ x <> v_cas v
  | Some v, None => In Nx os
  | None, Some _ => True
  | None, None => In Xx os
  end.
Definition done_pg (name : string) (n : string) : list wr :=
  [PComplete (bs name ++ [32] ++ bs n); PReady].
(** The replies of SET and SETEX without GET when stored and when refused, and
    with GET. *)
Definition stored_reply (pr : proto) (name : string) : list wr :=
  match pr with
  | MEMCACHE => [WRaw (bs "STORED" ++ crlf)]
  | POSTGRES => done_pg name "1"
  | HTTP => [WHttp 200 (bs "OK") (bs "Stored" ++ crlf)]
  | RESP => [WString (bs "OK")]
  end.
Definition refused_reply (pr : proto) (name : string) (old : option view) : list wr :=
  match pr with
  | MEMCACHE => [WRaw match old with Some _ => bs "EXISTS" ++ crlf | None => bs "NOT_FOUND" ++ crlf ++ [0] end]
  | POSTGRES => done_pg name "0"
  | HTTP => [WHttp 404 (bs "Not Found") (bs "Not Found" ++ crlf)]
  | RESP => [WNull]
  end.
Definition value_reply (pr : proto) (name : string) (old : option view) : list wr :=
  match pr, old with
  | POSTGRES, Some v => [PRowDesc [bs "value"]; PRow [v_val v]] ++ done_pg name "1"
  | POSTGRES, None => [PRowDesc [bs "value"]] ++ done_pg name "0"
  | _, Some v => [WBulk (v_val v)]
  | _, None => [WNull]
  end.
Definition out_of_memory : list wr := [WError (bs "ERR out of memory")].
(** SET with options [os] and input [i] at the time of the store takes [ch] to
    [ch'] and replies [reply]; [e] is the expiration. *)
Definition set_done (o : opts) (pr : proto) (name : string) (i : input) (now : Z)
  (key val : bytes) (os : list opt) (e : Z) (ch ch' : cache) (old : option view) (reply : list wr) : Prop :=
  (in_lowmem i && op_noevict o = true ->
     reply = out_of_memory /\ forall k, same_at (ctx_of o) ch ch' k) /\
  (in_lowmem i && op_noevict o = false -> refused (op_usecas o) os old ->
     (In Get os -> reply = value_reply pr name None) /\
     (~ In Get os -> reply = refused_reply pr name old) /\
     same_from o now ch ch' key /\ forall k, k <> key -> same_at (ctx_of o) ch ch' k) /\
  (in_lowmem i && op_noevict o = false -> ~ refused (op_usecas o) os old ->
     (In Get os -> reply = value_reply pr name old) /\
     (~ In Get os -> reply = stored_reply pr name) /\
     (exists tok, holds o ch' key
        (mkView val e (match last_flags os with Some x => x mod 2 ^ 32 | None => 0 end) tok)) /\
     others o (in_lowmem i) ch ch' key).

(** *** Counters *)
(** Nothing changes as far as anybody can see from [now] on. *)
Definition unchanged (o : opts) (now : Z) (ch ch' : cache) (key : bytes) : Prop :=
  same_from o now ch ch' key /\ forall k, k <> key -> same_at (ctx_of o) ch ch' k.
(** A number in text, unsigned or signed. *)
Definition number (uns : bool) (s : bytes) (z : Z) : Prop :=
  if uns then exists x, nat_text s x /\ z = Z.of_N x else int_text s z.
Definition in_range (uns : bool) (z : Z) : Prop :=
  if uns then (0 <= z < 2 ^ 64)%Z else (- 2 ^ 63 <= z < 2 ^ 63)%Z.
(** The number of 64 bits that [z] is congruent to. *)
Definition wrapped (uns : bool) (z : Z) : Z :=
  if uns then (z mod 2 ^ 64)%Z else ((z + 2 ^ 63) mod 2 ^ 64 - 2 ^ 63)%Z.
(** The canonical decimal text of a number. *)
Definition decimal_text (s : bytes) (z : Z) : Prop :=
  if (z <? 0)%Z then exists ds, s = 45 :: ds /\ canonical ds (Z.to_N (- z)) else canonical s (Z.to_N z).
Definition number_reply (pr : proto) (name : bytes) (uns : bool) (y : Z) (s : bytes) : list wr :=
  let num := if uns then WUint (Z.to_N y) else WInt y in
  match pr with
  | POSTGRES => [PRowDesc [bs "value"]; PRow [s]; PComplete name; PReady]
  | MEMCACHE => [num; WRaw crlf]
  | _ => [num]
  end.
(** What a counter holds: its number, or zero if it is missing. *)
Definition counter (uns : bool) (old : option view) (x : Z) : Prop :=
  match old with Some v => number uns (v_val v) x | None => x = 0%Z end.
(** Changing the counter [key] by [d]. *)
Inductive count_done (o : opts) (pr : proto) (name : bytes) (uns : bool) (now : Z) (key : bytes) (d : Z)
  (ch ch' : cache) : option view -> list wr -> Prop :=
| count_missing : pr = MEMCACHE -> unchanged o now ch ch' key ->
    count_done o pr name uns now key d ch ch' None [WRaw (bs "NOT_FOUND" ++ crlf)]
| count_text : forall v, (forall x, ~ number uns (v_val v) x) -> unchanged o now ch ch' key ->
    count_done o pr name uns now key d ch ch' (Some v)
      [match pr with
       | MEMCACHE => WRaw (bs "CLIENT_ERROR cannot increment or decrement non-numeric value" ++ crlf)
       | _ => WError (bs "ERR value is not an integer or out of range")
       end]
| count_over : forall old x, pr <> MEMCACHE -> counter uns old x -> ~ in_range uns (x + d) ->
    unchanged o now ch ch' key ->
    count_done o pr name uns now key d ch ch' old [WError (bs "ERR increment or decrement would overflow")]
| count_ok : forall old x y s tok, counter uns old x ->
    (pr = MEMCACHE -> old <> None) -> (pr <> MEMCACHE -> in_range uns (x + d)) ->
    y = wrapped uns (x + d) -> decimal_text s y ->
    holds o ch' key (match old with
                     | Some v => mkView s (v_exp v) (v_flags v) tok
                     | None => mkView s 0 0 tok
                     end) ->
    (forall k, k <> key -> same_at (ctx_of o) ch ch' k) ->
    count_done o pr name uns now key d ch ch' old (number_reply pr name uns y s).

(** *** APPEND and PREPEND *)
Definition joined (prepend : bool) (old val : bytes) : bytes :=
  if prepend then val ++ old else old ++ val.
Definition length_reply (pr : proto) (prepend : bool) (len : nat) (digits : bytes) : list wr :=
  match pr with
  | MEMCACHE => [WRaw (bs "STORED" ++ crlf)]
  | POSTGRES => [PComplete (bs (if prepend then "PREPEND" else "APPEND") ++ [32] ++ digits); PReady]
  | _ => [WInt (Z.of_nat len)]
  end.
(** A value may have at most this size. *)
Definition max_value : N := 512 * 1024 * 1024.
Inductive append_done (o : opts) (pr : proto) (prepend : bool) (now : Z) (key val : bytes)
  (ch ch' : cache) : option view -> list wr -> Prop :=
| append_missing : pr = MEMCACHE -> unchanged o now ch ch' key ->
    append_done o pr prepend now key val ch ch' None [WRaw (bs "NOT_STORED" ++ crlf)]
| append_new : forall tok digits, pr <> MEMCACHE -> holds o ch' key (mkView val 0 0 tok) ->
    (forall k, k <> key -> same_at (ctx_of o) ch ch' k) ->
    canonical digits (N.of_nat (length val)) ->
    append_done o pr prepend now key val ch ch' None (length_reply pr prepend (length val) digits)
| append_big : forall v, max_value < N.of_nat (length (v_val v) + length val) ->
    unchanged o now ch ch' key ->
    append_done o pr prepend now key val ch ch' (Some v) [WError (bs "ERR value too large")]
| append_ok : forall v tok digits, N.of_nat (length (v_val v) + length val) <= max_value ->
    holds o ch' key (mkView (joined prepend (v_val v) val) (v_exp v) (v_flags v) tok) ->
    (forall k, k <> key -> same_at (ctx_of o) ch ch' k) ->
    canonical digits (N.of_nat (length (v_val v) + length val)) ->
    append_done o pr prepend now key val ch ch' (Some v)
      (length_reply pr prepend (length (v_val v) + length val) digits).

(** *** TTL and EXPIRE *)
(** The whole seconds (milliseconds) an item has left, -1 if it never expires. *)
Definition left_over (pttl : bool) (now : Z) (v : view) : Z :=
  if (v_exp v =? 0)%Z then (-1)%Z
  else ((v_exp v - now) / if pttl then 1000000 else 1000000000)%Z.
(** Over HTTP and memcache nothing is written for a missing key. *)
Definition ttl_reply (pr : proto) (pttl : bool) (now : Z) (old : option view) (digits : bytes) : list wr :=
  match pr with
  | POSTGRES =>
      [PRowDesc [bs (if pttl then "pttl" else "ttl")]] ++
      match old with
      | Some v => [PRow [digits]] ++ done_pg (if pttl then "PTTL" else "TTL") "1"
      | None => done_pg (if pttl then "PTTL" else "TTL") "0"
      end
  | RESP => [WInt (match old with Some v => left_over pttl now v | None => -2 end)]
  | _ => match old with Some v => [WInt (left_over pttl now v)] | None => [] end
  end.
Definition expire_reply (pr : proto) (found : bool) : list wr :=
  match pr with
  | MEMCACHE => [WRaw (bs (if found then "TOUCHED" else "NOT_FOUND") ++ crlf)]
  | POSTGRES => done_pg "EXPIRE" (if found then "1" else "0")
  | _ => [WInt (if found then 1 else 0)]
  end.

(** *** Several keys *)
Definition live (o : opts) (ch : cache) (now : Z) (key : bytes) : Prop :=
  exists v, sees (ctx_of o) ch key now (Some v).
(** From [now] on everything shows the same. *)
Definition all_same (o : opts) (now : Z) (ch ch' : cache) : Prop := forall k, same_from o now ch ch' k.
