(** The entry allocation: one block of memory holding all fields of an item. *)
From Verif Require Import Base Types Varint Sixpack.
Local Open Scope N_scope.

(** [src/pogocache.c:290-311 struct pgctx], the options that influence
    behaviour. [c_load] is the load factor in percent after the clamping of
    [src/pogocache.c:1204-1208]; the C code keeps loadfactor/100.0 as a double. *)
Record ctx := mkCtx {
  c_usecas : bool;
  c_nosixpack : bool;
  c_noevict : bool;
  c_allowshrink : bool;
  c_nshards : N;
  c_load : N;
  c_seed : N
}.

(** [src/pogocache.c:319-327 struct entry]. [e_id] stands for the address of the
    allocation (a fresh number per allocation); the reference counter is not
    part of this record, see Refcount.v. [e_data] is the flexible array, cut to
    the bytes that are written. *)
Record entry := mkEntry {
  e_id : N;
  e_time : Z;
  e_memszsz : N;
  e_hasexp : bool;
  e_hasflags : bool;
  e_hassix : bool;
  e_data : bytes
}.

(** sizeof(struct entry): int64 + int + one byte of bit fields, padded to 16. As above: [src/pogocache.c:319-327 struct entry]. *)
Definition SIZEOF_ENTRY : N := 16.

(** [1<<entry->memszsz] [src/pogocache.c:492-636 entry_new, 389-401 entry_rawkey] *)
Definition szlen (z : N) : nat := N.to_nat (2 ^ z).
(** [src/pogocache.c:492-636 entry_new]: the space of an optional field of 8 bytes *)
Definition opt8 (b : bool) : nat := if b then 8%nat else 0%nat.
(** [src/pogocache.c:492-636 entry_new]: the space of an optional field of 4 bytes *)
Definition opt4 (b : bool) : nat := if b then 4%nat else 0%nat.

(** [src/pogocache.c:329-346 entry_memsize]: little endian 1, 2, 4 or 8 bytes. *)
Definition entry_memsize (e : entry) : N :=
  le_val (firstn (szlen (e_memszsz e)) (e_data e)).

(** [src/pogocache.c:348-357 entry_expires] *)
Definition entry_expires (e : entry) : Z :=
  if e_hasexp e
  then i64_of_u64 (le_val (firstn 8 (skipn (szlen (e_memszsz e)) (e_data e))))
  else 0%Z.

(** [src/pogocache.c:363-365 entry_settime] *)
Definition entry_settime (e : entry) (t : Z) : entry :=
  mkEntry (e_id e) t (e_memszsz e) (e_hasexp e) (e_hasflags e) (e_hassix e)
    (e_data e).

(** [src/pogocache.c:367-369 entry_alive_exp] *)
Definition entry_alive_exp (expires now : Z) : bool :=
  ((expires =? 0) || (now <? expires))%Z.
(** [src/pogocache.c:371-373 entry_alive] *)
Definition entry_alive (e : entry) (now : Z) : bool :=
  entry_alive_exp (entry_expires e) now.

(** [src/pogocache.c:375-386 entry_cas] *)
Definition entry_cas (c : ctx) (e : entry) : N :=
  if c_usecas c then
    le_val (firstn 8 (skipn (szlen (e_memszsz e) + opt8 (e_hasexp e)
                             + opt4 (e_hasflags e)) (e_data e)))
  else 0.

(** [src/pogocache.c:389-401 entry_rawkey]: offset of the raw key in the data
    and its length. [None] if the key length cannot be read in bounds. *)
Definition entry_rawkey_pos (c : ctx) (e : entry) : option (nat * N) :=
  let p := (szlen (e_memszsz e) + opt8 (e_hasexp e) + opt4 (e_hasflags e)
            + opt8 (c_usecas c))%nat in
  match varint_read_nolen (skipn p (e_data e)) with
  | None => None
  | Some (n, keylen) => Some ((p + n)%nat, keylen)
  end.
(** As above: [src/pogocache.c:389-401 entry_rawkey]. *)
Definition entry_rawkey (c : ctx) (e : entry) : option bytes :=
  match entry_rawkey_pos c e with
  | None => None
  | Some (p, keylen) =>
      Some (firstn (N.to_nat keylen) (skipn p (e_data e)))
  end.

(** [src/pogocache.c:404-415 entry_key] *)
Definition entry_key (c : ctx) (e : entry) : option bytes :=
  match entry_rawkey c e with
  | None => None
  | Some k => Some (if e_hassix e then unsixpack k else k)
  end.

(** [src/pogocache.c:418-427 entry_value]: [vallen = size-(p-data)-sizeof], a
    64-bit subtraction. *)
Definition entry_value (c : ctx) (e : entry) : option bytes :=
  match entry_rawkey_pos c e with
  | None => None
  | Some (p, keylen) =>
      let q := (p + N.to_nat keylen)%nat in
      let vallen := u64 (entry_memsize e + 2 * 2 ^ 64 - N.of_nat q - SIZEOF_ENTRY) in
      Some (firstn (N.to_nat vallen) (skipn q (e_data e)))
  end.

(** [src/pogocache.c:433-488 entry_extract] (the key is [entry_key], computed
    there by the same steps). *)
Definition entry_extract (c : ctx) (e : entry) : option view :=
  let p := szlen (e_memszsz e) in
  let expires := if e_hasexp e
    then i64_of_u64 (le_val (firstn 8 (skipn p (e_data e)))) else 0%Z in
  let p := (p + opt8 (e_hasexp e))%nat in
  let flags := if e_hasflags e then le_val (firstn 4 (skipn p (e_data e))) else 0 in
  let p := (p + opt4 (e_hasflags e))%nat in
  let cas := if c_usecas c then le_val (firstn 8 (skipn p (e_data e))) else 0 in
  let p := (p + opt8 (c_usecas c))%nat in
  match varint_read_nolen (skipn p (e_data e)) with
  | None => None
  | Some (n, x) =>
      let p := (p + n + N.to_nat x)%nat in
      let vallen := u64 (entry_memsize e + 2 * 2 ^ 64 - N.of_nat p - SIZEOF_ENTRY) in
      Some (mkView (firstn (N.to_nat vallen) (skipn p (e_data e)))
              expires flags cas)
  end.

(** [src/pogocache.c:492-636 entry_new], after a successful allocation, whose
    address is [id]. [time] is 0 there; callers set it at once. *)
Definition entry_new (c : ctx) (id : N) (key val : bytes) (expires : Z)
    (flags cas : N) : entry :=
  let hasexp := (0 <? expires)%Z in
  let hasflags := 0 <? flags in
  let packed :=
    if negb (c_nosixpack c) && (length key <=? 128)%nat then sixpack key
    else [] in
  let hassix := negb (length packed =? 0)%nat in
  let rawkey := if hassix then packed else key in
  let prefixlen := (opt8 hasexp + opt4 hasflags + opt8 (c_usecas c))%nat in
  let keylenbuf := varint_write_u64 (N.of_nat (length rawkey)) in
  let size0 := u64 (SIZEOF_ENTRY + N.of_nat prefixlen
    + N.of_nat (length keylenbuf) + N.of_nat (length rawkey)
    + N.of_nat (length val)) in
  let memszsz :=
    if size0 <=? 255 - 1 then 0
    else if size0 <=? 65535 - 2 then 1
    else if size0 <=? 4294967295 - 4 then 2
    else 3 in
  let size := u64 (size0 + 2 ^ memszsz) in
  mkEntry id 0 memszsz hasexp hasflags hassix
    (le_bytes (szlen memszsz) size
     ++ (if hasexp then le_bytes 8 (u64_of_i64 expires) else [])
     ++ (if hasflags then le_bytes 4 flags else [])
     ++ (if c_usecas c then le_bytes 8 cas else [])
     ++ keylenbuf ++ rawkey ++ val).

(** [src/pogocache.c:650-670 entry_compare] *)
Definition entry_compare (c : ctx) (a b : entry) : option comparison :=
  if Bool.eqb (e_hassix a) (e_hassix b) then
    match entry_rawkey c a, entry_rawkey c b with
    | Some ka, Some kb => Some (lex ka kb)
    | _, _ => None
    end
  else
    match entry_key c a, entry_key c b with
    | Some ka, Some kb => Some (lex ka kb)
    | _, _ => None
    end.
