(** The vocabulary of the cache's API. *)
From Verif Require Import Base.
Local Open Scope Z_scope.

(** [src/pogocache.h:18-25], the return values. *)
Inductive status :=
  INSERTED | REPLACED | FOUND | NOTFOUND | DELETED | FINISHED | CANCELED | NOMEM.

(** What callbacks are shown of an entry besides its key: value, expiration,
    flags and cas of [src/pogocache.h:92-94]. *)
Record view := mkView {
  v_val : bytes;
  v_exp : Z;
  v_flags : N;
  v_cas : N
}.

(** [src/pogocache.h:98-103 struct pogocache_update] *)
Record update := mkUpdate {
  u_val : bytes;
  u_flags : N;
  u_exp : Z
}.

(** [src/pogocache.h:77-96 struct pogocache_store_opts]; the time is passed
    separately. The callback gets the old entry; it is called at most once per
    store, so it is a function, and what it was shown is in the event trace. *)
Record store_opts := mkStoreOpts {
  so_expires : Z;
  so_ttl : Z;
  so_cas : N;
  so_flags : N;
  so_keepttl : bool;
  so_casop : bool;
  so_nx : bool;
  so_xx : bool;
  so_lowmem : bool;
  so_entry : option (view -> bool)
}.

(** [src/pogocache.h:105-114 struct pogocache_load_opts] *)
Record load_opts := mkLoadOpts {
  lo_notouch : bool;
  lo_entry : option (view -> option update)
}.

(** [src/pogocache.h:116-126 struct pogocache_delete_opts]: the callback. *)
Definition delete_cb := option (view -> bool).

(** [src/pogocache.h:36-38], the answer of an iteration callback:
    (delete this entry, stop). *)
Definition iter_action := (bool * bool)%type.

(** The evaluation of [opts->time > 0 ? opts->time : getnow()], e.g.
    [src/pogocache.c:1401]; [clock] is what getnow() returns. *)
Definition resolve_now (time clock : Z) : Z := if time >? 0 then time else clock.

(** Does malloc succeed for an entry / a bucket array during an operation on one
    shard?. [src/pogocache.c:555, 824 ctx->malloc] *)
Record mem := mkMem { al_entry : bool; al_table : bool }.

(** What the outside world contributes to a call: memory, per shard, and what
    getnow() returns. [src/pogocache.c:89-92 getnow, 555, 824 ctx->malloc] *)
Record env := mkEnv { en_mem : nat -> mem; en_clock : Z }.

(** The calls of the API, [src/pogocache.h:190-216 and 230-231]. [time] is opts.time;
    [one] is [Some i] when opts.oneshard is set with opts.oneshardidx = i. The
    callback of an iteration may depend on everything it was shown before. *)
Inductive call :=
| Store (key val : bytes) (o : store_opts) (time : Z)
| Load (key : bytes) (o : load_opts) (time : Z)
| Delete (key : bytes) (cb : delete_cb) (time : Z)
| Iter (cb : option (list (bytes * view) -> bytes -> view -> iter_action))
    (one : option Z) (time : Z)
| EntryIter (cursor : N) (time : Z)
| Sweep (one : option Z) (time : Z)
| SweepPoll (pollsize : Z) (time : Z)
| Clear (one : option Z) (deferfree : bool) (time : Z)
| Count (one : option Z)
| Total (one : option Z)
| Size (one : option Z) (entriesonly : bool).

(** What a call returns, with what its callback was shown. An entry handed out
    is given by its address, key and contents; a poll by (dead, polled). [src/pogocache.h:96-216, the return values and callbacks] *)
Inductive result :=
| RStatus (st : status) (shown : list (bytes * view))
| REntry (e : option (N * bytes * view)) (cursor : N)
| RSwept (swept kept : N)
| RPoll (dead polled : N)
| RNum (n : N)
| RVoid.
