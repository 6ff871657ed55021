(** Threads calling the cache: the calls that lock one shard, as operations of
    Conc.v. *)
From Verif Require Import Base Types Clamp Varint Sixpack Entry Hash Map Shard Cache.

Section Threads.
Variable c : ctx.

(** The shard a call locks, if it locks exactly one: calls with a key
    [src/pogocache.c:1345-1365 acquire_for_key], calls on one shard
    [1326-1342 acquire_for_scan], and pogocache_sweep_poll [2088-2103]. A call on
    all shards locks one after the other, e.g. [1744-1751], so that for the
    other threads it is the sequence of its one-shard calls. *)
Definition one_shard (one : option Z) : option nat :=
  match one with
  | Some z => if ((z <? 0) || (Z.of_N (c_nshards c) <=? z))%Z then None else Some (Z.to_nat z)
  | None => None
  end.
(** As above: [src/pogocache.c:1345-1365 acquire_for_key]. *)
Definition call_shard (p : env * call) : option nat :=
  match snd p with
  | Store key _ _ _ | Load key _ _ | Delete key _ _ => Some (route c key)
  | Iter _ one _ | Sweep one _ | Clear one _ _ | Count one | Total one | Size one _ => one_shard one
  | SweepPoll _ time =>
      Some (N.to_nat (mix13 (u64_of_i64 (resolve_now time (en_clock (fst p)))) mod c_nshards c))
  | EntryIter _ _ => None
  end.

(** The body of such a call, with shard [s] locked, when malloc would next hand
    out [n] [src/pogocache.c:1368-1394]: what the call does on a cache that has
    [s] in that place; it looks at no other shard (call_local in
    ThreadsProofs.v). Undefined behaviour is a result of its own. *)
Definition alone (n : N) (i : nat) (s : shard) : cache := mkCache n (repeat s (S i)).
(** As above: [src/pogocache.c:1368-1394]. *)
Definition call_sem (p : env * call) (n : N) (s : shard) : N * shard * out result :=
  match call_shard p with
  | None => (n, s, Bad OutOfBounds)
  | Some i =>
      match step c (fst p) (alone n i s) (snd p) with
      | Ok (ch, r, _) => (ca_next ch, nth i (ca_shards ch) s, Ok r)
      | Bad t => (n, s, Bad t)
      end
  end.
End Threads.
