(** The cache: an array of shards behind the API (pogocache.c). Calls are
    executed one at a time here; locks and batches are in Conc.v. *)
From Verif Require Import Base Types Clamp Varint Sixpack Entry Hash Map Shard.
Local Open Scope N_scope.

(** [src/pogocache.h:48-74 struct pogocache_opts], the options that influence
    behaviour. *)
Record opts := mkOpts {
  op_usecas : bool;
  op_nosixpack : bool;
  op_noevict : bool;
  op_allowshrink : bool;
  op_nshards : Z;
  op_loadfactor : Z;
  op_seed : N
}.

(** [src/pogocache.c:1184-1210 opts_to_ctx] and the choice of the number of
    shards in [1222]; DEFSHARDS 4096, DEFLOADFACTOR 75, MINLOADFACTOR_RH 55,
    MAXLOADFACTOR_RH 95. *)
Definition opts_to_ctx (o : opts) : ctx :=
  mkCtx (op_usecas o) (op_nosixpack o) (op_noevict o) (op_allowshrink o)
    (if (op_nshards o <=? 0)%Z then 4096 else Z.to_N (op_nshards o))
    (if (op_loadfactor o =? 0)%Z then 75
     else if (op_loadfactor o <? 55)%Z then 55
     else if (op_loadfactor o >? 95)%Z then 95
     else Z.to_N (op_loadfactor o))
    (op_seed o).

(** [src/pogocache.c:717-724 struct pogocache]. [ca_next] is a ghost: the next
    address malloc hands out, shared by the shards. *)
Record cache := mkCache { ca_next : N; ca_shards : list shard }.

Section Cache.
Variable c : ctx.

(** [src/pogocache.c:1216-1241 pogocache_new]. [al j] says whether the bucket
    array of shard [j] can be allocated. When shard [j] fails, pogocache_free
    walks over all shards; those after [j] were never initialised. *)
Fixpoint new_loop (al : nat -> bool) (n j : nat) (acc : list shard) : out (option (list shard)) :=
  match n with
  | O => Ok (Some acc)
  | S n' => if al j then new_loop al n' (j + 1) (acc ++ [shard_init c])
            else if (n' =? 0)%nat then Ok None else Bad Uninit
  end.
(** As above: [src/pogocache.c:1216-1241 pogocache_new]. *)
Definition cache_new (al : nat -> bool) : out (option cache) :=
  match new_loop al (N.to_nat (c_nshards c)) 0 [] with
  | Bad t => Bad t
  | Ok None => Ok None
  | Ok (Some l) => Ok (Some (mkCache 1 l))
  end.

(** The shard of a key: [src/pogocache.c:1357-1358] in acquire_for_key. *)
Definition route (key : bytes) : nat :=
  N.to_nat (shard_index (c_nshards c) (th64 key (c_seed c))).

(** Execute an operation on the shard at an index: shard_get [1247-1249] in the
    macros [1368-1394]. *)
Definition on_shard {A} (ch : cache) (i : nat) (f : shard -> out (shard * A * list event))
  : out (cache * A * list event) :=
  match nth_error (ca_shards ch) i with
  | None => Bad OutOfBounds
  | Some s =>
      match f (mkShard (s_cas s) (s_map s) (ca_next ch)) with
      | Bad t => Bad t
      | Ok (s', a, evs) => Ok (mkCache (s_next s') (upd (ca_shards ch) i s'), a, evs)
      end
  end.

(** The loops over all shards, e.g. [src/pogocache.c:1744-1751]; the body says
    whether to stop. *)
Fixpoint each {A} (body : nat -> A -> shard -> out (shard * (A * bool) * list event))
    (is : list nat) (a : A) (ch : cache) : out (cache * A * list event) :=
  match is with
  | [] => Ok (ch, a, [])
  | i :: r =>
      match on_shard ch i (body i a) with
      | Bad t => Bad t
      | Ok (ch1, (a1, stop), ev1) =>
          if stop : bool then Ok (ch1, a1, ev1)
          else match each body r a1 ch1 with
               | Bad t => Bad t
               | Ok (ch2, a2, ev2) => Ok (ch2, a2, ev1 ++ ev2)
               end
      end
  end.

(** Which shards a call acts on: one of them if it exists, or all in order,
    e.g. [src/pogocache.c:1736-1744]. *)
Definition chosen (one : option Z) : list nat :=
  match one with
  | None => seq 0 (N.to_nat (c_nshards c))
  | Some z => if ((z <? 0) || (Z.of_N (c_nshards c) <=? z))%Z then [] else [Z.to_nat z]
  end.

(** [src/pogocache.c:1637-1644 pogocache_store] *)
Definition cache_store (en : env) (ch : cache) (key val : bytes) (o : store_opts) (time : Z)
  : out (cache * status * list event) :=
  on_shard ch (route key) (fun s =>
    storeop c (en_mem en (route key)) s key val o (resolve_now time (en_clock en))).

(** [src/pogocache.c:1455-1461 pogocache_load] *)
Definition cache_load (en : env) (ch : cache) (key : bytes) (o : load_opts) (time : Z)
  : out (cache * status * list event) :=
  on_shard ch (route key) (fun s =>
    loadop c (en_mem en (route key)) s key o (resolve_now time (en_clock en))).

(** [src/pogocache.c:1511-1522 pogocache_delete] *)
Definition cache_delete (en : env) (ch : cache) (key : bytes) (cb : delete_cb) (time : Z)
  : out (cache * status * list event) :=
  on_shard ch (route key) (fun s =>
    deleteop c (en_mem en (route key)) s key cb (resolve_now time (en_clock en))).

(** [src/pogocache.c:1732-1753 pogocache_iter] *)
Definition iter_body {S} (en : env) (cb : option (S -> bytes -> view -> S * iter_action)) (now : Z)
    (i : nat) (a : S * status) (s : shard)
  : out (shard * ((S * status) * bool) * list event) :=
  match iterop c (en_mem en i) s cb (fst a) now with
  | Bad t => Bad t
  | Ok (s', st', status, evs) =>
      Ok (s', ((st', status), match status with FINISHED => false | _ => true end), evs)
  end.
(** As above: [src/pogocache.c:1732-1753 pogocache_iter]. *)
Definition cache_iter {S} (en : env) (ch : cache)
    (cb : option (S -> bytes -> view -> S * iter_action)) (st : S) (one : option Z) (time : Z)
  : out (cache * (S * status) * list event) :=
  each (iter_body en cb (resolve_now time (en_clock en))) (chosen one) (st, FINISHED) ch.

(** [src/pogocache.c:1784-1815 pogocache_entry_iter]. The conversions to int
    make values of 2^31 and more negative. [fuel] is the number of shards left;
    the shard loop's first access is made before the bound is checked again. *)
Fixpoint entry_iter_loop (fuel : nat) (ch : cache) (now : Z) (idx iter : nat) (evs : list event)
  : out (cache * (option (N * bytes * view) * N) * list event) :=
  match fuel with
  | O => Bad OutOfBounds
  | S f =>
      match on_shard ch idx (fun s => match entryiter s now iter with
              | Bad t => Bad t | Ok (s', r, j, ev) => Ok (s', (r, j), ev) end) with
      | Bad t => Bad t
      | Ok (ch1, (Some e, j), ev1) =>
          Ok (ch1, (Some (e_id e, ekey c e, eview c e),
                    N.lor (N.shiftl (N.of_nat idx) 32) (N.of_nat j)), evs ++ ev1)
      | Ok (ch1, (None, _), ev1) =>
          if (N.of_nat (idx + 1) =? c_nshards c) then Ok (ch1, (None, 0), evs ++ ev1)
          else entry_iter_loop f ch1 now (idx + 1) 0 (evs ++ ev1)
      end
  end.
(** As above: [src/pogocache.c:1784-1815 pogocache_entry_iter]. *)
Definition cache_entry_iter (en : env) (ch : cache) (cursor : N) (time : Z)
  : out (cache * (option (N * bytes * view) * N) * list event) :=
  let idx := N.shiftr cursor 32 in
  let iter := N.land cursor 0xFFFFFFFF in
  if (2 ^ 31 <=? idx) || (c_nshards c <? idx) then Ok (ch, (None, 0), [])
  else if 2 ^ 31 <=? iter then Ok (ch, (None, 0), [])
  else entry_iter_loop (S (N.to_nat (c_nshards c) - N.to_nat idx)) ch
         (resolve_now time (en_clock en)) (N.to_nat idx) (N.to_nat iter) [].

(** [src/pogocache.c:1942-1974 pogocache_sweep]; the sums are size_t. *)
Definition sweep_body (en : env) (now : Z) (i : nat) (a : N * N) (s : shard)
  : out (shard * ((N * N) * bool) * list event) :=
  match sweepop c (en_mem en i) s now with
  | Bad t => Bad t
  | Ok (s', (sw, kp), evs) => Ok (s', ((u64 (fst a + sw), u64 (snd a + kp)), false), evs)
  end.
(** As above: [src/pogocache.c:1942-1974 pogocache_sweep]. *)
Definition cache_sweep (en : env) (ch : cache) (one : option Z) (time : Z)
  : out (cache * (N * N) * list event) :=
  each (sweep_body en (resolve_now time (en_clock en))) (chosen one) (0, 0) ch.

(** [src/pogocache.c:2047-2062 pogocache_clear] with [2026-2043 aquireclearop] *)
Definition clear_body (en : env) (now : Z) (deferfree : bool) (i : nat) (_ : unit) (s : shard)
  : out (shard * (unit * bool) * list event) :=
  match clearop c (en_mem en i) s now deferfree with
  | Bad t => Bad t
  | Ok (s', evs) => Ok (s', (tt, false), evs)
  end.
(** As above: [src/pogocache.c:2047-2062 pogocache_clear]. *)
Definition cache_clear (en : env) (ch : cache) (one : option Z) (deferfree : bool) (time : Z)
  : out (cache * unit * list event) :=
  each (clear_body en (resolve_now time (en_clock en)) deferfree) (chosen one) tt ch.

(** [src/pogocache.c:1823-1841 pogocache_count], [1850-1872 pogocache_total],
    [1888-1908 pogocache_size]: sums of uint64_t over the shards. *)
Definition add_body (f : shard -> N) (_ : nat) (a : N) (s : shard)
  : out (shard * (N * bool) * list event) := Ok (s, (u64 (a + f s), false), []).
(** As above: [src/pogocache.c:1823-1841 pogocache_count]. *)
Definition cache_sum (f : shard -> N) (ch : cache) (one : option Z)
  : out (cache * N * list event) := each (add_body f) (chosen one) 0 ch.

(** [src/pogocache.c:2088-2103 pogocache_sweep_poll]; pollsize is an int, so a
    negative one polls nothing. *)
Definition cache_sweep_poll (en : env) (ch : cache) (pollsize : Z) (time : Z)
  : out (cache * (nat * nat) * list event) :=
  let now := resolve_now time (en_clock en) in
  let size := if (pollsize =? 0)%Z then 20%nat else Z.to_nat pollsize in
  let idx := N.to_nat (mix13 (u64_of_i64 now) mod c_nshards c) in
  on_shard ch idx (fun s => Ok (s, sweeppollop s (N.of_nat idx) now size, [])).

(** [src/pogocache.c:1138-1152 shard_deinit], [1173-1182 pogocache_free]: the
    releases. *)
Definition cache_free (ch : cache) : list event :=
  flat_map (fun s => List.map (fun p => EvFree (e_id (snd p))) (items (m_buckets (s_map s))))
    (ca_shards ch).

(** One call of the API. [src/pogocache.h:190-231] *)
Definition step (en : env) (ch : cache) (x : call) : out (cache * result * list event) :=
  let shown evs := flat_map (fun ev =>
    match ev with EvShow _ k w => [(k, w)] | _ => [] end) evs in
  match x with
  | Store key val o time =>
      match cache_store en ch key val o time with
      | Bad t => Bad t | Ok (ch', st, evs) => Ok (ch', RStatus st (shown evs), evs) end
  | Load key o time =>
      match cache_load en ch key o time with
      | Bad t => Bad t | Ok (ch', st, evs) => Ok (ch', RStatus st (shown evs), evs) end
  | Delete key cb time =>
      match cache_delete en ch key cb time with
      | Bad t => Bad t | Ok (ch', st, evs) => Ok (ch', RStatus st (shown evs), evs) end
  | Iter cb one time =>
      let cb' := match cb with
        | None => None
        | Some f => Some (fun h k w => (h ++ [(k, w)], f h k w)) end in
      match cache_iter en ch cb' [] one time with
      | Bad t => Bad t | Ok (ch', (_, st), evs) => Ok (ch', RStatus st (shown evs), evs) end
  | EntryIter cursor time =>
      match cache_entry_iter en ch cursor time with
      | Bad t => Bad t | Ok (ch', (r, cur), evs) => Ok (ch', REntry r cur, evs) end
  | Sweep one time =>
      match cache_sweep en ch one time with
      | Bad t => Bad t | Ok (ch', (sw, kp), evs) => Ok (ch', RSwept sw kp, evs) end
  | SweepPoll pollsize time =>
      match cache_sweep_poll en ch pollsize time with
      | Bad t => Bad t
      | Ok (ch', (d, n), evs) => Ok (ch', RPoll (N.of_nat d) (N.of_nat n), evs) end
  | Clear one deferfree time =>
      match cache_clear en ch one deferfree time with
      | Bad t => Bad t | Ok (ch', _, evs) => Ok (ch', RVoid, evs) end
  | Count one =>
      match cache_sum countop ch one with
      | Bad t => Bad t | Ok (ch', n, evs) => Ok (ch', RNum n, evs) end
  | Total one =>
      match cache_sum totalop ch one with
      | Bad t => Bad t | Ok (ch', n, evs) => Ok (ch', RNum n, evs) end
  | Size one entriesonly =>
      match cache_sum (fun s => sizeop s entriesonly) ch one with
      | Bad t => Bad t | Ok (ch', n, evs) => Ok (ch', RNum n, evs) end
  end.

(** A history of calls. For the statements, no counterpart in the code. *)
Fixpoint run (ch : cache) (h : list (env * call)) : out (cache * list result * list event) :=
  match h with
  | [] => Ok (ch, [], [])
  | (en, x) :: r =>
      match step en ch x with
      | Bad t => Bad t
      | Ok (ch1, res, ev1) =>
          match run ch1 r with
          | Bad t => Bad t
          | Ok (ch2, rs, ev2) => Ok (ch2, res :: rs, ev1 ++ ev2)
          end
      end
  end.

End Cache.
