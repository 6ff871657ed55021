(** The operations on one shard (pogocache.c, the ...op functions). *)
From Verif Require Import Base Types Clamp Varint Sixpack Entry Hash Map.
Local Open Scope N_scope.

(** Ways an operation can go wrong in the C program: freeing a null entry, a
    failing assertion, a probe loop that never stops, writing over the map
    structure, signed overflow, reading outside an array or uninitialised
    memory. *)
Inductive trouble := NullFree | AssertFail | Hang | WildWrite | Overflow
  | OutOfBounds | Uninit.
Inductive out (A : Type) := Ok (a : A) | Bad (t : trouble).
Arguments Ok {A} a. Arguments Bad {A} t.

(** [src/pogocache.c:1018-1025 enum notify] *)
Inductive notify_kind :=
  N_INSERTED | N_DELETED | N_REPLACED | N_EXPIRED | N_CLEARED | N_LOWMEM.

(** What an operation does besides changing the shard, in order: allocations and
    releases of entries, calls of the notify callback [src/pogocache.c:1027-1083]
    (kind, new entry, old entry), entries shown to the operation's own callback,
    and references handed out. *)
Inductive event :=
| EvAlloc (id : N)
| EvFree (id : N)
| EvRetain (id : N)
| EvNotify (k : notify_kind) (new old : option entry)
| EvShow (e : entry) (key : bytes) (w : view).

(** [src/pogocache.c:699-705 struct shard] without the lock (see Conc.v).
    [s_next] is a ghost: the next address handed out by malloc. *)
Record shard := mkShard { s_cas : N; s_map : map entry; s_next : N }.

Section Ops.
Variable c : ctx.

(** [src/pogocache.c:650-670] as used in map_insert. For entries made by
    entry_new the decoders never fail (EntryProofs.v). *)
Definition ecmp (a b : entry) : bool :=
  match entry_compare c a b with Some Eq => true | _ => false end.
(** As above: [src/pogocache.c:650-670]. *)
Definition ekey (e : entry) : bytes :=
  match entry_key c e with Some k => k | None => [] end.
(** As above: [src/pogocache.c:650-670]. *)
Definition eview (e : entry) : view :=
  match entry_extract c e with Some w => w | None => mkView [] 0 0 0 end.
(** the uint32_t hash of a key, [src/pogocache.c:1357-1360] *)
Definition hash32 (key : bytes) : N := u32 (th64 key (c_seed c)).

Notation insert := (map_insert ecmp entry_memsize (c_load c)).
Notation delete := (map_delete ekey entry_memsize).
Notation get_bucket := (map_get_bucket ekey).
Notation shrink := (tryshrink (c_load c) (c_allowshrink c)).

(** [src/pogocache.c:1154-1164 shard_init], INITCAP 64. *)
Definition shard_init : shard := mkShard 1 (map_init entry (c_load c) 64) 1.

(** [set_entry(bkt, entry)] [src/pogocache.c:730-735 set_entry] *)
Definition put_ent (m : map entry) (i : nat) (b : bkt entry) (e : entry) : map entry :=
  mkMap (m_cap m) (m_nb m) (m_count m) (m_growat m) (m_shrinkat m)
    (upd (m_buckets m) i (Some (mkB (b_dib b) (b_hash b) e))) (m_total m) (m_entsize m).

(** [src/pogocache.c:1396-1446 loadop] *)
Definition loadop (mm : mem) (s : shard) (key : bytes) (o : load_opts) (now : Z)
  : out (shard * status * list event) :=
  let m := s_map s in
  match get_bucket m key (hash32 key) with
  | None => Bad Hang
  | Some None => Ok (s, NOTFOUND, [])
  | Some (Some i) =>
      match nth i (m_buckets m) None with
      | None => Bad AssertFail
      | Some b =>
          let e := b_ent b in
          let w := eview e in
          if negb (entry_alive_exp (v_exp w) now) then
            match delbkt m i with
            | None => Bad Hang
            | Some m' => Ok (mkShard (s_cas s) m' (s_next s), NOTFOUND,
                             [EvNotify N_EXPIRED None (Some e); EvFree (e_id e)])
            end
          else
            let e1 := if lo_notouch o then e else entry_settime e now in
            let m1 := put_ent m i b e1 in
            match lo_entry o with
            | None => Ok (mkShard (s_cas s) m1 (s_next s), FOUND, [])
            | Some f =>
                match f w with
                | None => Ok (mkShard (s_cas s) m1 (s_next s), FOUND, [EvShow e1 key w])
                | Some u =>
                    let cas := u64 (s_cas s + 1) in
                    if negb (al_entry mm) then
                      Ok (mkShard cas m1 (s_next s), NOMEM, [EvShow e1 key w])
                    else
                      let e2 := entry_settime
                        (entry_new c (s_next s) key (u_val u) (u_exp u) (u_flags u) cas) now in
                      Ok (mkShard cas (put_ent m i b e2) (s_next s + 1), FOUND,
                          [EvShow e1 key w; EvAlloc (e_id e2);
                           EvNotify N_REPLACED (Some e2) (Some e1); EvFree (e_id e1)])
                end
            end
      end
  end.

(** [src/pogocache.c:1463-1509 deleteop] *)
Definition deleteop (mm : mem) (s : shard) (key : bytes) (cb : delete_cb) (now : Z)
  : out (shard * status * list event) :=
  match delete (s_map s) key (hash32 key) with
  | None => Bad Hang
  | Some (_, None) => Ok (s, NOTFOUND, [])
  | Some (m1, Some e) =>
      if negb (entry_alive e now) then
        match shrink (al_table mm) m1 with
        | None => Bad Hang
        | Some m2 => Ok (mkShard (s_cas s) m2 (s_next s), NOTFOUND,
                         [EvNotify N_EXPIRED None (Some e); EvFree (e_id e)])
        end
      else
        let shown := match cb with None => [] | Some _ => [EvShow e key (eview e)] end in
        let keep := match cb with None => false | Some f => negb (f (eview e)) end in
        if keep then
          match insert (al_table mm) m1 e (hash32 key) with
          | RLoop => Bad Hang
          | RFail => Bad AssertFail
          | ROk (_, Some _) => Bad AssertFail
          | ROk (m2, None) => Ok (mkShard (s_cas s) m2 (s_next s), CANCELED, shown)
          end
        else
          match shrink (al_table mm) m1 with
          | None => Bad Hang
          | Some m2 => Ok (mkShard (s_cas s) m2 (s_next s), DELETED,
                           shown ++ [EvNotify N_DELETED None (Some e); EvFree (e_id e)])
          end
  end.

(** [src/pogocache.c:1085-1096 evict_entry] *)
Definition evict_entry (m : map entry) (e : entry) (k : notify_kind)
  : out (map entry * list event) :=
  let key := ekey e in
  match delete m key (hash32 key) with
  | None => Bad Hang
  | Some (m', Some d) =>
      if e_id d =? e_id e then Ok (m', [EvNotify k None (Some e); EvFree (e_id e)])
      else Bad AssertFail
  | Some (_, None) => Bad AssertFail
  end.

(** [src/pogocache.c:1101-1119], the search loop of auto_evict_entry: [inl e] an
    expired entry was met, [inr l] the candidates (at most two). [i] counts up
    while it is below nbuckets; [fuel] is nbuckets - i. *)
Fixpoint evict_search (fuel : nat) (m : map entry) (i : nat) (hash : N) (now : Z)
    (cand : list entry) : entry + list entry :=
  match fuel with
  | O => inr cand
  | S f =>
      if (2 <=? length cand)%nat then inr cand else
      let j := N.to_nat (N.land (u32 (N.of_nat i + hash)) (N.of_nat (m_nb m) - 1)) in
      match nth j (m_buckets m) None with
      | None => evict_search f m (i + 1) hash now cand
      | Some b =>
          if b_hash b =? hash then evict_search f m (i + 1) hash now cand
          else if negb (entry_alive (b_ent b) now) then inl (b_ent b)
          else evict_search f m (i + 1) hash now (cand ++ [b_ent b])
      end
  end.

(** [src/pogocache.c:1101-1136 auto_evict_entry] *)
Definition auto_evict (m : map entry) (hash : N) (now : Z) : out (map entry * list event) :=
  match evict_search (m_nb m - 1) m 1 (clip_hash hash) now [] with
  | inl e => evict_entry m e N_EXPIRED
  | inr [a] => evict_entry m a N_LOWMEM
  | inr (a :: b :: _) =>
      evict_entry m (if (e_time a <? e_time b)%Z then a else b) N_LOWMEM
  | inr [] => Ok (m, [])
  end.

(** The expiration a store gives the entry, [src/pogocache.c:1531-1547]. *)
Definition store_expires (m : map entry) (key : bytes) (o : store_opts) (now : Z)
  : out Z :=
  match (if (so_expires o >? 0)%Z then Some (so_expires o)
         else if (so_ttl o >? 0)%Z then int64_add_clamp now (so_ttl o)
         else Some 0%Z) with
  | None => Bad Overflow
  | Some expires =>
      if so_keepttl o then
        match get_bucket m key (hash32 key) with
        | None => Bad Hang
        | Some None => Ok expires
        | Some (Some i) =>
            match nth i (m_buckets m) None with
            | None => Bad AssertFail
            | Some b => Ok (if entry_alive (b_ent b) now then entry_expires (b_ent b)
                            else expires)
            end
        end
      else Ok expires
  end.

(** The label put_back, [src/pogocache.c:1587-1599]. *)
Definition put_back (mm : mem) (s : shard) (m : map entry) (key : bytes)
    (entry old : entry) (st : status) (evs : list event)
  : out (shard * status * list event) :=
  match insert (al_table mm) m old (hash32 key) with
  | RLoop => Bad Hang
  | RFail => Bad AssertFail
  | ROk (_, None) => Bad AssertFail
  | ROk (m', Some e) =>
      if e_id e =? e_id entry
      then Ok (mkShard (s_cas s) m' (s_next s), st, evs ++ [EvFree (e_id entry)])
      else Bad AssertFail
  end.

(** [src/pogocache.c:1524-1645 storeop]. A failed entry allocation jumps to
    [nomem], which releases a null pointer. *)
Definition storeop (mm : mem) (s : shard) (key val : bytes) (o : store_opts) (now : Z)
  : out (shard * status * list event) :=
  let count := m_count (s_map s) in
  match store_expires (s_map s) key o now with
  | Bad t => Bad t
  | Ok expires =>
      let cas := u64 (s_cas s + 1) in
      if negb (al_entry mm) then Bad NullFree else
      let e := entry_settime
        (entry_new c (s_next s) key val expires (so_flags o) cas) now in
      let s1 := mkShard cas (s_map s) (s_next s + 1) in
      let evs := [EvAlloc (e_id e)] in
      let nomem := Ok (s1, NOMEM, evs ++ [EvFree (e_id e)]) in
      if so_lowmem o && c_noevict c then nomem else
      match insert (al_table mm) (s_map s) e (hash32 key) with
      | RLoop => Bad Hang
      | RFail => nomem
      | ROk (m1, old0) =>
          (* an expired old entry is dropped *)
          let '(old, evs) :=
            match old0 with
            | Some old =>
                if negb (entry_alive old now)
                then (None, evs ++ [EvNotify N_EXPIRED None (Some old); EvFree (e_id old)])
                else (Some old, evs)
            | None => (None, evs)
            end in
          match old with
          | Some old =>
              let refuse :=
                if so_casop o then
                  if c_usecas c then negb (so_cas o =? entry_cas c old) else true
                else so_nx o in
              if refuse then put_back mm s1 m1 key e old FOUND evs
              else
                let shown := match so_entry o with
                             | None => [] | Some _ => [EvShow old key (eview old)] end in
                let keep := match so_entry o with
                            | None => false | Some f => negb (f (eview old)) end in
                if keep then put_back mm s1 m1 key e old CANCELED (evs ++ shown)
                else Ok (mkShard cas m1 (s_next s + 1), REPLACED,
                         evs ++ shown ++ [EvNotify N_REPLACED (Some e) (Some old);
                                          EvFree (e_id old)])
          | None =>
              if so_xx o || so_casop o then
                match delete m1 key (hash32 key) with
                | None => Bad Hang
                | Some (_, None) => Bad AssertFail
                | Some (m2, Some d) =>
                    if e_id d =? e_id e
                    then Ok (mkShard cas m2 (s_next s + 1), NOTFOUND,
                             evs ++ [EvFree (e_id e)])
                    else Bad AssertFail
                end
              else if so_lowmem o && (count <? m_count m1)%nat then
                match auto_evict m1 (hash32 key) now with
                | Bad t => Bad t
                | Ok (m2, ev2) =>
                    Ok (mkShard cas m2 (s_next s + 1), INSERTED,
                        evs ++ ev2 ++ [EvNotify N_INSERTED (Some e) None])
                end
              else Ok (mkShard cas m1 (s_next s + 1), INSERTED,
                       evs ++ [EvNotify N_INSERTED (Some e) None])
          end
      end
  end.

(** *** Loops over the buckets *)

(** What the body of a bucket loop decides about the entry at the current
    bucket: remove it (with which notification) or not, and stop or not. [src/pogocache.c:1680-1719], [1913-1934] *)
Record verdict := mkVerdict { vd_del : option notify_kind; vd_stop : bool }.

(** The common shape of the loops of iterop [src/pogocache.c:1680-1719], sweepop
    [1913-1934] and entryiter [1762-1778]: look at bucket [i], ask [judge], after
    a removal look at the same bucket again (the [i--]), otherwise go to the next
    one. The result has the index after the loop body ran with stop. *)
Fixpoint scan {S : Type} (judge : S -> entry -> S * list event * verdict)
    (fuel : nat) (st : S) (m : map entry) (i : nat) (evs : list event)
  : out (S * map entry * option nat * list event) :=
  match fuel with
  | O => Bad Hang
  | Datatypes.S f =>
      if (m_nb m <=? i)%nat then Ok (st, m, None, evs) else
      match nth i (m_buckets m) None with
      | None => scan judge f st m (i + 1) evs
      | Some b =>
          let e := b_ent b in
          let '(st1, ev1, v) := judge st e in
          match vd_del v with
          | Some k =>
              match delbkt m i with
              | None => Bad Hang
              | Some m1 =>
                  let evs1 := evs ++ ev1 ++ [EvNotify k None (Some e); EvFree (e_id e)] in
                  if vd_stop v then Ok (st1, m1, Some i, evs1)
                  else scan judge f st1 m1 i evs1
              end
          | None =>
              if vd_stop v then Ok (st1, m, Some (i + 1)%nat, evs ++ ev1)
              else scan judge f st1 m (i + 1) (evs ++ ev1)
          end
      end
  end.

(** Enough steps for any such loop: every step removes an entry or advances. [src/pogocache.c:1680-1719], [1913-1934] *)
Definition scan_fuel (m : map entry) : nat := (m_nb m + m_count m + 1)%nat.

(** [src/pogocache.c:1675-1723 iterop]. The callback carries its own state
    (udata); without a callback every entry is passed over. *)
Definition iter_judge {S : Type} (cb : option (S -> bytes -> view -> S * iter_action))
    (now : Z) (st : S) (e : entry) : S * list event * verdict :=
  if negb (entry_alive e now) then (st, [], mkVerdict (Some N_EXPIRED) false)
  else match cb with
       | None => (st, [], mkVerdict None false)
       | Some f =>
           let '(st', (del, stop)) := f st (ekey e) (eview e) in
           (st', [EvShow e (ekey e) (eview e)],
            mkVerdict (if del then Some N_DELETED else None) stop)
       end.
(** As above: [src/pogocache.c:1675-1723 iterop]. *)
Definition iterop {S : Type} (mm : mem) (s : shard)
    (cb : option (S -> bytes -> view -> S * iter_action)) (st : S) (now : Z)
  : out (shard * S * status * list event) :=
  match scan (iter_judge cb now) (scan_fuel (s_map s)) st (s_map s) 0 [] with
  | Bad t => Bad t
  | Ok (st', m, stopped, evs) =>
      match shrink (al_table mm) m with
      | None => Bad Hang
      | Some m' => Ok (mkShard (s_cas s) m' (s_next s), st',
                       (match stopped with None => FINISHED | Some _ => CANCELED end), evs)
      end
  end.

(** [src/pogocache.c:1910-1937 sweepop]: (swept, kept) are counted in the state. *)
Definition sweep_judge (now : Z) (st : N * N) (e : entry) : (N * N) * list event * verdict :=
  let '(swept, kept) := st in
  if entry_alive_exp (entry_expires e) now
  then ((swept, kept + 1), [], mkVerdict None false)
  else ((swept + 1, kept), [], mkVerdict (Some N_EXPIRED) false).
(** As above: [src/pogocache.c:1910-1937 sweepop]. *)
Definition sweepop (mm : mem) (s : shard) (now : Z)
  : out (shard * (N * N) * list event) :=
  match scan (sweep_judge now) (scan_fuel (s_map s)) (0, 0) (s_map s) 0 [] with
  | Bad t => Bad t
  | Ok (st, m, _, evs) =>
      match shrink (al_table mm) m with
      | None => Bad Hang
      | Some m' => Ok (mkShard (s_cas s) m' (s_next s), st, evs)
      end
  end.

(** [src/pogocache.c:1755-1782 entryiter]: the entry found, with a reference
    taken, and the next index. *)
Definition entryiter_judge (now : Z) (_ : option entry) (e : entry)
  : option entry * list event * verdict :=
  if negb (entry_alive e now) then (None, [], mkVerdict (Some N_EXPIRED) false)
  else (Some e, [EvRetain (e_id e)], mkVerdict None true).
(** As above: [src/pogocache.c:1755-1782 entryiter]. *)
Definition entryiter (s : shard) (now : Z) (iter : nat)
  : out (shard * option entry * nat * list event) :=
  if (m_count (s_map s) =? 0)%nat then Ok (s, None, 0%nat, [])
  else match scan (entryiter_judge now) (scan_fuel (s_map s)) None (s_map s) iter [] with
       | Bad t => Bad t
       | Ok (r, m, stopped, evs) =>
           match stopped with
           | Some i => Ok (mkShard (s_cas s) m (s_next s), r, i, evs)
           | None => Ok (mkShard (s_cas s) m (s_next s), None, 0%nat, evs)
           end
       end.

(** [src/pogocache.c:1976-2024 clearop] followed by the release of the old
    entries [2034-2042]. When the new map cannot be allocated the C code clears
    the memory at the buckets pointer itself instead of the buckets. *)
Definition clear_events (now : Z) (deferfree : bool) (es : list entry) : list event :=
  let nt e := EvNotify (if entry_alive e now then N_CLEARED else N_EXPIRED) None (Some e) in
  if deferfree then List.map nt es ++ List.map (fun e => EvFree (e_id e)) es
  else flat_map (fun e => [nt e; EvFree (e_id e)]) es.
(** As above: [src/pogocache.c:1976-2024 clearop]. *)
Definition clearop (mm : mem) (s : shard) (now : Z) (deferfree : bool)
  : out (shard * list event) :=
  let es := List.map snd (items (m_buckets (s_map s))) in
  if negb (al_table mm) then Bad WildWrite else
  let m2 := map_init entry (c_load c) 64 in
  Ok (mkShard (s_cas s)
        (mkMap (m_cap m2) (m_nb m2) (m_count m2) (m_growat m2) (m_shrinkat m2)
           (m_buckets m2) (m_total (s_map s)) (m_entsize m2)) (s_next s),
      clear_events now deferfree es).

(** [src/pogocache.c:1817-1819 countop], [1843-1845 totalop] *)
Definition countop (s : shard) : N := N.of_nat (m_count (s_map s)).
(** As above: [src/pogocache.c:1817-1819 countop]. *)
Definition totalop (s : shard) : N := m_total (s_map s).
(** [src/pogocache.c:1874-1882 sizeop]; sizeof(struct shard) = 72 and
    sizeof(struct bucket) = 10 on 64-bit targets (6+3+1 bytes). *)
Definition SIZEOF_SHARD : N := 72.
(** As above: [src/pogocache.c:1874-1882 sizeop]. *)
Definition SIZEOF_BUCKET : N := 10.
(** As above: [src/pogocache.c:1874-1882 sizeop]. *)
Definition sizeop (s : shard) (entriesonly : bool) : N :=
  u64 ((if entriesonly then 0
        else SIZEOF_SHARD + SIZEOF_BUCKET * N.of_nat (m_nb (s_map s)))
       + m_entsize (s_map s)).

(** [src/pogocache.c:2064-2086 sweeppollop]: (dead, count) of the polled entries;
    the percentage is dead/count. *)
Fixpoint poll_loop (fuel : nat) (m : map entry) (start i pollsize : nat) (now : Z)
    (count dead : nat) : nat * nat :=
  match fuel with
  | O => (dead, count)
  | S f =>
      if (pollsize <=? count)%nat then (dead, count) else
      match nth ((start + i) mod m_nb m)%nat (m_buckets m) None with
      | None => poll_loop f m start (i + 1) pollsize now count dead
      | Some b => poll_loop f m start (i + 1) pollsize now (count + 1)
                    (dead + if entry_alive (b_ent b) now then 0 else 1)
      end
  end.
(** As above: [src/pogocache.c:2064-2086 sweeppollop]. *)
Definition sweeppollop (s : shard) (shardidx : N) (now : Z) (pollsize : nat) : nat * nat :=
  let m := s_map s in
  let start := N.to_nat (mix13 (u64 (u64_of_i64 now + shardidx)) mod N.of_nat (m_nb m)) in
  poll_loop (m_nb m) m start 0 pollsize now 0 0.

End Ops.
