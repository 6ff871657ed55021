(** The robin-hood hash table, generic in the entries it holds. *)
From Verif Require Import Base Hash.

Section Map.
Variable E : Type.
(** [ecmp a b]: entry_compare(a,b)==0; [ekey]: entry_key; [esize]:
    entry_memsize. Shard.v instantiates them with the functions of Entry.v. *)
Variable ecmp : E -> E -> bool.
Variable ekey : E -> bytes.
Variable esize : E -> N.
(** load factor in percent *)
Variable load : N.

(** [src/pogocache.c:679-683 struct bucket]. The pointer and hash packing is in
    Hash.v and shown lossless there, so the bucket holds the values.
    A bucket with [dib] 0 is free; its other fields are never read before they
    are written, so a slot is [None] exactly when its dib is 0. *)
Record bkt := mkB { b_dib : nat; b_hash : N; b_ent : E }.
Local Notation slot := (option bkt).

(** Storing a bucket: one whose 8-bit dib wrapped to zero is a free slot. [src/pogocache.c:808-814 get_dib, set_dib] *)
Definition mk_slot (b : bkt) : slot := if (b_dib b =? 0)%nat then None else Some b.

(** [set_dib(&ebkt, get_dib(&ebkt)+1)] on a uint8_t. [src/pogocache.c:855] *)
Definition inc_dib (b : bkt) : bkt := mkB ((b_dib b + 1) mod 256) (b_hash b) (b_ent b).

(** Assignment to an element of [map->buckets] [src/pogocache.c:687-697 struct map] *)
Fixpoint upd {A} (l : list A) (i : nat) (x : A) : list A :=
  match l, i with
  | [], _ => []
  | _ :: r, O => x :: r
  | y :: r, S j => y :: upd r j x
  end.

(** [i & mask] with mask = nbuckets-1. [src/pogocache.c:834-975] *)
Definition band (nb i : nat) : nat := N.to_nat (N.land (N.of_nat i) (N.of_nat nb - 1)).
(** [hash & mask] [src/pogocache.c:834-975] *)
Definition home (nb : nat) (h : N) : nat := N.to_nat (N.land h (N.of_nat nb - 1)).

(** [src/pogocache.c:687-697 struct map]; [mask] is always nbuckets-1.
    Simplification: counts are unbounded naturals (int in C). *)
Record map := mkMap {
  m_cap : nat;
  m_nb : nat;
  m_count : nat;
  m_growat : nat;
  m_shrinkat : nat;
  m_buckets : list slot;
  m_total : N;
  m_entsize : N
}.

(** [nbuckets * ctx->loadfactor] truncated to int. The C code computes it in
    double precision; for nbuckets = 2^k and an integral percentage between 55
    and 95 the truncated product is the integer quotient (only 75% makes it
    integral, and 0.75 is exact in binary). [src/pogocache.c:821 map->growat] *)
Definition grow_at (nb : nat) : nat := N.to_nat (N.of_nat nb * load / 100).
(** [nbuckets * ctx->shrinkfactor], SHRINKAT 10. [src/pogocache.c:818-823 map->shrinkat] *)
Definition shrink_at (nb : nat) : nat := N.to_nat (N.of_nat nb * 10 / 100).

(** [src/pogocache.c:816-832 map_init], allocation succeeded. *)
Definition map_init (cap : nat) : map :=
  mkMap cap cap 0 (grow_at cap) (shrink_at cap) (repeat None cap) 0 0.

(** [src/pogocache.c:844-856], the inner loop of resize. [fuel] bounds the
    probes; [None] means the loop would not stop within them. *)
Fixpoint place_loop (fuel : nat) (t : list slot) (nb i : nat) (eb : bkt)
  : option (list slot) :=
  match fuel with
  | O => None
  | S f =>
      match nth i t None with
      | None => Some (upd t i (mk_slot eb))
      | Some b =>
          if (b_dib b <? b_dib eb)%nat
          then place_loop f (upd t i (mk_slot eb)) nb (band nb (i + 1)) (inc_dib b)
          else place_loop f t nb (band nb (i + 1)) (inc_dib eb)
      end
  end.

(** [src/pogocache.c:839-858], the outer loop of resize over the old buckets. *)
Fixpoint rehash (old : list slot) (t : list slot) (nb : nat) : option (list slot) :=
  match old with
  | [] => Some t
  | None :: r => rehash r t nb
  | Some b :: r =>
      match place_loop nb t nb (home nb (b_hash b)) (mkB 1 (b_hash b) (b_ent b)) with
      | None => None
      | Some t' => rehash r t' nb
      end
  end.

(** Result of an operation that may allocate a bucket array: [RFail] is the C
    function returning false, [RLoop] a probe loop that does not stop. [src/pogocache.c:834-905 resize, map_insert] *)
Inductive mres (A : Type) := RLoop | RFail | ROk (a : A).
Arguments RLoop {A}. Arguments RFail {A}. Arguments ROk {A} a.

(** [src/pogocache.c:834-870 resize]; [alloc] says whether malloc succeeds. *)
Definition resize (alloc : bool) (m : map) (new_cap : nat) : mres map :=
  if alloc then
    match rehash (m_buckets m) (repeat None new_cap) new_cap with
    | None => RLoop
    | Some t => ROk (mkMap (m_cap m) new_cap (m_count m) (grow_at new_cap)
                       (shrink_at new_cap) t (m_total m) (m_entsize m))
    end
  else RFail.

(** [src/pogocache.c:888-914], the loop of map_insert: the new buckets and the
    replaced entry if any. *)
Fixpoint ins_loop (fuel : nat) (t : list slot) (nb i : nat) (eb : bkt)
  : option (list slot * option E) :=
  match fuel with
  | O => None
  | S f =>
      match nth i t None with
      | None => Some (upd t i (mk_slot eb), None)
      | Some b =>
          if (b_hash eb =? b_hash b)%N && ecmp (b_ent eb) (b_ent b)
          then Some (upd t i (Some (mkB (b_dib b) (b_hash b) (b_ent eb))), Some (b_ent b))
          else if (b_dib b <? b_dib eb)%nat
          then ins_loop f (upd t i (mk_slot eb)) nb (band nb (i + 1)) (inc_dib b)
          else ins_loop f t nb (band nb (i + 1)) (inc_dib eb)
      end
  end.

(** [src/pogocache.c:872-915 map_insert]: new map and the old entry. *)
Definition map_insert (alloc : bool) (m : map) (e : E) (hash : N)
  : mres (map * option E) :=
  let hash := clip_hash hash in
  let grown :=
    if (m_growat m <=? m_count m)%nat then resize alloc m (m_nb m * 2) else ROk m in
  match grown with
  | RLoop => RLoop
  | RFail => RFail
  | ROk m =>
      let entsize := u64 (m_entsize m + esize e) in
      match ins_loop (m_nb m) (m_buckets m) (m_nb m) (home (m_nb m) hash)
              (mkB 1 hash e) with
      | None => RLoop
      | Some (t, None) =>
          ROk (mkMap (m_cap m) (m_nb m) (m_count m + 1) (m_growat m)
                 (m_shrinkat m) t (u64 (m_total m + 1)) entsize, None)
      | Some (t, Some old) =>
          ROk (mkMap (m_cap m) (m_nb m) (m_count m) (m_growat m)
                 (m_shrinkat m) t (m_total m)
                 (u64 (entsize + 2 ^ 64 - esize old)), Some old)
      end
  end.

(** [src/pogocache.c:917-928 bucket_eq] on a used bucket *)
Definition bucket_eq (b : bkt) (key : bytes) (hash : N) : bool :=
  (b_hash b =? hash)%N && beq key (ekey (b_ent b)).

(** [src/pogocache.c:936-945 and 1007-1015]: [Some None] is not found. *)
Fixpoint find_loop (fuel : nat) (t : list slot) (nb i : nat) (key : bytes) (hash : N)
  : option (option nat) :=
  match fuel with
  | O => None
  | S f =>
      match nth i t None with
      | None => Some None
      | Some b => if bucket_eq b key hash then Some (Some i)
                  else find_loop f t nb (band nb (i + 1)) key hash
      end
  end.

(** [src/pogocache.c:931-946 map_get_bucket] *)
Definition map_get_bucket (m : map) (key : bytes) (hash : N) : option (option nat) :=
  let hash := clip_hash hash in
  find_loop (m_nb m) (m_buckets m) (m_nb m) (home (m_nb m) hash) key hash.

(** [src/pogocache.c:952-961], the loop of delbkt; [h] is the bucket to fill. *)
Fixpoint del_loop (fuel : nat) (t : list slot) (nb h : nat) : option (list slot) :=
  match fuel with
  | O => None
  | S f =>
      let i := band nb (h + 1) in
      match nth i t None with
      | Some b =>
          if (b_dib b <=? 1)%nat then Some (upd t h None)
          else del_loop f (upd t h (mk_slot (mkB (b_dib b - 1) (b_hash b) (b_ent b)))) nb i
      | None => Some (upd t h None)
      end
  end.

(** [src/pogocache.c:950-963 delbkt] *)
Definition delbkt (m : map) (i : nat) : option map :=
  match del_loop (m_nb m) (upd (m_buckets m) i None) (m_nb m) i with
  | None => None
  | Some t => Some (mkMap (m_cap m) (m_nb m) (m_count m - 1) (m_growat m)
                      (m_shrinkat m) t (m_total m) (m_entsize m))
  end.

(** [src/pogocache.c:991-997 delentry_at_bkt]: subtracts the size and deletes. *)
Definition delentry_at_bkt (m : map) (i : nat) (old : E) : option map :=
  delbkt (mkMap (m_cap m) (m_nb m) (m_count m) (m_growat m) (m_shrinkat m)
            (m_buckets m) (m_total m) (u64 (m_entsize m + 2 ^ 64 - esize old))) i.

(** [src/pogocache.c:1002-1016 map_delete]; [None]: a loop does not stop (or the
    assertion in delentry_at_bkt fails); [Some (m, None)]: not found. *)
Definition map_delete (m : map) (key : bytes) (hash : N) : option (map * option E) :=
  match map_get_bucket m key hash with
  | None => None
  | Some None => Some (m, None)
  | Some (Some i) =>
      match nth i (m_buckets m) None with
      | None => None
      | Some b =>
          match delentry_at_bkt m i (b_ent b) with
          | None => None
          | Some m' => Some (m', Some (b_ent b))
          end
      end
  end.

(** [src/pogocache.c:965-968 needsshrink] *)
Definition needsshrink (allowshrink : bool) (m : map) : bool :=
  allowshrink && (m_cap m <? m_nb m)%nat && (m_count m <=? m_shrinkat m)%nat.

(** [src/pogocache.c:980-986], the loop choosing the new capacity. *)
Fixpoint shrink_cap (fuel : nat) (count cap : nat) : option nat :=
  match fuel with
  | O => None
  | S f => if (grow_at cap <=? count)%nat then shrink_cap f count (cap * 2)
           else Some cap
  end.

(** [src/pogocache.c:974-988 tryshrink]; a failed allocation keeps the map. *)
Definition tryshrink (allowshrink alloc : bool) (m : map) : option map :=
  if needsshrink allowshrink m then
    match shrink_cap (m_nb m) (m_count m) (m_cap m) with
    | None => None
    | Some cap =>
        match resize alloc m cap with
        | RLoop => None
        | RFail => Some m
        | ROk m' => Some m'
        end
    end
  else Some m.

(** The entries in bucket order, with their hashes. For the statements, no counterpart in the code. *)
Fixpoint items (t : list slot) : list (N * E) :=
  match t with
  | [] => []
  | None :: r => items r
  | Some b :: r => (b_hash b, b_ent b) :: items r
  end.

End Map.

Arguments mkB {E}. Arguments b_dib {E}. Arguments b_hash {E}. Arguments b_ent {E}.
Arguments mk_slot {E}. Arguments inc_dib {E}. 
Arguments mkMap {E}. Arguments m_cap {E}. Arguments m_nb {E}. Arguments m_count {E}.
Arguments m_growat {E}. Arguments m_shrinkat {E}. Arguments m_buckets {E}.
Arguments m_total {E}. Arguments m_entsize {E}.
Arguments place_loop {E}. Arguments rehash {E}. Arguments resize {E}.
Arguments ins_loop {E}. Arguments map_insert {E}. Arguments bucket_eq {E}.
Arguments find_loop {E}. Arguments map_get_bucket {E}. Arguments del_loop {E}.
Arguments delbkt {E}. Arguments delentry_at_bkt {E}. Arguments map_delete {E}.
Arguments needsshrink {E}. Arguments tryshrink {E}. Arguments items {E}.
Arguments map_init E load cap : clear implicits. 
Arguments RLoop {A}. Arguments RFail {A}. Arguments ROk {A} a.
