(** The hash map that keeps the prepared statements and portals of a Postgres connection
    (hashmap.c): a robin-hood table. Only what postgres.c uses is modelled: making a map, set,
    get, and going over all items. Memory does not run out here: postgres.c
    passes the allocator of xmalloc.c, which ends the process then. *)
From Verif Require Import Base Map.
From Coq Require Import Lia.
Local Open Scope nat_scope.

Section Hmap.
(** An item has a name and what it keeps, [src/postgres.h:18-31 struct pg_statement, struct pg_portal]. *)
Variable V : Type.
(** The hash function, [src/postgres.c:223-238 pg_statement_hash, pg_portal_hash]; any function. *)
Variable hash : bytes -> N.
(** The number of values of the field [dib], 65536 [src/hashmap.c:30-33 struct bucket]. *)
Variable dibs : nat.
(** [src/hashmap.c:30-33 struct bucket], followed by the item. The bucket type of Map is used: a slot is
    [None] when its [dib] is zero; the other bytes of such a bucket are not read. *)
Local Notation slot := (option (bkt (bytes * V))).
(** The table [src/hashmap.c:36-60 struct hashmap]; [mask] is the number of buckets less one. *)
Record hmap := mkHmap { h_nb : nat; h_count : nat; h_growat : nat; h_buckets : list slot }.

(** [map->nbuckets * (map->loadfactor / 100.0)], load factor 60 [src/hashmap.c:155-156]. The product with
    a power of two is exact, and never an integer, so that it is the integer quotient
    as long as there are fewer than 2^50 buckets. *)
Definition hgrow_at (nb : nat) : nat := nb * 3 / 5.
(** [src/hashmap.c:104-162 hashmap_new_with_allocator] for a capacity [nb] that is a power of two and at least 16. *)
Definition hmap_new (nb : nat) : hmap := mkHmap nb 0 (hgrow_at nb) (repeat None nb).
(** [entry->dib += 1] on a field of 16 bits [src/hashmap.c:252, 311]. *)
Definition hinc (b : bkt (bytes * V)) : bkt (bytes * V) := mkB ((b_dib b + 1) mod dibs) (b_hash b) (b_ent b).
(** [src/hashmap.c:93-95 clip_hash] *)
Definition hclip (h : N) : N := (h mod 2 ^ 48)%N.

(** [src/hashmap.c:239-254], the inner loop of resize0. [fuel] bounds the
    probes; [None] means the loop would not stop within them. *)
Fixpoint hplace (fuel : nat) (t : list slot) (nb j : nat) (e : bkt (bytes * V)) : option (list slot) :=
  match fuel with
  | O => None
  | S f =>
      match nth j t None with
      | None => Some (upd t j (mk_slot e))
      | Some b =>
          if b_dib b <? b_dib e then hplace f (upd t j (mk_slot e)) nb (band nb (j + 1)) (hinc b)
          else hplace f t nb (band nb (j + 1)) (hinc e)
      end
  end.
(** [src/hashmap.c:231-255], the outer loop over the old buckets. *)
Fixpoint hrehash (old t : list slot) (nb : nat) : option (list slot) :=
  match old with
  | [] => Some t
  | None :: r => hrehash r t nb
  | Some b :: r =>
      match hplace nb t nb (home nb (b_hash b)) (mkB 1 (b_hash b) (b_ent b)) with
      | None => None
      | Some t' => hrehash r t' nb
      end
  end.
(** [src/hashmap.c:226-261 resize0] *)
Definition hresize (m : hmap) (nb : nat) : option hmap :=
  match hrehash (h_buckets m) (repeat None nb) nb with
  | None => None
  | Some t => Some (mkHmap nb (h_count m) (hgrow_at nb) t)
  end.
(** [src/hashmap.c:290-312], the loop of set: the new buckets and the item that was replaced, if any. Names are
    compared by strcmp [src/postgres.c:240-258]. *)
Fixpoint hins (fuel : nat) (t : list slot) (nb i : nat) (e : bkt (bytes * V)) : option (list slot * option (bytes * V)) :=
  match fuel with
  | O => None
  | S f =>
      match nth i t None with
      | None => Some (upd t i (mk_slot e), None)
      | Some b =>
          if (b_hash e =? b_hash b)%N && beq (fst (b_ent e)) (fst (b_ent b))
          then Some (upd t i (Some (mkB (b_dib b) (b_hash b) (b_ent e))), Some (b_ent b))
          else if b_dib b <? b_dib e then hins f (upd t i (mk_slot e)) nb (band nb (i + 1)) (hinc b)
          else hins f t nb (band nb (i + 1)) (hinc e)
      end
  end.
(** [src/hashmap.c:270-322 hashmap_set_with_hash, hashmap_set]; [growpower] is 1. [None]: a loop does not end. *)
Definition hmap_set (m : hmap) (name : bytes) (v : V) : option (hmap * option (bytes * V)) :=
  let h := hclip (hash name) in
  match (if h_growat m <=? h_count m then hresize m (h_nb m * 2) else Some m) with
  | None => None
  | Some m =>
      match hins (h_nb m) (h_buckets m) (h_nb m) (home (h_nb m) h) (mkB 1 h (name, v)) with
      | None => None
      | Some (t, None) => Some (mkHmap (h_nb m) (h_count m + 1) (h_growat m) t, None)
      | Some (t, Some old) => Some (mkHmap (h_nb m) (h_count m) (h_growat m) t, Some old)
      end
  end.
(** [src/hashmap.c:332-343], the loop of get: [Some None] is not found. *)
Fixpoint hfind (fuel : nat) (t : list slot) (nb i : nat) (name : bytes) (h : N) : option (option (bytes * V)) :=
  match fuel with
  | O => None
  | S f =>
      match nth i t None with
      | None => Some None
      | Some b => if (b_hash b =? h)%N && beq name (fst (b_ent b)) then Some (Some (b_ent b))
                  else hfind f t nb (band nb (i + 1)) name h
      end
  end.
(** [src/hashmap.c:327-349 hashmap_get_with_hash, hashmap_get] *)
Definition hmap_get (m : hmap) (name : bytes) : option (option (bytes * V)) :=
  let h := hclip (hash name) in hfind (h_nb m) (h_buckets m) (h_nb m) (home (h_nb m) h) name h.
(** What a loop over [hashmap_iter] meets [src/hashmap.c:467-476]. *)
Definition hmap_all (m : hmap) : list (bytes * V) := List.map snd (items (h_buckets m)).

(** The map of a connection, null at first. [src/postgres.c:258-284 portal_insert, statement_insert]: the map after it and the
    item that is freed, if any. *)
Definition named_insert (m : option hmap) (name : bytes) (v : V) : option (option hmap * option (bytes * V)) :=
  match hmap_set (match m with None => hmap_new 16 | Some m => m end) name v with
  | None => None
  | Some (m, old) => Some (Some m, old)
  end.
(** [src/postgres.c:287-325 statement_get, portal_get]; PGNAMEDATALEN is 64. *)
Definition named_get (m : option hmap) (name : bytes) : option (option V) :=
  match m with
  | None => Some None
  | Some m => if 64 <=? length name then Some None else match hmap_get m name with None => None | Some r => Some (option_map snd r) end
  end.
(** [src/postgres.c:172-199 statments_free, portals_free]: what is freed when the connection ends. *)
Definition named_free (m : option hmap) : list (bytes * V) := match m with None => [] | Some m => hmap_all m end.
(** A series of inserts: the map and everything that was freed on the way [src/postgres.c:258-284]. *)
Fixpoint named_run (m : option hmap) (l : list (bytes * V)) : option (option hmap * list (bytes * V)) :=
  match l with
  | [] => Some (m, [])
  | (name, v) :: l =>
      match named_insert m name v with
      | None => None
      | Some (m, old) =>
          match named_run m l with
          | None => None
          | Some (m, frees) => Some (m, match old with Some o => o :: frees | None => frees end)
          end
      end
  end.
End Hmap.
Arguments h_nb {V}. Arguments h_count {V}. Arguments h_growat {V}. Arguments h_buckets {V}. Arguments mkHmap {V}.
(** The values of a field of 16 bits [src/hashmap.c:32]. *)
Definition DIBS : nat := N.to_nat 65536.
