(** Reference counts of entries under threads (pogocache.c). *)
From Verif Require Import Base Map.
Local Open Scope Z_scope.

(** [src/pogocache.c:319-327 struct entry], as far as it matters here: the
    counter, the bytes of the entry (never written after entry_new; the access
    time is not part of them), and whether the block is still allocated. *)
Record cell := mkCell { c_rc : Z; c_data : list byte; c_live : bool }.

(** Who stores a pointer that counts as a reference: the table of a shard, or a
    thread (a local variable, or the entries array of a scan,
    [src/cmds.c:2130-2140 struct scan_ctx]). *)
Inductive owner := InMap (s : nat) | Of (t : nat).

(** [r_borrow]: pointers read from the table of a shard that are not references
    ([src/pogocache.c:1767 entry = get_entry(bkt)]). [r_pend]: a thread is
    between the decrement and ctx->free. *)
Record rst := mkRst {
  r_cells : list cell;
  r_locks : list (option nat);
  r_refs : list (owner * nat);
  r_borrow : list (nat * nat * nat);
  r_pend : list (nat * nat) }.

(** One action of thread [t] on entry [e] (its number, in order of creation) and
    shard [s]. *)
Inductive ract :=
| ALock (t s : nat)                      (* [src/pogocache.c:1289-1324 lock] succeeds *)
| AUnlock (t s : nat)                    (* [src/pogocache.c:1380, 1392] *)
| ANew (t : nat) (d : list byte)         (* [src/pogocache.c:492-636 entry_new] *)
| AInsert (t s e : nat)                  (* [src/pogocache.c:872-915 map_insert] *)
| ATake (t s e : nat)                    (* [src/pogocache.c:950-963 delbkt], or replaced *)
| ABorrow (t s e : nat)                  (* get_entry(bkt) *)
| ALookIn (t s e : nat)                  (* bytes read through a borrowed pointer *)
| AClone (t s e : nat)                   (* [src/pogocache.c:1777], reference for the caller *)
| ARetain (t e : nat)                    (* [src/pogocache.c:2105-2112 pogocache_entry_retain] *)
| AGive (t t' e : nat)                   (* a reference changes hands *)
| ALook (t e : nat)                      (* [src/pogocache.c:2123-2149] key, value, ... *)
| ADrop (t e : nat)                      (* the decrement in [src/pogocache.c:639] *)
| AFree (t e : nat).                     (* [src/pogocache.c:642 ctx->free] *)

Inductive revent := RRead (e : nat) (d : list byte) | RFreed (e : nat).

(** Memory that has been freed must not be touched: [None]. [src/pogocache.c:638-648 entry_free] *)
Definition with_cell (c : rst) (e : nat) (f : cell -> rst * list revent) : option (rst * list revent) :=
  match nth_error (r_cells c) e with
  | Some x => if c_live x then Some (f x) else None
  | None => None
  end.

(** Assignment to an entry [src/pogocache.c:319-327 struct entry]. *)
Definition set_cell (c : rst) (e : nat) (x : cell) : rst :=
  mkRst (upd (r_cells c) e x) (r_locks c) (r_refs c) (r_borrow c) (r_pend c).
(** For the statements, no counterpart in the code. *)
Definition set_refs (c : rst) (l : list (owner * nat)) : rst :=
  mkRst (r_cells c) (r_locks c) l (r_borrow c) (r_pend c).
(** For the statements, no counterpart in the code. *)
Definition set_borrow (c : rst) (l : list (nat * nat * nat)) : rst :=
  mkRst (r_cells c) (r_locks c) (r_refs c) l (r_pend c).
(** For the statements, no counterpart in the code. *)
Definition set_pend (c : rst) (l : list (nat * nat)) : rst :=
  mkRst (r_cells c) (r_locks c) (r_refs c) (r_borrow c) l.
(** Assignment to the lock word [src/pogocache.c:700]. *)
Definition set_rlock (c : rst) (s : nat) (v : option nat) : rst :=
  mkRst (r_cells c) (upd (r_locks c) s v) (r_refs c) (r_borrow c) (r_pend c).

(** For the statements, no counterpart in the code. *)
Definition owner_eqb (a b : owner) : bool :=
  match a, b with
  | InMap s, InMap s' => (s =? s')%nat
  | Of t, Of t' => (t =? t')%nat
  | _, _ => false
  end.
(** For the statements, no counterpart in the code. *)
Definition ref_eqb (a b : owner * nat) : bool := owner_eqb (fst a) (fst b) && (snd a =? snd b)%nat.

(** Forget one occurrence. For the statements, no counterpart in the code. *)
Fixpoint remove_one {A} (eqb : A -> A -> bool) (x : A) (l : list A) : list A :=
  match l with
  | [] => []
  | y :: r => if eqb x y then r else y :: remove_one eqb x r
  end.
(** For the statements, no counterpart in the code. *)
Definition pair_eqb (a b : nat * nat) : bool := (fst a =? fst b)%nat && (snd a =? snd b)%nat.

(** For the statements, no counterpart in the code. *)
Definition move_ref (c : rst) (a b : owner) (e : nat) : rst :=
  set_refs c ((b, e) :: remove_one ref_eqb (a, e) (r_refs c)).

(** A pointer thread [t] borrowed from shard [s]. For the statements, no counterpart in the code. *)
Definition lent (t s : nat) (b : nat * nat * nat) : bool :=
  let '(t', s', _) := b in (t' =? t)%nat && (s' =? s)%nat.

(** The counter is an atomic_int: 32 bits, two's complement (C11 7.17.7.5). [src/pogocache.c:319-327 struct entry, rc] *)
Definition int32 (x : Z) : Z := (x + 2147483648) mod 4294967296 - 2147483648.

(** What an action does to memory, whether or not it should have been done.
    A borrowed pointer is not used after the shard is unlocked or the entry is
    taken out.
    - [src/pogocache.c:561]: the counter starts at 1;
    - [src/pogocache.c:645-648 entry_clone];
    - [src/pogocache.c:638-643 entry_free]: the thread that saw a count of at
      most 1 goes on to free, in a separate step. *)
Definition rstep (a : ract) (c : rst) : option (rst * list revent) :=
  match a with
  | ALock t s => Some (set_rlock c s (Some t), [])
  | AUnlock t s => Some (set_borrow (set_rlock c s None) (filter (fun b => negb (lent t s b)) (r_borrow c)), [])
  | ANew t d =>
      Some (mkRst (r_cells c ++ [mkCell 1 d true]) (r_locks c)
              ((Of t, length (r_cells c)) :: r_refs c) (r_borrow c) (r_pend c), [])
  | AInsert t s e => Some (move_ref c (Of t) (InMap s) e, [])
  | ATake t s e =>
      Some (set_borrow (move_ref c (InMap s) (Of t) e)
              (filter (fun b => negb (lent t s b && (snd b =? e)%nat)) (r_borrow c)), [])
  | ABorrow t s e => Some (set_borrow c ((t, s, e) :: r_borrow c), [])
  | ALookIn t s e => with_cell c e (fun x => (c, [RRead e (c_data x)]))
  | AClone t _ e | ARetain t e =>
      with_cell c e (fun x =>
        (set_refs (set_cell c e (mkCell (int32 (c_rc x + 1)) (c_data x) (c_live x)))
           ((Of t, e) :: r_refs c), []))
  | AGive t t' e => Some (move_ref c (Of t) (Of t') e, [])
  | ALook t e => with_cell c e (fun x => (c, [RRead e (c_data x)]))
  | ADrop t e =>
      with_cell c e (fun x =>
        let c1 := set_refs (set_cell c e (mkCell (int32 (c_rc x - 1)) (c_data x) (c_live x)))
                    (remove_one ref_eqb (Of t, e) (r_refs c)) in
        (if 1 <? c_rc x then c1 else set_pend c1 ((t, e) :: r_pend c), []))
  | AFree t e =>
      with_cell c e (fun x =>
        (set_pend (set_cell c e (mkCell (c_rc x) (c_data x) false))
           (remove_one pair_eqb (t, e) (r_pend c)), [RFreed e]))
  end.

(** What the code and the callers do: a table is changed and its pointers are
    used only with the shard locked; a thread uses and releases only references
    it has; it frees what entry_free told it to free.
    [ALock]: what the compare-and-swap of lock() ensures. For the statements, no counterpart in the code. *)
Definition allowed (a : ract) (c : rst) : Prop :=
  let locked t s := nth_error (r_locks c) s = Some (Some t) in
  match a with
  | ALock t s => nth_error (r_locks c) s = Some None
  | AUnlock t s => locked t s
  | ANew t d => True
  | AInsert t s e => locked t s /\ In (Of t, e) (r_refs c)
  | ATake t s e => locked t s /\ In (InMap s, e) (r_refs c)
  | ABorrow t s e => locked t s /\ In (InMap s, e) (r_refs c)
  | ALookIn t s e => locked t s /\ In (t, s, e) (r_borrow c)
  | AClone t s e => locked t s /\ In (t, s, e) (r_borrow c)
  | ARetain t e | AGive t _ e | ALook t e | ADrop t e => In (Of t, e) (r_refs c)
  | AFree t e => In (t, e) (r_pend c)
  end.

(** A sequence of actions of any threads, in the order they happen. For the statements, no counterpart in the code. *)
Fixpoint rexec (c : rst) (l : list ract) : option (rst * list revent) :=
  match l with
  | [] => Some (c, [])
  | a :: r =>
      match rstep a c with
      | None => None
      | Some (c1, ev) => match rexec c1 r with None => None | Some (c2, evs) => Some (c2, ev ++ evs) end
      end
  end.

(** *** Specification *)

(** The number of references to an entry. For the statements, no counterpart in the code. *)
Definition references (c : rst) (e : nat) : nat :=
  length (filter (fun p => (snd p =? e)%nat) (r_refs c)).

(** Every action is allowed when it happens, and afterwards no entry has more
    references than an int can count. For the statements, no counterpart in the code. *)
Fixpoint disciplined (c : rst) (l : list ract) : Prop :=
  match l with
  | [] => True
  | a :: r =>
      allowed a c /\
      match rstep a c with
      | None => True
      | Some (c1, _) => (forall e, Z.of_nat (references c1 e) <= 2147483647) /\ disciplined c1 r
      end
  end.

(** The beginning: [n] shards, no entries. [src/pogocache.c:1216-1241 pogocache_new] *)
Definition empty_state (n : nat) : rst := mkRst [] (repeat None n) [] [] [].

(** The bytes of the [e]-th entry created. For the statements, no counterpart in the code. *)
Definition created (l : list ract) : list (list byte) :=
  flat_map (fun a => match a with ANew _ d => [d] | _ => [] end) l.

(** For the statements, no counterpart in the code. *)
Definition frees (evs : list revent) (e : nat) : nat :=
  length (filter (fun v => match v with RFreed e' => (e' =? e)%nat | _ => false end) evs).
