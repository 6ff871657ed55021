(** Threads, the shard locks and batches (pogocache.c). Everything is generic in
    the contents of a shard, so that the same model serves the shards of
    Shard.v and small examples. *)
From Verif Require Import Base Map.

Set Implicit Arguments.
Set Contextual Implicit.

Section Conc.
(** [G]: what the operations share besides the shards, which is the allocator;
    [S]: a shard; [R]: a result; [Op]: operations, and what the body of each
    does, executed with its shard locked. *)
Variables (G S R Op : Type) (sem : Op -> G -> S -> G * S * R).

(** What a thread does. [Do h i f k]: an operation on shard [i] through the
    handle of the batch ([h = true]) or of the cache itself ([h = false]),
    [src/pogocache.c:1368-1394 ACQUIRE_FOR_KEY_AND_EXECUTE and
    ACQUIRE_FOR_SCAN_AND_EXECUTE]; [Begin], [End]: pogocache_begin and
    pogocache_end. *)
Inductive prog :=
| Stop
| Do (h : bool) (i : nat) (f : Op) (k : R -> prog)
| Begin (k : prog)
| End (k : prog).

(** The lock word of a shard [src/pogocache.c:700]: zero, UINTPTR_MAX, or the
    address of a batch. A thread has one batch (usethreadbatch, which main.c:758
    sets), so its number stands for the address. *)
Inductive lockval := Free | Plain | Batch (t : nat).

(** Where a thread is. [src/pogocache.c:1289-1365 acquire_for_key] *)
Inductive pc :=
| At (p : prog)                                     (* outside any call *)
| Want (h : bool) (i : nat) (f : Op) (k : R -> prog)  (* in the loop of lock() *)
| Locked (h : bool) (i : nat) (f : Op) (k : R -> prog)    (* locked *)
| Busy (h : bool) (i : nat) (s : S) (r : R) (k : R -> prog)
                                                    (* the body has read the shard *)
| Out (h : bool) (i : nat) (r : R) (k : R -> prog)  (* the body has written it back *)
| Ending (k : prog).                                (* in the loop of pogocache_end *)

(** [src/pogocache.c:711-715 struct batch]: [th_held] is the list of locked
    shards that starts at batch->shard. *)
Record thread := mkThread { th_pc : pc; th_held : list nat }.
(** As above: [src/pogocache.c:711-715 struct batch]. *)
Record cst := mkCst {
  st_g : G; st_shards : list S; st_locks : list lockval; st_threads : list thread }.

(** What happens, in order. [ELin] is the moment the body reads the shard. For the statements, no counterpart in the code. *)
Inductive tevent :=
| EInv (t : nat) (i : nat) (f : Op)
| ELin (t : nat) (h : bool) (i : nat) (f : Op) (r : R)
| ERet (t : nat) (r : R)
| EBegin (t : nat)
| EEnd (t : nat).

(** A thread changes its state [src/pogocache.c:711-715 struct batch]. *)
Definition set_thread (c : cst) (t : nat) (th : thread) : cst :=
  mkCst (st_g c) (st_shards c) (st_locks c) (upd (st_threads c) t th).
(** Assignment to the lock word [src/pogocache.c:700]. *)
Definition set_lock (c : cst) (i : nat) (v : lockval) : cst :=
  mkCst (st_g c) (st_shards c) (upd (st_locks c) i v) (st_threads c).
(** Assignment to a shard [src/pogocache.c:699-709 struct shard]. *)
Definition set_shard (c : cst) (i : nat) (s : S) : cst :=
  mkCst (st_g c) (upd (st_shards c) i s) (st_locks c) (st_threads c).
(** What all threads share besides the shards changes (the allocator) [src/pogocache.c:555 ctx->malloc]. *)
Definition set_g (c : cst) (g : G) : cst :=
  mkCst g (st_shards c) (st_locks c) (st_threads c).

(** One step of thread [t]. [spurious]: the compare-and-swap is a weak one and
    may fail without reason.
    - [src/pogocache.c:1258-1274 pogocache_begin] (thread batch: the list is
      reset, whatever it was);
    - [src/pogocache.c:1275-1287 pogocache_end], one iteration per step;
    - [src/pogocache.c:1289-1324 lock], one iteration per step;
    - [src/pogocache.c:1368-1394], the body and the release.
    The body takes two steps: it reads the shard (and takes memory from the
    allocator), and it writes the shard. Simplification: reading and writing are
    each one step, and an execution is an interleaving of steps; the acquire
    and release orderings of the lock word make this enough on real hardware. *)
Definition tstep (spurious : bool) (t : nat) (c : cst) : cst * option tevent :=
  match nth_error (st_threads c) t with
  | None => (c, None)
  | Some th =>
      let go p := set_thread c t (mkThread p (th_held th)) in
      match th_pc th with
      | At Stop => (c, None)
      | At (Begin k) => (set_thread c t (mkThread (At k) []), Some (EBegin t))
      | At (End k) => (go (Ending k), Some (EEnd t))
      | Ending k =>
          match th_held th with
          | [] => (go (At k), None)
          | i :: r => (set_lock (set_thread c t (mkThread (Ending k) r)) i Free, None)
          end
      | At (Do h i f k) => (go (Want h i f k), Some (EInv t i f))
      | Want h i f k =>
          match nth_error (st_locks c) i with
          | None => (c, None)
          | Some Free =>
              if spurious then (c, None)
              else if h
              then (set_lock (set_thread c t (mkThread (Locked h i f k) (i :: th_held th))) i (Batch t), None)
              else (set_lock (go (Locked h i f k)) i Plain, None)
          | Some Plain => (c, None)
          | Some (Batch t') => if h && (t' =? t)%nat then (go (Locked h i f k), None) else (c, None)
          end
      | Locked h i f k =>
          match nth_error (st_shards c) i with
          | None => (c, None)
          | Some s =>
              let '(g', s', r) := sem f (st_g c) s in
              (set_g (go (Busy h i s' r k)) g', Some (ELin t h i f r))
          end
      | Busy h i s r k => (set_shard (go (Out h i r k)) i s, None)
      | Out h i r k =>
          let c' := go (At (k r)) in
          (if h then c' else set_lock c' i Free, Some (ERet t r))
      end
  end.

(** A schedule says which thread moves and whether its compare-and-swap fails
    spuriously. For the statements, no counterpart in the code. *)
Fixpoint exec (c : cst) (sched : list (nat * bool)) : cst * list tevent :=
  match sched with
  | [] => (c, [])
  | (t, spurious) :: rest =>
      let '(c1, e) := tstep spurious t c in
      let '(c2, evs) := exec c1 rest in
      (c2, match e with Some e => e :: evs | None => evs end)
  end.

(** The beginning: all locks free, every thread at its program. [src/pogocache.c:1154-1164 shard_init], the locks are zero. *)
Definition initial (g : G) (l : list S) (ps : list prog) : cst :=
  mkCst g l (repeat Free (length l)) (List.map (fun p => mkThread (At p) []) ps).

(** *** Specification: executing operations one at a time *)
Inductive one_by_one : G -> list S -> list (nat * Op * R) -> G -> list S -> Prop :=
| ob_nil : forall g l, one_by_one g l [] g l
| ob_cons : forall g l i f s g1 s1 r rest g2 l2, nth_error l i = Some s -> sem f g s = (g1, s1, r) ->
    one_by_one g1 (upd l i s1) rest g2 l2 -> one_by_one g l ((i, f, r) :: rest) g2 l2.

(** The operations in the order of the moments they read their shard. *)
Definition order (evs : list tevent) : list (nat * Op * R) :=
  flat_map (fun e => match e with ELin _ _ i f r => [(i, f, r)] | _ => [] end) evs.

(** What thread [t] saw: each call is followed by its moment and then by its
    return, with that moment's result, before the next call. *)
Inductive phase := Idle | Called (i : nat) (f : Op) | Took (r : R).
Definition of_thread (t : nat) (evs : list tevent) : list tevent :=
  filter (fun e => match e with EInv u _ _ | ELin u _ _ _ _ | ERet u _ => (u =? t)%nat
                              | _ => false end) evs.
Inductive follows (t : nat) : list tevent -> phase -> Prop :=
| fl_nil : follows t [] Idle
| fl_inv : forall l i f, follows t l Idle -> follows t (l ++ [EInv t i f]) (Called i f)
| fl_lin : forall l h i f r, follows t l (Called i f) -> follows t (l ++ [ELin t h i f r]) (Took r)
| fl_ret : forall l r, follows t l (Took r) -> follows t (l ++ [ERet t r]) Idle.

(** *** Specification: executing batches one at a time *)

(** As [one_by_one], but the allocator may hand out any memory. *)
Inductive any_by_one : list S -> list (nat * Op * R) -> list S -> Prop :=
| ab_nil : forall l, any_by_one l [] l
| ab_cons : forall l i f s g g1 s1 r rest l2, nth_error l i = Some s -> sem f g s = (g1, s1, r) ->
    any_by_one (upd l i s1) rest l2 -> any_by_one l ((i, f, r) :: rest) l2.

(** The batches in the order in which they end, each with its thread and its
    operations; an operation outside a batch counts as a batch of its own. Next
    to it, what each thread's open batch has done so far. *)
Definition collect (a : list (nat * list (nat * Op * R)) * (nat -> list (nat * Op * R))) (e : tevent) :=
  let '(out, open) := a in
  let set t l := fun u => if (u =? t)%nat then l else open u in
  match e with
  | EBegin t => (out, set t [])
  | ELin t true i f r => (out, set t (open t ++ [(i, f, r)]))
  | ELin t false i f r => (out ++ [(t, [(i, f, r)])], open)
  | EEnd t => (out ++ [(t, open t)], set t [])
  | _ => a
  end.
Definition collected (evs : list tevent) := fold_left collect evs ([], fun _ => []).
Definition batches (evs : list tevent) : list (nat * list (nat * Op * R)) := fst (collected evs).
Definition open_batch (evs : list tevent) : nat -> list (nat * Op * R) := snd (collected evs).
Definition batch_order (evs : list tevent) : list (nat * Op * R) := concat (List.map snd (batches evs)).

(** What thread [t] did. *)
Definition acts (t : nat) (evs : list tevent) : list tevent :=
  filter (fun e => match e with ELin u _ _ _ _ | EBegin u | EEnd u => (u =? t)%nat | _ => false end) evs.

(** A thread that executes program [p] and does this has [p'] left to do. *)
Inductive executes (t : nat) : prog -> list tevent -> prog -> Prop :=
| ex_nothing : forall p, executes t p [] p
| ex_op : forall p l h i f k r, executes t p l (Do h i f k) -> executes t p (l ++ [ELin t h i f r]) (k r)
| ex_begin : forall p l k, executes t p l (Begin k) -> executes t p (l ++ [EBegin t]) k
| ex_end : forall p l k, executes t p l (End k) -> executes t p (l ++ [EEnd t]) k.

(** Programs that use the interface as intended: [n] shards; in a batch every
    operation goes through the batch; outside a batch no operation does. [b] is
    the largest shard of the open batch so far; if [strict], no operation of a
    batch needs a smaller shard than an earlier one. *)
Fixpoint orderly (strict : bool) (n : nat) (b : option nat) (p : prog) : Prop :=
  match p, b with
  | Stop, None => True
  | Do false i f k, None => (i < n)%nat /\ forall r, orderly strict n None (k r)
  | Begin k, None => orderly strict n (Some 0%nat) k
  | Do true i f k, Some m => (strict = true -> m <= i)%nat /\ (i < n)%nat /\
      forall r, orderly strict n (Some i) (k r)
  | End k, Some m => orderly strict n None k
  | _, _ => False
  end.

(** Nobody is in the middle of a body. *)
Definition quiet (c : cst) : Prop := forall th h i s r k, List.In th (st_threads c) -> th_pc th <> Busy h i s r k.
End Conc.
