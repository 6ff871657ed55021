(** What the cache is supposed to do: a map from keys to items that expire.
    Nothing here mentions tables, shards' layout or encodings. *)
From Verif Require Import Base Types.
Local Open Scope N_scope.

(** What a key holds. [i_exp] 0 means no expiration; [i_time] is the time of the
    last access (it only matters for the choice of a victim under low memory). *)
Record item := mkItem {
  i_val : bytes; i_exp : Z; i_flags : N; i_cas : N; i_time : Z
}.

Definition amap := bytes -> option item.
Definition aset (m : amap) (key : bytes) (x : option item) : amap :=
  fun k => if beq key k then x else m k.

(** An item is visible at [now] iff it has no expiration or it lies ahead. *)
Definition alive_at (exp now : Z) : bool := ((exp =? 0) || (now <? exp))%Z.
Definition live_item (m : amap) (key : bytes) (now : Z) : option item :=
  match m key with
  | Some it => if alive_at (i_exp it) now then Some it else None
  | None => None
  end.

Definition shown_of (it : item) : view :=
  mkView (i_val it) (i_exp it) (i_flags it) (i_cas it).

(** Non-positive expirations mean none. *)
Definition norm (z : Z) : Z := if (0 <? z)%Z then z else 0%Z.
(** The nearest 64-bit signed integer. *)
Definition clamp64 (z : Z) : Z := Z.max INT64_MIN (Z.min INT64_MAX z).

Section Spec.
Variable usecas : bool.
(** the token an item reports: 0 when tokens are off *)
Definition token (cas : N) : N := if usecas then cas else 0.

(** pogocache_load. [cas] is the token counter, [al] whether memory for an
    updated item can be had. The result: new map, new counter, status, and what
    the callback was shown. *)
Definition sp_load (al : bool) (m : amap) (cas : N) (key : bytes) (o : load_opts) (now : Z)
  : amap * N * status * list (bytes * view) :=
  match live_item m key now with
  | None => (aset m key None, cas, NOTFOUND, [])
  | Some it =>
      let touched := if lo_notouch o then it
        else mkItem (i_val it) (i_exp it) (i_flags it) (i_cas it) now in
      match lo_entry o with
      | None => (aset m key (Some touched), cas, FOUND, [])
      | Some f =>
          match f (shown_of it) with
          | None => (aset m key (Some touched), cas, FOUND, [(key, shown_of it)])
          | Some u =>
              let cas' := u64 (cas + 1) in
              if al then
                (aset m key (Some (mkItem (u_val u) (norm (u_exp u)) (u_flags u)
                                     (token cas') now)),
                 cas', FOUND, [(key, shown_of it)])
              else (aset m key (Some touched), cas', NOMEM, [(key, shown_of it)])
          end
      end
  end.

(** pogocache_delete *)
Definition sp_delete (m : amap) (key : bytes) (cb : delete_cb) (now : Z)
  : amap * status * list (bytes * view) :=
  match live_item m key now with
  | None => (aset m key None, NOTFOUND, [])
  | Some it =>
      match cb with
      | None => (aset m key None, DELETED, [])
      | Some f => if f (shown_of it)
                  then (aset m key None, DELETED, [(key, shown_of it)])
                  else (m, CANCELED, [(key, shown_of it)])
      end
  end.

(** The expiration a store asks for. *)
Definition sp_expires (m : amap) (key : bytes) (o : store_opts) (now : Z) : Z :=
  let given :=
    if (so_expires o >? 0)%Z then so_expires o
    else if (so_ttl o >? 0)%Z then norm (clamp64 (now + so_ttl o)) else 0%Z in
  if so_keepttl o then
    match live_item m key now with Some it => i_exp it | None => given end
  else given.

(** pogocache_store when memory is available and nothing is evicted. *)
Definition sp_store (m : amap) (cas : N) (key val : bytes) (o : store_opts) (now : Z)
  : amap * N * status * list (bytes * view) :=
  let cas' := u64 (cas + 1) in
  let new := mkItem val (sp_expires m key o now) (so_flags o) (token cas') now in
  match live_item m key now with
  | Some it =>
      let refuse :=
        if so_casop o then negb (usecas && (so_cas o =? i_cas it)) else so_nx o in
      if refuse then (m, cas', FOUND, [])
      else match so_entry o with
           | None => (aset m key (Some new), cas', REPLACED, [])
           | Some f =>
               if f (shown_of it)
               then (aset m key (Some new), cas', REPLACED, [(key, shown_of it)])
               else (m, cas', CANCELED, [(key, shown_of it)])
           end
  | None =>
      if so_xx o || so_casop o
      then (aset m key None, cas', NOTFOUND, [])
      else (aset m key (Some new), cas', INSERTED, [])
  end.

(** All of pogocache_store. [noevict] is the cache option, [altable] whether
    memory for a bigger table can be had, [same k] whether key [k] lives in the
    same shard. *)
Inductive sp_store_step (noevict altable : bool) (same : bytes -> Prop)
  (m : amap) (cas : N) (key val : bytes) (o : store_opts) (now : Z)
  : amap -> N -> status -> list (bytes * view) -> Prop :=
| sps_normal : forall m' cas' st shown,
    sp_store m cas key val o now = (m', cas', st, shown) ->
    so_lowmem o && noevict = false ->
    sp_store_step noevict altable same m cas key val o now m' cas' st shown
| sps_evict : forall m' cas' shown victim,
    (* low memory, a new key was inserted: one other item may go *)
    sp_store m cas key val o now = (m', cas', INSERTED, shown) ->
    so_lowmem o = true -> noevict = false -> m key = None ->
    victim <> key -> same victim -> m victim <> None ->
    sp_store_step noevict altable same m cas key val o now (aset m' victim None) cas' INSERTED shown
| sps_noevict :
    so_lowmem o = true -> noevict = true ->
    sp_store_step noevict altable same m cas key val o now m (u64 (cas + 1)) NOMEM []
| sps_nomem :
    altable = false ->
    sp_store_step noevict altable same m cas key val o now m (u64 (cas + 1)) NOMEM [].

End Spec.

(** *** Operations on many keys. [dom] says which keys are concerned (all keys,
    or those of one shard). *)
Section Many.
Variable dom : bytes -> Prop.

(** pogocache_sweep: expired items go, the others stay. *)
Definition sp_sweep (m : amap) (now : Z) (m' : amap) : Prop :=
  forall k, (dom k -> m' k = live_item m k now) /\ (~ dom k -> m' k = m k).

(** pogocache_clear *)
Definition sp_clear (m m' : amap) : Prop :=
  forall k, (dom k -> m' k = None) /\ (~ dom k -> m' k = m k).

(** [iter_run f st shown st' deleted stopped]: calling [f] on the items [shown]
    one after the other, threading its state, asks to delete the keys [deleted];
    [stopped] says that the last call asked to stop. *)
Inductive iter_run {S : Type} (f : S -> bytes -> view -> S * iter_action)
  : S -> list (bytes * view) -> S -> list bytes -> bool -> Prop :=
| ir_nil : forall st, iter_run f st [] st [] false
| ir_stop : forall st k w st1 del, f st k w = (st1, (del, true)) ->
    iter_run f st [(k, w)] st1 (if del : bool then [k] else []) true
| ir_next : forall st k w st1 del r st2 ds stop, f st k w = (st1, (del, false)) ->
    iter_run f st1 r st2 ds stop ->
    iter_run f st ((k, w) :: r) st2 ((if del : bool then [k] else []) ++ ds) stop.

(** pogocache_iter *)
Record sp_iter {S : Type} (cb : option (S -> bytes -> view -> S * iter_action))
  (m : amap) (st : S) (now : Z) (m' : amap) (st' : S) (status : status)
  (shown : list (bytes * view)) (deleted : list bytes) : Prop := {
  (* the callback is called on the shown items, and its answers obeyed *)
  it_run : match cb with
           | None => shown = [] /\ deleted = [] /\ st' = st /\ status = FINISHED
           | Some f => exists stopped, iter_run f st shown st' deleted stopped /\
               status = (if stopped then CANCELED else FINISHED)
           end;
  (* only live items are shown, as they are *)
  it_live : forall k w, In (k, w) shown -> dom k /\
      exists it, live_item m k now = Some it /\ w = shown_of it;
  (* all of them, unless told to stop *)
  it_all : cb <> None -> status = FINISHED ->
      forall k it, dom k -> live_item m k now = Some it -> In (k, shown_of it) shown;
  (* what is deleted is gone *)
  it_gone : forall k, In k deleted -> m' k = None;
  (* nothing else happens to live items; expired ones may go *)
  it_kept : forall k, ~ In k deleted ->
      m' k = m k \/ (dom k /\ live_item m k now = None /\ m' k = None);
  it_swept : status = FINISHED -> forall k, dom k -> ~ In k deleted ->
      m' k = live_item m k now;
  (* no item is shown twice when nothing is removed on the way *)
  it_once : deleted = [] -> (forall k, dom k -> m k = live_item m k now) ->
      NoDup (List.map fst shown)
}.
End Many.

(** *** The whole cache: contents, and one token counter per shard. *)
Record world := mkWorld { w_map : amap; w_cas : nat -> N }.

(** [P] holds of exactly [n] keys. *)
Definition number (P : bytes -> Prop) (n : N) : Prop :=
  exists ks, NoDup ks /\ (forall k, In k ks <-> P k) /\ N.of_nat (length ks) = n.

Section World.
Variable usecas noevict : bool.
(** the shard of a key *)
Variable route : bytes -> nat.

(** The keys a call with the one-shard option concerns. *)
Definition sel (one : option Z) (k : bytes) : Prop :=
  match one with None => True | Some z => Z.of_nat (route k) = z end.

(** [spec_step w en x w' r]: call [x] may take [w] to [w'] and return [r]. *)
Inductive spec_step (en : env) (w : world) : call -> world -> result -> Prop :=
| sx_store : forall key val o time w' m' cas' st shown,
    sp_store_step usecas noevict (al_table (en_mem en (route key)))
      (fun k => route k = route key) (w_map w) (w_cas w (route key)) key val o
      (resolve_now time (en_clock en)) m' cas' st shown ->
    (forall k, w_map w' k = m' k) ->
    (forall i, w_cas w' i = if (i =? route key)%nat then cas' else w_cas w i) ->
    spec_step en w (Store key val o time) w' (RStatus st shown)
| sx_load : forall key o time w' m' cas' st shown,
    sp_load usecas (al_entry (en_mem en (route key))) (w_map w) (w_cas w (route key)) key o
      (resolve_now time (en_clock en)) = (m', cas', st, shown) ->
    (forall k, w_map w' k = m' k) ->
    (forall i, w_cas w' i = if (i =? route key)%nat then cas' else w_cas w i) ->
    spec_step en w (Load key o time) w' (RStatus st shown)
| sx_delete : forall key cb time w' m' st shown,
    sp_delete (w_map w) key cb (resolve_now time (en_clock en)) = (m', st, shown) ->
    (forall k, w_map w' k = m' k) -> (forall i, w_cas w' i = w_cas w i) ->
    spec_step en w (Delete key cb time) w' (RStatus st shown)
| sx_iter : forall cb one time w' st shown hist deleted,
    sp_iter (sel one)
      (match cb with
       | None => None
       | Some f => Some (fun h k v => (h ++ [(k, v)], f h k v)) end)
      (w_map w) [] (resolve_now time (en_clock en)) (w_map w') hist st shown deleted ->
    (forall i, w_cas w' i = w_cas w i) ->
    spec_step en w (Iter cb one time) w' (RStatus st shown)
| sx_entry_iter : forall cursor time w' r cur,
    (forall id k v, r = Some (id, k, v) ->
       exists it, live_item (w_map w) k (resolve_now time (en_clock en)) = Some it /\
         v = shown_of it) ->
    (r = None -> cur = 0) ->
    (* expired items may go *)
    (forall k, w_map w' k = w_map w k \/
       (live_item (w_map w) k (resolve_now time (en_clock en)) = None /\ w_map w' k = None)) ->
    (forall i, w_cas w' i = w_cas w i) ->
    spec_step en w (EntryIter cursor time) w' (REntry r cur)
| sx_sweep : forall one time w' swept kept expired live kp,
    sp_sweep (sel one) (w_map w) (resolve_now time (en_clock en)) (w_map w') ->
    (forall i, w_cas w' i = w_cas w i) ->
    number (fun k => sel one k /\ w_map w k <> None /\
              live_item (w_map w) k (resolve_now time (en_clock en)) = None) expired ->
    number (fun k => sel one k /\
              live_item (w_map w) k (resolve_now time (en_clock en)) <> None) live ->
    swept = u64 expired ->
    (* an item that was moved by a removal may be counted twice *)
    kept = u64 kp -> live <= kp <= live + expired ->
    spec_step en w (Sweep one time) w' (RSwept swept kept)
| sx_clear : forall one deferfree time w',
    sp_clear (sel one) (w_map w) (w_map w') -> (forall i, w_cas w' i = w_cas w i) ->
    spec_step en w (Clear one deferfree time) w' RVoid
| sx_count : forall one w' n,
    (forall k, w_map w' k = w_map w k) -> (forall i, w_cas w' i = w_cas w i) ->
    number (fun k => sel one k /\ w_map w k <> None) n ->
    spec_step en w (Count one) w' (RNum (u64 n))
(* the numbers returned by these are not specified here *)
| sx_total : forall one w' n,
    (forall k, w_map w' k = w_map w k) -> (forall i, w_cas w' i = w_cas w i) ->
    spec_step en w (Total one) w' (RNum n)
| sx_size : forall one eo w' n,
    (forall k, w_map w' k = w_map w k) -> (forall i, w_cas w' i = w_cas w i) ->
    spec_step en w (Size one eo) w' (RNum n)
| sx_poll : forall size time w' d n,
    (forall k, w_map w' k = w_map w k) -> (forall i, w_cas w' i = w_cas w i) -> d <= n ->
    spec_step en w (SweepPoll size time) w' (RPoll d n).

(** A history: the results may be those of executing the calls one after the
    other on the abstract cache. *)
Inductive spec_run : world -> list (env * call) -> world -> list result -> Prop :=
| sr_nil : forall w, spec_run w [] w []
| sr_cons : forall w en x w1 r h w2 rs,
    spec_step en w x w1 r -> spec_run w1 h w2 rs ->
    spec_run w ((en, x) :: h) w2 (r :: rs).
End World.
