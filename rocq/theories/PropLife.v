(** C18, C19: notifications and the lifetime of entries. *)
From Coq Require Import Permutation.
From Verif Require Import Base Types Clamp Entry EntryProofs Hash Map MapProofs MapInv Shard
  Spec Trace ShardProofs ScanProofs LoopProofs Cache Refine Reach Observe PropCache PropItems Small
  PropMemory PropScan.
Local Open Scope N_scope.

(** ** C18 A listener that applies the notifications knows the contents *)

(** What a listener does with a notification: note the new item, or forget the
    old one. *)
Definition apply_note (M : vmap) (n : note) : vmap :=
  match n with
  | (_, Some (k, w), _) => vset M k (Some w)
  | (_, None, Some (k, _)) => vset M k None
  | (_, None, None) => M
  end.
Definition listener (ns : list note) : vmap := fold_left apply_note ns (fun _ => None).

Lemma mirrored_fold : forall M ns M', mirrored M ns M' -> forall k, fold_left apply_note ns M k = M' k.
Proof.
  intros M ns M' H. induction H; intro j; cbn [fold_left apply_note]; auto.
Qed.

Section V.
Variable o : opts.
Let c := ctx_of o.

Lemma cvw_shown : forall ch k, cvw c ch k = option_map shown_of (cabs c ch k).
Proof.
  intros ch k. unfold cvw, cabs. destruct (nth_error (ca_shards ch) (route c k)) as [s|]; [|reflexivity].
  unfold svw, sabs. destruct (lk _ _ _) as [e|]; [|reflexivity]. cbn. rewrite shown_item. reflexivity.
Qed.

Lemma shown_live : forall m k now,
  option_map shown_of (live_item m k now) =
  match option_map shown_of (m k) with
  | Some w => if alive_at (v_exp w) now then Some w else None
  | None => None
  end.
Proof.
  intros m k now. unfold live_item. destruct (m k) as [it|]; [|reflexivity]. cbn.
  destruct (alive_at (i_exp it) now); reflexivity.
Qed.
End V.

Theorem C18_mirror : forall o al ch0 h ch rs evs,
  cache_new (ctx_of o) al = Ok (Some ch0) -> sensible (ctx_of o) ch0 h ->
  run (ctx_of o) ch0 h = Ok (ch, rs, evs) ->
  (* each notification is right when it is sent: see [mirrored] *)
  (exists M, mirrored (fun _ => None) (notes (ctx_of o) evs) M) /\
  (* and the listener can answer every look-up *)
  forall k now, sees (ctx_of o) ch k now
    (match listener (notes (ctx_of o) evs) k with
     | Some w => if alive_at (v_exp w) now then Some w else None
     | None => None
     end).
Proof.
  intros o al ch0 h ch rs evs Hn S E.
  destruct (new_ok _ (opts_load o) (opts_shards o) al ch0 Hn) as (I & _ & V & _ & _).
  destruct (run_refines _ (opts_load o) (opts_shards o) h ch0 I S) as (ch' & rs' & evs' & E' & G & _).
  rewrite E in E'. injection E' as <- <- <-.
  assert (M : mirrored (fun _ => None) (notes (ctx_of o) evs) (cvw (ctx_of o) ch)).
  { eapply mirror_ext; [exact (cg_mirror _ _ _ _ _ G)|]. intro k. symmetry. apply V. }
  split; [eauto|]. intros k now. apply (sees_iff _ (opts_load o)); [exact (cg_inv _ _ _ _ _ G)|].
  unfold listener. rewrite (mirrored_fold _ _ _ M), cvw_shown, shown_live. reflexivity.
Qed.

(** ** C19 Entries are released exactly once *)

(** The number of references to entry [id] a trace leaves: allocations and
    retains count up, releases down. *)
Definition refs (T : list event) (id : N) : Z :=
  fold_right (fun ev n => match ev with
    | EvAlloc i | EvRetain i => if (i =? id)%N then n + 1 else n
    | EvFree i => if (i =? id)%N then n - 1 else n
    | _ => n end)%Z 0%Z T.

(** The entries an event uses. *)
Definition uses (ev : event) (id : N) : Prop :=
  match ev with
  | EvShow e _ _ => id = e_id e
  | EvNotify _ new old => (exists e, new = Some e /\ id = e_id e) \/ (exists e, old = Some e /\ id = e_id e)
  | EvFree i | EvRetain i => id = i
  | EvAlloc _ => False
  end.

(** A trace that handles memory properly: an entry is used - shown, passed to a
    notification, retained, released - only while there are references to it, an
    allocation gives an address without references, and at the end nothing is
    left. *)
Record clean (T : list event) : Prop := {
  cl_use : forall pre ev post id, T = pre ++ ev :: post -> uses ev id -> (0 < refs pre id)%Z;
  cl_alloc : forall pre id post, T = pre ++ EvAlloc id :: post -> refs pre id = 0%Z;
  cl_end : forall id, refs T id = 0%Z
}.

Lemma refs_app : forall a b id, refs (a ++ b) id = (refs a id + refs b id)%Z.
Proof.
  induction a as [|ev a IH]; intros b id; [reflexivity|]. cbn [app refs fold_right].
  fold (refs (a ++ b) id) (refs a id). rewrite IH.
  destruct ev; try lia; destruct (_ =? id); lia.
Qed.

Definition cnt (L : list N) (id : N) : Z := Z.of_nat (count_occ N.eq_dec L id).
Lemma cnt_perm : forall L L' id, Permutation L L' -> cnt L id = cnt L' id.
Proof. intros L L' id P. unfold cnt. f_equal. apply Permutation_count_occ. assumption. Qed.
Lemma cnt_cons : forall i L id, cnt (i :: L) id = (cnt L id + if (i =? id)%N then 1 else 0)%Z.
Proof.
  intros i L id. unfold cnt. cbn [count_occ]. destruct (N.eq_dec i id) as [->|Ne].
  - rewrite N.eqb_refl. lia.
  - apply N.eqb_neq in Ne. rewrite Ne. lia.
Qed.
Lemma cnt_in : forall L id, In id L -> (0 < cnt L id)%Z.
Proof. intros L id H. unfold cnt. apply (count_occ_In N.eq_dec) in H. lia. Qed.
Lemma cnt_notin : forall L id, ~ In id L -> cnt L id = 0%Z.
Proof. intros L id H. unfold cnt. apply (count_occ_not_In N.eq_dec) in H. lia. Qed.

Lemma heap_refs : forall L T L', heap_ok L T L' ->
  (forall pre ev post id, T = pre ++ ev :: post -> uses ev id -> (0 < cnt L id + refs pre id)%Z) /\
  (forall pre id post, T = pre ++ EvAlloc id :: post -> (cnt L id + refs pre id = 0)%Z) /\
  (forall id, (cnt L id + refs T id = cnt L' id)%Z).
Proof.
  intros L T L' H.
  assert (Step : forall L1 L2 ev T (Hd : forall id, (cnt L1 id + refs [ev] id = cnt L2 id)%Z)
     (Hu : forall id, uses ev id -> (0 < cnt L1 id)%Z)
     (Ha : forall id, ev = EvAlloc id -> cnt L1 id = 0%Z) L3,
     (forall pre ev post id, T = pre ++ ev :: post -> uses ev id -> (0 < cnt L2 id + refs pre id)%Z) /\
     (forall pre id post, T = pre ++ EvAlloc id :: post -> (cnt L2 id + refs pre id = 0)%Z) /\
     (forall id, (cnt L2 id + refs T id = cnt L3 id)%Z) ->
     (forall pre ev1 post id, ev :: T = pre ++ ev1 :: post -> uses ev1 id -> (0 < cnt L1 id + refs pre id)%Z) /\
     (forall pre id post, ev :: T = pre ++ EvAlloc id :: post -> (cnt L1 id + refs pre id = 0)%Z) /\
     (forall id, (cnt L1 id + refs (ev :: T) id = cnt L3 id)%Z)).
  { intros L1 L2 ev T0 Hd Hu Ha L3 (A & B & C). split; [|split].
    - intros [|p pre] ev1 post id E U; injection E as -> E.
      + cbn. specialize (Hu id U). lia.
      + specialize (A pre ev1 post id E U). change (p :: pre) with ([p] ++ pre). rewrite refs_app.
        specialize (Hd id). lia.
    - intros [|p pre] id post E; injection E as -> E.
      + cbn. rewrite (Ha id eq_refl). reflexivity.
      + specialize (B pre id post E). change (p :: pre) with ([p] ++ pre). rewrite refs_app.
        specialize (Hd id). lia.
    - intro id. change (ev :: T0) with ([ev] ++ T0). rewrite refs_app. specialize (Hd id). specialize (C id). lia. }
  induction H as [L L' P|L i evs L' N H IH|L L0 i evs L' P H IH|L i evs L' Hin H IH|L k new old evs L' N1 N2 H IH|L e key w evs L' Hin H IH].
  - split; [|split].
    + intros [|p pre] ev post id E; discriminate.
    + intros [|p pre] id post E; discriminate.
    + intro id. cbn. rewrite (cnt_perm _ _ id P). lia.
  - apply (Step _ (i :: L)); [| | |exact IH].
    + intro id. rewrite cnt_cons. cbn. destruct (i =? id); lia.
    + intros id [].
    + intros id E. injection E as <-. apply cnt_notin. assumption.
  - apply (Step _ L0); [| | |exact IH].
    + intro id. rewrite (cnt_perm _ _ id P), cnt_cons. cbn. destruct (i =? id); lia.
    + intros id ->. apply cnt_in. rewrite P. left. reflexivity.
    + intros id E. discriminate.
  - apply (Step _ (i :: L)); [| | |exact IH].
    + intro id. rewrite cnt_cons. cbn. destruct (i =? id); lia.
    + intros id ->. apply cnt_in. assumption.
    + intros id E. discriminate.
  - apply (Step _ L); [| | |exact IH].
    + intro id. cbn. lia.
    + intros id [(e & -> & ->)|(e & -> & ->)]; apply cnt_in; auto.
    + intros id E. discriminate.
  - apply (Step _ L); [| | |exact IH].
    + intro id. cbn. lia.
    + intros id ->. apply cnt_in. assumption.
    + intros id E. discriminate.
Qed.

Lemma heap_frees : forall l, heap_ok l (List.map EvFree l) [].
Proof.
  induction l as [|i l IH]; cbn; [constructor; reflexivity|]. econstructor; [reflexivity|exact IH].
Qed.

Lemma cache_free_frees : forall ch, cache_free ch = List.map EvFree (cids ch).
Proof.
  intro ch. unfold cache_free, cids. induction (ca_shards ch) as [|s l IH]; [reflexivity|].
  cbn [flat_map]. rewrite map_app, IH. f_equal. unfold ids, sents, ents. rewrite !map_map. reflexivity.
Qed.

(** Any history, followed by freeing the cache and by releasing the entries
    that were handed out, handles memory properly. *)
Theorem C19_lifetime : forall o al ch0 h ch rs evs,
  cache_new (ctx_of o) al = Ok (Some ch0) -> sensible (ctx_of o) ch0 h ->
  run (ctx_of o) ch0 h = Ok (ch, rs, evs) ->
  clean (evs ++ cache_free ch ++ List.map EvFree (handed_all rs)) /\
  clean (evs ++ List.map EvFree (handed_all rs) ++ cache_free ch).
Proof.
  intros o al ch0 h ch rs evs Hn S E.
  destruct (new_ok _ (opts_load o) (opts_shards o) al ch0 Hn) as (I & Ci & _ & _ & _).
  destruct (run_refines _ (opts_load o) (opts_shards o) h ch0 I S) as (ch' & rs' & evs' & E' & G & _).
  rewrite E in E'. injection E' as <- <- <-.
  pose proof (cg_heap _ _ _ _ _ G [] (Forall_nil _)) as H. rewrite Ci in H. cbn [app] in H.
  rewrite cache_free_frees, <- !map_app.
  assert (K : forall l, Permutation (cids ch ++ handed_all rs) l -> clean (evs ++ List.map EvFree l)).
  { intros l P. assert (H2 : heap_ok [] (evs ++ List.map EvFree l) []).
    { eapply heap_app; [eapply heap_perm_r; [exact H|exact P]|apply heap_frees]. }
    apply heap_refs in H2. destruct H2 as (A & B & C). constructor.
    - intros pre ev post id Ee U. specialize (A pre ev post id Ee U). cbn in A. lia.
    - intros pre id post Ee. specialize (B pre id post Ee). cbn in B. lia.
    - intro id. specialize (C id). cbn in C. lia. }
  split; apply K; [reflexivity|apply Permutation_app_comm].
Qed.

(** The demonstration history: four allocations, two of them released on the way. *)
Example C18_case : exists rs evs, cache_new demo_c (fun _ => true) = Ok (Some demo_new) /\
  sensible demo_c demo_new demo_history /\ run demo_c demo_new demo_history = Ok (demo_ch, rs, evs) /\
  length (notes demo_c evs) = 5%nat /\ length (filter (fun e => match e with EvFree _ => true | _ => false end) evs) = 2%nat.
Proof.
  eexists _, _. split; [exact demo_is_new|]. split; [exact demo_sensible|].
  split; [vm_compute; reflexivity|]. split; vm_compute; reflexivity.
Qed.
Definition C19_case := C18_case.

(** An allocation that fails in a store is not handled: the new entry's address
    is NULL and is passed to entry_free [src/pogocache.c:1549-1553, 1642-1643, 638-643]. *)
Theorem C19_store_nomem_refuted : forall o ch en key val so time,
  reachable (ctx_of o) ch -> store_ok key val so (resolve_now time (en_clock en)) ->
  al_entry (en_mem en (route (ctx_of o) key)) = false ->
  step (ctx_of o) en ch (Store key val so time) = Bad NullFree.
Proof.
  intros o ch en key val so time R K Al. pose proof (reach_cinv o ch R) as I.
  destruct (shard_at _ ch (route (ctx_of o) key) I) as (s & Hs);
    [pose proof (route_lt _ (opts_load o) ch key I); pose proof (ci_len _ ch I); lia|].
  cbn [step]. unfold cache_store, on_shard. rewrite Hs. unfold storeop.
  destruct (store_expires_ok _ (opts_load o) (mkShard (s_cas s) (s_map s) (ca_next ch)) key val so _ (ci_shard _ ch I _ _ Hs) K)
    as (x & -> & _). rewrite Al. reflexivity.
Qed.

(** Creating a cache when memory runs out before the last shard reads shards
    that were not initialised [src/pogocache.c:1233-1239, 1138-1152]. *)
Theorem C19_new_nomem_refuted : exists o al, cache_new (ctx_of o) al = Bad Uninit.
Proof. exists demo_opts, (fun _ => false). reflexivity. Qed.
