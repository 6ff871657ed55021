(** Two ways to judge the event trace of an operation: what happens to
    allocations, and what a client mirroring the notifications knows.
    These are specifications; they model no code beyond [src/pogocache.c:1018-1083]
    (the arguments passed to the notify callback) and malloc/free. *)
From Coq Require Import Permutation.
From Verif Require Import Base Types Entry Shard.
Local Open Scope N_scope.

(** [heap_ok L evs L']: [L] is the multiset of references held to live
    allocations (one per table slot, one per reference handed out). An
    allocation gives a new address; only held references are dropped; only live
    entries are passed to callbacks. *)
Inductive heap_ok : list N -> list event -> list N -> Prop :=
| hp_nil : forall L L', Permutation L L' -> heap_ok L [] L'
| hp_alloc : forall L id evs L', ~ In id L -> heap_ok (id :: L) evs L' ->
    heap_ok L (EvAlloc id :: evs) L'
| hp_free : forall L L0 id evs L', Permutation L (id :: L0) -> heap_ok L0 evs L' ->
    heap_ok L (EvFree id :: evs) L'
| hp_retain : forall L id evs L', In id L -> heap_ok (id :: L) evs L' ->
    heap_ok L (EvRetain id :: evs) L'
| hp_notify : forall L k new old evs L',
    (forall e, new = Some e -> In (e_id e) L) ->
    (forall e, old = Some e -> In (e_id e) L) ->
    heap_ok L evs L' -> heap_ok L (EvNotify k new old :: evs) L'
| hp_show : forall L e key w evs L', In (e_id e) L -> heap_ok L evs L' ->
    heap_ok L (EvShow e key w :: evs) L'.

(** A notification as the callback receives it: kind, new and old item. *)
Definition kv := (bytes * view)%type.
Definition note := (notify_kind * option kv * option kv)%type.
Definition vmap := bytes -> option view.
Definition vset (M : vmap) (k : bytes) (x : option view) : vmap :=
  fun k' => if beq k k' then x else M k'.

(** [mirrored M ns M']: replaying the notifications [ns] on the contents [M]
    gives [M'], and each of them is accurate when it arrives: an insertion is of
    a key not yet there, a replacement names the old contents, and every removal
    (deleted, expired, cleared, low memory) names the contents that go. *)
Inductive mirrored : vmap -> list note -> vmap -> Prop :=
| mr_nil : forall M M', (forall k, M k = M' k) -> mirrored M [] M'
| mr_ins : forall M k w ns M', M k = None ->
    mirrored (vset M k (Some w)) ns M' ->
    mirrored M ((N_INSERTED, Some (k, w), None) :: ns) M'
| mr_repl : forall M k w w0 ns M', M k = Some w0 ->
    mirrored (vset M k (Some w)) ns M' ->
    mirrored M ((N_REPLACED, Some (k, w), Some (k, w0)) :: ns) M'
| mr_gone : forall M r k w0 ns M',
    r = N_DELETED \/ r = N_EXPIRED \/ r = N_CLEARED \/ r = N_LOWMEM ->
    M k = Some w0 -> mirrored (vset M k None) ns M' ->
    mirrored M ((r, None, Some (k, w0)) :: ns) M'.

(** The notifications and the callback's views in a trace. *)
Definition kv_of (c : ctx) (e : entry) : kv := (ekey c e, eview c e).
Definition notes (c : ctx) (evs : list event) : list note :=
  flat_map (fun ev => match ev with
    | EvNotify k new old => [(k, option_map (kv_of c) new, option_map (kv_of c) old)]
    | _ => [] end) evs.
Definition shown (evs : list event) : list kv :=
  flat_map (fun ev => match ev with EvShow _ k w => [(k, w)] | _ => [] end) evs.

(** *** Facts *)
Lemma heap_perm : forall L evs L' L1, heap_ok L evs L' -> Permutation L1 L -> heap_ok L1 evs L'.
Proof.
  intros L evs L' L1 H. revert L1. induction H; intros L1 P.
  - constructor. etransitivity; eassumption.
  - constructor.
    + intro X. apply H. eapply Permutation_in; eassumption.
    + apply IHheap_ok. constructor. assumption.
  - econstructor; [|eassumption]. etransitivity; eassumption.
  - constructor.
    + eapply Permutation_in; [symmetry|]; eassumption.
    + apply IHheap_ok. constructor. assumption.
  - constructor.
    + intros e He. eapply Permutation_in; [symmetry|]; eauto.
    + intros e He. eapply Permutation_in; [symmetry|]; eauto.
    + apply IHheap_ok. assumption.
  - constructor.
    + eapply Permutation_in; [symmetry|]; eassumption.
    + apply IHheap_ok. assumption.
Qed.

Lemma heap_app : forall L a L1 b L2, heap_ok L a L1 -> heap_ok L1 b L2 -> heap_ok L (a ++ b) L2.
Proof.
  intros L a L1 b L2 H. revert b L2. induction H; intros b L2 Hb; cbn [app].
  - eapply heap_perm; eassumption.
  - constructor; auto.
  - econstructor; eauto.
  - constructor; auto.
  - constructor; auto.
  - constructor; auto.
Qed.

Lemma heap_perm_r : forall L evs L' L2, heap_ok L evs L' -> Permutation L' L2 -> heap_ok L evs L2.
Proof.
  intros L evs L' L2 H P. rewrite <- (app_nil_r evs). eapply heap_app; [eassumption|].
  constructor. assumption.
Qed.

Lemma mirror_ext : forall M ns M' N, mirrored M ns M' -> (forall k, N k = M k) -> mirrored N ns M'.
Proof.
  intros M ns M' N H. revert N. induction H; intros N E.
  - constructor. intro k. rewrite E. apply H.
  - constructor; [rewrite E; assumption|]. apply IHmirrored. intro k'. unfold vset.
    rewrite E. reflexivity.
  - econstructor; [rewrite E; eassumption|]. apply IHmirrored. intro k'. unfold vset.
    rewrite E. reflexivity.
  - econstructor; [assumption|rewrite E; eassumption|]. apply IHmirrored. intro k'. unfold vset.
    rewrite E. reflexivity.
Qed.

Lemma mirror_app : forall M a M1 b M2, mirrored M a M1 -> mirrored M1 b M2 -> mirrored M (a ++ b) M2.
Proof.
  intros M a M1 b M2 H. revert b M2. induction H; intros b M2 Hb; cbn [app].
  - eapply mirror_ext; eassumption.
  - constructor; auto.
  - econstructor; eauto.
  - econstructor; eauto.
Qed.

Lemma notes_app : forall c a b, notes c (a ++ b) = notes c a ++ notes c b.
Proof. intros. apply flat_map_app. Qed.
Lemma shown_app : forall a b, shown (a ++ b) = shown a ++ shown b.
Proof. intros. apply flat_map_app. Qed.
