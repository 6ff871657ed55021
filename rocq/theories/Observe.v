(** Observing a cache through its API, for stating properties. These are
    specifications: they model no code. *)
From Verif Require Import Base Types Clamp Entry EntryProofs Hash Map MapProofs MapInv Shard
  Spec Trace ShardProofs ScanProofs LoopProofs Cache Refine Reach.
Local Open Scope N_scope.

(** A load that only looks: it does not touch the access time and its callback
    asks for no update. *)
Definition look : load_opts := mkLoadOpts true (Some (fun _ => None)).

(** [sees c ch key now v]: looking [key] up at time [now] returns FOUND and
    presents [v], or, for [None], returns NOTFOUND and presents nothing. *)
Definition sees (c : ctx) (ch : cache) (key : bytes) (now : Z) (v : option view) : Prop :=
  forall en time, resolve_now time (en_clock en) = now ->
    exists ch' evs, step c en ch (Load key look time) =
      Ok (ch', match v with
               | Some w => RStatus FOUND [(key, w)]
               | None => RStatus NOTFOUND []
               end, evs).

(** Two caches hold the same items for a key. *)
Definition same_at (c : ctx) (ch ch' : cache) (key : bytes) : Prop :=
  forall now v, sees c ch key now v <-> sees c ch' key now v.

(** The key-value pairs a call presented. *)
Definition presented (r : result) : list (bytes * view) :=
  match r with
  | RStatus _ sh => sh
  | REntry (Some (_, k, v)) _ => [(k, v)]
  | _ => []
  end.

(** The time a call is executed at. *)
Definition call_time (en : env) (x : call) : Z :=
  match x with
  | Store _ _ _ t | Load _ _ t | Delete _ _ t | Iter _ _ t | EntryIter _ t
  | Sweep _ t | SweepPoll _ t | Clear _ _ t => resolve_now t (en_clock en)
  | Count _ | Total _ | Size _ _ => en_clock en
  end.

Section O.
Variable c : ctx.
Hypothesis load_ok : 55 <= c_load c <= 95.
Hypothesis shards_ok : 0 < c_nshards c.

Lemma sees_iff : forall ch key now v, cinv c ch ->
  (sees c ch key now v <-> v = option_map shown_of (live_item (cabs c ch) key now)).
Proof.
  intros ch key now v I.
  assert (K : forall en time, call_ok c en (cabs c ch) (Load key look time))
    by (intros en time; cbn; intros g w u H1 H2; injection H1 as <-; discriminate).
  assert (F : forall en time, resolve_now time (en_clock en) = now ->
    exists ch' evs, step c en ch (Load key look time) =
      Ok (ch', match option_map shown_of (live_item (cabs c ch) key now) with
               | Some w => RStatus FOUND [(key, w)] | None => RStatus NOTFOUND [] end, evs)).
  { intros en time Ht.
    destruct (step_refines c load_ok en ch _ I (K en time)) as (ch' & r & evs & E & _ & Sp).
    exists ch', evs. rewrite E. f_equal. f_equal. f_equal.
    inversion Sp; subst.
    match goal with Hs : sp_load _ _ _ _ _ _ _ = _ |- _ => rename Hs into Hl end.
    unfold sp_load in Hl. cbn [world_of w_map w_cas look lo_entry lo_notouch] in Hl.
    destruct (live_item (cabs c ch) key _) as [it|]; injection Hl as _ _ <- <-; reflexivity. }
  split.
  - intro S. destruct (S (mkEnv (fun _ => mkMem true true) now) 0%Z eq_refl) as (c1 & e1 & E1).
    destruct (F (mkEnv (fun _ => mkMem true true) now) 0%Z eq_refl) as (c2 & e2 & E2).
    rewrite E1 in E2. destruct v as [w|], (option_map shown_of (live_item (cabs c ch) key now)) as [w2|];
      try discriminate; congruence.
  - intros -> en time Ht. apply F. assumption.
Qed.

Lemma sees_total : forall ch key now, cinv c ch -> exists v, sees c ch key now v.
Proof. intros. eexists. apply sees_iff; [assumption|reflexivity]. Qed.

Lemma sees_unique : forall ch key now v w, cinv c ch ->
  sees c ch key now v -> sees c ch key now w -> v = w.
Proof.
  intros ch key now v w I A B. apply (sees_iff ch key now v I) in A.
  apply (sees_iff ch key now w I) in B. congruence.
Qed.

Lemma same_at_abs : forall ch ch' key, cinv c ch -> cinv c ch' ->
  cabs c ch' key = cabs c ch key -> same_at c ch ch' key.
Proof.
  intros ch ch' key I I' E now v. rewrite !sees_iff by assumption.
  unfold live_item. rewrite E. reflexivity.
Qed.

(** Only what the item shows matters. *)
Lemma same_at_shown : forall ch ch' key, cinv c ch -> cinv c ch' ->
  option_map shown_of (cabs c ch' key) = option_map shown_of (cabs c ch key) -> same_at c ch ch' key.
Proof.
  intros ch ch' key I I' E now v. rewrite !sees_iff by assumption.
  unfold live_item.
  destruct (cabs c ch key) as [it|], (cabs c ch' key) as [it'|]; cbn in E; try discriminate.
  - assert (Ex : i_exp it' = i_exp it) by (injection E; congruence).
    rewrite Ex. destruct (alive_at (i_exp it) now); [|reflexivity]. cbn.
    injection E as E1 E2 E3 E4. unfold shown_of. rewrite E1, E2, E3, E4. reflexivity.
  - reflexivity.
Qed.

Lemma same_refl : forall ch key, same_at c ch ch key.
Proof. intros ch key now v. reflexivity. Qed.

End O.

(** *** What the specification of one call says, for a call that was made *)
Section Inv.
Variable o : opts.
Let c := opts_to_ctx o.

Lemma reach_cinv : forall ch, reachable c ch -> cinv c ch.
Proof. intros ch. apply (reachable_inv c (opts_load o) (opts_shards o)). Qed.

Lemma made : forall ch en x ch' r evs, reachable c ch -> call_ok c en (cabs c ch) x ->
  step c en ch x = Ok (ch', r, evs) ->
  reachable c ch' /\ cgood c ch evs (handed_of r) ch' /\
  spec_step (c_usecas c) (c_noevict c) (route c) en (world_of c ch) x (world_of c ch') r.
Proof.
  intros ch en x ch' r evs R K E.
  destruct (reachable_step c (opts_load o) (opts_shards o) ch en x R K) as (ch1 & r1 & e1 & E1 & R1 & G & S).
  rewrite E in E1. injection E1 as -> -> ->. auto.
Qed.

Lemma made_store : forall ch en key val so time ch' r evs, reachable c ch ->
  call_ok c en (cabs c ch) (Store key val so time) ->
  step c en ch (Store key val so time) = Ok (ch', r, evs) ->
  reachable c ch' /\ exists st sh m' cas', r = RStatus st sh /\
    sp_store_step (c_usecas c) (c_noevict c) (al_table (en_mem en (route c key)))
      (fun k => route c k = route c key) (cabs c ch) (ccas ch (route c key)) key val so
      (resolve_now time (en_clock en)) m' cas' st sh /\
    (forall k, cabs c ch' k = m' k) /\
    (forall i, ccas ch' i = if (i =? route c key)%nat then cas' else ccas ch i).
Proof.
  intros ch en key val so time ch' r evs R K E.
  destruct (made _ _ _ _ _ _ R K E) as (R' & _ & S). split; [assumption|].
  inversion S; subst. eexists _, _, _, _. split; [reflexivity|]. split; [eassumption|]. split; assumption.
Qed.

Lemma made_load : forall ch en key lo time ch' r evs, reachable c ch ->
  call_ok c en (cabs c ch) (Load key lo time) ->
  step c en ch (Load key lo time) = Ok (ch', r, evs) ->
  reachable c ch' /\ exists st sh m' cas', r = RStatus st sh /\
    sp_load (c_usecas c) (al_entry (en_mem en (route c key))) (cabs c ch) (ccas ch (route c key)) key lo
      (resolve_now time (en_clock en)) = (m', cas', st, sh) /\
    (forall k, cabs c ch' k = m' k) /\
    (forall i, ccas ch' i = if (i =? route c key)%nat then cas' else ccas ch i).
Proof.
  intros ch en key lo time ch' r evs R K E.
  destruct (made _ _ _ _ _ _ R K E) as (R' & _ & S). split; [assumption|].
  inversion S; subst. eexists _, _, _, _. split; [reflexivity|]. split; [eassumption|]. split; assumption.
Qed.

Lemma made_delete : forall ch en key cb time ch' r evs, reachable c ch ->
  step c en ch (Delete key cb time) = Ok (ch', r, evs) ->
  reachable c ch' /\ exists st sh m', r = RStatus st sh /\
    sp_delete (cabs c ch) key cb (resolve_now time (en_clock en)) = (m', st, sh) /\
    (forall k, cabs c ch' k = m' k) /\ (forall i, ccas ch' i = ccas ch i).
Proof.
  intros ch en key cb time ch' r evs R E.
  destruct (made ch en (Delete key cb time) ch' r evs R Logic.I E) as (R' & _ & S). split; [assumption|].
  inversion S; subst. eexists _, _, _. split; [reflexivity|]. split; [eassumption|]. split; assumption.
Qed.

End Inv.
