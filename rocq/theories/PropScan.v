(** C12-C14, C16, C20, C49: operations over many items. *)
From Coq Require Import Permutation.
From Verif Require Import Base Types Clamp Entry EntryProofs Hash Map MapProofs MapInv Shard
  Spec Trace ShardProofs ScanProofs LoopProofs Cache Refine Reach Observe PropCache PropItems Small PropMemory.
Local Open Scope N_scope.

(** *** Vocabulary *)

(** [key] is in the cache, expired or not: some look-up finds it. *)
Definition holds (c : ctx) (ch : cache) (key : bytes) : Prop :=
  exists now v, sees c ch key now (Some v).
(** [key] is live at time [now]. *)
Definition live (c : ctx) (ch : cache) (now : Z) (key : bytes) : Prop :=
  exists v, sees c ch key now (Some v).
(** The keys a call concerns: all, or those routed to one shard. *)
Definition concerns (c : ctx) (one : option Z) (key : bytes) : Prop :=
  match one with None => True | Some z => Z.of_nat (route c key) = z end.

Section V.
Variable c : ctx.
Hypothesis load_ok : 55 <= c_load c <= 95.

Lemma holds_iff : forall ch k, cinv c ch -> (holds c ch k <-> cabs c ch k <> None).
Proof.
  intros ch k I. split.
  - intros (now & v & S). apply (sees_iff c load_ok) in S; [|assumption]. unfold live_item in S.
    destruct (cabs c ch k); [discriminate|]. cbn in S. discriminate.
  - intro N. destruct (cabs c ch k) as [it|] eqn:E; [|congruence].
    exists (i_exp it - 1)%Z, (shown_of it). apply (sees_iff c load_ok); [assumption|].
    unfold live_item. rewrite E. unfold alive_at.
    replace ((i_exp it =? 0)%Z || (i_exp it - 1 <? i_exp it)%Z) with true; [reflexivity|].
    symmetry. apply orb_true_iff. right. lia.
Qed.

Lemma live_iff : forall ch k now, cinv c ch -> (live c ch now k <-> live_item (cabs c ch) k now <> None).
Proof.
  intros ch k now I. split.
  - intros (v & S). apply (sees_iff c load_ok) in S; [|assumption].
    destruct (live_item (cabs c ch) k now); [discriminate|]. cbn in S. discriminate.
  - intro N. destruct (live_item (cabs c ch) k now) as [it|] eqn:E; [|congruence].
    exists (shown_of it). apply (sees_iff c load_ok); [assumption|]. rewrite E. reflexivity.
Qed.

Lemma live_keeps : forall m k now it, live_item m k now = Some it -> m k = Some it.
Proof.
  intros m k now it H. unfold live_item in H. destruct (m k) as [j|]; [|discriminate].
  destruct (alive_at (i_exp j) now); [assumption|discriminate].
Qed.
End V.

Lemma number_ext : forall (P Q : bytes -> Prop) n, (forall k, P k <-> Q k) -> number P n -> number Q n.
Proof.
  intros P Q n H (ks & N & M & L). exists ks. split; [assumption|]. split; [|assumption].
  intro k. rewrite M. apply H.
Qed.

(** ** C12 Every call returns, and every table has room *)
Theorem C12_room : forall o ch s, reachable (ctx_of o) ch -> In s (ca_shards ch) ->
  (m_count (s_map s) = length (ents (s_map s)) /\ m_count (s_map s) < m_nb (s_map s) /\
   m_count (s_map s) <= m_growat (s_map s) < m_nb (s_map s))%nat /\
  exists i, (i < m_nb (s_map s))%nat /\ nth i (m_buckets (s_map s)) None = None.
Proof.
  intros o ch s R Hs. apply In_nth_error in Hs. destruct Hs as (i & Hi).
  pose proof (ci_shard _ ch (reach_cinv o ch R) i s Hi) as Is.
  pose proof (si_map _ _ Is) as M. change (s_map (placed (ca_next ch) s)) with (s_map s) in M.
  pose proof (count_lt_nb _ _ _ _ (opts_load o) _ M) as L.
  pose proof (count_len _ _ M) as Cl.
  pose proof (mi_room _ _ _ _ _ M) as Ro. pose proof (mi_grow _ _ _ _ _ M) as Gr.
  pose proof (grow_lt _ (opts_load o) (m_nb (s_map s))) as Gl. pose proof (mi_nb _ _ _ _ _ M) as Nb.
  split; [split; [assumption|split; [assumption|]]|].
  - rewrite Gr in *. lia.
  - pose proof (mi_rh _ _ _ _ _ M) as Rh.
    assert (Ln : length (m_buckets (s_map s)) = m_nb (s_map s)) by (destruct Rh; assumption).
    destruct (Exists_dec (fun b => b = None) (m_buckets (s_map s))) as [E|E].
    { intros [b|]; [right; discriminate|left; reflexivity]. }
    + apply Exists_exists in E. destruct E as (b & Hb & ->). apply In_nth with (d := None) in Hb.
      destruct Hb as (j & Hj & Hn). exists j. split; [lia|assumption].
    + exfalso. assert (F : length (ents (s_map s)) = length (m_buckets (s_map s))).
      { unfold ents. rewrite map_length.
        assert (G : forall l : list (option (bkt entry)), ~ Exists (fun b => b = None) l ->
          length (items l) = length l).
        { induction l as [|[b|] l IH]; intro X; cbn.
          - reflexivity.
          - f_equal. apply IH. intro Y. apply X. right. assumption.
          - exfalso. apply X. left. reflexivity. }
        apply G. assumption. }
      lia.
Qed.

Theorem C12_returns : forall o ch en x, reachable (ctx_of o) ch ->
  call_ok (ctx_of o) en (cabs (ctx_of o) ch) x ->
  exists ch' r evs, step (ctx_of o) en ch x = Ok (ch', r, evs) /\ reachable (ctx_of o) ch'.
Proof.
  intros o ch en x R K.
  destruct (reachable_step _ (opts_load o) (opts_shards o) ch en x R K) as (ch' & r & evs & E & R' & _).
  exists ch', r, evs. auto.
Qed.

Example C12_case : reachable demo_c demo_ch /\
  call_ok demo_c (plenty_env 110) (cabs demo_c demo_ch) (Store [107; 52] [] plain_store 0) /\
  call_ok demo_c (plenty_env 110) (cabs demo_c demo_ch) (Sweep None 0).
Proof.
  split; [exact demo_reachable|]. split; [|exact Logic.I]. apply demo_store_ok; [small_store|reflexivity].
Qed.

(** ** C13 Sweeping removes exactly the expired items *)
Theorem C13_sweep : forall o ch en one time, reachable (ctx_of o) ch ->
  let now := resolve_now time (en_clock en) in
  exists ch' swept kept evs, step (ctx_of o) en ch (Sweep one time) = Ok (ch', RSwept swept kept, evs) /\
    (forall k, concerns (ctx_of o) one k -> (holds (ctx_of o) ch' k <-> live (ctx_of o) ch now k)) /\
    (forall k, live (ctx_of o) ch now k \/ ~ concerns (ctx_of o) one k -> same_at (ctx_of o) ch ch' k) /\
    exists n, number (fun k => concerns (ctx_of o) one k /\ holds (ctx_of o) ch k /\ ~ live (ctx_of o) ch now k) n /\
      swept = u64 n.
Proof.
  intros o ch en one time R now. set (c := ctx_of o) in *.
  destruct (reachable_step _ (opts_load o) (opts_shards o) ch en (Sweep one time) R Logic.I)
    as (ch' & r & evs & E & R' & _ & S).
  pose proof (reach_cinv o ch R) as I. pose proof (reach_cinv o ch' R') as I'.
  fold c in S, I, I'. inversion S; subst.
  match goal with H : sp_sweep _ _ _ _ |- _ => rename H into Hs end. fold now in Hs.
  exists ch', (u64 expired), (u64 kp), evs. split; [exact E|].
  change (sel (route c) one) with (concerns c one) in *.
  change (w_map (world_of c ch)) with (cabs c ch) in *. change (w_map (world_of c ch')) with (cabs c ch') in *.
  split; [|split].
  - intros k Hk. rewrite (holds_iff c (opts_load o)), (live_iff c (opts_load o)) by assumption.
    destruct (Hs k) as [A _]. rewrite (A Hk). reflexivity.
  - intros k Hk. apply (same_at_abs c (opts_load o)); [assumption|assumption|].
    destruct (Hs k) as [A B]. destruct Hk as [Hk|Hk]; [|apply B; assumption].
    apply (live_iff c (opts_load o)) in Hk; [|assumption].
    destruct (live_item (cabs c ch) k now) as [it|] eqn:L; [|congruence].
    destruct one as [z|].
    + destruct (Z.eq_dec (Z.of_nat (route c k)) z) as [Q|Q].
      * rewrite (A Q). symmetry. eapply live_keeps. exact L.
      * apply B. exact Q.
    + rewrite (A Logic.I). symmetry. eapply live_keeps. exact L.
  - exists expired. split; [|reflexivity].
    match goal with H : number _ expired |- _ => eapply number_ext; [|exact H] end.
    intro k. cbn beta. rewrite (holds_iff c (opts_load o)), (live_iff c (opts_load o)) by assumption. fold now.
    destruct (live_item (cabs c ch) k now); intuition congruence.
Qed.

(** ** C14 Iteration shows every live item *)

(** The callback [f] was called on the items [sh] in order, and asked to delete
    [k] at one of these calls. *)
Definition told (f : list (bytes * view) -> bytes -> view -> iter_action) (sh : list (bytes * view))
  (k : bytes) : Prop :=
  exists i v, nth_error sh i = Some (k, v) /\ fst (f (firstn i sh) k v) = true.

Lemma iter_run_told : forall f st0 sh st' del stop,
  iter_run (fun h k v => (h ++ [(k, v)], f h k v)) st0 sh st' del stop ->
  (forall k, In k del <-> exists i v, nth_error sh i = Some (k, v) /\ fst (f (st0 ++ firstn i sh) k v) = true) /\
  (forall i k v, nth_error sh i = Some (k, v) ->
     (snd (f (st0 ++ firstn i sh) k v) = true <-> (S i = length sh /\ stop = true))).
Proof.
  intros f st0 sh st' del stop H.
  induction H as [st|st k w st1 dl H|st k w st1 dl r st2 ds stop H Hr [IH1 IH2]].
  - split; [|intros [|i] k v X; discriminate]. intro k. split; [intros []|].
    intros (i & v & X & _). destruct i; discriminate.
  - injection H as H1 H2. split.
    + intro k'. split.
      * intro X. exists 0%nat, w. destruct dl; [|destruct X]. destruct X as [<-|[]]. split; [reflexivity|].
        cbn [firstn]. rewrite app_nil_r, H2. reflexivity.
      * intros (i & v & X & Y). destruct i as [|[|i]]; try discriminate. injection X as <- <-.
        cbn [firstn] in Y. rewrite app_nil_r, H2 in Y. cbn in Y. subst dl. left. reflexivity.
    + intros [|[|i]] k' v X; try discriminate. injection X as <- <-. cbn [firstn length]. rewrite app_nil_r, H2.
      cbn. intuition.
  - injection H as H1 H2. subst st1. split.
    + intro k'. rewrite in_app_iff, IH1. split.
      * intros [X|(i & v & X & Y)].
        -- exists 0%nat, w. destruct dl; [|destruct X]. destruct X as [<-|[]]. split; [reflexivity|].
           cbn [firstn]. rewrite app_nil_r, H2. reflexivity.
        -- exists (S i), v. split; [exact X|]. cbn [firstn]. rewrite <- app_assoc in Y. exact Y.
      * intros (i & v & X & Y). destruct i as [|i].
        -- left. injection X as <- <-. cbn [firstn] in Y. rewrite app_nil_r, H2 in Y. cbn in Y. subst dl. left. reflexivity.
        -- right. exists i, v. split; [exact X|]. cbn [firstn] in Y. rewrite <- app_assoc. exact Y.
    + intros [|i] k' v X.
      * injection X as <- <-. cbn [firstn length]. rewrite app_nil_r, H2. cbn.
        split; [discriminate|]. intros [X1 X2]. exfalso. destruct r; [|discriminate].
        inversion Hr; subst; discriminate.
      * cbn [firstn length]. specialize (IH2 i k' v X). rewrite <- app_assoc in IH2. cbn [app] in IH2.
        rewrite IH2. intuition lia.
Qed.

Theorem C14_iterate : forall o ch en f one time, reachable (ctx_of o) ch ->
  let now := resolve_now time (en_clock en) in
  exists ch' st sh evs, step (ctx_of o) en ch (Iter (Some f) one time) = Ok (ch', RStatus st sh, evs) /\
    (st = FINISHED \/ st = CANCELED) /\
    (* only live items are shown *)
    (forall k v, In (k, v) sh -> concerns (ctx_of o) one k /\ sees (ctx_of o) ch k now (Some v)) /\
    (* all of them, unless the callback stopped the iteration *)
    (st = FINISHED -> forall k v, concerns (ctx_of o) one k -> sees (ctx_of o) ch k now (Some v) -> In (k, v) sh) /\
    (forall i k v, nth_error sh i = Some (k, v) ->
       (snd (f (firstn i sh) k v) = true <-> (S i = length sh /\ st = CANCELED))) /\
    (* the ones to delete are gone, other live ones stay *)
    (forall k, told f sh k -> ~ holds (ctx_of o) ch' k) /\
    (forall k, ~ told f sh k -> live (ctx_of o) ch now k \/ ~ concerns (ctx_of o) one k -> same_at (ctx_of o) ch ch' k) /\
    (* each is shown once if nothing is removed on the way *)
    ((forall k, ~ told f sh k) ->
     (forall k, concerns (ctx_of o) one k -> holds (ctx_of o) ch k -> live (ctx_of o) ch now k) ->
     NoDup (List.map fst sh)).
Proof.
  intros o ch en f one time R now. set (c := ctx_of o) in *.
  destruct (reachable_step _ (opts_load o) (opts_shards o) ch en (Iter (Some f) one time) R Logic.I)
    as (ch' & r & evs & E & R' & _ & S).
  pose proof (reach_cinv o ch R) as I. pose proof (reach_cinv o ch' R') as I'.
  fold c in S, I, I'. inversion S; subst. exists ch', st, shown, evs. split; [exact E|].
  match goal with H : sp_iter _ _ _ _ _ _ _ _ _ _ |- _ => rename H into Hs end. fold now in Hs.
  change (sel (route c) one) with (concerns c one) in *.
  change (w_map (world_of c ch)) with (cabs c ch) in *. change (w_map (world_of c ch')) with (cabs c ch') in *.
  destruct Hs as [X1 X2 X3 X4 X5 X6 X7]. destruct X1 as (stopped & Hr & Hst).
  apply iter_run_told in Hr. cbn [app] in Hr. destruct Hr as [Hd Hstop].
  assert (Ht : forall k, told f shown k <-> In k deleted) by (intro k; symmetry; apply Hd).
  split; [destruct stopped; auto|]. split; [|split; [|split; [|split; [|split]]]].
  - intros k v X. destruct (X2 k v X) as (Hc & it & L & ->). split; [assumption|].
    apply (sees_iff c (opts_load o)); [assumption|]. rewrite L. reflexivity.
  - intros Hf k v Hc Sv. apply (sees_iff c (opts_load o)) in Sv; [|assumption].
    destruct (live_item (cabs c ch) k now) as [it|] eqn:L; [|discriminate]. injection Sv as ->.
    apply X3; try assumption. discriminate.
  - intros i k v X. rewrite (Hstop i k v X). rewrite Hst. destruct stopped; intuition congruence.
  - intros k X. rewrite (holds_iff c (opts_load o)) by assumption. apply Ht in X. rewrite (X4 k X). congruence.
  - intros k X Hl. rewrite Ht in X. apply (same_at_abs c (opts_load o)); [assumption|assumption|].
    destruct (X5 k X) as [Y|(Hc & Y & _)]; [assumption|]. destruct Hl as [Hl|Hl]; [|contradiction].
    apply (live_iff c (opts_load o)) in Hl; [|assumption]. contradiction.
  - intros Nt Al. apply X7.
    + destruct deleted as [|k l]; [reflexivity|]. exfalso. apply (Nt k). apply Ht. left. reflexivity.
    + intros k Hc. destruct (cabs c ch k) as [it|] eqn:Ek.
      * assert (L : live c ch now k) by (apply Al; [assumption|apply (holds_iff c (opts_load o)); [assumption|congruence]]).
        apply (live_iff c (opts_load o)) in L; [|assumption].
        destruct (live_item (cabs c ch) k now) as [j|] eqn:Lj; [|congruence].
        rewrite <- Ek. eapply live_keeps. exact Lj.
      * unfold live_item. rewrite Ek. reflexivity.
Qed.

(** ** C16 The count is exact *)
Theorem C16_count : forall o ch en one, reachable (ctx_of o) ch ->
  exists ch' n, step (ctx_of o) en ch (Count one) = Ok (ch', RNum (u64 n), []) /\
    number (fun k => concerns (ctx_of o) one k /\ holds (ctx_of o) ch k) n /\
    forall k, same_at (ctx_of o) ch ch' k.
Proof.
  intros o ch en one R. set (c := ctx_of o) in *.
  destruct (reachable_step _ (opts_load o) (opts_shards o) ch en (Count one) R Logic.I)
    as (ch' & r & evs & E & R' & _ & S).
  pose proof (reach_cinv o ch R) as I. pose proof (reach_cinv o ch' R') as I'.
  fold c in S, I, I'. inversion S; subst. exists ch', n.
  assert (Ev : evs = []).
  { fold c in E. cbn [step] in E. unfold cache_sum in E.
    destruct (each (add_body countop) (chosen c one) 0 ch) as [[[x y] ev]|] eqn:Es; [|discriminate].
    injection E as _ _ <-. clear - Es. revert Es. generalize (chosen c one). generalize 0. revert ch x y ev.
    intros ch0 x y ev a l. revert a ch0 x y ev. induction l as [|i l IH]; intros a ch0 x y ev E; cbn [each] in E; [injection E as _ _ <-; reflexivity|].
    unfold on_shard, add_body at 1 in E. destruct (nth_error (ca_shards ch0) i); [|discriminate].
    destruct (each _ _ _ _) as [[[p q] w]|] eqn:E2; [|discriminate]. injection E as _ _ <-.
    rewrite (IH _ _ _ _ _ E2). reflexivity. }
  subst evs. split; [exact E|]. split.
  - match goal with H : number _ n |- _ => eapply number_ext; [|exact H] end.
    intro k. cbn beta. rewrite (holds_iff c (opts_load o)) by assumption. reflexivity.
  - intro k. apply (same_at_abs c (opts_load o)); [assumption|assumption|].
    match goal with H : forall k, w_map _ k = _ |- _ => exact (H k) end.
Qed.

(** ** C20 Clearing empties *)
Theorem C20_clear : forall o ch en one df time, reachable (ctx_of o) ch ->
  (forall i, al_table (en_mem en i) = true) ->
  exists ch' evs, step (ctx_of o) en ch (Clear one df time) = Ok (ch', RVoid, evs) /\
    (forall k, concerns (ctx_of o) one k -> ~ holds (ctx_of o) ch' k) /\
    (forall k, ~ concerns (ctx_of o) one k -> same_at (ctx_of o) ch ch' k) /\
    (forall en', exists ch'', step (ctx_of o) en' ch' (Count one) = Ok (ch'', RNum 0, [])).
Proof.
  intros o ch en one df time R Al. set (c := ctx_of o) in *.
  destruct (reachable_step _ (opts_load o) (opts_shards o) ch en (Clear one df time) R Al)
    as (ch' & r & evs & E & R' & _ & S).
  pose proof (reach_cinv o ch R) as I. pose proof (reach_cinv o ch' R') as I'.
  fold c in S, I, I'. inversion S; subst. exists ch', evs. split; [exact E|].
  match goal with H : sp_clear _ _ _ |- _ => rename H into Hs end.
  change (sel (route c) one) with (concerns c one) in *.
  assert (G : forall k, concerns c one k -> ~ holds c ch' k).
  { intros k Hk. rewrite (holds_iff c (opts_load o)) by assumption. destruct (Hs k) as [A _].
    change (w_map (world_of c ch')) with (cabs c ch') in A. rewrite (A Hk). congruence. }
  split; [exact G|]. split.
  - intros k Hk. apply (same_at_abs c (opts_load o)); [assumption|assumption|]. apply (Hs k). assumption.
  - intro en'. destruct (C16_count o ch' en' one R') as (ch'' & n & E2 & (ks & _ & M & L) & _).
    exists ch''. fold c in E2. rewrite E2. do 3 f_equal. destruct ks as [|k ks].
    + cbn in L. subst n. reflexivity.
    + exfalso. destruct (proj1 (M k) (or_introl eq_refl)) as [A B]. exact (G k A B).
Qed.

(** *** Cases *)

(** A cache with an expired item next to a live one that sits in the first
    bucket, having wrapped around the end of the table. *)
Definition wrap_history : list (env * call) :=
  [ (plenty_env 100, Store [97; 107] [1] (ttl_store 10) 0);
    (plenty_env 101, Store [101; 99] [2] plain_store 0) ].
Definition wrap_c : ctx := ctx_of (one_opts false).
Definition wrap_ch : cache :=
  match run wrap_c (one_new false) wrap_history with Ok (ch, _, _) => ch | Bad _ => one_new false end.
Lemma wrap_args : Forall (fun p => args_fine wrap_c (fst p) (snd p)) wrap_history.
Proof. unfold wrap_history. fine_history. Qed.
Lemma wrap_run : exists rs evs, run wrap_c (one_new false) wrap_history = Ok (wrap_ch, rs, evs).
Proof. eexists _, _. vm_compute. reflexivity. Qed.
Lemma wrap_reachable : reachable wrap_c wrap_ch.
Proof.
  destruct wrap_run as (rs & evs & R).
  eapply short_reachable; [apply one_is_new|exact wrap_args| |exact R]. cbn. lia.
Qed.

Lemma one_sees : forall ch, reachable wrap_c ch -> forall key now v,
  option_map shown_of (live_item (cabs wrap_c ch) key now) = v -> sees wrap_c ch key now v.
Proof.
  intros ch R key now v <-. apply (sees_iff _ (opts_load (one_opts false))); [apply (reach_cinv (one_opts false)); assumption|reflexivity].
Qed.

Example C13_case : reachable wrap_c wrap_ch /\
  holds wrap_c wrap_ch [97; 107] /\ ~ live wrap_c wrap_ch 200 [97; 107] /\ live wrap_c wrap_ch 200 [101; 99].
Proof.
  split; [exact wrap_reachable|].
  pose proof (reach_cinv (one_opts false) _ wrap_reachable) as I. fold wrap_c in I.
  split; [|split].
  - exists 105%Z. eexists. apply one_sees; [exact wrap_reachable|]. vm_compute. reflexivity.
  - intro X. apply (live_iff _ (opts_load (one_opts false))) in X; [|exact I]. apply X. vm_compute. reflexivity.
  - eexists. apply one_sees; [exact wrap_reachable|]. vm_compute. reflexivity.
Qed.

(** The number of kept items that a sweep reports can be too high: two are
    reported, but one is left. (An entry moved back over the end of the table by a
    removal is counted again, [src/pogocache.c:1910-1937].) *)
Theorem C13_kept_refuted : exists ch ch' evs ch'',
  reachable wrap_c ch /\
  step wrap_c (plenty_env 200) ch (Sweep None 0) = Ok (ch', RSwept 1 2, evs) /\
  step wrap_c (plenty_env 200) ch' (Count None) = Ok (ch'', RNum 1, []).
Proof.
  exists wrap_ch. eexists _, _, _. split; [exact wrap_reachable|].
  split; [vm_compute; reflexivity|vm_compute; reflexivity].
Qed.

Example C14_case : reachable wrap_c wrap_ch /\ exists ch' evs,
  step wrap_c (plenty_env 105) wrap_ch (Iter (Some (fun _ _ _ => (false, false))) None 0)
    = Ok (ch', RStatus FINISHED [([101; 99], mkView [2] 0 0 3); ([97; 107], mkView [1] 110 5 2)], evs).
Proof. split; [exact wrap_reachable|]. eexists _, _. vm_compute. reflexivity. Qed.

(** A callback that deletes can be shown another item twice. *)
Theorem C14_once_with_deletion_refuted : exists ch f ch' sh evs,
  reachable wrap_c ch /\
  step wrap_c (plenty_env 105) ch (Iter (Some f) None 0) = Ok (ch', RStatus FINISHED sh, evs) /\
  ~ NoDup (List.map fst sh).
Proof.
  exists wrap_ch, (fun _ k _ => (beq k [97; 107], false)). eexists _, _, _. split; [exact wrap_reachable|].
  split; [vm_compute; reflexivity|]. cbn [List.map fst]. intro X. inversion X; subst.
  match goal with Hn : ~ In _ _ |- _ => apply Hn end. right. left. reflexivity.
Qed.

(** Expired items disturb in the same way, without any deletion by the callback. *)
Theorem C14_once_with_expired_refuted : exists ch f ch' sh evs,
  reachable wrap_c ch /\ (forall h k v, f h k v = (false, false)) /\
  step wrap_c (plenty_env 200) ch (Iter (Some f) None 0) = Ok (ch', RStatus FINISHED sh, evs) /\
  ~ NoDup (List.map fst sh).
Proof.
  exists wrap_ch, (fun _ _ _ => (false, false)). eexists _, _, _. split; [exact wrap_reachable|].
  split; [reflexivity|].
  split; [vm_compute; reflexivity|]. cbn [List.map fst]. intro X. inversion X; subst.
  match goal with Hn : ~ In _ _ |- _ => apply Hn end. left. reflexivity.
Qed.

Example C16_case : exists ch', reachable wrap_c wrap_ch /\
  step wrap_c (plenty_env 200) wrap_ch (Count None) = Ok (ch', RNum 2, []).
Proof. eexists. split; [exact wrap_reachable|vm_compute; reflexivity]. Qed.

Example C20_case : reachable demo_c demo_ch /\ holds demo_c demo_ch [107; 51] /\
  (forall i, al_table (en_mem (plenty_env 200) i) = true).
Proof.
  split; [exact demo_reachable|]. split; [|reflexivity].
  exists 105%Z. eexists. apply demo_sees_eq. vm_compute. reflexivity.
Qed.

(** A clear that cannot allocate the new table overwrites memory it does not
    own: the fallback of clearop zeroes from the address of the field [buckets]
    instead of from the buckets [src/pogocache.c:2005-2006]. *)
Theorem C20_clear_nomem_refuted : exists ch en, reachable wrap_c ch /\
  step wrap_c en ch (Clear None false 0) = Bad WildWrite.
Proof.
  exists wrap_ch, (mkEnv (fun _ => mkMem true false) 200). split; [exact wrap_reachable|vm_compute; reflexivity].
Qed.
