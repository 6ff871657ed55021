(** C15: the cursor scan. *)
From Coq Require Import Permutation.
From Verif Require Import Base Types Clamp Entry EntryProofs Hash Map MapProofs MapInv Shard
  Spec Trace ShardProofs ScanProofs LoopProofs Cache Refine Reach Observe PropCache PropItems Small
  PropMemory PropScan CursorProofs.
Local Open Scope N_scope.

(** A scan: the cursor call is repeated with the cursor returned by the
    previous one until no entry is returned. [scan c en time ch cur ch' l]: the
    scan that begins with cursor [cur] returns the pairs [l]. *)
Inductive scan (c : ctx) (en : env) (time : Z) : cache -> N -> cache -> list (bytes * view) -> Prop :=
| scan_end : forall ch cur ch' evs,
    step c en ch (EntryIter cur time) = Ok (ch', REntry None 0, evs) ->
    scan c en time ch cur ch' []
| scan_more : forall ch cur ch1 id k v cur1 evs ch' l,
    step c en ch (EntryIter cur time) = Ok (ch1, REntry (Some (id, k, v)) cur1, evs) ->
    scan c en time ch1 cur1 ch' l ->
    scan c en time ch cur ch' ((k, v) :: l).

(** The sizes fit the halves of the cursor, which the code handles as ints. *)
Definition cursor_fits (c : ctx) (ch : cache) : Prop :=
  c_nshards c < 2 ^ 31 /\ forall s, In s (ca_shards ch) -> N.of_nat (m_nb (s_map s)) < 2 ^ 31.

Lemma cursor_fields : forall i j, N.of_nat i < 2 ^ 31 -> N.of_nat j < 2 ^ 31 ->
  N.shiftr (cursor_at i j) 32 = N.of_nat i /\ N.land (cursor_at i j) 0xFFFFFFFF = N.of_nat j.
Proof.
  intros i j. unfold cursor_at. generalize (N.of_nat i) (N.of_nat j). clear i j. intros i j Hi Hj.
  assert (J : N.shiftr j 32 = 0).
  { rewrite N.shiftr_div_pow2. apply N.div_small. change (2 ^ 31) with 2147483648 in Hj.
    change (2 ^ 32) with 4294967296. lia. }
  split.
  - rewrite N.shiftr_lor, J, N.lor_0_r, N.shiftr_shiftl_l by lia. apply N.shiftl_0_r.
  - change 0xFFFFFFFF with (N.ones 32). rewrite N.land_ones, N.shiftl_mul_pow2.
    apply N.bits_inj. intro n. destruct (N.lt_ge_cases n 32) as [Hn|Hn].
    + rewrite N.mod_pow2_bits_low, N.lor_spec, N.mul_pow2_bits_low by assumption. reflexivity.
    + rewrite N.mod_pow2_bits_high by assumption. symmetry.
      rewrite <- (N.sub_add _ _ Hn), <- N.shiftr_spec by lia. rewrite J. apply N.bits_0.
Qed.

Section V.
Variable o : opts.
Let c := ctx_of o.
Let load_ok : 55 <= c_load c <= 95 := opts_load o.

Lemma fits_maps : forall ch, cursor_fits c ch -> forall n, In n (List.map (@m_nb entry) (maps ch)) -> N.of_nat n < 2 ^ 31.
Proof.
  intros ch [_ F] n Hn. apply in_map_iff in Hn. destruct Hn as (m & <- & Hm).
  apply in_map_iff in Hm. destruct Hm as (s & <- & Hs). apply F. assumption.
Qed.

Definition same_sizes (ch ch' : cache) : Prop :=
  List.map (@m_nb entry) (maps ch') = List.map (@m_nb entry) (maps ch).

(** Facts about one call from a well-formed cursor. *)
Lemma entry_step : forall en time ch idx j, Refine.cinv c ch ->
  c_nshards c < 2 ^ 31 -> (forall n, In n (List.map (@m_nb entry) (maps ch)) -> N.of_nat n < 2 ^ 31) ->
  (idx < N.to_nat (c_nshards c))%nat -> N.of_nat j < 2 ^ 31 ->
  exists ch' r cur evs,
    step c en ch (EntryIter (cursor_at idx j) time) = Ok (ch', REntry r cur, evs) /\
    entry_iter_loop c (S (N.to_nat (c_nshards c) - idx)) ch (resolve_now time (en_clock en)) idx j []
      = Ok (ch', (r, cur), evs).
Proof.
  intros en time ch idx j I Hs Hn Hi Hj.
  destruct (cursor_fields idx j) as [F1 F2]; [lia|assumption|].
  destruct (entry_loop_moves c load_ok (resolve_now time (en_clock en)) (S (N.to_nat (c_nshards c) - idx))
    ch idx j [] I Hi) as (ch' & r & cur & evs & E & _); [lia|].
  exists ch', r, cur, evs. split; [|exact E].
  cbn [step]. unfold cache_entry_iter. cbv zeta. rewrite F1, F2.
  replace (2 ^ 31 <=? N.of_nat idx) with false by (symmetry; apply N.leb_gt; lia).
  replace (c_nshards c <? N.of_nat idx) with false by (symmetry; apply N.ltb_ge; lia).
  replace (2 ^ 31 <=? N.of_nat j) with false by (symmetry; apply N.leb_gt; lia).
  cbn [orb]. rewrite !Nat2N.id, E. reflexivity.
Qed.

Lemma scan_exists : forall en time n p ch idx j,
  let now := resolve_now time (en_clock en) in
  Refine.cinv c ch -> c_nshards c < 2 ^ 31 ->
  (forall n, In n (List.map (@m_nb entry) (maps ch)) -> N.of_nat n < 2 ^ 31) ->
  (idx < N.to_nat (c_nshards c))%nat -> N.of_nat j < 2 ^ 31 ->
  (length (allents (maps ch)) <= n)%nat -> (length (ahead (maps ch) idx j) <= p)%nat ->
  exists ch' es, scan c en time ch (cursor_at idx j) ch' (List.map (fun e => (ekey c e, eview c e)) es) /\
    Refine.cinv c ch' /\
    (forall e, In e es -> In e (allents (maps ch)) /\ entry_alive e now = true) /\
    (forall e, In e (ahead (maps ch) idx j) -> entry_alive e now = true -> In e es) /\
    (forall e, In e (allents (maps ch)) -> entry_alive e now = true -> In e (allents (maps ch'))) /\
    ((forall e, In e (allents (maps ch)) -> entry_alive e now = true) -> es = ahead (maps ch) idx j).
Proof.
  intros en time n p ch idx j now. revert p ch idx j. induction n as [n IHn] using lt_wf_ind.
  induction p as [p IHp] using lt_wf_ind. intros ch idx j I Hs Hn Hi Hj Ln Lp.
  destruct (entry_step en time ch idx j I Hs Hn Hi Hj) as (ch1 & r & cur & evs & E & L).
  destruct (entry_loop_moves c load_ok now (S (N.to_nat (c_nshards c) - idx)) ch idx j [] I Hi)
    as (ch1' & r' & cur' & evs' & E' & I1 & Nb & Le & Al & Sub & Eq & R); [lia|].
  fold now in L. rewrite L in E'. injection E' as <- <- <- <-. clear L.
  destruct r as [[[id k] v]|].
  - destruct R as (e & idx' & j' & -> & -> & Hin & Ha & -> & Hi' & (m & Hm & Hj') & Cov & St).
    assert (Hn1 : forall q, In q (List.map (@m_nb entry) (maps ch1)) -> N.of_nat q < 2 ^ 31)
      by (rewrite Nb; assumption).
    assert (Hj1 : N.of_nat j' < 2 ^ 31).
    { assert (Z : N.of_nat (m_nb m) < 2 ^ 31).
      { apply Hn. apply in_map. apply nth_error_In with (1 := Hm). } lia. }
    assert (Next : exists ch' es, scan c en time ch1 (cursor_at idx' j') ch'
        (List.map (fun e => (ekey c e, eview c e)) es) /\ Refine.cinv c ch' /\
      (forall e, In e es -> In e (allents (maps ch1)) /\ entry_alive e now = true) /\
      (forall e, In e (ahead (maps ch1) idx' j') -> entry_alive e now = true -> In e es) /\
      (forall e, In e (allents (maps ch1)) -> entry_alive e now = true -> In e (allents (maps ch'))) /\
      ((forall e, In e (allents (maps ch1)) -> entry_alive e now = true) -> es = ahead (maps ch1) idx' j')).
    { destruct (Nat.eq_dec (length (allents (maps ch1))) (length (allents (maps ch)))) as [Q|Q].
      - destruct (St Q) as [S1 S2]. apply (IHp (length (ahead (maps ch1) idx' j'))); try assumption; try lia.
        rewrite S1. rewrite S2 in Lp. cbn in Lp. lia.
      - apply (IHn (length (allents (maps ch1)))) with (p := length (ahead (maps ch1) idx' j')); try assumption; lia. }
    destruct Next as (ch' & es & Sc & I2 & A1 & A2 & A3 & A4).
    exists ch', (e :: es). split; [eapply scan_more; eassumption|]. split; [assumption|].
    split; [|split; [|split]].
    + intros x [<-|Hx]; [auto|]. destruct (A1 x Hx). auto.
    + intros x Hx Ax. destruct (Cov x Hx Ax) as [->|Y]; [left; reflexivity|right; auto].
    + auto.
    + intro Aa. destruct (St (Eq Aa)) as [S1 S2]. rewrite S2, <- S1. f_equal. apply A4. rewrite S1. assumption.
  - destruct R as (-> & Dead & St). exists ch1, []. split; [eapply scan_end; eassumption|].
    split; [assumption|]. split; [intros e []|]. split; [|split; [assumption|]].
    + intros e He Ha. rewrite (Dead e He) in Ha. discriminate.
    + intro Aa. symmetry. apply (St (Eq Aa)).
Qed.
End V.

(** ** C15 A scan from cursor 0 ends, and returns every live item and only
    live items; each of them once if no expired item is in the way. *)
Theorem C15_scan : forall o ch en time, reachable (ctx_of o) ch -> cursor_fits (ctx_of o) ch ->
  let now := resolve_now time (en_clock en) in
  exists ch' l, scan (ctx_of o) en time ch 0 ch' l /\
    (forall k v, In (k, v) l <-> sees (ctx_of o) ch k now (Some v)) /\
    (forall k, live (ctx_of o) ch now k -> same_at (ctx_of o) ch ch' k) /\
    ((forall k, holds (ctx_of o) ch k -> live (ctx_of o) ch now k) -> NoDup (List.map fst l)).
Proof.
  intros o ch en time R F now. set (c := ctx_of o) in *.
  pose proof (reach_cinv o ch R) as I. fold c in I.
  destruct (scan_exists o en time (length (allents (maps ch))) (length (ahead (maps ch) 0 0)) ch 0 0)
    as (ch' & es & Sc & I' & A1 & A2 & A3 & A4).
  - exact I.
  - apply F.
  - apply (fits_maps o ch F).
  - pose proof (opts_shards o) as X. lia.
  - reflexivity.
  - lia.
  - lia.
  - fold now in A1, A2, A3, A4. rewrite (ahead_start (maps ch)) in A2, A4. fold c in Sc.
    exists ch', (List.map (fun e => (ekey c e, eview c e)) es). split; [exact Sc|].
    split; [|split].
    + intros k v. rewrite (sees_iff c (opts_load o)) by assumption. split.
      * intro H. apply in_map_iff in H. destruct H as (e & Q & He). injection Q as <- <-.
        destruct (A1 e He) as [B1 B2]. rewrite (allents_live c ch e now I B1), B2. cbn [option_map].
        rewrite shown_item. reflexivity.
      * intro H. destruct (live_item (cabs c ch) k now) as [it|] eqn:L; [|discriminate].
        destruct (live_allents c ch k it now I L) as (e & He & <- & <- & Ha). injection H as ->.
        rewrite shown_item. apply in_map_iff. exists e. auto.
    + intros k Hl. apply (live_iff c (opts_load o)) in Hl; [|assumption].
      destruct (live_item (cabs c ch) k now) as [it|] eqn:L; [|congruence].
      destruct (live_allents c ch k it now I L) as (e & He & <- & <- & Ha).
      apply (same_at_abs c (opts_load o)); [assumption|assumption|].
      pose proof (allents_live c ch' e now I' (A3 e He Ha)) as L'. rewrite Ha in L'.
      apply live_keeps in L, L'. congruence.
    + intro Aa. rewrite A4.
      * rewrite map_map. cbn [fst]. exact (allents_nodup c (opts_load o) ch I).
      * intros e He. assert (L : live c ch now (ekey c e)).
        { apply Aa. apply (holds_iff c (opts_load o)); [assumption|].
          rewrite (allents_cabs c ch e I He). discriminate. }
        apply (live_iff c (opts_load o)) in L; [|assumption].
        rewrite (allents_live c ch e now I He) in L. destruct (entry_alive e now); [reflexivity|congruence].
Qed.

(** Whatever the cursor, as long as its shard number is not exactly the number
    of shards: a live item or the end is returned and no live item is lost. *)
Theorem C15_any_cursor : forall o ch en cur time, reachable (ctx_of o) ch ->
  N.shiftr cur 32 <> c_nshards (ctx_of o) ->
  let now := resolve_now time (en_clock en) in
  exists ch' r cur' evs, step (ctx_of o) en ch (EntryIter cur time) = Ok (ch', REntry r cur', evs) /\
    match r with
    | Some (_, k, v) => sees (ctx_of o) ch k now (Some v)
    | None => cur' = 0
    end /\
    forall k, live (ctx_of o) ch now k -> same_at (ctx_of o) ch ch' k.
Proof.
  intros o ch en cur time R K now. set (c := ctx_of o) in *.
  destruct (reachable_step _ (opts_load o) (opts_shards o) ch en (EntryIter cur time) R K)
    as (ch' & r & evs & E & R' & _ & S).
  pose proof (reach_cinv o ch R) as I. pose proof (reach_cinv o ch' R') as I'.
  fold c in S, I, I'. inversion S; subst.
  change (w_map (world_of c ch)) with (cabs c ch) in *. change (w_map (world_of c ch')) with (cabs c ch') in *.
  eexists ch', _, _, evs. split; [exact E|]. fold now in S. split.
  - match goal with |- match ?r with _ => _ end => destruct r as [[[id k] v]|] end; [|auto].
    match goal with H : forall id k v, _ -> exists it, _ |- _ => destruct (H id k v eq_refl) as (it & L & ->) end.
    apply (sees_iff c (opts_load o)); [assumption|]. fold now in L. rewrite L. reflexivity.
  - intros k Hl. apply (live_iff c (opts_load o)) in Hl; [|assumption].
    apply (same_at_abs c (opts_load o)); [assumption|assumption|].
    match goal with H : forall k, cabs c ch' k = cabs c ch k \/ _ |- _ => destruct (H k) as [X|[X _]] end;
      [assumption|]. fold now in X. contradiction.
Qed.

(** A cursor whose shard number is the number of shards passes the bound check
    [src/pogocache.c:1793] and reads a shard beyond the array. *)
Theorem C15_cursor_refuted : forall o ch en time, reachable (ctx_of o) ch -> c_nshards (ctx_of o) < 2 ^ 31 ->
  exists cur, step (ctx_of o) en ch (EntryIter cur time) = Bad OutOfBounds.
Proof.
  intros o ch en time R Hs. set (c := ctx_of o) in *. pose proof (reach_cinv o ch R) as I. fold c in I.
  exists (cursor_at (N.to_nat (c_nshards c)) 0).
  destruct (cursor_fields (N.to_nat (c_nshards c)) 0) as [F1 F2]; [lia|reflexivity|].
  cbn [step]. unfold cache_entry_iter. cbv zeta. rewrite F1, F2, N2Nat.id.
  replace (2 ^ 31 <=? c_nshards c) with false by (symmetry; apply N.leb_gt; lia).
  rewrite N.ltb_irrefl. cbn [orb N.of_nat N.leb N.compare].
  change (2 ^ 31 <=? 0) with false. cbn match.
  rewrite Nat.sub_diag. cbn [entry_iter_loop]. unfold on_shard.
  rewrite (proj2 (nth_error_None (ca_shards ch) (N.to_nat (c_nshards c)))); [reflexivity|].
  rewrite (ci_len c ch I). lia.
Qed.

(** Cases: two shards' worth of items; and the wrapped table with an expired
    item, which makes the scan return the live one twice. *)
Lemma cursor_fits_b : forall c ch, (c_nshards c <? 2 ^ 31) &&
  forallb (fun s => N.of_nat (m_nb (s_map s)) <? 2 ^ 31) (ca_shards ch) = true -> cursor_fits c ch.
Proof.
  intros c ch H. apply andb_true_iff in H. destruct H as [A B]. split; [apply N.ltb_lt; assumption|].
  intros s Hs. rewrite forallb_forall in B. apply N.ltb_lt. apply B. assumption.
Qed.

Example C15_case : reachable demo_c demo_ch /\ cursor_fits demo_c demo_ch /\
  reachable wrap_c wrap_ch /\ cursor_fits wrap_c wrap_ch /\
  (forall k, holds wrap_c wrap_ch k -> live wrap_c wrap_ch 105 k) /\
  live wrap_c wrap_ch 105 [97; 107] /\ live wrap_c wrap_ch 105 [101; 99].
Proof.
  split; [exact demo_reachable|]. split; [apply cursor_fits_b; vm_compute; reflexivity|].
  split; [exact wrap_reachable|]. split; [apply cursor_fits_b; vm_compute; reflexivity|].
  pose proof (reach_cinv (one_opts false) wrap_ch wrap_reachable) as I.
  split; [|split; (eexists; apply one_sees; [exact wrap_reachable|]; vm_compute; reflexivity)].
  intros k H. apply (holds_iff _ (opts_load (one_opts false))) in H; [|exact I].
  apply (live_iff _ (opts_load (one_opts false))); [exact I|].
  assert (Z : forallb (fun e => entry_alive e 105) (allents (maps wrap_ch)) = true) by (vm_compute; reflexivity).
  rewrite forallb_forall in Z.
  destruct (cabs (ctx_of (one_opts false)) wrap_ch k) as [it|] eqn:Q; [|contradiction].
  assert (L : live_item (cabs (ctx_of (one_opts false)) wrap_ch) k (i_exp it - 1)%Z = Some it).
  { unfold live_item. rewrite Q. unfold alive_at. replace (_ || _) with true; [reflexivity|].
    symmetry. apply orb_true_iff. right. lia. }
  destruct (live_allents _ wrap_ch k it _ I L) as (e & He & <- & <- & _).
  rewrite (allents_live _ wrap_ch e 105 I He), (Z e He). discriminate.
Qed.

Theorem C15_once_with_expired_refuted : exists ch ch' l, reachable wrap_c ch /\ cursor_fits wrap_c ch /\
  scan wrap_c (plenty_env 200) 0 ch 0 ch' l /\ ~ NoDup (List.map fst l).
Proof.
  exists wrap_ch. eexists _, _. split; [exact wrap_reachable|]. split; [apply cursor_fits_b; vm_compute; reflexivity|].
  split.
  - eapply scan_more; [vm_compute; reflexivity|]. eapply scan_more; [vm_compute; reflexivity|].
    eapply scan_end. vm_compute. reflexivity.
  - cbn [List.map fst]. intro X. inversion X; subst.
    match goal with Hn : ~ In _ _ |- _ => apply Hn end. left. reflexivity.
Qed.
