(** The loops over all buckets: iteration, sweeping, the scan cursor. *)
From Coq Require Import Permutation.
From Verif Require Import Base Types Entry EntryProofs Hash Map MapProofs MapInv Shard Spec Trace ShardProofs.
Local Open Scope nat_scope.

(** What a loop does when it visits the entries [vis] in this order: final
    state, events, the entries removed, the entries passed over, and whether it
    stopped. *)
Section Replay.
Context {S : Type}.
Variable judge : S -> entry -> S * list event * verdict.
Record replayed := mkRp {
  rp_state : S; rp_events : list event; rp_del : list entry; rp_kept : list entry; rp_stop : bool }.
Fixpoint replay (st : S) (vis : list entry) : replayed :=
  match vis with
  | [] => mkRp st [] [] [] false
  | e :: r =>
      let '(st1, ev1, v) := judge st e in
      let ev := ev1 ++ match vd_del v with
                       | Some k => [EvNotify k None (Some e); EvFree (e_id e)] | None => [] end in
      let q := if vd_stop v then mkRp st1 [] [] [] true else replay st1 r in
      mkRp (rp_state q) (ev ++ rp_events q)
        (match vd_del v with Some _ => e :: rp_del q | None => rp_del q end)
        (match vd_del v with Some _ => rp_kept q | None => e :: rp_kept q end)
        (rp_stop q)
  end.
(** every visited entry is in the table when it is visited *)
Fixpoint vis_in (st : S) (es vis : list entry) : Prop :=
  match vis with
  | [] => True
  | e :: r =>
      In e es /\
      let '(st1, _, v) := judge st e in
      exists es1, Permutation es (match vd_del v with Some _ => e :: es1 | None => es1 end) /\
        (vd_stop v = false -> vis_in st1 es1 r)
  end.
End Replay.

Definition rets (evs : list event) : list N :=
  flat_map (fun ev => match ev with EvRetain id => [id] | _ => [] end) evs.
Lemma rets_app : forall a b, rets (a ++ b) = rets a ++ rets b.
Proof. intros. apply flat_map_app. Qed.

(** entries in the buckets before / from [i] on *)
Definition before (m : map entry) (i : nat) : list entry :=
  List.map snd (items (firstn i (m_buckets m))).
Definition after (m : map entry) (i : nat) : list entry :=
  List.map snd (items (skipn i (m_buckets m))).

Lemma items_app : forall E (a b : list (option (bkt E))), items (a ++ b) = items a ++ items b.
Proof.
  induction a as [|[x|] a IH]; intro b; cbn; [reflexivity| |]; rewrite IH; reflexivity.
Qed.
Lemma before_after : forall m i, before m i ++ after m i = ents m.
Proof.
  intros m i. unfold before, after, ents. rewrite <- map_app, <- items_app, firstn_skipn. reflexivity.
Qed.
Lemma skipn_nth : forall A (l : list A) i d, i < length l -> skipn i l = nth i l d :: skipn (i + 1) l.
Proof.
  induction l as [|x l IH]; intros i d Hi; cbn in Hi; [lia|].
  destruct i; [reflexivity|]. cbn. apply IH. lia.
Qed.
Lemma after_step : forall m i, i < length (m_buckets m) ->
  after m i = (match nth i (m_buckets m) None with Some b => [b_ent b] | None => [] end) ++ after m (i + 1).
Proof.
  intros m i Hi. unfold after. rewrite (skipn_nth _ _ i None Hi).
  destruct (nth i (m_buckets m) None) as [b|]; reflexivity.
Qed.
Lemma after_end : forall m i, length (m_buckets m) <= i -> after m i = [].
Proof. intros m i H. unfold after. rewrite skipn_all2 by assumption. reflexivity. Qed.
Lemma before_in : forall m i e, In e (before m i) <->
  exists j b, j < i /\ nth j (m_buckets m) None = Some b /\ b_ent b = e.
Proof.
  intros m i e. unfold before. rewrite in_map_iff. split.
  - intros ([h e'] & E1 & H). cbn in E1. subst e'.
    destruct (in_items_nth _ _ _ H) as (j & b & Hj & Hb & Hh & He).
    rewrite firstn_length in Hj. exists j, b. split; [lia|]. split; [|assumption].
    rewrite <- Hb. rewrite <- (firstn_skipn i (m_buckets m)) at 1. rewrite app_nth1; [reflexivity|].
    rewrite firstn_length. lia.
  - intros (j & b & Hj & Hb & <-). exists (b_hash b, b_ent b). split; [reflexivity|].
    apply nth_items_in with j. rewrite <- Hb.
    assert (j < length (m_buckets m)).
    { destruct (Nat.lt_ge_cases j (length (m_buckets m))); [assumption|].
      rewrite nth_overflow in Hb by assumption. discriminate. }
    rewrite <- (firstn_skipn i (m_buckets m)) at 2. rewrite app_nth1; [reflexivity|].
    rewrite firstn_length. lia.
Qed.
Lemma before_step : forall m i, i < length (m_buckets m) ->
  before m (i + 1) = before m i ++ (match nth i (m_buckets m) None with Some b => [b_ent b] | None => [] end).
Proof.
  intros m i Hi. unfold before.
  assert (E : firstn (i + 1) (m_buckets m) = firstn i (m_buckets m) ++ [nth i (m_buckets m) None]).
  { revert Hi. generalize (m_buckets m). clear. intro l. revert i.
    induction l as [|x l IH]; intros i Hi; cbn in Hi; [lia|].
    destruct i; [reflexivity|]. cbn. f_equal. apply IH. lia. }
  rewrite E, items_app, map_app. f_equal. destruct (nth i (m_buckets m) None); reflexivity.
Qed.

Section S.
Variable c : ctx.
Hypothesis load_ok : (55 <= c_load c <= 95)%N.
Notation ekey := (ekey c). Notation eview := (eview c).
Notation hash32 := (hash32 c).
Notation wf := (wf_entry c).
Notation minv := (minv ekey (c_load c) wf hash32).
Notation sinv := (sinv c).
Notation lk := (lk ekey).

Lemma nodup_ents : forall m, minv m -> NoDup (ents m).
Proof.
  intros m M. apply (NoDup_map_inv ekey). rewrite <- ents_keys. exact (mi_nodup _ _ _ _ _ M).
Qed.
Lemma buckets_len : forall m, minv m -> length (m_buckets m) = m_nb m.
Proof. intros m M. exact (rh_len _ _ (mi_rh _ _ _ _ _ M)). Qed.

Lemma pos_unique : forall m i j a b, minv m -> nth i (m_buckets m) None = Some a ->
  nth j (m_buckets m) None = Some b -> b_ent a = b_ent b -> i = j.
Proof.
  intros m i j a b M Ha Hb E.
  destruct (Nat.lt_total i j) as [L|[L|L]]; [exfalso|assumption|exfalso].
  - assert (X : In (b_ent a) (before m j)) by (apply before_in; eauto).
    assert (Y : In (b_ent a) (after m j)).
    { rewrite after_step. { rewrite Hb. left. symmetry. assumption. }
      rewrite buckets_len by assumption. destruct (nth_facts _ _ _ _ _ _ _ M Hb). assumption. }
    pose proof (nodup_ents m M) as N. rewrite <- (before_after m j) in N.
    revert X Y N. generalize (before m j) (after m j). clear. intros l1 l2 X Y N.
    induction l1 as [|z l1 IH]; [destruct X|]. cbn in N. inversion N; subst.
    destruct X as [->|X]; [apply H1; apply in_app_iff; auto|auto].
  - assert (X : In (b_ent b) (before m i)) by (apply before_in; eauto).
    assert (Y : In (b_ent b) (after m i)).
    { rewrite after_step. { rewrite Ha. left. assumption. }
      rewrite buckets_len by assumption. destruct (nth_facts _ _ _ _ _ _ _ M Ha). assumption. }
    pose proof (nodup_ents m M) as N. rewrite <- (before_after m i) in N.
    revert X Y N. generalize (before m i) (after m i). clear. intros l1 l2 X Y N.
    induction l1 as [|z l1 IH]; [destruct X|]. cbn in N. inversion N; subst.
    destruct X as [->|X]; [apply H1; apply in_app_iff; auto|auto].
Qed.

Lemma before_nodup : forall m i, minv m -> NoDup (before m i).
Proof.
  intros m i M. pose proof (nodup_ents m M) as N. rewrite <- (before_after m i) in N.
  revert N. generalize (before m i) (after m i). clear. intros l1 l2 N.
  induction l1 as [|z l1 IH]; [constructor|]. cbn in N. inversion N; subst. constructor.
  - intro X. apply H1. apply in_app_iff. auto.
  - auto.
Qed.

Lemma entry_dec : forall a b : entry, {a = b} + {a <> b}.
Proof.
  intros a b. decide equality; first [apply bool_dec|apply N.eq_dec|apply Z.eq_dec|apply (list_eq_dec N.eq_dec)].
Qed.

Lemma nodup_remove_len : forall (l l' : list entry) x, NoDup l ->
  (forall y, In y l -> y <> x -> In y l') -> length l <= length l' + 1.
Proof.
  intros l l' x N H.
  assert (X : length l <= length (x :: l')).
  { apply NoDup_incl_length; [assumption|]. intros y Hy.
    destruct (entry_dec y x) as [->|Hn]; [left; reflexivity|]. right. apply H; assumption. }
  cbn in X. lia.
Qed.

(** the effect of removing bucket [i] on what lies before it *)
Lemma del_before : forall m i b m', minv m -> nth i (m_buckets m) None = Some b ->
  delbkt m i = Some m' ->
  (forall e, In e (before m' i) -> In e (before m i)) /\
  length (before m i) <= length (before m' i) + 1.
Proof.
  intros m i b m' M Hb D.
  destruct (delbkt_spec ekey (c_load c) wf hash32 load_ok m i b M Hb)
    as (m2 & D2 & M2 & P & Hnb & Hc & _ & _ & _ & Pos).
  rewrite D in D2. injection D2 as <-.
  destruct (nth_facts _ _ _ _ _ _ _ M Hb) as (Hi & _).
  split.
  - intros e He. apply before_in in He. destruct He as (j & b2 & Hj & Hb2 & <-).
    destruct (Pos j ltac:(lia)) as [X|[[X1 X2]|[X1 X2]]].
    + congruence.
    + apply before_in. exists j, b2. rewrite <- X2. auto.
    + rewrite Hb2 in X2.
      assert (Ea : addm (m_nb m) j 1 = j + 1).
      { unfold addm. destruct (Nat.ltb_spec (j + 1) (m_nb m)); lia. }
      rewrite Ea in *. destruct (nth (j + 1) (m_buckets m) None) as [b3|] eqn:B3; [|destruct X2].
      destruct X2 as [_ X2]. apply before_in. exists (j + 1), b3. split; [lia|]. auto.
  - set (x := match nth 0 (m_buckets m) None with Some b0 => b_ent b0 | None => b_ent b end).
    apply nodup_remove_len with x; [apply before_nodup; assumption|].
    intros e He Hx. apply before_in in He. destruct He as (p & b1 & Hp & Hb1 & E1).
    assert (Hp0 : p <> 0).
    { intros ->. apply Hx. unfold x. rewrite Hb1. symmetry. assumption. }
    assert (Hin : In e (ents m')).
    { assert (X : In e (b_ent b :: ents m')).
      { rewrite P. rewrite <- E1. apply nth_in_ents with p. assumption. }
      destruct X as [X|X]; [|assumption]. exfalso.
      assert (p = i); [|lia]. eapply (pos_unique m p i b1 b); eauto. congruence. }
    destruct (in_ents_nth _ _ _ _ _ _ M2 Hin) as (j & b2 & Hj & Hb2 & E2).
    apply before_in. exists j, b2. split; [|auto].
    destruct (Pos j ltac:(lia)) as [X|[[X1 X2]|[X1 X2]]].
    + congruence.
    + rewrite Hb2 in X2. assert (j = p); [|lia].
      eapply (pos_unique m j p b2 b1); eauto. congruence.
    + rewrite Hb2 in X2.
      destruct (nth (addm (m_nb m) j 1) (m_buckets m) None) as [b3|] eqn:B3; [|destruct X2].
      destruct X2 as [_ X2].
      assert (Ep : addm (m_nb m) j 1 = p).
      { eapply (pos_unique m _ p b3 b1); eauto. congruence. }
      unfold addm in Ep. destruct (Nat.ltb_spec (j + 1) (m_nb m)); lia.
Qed.

Context {St : Type}.
Variable judge : St -> entry -> St * list event * verdict.

Lemma scan_spec : forall fuel st m i evs kept d, minv m ->
  (m_nb m - i) + m_count m + 1 <= fuel ->
  (forall e, In e (before m i) -> In e kept) ->
  length kept <= length (before m i) + d ->
  exists st' m' stopped vis,
    let q := replay judge st vis in
    scan judge fuel st m i evs = Ok (st', m', stopped, evs ++ rp_events q) /\
    rp_state q = st' /\ minv m' /\ Permutation (ents m) (rp_del q ++ ents m') /\
    vis_in judge st (ents m) vis /\
    m_nb m' = m_nb m /\ m_total m' = m_total m /\ m_entsize m' = m_entsize m /\
    m_count m' = m_count m - length (rp_del q) /\
    (stopped = None -> rp_stop q = false /\
       (forall e, In e (ents m') -> In e (kept ++ rp_kept q)) /\
       length (kept ++ rp_kept q) <= length (ents m') + d + length (rp_del q)) /\
    (forall j, stopped = Some j -> rp_stop q = true /\ j <= m_nb m /\
       (forall e, In e (before m' j) -> In e (kept ++ rp_kept q))) /\
    (rp_del q = [] -> m' = m /\ (stopped = None -> rp_kept q = after m i) /\
       (forall j, stopped = Some j -> after m i = rp_kept q ++ after m j)).
Proof.
  induction fuel as [|fuel IH]; intros st m i evs kept d M Hf Hk Hl; [lia|].
  cbn [scan]. destruct (Nat.leb_spec (m_nb m) i) as [Hend|Hlt].
  { exists st, m, None, []. cbn [replay rp_events rp_state rp_del rp_kept rp_stop app].
    rewrite !app_nil_r.
    assert (Bf : before m i = ents m).
    { rewrite <- (before_after m i), after_end; [symmetry; apply app_nil_r|].
      rewrite buckets_len; assumption. }
    rewrite Bf in Hk, Hl.
    do 9 (split; [first [reflexivity|assumption|solve [cbn; auto]|cbn; lia]|]).
    split; [intros _; split; [reflexivity|]; split; [assumption|cbn; lia]|].
    split; [discriminate|]. intros _. split; [reflexivity|]. split; [|discriminate]. intros _.
    symmetry. apply after_end. rewrite buckets_len; assumption. }
  pose proof (buckets_len m M) as Hlen.
  pose proof (before_step m i ltac:(lia)) as Bs.
  pose proof (after_step m i ltac:(lia)) as As.
  destruct (nth i (m_buckets m) None) as [b|] eqn:Hb.
  2:{ rewrite app_nil_r in Bs. cbn [app] in As. rewrite As. apply IH; auto; try lia.
      - rewrite Bs. assumption. - rewrite Bs. assumption. }
  assert (Hin : In (b_ent b) (ents m)) by (apply nth_in_ents with i; assumption).
  destruct (judge st (b_ent b)) as [[st1 ev1] v] eqn:J.
  destruct (vd_del v) as [k|] eqn:Vd.
  - (* removed *)
    destruct (delbkt_spec ekey (c_load c) wf hash32 load_ok m i b M Hb)
      as (m1 & D & M1 & P & Hnb & Hc & _ & Ht & Hs & _).
    rewrite D. destruct (del_before m i b m1 M Hb D) as [Bi Bl].
    assert (Hcnt : 1 <= m_count m).
    { rewrite (count_len _ _ M). destruct (ents m); [destruct Hin|cbn; lia]. }
    destruct (vd_stop v) eqn:Vs.
    + exists st1, m1, (Some i), [b_ent b]. cbn [replay]. rewrite J, Vd, Vs.
      cbn [rp_events rp_state rp_del rp_kept rp_stop]. rewrite app_nil_r.
      split; [reflexivity|]. split; [reflexivity|]. split; [assumption|].
      split; [symmetry; assumption|].
      split.
      { cbn [vis_in]. rewrite J, Vd, Vs. split; [assumption|]. exists (ents m1).
        split; [symmetry; assumption|discriminate]. }
      split; [assumption|]. split; [assumption|]. split; [assumption|].
      split; [cbn; lia|]. split; [discriminate|].
      split; [|discriminate]. intros j [= <-]. split; [reflexivity|]. split; [lia|].
      rewrite app_nil_r. auto.
    + destruct (IH st1 m1 i (evs ++ ev1 ++ [EvNotify k None (Some (b_ent b)); EvFree (e_id (b_ent b))])
                   kept (d + 1) M1) as (st' & m' & stopped & vis & Q); try lia.
      { auto. }
      cbv zeta in Q. destruct Q as (Q1 & Q2 & Q3 & Q4 & Q5 & Q6 & Q7 & Q8 & Q9 & Q10 & Q11 & Q12).
      exists st', m', stopped, (b_ent b :: vis). cbn [replay]. rewrite J, Vd, Vs.
      set (q := replay judge st1 vis) in *.
      cbn [rp_events rp_state rp_del rp_kept rp_stop].
      split; [rewrite Q1, <- !app_assoc; reflexivity|]. split; [assumption|]. split; [assumption|].
      split; [cbn [app]; rewrite <- Q4; symmetry; assumption|].
      split.
      { cbn [vis_in]. rewrite J, Vd, Vs. split; [assumption|]. exists (ents m1).
        split; [symmetry; assumption|auto]. }
      split; [congruence|]. split; [congruence|]. split; [congruence|].
      split; [cbn [length]; lia|].
      split.
      { intro Hst. destruct (Q10 Hst) as (A & B & C). split; [assumption|]. split; [assumption|].
        cbn [length]. lia. }
      split; [|discriminate]. intros j Hj. destruct (Q11 j Hj) as (A & B & C).
      split; [assumption|]. split; [lia|assumption].
  - (* passed over *)
    destruct (vd_stop v) eqn:Vs.
    + exists st1, m, (Some (i + 1)), [b_ent b]. cbn [replay]. rewrite J, Vd, Vs.
      cbn [rp_events rp_state rp_del rp_kept rp_stop]. rewrite !app_nil_r.
      do 4 (split; [first [reflexivity|assumption]|]).
      split.
      { cbn [vis_in]. rewrite J, Vd, Vs. split; [assumption|]. exists (ents m).
        split; [reflexivity|discriminate]. }
      do 5 (split; [first [reflexivity|assumption|discriminate|solve[cbn; lia]|solve [auto]]|]).
      split.
      { intros j [= <-]. split; [reflexivity|]. split; [lia|]. intros e He. rewrite Bs in He.
        apply in_app_iff in He. apply in_app_iff. destruct He as [He|He]; auto. }
      intros _. split; [reflexivity|]. split; [discriminate|]. intros j [= <-]. exact As.
    + destruct (IH st1 m (i + 1) (evs ++ ev1) (kept ++ [b_ent b]) d M)
        as (st' & m' & stopped & vis & Q); try lia.
      { intros e He. rewrite Bs in He. apply in_app_iff in He. apply in_app_iff.
        destruct He as [He|He]; auto. }
      { rewrite Bs, !app_length. cbn [length]. lia. }
      cbv zeta in Q. destruct Q as (Q1 & Q2 & Q3 & Q4 & Q5 & Q6 & Q7 & Q8 & Q9 & Q10 & Q11 & Q12).
      exists st', m', stopped, (b_ent b :: vis). cbn [replay]. rewrite J, Vd, Vs.
      set (q := replay judge st1 vis) in *.
      cbn [rp_events rp_state rp_del rp_kept rp_stop]. rewrite app_nil_r.
      split; [rewrite Q1, <- !app_assoc; reflexivity|].
      do 3 (split; [assumption|]).
      split.
      { cbn [vis_in]. rewrite J, Vd, Vs. split; [assumption|]. exists (ents m). auto. }
      do 4 (split; [assumption|]).
      split.
      { intro Hst. destruct (Q10 Hst) as (A & B & C). split; [assumption|].
        rewrite <- app_assoc in B, C. cbn [app] in B, C. auto. }
      split.
      { intros j Hj. destruct (Q11 j Hj) as (A & B & C). split; [assumption|]. split; [assumption|].
        rewrite <- app_assoc in C. assumption. }
      intro Hd. destruct (Q12 Hd) as (A & B & C). split; [assumption|]. rewrite As. split.
      { intro Hst. rewrite (B Hst). reflexivity. }
      { intros j Hj. rewrite (C j Hj). reflexivity. }
Qed.


(** The events of a loop body: nothing, or the entry shown, or a reference taken. *)
Definition quiet : Prop := forall st e st1 ev1 v, judge st e = (st1, ev1, v) ->
  (ev1 = [] \/ (exists k w, ev1 = [EvShow e k w]) \/ ev1 = [EvRetain (e_id e)] /\ vd_del v = None) /\
  (forall k, vd_del v = Some k -> k = N_DELETED \/ k = N_EXPIRED).

Lemma replay_heap : quiet -> forall vis st es held, vis_in judge st es vis ->
  let q := replay judge st vis in
  exists es', Permutation es (rp_del q ++ es') /\
    heap_ok (ids es ++ held) (rp_events q) (ids es' ++ held ++ rets (rp_events q)).
Proof.
  intro Hq. induction vis as [|e r IH]; intros st es held V; cbn [replay].
  - exists es. cbn. split; [reflexivity|]. rewrite app_nil_r. constructor. reflexivity.
  - cbn [vis_in] in V. destruct V as [Hin V].
    destruct (judge st e) as [[st1 ev1] v] eqn:J. destruct V as (es1 & P & V).
    destruct (Hq _ _ _ _ _ J) as [He Hk]. cbn [rp_del rp_events].
    assert (Hid : In (e_id e) (ids es ++ held)) by (apply in_app_iff; left; apply in_map; assumption).
    set (held1 := held ++ rets ev1).
    (* the events of this visit *)
    assert (H1 : heap_ok (ids es ++ held)
       (ev1 ++ match vd_del v with
               | Some k => [EvNotify k None (Some e); EvFree (e_id e)] | None => [] end)
       (ids es1 ++ held1)).
    { apply heap_app with (ids es ++ held1).
      - unfold held1. destruct He as [->|[(k & w & ->)|[-> _]]].
        + cbn. rewrite app_nil_r. constructor. reflexivity.
        + cbn. rewrite app_nil_r. constructor; [assumption|]. constructor. reflexivity.
        + cbn. constructor; [assumption|]. constructor.
          rewrite app_assoc. apply Permutation_cons_append.
      - pose proof (Permutation_map e_id P) as Q. unfold ids in *.
        destruct (vd_del v) as [k|]; cbn [List.map] in Q.
        + constructor; [discriminate| |].
          * intros y [= <-]. apply in_app_iff. left. apply in_map. assumption.
          * apply hp_free with (L0 := List.map e_id es1 ++ held1).
            { rewrite Q. reflexivity. } constructor. reflexivity.
        + constructor. apply Permutation_app_tail. assumption. }
    assert (Hr : rets (ev1 ++ match vd_del v with
               | Some k => [EvNotify k None (Some e); EvFree (e_id e)] | None => [] end) = rets ev1).
    { rewrite rets_app. destruct (vd_del v); cbn; apply app_nil_r. }
    destruct (vd_stop v) eqn:Vs.
    + cbn [rp_del rp_events]. rewrite app_nil_r. exists es1. split.
      * destruct (vd_del v); exact P.
      * rewrite Hr. exact H1.
    + destruct (IH st1 es1 held1 (V eq_refl)) as (es' & P2 & H2). cbv zeta in P2, H2.
      exists es'. split.
      * destruct (vd_del v); [cbn [app]; rewrite P; constructor; assumption|].
        rewrite P. assumption.
      * eapply heap_app; [exact H1|]. rewrite rets_app, Hr. unfold held1 in H2.
        rewrite <- app_assoc in H2. exact H2.
Qed.

Definition vw (es : list entry) : vmap := fun k => option_map eview (lk es k).

Lemma notes_quiet : quiet -> forall st e st1 ev1 v, judge st e = (st1, ev1, v) -> notes c ev1 = [].
Proof.
  intros Hq st e st1 ev1 v J. destruct (Hq _ _ _ _ _ J) as [[->|[(k & w & ->)|[-> _]]] _]; reflexivity.
Qed.

Lemma replay_mirror : quiet -> forall vis st es, NoDup (List.map ekey es) -> vis_in judge st es vis ->
  let q := replay judge st vis in
  exists es', Permutation es (rp_del q ++ es') /\ mirrored (vw es) (notes c (rp_events q)) (vw es').
Proof.
  intro Hq. induction vis as [|e r IH]; intros st es Nd V; cbn [replay].
  - exists es. cbn. split; [reflexivity|]. constructor. reflexivity.
  - cbn [vis_in] in V. destruct V as [Hin V].
    destruct (judge st e) as [[st1 ev1] v] eqn:J. destruct V as (es1 & P & V).
    pose proof (notes_quiet Hq _ _ _ _ _ J) as Hn.
    destruct (Hq _ _ _ _ _ J) as [_ Hk]. cbn [rp_del rp_events].
    assert (Nd1 : NoDup (List.map ekey es1)).
    { pose proof (Permutation_NoDup (Permutation_map ekey P) Nd) as X.
      destruct (vd_del v); [cbn [List.map] in X; inversion X|]; assumption. }
    assert (H1 : mirrored (vw es) (notes c (ev1 ++ match vd_del v with
               | Some k => [EvNotify k None (Some e); EvFree (e_id e)] | None => [] end)) (vw es1)).
    { rewrite notes_app, Hn. cbn [app]. destruct (vd_del v) as [k|].
      - cbn [notes flat_map app option_map]. unfold kv_of. eapply mr_gone.
        + destruct (Hk k eq_refl) as [->| ->]; auto.
        + unfold vw. rewrite (lk_in ekey es e Nd Hin). reflexivity.
        + constructor. intro k'. unfold vset, vw. rewrite (lk_remove ekey es es1 e k' Nd P).
          destruct (beq (ekey e) k'); reflexivity.
      - constructor. intro k. unfold vw. f_equal. apply lk_perm; assumption. }
    destruct (vd_stop v) eqn:Vs.
    + cbn [rp_del rp_events]. rewrite app_nil_r. exists es1. split; [|exact H1].
      destruct (vd_del v); exact P.
    + destruct (IH st1 es1 Nd1 (V eq_refl)) as (es' & P2 & H2). cbv zeta in P2, H2.
      exists es'. split.
      * destruct (vd_del v); [cbn [app]; rewrite P; constructor; assumption|].
        rewrite P. assumption.
      * rewrite notes_app. eapply mirror_app; eassumption.
Qed.

End S.

(** [good] of ShardProofs.v, for loops that may also hand out references. *)
Record good2 (c : ctx) (s : shard) (evs : list event) (s' : shard) : Prop := {
  g2_inv : sinv c s';
  g2_next : s_next s' = s_next s;
  g2_heap : forall held,
    heap_ok (ids (sents s) ++ held) evs (ids (sents s') ++ held ++ rets evs);
  g2_mirror : mirrored (svw c s) (notes c evs) (svw c s')
}.

Lemma good2_good : forall c s evs s', good2 c s evs s' -> rets evs = [] -> good c s evs s'.
Proof.
  intros c s evs s' [A B C D] R. constructor; auto; [lia|].
  intros held _. specialize (C held). rewrite R, app_nil_r in C. assumption.
Qed.

Lemma mirror_ext_r : forall M ns M' N, mirrored M ns M' -> (forall k, M' k = N k) -> mirrored M ns N.
Proof.
  intros M ns M' N H E. rewrite <- (app_nil_r ns). eapply mirror_app; [exact H|]. constructor. assumption.
Qed.

(** The whole loop over a shard, ending in a shard with the same contents as the
    map it left (shrinking may follow). *)
Section Loop.
Variable c : ctx.
Hypothesis load_ok : (55 <= c_load c <= 95)%N.
Context {St : Type}.
Variable judge : St -> entry -> St * list event * verdict.
Hypothesis Hq : quiet judge.
Notation minv := (minv (ekey c) (c_load c) (wf_entry c) (hash32 c)).

Lemma loop_good : forall s st vis m' s', sinv c s ->
  let q := replay judge st vis in
  vis_in judge st (sents s) vis -> Permutation (sents s) (rp_del q ++ ents m') ->
  minv (s_map s') -> Permutation (sents s') (ents m') -> s_next s' = s_next s -> s_cas s' = s_cas s ->
  good2 c s (rp_events q) s'.
Proof.
  intros s st vis m' s' I q V P M' P' Nx Cs.
  pose proof (nodup_keys c s I) as Nd.
  destruct (replay_mirror c judge Hq vis st (sents s) Nd V) as (es2 & Q2 & Mi). fold q in Q2, Mi.
  assert (P2 : Permutation es2 (sents s')).
  { rewrite P'. apply Permutation_app_inv_l with (rp_del q). rewrite <- Q2. assumption. }
  assert (Pi : Permutation (sents s) (rp_del q ++ sents s')).
  { rewrite P. apply Permutation_app_head. symmetry. assumption. }
  constructor; auto.
  - constructor; auto.
    + pose proof (Permutation_NoDup (Permutation_map e_id Pi) (si_ids c s I)) as X.
      rewrite map_app in X. revert X. unfold ids. generalize (List.map e_id (rp_del q)).
      intros l X. induction l; [assumption|]. inversion X; auto.
    + rewrite Nx. pose proof (si_next c s I) as F. unfold ids in *.
      rewrite (Permutation_map e_id Pi), map_app in F. apply Forall_app in F. apply F.
    + rewrite Cs. apply I.
  - intro held. destruct (replay_heap judge Hq vis st (sents s) held V) as (es1 & Q1 & H).
    fold q in Q1, H. eapply heap_perm_r; [exact H|]. apply Permutation_app_tail.
    apply Permutation_map. rewrite P'. apply Permutation_app_inv_l with (rp_del q).
    rewrite <- Q1. assumption.
  - eapply mirror_ext_r; [exact Mi|]. intro k. unfold vw, svw. f_equal. apply lk_perm; [|assumption].
    pose proof (Permutation_NoDup (Permutation_map (ekey c) Q2) Nd) as X. rewrite map_app in X.
    revert X. generalize (List.map (ekey c) (rp_del q)). intros l X. induction l; [assumption|].
    inversion X; auto.
Qed.
End Loop.
