(** The table of named statements and portals: the invariant of the robin-hood table, for a
    probe distance of any width. Like MapProofs, for the loops of Hmap. *)
From Verif Require Import Base Hash Map MapProofs Hmap.
From Coq Require Import Permutation.
Local Open Scope nat_scope.

Section HmapProofs.
Context {V : Type}.
Variable dibs : nat.
Hypothesis dibs_ok : 2 <= dibs.
Notation E := (bytes * V)%type.
Notation slot := (option (bkt E)).
Notation hinc := (hinc V dibs).
Notation hplace := (hplace V dibs).
Notation hrehash := (hrehash V dibs).
Notation hins := (hins V dibs).
Notation hfind := (hfind V).

Definition hfits_n (n : nat) (hs : list N) : Prop :=
  forall s L, s < n -> 1 <= L <= n -> cntw n s L hs <= L + (dibs - 2).

Lemma hfits_perm : forall n a b, Permutation a b -> hfits_n n a -> hfits_n n b.
Proof.
  intros n a b Hp Hf s L Hs HL. unfold cntw.
  rewrite <- (filter_perm _ _ _ _ Hp). apply Hf; assumption.
Qed.

Lemma hfits_tail : forall n h l, hfits_n n (h :: l) -> hfits_n n l.
Proof.
  intros n h l Hf s L Hs HL. specialize (Hf s L Hs HL). unfold cntw in *.
  cbn [filter] in Hf. destruct (offs n s (home n h) <? L); cbn [length] in Hf; lia.
Qed.

Lemma hfits_app_l : forall n a b, hfits_n n (a ++ b) -> hfits_n n a.
Proof.
  intros n a b Hf s L Hs HL. specialize (Hf s L Hs HL). unfold cntw in *.
  rewrite filter_app, app_length in Hf. lia.
Qed.

Lemma hfits_small : forall n hs, length hs <= dibs - 1 -> hfits_n n hs.
Proof.
  intros n hs H s L Hs HL. unfold cntw.
  pose proof (filter_le _ (fun h => offs n s (home n h) <? L) hs).
  lia.
Qed.

(** ** The invariant *)
Record HRH (n : nat) (t : list slot) : Prop := {
  hrh_len : length t = n;
  hrh_step : forall i, i < n -> dib t (addm n i 1) <= dib t i + 1;
  hrh_home : forall i b, i < n -> nth i t None = Some b ->
    1 <= b_dib b /\ b_dib b <= dibs - 1 /\ b_dib b <= n /\
    addm n (home n (b_hash b)) (b_dib b - 1) = i
}.

Lemma hrh_empty : forall n, HRH n (repeat None n).
Proof.
  assert (G : forall n i, nth i (repeat (@None (bkt E)) n) None = None).
  { induction n; intros [|i]; cbn; auto. }
  intro n. constructor.
  - apply repeat_length.
  - intros i Hi. unfold dib. rewrite !G. lia.
  - intros i b Hi H. rewrite G in H. discriminate.
Qed.

Lemma hdib_chain : forall n t i k, HRH n t -> i < n -> k <= n ->
  dib t (addm n i k) <= dib t i + k.
Proof.
  intros n t i k H Hi. induction k as [|k IH]; intro Hk.
  - rewrite addm_0 by assumption. lia.
  - specialize (IH ltac:(lia)).
    pose proof (hrh_step _ _ H (addm n i k) ltac:(apply addm_lt; lia)) as S1.
    rewrite addm_add in S1 by lia. replace (k + 1) with (S k) in S1 by lia. lia.
Qed.

(** The situation inside the insertion loops: bucket [eb] is hcarried to [i]. *)
Record hcarried (n : nat) (t : list slot) (i : nat) (eb : bkt E) : Prop := {
  hca_i : i < n;
  hca_pos : 1 <= b_dib eb;
  hca_prev : b_dib eb <= dib t (addm n i (n - 1)) + 1;
  hca_home : addm n (home n (b_hash eb)) (b_dib eb - 1) = i
}.

Lemma hcarried_le_n : forall n t i eb e, pow2 n -> HRH n t -> hcarried n t i eb ->
  e < n -> nth e t None = None -> b_dib eb <= n.
Proof.
  intros n t i eb e Hp H [Hi Hpos Hprev Hh] He Hne.
  set (p := addm n i (n - 1)) in *.
  assert (Hpn : p < n) by (apply addm_lt; lia).
  pose proof (hdib_chain n t e (offs n e p) H He) as C.
  pose proof (offs_lt n e p He Hpn).
  rewrite addm_offs in C by assumption. rewrite (dib_zero _ _ Hne) in C.
  specialize (C ltac:(lia)). lia.
Qed.

Lemma hcarried_bound : forall n t i eb e, pow2 n -> HRH n t -> hcarried n t i eb ->
  e < n -> nth e t None = None ->
  hfits_n n (b_hash eb :: List.map fst (items t)) -> b_dib eb <= dibs - 1.
Proof.
  intros n t i eb e Hp H Hca He Hne Hfit.
  pose proof (hcarried_le_n n t i eb e Hp H Hca He Hne) as Hdn.
  destruct Hca as [Hi Hpos Hprev Hh].
  pose proof (pow2_ge2 n Hp) as Hn2.
  (* m: number of used buckets right before i *)
  destruct (first_true (fun j => match nth (addm n i (n - 1 - j)) t None with
    None => true | _ => false end) (n - 1 - offs n i e)) as (m & Hm & Pm & Pq).
  { pose proof (offs_lt n i e Hi He).
    replace (n - 1 - (n - 1 - offs n i e)) with (offs n i e) by lia.
    rewrite addm_offs by assumption. rewrite Hne. reflexivity. }
  assert (Hmn : m < n) by lia.
  set (z := addm n i (n - 1 - m)) in *.
  assert (Hz : z < n) by (apply addm_lt; lia).
  assert (Zn : nth z t None = None) by (destruct (nth z t None); congruence).
  set (s := addm n i (n - m)) in *.
  assert (Hs : s < n) by (apply addm_lt; lia).
  assert (Zs : forall q, q < m -> addm n z (q + 1) = addm n s q).
  { intros q Hq. apply ar_zs; assumption. }
  assert (Hprevz : addm n i (n - 1) = addm n z m) by (apply ar_prevz; assumption).
  assert (Dm : b_dib eb <= m + 1).
  { rewrite Hprevz in Hprev. pose proof (hdib_chain n t z m H Hz ltac:(lia)) as C.
    rewrite (dib_zero _ _ Zn) in C. lia. }
  assert (Ho : offs n s (home n (b_hash eb)) = m + 1 - b_dib eb).
  { apply ar_offhome with (i := i); auto. apply home_lt; assumption. }
  assert (Hused : forall q, q < m -> exists b, nth (addm n s q) t None = Some b /\
     (offs n s (home n (b_hash b)) <? m + 2 - b_dib eb) = true).
  { intros q Hq.
    assert (Pnn : nth (addm n s q) t None <> None).
    { specialize (Pq (m - 1 - q) ltac:(lia)). cbv beta in Pq.
      replace (addm n i (n - 1 - (m - 1 - q))) with (addm n s q) in Pq
        by (symmetry; apply ar_pq; assumption).
      destruct (nth (addm n s q) t None); congruence. }
    destruct (nth (addm n s q) t None) as [b|] eqn:Eb; [|congruence].
    exists b. split; [reflexivity|].
    assert (Hsq : addm n s q < n) by (apply addm_lt; lia).
    pose proof (hrh_home _ _ H _ _ Hsq Eb) as (B1 & B2 & B3 & B4).
    pose proof (home_lt n (b_hash b) Hp) as Hhb.
    (* upper bound on dib from the empty slot z *)
    pose proof (hdib_chain n t z (q + 1) H Hz ltac:(lia)) as C1.
    rewrite (dib_zero _ _ Zn), Zs, (dib_some _ _ _ Eb) in C1 by assumption.
    (* lower bound from the bucket before i *)
    pose proof (hdib_chain n t (addm n s q) (m - 1 - q) H Hsq ltac:(lia)) as C2.
    unfold s in C2 at 1. rewrite ar_last in C2 by assumption.
    rewrite (dib_some _ _ _ Eb) in C2.
    assert (Hoff : offs n s (home n (b_hash b)) = q + 1 - b_dib b).
    { apply ar_offb; auto; lia. }
    rewrite Hoff. apply Nat.ltb_lt. lia. }
  specialize (Hfit s (m + 2 - b_dib eb) Hs ltac:(lia)).
  unfold cntw in Hfit. cbn [filter] in Hfit. rewrite Ho in Hfit.
  replace (m + 1 - b_dib eb <? m + 2 - b_dib eb) with true in Hfit by lia.
  cbn [length] in Hfit.
  pose proof (filter_run (fun h => offs n s (home n h) <? m + 2 - b_dib eb) m
    (skipn s t ++ firstn s t)) as F.
  rewrite (filter_perm _ _ (List.map fst (items (skipn s t ++ firstn s t)))
     (List.map fst (items t))) in F.
  - enough (m <= length (filter (fun h => offs n s (home n h) <? m + 2 - b_dib eb)
       (List.map fst (items t)))) by lia.
    apply F. intros q Hq. destruct (Hused q Hq) as (b & Hb & HP).
    exists b. split; [|exact HP].
    rewrite rot_nth by (rewrite (hrh_len _ _ H); lia).
    rewrite (hrh_len _ _ H). exact Hb.
  - apply Permutation_map. rewrite items_app.
    rewrite <- (firstn_skipn s t) at 3. rewrite items_app. apply Permutation_app_comm.
Qed.

(** ** Insertion of an entry whose key is not present *)
(* putting the hcarried bucket at i, over a free or poorer bucket, keeps HRH *)
Lemma hrh_put : forall n t i eb, pow2 n -> HRH n t -> hcarried n t i eb ->
  b_dib eb <= dibs - 1 -> b_dib eb <= n -> dib t i <= b_dib eb -> HRH n (upd t i (Some eb)).
Proof.
  intros n t i eb Hp H [Hi Hpos Hprev Hh] HD Hn Hpoor.
  pose proof (hrh_len _ _ H) as Hlen. pose proof (pow2_ge2 n Hp) as Hn2.
  constructor.
  - rewrite upd_length. assumption.
  - intros x Hx. rewrite !dib_upd by lia.
    destruct (addm n x 1 =? i) eqn:E1; destruct (x =? i) eqn:E2.
    + lia.
    + apply Nat.eqb_eq in E1. rewrite (ar_is_prev n x i Hx E1) in Hprev. lia.
    + apply Nat.eqb_eq in E2. subst x. pose proof (hrh_step _ _ H i Hi). lia.
    + apply (hrh_step _ _ H). assumption.
  - intros x b Hx Hb. destruct (Nat.eq_dec x i) as [->|Hne].
    + rewrite nth_upd_same in Hb by lia. injection Hb as <-. auto.
    + rewrite nth_upd_other in Hb by assumption. apply (hrh_home _ _ H); assumption.
Qed.

Lemma hplace_ok : forall f n t i eb j, pow2 n -> HRH n t -> hcarried n t i eb ->
  hfits_n n (b_hash eb :: List.map fst (items t)) ->
  j < n -> nth (addm n i j) t None = None -> j < f ->
  exists t', hplace f t n i eb = Some t' /\ HRH n t' /\
    Permutation (items t') ((b_hash eb, b_ent eb) :: items t).
Proof.
  induction f as [|f IH]; intros n t i eb j Hp H Hca Hfit Hj Hej Hjf; [lia|].
  pose proof (hrh_len _ _ H) as Hlen. pose proof (pow2_ge2 n Hp) as Hn2.
  pose proof Hca as [Hi Hpos Hprev Hh].
  assert (He : addm n i j < n) by (apply addm_lt; lia).
  pose proof (hcarried_bound n t i eb _ Hp H Hca He Hej Hfit) as HD.
  pose proof (hcarried_le_n n t i eb _ Hp H Hca He Hej) as Hdn.
  cbn [hplace].
  destruct (nth i t None) as [b|] eqn:Eb.
  - assert (Hj0 : j <> 0).
    { intros ->. rewrite addm_0 in Hej by assumption. congruence. }
    assert (Hni : addm n i 1 < n) by (apply addm_lt; lia).
    assert (Enext : addm n (addm n i 1) (j - 1) = addm n i j).
    { rewrite addm_add by lia. f_equal. lia. }
    assert (Eprev : addm n (addm n i 1) (n - 1) = i) by (apply ar_prev_next; assumption).
    assert (Hij : addm n i j <> i) by (apply ar_ne; assumption).
    pose proof (hrh_home _ _ H i b Hi Eb) as (B1 & B2 & B3 & B4).
    pose proof (home_lt n (b_hash b) Hp) as Hhb.
    pose proof (home_lt n (b_hash eb) Hp) as Hhe.
    destruct (b_dib b <? b_dib eb) eqn:Lt.
    + (* swap *)
      rewrite band_addm by assumption. rewrite mk_slot_pos by assumption.
      assert (Hput : HRH n (upd t i (Some eb))).
      { apply hrh_put; auto. rewrite (dib_some _ _ _ Eb). lia. }
      pose proof (items_upd t i (Some eb) ltac:(lia)) as Hperm.
      rewrite Eb in Hperm. cbn [slot_items app] in Hperm.
      assert (Hca' : hcarried n (upd t i (Some eb)) (addm n i 1) (mkB (b_dib b + 1) (b_hash b) (b_ent b))).
      { constructor; cbn [b_dib b_hash].
        - assumption.
        - lia.
        - rewrite Eprev. rewrite dib_upd by lia. rewrite Nat.eqb_refl. lia.
        - replace (b_dib b + 1 - 1) with (b_dib b - 1 + 1) by lia.
          rewrite <- addm_add by lia. rewrite B4. reflexivity. }
      assert (Hej' : nth (addm n i j) (upd t i (Some eb)) None = None).
      { rewrite nth_upd_other by assumption. assumption. }
      assert (Hfit' : hfits_n n (b_hash b :: List.map fst (items (upd t i (Some eb))))).
      { eapply hfits_perm; [|exact Hfit].
        change (b_hash b :: List.map fst (items (upd t i (Some eb))))
          with (List.map fst ((b_hash b, b_ent b) :: items (upd t i (Some eb)))).
        change (b_hash eb :: List.map fst (items t))
          with (List.map fst ((b_hash eb, b_ent eb) :: items t)).
        apply Permutation_map. symmetry. exact Hperm. }
      pose proof (hcarried_bound n _ _ _ _ Hp Hput Hca' He Hej' Hfit') as HD'. cbn [b_dib] in HD'.
      assert (Einc : hinc b = mkB (b_dib b + 1) (b_hash b) (b_ent b)).
      { unfold Hmap.hinc. rewrite Nat.mod_small by lia. reflexivity. }
      rewrite Einc.
      destruct (IH n (upd t i (Some eb)) (addm n i 1) (mkB (b_dib b + 1) (b_hash b) (b_ent b)) (j - 1))
        as (t' & E1 & R1 & P1); auto.
      * lia.
      * rewrite Enext. assumption.
      * lia.
      * exists t'. split; [exact E1|]. split; [exact R1|].
        eapply perm_trans; [exact P1|]. cbn [b_hash b_ent]. exact Hperm.
    + (* continue *)
      rewrite band_addm by assumption.
      assert (Hca' : hcarried n t (addm n i 1) (mkB (b_dib eb + 1) (b_hash eb) (b_ent eb))).
      { constructor; cbn [b_dib b_hash].
        - assumption.
        - lia.
        - rewrite Eprev. rewrite (dib_some _ _ _ Eb). lia.
        - replace (b_dib eb + 1 - 1) with (b_dib eb - 1 + 1) by lia.
          rewrite <- addm_add by lia. rewrite Hh. reflexivity. }
      pose proof (hcarried_bound n _ _ _ _ Hp H Hca' He Hej Hfit) as HD'. cbn [b_dib] in HD'.
      assert (Einc : hinc eb = mkB (b_dib eb + 1) (b_hash eb) (b_ent eb)).
      { unfold Hmap.hinc. rewrite Nat.mod_small by lia. reflexivity. }
      rewrite Einc.
      destruct (IH n t (addm n i 1) (mkB (b_dib eb + 1) (b_hash eb) (b_ent eb)) (j - 1)) as (t' & E1 & R1 & P1); auto.
      * lia.
      * rewrite Enext. assumption.
      * lia.
      * exists t'. auto.
  - exists (upd t i (mk_slot eb)). split; [reflexivity|].
    rewrite mk_slot_pos by assumption. split.
    + apply hrh_put; auto. rewrite (dib_zero _ _ Eb). lia.
    + pose proof (items_upd t i (Some eb) ltac:(lia)) as Hperm.
      rewrite Eb in Hperm. exact Hperm.
Qed.

Lemma hcarried_start : forall n t h e, pow2 n -> hcarried n t (home n h) (mkB 1 h e).
Proof.
  intros n t h e Hp. pose proof (home_lt n h Hp).
  constructor; cbn [b_dib b_hash]; try lia.
  rewrite addm_0; auto.
Qed.

(** ** Rehash *)
Lemma hrehash_ok : forall old n t, pow2 n -> HRH n t ->
  length (items old) + length (items t) < n ->
  hfits_n n (List.map fst (items old) ++ List.map fst (items t)) ->
  exists t', hrehash old t n = Some t' /\ HRH n t' /\
    Permutation (items t') (items old ++ items t).
Proof.
  induction old as [|[b|] old IH]; intros n t Hp H Hcnt Hfit.
  - exists t. cbn. auto.
  - cbn [items List.map app length] in *. cbn [hrehash].
    destruct (empty_slot_exists t) as (e & He & Hne); [rewrite (hrh_len _ _ H); lia|].
    rewrite (hrh_len _ _ H) in He.
    pose proof (home_lt n (b_hash b) Hp) as Hh.
    destruct (hplace_ok n n t (home n (b_hash b)) (mkB 1 (b_hash b) (b_ent b))
      (offs n (home n (b_hash b)) e)) as (t1 & E1 & R1 & P1); auto.
    + apply hcarried_start. assumption.
    + cbn [b_hash].
      apply hfits_app_l with (b := List.map fst (items old)).
      eapply hfits_perm; [|exact Hfit]. cbn [app].
      apply perm_skip. apply Permutation_app_comm.
    + apply offs_lt; assumption.
    + rewrite addm_offs by assumption. assumption.
    + apply offs_lt; assumption.
    + rewrite E1. cbn [b_hash b_ent] in P1.
      destruct (IH n t1 Hp R1) as (t' & E2 & R2 & P2).
      * rewrite (Permutation_length P1). cbn [length]. lia.
      * eapply hfits_perm; [|exact Hfit]. cbn [fst].
        eapply perm_trans; [apply Permutation_middle|].
        apply Permutation_app_head.
        change (b_hash b :: List.map fst (items t))
          with (List.map fst ((b_hash b, b_ent b) :: items t)).
        apply Permutation_map. symmetry. exact P1.
      * exists t'. split; [exact E2|]. split; [exact R2|].
        eapply perm_trans; [exact P2|].
        eapply perm_trans; [apply Permutation_app_head; exact P1|].
        symmetry. apply Permutation_middle.
  - cbn [hrehash items] in *. apply IH; auto.
Qed.

(** ** Lookup *)
Definition hkeys (t : list slot) : list bytes := List.map (fun p => fst (snd p)) (items t).
Definition heq (b : bkt E) (key : bytes) (h : N) : bool := (b_hash b =? h)%N && beq key (fst (b_ent b)).

Lemma hfind_steps : forall f n t p b d k key hash, pow2 n -> HRH n t -> p < n ->
  nth p t None = Some b -> d = b_dib b ->
  (forall i b', i < n -> nth i t None = Some b' -> heq b' key hash = true -> i = p) ->
  heq b key hash = true ->
  k < d -> d - k <= f ->
  hfind f t n (addm n (home n (b_hash b)) k) key hash = Some (Some (b_ent b)).
Proof.
  induction f as [|f IH]; intros n t p b d k key hash Hp H Hpn Hb Hd Huniq Heq Hk Hf; [lia|].
  pose proof (hrh_home _ _ H _ _ Hpn Hb) as (B1 & B2 & B3 & B4).
  pose proof (home_lt n (b_hash b) Hp) as Hh. pose proof (pow2_ge2 n Hp).
  set (h := home n (b_hash b)) in *.
  assert (Hi : addm n h k < n) by (apply addm_lt; lia).
  assert (C : dib t (addm n h k) >= k + 1).
  { pose proof (hdib_chain n t (addm n h k) (d - 1 - k) H Hi ltac:(lia)) as C.
    rewrite addm_add in C by lia. replace (k + (d - 1 - k)) with (d - 1) in C by lia.
    subst d. rewrite B4 in C. rewrite (dib_some _ _ _ Hb) in C. lia. }
  cbn [hfind].
  destruct (dib_pos_some t (addm n h k)) as (b' & Hb'); [lia|].
  rewrite Hb'. change ((b_hash b' =? hash)%N && beq key (fst (b_ent b'))) with (heq b' key hash).
  destruct (heq b' key hash) eqn:Eq.
  - rewrite (Huniq _ _ Hi Hb' Eq) in Hb'. congruence.
  - rewrite band_addm by assumption. rewrite addm_add by lia.
    assert (k <> d - 1).
    { intros ->. subst d. rewrite B4 in Hb'. rewrite Hb in Hb'. injection Hb' as <-. congruence. }
    apply IH with (d := d) (p := p); auto; lia.
Qed.

Lemma hfind_none : forall f n t i j key hash, pow2 n -> length t = n -> i < n ->
  (forall x b', x < n -> nth x t None = Some b' -> heq b' key hash = false) ->
  j < n -> nth (addm n i j) t None = None -> j < f ->
  hfind f t n i key hash = Some None.
Proof.
  induction f as [|f IH]; intros n t i j key hash Hp Hl Hi Hno Hj Hej Hjf; [lia|].
  pose proof (pow2_ge2 n Hp).
  cbn [hfind]. destruct (nth i t None) as [b|] eqn:Eb; [|reflexivity].
  change ((b_hash b =? hash)%N && beq key (fst (b_ent b))) with (heq b key hash).
  rewrite (Hno i b Hi Eb). rewrite band_addm by assumption.
  assert (j <> 0) by (intros ->; rewrite addm_0 in Hej by assumption; congruence).
  apply IH with (j := j - 1); auto; try lia.
  - apply addm_lt; lia.
  - rewrite addm_add by lia. replace (1 + (j - 1)) with j by lia. assumption.
Qed.

(** Lookup succeeds exactly on the hkeys that are present. *)
Lemma hfind_present : forall n t p b key hash, pow2 n -> HRH n t -> p < n ->
  nth p t None = Some b -> NoDup (hkeys t) -> fst (b_ent b) = key -> b_hash b = hash ->
  hfind n t n (home n hash) key hash = Some (Some (b_ent b)).
Proof.
  intros n t p b key hash Hp H Hpn Hb Hnd Hk Hh.
  pose proof (hrh_home _ _ H _ _ Hpn Hb) as (B1 & B2 & B3 & B4).
  pose proof (home_lt n (b_hash b) Hp) as Hhl.
  subst hash. rewrite <- (addm_0 n (home n (b_hash b))) by assumption.
  apply hfind_steps with (d := b_dib b) (p := p); auto; try lia.
  - intros i b' Hi Hb' Heq.
    apply (nodup_pos bytes (fun p => fst (snd p)) t i p b' b); auto.
    cbn [snd]. unfold heq in Heq. apply andb_true_iff in Heq.
    destruct Heq as [_ Heq]. apply beq_eq in Heq. congruence.
  - unfold heq. rewrite N.eqb_refl, Hk, beq_refl. reflexivity.
Qed.

Lemma hfind_absent : forall n t i key hash, pow2 n -> length t = n -> i < n ->
  length (items t) < n -> ~ In key (hkeys t) ->
  hfind n t n i key hash = Some None.
Proof.
  intros n t i key hash Hp Hl Hi Hc Hno.
  destruct (empty_slot_exists t) as (e & He & Hne); [lia|].
  apply hfind_none with (j := offs n i e); auto.
  - intros x b' Hx Hb'. unfold heq. apply andb_false_iff. right.
    apply beq_neq. intros ->. apply Hno. unfold hkeys.
    change (fst (b_ent b')) with ((fun p => fst (snd p)) (b_hash b', b_ent b')).
    apply in_map. apply nth_items_in with x. assumption.
  - apply offs_lt; lia.
  - rewrite addm_offs by lia. assumption.
  - apply offs_lt; lia.
Qed.


(** ** Insertion when the key is not present, and when it is *)
Lemma hin_keys : forall (t : list slot) i b, nth i t None = Some b -> In (fst (b_ent b)) (hkeys t).
Proof.
  intros t i b H. unfold hkeys.
  change (fst (b_ent b)) with ((fun p => fst (snd p)) (b_hash b, b_ent b)).
  apply in_map. apply nth_items_in with i. assumption.
Qed.

Lemma hins_absent : forall f n (t : list slot) i eb,
  length t = n -> pow2 n -> i < n ->
  NoDup (fst (b_ent eb) :: hkeys t) ->
  hins f t n i eb
  = match hplace f t n i eb with Some t' => Some (t', None) | None => None end.
Proof.
  induction f as [|f IH]; intros n t i eb Hl Hp Hi Hnd; [reflexivity|].
  pose proof (pow2_ge2 n Hp).
  cbn [hins hplace]. destruct (nth i t None) as [b|] eqn:Eb; [|reflexivity].
  assert (Hne : beq (fst (b_ent eb)) (fst (b_ent b)) = false).
  { destruct (beq (fst (b_ent eb)) (fst (b_ent b))) eqn:Ec; [|reflexivity].
    apply beq_eq in Ec. inversion Hnd as [|? ? Hni _]; subst. exfalso. apply Hni.
    rewrite Ec. apply hin_keys with i. assumption. }
  rewrite Hne, andb_false_r.
  rewrite band_addm by assumption.
  assert (Hni : addm n i 1 < n) by (apply addm_lt; lia).
  destruct (b_dib b <? b_dib eb) eqn:Lt.
  - pose proof (items_upd t i (mk_slot eb) ltac:(lia)) as Hpm. rewrite Eb in Hpm.
    cbn [slot_items app] in Hpm.
    apply IH; auto.
    + rewrite upd_length. assumption.
    + cbn [hinc b_ent].
      apply (Permutation_NoDup (l := List.map (fun p => fst (snd p)) (slot_items (mk_slot eb) ++ items t))).
      * change (fst (b_ent b) :: hkeys (upd t i (mk_slot eb)))
          with (List.map (fun p => fst (snd p)) ((b_hash b, b_ent b) :: items (upd t i (mk_slot eb)))).
        apply Permutation_map. symmetry. exact Hpm.
      * rewrite map_app. unfold mk_slot. destruct (b_dib eb =? 0); cbn [slot_items List.map app snd].
        -- inversion Hnd; assumption.
        -- assumption.
  - apply IH; auto.
Qed.

Lemma hins_steps : forall f n (t : list slot) p b d k e, pow2 n -> HRH n t -> p < n ->
  nth p t None = Some b -> d = b_dib b ->
  NoDup (hkeys t) -> fst (b_ent b) = fst e ->
  k < d -> d - k <= f ->
  hins f t n (addm n (home n (b_hash b)) k) (mkB (k + 1) (b_hash b) e)
  = Some (upd t p (Some (mkB (b_dib b) (b_hash b) e)), Some (b_ent b)).
Proof.
  induction f as [|f IH]; intros n t p b d k e Hp H Hpn Hb Hd Hnd Hkey Hk Hf; [lia|].
  pose proof (hrh_home _ _ H _ _ Hpn Hb) as (B1 & B2 & B3 & B4).
  pose proof (home_lt n (b_hash b) Hp) as Hh. pose proof (pow2_ge2 n Hp).
  set (h := home n (b_hash b)) in *.
  assert (Hi : addm n h k < n) by (apply addm_lt; lia).
  assert (C : dib t (addm n h k) >= k + 1).
  { pose proof (hdib_chain n t (addm n h k) (d - 1 - k) H Hi ltac:(lia)) as C.
    rewrite addm_add in C by lia. replace (k + (d - 1 - k)) with (d - 1) in C by lia.
    subst d. rewrite B4 in C. rewrite (dib_some _ _ _ Hb) in C. lia. }
  cbn [hins b_hash b_ent b_dib].
  destruct (dib_pos_some t (addm n h k)) as (b' & Hb'); [lia|].
  rewrite Hb'. rewrite (dib_some _ _ _ Hb') in C.
  destruct (Nat.eq_dec k (d - 1)) as [Ek|Nk].
  - subst k d. rewrite B4 in Hb'. rewrite Hb in Hb'. injection Hb' as <-.
    rewrite N.eqb_refl. rewrite B4.
    replace (beq (fst e) (fst (b_ent b))) with true; [reflexivity|].
    symmetry. rewrite Hkey. apply beq_refl.
  - assert (Hne : beq (fst e) (fst (b_ent b')) = false).
    { destruct (beq (fst e) (fst (b_ent b'))) eqn:Ec; [|reflexivity].
      apply beq_eq in Ec.
      assert (Ep : addm n h k = p).
        { apply (nodup_pos bytes (fun p => fst (snd p)) t (addm n h k) p b' b); auto.
          cbn [snd]. congruence. }
        subst d. rewrite <- B4 in Ep. apply addm_inj in Ep; lia. }
    rewrite Hne, andb_false_r.
    replace (b_dib b' <? k + 1) with false by lia.
    rewrite band_addm, addm_add by lia || assumption.
    unfold Hmap.hinc. cbn [b_dib b_hash b_ent]. rewrite Nat.mod_small by lia.
    apply (IH n t p b d (k + 1) e); auto; lia.
Qed.

Lemma hins_present : forall n (t : list slot) p b e, pow2 n -> HRH n t -> p < n ->
  nth p t None = Some b ->
  NoDup (hkeys t) -> fst (b_ent b) = fst e ->
  hins n t n (home n (b_hash b)) (mkB 1 (b_hash b) e)
  = Some (upd t p (Some (mkB (b_dib b) (b_hash b) e)), Some (b_ent b)).
Proof.
  intros n t p b e Hp H Hpn Hb Hnd Hkey.
  pose proof (hrh_home _ _ H _ _ Hpn Hb) as (B1 & B2 & B3 & B4).
  pose proof (home_lt n (b_hash b) Hp) as Hhl.
  rewrite <- (addm_0 n (home n (b_hash b))) by assumption.
  apply (hins_steps n n t p b (b_dib b) 0 e); auto; lia.
Qed.


(** ** Changing the entry of a bucket keeps the structure *)
Lemma hrh_set_ent : forall n (t : list slot) p b e, HRH n t -> p < n -> nth p t None = Some b ->
  HRH n (upd t p (Some (mkB (b_dib b) (b_hash b) e))).
Proof.
  intros n t p b e H Hpn Hb. pose proof (hrh_len _ _ H) as Hl. constructor.
  - rewrite upd_length. assumption.
  - intros i Hi. rewrite !dib_upd by lia. cbn [b_dib].
    pose proof (hrh_step _ _ H i Hi) as S1.
    pose proof (dib_some _ _ _ Hb) as D.
    destruct (addm n i 1 =? p) eqn:E1; destruct (i =? p) eqn:E2;
      repeat match goal with
      | X : (_ =? _) = true |- _ => apply Nat.eqb_eq in X; rewrite ?X in *; clear X
      end; lia.
  - intros i b' Hi Hb'. destruct (Nat.eq_dec i p) as [->|Hne].
    + rewrite nth_upd_same in Hb' by lia. injection Hb' as <-. cbn [b_dib b_hash].
      apply (hrh_home _ _ H p b); auto.
    + rewrite nth_upd_other in Hb' by assumption. apply (hrh_home _ _ H); assumption.
Qed.

End HmapProofs.
