(** Map operations: invariant and specification in terms of the entries held. *)
From Verif Require Import Base Hash Map MapProofs.
From Coq Require Import Permutation.
Local Open Scope nat_scope.

(** No run of [L] consecutive buckets of a table of [n] buckets is the home of
    more than [L+253] hashes (out of any [n] of them). The 8-bit probe distance
    of the table relies on it. *)
Definition crowd_ok (hs : list N) : Prop :=
  forall n s L, pow2 n -> s < n -> 1 <= L <= n -> Nat.min n (cntw n s L hs) <= L + 253.

Lemma crowd_fits : forall hs n, crowd_ok hs -> pow2 n -> length hs <= n -> fits_n n hs.
Proof.
  intros hs n H Hp Hl s L Hs HL. specialize (H n s L Hp Hs HL).
  assert (cntw n s L hs <= length hs) by apply filter_le. lia.
Qed.

Lemma crowd_perm : forall a b, Permutation a b -> crowd_ok a -> crowd_ok b.
Proof.
  intros a b P H n s L Hp Hs HL. unfold cntw.
  rewrite <- (filter_perm _ _ _ _ P). apply H; assumption.
Qed.

Lemma crowd_app : forall a b, crowd_ok (a ++ b) -> crowd_ok b.
Proof.
  intros a b H n s L Hp Hs HL. specialize (H n s L Hp Hs HL). unfold cntw in *.
  rewrite filter_app, app_length in H. lia.
Qed.

Lemma crowd_tail : forall h l, crowd_ok (h :: l) -> crowd_ok l.
Proof. intros h l. apply (crowd_app [h] l). Qed.

Lemma crowd_small : forall hs, length hs <= 254 -> crowd_ok hs.
Proof.
  intros hs H n s L Hp Hs HL. pose proof (fits_small n hs H s L Hs HL). lia.
Qed.

Section MapInv.
Context {E : Type}.
Variable ecmp : E -> E -> bool.
Variable ekey : E -> bytes.
Variable esize : E -> N.
Variable load : N.
Variable W : E -> Prop.
Variable HF : bytes -> N.
Hypothesis load_ok : (55 <= load <= 95)%N.
Hypothesis ecmp_spec : forall a b, W a -> W b -> (ecmp a b = true <-> ekey a = ekey b).

Notation grow_at := (grow_at load).

Definition hk (key : bytes) : N := clip_hash (HF key).
Definition ents (m : map E) : list E := List.map snd (items (m_buckets m)).
Definition hashes (m : map E) : list N := List.map fst (items (m_buckets m)).

Record minv (m : map E) : Prop := {
  mi_cap : m_cap m = 64;
  mi_pow2 : pow2 (m_nb m);
  mi_nb : 64 <= m_nb m;
  mi_grow : m_growat m = grow_at (m_nb m);
  mi_shrink : m_shrinkat m = shrink_at (m_nb m);
  mi_rh : RH (m_nb m) (m_buckets m);
  mi_count : m_count m = length (items (m_buckets m));
  mi_room : m_count m <= m_growat m;
  mi_hash : Forall (fun p => fst p = hk (ekey (snd p))) (items (m_buckets m));
  mi_wf : Forall (fun p => W (snd p)) (items (m_buckets m));
  mi_nodup : NoDup (keys ekey (m_buckets m));
  mi_crowd : crowd_ok (hashes m)
}.

Lemma pow2_64 : pow2 64.
Proof. exists 6. split; [reflexivity|lia]. Qed.

Lemma pow2_double : forall n, pow2 n -> pow2 (n * 2).
Proof.
  intros n (k & H & Hk). exists (S k). split; [|lia].
  rewrite Nat2N.inj_succ, N.pow_succ_r'. lia.
Qed.

Lemma grow_lt : forall n, 0 < n -> grow_at n < n.
Proof. intros n Hn. unfold Map.grow_at. nia. Qed.

Lemma grow_double : forall n, 2 * grow_at n <= grow_at (n * 2).
Proof. intros n. unfold Map.grow_at. nia. Qed.

Lemma grow_pos : forall n, 64 <= n -> 35 <= grow_at n.
Proof. intros n Hn. unfold Map.grow_at. nia. Qed.

Lemma shrink_lt_grow : forall n, 64 <= n -> shrink_at n < grow_at n.
Proof. intros n Hn. unfold shrink_at, Map.grow_at. nia. Qed.

Lemma ents_keys : forall m, keys ekey (m_buckets m) = List.map ekey (ents m).
Proof. intro m. unfold keys, ents. rewrite map_map. reflexivity. Qed.

Lemma hashes_ents : forall m, minv m -> hashes m = List.map (fun e => hk (ekey e)) (ents m).
Proof.
  intros m H. unfold hashes, ents. rewrite map_map. apply map_ext_in. intros p Hin.
  pose proof (mi_hash m H) as F. rewrite Forall_forall in F. apply F. assumption.
Qed.

Lemma ents_length : forall m, minv m -> length (ents m) = m_count m.
Proof. intros m H. unfold ents. rewrite map_length. symmetry. apply mi_count. assumption. Qed.

Lemma count_lt_nb : forall m, minv m -> m_count m < m_nb m.
Proof.
  intros m H. pose proof (mi_room m H). rewrite (mi_grow m H) in H0.
  pose proof (grow_lt (m_nb m)). pose proof (mi_nb m H). lia.
Qed.

Lemma in_ents_nth : forall m e, minv m -> In e (ents m) ->
  exists i b, i < m_nb m /\ nth i (m_buckets m) None = Some b /\ b_ent b = e.
Proof.
  intros m e H Hin. unfold ents in Hin. apply in_map_iff in Hin.
  destruct Hin as ([h e'] & <- & Hin).
  destruct (in_items_nth _ _ _ Hin) as (i & b & Hi & Hb & Hh & He).
  rewrite (rh_len _ _ (mi_rh m H)) in Hi. exists i, b. auto.
Qed.

Lemma nth_in_ents : forall m i b, nth i (m_buckets m) None = Some b -> In (b_ent b) (ents m).
Proof.
  intros m i b H. unfold ents. change (b_ent b) with (snd (b_hash b, b_ent b)).
  apply in_map. apply nth_items_in with i. assumption.
Qed.

Lemma nth_facts : forall m i b, minv m -> nth i (m_buckets m) None = Some b ->
  i < m_nb m /\ b_hash b = hk (ekey (b_ent b)) /\ W (b_ent b).
Proof.
  intros m i b H Hb. repeat split.
  - rewrite <- (rh_len _ _ (mi_rh m H)).
    destruct (Nat.lt_ge_cases i (length (m_buckets m))) as [L|L]; auto.
    rewrite nth_overflow in Hb by assumption. discriminate.
  - pose proof (mi_hash m H) as F. rewrite Forall_forall in F.
    apply (F (b_hash b, b_ent b)). apply nth_items_in with i. assumption.
  - pose proof (mi_wf m H) as F. rewrite Forall_forall in F.
    apply (F (b_hash b, b_ent b)). apply nth_items_in with i. assumption.
Qed.

(** *** map_init *)
Lemma init_inv : minv (map_init E load 64).
Proof.
  assert (I : items (m_buckets (map_init E load 64)) = []).
  { unfold map_init. cbn [m_buckets]. apply items_repeat_none. }
  constructor; unfold keys, hashes; rewrite ?I;
    unfold map_init; cbn [m_cap m_nb m_count m_growat m_shrinkat m_buckets]; auto.
  - apply pow2_64.
  - apply rh_empty.
  - lia.
  - cbn [List.map]. constructor.
  - apply crowd_small. cbn. lia.
Qed.

Lemma init_ents : ents (map_init E load 64) = [].
Proof. unfold ents, map_init. cbn [m_buckets]. rewrite items_repeat_none. reflexivity. Qed.

(** *** map_get_bucket *)
Lemma get_bucket_spec : forall m key, minv m ->
  match map_get_bucket ekey m key (HF key) with
  | Some (Some i) => exists b, nth i (m_buckets m) None = Some b /\ ekey (b_ent b) = key
  | Some None => ~ In key (List.map ekey (ents m))
  | None => False
  end.
Proof.
  intros m key H. unfold map_get_bucket. cbv zeta. fold (hk key).
  pose proof (mi_pow2 m H) as Hp. pose proof (mi_rh m H) as R.
  destruct (in_dec (list_eq_dec N.eq_dec) key (List.map ekey (ents m))) as [Hin|Hno].
  - apply in_map_iff in Hin. destruct Hin as (e & Hk & Hin).
    destruct (in_ents_nth m e H Hin) as (i & b & Hi & Hb & <-).
    destruct (nth_facts m i b H Hb) as (_ & Hh & _).
    rewrite (find_present ekey (m_nb m) (m_buckets m) i b key (hk key)); auto.
    + exists b. auto.
    + apply mi_nodup. assumption.
    + rewrite Hh, Hk. reflexivity.
  - rewrite find_absent; auto.
    + apply (rh_len _ _ R).
    + apply home_lt. assumption.
    + rewrite <- (mi_count m H). apply count_lt_nb. assumption.
    + rewrite ents_keys. assumption.
Qed.

(** *** resize *)
Lemma resize_spec : forall m n, minv m -> pow2 n -> 64 <= n -> m_count m < grow_at n ->
  exists m', resize load true m n = ROk m' /\ minv m' /\ m_nb m' = n /\
    Permutation (items (m_buckets m')) (items (m_buckets m)) /\ m_count m' = m_count m /\
    m_total m' = m_total m /\ m_entsize m' = m_entsize m.
Proof.
  intros m n H Hp Hn Hc. pose proof (grow_lt n ltac:(lia)) as Hg.
  destruct (rehash_ok (m_buckets m) n (repeat None n)) as (t' & E1 & R1 & P1); auto.
  - apply rh_empty.
  - rewrite items_repeat_none. cbn [length]. rewrite <- (mi_count m H). lia.
  - rewrite items_repeat_none. cbn [List.map]. rewrite app_nil_r.
    apply crowd_fits; auto; [apply (mi_crowd m H)|].
    rewrite map_length, <- (mi_count m H). lia.
  - unfold resize. rewrite E1. rewrite items_repeat_none, app_nil_r in P1.
    eexists. split; [reflexivity|]. cbn [m_nb m_buckets m_count m_total m_entsize].
    split; [|auto]. constructor; unfold hashes, keys; cbn [m_cap m_nb m_count m_growat m_shrinkat m_buckets].
    + apply (mi_cap m H).
    + assumption.
    + assumption.
    + reflexivity.
    + reflexivity.
    + assumption.
    + rewrite (Permutation_length P1). apply (mi_count m H).
    + lia.
    + eapply Permutation_Forall; [symmetry; exact P1|apply (mi_hash m H)].
    + eapply Permutation_Forall; [symmetry; exact P1|apply (mi_wf m H)].
    + eapply Permutation_NoDup; [|apply (mi_nodup m H)].
      apply Permutation_map. symmetry. assumption.
    + eapply crowd_perm; [|apply (mi_crowd m H)].
      apply Permutation_map. symmetry. assumption.
Qed.

(** *** map_insert *)
(** changing fields that the invariant does not mention *)
Lemma minv_stats : forall m total entsize, minv m ->
  minv (mkMap (m_cap m) (m_nb m) (m_count m) (m_growat m) (m_shrinkat m) (m_buckets m) total entsize).
Proof. intros m total entsize []. constructor; assumption. Qed.

Lemma insert_nogrow : forall m e, minv m -> W e -> m_count m < m_growat m ->
  crowd_ok (hk (ekey e) :: hashes m) ->
  exists t old, ins_loop ecmp (m_nb m) (m_buckets m) (m_nb m) (home (m_nb m) (hk (ekey e)))
     (mkB 1 (hk (ekey e)) e) = Some (t, old) /\
  match old with
  | None =>
      ~ In (ekey e) (List.map ekey (ents m)) /\
      Permutation (items t) ((hk (ekey e), e) :: items (m_buckets m)) /\
      forall total size, minv (mkMap (m_cap m) (m_nb m) (m_count m + 1) (m_growat m) (m_shrinkat m) t total size)
  | Some o =>
      ekey o = ekey e /\
      Permutation ((hk (ekey e), o) :: items t) ((hk (ekey e), e) :: items (m_buckets m)) /\
      (exists p b, nth p (m_buckets m) None = Some b /\ b_ent b = o /\
         t = upd (m_buckets m) p (Some (mkB (b_dib b) (b_hash b) e))) /\
      forall total size, minv (mkMap (m_cap m) (m_nb m) (m_count m) (m_growat m) (m_shrinkat m) t total size)
  end.
Proof.
  intros m e H We Hroom Hcr.
  pose proof (mi_pow2 m H) as Hp. pose proof (mi_rh m H) as R.
  pose proof (rh_len _ _ R) as Hl. pose proof (mi_count m H) as Hcnt.
  pose proof (count_lt_nb m H) as Hlt.
  destruct (in_dec (list_eq_dec N.eq_dec) (ekey e) (List.map ekey (ents m))) as [Hin|Hno].
  - apply in_map_iff in Hin. destruct Hin as (o & Hk & Hin).
    destruct (in_ents_nth m o H Hin) as (p & b & Hpn & Hb & <-).
    destruct (nth_facts m p b H Hb) as (_ & Hh & Wb).
    rewrite <- Hk, <- Hh.
    rewrite (ins_present ekey ecmp W ecmp_spec (m_nb m) (m_buckets m) p b e); auto.
    2:{ apply (mi_wf m H). } 2:{ apply (mi_nodup m H). }
    eexists. eexists. split; [reflexivity|]. cbv iota.
    pose proof (items_upd (m_buckets m) p (Some (mkB (b_dib b) (b_hash b) e)) ltac:(lia)) as P.
    rewrite Hb in P. cbn [slot_items app b_hash b_ent] in P.
    split; [reflexivity|]. split; [exact P|].
    split; [exists p, b; auto|].
    intros total size.
    set (t := upd (m_buckets m) p (Some (mkB (b_dib b) (b_hash b) e))) in *.
    assert (Fa : Forall (fun q => fst q = hk (ekey (snd q))) ((b_hash b, b_ent b) :: items t)).
    { eapply Permutation_Forall; [symmetry; exact P|]. constructor; [|apply (mi_hash m H)].
      cbn [fst snd]. congruence. }
    assert (Fw : Forall (fun q => W (snd q)) ((b_hash b, b_ent b) :: items t)).
    { eapply Permutation_Forall; [symmetry; exact P|]. constructor; [|apply (mi_wf m H)]. assumption. }
    constructor; unfold hashes, keys; cbn [m_cap m_nb m_count m_growat m_shrinkat m_buckets]; try apply H.
    + apply rh_set_ent; auto.
    + apply Permutation_length in P. cbn [length] in P. lia.
    + inversion Fa; assumption.
    + inversion Fw; assumption.
    + pose proof (mi_nodup m H) as Nd. unfold keys in Nd.
      apply (Permutation_NoDup (l := List.map (fun p => ekey (snd p)) (items (m_buckets m)))); [|assumption].
      apply Permutation_cons_inv with (a := ekey e).
      pose proof (Permutation_map (fun p => ekey (snd p)) P) as P'. cbn [List.map snd] in P'.
      rewrite Hk in P'. symmetry. exact P'.
    + pose proof (mi_crowd m H) as Nd. unfold hashes in Nd.
      eapply crowd_perm; [|exact Nd].
      apply Permutation_cons_inv with (a := b_hash b).
      pose proof (Permutation_map fst P) as P'. cbn [List.map fst] in P'. symmetry. exact P'.
  - assert (Hnd : NoDup (ekey e :: keys ekey (m_buckets m))).
    { constructor; [rewrite ents_keys; assumption|apply (mi_nodup m H)]. }
    rewrite (ins_absent ekey ecmp W ecmp_spec); auto.
    2:{ apply (mi_wf m H). } 2:{ apply home_lt; assumption. }
    destruct (empty_slot_exists (m_buckets m)) as (x & Hx & Hex); [lia|]. rewrite Hl in Hx.
    pose proof (home_lt (m_nb m) (hk (ekey e)) Hp) as Hh.
    pose proof (offs_lt _ _ _ Hh Hx) as Ho.
    destruct (place_ok (m_nb m) (m_nb m) (m_buckets m) (home (m_nb m) (hk (ekey e)))
      (mkB 1 (hk (ekey e)) e) (offs (m_nb m) (home (m_nb m) (hk (ekey e))) x))
      as (t & E1 & R1 & P1); auto.
    + apply carried_start. assumption.
    + cbn [b_hash]. apply crowd_fits; auto. cbn [length]. rewrite map_length. lia.
    + rewrite addm_offs by assumption. assumption.
    + rewrite E1. exists t, None. split; [reflexivity|].
      cbn [b_hash b_ent] in P1.
      split; [assumption|]. split; [assumption|].
      intros total size.
      constructor; unfold hashes, keys; cbn [m_cap m_nb m_count m_growat m_shrinkat m_buckets]; try apply H.
      * assumption.
      * rewrite (Permutation_length P1). cbn [length]. lia.
      * lia.
      * eapply Permutation_Forall; [symmetry; exact P1|]. constructor; [reflexivity|apply (mi_hash m H)].
      * eapply Permutation_Forall; [symmetry; exact P1|]. constructor; [assumption|apply (mi_wf m H)].
      * eapply Permutation_NoDup; [|exact Hnd].
        pose proof (Permutation_map (fun p => ekey (snd p)) P1) as P'. symmetry. exact P'.
      * eapply crowd_perm; [|exact Hcr].
        pose proof (Permutation_map fst P1) as P'. symmetry. exact P'.
Qed.

Lemma insert_spec : forall alloc m e, minv m -> W e -> crowd_ok (hk (ekey e) :: hashes m) ->
  match map_insert ecmp esize load alloc m e (HF (ekey e)) with
  | RLoop => False
  | RFail => alloc = false /\ m_growat m <= m_count m
  | ROk (m', None) =>
      ~ In (ekey e) (List.map ekey (ents m)) /\ minv m' /\
      Permutation (ents m') (e :: ents m) /\
      m_total m' = u64 (m_total m + 1) /\ m_entsize m' = u64 (m_entsize m + esize e)
  | ROk (m', Some o) =>
      ekey o = ekey e /\ minv m' /\ In o (ents m) /\
      Permutation (o :: ents m') (e :: ents m) /\
      m_total m' = m_total m /\ m_count m' < m_growat m' /\
      m_entsize m' = u64 (u64 (m_entsize m + esize e) + 2 ^ 64 - esize o)
  end.
Proof.
  intros alloc m e H We Hcr. unfold map_insert. cbv zeta. fold (hk (ekey e)).
  assert (G : exists m1, minv m1 /\ m_count m1 < m_growat m1 /\
     Permutation (items (m_buckets m1)) (items (m_buckets m)) /\ m_total m1 = m_total m /\
     m_entsize m1 = m_entsize m /\
     ((if m_growat m <=? m_count m then resize load alloc m (m_nb m * 2) else ROk m) = ROk m1 \/
      (if m_growat m <=? m_count m then resize load alloc m (m_nb m * 2) else ROk m) = RFail /\
      alloc = false /\ m_growat m <= m_count m)).
  { destruct (m_growat m <=? m_count m) eqn:Gr.
    - pose proof (mi_nb m H) as Hnb.
      pose proof (mi_room m H) as Hr. pose proof (mi_grow m H) as Hg.
      pose proof (grow_double (m_nb m)). pose proof (grow_pos _ Hnb).
      destruct (resize_spec m (m_nb m * 2) H (pow2_double _ (mi_pow2 m H))) as
        (m1 & E1 & I1 & N1 & P1 & C1 & T1 & S1); [lia|lia|].
      exists m1. rewrite E1 || idtac. split; [assumption|].
      split. { rewrite (mi_grow m1 I1), N1, C1. lia. }
      split; [assumption|]. split; [assumption|]. split; [assumption|].
      destruct alloc.
      + left. assumption.
      + right. split; [reflexivity|]. split; [reflexivity|lia].
    - exists m. split; [assumption|]. split; [lia|]. auto 10. }
  destruct G as (m1 & I1 & L1 & P1 & T1 & S1 & [E1|(E1 & A1 & G1)]).
  2:{ rewrite E1. auto. }
  rewrite E1. clear E1.
  assert (Hcr1 : crowd_ok (hk (ekey e) :: hashes m1)).
  { eapply crowd_perm; [|exact Hcr]. apply perm_skip. unfold hashes.
    apply Permutation_map. symmetry. assumption. }
  destruct (insert_nogrow m1 e I1 We L1 Hcr1) as (t & old & E2 & Q).
  rewrite E2.
  assert (Pe : Permutation (ents m1) (ents m)) by (apply Permutation_map; assumption).
  destruct old as [o|].
  - destruct Q as (K & P & (p & b & Hb & Hbo & _) & I). split; [assumption|]. split; [apply I|].
    cbn [m_total m_count m_growat m_entsize].
    split. { eapply Permutation_in; [exact Pe|]. subst o. apply nth_in_ents with p. assumption. }
    split; [|split; [assumption|split; [assumption|]]].
    + unfold ents at 1. cbn [m_buckets].
      pose proof (Permutation_map snd P) as P'. cbn [List.map snd] in P'.
      eapply perm_trans; [exact P'|]. apply perm_skip. exact Pe.
    + rewrite S1. reflexivity.
  - destruct Q as (K & P & I).
    split.
    { intro Hin. apply K. eapply Permutation_in; [|exact Hin].
      apply Permutation_map. symmetry. exact Pe. }
    split; [apply I|]. cbn [m_total m_entsize].
    split; [|rewrite T1, S1; auto].
    unfold ents at 1. cbn [m_buckets].
    pose proof (Permutation_map snd P) as P'. cbn [List.map snd] in P'.
    eapply perm_trans; [exact P'|]. apply perm_skip. exact Pe.
Qed.

(** *** delbkt *)
Lemma delbkt_spec : forall m i b, minv m -> nth i (m_buckets m) None = Some b ->
  exists m', delbkt m i = Some m' /\ minv m' /\
    Permutation (b_ent b :: ents m') (ents m) /\
    m_nb m' = m_nb m /\ m_count m' = m_count m - 1 /\ m_count m' < m_growat m' /\
    m_total m' = m_total m /\ m_entsize m' = m_entsize m /\
    (forall j, j < m_nb m -> nth j (m_buckets m') None = None \/
       (j <> i /\ nth j (m_buckets m') None = nth j (m_buckets m) None) \/
       (addm (m_nb m) j 1 <> i /\
        same_content (nth j (m_buckets m') None) (nth (addm (m_nb m) j 1) (m_buckets m) None))).
Proof.
  intros m i b H Hb. destruct (nth_facts m i b H Hb) as (Hi & Hh & Wb).
  pose proof (mi_count m H) as Hcnt. pose proof (count_lt_nb m H) as Hlt.
  destruct (delbkt_ok (m_nb m) (m_buckets m) i b (mi_pow2 m H) (mi_rh m H) Hi Hb ltac:(lia))
    as (t' & E1 & R1 & P1 & Q1).
  unfold delbkt. rewrite E1. eexists. split; [reflexivity|].
  cbn [m_nb m_count m_growat m_total m_entsize m_buckets].
  pose proof (Permutation_length P1) as Pl. cbn [length] in Pl.
  split; [|split; [|split; [reflexivity|split; [reflexivity|split; [|auto]]]]].
  - assert (Fa : Forall (fun q => fst q = hk (ekey (snd q))) ((b_hash b, b_ent b) :: items t')).
    { eapply Permutation_Forall; [symmetry; exact P1|apply (mi_hash m H)]. }
    assert (Fw : Forall (fun q => W (snd q)) ((b_hash b, b_ent b) :: items t')).
    { eapply Permutation_Forall; [symmetry; exact P1|apply (mi_wf m H)]. }
    constructor; unfold hashes, keys; cbn [m_cap m_nb m_count m_growat m_shrinkat m_buckets]; try apply H.
    + assumption.
    + lia.
    + pose proof (mi_room m H). lia.
    + inversion Fa; assumption.
    + inversion Fw; assumption.
    + pose proof (mi_nodup m H) as Nd. unfold keys in Nd.
      pose proof (Permutation_map (fun p => ekey (snd p)) P1) as P'. cbn [List.map snd] in P'.
      apply Permutation_sym in P'. apply (Permutation_NoDup P') in Nd. inversion Nd; assumption.
    + apply crowd_tail with (b_hash b).
      eapply crowd_perm; [|apply (mi_crowd m H)].
      pose proof (Permutation_map fst P1) as P'. symmetry. exact P'.
  - unfold ents. cbn [m_buckets].
    pose proof (Permutation_map snd P1) as P'. exact P'.
  - pose proof (mi_room m H). lia.
Qed.

(** *** map_delete *)
Lemma delete_spec : forall m key, minv m ->
  match map_delete ekey esize m key (HF key) with
  | None => False
  | Some (m', None) => m' = m /\ ~ In key (List.map ekey (ents m))
  | Some (m', Some o) =>
      ekey o = key /\ minv m' /\ Permutation (o :: ents m') (ents m) /\
      m_count m' < m_growat m' /\ m_total m' = m_total m /\
      m_entsize m' = u64 (m_entsize m + 2 ^ 64 - esize o)
  end.
Proof.
  intros m key H. unfold map_delete. pose proof (get_bucket_spec m key H) as G.
  destruct (map_get_bucket ekey m key (HF key)) as [[i|]|]; [|auto|contradiction].
  destruct G as (b & Hb & Hk). rewrite Hb. unfold delentry_at_bkt.
  set (m1 := mkMap _ _ _ _ _ _ _ _).
  assert (I1 : minv m1) by (apply minv_stats; assumption).
  destruct (delbkt_spec m1 i b I1 Hb) as (m' & E1 & I' & P & _ & _ & G' & T & S & _).
  rewrite E1. auto 10.
Qed.

(** *** overwriting the entry of a bucket by one with the same key *)
Definition set_ent (m : map E) (i : nat) (b : bkt E) (e : E) : map E :=
  mkMap (m_cap m) (m_nb m) (m_count m) (m_growat m) (m_shrinkat m)
    (upd (m_buckets m) i (Some (mkB (b_dib b) (b_hash b) e))) (m_total m) (m_entsize m).

Lemma set_ent_spec : forall m i b e, minv m -> nth i (m_buckets m) None = Some b ->
  W e -> ekey e = ekey (b_ent b) ->
  minv (set_ent m i b e) /\ Permutation (b_ent b :: ents (set_ent m i b e)) (e :: ents m).
Proof.
  intros m i b e H Hb We Hk. destruct (nth_facts m i b H Hb) as (Hi & Hh & Wb).
  pose proof (rh_len _ _ (mi_rh m H)) as Hl.
  pose proof (items_upd (m_buckets m) i (Some (mkB (b_dib b) (b_hash b) e)) ltac:(lia)) as P.
  rewrite Hb in P. cbn [slot_items app b_hash b_ent] in P.
  set (t := upd (m_buckets m) i (Some (mkB (b_dib b) (b_hash b) e))) in *.
  split.
  - assert (Fa : Forall (fun q => fst q = hk (ekey (snd q))) ((b_hash b, b_ent b) :: items t)).
    { eapply Permutation_Forall; [symmetry; exact P|]. constructor; [|apply (mi_hash m H)].
      cbn [fst snd]. congruence. }
    assert (Fw : Forall (fun q => W (snd q)) ((b_hash b, b_ent b) :: items t)).
    { eapply Permutation_Forall; [symmetry; exact P|]. constructor; [|apply (mi_wf m H)]. assumption. }
    unfold set_ent. fold t.
    constructor; unfold hashes, keys; cbn [m_cap m_nb m_count m_growat m_shrinkat m_buckets]; try apply H.
    + apply rh_set_ent; auto. apply (mi_rh m H).
    + pose proof (mi_count m H). apply Permutation_length in P. cbn [length] in P. lia.
    + inversion Fa; assumption.
    + inversion Fw; assumption.
    + pose proof (mi_nodup m H) as Nd. unfold keys in Nd.
      apply (Permutation_NoDup (l := List.map (fun p => ekey (snd p)) (items (m_buckets m)))); [|assumption].
      apply Permutation_cons_inv with (a := ekey e).
      pose proof (Permutation_map (fun p => ekey (snd p)) P) as P'. cbn [List.map snd] in P'.
      rewrite <- Hk in P'. symmetry. exact P'.
    + pose proof (mi_crowd m H) as Nd. unfold hashes in Nd.
      eapply crowd_perm; [|exact Nd].
      apply Permutation_cons_inv with (a := b_hash b).
      pose proof (Permutation_map fst P) as P'. cbn [List.map fst] in P'. symmetry. exact P'.
  - unfold set_ent, ents. cbn [m_buckets]. fold t.
    pose proof (Permutation_map snd P) as P'. exact P'.
Qed.

(** *** tryshrink *)
Lemma shrink_cap_spec : forall d f count cap, pow2 cap -> 64 <= cap ->
  count < grow_at (cap * 2 ^ d) -> d < f ->
  exists cap', shrink_cap load f count cap = Some cap' /\ pow2 cap' /\ 64 <= cap' /\
    count < grow_at cap'.
Proof.
  induction d as [|d IH]; intros f count cap Hp Hc Hg Hf; (destruct f as [|f]; [lia|]).
  - cbn [Nat.pow] in Hg. rewrite Nat.mul_1_r in Hg. cbn [shrink_cap].
    replace (grow_at cap <=? count) with false by lia. exists cap. auto.
  - cbn [shrink_cap]. destruct (grow_at cap <=? count) eqn:G.
    + apply IH; auto; try lia.
      * apply pow2_double. assumption.
      * replace (cap * 2 * 2 ^ d) with (cap * 2 ^ S d) by (cbn; lia). assumption.
    + exists cap. split; [reflexivity|]. split; [assumption|]. split; [assumption|lia].
Qed.

Lemma pow2_from_64 : forall n, pow2 n -> 64 <= n -> exists d, n = 64 * 2 ^ d /\ d < n.
Proof.
  intros n (k & Hn & Hk) H64.
  assert (Hk6 : 6 <= k).
  { destruct (Nat.lt_ge_cases k 6) as [L|L]; [|assumption].
    assert (2 ^ N.of_nat k <= 2 ^ 5)%N by (apply N.pow_le_mono_r; lia).
    change (2 ^ 5)%N with 32%N in *. lia. }
  exists (k - 6).
  assert (Hpow : forall a, N.of_nat (2 ^ a) = (2 ^ N.of_nat a)%N).
  { induction a as [|a IHa]; [reflexivity|].
    rewrite Nat2N.inj_succ, N.pow_succ_r'. cbn [Nat.pow]. lia. }
  split.
  - apply Nat2N.inj. rewrite Hn, Nat2N.inj_mul, Hpow.
    replace (N.of_nat k) with (6 + N.of_nat (k - 6))%N by lia.
    rewrite N.pow_add_r. reflexivity.
  - assert (k < 2 ^ k) by (apply Nat.pow_gt_lin_r; lia).
    assert (n = 2 ^ k) by (apply Nat2N.inj; rewrite Hpow; assumption). lia.
Qed.

Lemma tryshrink_spec : forall allowshrink alloc m, minv m ->
  exists m', tryshrink load allowshrink alloc m = Some m' /\ minv m' /\
    Permutation (ents m') (ents m) /\
    m_total m' = m_total m /\ m_entsize m' = m_entsize m /\
    (allowshrink = false -> m' = m).
Proof.
  intros allowshrink alloc m H. unfold tryshrink.
  destruct (needsshrink allowshrink m) eqn:Ns.
  2:{ exists m. auto 10. }
  unfold needsshrink in Ns. apply andb_true_iff in Ns. destruct Ns as [Ns1 Ns2].
  apply andb_true_iff in Ns1. destruct Ns1 as [Ha Ns1].
  rewrite (mi_cap m H) in *.
  destruct (pow2_from_64 (m_nb m) (mi_pow2 m H) (mi_nb m H)) as (d & Hd & Hdn).
  pose proof (shrink_lt_grow (m_nb m) (mi_nb m H)) as Sg.
  rewrite (mi_shrink m H) in Ns2.
  destruct (shrink_cap_spec d (m_nb m) (m_count m) 64 pow2_64 (Nat.le_refl _)) as
    (cap' & E1 & P1 & C1 & G1).
  { rewrite <- Hd. lia. }
  { lia. }
  rewrite E1. destruct alloc.
  - destruct (resize_spec m cap' H P1 C1 G1) as (m' & E2 & I2 & _ & P2 & _ & T2 & S2).
    rewrite E2. exists m'. split; [reflexivity|]. split; [assumption|].
    split; [apply Permutation_map; assumption|]. split; [assumption|]. split; [assumption|].
    congruence.
  - cbn [resize]. exists m. split; [reflexivity|]. split; [assumption|]. auto 10.
Qed.
End MapInv.
