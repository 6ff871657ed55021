(** The table of named statements and portals: the operations, in terms of the items held. *)
From Verif Require Import Base Hash Map MapProofs Hmap HmapProofs.
From Coq Require Import Permutation.
Local Open Scope nat_scope.

Section HmapRun.
Context {V : Type}.
Variable hash : bytes -> N.
Variable dibs : nat.
Hypothesis dibs_ok : 2 <= dibs.
Notation E := (bytes * V)%type.
Notation set := (hmap_set V hash dibs).
Notation get := (hmap_get V hash).
Notation all := (hmap_all V).
Definition hh (name : bytes) : N := hclip (hash name).

Record hinv (m : hmap V) : Prop := {
  hi_pow2 : pow2 (h_nb m);
  hi_nb : 16 <= h_nb m;
  hi_grow : h_growat m = hgrow_at (h_nb m);
  hi_rh : HRH dibs (h_nb m) (h_buckets m);
  hi_count : h_count m = length (items (h_buckets m));
  hi_room : h_count m <= h_growat m;
  hi_hash : Forall (fun p => fst p = hh (fst (snd p))) (items (h_buckets m));
  hi_nodup : NoDup (hkeys (h_buckets m))
}.

Lemma hgrow_lt : forall n, 0 < n -> hgrow_at n < n.
Proof. intros n H. unfold hgrow_at. apply Nat.div_lt_upper_bound; lia. Qed.
Lemma hgrow_double : forall n, 16 <= n -> hgrow_at n < hgrow_at (n * 2).
Proof. intros n H. unfold hgrow_at. apply Nat.div_lt_upper_bound; [lia|].
  pose proof (Nat.div_mod (n * 2 * 3) 5 ltac:(lia)). pose proof (Nat.mod_upper_bound (n * 2 * 3) 5 ltac:(lia)). lia. Qed.
Lemma hkeys_all : forall m, hkeys (h_buckets m) = List.map fst (all m).
Proof. intro m. unfold hkeys, hmap_all. rewrite map_map. reflexivity. Qed.
Lemma hpow2_double : forall n, pow2 n -> pow2 (n * 2).
Proof.
  intros n (k & H & Hk). exists (S k). split; [|lia].
  rewrite Nat2N.inj_succ, N.pow_succ_r'. lia.
Qed.
Lemma pow2_16 : pow2 16.
Proof. exists 4. split; [reflexivity|lia]. Qed.

Lemma hnew_inv : hinv (hmap_new V 16).
Proof.
  assert (I : items (h_buckets (hmap_new V 16)) = []) by apply items_repeat_none.
  constructor; unfold hkeys; rewrite ?I; cbn [hmap_new h_nb h_count h_growat h_buckets]; auto.
  - apply pow2_16.
  - apply hrh_empty; assumption.
  - lia.
  - constructor.
Qed.
Lemma hnew_all : all (hmap_new V 16) = [].
Proof. unfold hmap_all. cbn [h_buckets hmap_new]. rewrite items_repeat_none. reflexivity. Qed.

Lemma hcount_lt : forall m, hinv m -> length (items (h_buckets m)) < h_nb m.
Proof.
  intros m H. rewrite <- (hi_count m H). pose proof (hi_room m H) as R. rewrite (hi_grow m H) in R.
  pose proof (hi_nb m H). pose proof (hgrow_lt (h_nb m)). lia.
Qed.
Lemma in_all_nth : forall m e, hinv m -> In e (all m) ->
  exists i b, i < h_nb m /\ nth i (h_buckets m) None = Some b /\ b_ent b = e.
Proof.
  intros m e H I. unfold hmap_all in I. apply in_map_iff in I. destruct I as ([h e'] & <- & I).
  destruct (in_items_nth _ _ _ I) as (i & b & Hi & Hb & Hh & He).
  rewrite (hrh_len _ _ _ (hi_rh m H)) in Hi. exists i, b. auto.
Qed.
Lemma hnth_hash : forall m i b, hinv m -> nth i (h_buckets m) None = Some b -> b_hash b = hh (fst (b_ent b)).
Proof.
  intros m i b H Hb. pose proof (hi_hash m H) as F. rewrite Forall_forall in F.
  apply (F (b_hash b, b_ent b)). apply nth_items_in with i. assumption.
Qed.

Theorem hget_spec : forall m name, hinv m ->
  exists r, get m name = Some r /\
  match r with Some e => In e (all m) /\ fst e = name | None => ~ In name (List.map fst (all m)) end.
Proof.
  intros m name H. unfold hmap_get. cbv zeta. fold (hh name).
  pose proof (hi_pow2 m H) as Hp. pose proof (hi_rh m H) as R.
  destruct (in_dec (list_eq_dec N.eq_dec) name (List.map fst (all m))) as [I | I].
  - apply in_map_iff in I. destruct I as (e & Hk & Hin).
    destruct (in_all_nth m e H Hin) as (i & b & Hi & Hb & <-).
    exists (Some (b_ent b)). rewrite (hfind_present dibs dibs_ok (h_nb m) (h_buckets m) i b name (hh name)); auto.
    + apply (hi_nodup m H).
    + rewrite (hnth_hash m i b H Hb), Hk. reflexivity.
  - exists None. rewrite (hfind_absent dibs); auto.
    + apply (hrh_len _ _ _ R).
    + apply home_lt. assumption.
    + apply hcount_lt. assumption.
    + rewrite hkeys_all. assumption.
Qed.

Lemma hresize_spec : forall m, hinv m -> length (items (h_buckets m)) <= dibs - 1 ->
  exists m', hresize V dibs m (h_nb m * 2) = Some m' /\ hinv m' /\ h_count m' < h_growat m' /\
    Permutation (items (h_buckets m')) (items (h_buckets m)).
Proof.
  intros m H Hs. set (n := h_nb m * 2). pose proof (hi_nb m H) as Hn.
  assert (Hp : pow2 n) by (apply hpow2_double; apply (hi_pow2 m H)).
  pose proof (hcount_lt m H) as Hlt.
  destruct (hrehash_ok dibs dibs_ok (h_buckets m) n (repeat None n)) as (t & E1 & R1 & P1); auto.
  - apply hrh_empty; assumption.
  - rewrite items_repeat_none. cbn [length]. unfold n. lia.
  - rewrite items_repeat_none. cbn [List.map]. rewrite app_nil_r. apply hfits_small. { assumption. }
    rewrite map_length. assumption.
  - rewrite items_repeat_none, app_nil_r in P1.
    unfold hresize. rewrite E1. eexists. split; [reflexivity|].
    pose proof (hi_room m H) as Rm. rewrite (hi_grow m H) in Rm. pose proof (hgrow_double (h_nb m) Hn) as G. fold n in G.
    split; [|split; [cbn [h_count h_growat]; lia|exact P1]].
    constructor; unfold hkeys; cbn [h_nb h_count h_growat h_buckets]; auto.
    + unfold n. lia.
    + rewrite (Permutation_length P1). apply (hi_count m H).
    + lia.
    + eapply Permutation_Forall; [symmetry; exact P1|apply (hi_hash m H)].
    + eapply Permutation_NoDup; [|apply (hi_nodup m H)]. apply Permutation_map. symmetry. assumption.
Qed.

Theorem hset_spec : forall m name v, hinv m ->
  In name (List.map fst (all m)) /\ length (all m) <= dibs - 1 \/ length (all m) < dibs - 1 ->
  exists m' old, set m name v = Some (m', old) /\ hinv m' /\
  match old with
  | None => ~ In name (List.map fst (all m)) /\ Permutation (all m') ((name, v) :: all m)
  | Some o => fst o = name /\ In o (all m) /\ Permutation (o :: all m') ((name, v) :: all m)
  end.
Proof.
  intros m name v H Hs. unfold hmap_set. cbv zeta. fold (hh name).
  assert (L : forall m, length (all m) = length (items (h_buckets m))).
  { intro x. unfold hmap_all. apply map_length. }
  assert (G : exists m1, (if h_growat m <=? h_count m then hresize V dibs m (h_nb m * 2) else Some m) = Some m1 /\
     hinv m1 /\ h_count m1 < h_growat m1 /\ Permutation (items (h_buckets m1)) (items (h_buckets m))).
  { destruct (h_growat m <=? h_count m) eqn:Gr.
    - apply hresize_spec; auto. rewrite <- L. lia.
    - exists m. split; [reflexivity|]. split; [assumption|]. split; [lia|]. apply Permutation_refl. }
  destruct G as (m1 & -> & H1 & Rm1 & P1).
  assert (PA : Permutation (all m1) (all m)) by (apply Permutation_map; exact P1).
  pose proof (hi_pow2 m1 H1) as Hp. pose proof (hi_rh m1 H1) as R. pose proof (hrh_len _ _ _ R) as Hl.
  pose proof (hcount_lt m1 H1) as Hlt. pose proof (hi_count m1 H1) as Hcnt.
  destruct (in_dec (list_eq_dec N.eq_dec) name (List.map fst (all m1))) as [I | I].
  - apply in_map_iff in I. destruct I as (o & Hk & Hin).
    destruct (in_all_nth m1 o H1 Hin) as (p & b & Hpn & Hb & Ho). subst o.
    pose proof (hnth_hash m1 p b H1 Hb) as Hhb. rewrite Hk in Hhb. rewrite <- Hhb.
    rewrite (hins_present dibs dibs_ok (h_nb m1) (h_buckets m1) p b (name, v)); auto.
    2:{ apply (hi_nodup m1 H1). }
    eexists. exists (Some (b_ent b)). split; [reflexivity|].
    pose proof (items_upd (h_buckets m1) p (Some (mkB (b_dib b) (b_hash b) (name, v))) ltac:(lia)) as P.
    rewrite Hb in P. cbn [slot_items app b_hash b_ent] in P.
    set (t := upd (h_buckets m1) p (Some (mkB (b_dib b) (b_hash b) (name, v)))) in *.
    assert (Fa : Forall (fun q => fst q = hh (fst (snd q))) ((b_hash b, b_ent b) :: items t)).
    { eapply Permutation_Forall; [symmetry; exact P|]. constructor; [|apply (hi_hash m1 H1)]. cbn [fst snd]. assumption. }
    split.
    + constructor; unfold hkeys; cbn [h_nb h_count h_growat h_buckets]; try apply H1.
      * apply hrh_set_ent; auto.
      * apply Permutation_length in P. cbn [length] in P. lia.
      * inversion Fa; assumption.
      * pose proof (hi_nodup m1 H1) as Nd. unfold hkeys in Nd.
        apply (Permutation_NoDup (l := List.map (fun p => fst (snd p)) (items (h_buckets m1)))); [|assumption].
        apply Permutation_cons_inv with (a := name).
        pose proof (Permutation_map (fun p => fst (snd p)) P) as P'. cbn [List.map snd fst] in P'.
        rewrite Hk in P'. symmetry. exact P'.
    + split; [assumption|]. split; [eapply Permutation_in; [exact PA|assumption]|].
      eapply perm_trans; [|apply perm_skip; exact PA].
      apply (Permutation_map snd) in P. cbn [List.map snd] in P. exact P.
  - assert (Hno : ~ In name (List.map fst (all m))).
    { intro Hin. apply I. eapply Permutation_in; [|exact Hin]. apply Permutation_map. symmetry. exact PA. }
    assert (Hnd : NoDup (name :: hkeys (h_buckets m1))).
    { constructor; [rewrite hkeys_all; assumption|apply (hi_nodup m1 H1)]. }
    rewrite (hins_absent dibs dibs_ok); auto. 2:{ apply home_lt; assumption. }
    destruct (empty_slot_exists (h_buckets m1)) as (x & Hx & Hex); [lia|]. rewrite Hl in Hx.
    pose proof (home_lt (h_nb m1) (hh name) Hp) as Hh. pose proof (offs_lt _ _ _ Hh Hx) as Ho.
    destruct (hplace_ok dibs dibs_ok (h_nb m1) (h_nb m1) (h_buckets m1) (home (h_nb m1) (hh name))
      (mkB 1 (hh name) (name, v)) (offs (h_nb m1) (home (h_nb m1) (hh name)) x)) as (t & E1 & R1 & P2); auto.
    + apply (hcarried_start dibs); assumption.
    + cbn [b_hash]. apply hfits_small; [assumption|]. cbn [length]. rewrite map_length.
      rewrite (Permutation_length P1), <- L. destruct Hs as [[Hs _] | Hs]; [contradiction|lia].
    + rewrite addm_offs by assumption. assumption.
    + rewrite E1. eexists. exists None. split; [reflexivity|]. cbn [b_hash b_ent] in P2.
      split.
      * constructor; unfold hkeys; cbn [h_nb h_count h_growat h_buckets]; try apply H1.
        -- assumption.
        -- rewrite (Permutation_length P2). cbn [length]. lia.
        -- lia.
        -- eapply Permutation_Forall; [symmetry; exact P2|]. constructor; [reflexivity|apply (hi_hash m1 H1)].
        -- eapply Permutation_NoDup; [|exact Hnd].
           pose proof (Permutation_map (fun p => fst (snd p)) P2) as P'. symmetry. exact P'.
      * split; [assumption|]. eapply perm_trans; [|apply perm_skip; exact PA].
        apply (Permutation_map snd) in P2. exact P2.
Qed.
End HmapRun.
