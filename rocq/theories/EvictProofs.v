(** Which entry a low-memory store evicts. *)
From Coq Require Import Permutation.
From Verif Require Import Base Types Clamp Entry EntryProofs Hash Map MapProofs MapInv Shard
  Spec Trace ShardProofs ScanProofs LoopProofs Cache Refine.
Local Open Scope N_scope.

Section E.
Variable c : ctx.
Hypothesis load_ok : 55 <= c_load c <= 95.
Notation ekey := (ekey c).
Notation hash32 := (hash32 c).
Notation wf := (wf_entry c).
Notation minv := (minv ekey (c_load c) wf hash32).
Notation sinv := (sinv c).
Notation kh e := (hk hash32 (ekey e)).

Definition eidx (nb : nat) (hash : N) (i : nat) : nat :=
  N.to_nat (N.land (u32 (N.of_nat i + hash)) (N.of_nat nb - 1)).

Lemma eidx_mod : forall nb hash i, pow2 nb -> (N.of_nat nb <= 2 ^ 32) ->
  eidx nb hash i = N.to_nat ((N.of_nat i + hash) mod N.of_nat nb).
Proof.
  intros nb hash i (k & E & Hk) L. unfold eidx. rewrite E, land_ones_mod, <- E. f_equal.
  unfold u32. rewrite E in L |- *. apply N.pow_le_mono_r_iff in L; [|lia].
  replace (2 ^ 32) with (2 ^ N.of_nat k * 2 ^ (32 - N.of_nat k)).
  2:{ rewrite <- N.pow_add_r. f_equal. lia. }
  rewrite N.mod_mul_r by (apply N.pow_nonzero; lia).
  rewrite N.mul_comm, N.mod_add by (apply N.pow_nonzero; lia).
  apply N.mod_mod. apply N.pow_nonzero. lia.
Qed.

Lemma eidx_inj : forall nb hash a b, pow2 nb -> (N.of_nat nb <= 2 ^ 32) ->
  (a < nb)%nat -> (b < nb)%nat -> eidx nb hash a = eidx nb hash b -> a = b.
Proof.
  intros nb hash a b P L Ha Hb E. rewrite !eidx_mod in E by assumption. apply N2Nat.inj in E.
  pose proof (pow2_ge2 nb P).
  pose proof (N.div_mod (N.of_nat a + hash) (N.of_nat nb) ltac:(lia)).
  pose proof (N.div_mod (N.of_nat b + hash) (N.of_nat nb) ltac:(lia)).
  rewrite E in H0. clear E L P.
  remember ((N.of_nat a + hash) / N.of_nat nb) as x eqn:Ex. remember ((N.of_nat b + hash) / N.of_nat nb) as y eqn:Ey.
  remember ((N.of_nat b + hash) mod N.of_nat nb) as r eqn:Er. clear Ex Ey Er.
  destruct (N.lt_trichotomy x y) as [X|[X|X]]; [|subst; lia|].
  - assert (N.of_nat nb * (x + 1) <= N.of_nat nb * y) by (apply N.mul_le_mono_l; lia). lia.
  - assert (N.of_nat nb * (y + 1) <= N.of_nat nb * x) by (apply N.mul_le_mono_l; lia). lia.
Qed.

Lemma eidx_lt : forall nb hash a, pow2 nb -> (N.of_nat nb <= 2 ^ 32) -> (eidx nb hash a < nb)%nat.
Proof.
  intros nb hash a P L. rewrite eidx_mod by assumption. pose proof (pow2_ge2 nb P).
  pose proof (N.mod_lt (N.of_nat a + hash) (N.of_nat nb)). lia.
Qed.

(** all buckets are reached *)
Lemma eidx_onto : forall nb hash j, pow2 nb -> (N.of_nat nb <= 2 ^ 32) -> (j < nb)%nat ->
  exists i, (i < nb)%nat /\ eidx nb hash i = j.
Proof.
  intros nb hash j P L Hj. pose proof (pow2_ge2 nb P).
  assert (Inc : incl (seq 0 nb) (List.map (eidx nb hash) (seq 0 nb))).
  { apply NoDup_length_incl.
    - assert (Q : forall l, NoDup l -> (forall x, In x l -> (x < nb)%nat) -> NoDup (List.map (eidx nb hash) l)).
      { induction l as [|x l IH]; intros Nd B; cbn; [constructor|]. inversion Nd; subst. constructor.
        - intro X. apply in_map_iff in X. destruct X as (y & Ey & Hy).
          apply H2. rewrite <- (eidx_inj nb hash y x P L); auto; [apply B; right; assumption|apply B; left; reflexivity].
        - apply IH; [assumption|intros; apply B; right; assumption]. }
      apply Q; [apply seq_NoDup|]. intros x Hx. apply in_seq in Hx. lia.
    - rewrite map_length. lia.
    - intros x Hx. apply in_map_iff in Hx. destruct Hx as (y & <- & _). apply in_seq.
      pose proof (eidx_lt nb hash y P L). lia. }
  specialize (Inc j). rewrite in_map_iff in Inc. destruct Inc as (i & E & Hi); [apply in_seq; lia|].
  apply in_seq in Hi. exists i. split; [lia|assumption].
Qed.

Lemma evict_search_full : forall m hash now, minv m -> (N.of_nat (m_nb m) <= 2 ^ 32) ->
  forall fuel i cand, (i + fuel <= m_nb m)%nat ->
  match evict_search fuel m i hash now cand with
  | inl e => True
  | inr l => exists t, l = cand ++ t /\ NoDup t /\ (length l <= Nat.max 2 (length cand))%nat /\
      ((2 <= length l)%nat \/
       forall i' b, (i <= i' < i + fuel)%nat -> nth (eidx (m_nb m) hash i') (m_buckets m) None = Some b ->
         b_hash b = hash \/ In (b_ent b) t) /\
      (forall e, In e t -> exists i' b, (i <= i' < i + fuel)%nat /\
         nth (eidx (m_nb m) hash i') (m_buckets m) None = Some b /\ b_ent b = e)
  end.
Proof.
  intros m hash now M L. induction fuel as [|f IH]; intros i cand B; cbn [evict_search].
  - exists []. rewrite app_nil_r. split; [reflexivity|]. split; [constructor|]. split; [lia|].
    split; [right; intros; lia|intros e []].
  - destruct (Nat.leb_spec 2 (length cand)) as [C|C].
    { exists []. rewrite app_nil_r. split; [reflexivity|]. split; [constructor|]. split; [lia|].
      split; [left; assumption|intros e []]. }
    fold (eidx (m_nb m) hash i).
    assert (Lift : forall cand', (length cand' <= 2)%nat -> (exists pre, cand' = cand ++ pre /\
        (forall b, nth (eidx (m_nb m) hash i) (m_buckets m) None = Some b -> b_hash b = hash \/ In (b_ent b) pre) /\
        NoDup pre /\
        (forall e, In e pre -> exists b, nth (eidx (m_nb m) hash i) (m_buckets m) None = Some b /\ b_ent b = e)) ->
      match evict_search f m (i + 1) hash now cand' with
      | inl e => True
      | inr l => exists t, l = cand ++ t /\ NoDup t /\ (length l <= Nat.max 2 (length cand))%nat /\
          ((2 <= length l)%nat \/
           forall i' b, (i <= i' < i + S f)%nat -> nth (eidx (m_nb m) hash i') (m_buckets m) None = Some b ->
             b_hash b = hash \/ In (b_ent b) t) /\
          (forall e, In e t -> exists i' b, (i <= i' < i + S f)%nat /\
             nth (eidx (m_nb m) hash i') (m_buckets m) None = Some b /\ b_ent b = e)
      end).
    { intros cand' Lc (pre & -> & P1 & P2 & P3). specialize (IH (i + 1)%nat (cand ++ pre) ltac:(lia)).
      destruct (evict_search f m (i + 1) hash now (cand ++ pre)) as [e|l]; [exact Logic.I|].
      destruct IH as (t & E & N & Ln & D & F). exists (pre ++ t). split; [rewrite app_assoc; exact E|]. split; [|split; [|split]].
      - apply NoDup_app_intro; [assumption|assumption|]. intros e X Y.
        destruct (P3 e X) as (b & Hb & Eb). destruct (F e Y) as (i' & b' & Hi' & Hb' & Eb').
        assert (Ei : eidx (m_nb m) hash i = eidx (m_nb m) hash i').
        { eapply (pos_unique c); [exact M|exact Hb|exact Hb'|congruence]. }
        apply eidx_inj in Ei; [lia|apply (mi_pow2 _ _ _ _ _ M)|assumption|lia|lia].
      - lia.
      - destruct D as [D|D]; [left; assumption|]. right. intros i' b Hi' Hb.
        destruct (Nat.eq_dec i' i) as [->|Ne].
        + destruct (P1 b Hb) as [X|X]; [left; assumption|right; apply in_or_app; left; assumption].
        + destruct (D i' b ltac:(lia) Hb) as [X|X]; [left; assumption|right; apply in_or_app; right; assumption].
      - intros e X. apply in_app_or in X. destruct X as [X|X].
        + destruct (P3 e X) as (b & Hb & Eb). exists i, b. split; [lia|auto].
        + destruct (F e X) as (i' & b' & Hi' & Hb' & Eb'). exists i', b'. split; [lia|auto]. }
    destruct (nth (eidx (m_nb m) hash i) (m_buckets m) None) as [b|] eqn:Hb.
    + destruct (N.eqb_spec (b_hash b) hash) as [Eh|Eh].
      * apply Lift; [lia|]. exists []. rewrite app_nil_r. split; [reflexivity|]. split; [|split; [constructor|intros e []]].
        intros b' X. left. congruence.
      * destruct (entry_alive (b_ent b) now); cbn [negb]; [|exact Logic.I].
        apply Lift; [rewrite app_length; cbn; lia|]. exists [b_ent b]. split; [reflexivity|].
        split; [|split; [repeat constructor; intros []|intros e [<-|[]]; eauto]].
        intros b' X. injection X as <-. right. left. reflexivity.
    + apply Lift; [lia|]. exists []. rewrite app_nil_r. split; [reflexivity|]. split; [discriminate|].
      split; [constructor|intros e []].
Qed.

(** The choice made by auto_evict_entry: nothing only if at most one entry has a
    hash different from the new key's; otherwise an expired entry, or a live one
    last accessed no later than some other live entry - unless there are not
    three entries with a different hash. *)
Definition evict_choice (s : shard) (key : bytes) (now : Z) (evs : list event) : Prop :=
  (evs = [] /\
   forall x y, In x (sents s) -> In y (sents s) -> kh x <> hk hash32 key -> kh y <> hk hash32 key -> x = y) \/
  exists e k, evs = [EvNotify k None (Some e); EvFree (e_id e)] /\ In e (sents s) /\
    kh e <> hk hash32 key /\
    ((k = N_EXPIRED /\ entry_alive e now = false) \/
     (k = N_LOWMEM /\ entry_alive e now = true /\
      ((exists x, In x (sents s) /\ x <> e /\ kh x <> hk hash32 key /\ entry_alive x now = true /\
          (e_time e <= e_time x)%Z) \/
       (forall x y, In x (sents s) -> In y (sents s) -> kh x <> hk hash32 key -> kh y <> hk hash32 key ->
          x <> e -> y <> e -> x = y)))).

Lemma auto_evict_choice : forall s key now m' evs, sinv s -> (N.of_nat (m_nb (s_map s)) <= 2 ^ 32) ->
  auto_evict c (s_map s) (hash32 key) now = Ok (m', evs) -> evict_choice s key now evs.
Proof.
  intros s key now m' evs I L H. unfold auto_evict in H.
  pose proof (si_map _ _ I) as M. pose proof (mi_nb _ _ _ _ _ M) as Nb.
  pose proof (evict_search_ok c load_ok s (clip_hash (hash32 key)) now (m_nb (s_map s) - 1) 1 [] I (Forall_nil _)) as G.
  pose proof (evict_search_full (s_map s) (clip_hash (hash32 key)) now M L (m_nb (s_map s) - 1) 1 [] ltac:(lia)) as F.
  assert (Eh : clip_hash (hash32 key) = hk hash32 key) by reflexivity. rewrite Eh in G, F, H. clear Eh.
  assert (Go : forall e k m2 ev, In e (sents s) -> (k = N_EXPIRED \/ k = N_LOWMEM) ->
     evict_entry c (s_map s) e k = Ok (m2, ev) -> ev = [EvNotify k None (Some e); EvFree (e_id e)]).
  { intros e k m2 ev Hin Hk E. destruct (evict_entry_ok c load_ok s e k I Hin Hk) as (mx & E2 & _).
    rewrite E in E2. injection E2 as _ ->. reflexivity. }
  (* every entry outside the home bucket is seen *)
  assert (Cov : forall t, (forall i' b, (1 <= i' < 1 + (m_nb (s_map s) - 1))%nat ->
        nth (eidx (m_nb (s_map s)) (hk hash32 key) i') (m_buckets (s_map s)) None = Some b ->
         b_hash b = hk hash32 key \/ In (b_ent b) t) ->
     forall x, In x (sents s) -> kh x <> hk hash32 key -> In x t \/
       exists b, nth (eidx (m_nb (s_map s)) (hk hash32 key) 0) (m_buckets (s_map s)) None = Some b /\ b_ent b = x).
  { intros t D x Hx Hh. destruct (in_ents_nth _ _ _ _ _ _ M Hx) as (j & b & Hj & Hb & <-).
    destruct (eidx_onto (m_nb (s_map s)) (hk hash32 key) j (mi_pow2 _ _ _ _ _ M) L Hj) as (i & Hi & Ei).
    destruct i as [|i].
    - right. exists b. rewrite Ei. auto.
    - left. rewrite <- Ei in Hb. destruct (D (S i) b ltac:(lia) Hb) as [X|X]; [|assumption].
      destruct (nth_facts _ _ _ _ _ _ _ M Hb) as (_ & Q & _). congruence. }
  destruct (evict_search _ _ _ _ _ _) as [e|[|a [|b l]]].
  - destruct G as (A & B & C). apply Go in H; auto. right. exists e, N_EXPIRED. auto 6.
  - injection H as <- <-. left. split; [reflexivity|]. destruct F as (t & E & _ & _ & D & _).
    symmetry in E. apply app_eq_nil in E. destruct E as [_ ->].
    destruct D as [D|D]; [cbn in D; lia|]. intros x y Hx Hy Nx Ny.
    destruct (Cov [] D x Hx Nx) as [[]|(bx & Bx & <-)]. destruct (Cov [] D y Hy Ny) as [[]|(by_ & By & <-)].
    congruence.
  - inversion G as [|? ? (A & B & C) _]; subst. apply Go in H; auto. right. exists a, N_LOWMEM.
    split; [assumption|]. split; [assumption|]. split; [assumption|]. right. split; [reflexivity|]. split; [assumption|].
    right. destruct F as (t & E & _ & _ & D & _). cbn [app] in E. subst t.
    destruct D as [D|D]; [cbn in D; lia|]. intros x y Hx Hy Nx Ny Xa Ya.
    destruct (Cov _ D x Hx Nx) as [[X|[]]|(bx & Bx & <-)]; [congruence|].
    destruct (Cov _ D y Hy Ny) as [[X|[]]|(by_ & By & <-)]; [congruence|]. congruence.
  - inversion G as [|? ? (A & B & C) G2]; subst. inversion G2 as [|? ? (A2 & B2 & C2) _]; subst.
    destruct F as (t & E & N & Ln & _ & _). cbn [app] in E. subst t.
    assert (Nab : a <> b) by (inversion N; subst; intros ->; apply H2; left; reflexivity).
    destruct (Z.ltb_spec (e_time a) (e_time b)) as [T|T]; apply Go in H; auto; right; eexists _, N_LOWMEM;
      (split; [eassumption|]); (split; [assumption|]); (split; [assumption|]); right; (split; [reflexivity|]);
      (split; [assumption|]); left.
    + exists b. split; [assumption|]. split; [congruence|]. split; [assumption|]. split; [assumption|lia].
    + exists a. split; [assumption|]. split; [congruence|]. split; [assumption|]. split; [assumption|lia].
Qed.


Lemma insert_nb : forall alloc m e h m' old,
  map_insert (ecmp c) entry_memsize (c_load c) alloc m e h = ROk (m', old) ->
  (m_nb m' <= m_nb m * 2)%nat.
Proof.
  intros alloc m e h m' old H. unfold map_insert in H. cbv zeta in H.
  assert (R : forall n m1, resize (c_load c) alloc m n = ROk m1 -> m_nb m1 = n).
  { intros n m1 E. unfold resize in E. destruct alloc; cbn in E; [|discriminate].
    destruct (rehash _ _ _) as [|]; [|discriminate]. injection E as <-. reflexivity. }
  destruct (m_growat m <=? m_count m)%nat.
  - destruct (resize (c_load c) alloc m (m_nb m * 2)) as [| |m1] eqn:E; try discriminate.
    apply R in E. destruct (ins_loop _ _ _ _ _ _) as [[t [o|]]|]; try discriminate;
      injection H as <- _; cbn; lia.
  - destruct (ins_loop _ _ _ _ _ _) as [[t [o|]]|]; try discriminate; injection H as <- _; cbn; lia.
Qed.

(** What a low-memory store of a new key does to the other entries of the shard. *)
Lemma storeop_evicts : forall mm s key val o now s' st evs, sinv s -> store_ok key val o now ->
  crowd_ok (hk hash32 key :: hashes (s_map s)) -> (N.of_nat (m_nb (s_map s)) <= 2 ^ 31) ->
  so_lowmem o = true -> ~ In key (List.map ekey (sents s)) ->
  storeop c mm s key val o now = Ok (s', st, evs) -> st = INSERTED ->
  ((forall k, k <> key -> lk ekey (sents s') k = lk ekey (sents s) k) /\
   forall x y, In x (sents s) -> In y (sents s) -> kh x <> hk hash32 key -> kh y <> hk hash32 key -> x = y) \/
  (exists e r k, In e (sents s) /\ Permutation (sents s) (e :: r) /\ kh e <> hk hash32 key /\
    (forall k, k <> key -> lk ekey (sents s') k = lk ekey r k) /\
    In (EvNotify k None (Some e)) evs /\
    ((k = N_EXPIRED /\ entry_alive e now = false) \/
     (k = N_LOWMEM /\ entry_alive e now = true /\
      ((exists x, In x (sents s) /\ x <> e /\ kh x <> hk hash32 key /\ entry_alive x now = true /\
          (e_time e <= e_time x)%Z) \/
       (forall x y, In x (sents s) -> In y (sents s) -> kh x <> hk hash32 key -> kh y <> hk hash32 key ->
          x <> e -> y <> e -> x = y))))).
Proof.
  intros mm s key val o now s' st evs I K Cr Nb Lm Ab H Hs. unfold storeop in H.
  destruct (store_expires_ok c load_ok s key val o now I K) as (x & Ex & Hx & _). rewrite Ex in H.
  destruct (al_entry mm); cbn [negb] in H; [|discriminate].
  pose proof (u64_lt c load_ok (s_cas s + 1)) as Hcas. set (cas := u64 (s_cas s + 1)) in *.
  assert (Ao : args_ok key val x (so_flags o) cas) by (destruct K; constructor; auto).
  set (e := entry_settime (entry_new c (s_next s) key val x (so_flags o) cas) now) in *.
  assert (We : wf e) by (apply new_wf; assumption).
  assert (Ke : ekey e = key) by (apply new_ekey; assumption).
  assert (Ie : e_id e = s_next s) by reflexivity.
  clearbody e. rewrite Lm in H. cbn [andb] in H.
  destruct (c_noevict c); [injection H as _ X _; congruence|].
  rewrite <- Ke in Cr.
  pose proof (insert_spec (ecmp c) ekey entry_memsize (c_load c) wf hash32 load_ok (ecmp_spec c)
      (al_table mm) (s_map s) e (si_map _ s I) We Cr) as Q. rewrite Ke in Q.
  pose proof (insert_nb (al_table mm) (s_map s) e (hash32 key)) as Nb1.
  destruct (map_insert (ecmp c) entry_memsize (c_load c) (al_table mm) (s_map s) e (hash32 key))
    as [| |[m1 [old|]]]; [destruct Q| | |].
  { injection H as _ X _; congruence. }
  { destruct Q as (Ko & _ & Hin & _). exfalso. apply Ab. rewrite <- Ko. apply in_map. exact Hin. }
  specialize (Nb1 m1 None eq_refl). destruct Q as (_ & M1 & P & _ & _).
  destruct (so_xx o || so_casop o).
  { destruct (map_delete _ _ _ _ _) as [[m2 [d|]]|]; try discriminate.
    destruct (e_id d =? e_id e); [injection H as _ X _; congruence|discriminate]. }
  set (s1 := mkShard cas m1 (s_next s + 1)).
  assert (Lt : (m_count (s_map s) <? m_count m1)%nat = true).
  { rewrite (count_len c _ M1), (count_len c _ (si_map _ s I)). rewrite (Permutation_length P).
    apply Nat.ltb_lt. cbn. lia. }
  rewrite Lt in H.
  assert (I1 : sinv s1).
  { constructor.
    - exact M1.
    - unfold sents, s1. cbn [s_map]. unfold ids. rewrite P. cbn [List.map]. constructor; [|apply I].
      rewrite Ie. intro X. pose proof (si_next _ _ I) as F. rewrite Forall_forall in F.
      specialize (F _ X). lia.
    - unfold sents, s1, ids. cbn [s_map s_next]. rewrite P. cbn [List.map]. constructor; [lia|].
      eapply Forall_impl; [|apply (si_next _ _ I)]. cbn. intros; lia.
    - assumption. }
  destruct (auto_evict_ok c load_ok s1 key now I1) as (m2 & ev & Ea & Ho).
  change (s_map s1) with m1 in Ea. rewrite Ea in H. injection H as <- <- <-.
  pose proof (auto_evict_choice s1 key now m2 ev I1) as Ch.
  change (s_map s1) with m1 in Ch. specialize (Ch ltac:(lia) Ea).
  assert (In1 : forall y, In y (sents s1) <-> y = e \/ In y (sents s)).
  { intro y. unfold sents, s1. cbn [s_map]. rewrite P. cbn. intuition congruence. }
  assert (Kk : kh e = hk hash32 key) by (rewrite Ke; reflexivity).
  destruct Ch as [[-> Ch]|(v & k & Ev & Hv & Nv & Ch)].
  - left. destruct Ho as [[-> _]|(e0 & k0 & _ & X & _)]; [|discriminate].
    split.
    + intros j Hj. change (lk ekey (sents s1) j = lk ekey (sents s) j).
      rewrite (lk_perm ekey (sents s1) _ j (nodup_keys c _ I1) P), lk_cons, Ke.
      destruct (beq key j) eqn:B; [apply beq_eq in B; congruence|reflexivity].
    + intros y z Hy Hz. apply Ch; apply In1; right; assumption.
  - right. destruct Ho as [[_ ->]|(e0 & k0 & _ & X & M2 & P2 & Ne)]; [discriminate|].
    rewrite Ev in X. injection X as Xk Xe _. subst k0 e0.
    assert (Ve : v <> e) by congruence.
    assert (Hvs : In v (sents s)) by (apply In1 in Hv; destruct Hv; [contradiction|assumption]).
    destruct (in_split v (sents s) Hvs) as (l1 & l2 & El).
    exists v, (l1 ++ l2), k.
    assert (Pv : Permutation (sents s) (v :: l1 ++ l2)) by (rewrite El; symmetry; apply Permutation_middle).
    split; [assumption|]. split; [exact Pv|]. split; [assumption|]. split; [|split].
    + intros j Hj. unfold sents. cbn [s_map].
      assert (N2 : NoDup (List.map ekey (ents m2))).
      { pose proof (nodup_keys c _ I1) as N1. rewrite P2 in N1. cbn in N1. inversion N1. assumption. }
      assert (P3 : Permutation (ents m2) (e :: l1 ++ l2)).
      { apply Permutation_cons_inv with v. rewrite <- P2. unfold sents, s1. cbn [s_map]. rewrite P.
        fold (sents s). rewrite Pv. apply perm_swap. }
      rewrite (lk_perm ekey _ _ j N2 P3), lk_cons, Ke.
      destruct (beq key j) eqn:B; [apply beq_eq in B; congruence|reflexivity].
    + right. apply (in_or_app ev). left. rewrite Ev. left. reflexivity.
    + destruct Ch as [Ch|(Ck & Al & [(y & Hy & Ny & Ky & Ay & Ty)|Ch])]; [left; assumption| |].
      * right. split; [assumption|]. split; [assumption|]. left. exists y.
        apply In1 in Hy. destruct Hy as [->|Hy]; [congruence|]. auto.
      * right. split; [assumption|]. split; [assumption|]. right. intros y z Hy Hz. apply Ch; apply In1; right; assumption.
Qed.

End E.
