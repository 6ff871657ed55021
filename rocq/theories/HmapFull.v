(** The table of named statements and portals: series of inserts; what happens when too many names have
    the same hash. *)
From Verif Require Import Base Hash Map MapProofs Hmap HmapProofs HmapRun Postgres.
From Coq Require Import Permutation.
Local Open Scope nat_scope.
Notation length := List.length.

(** ** Series of inserts *)
Section Run.
Context {V : Type}.
Variable hash : bytes -> N.
Variable dibs : nat.
Hypothesis dibs_ok : 2 <= dibs.
Notation hinv := (hinv (V := V) hash dibs).
Notation run := (named_run V hash dibs).
Notation get := (named_get V hash).
Notation held := (named_free V).
Definition oinv (m : option (hmap V)) : Prop := match m with None => True | Some m => hinv m end.
Definition few (k : nat) (names : list bytes) : Prop := forall ns, NoDup ns -> incl ns names -> length ns <= k.

Lemma oinv_nodup : forall m, oinv m -> NoDup (List.map fst (held m)).
Proof. intros [m|] H; cbn; [|constructor]. rewrite <- hkeys_all. apply (hi_nodup _ _ m H). Qed.

Lemma insert_ok : forall m name v, oinv m ->
  In name (List.map fst (held m)) /\ length (held m) <= dibs - 1 \/ length (held m) < dibs - 1 ->
  exists m' old, named_insert V hash dibs m name v = Some (Some m', old) /\ hinv m' /\
  match old with
  | None => ~ In name (List.map fst (held m)) /\ Permutation (hmap_all V m') ((name, v) :: held m)
  | Some o => fst o = name /\ In o (held m) /\ Permutation (o :: hmap_all V m') ((name, v) :: held m)
  end.
Proof.
  intros m name v H Hs. unfold named_insert.
  set (m0 := match m with None => hmap_new V 16 | Some m => m end).
  assert (E : held m = hmap_all V m0).
  { destruct m; [reflexivity|]. unfold m0. rewrite hnew_all. reflexivity. }
  assert (H0 : hinv m0). { destruct m; [exact H|]. apply hnew_inv. assumption. }
  rewrite E in *. destruct (hset_spec hash dibs dibs_ok m0 name v H0 Hs) as (m' & old & -> & I & R).
  exists m', old. auto.
Qed.

Lemma NoDup_incl_fst : forall (l : list (bytes * V)) n v v', NoDup (List.map fst l) -> In (n, v) l -> In (n, v') l -> v = v'.
Proof.
  induction l as [|[k x] l IH]; intros n v v' N I J; [destruct I|].
  cbn [List.map fst] in N. inversion N as [|? ? Nk Nl]; subst.
  destruct I as [I | I]; destruct J as [J | J].
  - congruence.
  - injection I as -> ->. exfalso. apply Nk. apply (in_map fst) in J. exact J.
  - injection J as -> ->. exfalso. apply Nk. apply (in_map fst) in I. exact I.
  - eapply IH; eassumption.
Qed.

Lemma run_ok : forall l m l0, oinv m ->
  (forall n v, In (n, v) (held m) <-> by_name n (rev l0) = Some v) ->
  incl (List.map fst (held m)) (List.map fst l0) ->
  few (dibs - 1) (List.map fst (l0 ++ l)) ->
  exists m' frees, run m l = Some (m', frees) /\ oinv m' /\
  (forall n v, In (n, v) (held m') <-> by_name n (rev (l0 ++ l)) = Some v) /\
  Permutation (frees ++ held m') (held m ++ l).
Proof.
  induction l as [|[name v] l IH]; intros m l0 H Hl Hi Hf.
  - exists m, []. cbn [named_run]. rewrite !app_nil_r. auto.
  - cbn [named_run].
    pose proof (oinv_nodup m H) as Nd.
    assert (Hs : In name (List.map fst (held m)) /\ length (held m) <= dibs - 1 \/ length (held m) < dibs - 1).
    { destruct (in_dec (list_eq_dec N.eq_dec) name (List.map fst (held m))) as [I | I].
      - left. split; [assumption|]. rewrite <- (map_length fst). apply Hf; [assumption|].
        intros x X. rewrite map_app. apply in_or_app. left. apply Hi. assumption.
      - right. specialize (Hf (name :: List.map fst (held m))). cbn [length] in Hf. rewrite map_length in Hf.
        apply Nat.lt_le_trans with (S (length (held m))); [lia|]. apply Hf; [constructor; assumption|].
        intros x [<- | X]; rewrite map_app; apply in_or_app; [right; left; reflexivity|left; apply Hi; assumption]. }
    destruct (insert_ok m name v H Hs) as (m1 & old & -> & I1 & R).
    assert (IN : forall n x, In (n, x) (hmap_all V m1) <-> (if beq name n then x = v else In (n, x) (held m))).
    { intros n x. pose proof (oinv_nodup (Some m1) I1) as Nd1. cbn [named_free] in Nd1.
      assert (Inew : In (name, v) (hmap_all V m1)).
      { destruct old as [o|].
        - destruct R as (Eo & Io & P).
          assert (J : In (name, v) (o :: hmap_all V m1)) by (eapply Permutation_in; [symmetry; exact P|left; reflexivity]).
          destruct J as [J | J]; [|exact J]. subst o. apply Permutation_cons_inv in P.
          eapply Permutation_in; [symmetry; exact P|exact Io].
        - destruct R as (_ & P). eapply Permutation_in; [symmetry; exact P|left; reflexivity]. }
      destruct (beq name n) eqn:B.
      - apply beq_eq in B. subst n. split; [|intros ->; exact Inew]. intro J. eapply NoDup_incl_fst; eassumption.
      - apply beq_neq in B. split; intro J.
        + assert (K : In (n, x) ((name, v) :: held m)).
          { destruct old as [o|]; [destruct R as (_ & _ & P)|destruct R as (_ & P)]; (eapply Permutation_in; [exact P|]); [right|]; exact J. }
          destruct K as [K | K]; [congruence|exact K].
        + destruct old as [o|].
          * destruct R as (Eo & _ & P).
            assert (K : In (n, x) (o :: hmap_all V m1)) by (eapply Permutation_in; [symmetry; exact P|right; exact J]).
            destruct K as [K | K]; [subst o; cbn in Eo; congruence|exact K].
          * destruct R as (_ & P). eapply Permutation_in; [symmetry; exact P|right; exact J]. }
    destruct (IH (Some m1) (l0 ++ [(name, v)])) as (m' & frees & -> & I' & L' & P').
    + exact I1.
    + intros n x. rewrite rev_app_distr. cbn [rev app by_name named_free].
      rewrite IN. destruct (beq name n); [|apply Hl]. split; congruence.
    + intros n J. cbn [named_free] in J. apply in_map_iff in J. destruct J as ([n' x] & <- & J). cbn [fst].
      rewrite map_app. apply in_or_app. rewrite IN in J. destruct (beq name n') eqn:B.
      * apply beq_eq in B. subst. right. left. reflexivity.
      * left. apply Hi. apply (in_map fst) in J. exact J.
    + rewrite <- app_assoc. exact Hf.
    + rewrite <- app_assoc in L'. exists m'. eexists. split; [reflexivity|]. split; [exact I'|]. split; [exact L'|].
      cbn [named_free] in P'. destruct old as [o|].
      * destruct R as (_ & _ & P). cbn [app]. eapply perm_trans; [apply perm_skip; exact P'|].
        change (o :: hmap_all V m1 ++ l) with ((o :: hmap_all V m1) ++ l).
        eapply perm_trans; [apply Permutation_app_tail; exact P|]. cbn [app]. apply Permutation_middle.
      * destruct R as (_ & P). eapply perm_trans; [exact P'|].
        eapply perm_trans; [apply Permutation_app_tail; exact P|]. cbn [app]. apply Permutation_middle.
Qed.

Lemma get_ok : forall m l name, oinv m -> length name < 64 ->
  (forall n v, In (n, v) (held m) <-> by_name n (rev l) = Some v) ->
  get m name = Some (by_name name (rev l)).
Proof.
  intros [m|] l name H Hn Hl; cbn [named_get named_free] in *.
  - replace (64 <=? length name) with false by (symmetry; apply Nat.leb_gt; exact Hn).
    destruct (hget_spec hash dibs dibs_ok m name H) as (r & -> & R). f_equal. destruct r as [[k v]|].
    + destruct R as (I & E). cbn [fst] in E. subst k. cbn. symmetry. apply Hl. assumption.
    + cbn. destruct (by_name name (rev l)) as [v|] eqn:B; [|reflexivity]. exfalso. apply R.
      apply Hl in B. apply (in_map fst) in B. exact B.
  - f_equal. destruct (by_name name (rev l)) as [v|] eqn:B; [|reflexivity]. apply Hl in B. destruct B.
Qed.
End Run.

(** ** Too many names with the same hash *)
Section TooMany.
Context {V : Type}.
Variable hash : bytes -> N.
Variable dibs : nat.
Hypothesis dibs_ok : 2 <= dibs.
Notation slot := (option (bkt (bytes * V))).

Lemma prefix_items : forall (r : list slot) p, p <= length r ->
  (forall q, q < p -> nth q r None <> None) -> (forall q, p <= q -> q < length r -> nth q r None = None) ->
  length (items r) = p.
Proof.
  induction r as [|s r IH]; intros p Hp Hs Hn; cbn [length] in *.
  - cbn. lia.
  - rewrite items_cons, app_length. destruct p as [|p].
    + pose proof (Hn 0 ltac:(lia) ltac:(lia)) as E. cbn [nth] in E. subst s. cbn [slot_items length Nat.add].
      apply IH; [lia|intros; lia|]. intros q _ Q. apply (Hn (S q)); lia.
    + pose proof (Hs 0 ltac:(lia)) as E. cbn [nth] in E. destruct s as [b|]; [|congruence]. cbn [slot_items length Nat.add].
      f_equal. apply IH; [lia| |].
      * intros q Q. apply (Hs (S q)). lia.
      * intros q Q1 Q2. apply (Hn (S q)); lia.
Qed.

(* all the items of the table have the same hash: they fill the buckets from their home on *)
Lemma same_shape : forall n (t : list slot) h, pow2 n -> HRH dibs n t ->
  Forall (fun p => fst p = h) (items t) -> length (items t) < n ->
  forall j, j < n ->
  match nth (addm n (home n h) j) t None with
  | Some b => j < length (items t) /\ b_dib b = j + 1 /\ b_hash b = h
  | None => length (items t) <= j
  end.
Proof.
  intros n t h Hp R F Hlt. pose proof (home_lt n h Hp) as Hh. pose proof (hrh_len _ _ _ R) as Hl.
  pose proof (pow2_ge2 n Hp) as Hn2.
  assert (D : forall j b, j < n -> nth (addm n (home n h) j) t None = Some b -> b_dib b = j + 1 /\ b_hash b = h).
  { intros j b Hj Hb. rewrite Forall_forall in F. pose proof (F _ (nth_items_in _ _ _ Hb)) as E. cbn [fst] in E.
    destruct (hrh_home _ _ _ R (addm n (home n h) j) b ltac:(apply addm_lt; lia) Hb) as (B1 & B2 & B3 & B4).
    rewrite E in B4. apply addm_inj in B4; try lia. }
  assert (Down : forall j, j + 1 < n -> nth (addm n (home n h) (j + 1)) t None <> None -> nth (addm n (home n h) j) t None <> None).
  { intros j Hj Hs. destruct (nth (addm n (home n h) (j + 1)) t None) as [b|] eqn:Eb; [|congruence].
    destruct (D (j + 1) b Hj Eb) as (Db & _).
    pose proof (hrh_step _ _ _ R (addm n (home n h) j) ltac:(apply addm_lt; lia)) as S1.
    rewrite addm_add in S1 by lia. rewrite (dib_some _ _ _ Eb) in S1.
    destruct (dib_pos_some t (addm n (home n h) j)) as (b' & ->); [lia|]. congruence. }
  assert (Dn : forall k j, j + k < n -> nth (addm n (home n h) (j + k)) t None <> None -> nth (addm n (home n h) j) t None <> None).
  { induction k as [|k IH]; intros j Hj Hs; [rewrite Nat.add_0_r in Hs; exact Hs|].
    apply IH; [lia|]. apply Down; [lia|]. replace (j + k + 1) with (j + S k) by lia. exact Hs. }
  destruct (empty_slot_exists t) as (e & He & Hne); [lia|].
  destruct (first_true (fun j => match nth (addm n (home n h) j) t None with None => true | _ => false end)
    (offs n (home n h) e)) as (p & Hpn & Pp & Pq).
  { rewrite addm_offs by lia. rewrite Hne. reflexivity. }
  pose proof (offs_lt n (home n h) e Hh ltac:(lia)) as Ho.
  assert (Ep : nth (addm n (home n h) p) t None = None) by (destruct (nth (addm n (home n h) p) t None); congruence).
  assert (Low : forall q, q < p -> nth (addm n (home n h) q) t None <> None).
  { intros q Q X. specialize (Pq q Q). cbv beta in Pq. rewrite X in Pq. discriminate. }
  assert (High : forall q, p <= q -> q < n -> nth (addm n (home n h) q) t None = None).
  { intros q Q1 Q2. destruct (nth (addm n (home n h) q) t None) eqn:Eq; [|reflexivity]. exfalso.
    apply (Dn (q - p) p); [lia| |exact Ep]. replace (p + (q - p)) with q by lia. congruence. }
  assert (Len : length (items t) = p).
  { rewrite <- (prefix_items (skipn (home n h) t ++ firstn (home n h) t) p).
    - apply Permutation_length. rewrite items_app. rewrite <- (firstn_skipn (home n h) t) at 1. rewrite items_app. apply Permutation_app_comm.
    - rewrite app_length, skipn_length, firstn_length. lia.
    - intros q Q. rewrite rot_nth by lia. rewrite Hl. apply Low. assumption.
    - intros q Q1 Q2. rewrite app_length, skipn_length, firstn_length in Q2. rewrite rot_nth by lia. rewrite Hl. apply High; lia. }
  intros j Hj. destruct (nth (addm n (home n h) j) t None) as [b|] eqn:Eb.
  - split; [|apply D; assumption]. rewrite Len. destruct (Nat.lt_ge_cases j p) as [L | L]; [exact L|].
    rewrite (High j L Hj) in Eb. discriminate.
  - rewrite Len. destruct (Nat.lt_ge_cases j p) as [L | L]; [|exact L]. apply Low in L. congruence.
Qed.

(* the loop of resize and set walks over all of them *)
Lemma walk : forall f n (t : list slot) h e j, pow2 n -> HRH dibs n t ->
  Forall (fun p => fst p = h) (items t) -> length (items t) = dibs - 1 -> dibs <= n ->
  j <= dibs - 1 -> dibs - 1 - j < f ->
  hplace V dibs f t n (addm n (home n h) j) (mkB ((j + 1) mod dibs) h e) = Some t.
Proof.
  induction f as [|f IH]; intros n t h e j Hp R F Hc Hn Hj Hf; [lia|].
  pose proof (home_lt n h Hp) as Hh. pose proof (pow2_ge2 n Hp) as Hn2. pose proof (hrh_len _ _ _ R) as Hl.
  pose proof (same_shape n t h Hp R F ltac:(lia) j ltac:(lia)) as Sh.
  cbn [hplace]. destruct (nth (addm n (home n h) j) t None) as [b|] eqn:Eb.
  - destruct Sh as (Sj & Sd & _). cbn [b_dib]. rewrite Sd. rewrite Nat.mod_small by lia.
    rewrite Nat.ltb_irrefl. rewrite band_addm by (auto; apply addm_lt; lia). rewrite addm_add by lia.
    unfold hinc. cbn [b_dib b_hash b_ent]. apply IH; auto; lia.
  - assert (j = dibs - 1) by lia. subst j. replace (dibs - 1 + 1) with dibs by lia. rewrite Nat.mod_same by lia.
    unfold mk_slot. cbn [b_dib]. rewrite Nat.eqb_refl. f_equal.
    rewrite <- Eb. apply upd_same.
Qed.

Lemma set_lost : forall (m : hmap V) h name v, hinv hash dibs m -> Forall (fun p => hclip (hash (fst p)) = h) (hmap_all V m) ->
  hclip (hash name) = h -> ~ In name (List.map fst (hmap_all V m)) -> length (hmap_all V m) = dibs - 1 ->
  exists m', hmap_set V hash dibs m name v = Some (m', None) /\ Permutation (hmap_all V m') (hmap_all V m) /\
    hmap_get V hash m' name = Some None.
Proof.
  intros m h name v H F Eh Hno Hc. unfold hmap_set. cbv zeta. rewrite Eh.
  assert (L : forall m : hmap V, length (hmap_all V m) = length (items (h_buckets m))).
  { intro x. unfold hmap_all. apply map_length. }
  assert (G : exists m1, (if h_growat m <=? h_count m then hresize V dibs m (h_nb m * 2) else Some m) = Some m1 /\
     hinv hash dibs m1 /\ h_count m1 < h_growat m1 /\ Permutation (items (h_buckets m1)) (items (h_buckets m))).
  { destruct (h_growat m <=? h_count m) eqn:Gr.
    - apply hresize_spec; auto. rewrite <- L. lia.
    - exists m. split; [reflexivity|]. split; [assumption|]. split; [lia|]. apply Permutation_refl. }
  destruct G as (m1 & -> & H1 & Rm1 & P1).
  assert (PA : Permutation (hmap_all V m1) (hmap_all V m)) by (apply Permutation_map; exact P1).
  pose proof (hi_pow2 _ _ m1 H1) as Hp. pose proof (hi_rh _ _ m1 H1) as R. pose proof (hrh_len _ _ _ R) as Hl.
  pose proof (hcount_lt _ _ dibs_ok m1 H1) as Hlt.
  assert (Hc1 : length (items (h_buckets m1)) = dibs - 1) by (rewrite <- L, (Permutation_length PA); exact Hc).
  assert (Hno1 : ~ In name (List.map fst (hmap_all V m1))).
  { intro I. apply Hno. eapply Permutation_in; [|exact I]. apply Permutation_map. exact PA. }
  assert (F1 : Forall (fun p => fst p = h) (items (h_buckets m1))).
  { apply Forall_forall. intros [k e] I. cbn [fst].
    pose proof (hi_hash _ _ m1 H1) as Fh. rewrite Forall_forall in Fh. pose proof (Fh _ I) as Ek. cbn [fst snd] in Ek. rewrite Ek.
    rewrite Forall_forall in F. apply (F e). eapply Permutation_in; [exact PA|]. unfold hmap_all. apply (in_map snd) in I. exact I. }
  assert (Nd : NoDup (name :: hkeys (h_buckets m1))).
  { constructor; [rewrite hkeys_all; assumption|apply (hi_nodup _ _ m1 H1)]. }
  rewrite (hins_absent dibs dibs_ok); auto. 2:{ apply home_lt; assumption. }
  assert (W : hplace V dibs (h_nb m1) (h_buckets m1) (h_nb m1) (home (h_nb m1) h) (mkB 1 h (name, v)) = Some (h_buckets m1)).
  { rewrite <- (addm_0 (h_nb m1) (home (h_nb m1) h)) at 1 by (apply home_lt; assumption).
    replace (mkB 1 h (name, v)) with (mkB ((0 + 1) mod dibs) h (name, v)) by (rewrite Nat.mod_small by lia; reflexivity).
    apply walk; auto; lia. }
  rewrite W. eexists. split; [reflexivity|]. split; [exact PA|].
  unfold hmap_get. cbv zeta. cbn [h_nb h_buckets]. rewrite Eh. apply (hfind_absent dibs); auto.
  - apply home_lt. assumption.
  - rewrite hkeys_all. assumption.
Qed.
End TooMany.

(** ** Names with the same hash exist *)
Lemma pigeon : forall A (f : A -> nat) k B (l : list A), (forall a, In a l -> f a < B) -> k * B < length l ->
  exists v, k < length (filter (fun a => f a =? v) l).
Proof.
  intros A f k. induction B as [|B IH]; intros l Hb Hl.
  - destruct l as [|a l]; [cbn in Hl; lia|]. specialize (Hb a (or_introl eq_refl)). lia.
  - destruct (Nat.lt_ge_cases k (length (filter (fun a => f a =? B) l))) as [L | L]; [exists B; exact L|].
    assert (S : length l = length (filter (fun a => f a =? B) l) + length (filter (fun a => negb (f a =? B)) l)).
    { clear. induction l as [|a l IH]; [reflexivity|]. cbn [filter]. destruct (f a =? B); cbn [negb length]; lia. }
    destruct (IH (filter (fun a => negb (f a =? B)) l)) as (v & Hv).
    + intros a I. apply filter_In in I. destruct I as (I & N). specialize (Hb a I).
      apply negb_true_iff, Nat.eqb_neq in N. lia.
    + lia.
    + exists v. eapply Nat.lt_le_trans; [exact Hv|].
      clear. induction l as [|a l IH]; [cbn; lia|]. cbn [filter]. destruct (negb (f a =? B)); cbn [filter]; destruct (f a =? v); cbn [length]; lia.
Qed.

Fixpoint words (letters : list N) (n : nat) : list bytes :=
  match n with O => [[]] | S n => flat_map (fun w => List.map (fun c => c :: w) letters) (words letters n) end.

Lemma words_spec : forall letters n w, In w (words letters n) -> length w = n /\ Forall (fun c => In c letters) w.
Proof.
  intros letters. induction n as [|n IH]; intros w I; cbn [words] in I.
  - destruct I as [<- | []]. split; [reflexivity|constructor].
  - apply in_flat_map in I. destruct I as (w' & I' & I). apply in_map_iff in I. destruct I as (c & <- & Ic).
    destruct (IH w' I') as (E & F). split; [cbn; lia|]. constructor; assumption.
Qed.
Lemma flat_length : forall A B (f : A -> list B) k l, (forall w, length (f w) = k) -> length (flat_map f l) = k * length l.
Proof. intros A B f k l H. induction l as [|w l IH]; cbn [flat_map length]; [lia|]. rewrite app_length, H, IH. lia. Qed.
Lemma words_length : forall letters n, N.of_nat (length (words letters n)) = (N.of_nat (length letters) ^ N.of_nat n)%N.
Proof.
  intros letters. induction n as [|n IH]; [reflexivity|]. cbn [words]. rewrite Nat2N.inj_succ, N.pow_succ_r', <- IH.
  rewrite (flat_length _ _ _ (length letters)); [apply Nat2N.inj_mul|]. intro w. apply map_length.
Qed.
Lemma flat_map_nodup : forall A B (f : A -> list B) l, NoDup l -> (forall a, In a l -> NoDup (f a)) ->
  (forall a b x, In a l -> In b l -> In x (f a) -> In x (f b) -> a = b) -> NoDup (flat_map f l).
Proof.
  intros A B f. induction l as [|a l IH]; intros N Nf D; cbn [flat_map]; [constructor|].
  inversion N as [|? ? Na Nl]; subst.
  assert (Q : NoDup (flat_map f l)).
  { apply IH; [assumption|intros; apply Nf; right; assumption|]. intros x y z X Y. apply D; right; assumption. }
  assert (X : forall x, In x (f a) -> ~ In x (flat_map f l)).
  { intros x I J. apply in_flat_map in J. destruct J as (b & Ib & J). apply Na.
    rewrite (D a b x (or_introl eq_refl) (or_intror Ib) I J). exact Ib. }
  specialize (Nf a (or_introl eq_refl)). clear - Nf Q X.
  induction (f a) as [|x r IH]; cbn [app]; [exact Q|]. inversion Nf as [|? ? Nx Nr]; subst. constructor.
  - intro I. apply in_app_or in I. destruct I as [I | I]; [contradiction|]. apply (X x (or_introl eq_refl) I).
  - apply IH; [assumption|]. intros y Y. apply X. right. exact Y.
Qed.
Lemma words_nodup : forall letters n, NoDup letters -> NoDup (words letters n).
Proof.
  intros letters n N. induction n as [|n IH]; cbn [words]; [constructor; [intros []|constructor]|].
  apply flat_map_nodup.
  - exact IH.
  - intros w _. apply FinFun.Injective_map_NoDup; [|exact N]. intros c d E. congruence.
  - intros a b x _ _ I J. apply in_map_iff in I, J. destruct I as (c & <- & _), J as (d & E & _). congruence.
Qed.

(** The lower case letters. *)
Definition lower : list N := List.map N.of_nat (seq 97 26).

Lemma collide_gen : forall (hash : bytes -> N) k B (ws : list bytes), (forall a, N.to_nat (hclip (hash a)) < B) ->
  NoDup ws -> k * B < length ws ->
  exists h (names : list bytes), NoDup names /\ length names = S k /\ forall name, In name names -> In name ws /\ hclip (hash name) = h.
Proof.
  intros hash k B ws HB Nw Hl.
  destruct (pigeon bytes (fun n => N.to_nat (hclip (hash n))) k B ws) as (v & Hv); [intros; apply HB|exact Hl|].
  set (l := filter (fun n => N.to_nat (hclip (hash n)) =? v) ws) in *.
  exists (N.of_nat v), (firstn (S k) l).
  split; [|split].
  - assert (Nl : NoDup l) by (apply NoDup_filter; exact Nw).
    rewrite <- (firstn_skipn (S k) l) in Nl. clear - Nl. induction (firstn (S k) l) as [|x r IH]; [constructor|].
    cbn [app] in Nl. inversion Nl as [|? ? Nx Nr]; subst. constructor; [|apply IH; exact Nr]. intro I. apply Nx. apply in_or_app. left. exact I.
  - rewrite firstn_length. lia.
  - intros name I. assert (J : In name l) by (rewrite <- (firstn_skipn (S k) l); apply in_or_app; left; exact I).
    unfold l in J. apply filter_In in J. destruct J as (J & E). apply Nat.eqb_eq in E. split; [exact J|]. rewrite <- E, N2Nat.id. reflexivity.
Qed.
Lemma collide : forall hash : bytes -> N, exists h (names : list bytes),
  NoDup names /\ length names = DIBS /\
  forall name, In name names -> length name = 14 /\ Forall (fun c => In c lower) name /\ hclip (hash name) = h.
Proof.
  intro hash.
  destruct (collide_gen hash (N.to_nat 65535) (N.to_nat (2 ^ 48)) (words lower 14)) as (h & names & N1 & N2 & N3).
  - intro a. unfold hclip. assert (hash a mod 2 ^ 48 < 2 ^ 48)%N by (apply N.mod_lt; discriminate). lia.
  - apply words_nodup. apply FinFun.Injective_map_NoDup; [intros x y; apply Nat2N.inj|apply seq_NoDup].
  - pose proof (words_length lower 14) as E. revert E. generalize (length (words lower 14)). intros x E.
    assert (Q : (65535 * 2 ^ 48 < N.of_nat x)%N) by (rewrite E; vm_compute; reflexivity). lia.
  - exists h, names. split; [exact N1|]. split; [etransitivity; [exact N2|unfold DIBS; lia]|].
    intros name I. destruct (N3 name I) as (I1 & I2). destruct (words_spec _ _ _ I1) as (W1 & W2). auto.
Qed.
