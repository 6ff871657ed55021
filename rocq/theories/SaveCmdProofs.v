(** Saves to files of their own, at their own moments: the invariant of [SaveFsProofs], with the moments by path. *)
From Verif Require Import Base Types Clamp Entry Hash Map Shard Spec Cache Refine Reach Observe PropCache Text CmdSpec CmdsProofs Save SaveSpec SaveProofs
  SaveFs SaveFsProofs PropSave.
From Coq Require Import Permutation.
Local Open Scope N_scope.

Section P.
Variable o : opts.
Variable compress : bytes -> bytes.
Variable takes : bytes -> nat -> shot -> Prop.
Variable nprocs : nat.
Hypothesis nprocs_pos : (0 < nprocs)%nat.
Hypothesis takes_small : forall p, small_enough o (takes p).

Definition jsinv (f : fs) (sv : saver) : Prop :=
  match sv_phase sv with
  | POpen => fs_names f (sv_work sv) = None
  | PRun i off ts => owns f (sv_work sv) i /\ (i < fs_next f)%nat /\ rinv o compress (takes (sv_path sv)) (fs_data f i) off ts
  | PRename i => owns f (sv_work sv) i /\ (i < fs_next f)%nat /\ whole_file o compress (takes (sv_path sv)) (fs_data f i)
  | _ => True
  end.
Variable f0 : fs.
Record jwinv (f : fs) (svs : list saver) : Prop := {
  jwi_sv : Forall (jsinv f) svs;
  jwi_names : forall n i, fs_names f n = Some i -> (i < fs_next f)%nat;
  jwi_works : NoDup (map sv_work svs);
  jwi_paths : forall a b, In a svs -> In b svs -> sv_work a <> sv_path b;
  jwi_content : forall p, ~ In p (map sv_work svs) ->
     (content f p = content f0 p /\ forall sv, In sv svs -> sv_path sv = p -> succeeded (sv_phase sv) = false) \/
     (exists d, content f p = Some d /\ whole_file o compress (takes p) d /\ exists sv, In sv svs /\ sv_path sv = p /\ succeeded (sv_phase sv) = true)
}.

(** A change of the file of one saver does not matter to the others. *)
Lemma jsinv_other : forall f f' sv w p i, jsinv f sv -> sv_work sv <> w -> sv_work sv <> p -> (fs_next f <= fs_next f')%nat ->
  (* names other than [w] and [p] are as before, these two lead to [i] or to what [w] led to *)
  (forall n, n <> w -> n <> p -> fs_names f' n = fs_names f n) ->
  (forall n j, n = w \/ n = p -> fs_names f' n = Some j -> j = i \/ fs_names f n = Some j) ->
  (forall j, j <> i -> (j < fs_next f)%nat -> fs_data f' j = fs_data f j) ->
  (fs_names f w = Some i \/ (fs_next f <= i)%nat) -> jsinv f' sv.
Proof.
  intros f f' sv w p i S Nw Np Le Hn Hwp Hd Hi. unfold jsinv in *.
  assert (On : forall j, owns f (sv_work sv) j -> (j < fs_next f)%nat -> owns f' (sv_work sv) j /\ fs_data f' j = fs_data f j).
  { intros j [O1 O2] Lj. assert (Nj : j <> i).
    { intros ->. destruct Hi as [Hi|Hi]; [|lia]. apply O2 in Hi. congruence. }
    split; [|apply Hd; assumption]. split; [rewrite Hn by assumption; exact O1|].
    intros n Hx. destruct (list_eq_dec N.eq_dec n w) as [->|N1]; [|destruct (list_eq_dec N.eq_dec n p) as [->|N2]].
    - destruct (Hwp w j (or_introl eq_refl) Hx) as [->|X]; [contradiction|exact (O2 _ X)].
    - destruct (Hwp p j (or_intror eq_refl) Hx) as [->|X]; [contradiction|exact (O2 _ X)].
    - rewrite Hn in Hx by assumption. exact (O2 _ Hx). }
  destruct (sv_phase sv) as [|j off ts|j|ok|ok]; try exact Logic.I.
  - rewrite Hn by assumption. exact S.
  - destruct S as (S1 & S2 & S3). destruct (On j S1 S2) as [O E]. split; [exact O|]. split; [lia|]. rewrite E. exact S3.
  - destruct S as (S1 & S2 & S3). destruct (On j S1 S2) as [O E]. split; [exact O|]. split; [lia|]. rewrite E. exact S3.
Qed.

(** The general step: one saver changes, the rest of the world is as above. *)
Lemma jwinv_frame : forall f f' s1 sv s2 ph' i, jwinv f (s1 ++ sv :: s2) ->
  (fs_next f <= fs_next f')%nat ->
  (forall n, n <> sv_work sv -> n <> sv_path sv -> fs_names f' n = fs_names f n) ->
  (forall n j, n = sv_work sv \/ n = sv_path sv -> fs_names f' n = Some j -> j = i \/ fs_names f n = Some j) ->
  (forall j, j <> i -> (j < fs_next f)%nat -> fs_data f' j = fs_data f j) ->
  (owns f (sv_work sv) i \/ (fs_next f <= i)%nat) -> (i < fs_next f')%nat ->
  jsinv f' (mkSaver (sv_path sv) (sv_work sv) ph') ->
  (* the path *)
  ((fs_names f' (sv_path sv) = fs_names f (sv_path sv) /\ succeeded ph' = succeeded (sv_phase sv)) \/
   (succeeded ph' = true /\ exists d, content f' (sv_path sv) = Some d /\ whole_file o compress (takes (sv_path sv)) d)) ->
  jwinv f' (s1 ++ mkSaver (sv_path sv) (sv_work sv) ph' :: s2).
Proof.
  intros f f' s1 sv s2 ph' i [W1 W2 W3 W4 W5] Le Hn Hwp Hd Hi Li Hs Hp.
  set (sv' := mkSaver (sv_path sv) (sv_work sv) ph').
  assert (Ew : map sv_work (s1 ++ sv' :: s2) = map sv_work (s1 ++ sv :: s2)) by (rewrite !map_app; reflexivity).
  assert (Hsv : In sv (s1 ++ sv :: s2)) by (apply in_mid2; left; reflexivity).
  assert (Wo : forall x, In x (s1 ++ s2) -> sv_work x <> sv_work sv).
  { intros x Hx E. rewrite map_app in W3. cbn [map] in W3. apply NoDup_remove_2 in W3. apply W3. rewrite <- map_app, <- E. apply in_map. exact Hx. }
  constructor.
  - rewrite Forall_forall in W1. apply Forall_forall. intros x Hx. apply in_mid2 in Hx. destruct Hx as [->|Hx]; [exact Hs|].
    assert (Hx2 : In x (s1 ++ sv :: s2)) by (apply in_mid2; right; exact Hx).
    apply (jsinv_other f f' x (sv_work sv) (sv_path sv) i); try assumption.
    + exact (W1 x Hx2).
    + exact (Wo x Hx).
    + exact (W4 x sv Hx2 Hsv).
    + destruct Hi as [Hi|Hi]; [left; apply Hi|right; exact Hi].
  - intros n j Hx. destruct (list_eq_dec N.eq_dec n (sv_work sv)) as [->|N1]; [|destruct (list_eq_dec N.eq_dec n (sv_path sv)) as [->|N2]].
    + destruct (Hwp _ j (or_introl eq_refl) Hx) as [->|X]; [exact Li|apply W2 in X; lia].
    + destruct (Hwp _ j (or_intror eq_refl) Hx) as [->|X]; [exact Li|apply W2 in X; lia].
    + rewrite Hn in Hx by assumption. apply W2 in Hx. lia.
  - rewrite Ew. exact W3.
  - intros a b Ha Hb. apply in_mid2 in Ha, Hb.
    assert (Q : forall x, x = sv' \/ In x (s1 ++ s2) -> exists y, In y (s1 ++ sv :: s2) /\ sv_work y = sv_work x /\ sv_path y = sv_path x).
    { intros x [->|Hx]; [exists sv; auto|exists x; split; [apply in_mid2; right; exact Hx|auto]]. }
    destruct (Q a Ha) as (a' & A1 & <- & _). destruct (Q b Hb) as (b' & B1 & _ & <-). exact (W4 a' b' A1 B1).
  - intros p Np. rewrite Ew in Np.
    assert (Npw : p <> sv_work sv) by (intros ->; apply Np; apply in_map; exact Hsv).
    (* names that keep their file keep their content *)
    assert (Keep : forall q, q <> sv_work sv -> fs_names f' q = fs_names f q -> content f' q = content f q).
    { intros q Nq E. unfold content. rewrite E. destruct (fs_names f q) as [j|] eqn:Ej; [|reflexivity]. f_equal. apply Hd; [|exact (W2 _ _ Ej)].
      intros ->. destruct Hi as [[_ Hi]|Hi]; [apply Hi in Ej; congruence|apply W2 in Ej; lia]. }
    destruct (list_eq_dec N.eq_dec p (sv_path sv)) as [->|Npp].
    + destruct Hp as [[E1 E2]|(E1 & d & E2 & E3)].
      * rewrite (Keep _ Npw E1). destruct (W5 _ Np) as [[A B]|(d & A & B & x & X1 & X2 & X3)].
        -- left. split; [exact A|]. intros x Hx Ex. apply in_mid2 in Hx. destruct Hx as [->|Hx].
           ++ cbn [sv' sv_phase]. rewrite E2. apply B; [exact Hsv|reflexivity].
           ++ apply B; [apply in_mid2; right; exact Hx|exact Ex].
        -- right. exists d. split; [exact A|]. split; [exact B|]. apply in_mid2 in X1. destruct X1 as [->|X1].
           ++ exists sv'. split; [apply in_mid2; left; reflexivity|]. split; [reflexivity|]. cbn [sv' sv_phase]. congruence.
           ++ exists x. split; [apply in_mid2; right; exact X1|auto].
      * right. exists d. split; [exact E2|]. split; [exact E3|]. exists sv'. split; [apply in_mid2; left; reflexivity|]. split; [reflexivity|exact E1].
    + rewrite (Keep p Npw (Hn p Npw Npp)). destruct (W5 _ Np) as [[A B]|(d & A & B & x & X1 & X2 & X3)].
      * left. split; [exact A|]. intros x Hx Ex. apply in_mid2 in Hx. destruct Hx as [->|Hx]; [cbn [sv' sv_path] in Ex; congruence|].
        apply B; [apply in_mid2; right; exact Hx|exact Ex].
      * right. exists d. split; [exact A|]. split; [exact B|]. apply in_mid2 in X1. destruct X1 as [->|X1]; [congruence|].
        exists x. split; [apply in_mid2; right; exact X1|auto].
Qed.


Lemma jwinv_step : forall fast f s1 sv s2 f' ph', jwinv f (s1 ++ sv :: s2) ->
  save_step o compress (takes (sv_path sv)) nprocs fast sv f (sv_phase sv) f' ph' ->
  jwinv f' (s1 ++ mkSaver (sv_path sv) (sv_work sv) ph' :: s2).
Proof.
  intros fast f s1 sv s2 f' ph' W Hs.
  assert (Hsv : In sv (s1 ++ sv :: s2)) by (apply in_mid2; left; reflexivity).
  pose proof (proj1 (Forall_forall _ _) (jwi_sv _ _ W) sv Hsv) as Is. unfold jsinv in Is.
  pose proof (jwi_names _ _ W) as Wn. pose proof (jwi_paths _ _ W sv sv Hsv Hsv) as Wp.
  remember (sv_phase sv) as ph eqn:Eph. destruct Hs.
  - (* create *)
    apply (jwinv_frame f _ s1 sv s2 _ (fs_next f) W); cbn [fs_next fs_names fs_data set_name set_data].
    + lia.
    + intros n N1 _. rewrite beq_ne by congruence. reflexivity.
    + intros n j [->| ->] Hx; [rewrite beq_refl in Hx; injection Hx as <-; left; reflexivity|].
      rewrite beq_ne in Hx by congruence. right. exact Hx.
    + intros j Nj Lj. destruct (Nat.eqb_spec (fs_next f) j); [congruence|reflexivity].
    + right. lia.
    + lia.
    + unfold jsinv. cbn [sv_phase sv_work fs_names fs_next fs_data]. split; [split|split].
      * cbn [fs_names]. rewrite beq_refl. reflexivity.
      * intros n Hx. cbn [fs_names] in Hx. destruct (beq (sv_work sv) n) eqn:B; [apply beq_eq in B; congruence|]. apply Wn in Hx. lia.
      * lia.
      * rewrite Nat.eqb_refl. apply (rinv_start o compress (takes (sv_path sv)) nprocs fast nprocs_pos (takes_small _)).
    + left. rewrite beq_ne by congruence. rewrite <- Eph. auto.
  - (* reopen *) congruence.
  - (* noopen *)
    assert (exists i, (fs_next f <= i)%nat) by (exists (fs_next f); lia).
    (* nothing changes in the file system *)
    destruct W as [W1 W2 W3 W4 W5]. set (sv' := mkSaver (sv_path sv) (sv_work sv) (PDone false)).
    constructor.
    + rewrite Forall_forall in *. intros x Hx. apply in_mid2 in Hx. destruct Hx as [->|Hx]; [exact Logic.I|]. apply W1. apply in_mid2. right. exact Hx.
    + exact W2.
    + rewrite map_app in *. exact W3.
    + intros a b Ha Hb. apply in_mid2 in Ha, Hb.
      assert (Q : forall x, x = sv' \/ In x (s1 ++ s2) -> exists y, In y (s1 ++ sv :: s2) /\ sv_work y = sv_work x /\ sv_path y = sv_path x).
      { intros x [->|Hx]; [exists sv; auto|exists x; split; [apply in_mid2; right; exact Hx|auto]]. }
      destruct (Q a Ha) as (a' & A1 & <- & _). destruct (Q b Hb) as (b' & B1 & _ & <-). exact (W4 a' b' A1 B1).
    + intros p Np. assert (Ew : map sv_work (s1 ++ sv' :: s2) = map sv_work (s1 ++ sv :: s2)) by (rewrite !map_app; reflexivity).
      rewrite Ew in Np. destruct (W5 _ Np) as [[A B]|(d & A & B & x & X1 & X2 & X3)].
      * left. split; [exact A|]. intros x Hx Ex. apply in_mid2 in Hx. destruct Hx as [->|Hx]; [reflexivity|]. apply B; [apply in_mid2; right; exact Hx|exact Ex].
      * right. exists d. split; [exact A|]. split; [exact B|]. apply in_mid2 in X1. destruct X1 as [->|X1]; [rewrite <- Eph in X3; discriminate|].
        exists x. split; [apply in_mid2; right; exact X1|auto].
  - (* thread *)
    destruct Is as (I1 & I2 & I3).
    apply (jwinv_frame f _ s1 sv s2 _ i W); cbn [fs_next fs_names fs_data set_data].
    + lia.
    + reflexivity.
    + intros n j _ Hx. right. exact Hx.
    + intros j Nj Lj. destruct (Nat.eqb_spec i j); [congruence|reflexivity].
    + left. exact I1.
    + exact I2.
    + unfold jsinv. cbn [sv_phase sv_work fs_names fs_next fs_data]. split; [exact I1|]. split; [exact I2|].
      cbn [fs_data set_data]. rewrite Nat.eqb_refl. exact (rinv_step _ _ _ nprocs nprocs_pos (takes_small _) _ _ _ _ _ _ _ _ I3 H).
    + left. rewrite <- Eph. auto.
  - (* joined *)
    destruct Is as (I1 & I2 & I3). apply (jwinv_frame f f s1 sv s2 _ i W); auto.
    + unfold jsinv. cbn [sv_phase sv_work]. split; [exact I1|]. split; [exact I2|]. exact (rinv_end _ _ _ nprocs nprocs_pos (takes_small _) _ _ _ I3 H).
    + left. rewrite <- Eph. auto.
  - (* failed *)
    destruct Is as (I1 & I2 & I3). apply (jwinv_frame f f s1 sv s2 _ i W); auto.
    + exact Logic.I.
    + left. rewrite <- Eph. auto.
  - (* rename *)
    destruct Is as (I1 & I2 & I3). apply (jwinv_frame f _ s1 sv s2 _ i W); cbn [fs_next fs_names fs_data set_name].
    + lia.
    + intros n N1 N2. rewrite !beq_ne by congruence. reflexivity.
    + intros n j [->| ->] Hx; [rewrite beq_refl in Hx; discriminate|].
      rewrite (beq_ne (sv_work sv)) in Hx by congruence. rewrite beq_refl in Hx. left. destruct I1 as [I1 _]. congruence.
    + reflexivity.
    + left. exact I1.
    + exact I2.
    + exact Logic.I.
    + right. split; [reflexivity|]. exists (fs_data f i). split; [|exact I3]. unfold content. cbn [fs_names fs_data set_name].
      rewrite (beq_ne (sv_work sv)) by congruence. rewrite beq_refl. destruct I1 as [-> _]. reflexivity.
  - (* norename *)
    destruct Is as (I1 & I2 & I3). apply (jwinv_frame f f s1 sv s2 _ i W); auto.
    + exact Logic.I.
    + left. rewrite <- Eph. auto.
  - (* unlink *)
    destruct W as [W1 W2 W3 W4 W5]. set (sv' := mkSaver (sv_path sv) (sv_work sv) (PDone ok)).
    assert (Wo : forall x, In x (s1 ++ s2) -> sv_work x <> sv_work sv).
    { intros x Hx E. rewrite map_app in W3. cbn [map] in W3. apply NoDup_remove_2 in W3. apply W3. rewrite <- map_app, <- E. apply in_map. exact Hx. }
    assert (Ew : map sv_work (s1 ++ sv' :: s2) = map sv_work (s1 ++ sv :: s2)) by (rewrite !map_app; reflexivity).
    constructor.
    + rewrite Forall_forall in *. intros x Hx. apply in_mid2 in Hx. destruct Hx as [->|Hx]; [exact Logic.I|].
      specialize (W1 x ltac:(apply in_mid2; right; exact Hx)). specialize (Wo x Hx). unfold jsinv in *. cbn [fs_names fs_data fs_next set_name].
      assert (On : forall j, owns f (sv_work x) j -> owns (set_name f (sv_work sv) None) (sv_work x) j).
      { intros j [O1 O2]. split; cbn [fs_names set_name]; [rewrite beq_ne by congruence; exact O1|]. intros n Hn. destruct (beq (sv_work sv) n); [discriminate|exact (O2 n Hn)]. }
      destruct (sv_phase x); try exact Logic.I.
      * rewrite beq_ne by congruence. exact W1.
      * destruct W1 as (A & B & C). auto.
      * destruct W1 as (A & B & C). auto.
    + intros n j. cbn [fs_names set_name fs_next]. destruct (beq (sv_work sv) n); [discriminate|apply W2].
    + rewrite Ew. exact W3.
    + intros a b Ha Hb. apply in_mid2 in Ha, Hb.
      assert (Q : forall x, x = sv' \/ In x (s1 ++ s2) -> exists y, In y (s1 ++ sv :: s2) /\ sv_work y = sv_work x /\ sv_path y = sv_path x).
      { intros x [->|Hx]; [exists sv; auto|exists x; split; [apply in_mid2; right; exact Hx|auto]]. }
      destruct (Q a Ha) as (a' & A1 & <- & _). destruct (Q b Hb) as (b' & B1 & _ & <-). exact (W4 a' b' A1 B1).
    + intros p Np. rewrite Ew in Np.
      assert (Npw : p <> sv_work sv) by (intros ->; apply Np; apply in_map; exact Hsv).
      assert (Kp : content (set_name f (sv_work sv) None) p = content f p) by (unfold content; cbn [fs_names set_name fs_data]; rewrite beq_ne by congruence; reflexivity).
      rewrite Kp. destruct (W5 _ Np) as [[A B]|(d & A & B & x & X1 & X2 & X3)].
      * left. split; [exact A|]. intros x Hx Ex. apply in_mid2 in Hx. destruct Hx as [->|Hx].
        -- cbn [sv_path] in Ex. specialize (B sv Hsv Ex). rewrite <- Eph in B. exact B.
        -- apply B; [apply in_mid2; right; exact Hx|exact Ex].
      * right. exists d. split; [exact A|]. split; [exact B|]. apply in_mid2 in X1. destruct X1 as [->|X1].
        -- exists sv'. split; [apply in_mid2; left; reflexivity|]. split; [exact X2|]. rewrite <- Eph in X3. exact X3.
        -- exists x. split; [apply in_mid2; right; exact X1|auto].
  - (* nounlink *)
    destruct W as [W1 W2 W3 W4 W5]. set (sv' := mkSaver (sv_path sv) (sv_work sv) (PDone ok)).
    assert (Ew : map sv_work (s1 ++ sv' :: s2) = map sv_work (s1 ++ sv :: s2)) by (rewrite !map_app; reflexivity).
    constructor.
    + rewrite Forall_forall in *. intros x Hx. apply in_mid2 in Hx. destruct Hx as [->|Hx]; [exact Logic.I|]. apply W1. apply in_mid2. right. exact Hx.
    + exact W2.
    + rewrite Ew. exact W3.
    + intros a b Ha Hb. apply in_mid2 in Ha, Hb.
      assert (Q : forall x, x = sv' \/ In x (s1 ++ s2) -> exists y, In y (s1 ++ sv :: s2) /\ sv_work y = sv_work x /\ sv_path y = sv_path x).
      { intros x [->|Hx]; [exists sv; auto|exists x; split; [apply in_mid2; right; exact Hx|auto]]. }
      destruct (Q a Ha) as (a' & A1 & <- & _). destruct (Q b Hb) as (b' & B1 & _ & <-). exact (W4 a' b' A1 B1).
    + intros p Np. rewrite Ew in Np. destruct (W5 _ Np) as [[A B]|(d & A & B & x & X1 & X2 & X3)].
      * left. split; [exact A|]. intros x Hx Ex. apply in_mid2 in Hx. destruct Hx as [->|Hx].
        -- cbn [sv_path] in Ex. specialize (B sv Hsv Ex). rewrite <- Eph in B. exact B.
        -- apply B; [apply in_mid2; right; exact Hx|exact Ex].
      * right. exists d. split; [exact A|]. split; [exact B|]. apply in_mid2 in X1. destruct X1 as [->|X1].
        -- exists sv'. split; [apply in_mid2; left; reflexivity|]. split; [exact X2|]. rewrite <- Eph in X3. exact X3.
        -- exists x. split; [apply in_mid2; right; exact X1|auto].
Qed.
End P.
