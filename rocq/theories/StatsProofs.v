(** Proofs about the counters of Stats.v. *)
From Verif Require Import Base Stats StatsSpec.
Local Open Scope N_scope.

(** Number of [p] events with no [q] event after them. *)
Fixpoint open (p q : ev -> bool) (tr : list ev) : N :=
  match tr with [] => 0 | e :: r => one (p e && negb (existsb q r)) + open p q r end.

Lemma kind_eqb_eq : forall a b, kind_eqb a b = true <-> a = b.
Proof. intros [] []; cbn; split; intro H; congruence. Qed.
Lemma kind_eqb_refl : forall a, kind_eqb a a = true.
Proof. intros []; reflexivity. Qed.
Lemma kind_dec : forall a b : kind, {a = b} + {a <> b}.
Proof. decide equality. Qed.
Lemma kind_neq : forall a b, a <> b -> kind_eqb a b = false.
Proof. intros a b H. destruct (kind_eqb a b) eqn:E; [|reflexivity]. apply kind_eqb_eq in E. contradiction. Qed.

Lemma existsb_snoc : forall (q : ev -> bool) l x, existsb q (l ++ [x]) = existsb q l || q x.
Proof. intros. rewrite existsb_app. cbn. rewrite orb_false_r. reflexivity. Qed.

Lemma open_snoc : forall p q tr x, open p q (tr ++ [x]) =
  (if q x then 0 else open p q tr) + one (p x).
Proof.
  intros p q. induction tr as [|e r IH]; intro x; cbn [app open].
  - destruct (q x); cbn; rewrite andb_true_r; lia.
  - rewrite IH, existsb_snoc. destruct (q x).
    + rewrite orb_true_r, andb_false_r. cbn [one]. lia.
    + rewrite orb_false_r. lia.
Qed.
Lemma number_snoc : forall p tr x, number p (tr ++ [x]) = number p tr + one (p x).
Proof. intros p. induction tr as [|e r IH]; intro x; cbn [app number]; [lia|]. rewrite IH. lia. Qed.
Lemma number_app : forall p a b, number p (a ++ b) = number p a + number p b.
Proof. intros p. induction a as [|e r IH]; intro b; cbn [app number]; [lia|]. rewrite IH. lia. Qed.
Lemma before_open : forall p q tr, before p q tr + open p q tr = number p tr.
Proof.
  intros p q. induction tr as [|e r IH]; cbn; [reflexivity|].
  destruct (p e), (existsb q r); cbn [andb negb one]; lia.
Qed.

Lemma settled_snoc : forall k tr x, settled k (tr ++ [x]) =
  settled k tr + match x with EFlush t k' => if kind_eqb k' k then open (is_own t k) (is_flush t k) tr else 0
                 | _ => 0 end.
Proof.
  intros k. induction tr as [|e r IH]; intro x; cbn [app settled].
  - destruct x as [t k'|t k' v|t k'|t]; cbn; try rewrite andb_false_r; try destruct (kind_eqb _ _); reflexivity.
  - rewrite IH.
    assert (Q : forall A, (match e with EInc t k' => kind_eqb k' k && existsb (is_flush t k) (r ++ [x]) | _ => false end)
      = A -> one A = one (match e with EInc t k' => kind_eqb k' k && existsb (is_flush t k) r | _ => false end) +
        match x with
        | EFlush t k' => if kind_eqb k' k then one (is_own t k e && negb (existsb (is_flush t k) r)) else 0
        | _ => 0 end).
    { intros A <-. destruct e as [t0 k0|t0 k0 v0|t0 k0|t0]; cbn [is_own];
        try (destruct x as [| |t1 k1|]; try destruct (kind_eqb k1 k); reflexivity).
      rewrite existsb_snoc. destruct x as [t1 k1|t1 k1 v1|t1 k1|t1]; cbn [is_flush]; rewrite ?orb_false_r, ?N.add_0_r; try reflexivity.
      destruct (kind_eqb k1 k); [|rewrite andb_false_r, orb_false_r, N.add_0_r; reflexivity].
      rewrite andb_true_r. rewrite (Nat.eqb_sym t1 t0).
      destruct (Nat.eqb_spec t0 t1) as [->|Ne]; cbn [andb].
      - destruct (kind_eqb k0 k), (existsb (is_flush t1 k) r); reflexivity.
      - rewrite orb_false_r. cbn [one]. lia. }
    rewrite (Q _ eq_refl). destruct x as [t1 k1|t1 k1 v1|t1 k1|t1]; try lia.
    destruct (kind_eqb k1 k); [|lia]. cbn [open]. lia.
Qed.

Lemma settled_le : forall k tr, settled k tr <= number (is_inc k) tr.
Proof.
  intros k. induction tr as [|e r IH]; cbn [settled number]; [lia|].
  destruct e as [t0 k0|t0 k0 v0|t0 k0|t0]; cbn [is_inc one]; try lia.
  destruct (kind_eqb k0 k), (existsb _ _); cbn [andb one]; lia.
Qed.
Lemma settled_app : forall k b a, settled k a <= settled k (a ++ b).
Proof.
  intros k. induction b as [|x b IH]; intro a; [rewrite app_nil_r; lia|].
  replace (a ++ x :: b) with ((a ++ [x]) ++ b) by (rewrite <- app_assoc; reflexivity).
  specialize (IH (a ++ [x])). rewrite settled_snoc in IH. lia.
Qed.
Lemma before_settled : forall t k tr, before (is_own t k) (is_flush t k) tr <= settled k tr.
Proof.
  intros t k. induction tr as [|e r IH]; cbn [settled before]; [lia|].
  destruct e as [t0 k0|t0 k0 v0|t0 k0|t0]; cbn [is_own andb one]; try lia.
  destruct (Nat.eqb_spec t0 t) as [->|]; cbn [andb one]; [|lia].
  destruct (kind_eqb k0 k), (existsb _ _); cbn [andb one]; lia.
Qed.
Lemma all_settled : forall k tr, (forall t, open (is_own t k) (is_flush t k) tr = 0) ->
  settled k tr = number (is_inc k) tr.
Proof.
  intros k. induction tr as [|e r IH]; intro H; cbn [settled number]; [reflexivity|].
  rewrite IH; [|intro t; specialize (H t); cbn [open] in H; lia].
  destruct e as [t0 k0|t0 k0 v0|t0 k0|t0]; cbn [is_inc one]; try lia.
  specialize (H t0). cbn [open is_own] in H. rewrite Nat.eqb_refl in H.
  destruct (kind_eqb k0 k); cbn [andb] in *; [|reflexivity].
  destruct (existsb _ _); cbn [negb one] in *; lia.
Qed.

(** *** The invariant *)
Definition pend (t : nat) (k : kind) (tr : list ev) : N := open (is_own t k) (is_flush t k) tr.
Definition recent (t : nat) (k : kind) (tr : list ev) : N := open (is_own t k) (is_round t) tr.

Definition at_ok (s : stt) (tr : list ev) (t : nat) : Prop :=
  match st_pc s t with
  | AtFlush ks rest => few rest /\ (forall c k, st_conn s t c k = 0) /\
      (forall k, st_thr s t k = u64 (pend t k tr)) /\
      (forall k, recent t k tr = 0) /\ (forall k, ~ In k ks -> pend t k tr = 0)
  | AtQueue q rest => Forall few_call q /\ few rest /\ (forall c k, st_conn s t c k = 0) /\
      (forall k, st_thr s t k = u64 (pend t k tr)) /\
      (forall k, recent t k tr = pend t k tr)
  | AtData c acts q rest => Forall few_call q /\ few rest /\
      (forall c' k, c' <> c -> st_conn s t c' k = 0) /\
      (forall k, st_conn s t c k + incs k acts < 2 ^ 32) /\
      (forall k, st_conn s t c k <= pend t k tr /\ st_thr s t k = u64 (pend t k tr - st_conn s t c k)) /\
      (forall k, recent t k tr = pend t k tr)
  end.
Definition inv (s : stt) (tr : list ev) : Prop :=
  (forall k, st_glob s k = u64 (settled k tr)) /\ forall t, at_ok s tr t.

Lemma u64_add_l : forall a b, u64 (u64 a + b) = u64 (a + b).
Proof. intros. unfold u64. apply N.add_mod_idemp_l. discriminate. Qed.
Lemma u64_add_r : forall a b, u64 (a + u64 b) = u64 (a + b).
Proof. intros. unfold u64. apply N.add_mod_idemp_r. discriminate. Qed.

(** Events of a thread do not concern the others. *)
Lemma pend_other : forall t t' k tr e, t <> t' ->
  (match e with EInc x _ | ERead x _ _ | EFlush x _ | ERound x => x end) = t' ->
  pend t k (tr ++ [e]) = pend t k tr /\ recent t k (tr ++ [e]) = recent t k tr.
Proof.
  intros t t' k tr e N H. unfold pend, recent. rewrite !open_snoc.
  assert (X : (t' =? t)%nat = false) by (apply Nat.eqb_neq; congruence).
  destruct e; subst; cbn; rewrite ?X; cbn [andb one]; lia.
Qed.

Lemma at_ok_other : forall s s' tr tr' t,
  st_pc s' t = st_pc s t -> (forall k, st_thr s' t k = st_thr s t k) ->
  (forall c k, st_conn s' t c k = st_conn s t c k) ->
  (forall k, pend t k tr' = pend t k tr) -> (forall k, recent t k tr' = recent t k tr) ->
  at_ok s tr t -> at_ok s' tr' t.
Proof.
  intros s s' tr tr' t P T C Q R H. unfold at_ok in *. rewrite P.
  destruct (st_pc s t) as [ks rest|q rest|c acts q rest].
  - destruct H as (H1 & H2 & H3 & H4 & H5). repeat split; intros.
    + assumption.
    + rewrite C. apply H2.
    + rewrite T, Q. apply H3.
    + rewrite R. apply H4.
    + rewrite Q. apply H5. assumption.
  - destruct H as (H0 & H1 & H2 & H3 & H4). split; [assumption|]. repeat split; intros.
    + assumption.
    + rewrite C. apply H2.
    + rewrite T, Q. apply H3.
    + rewrite R, Q. apply H4.
  - destruct H as (H0 & H1 & H2 & H3 & H4 & H5). split; [assumption|]. split; [assumption|]. repeat split; intros.
    + rewrite C. apply H2. assumption.
    + rewrite C. apply H3.
    + rewrite C, Q. apply H4.
    + rewrite T, Q, C. apply H4.
    + rewrite R, Q. apply H5.
Qed.

Lemma sum_conn : forall s t c t' c' k, st_conn (sumstats s t c) t' c' k =
  if (t' =? t)%nat && (c' =? c)%nat then 0 else st_conn s t' c' k.
Proof.
  intros. unfold sumstats, all_kinds. cbn [fold_left st_conn]. unfold put3.
  destruct ((t' =? t)%nat && (c' =? c)%nat); destruct k; reflexivity.
Qed.
Lemma sum_thr : forall s t c t' k, st_thr (sumstats s t c) t' k =
  if (t' =? t)%nat then u64 (st_thr s t k + st_conn s t c k) else st_thr s t' k.
Proof.
  intros. unfold sumstats, all_kinds. cbn [fold_left st_conn st_thr]. unfold put3, put2.
  rewrite !Nat.eqb_refl. destruct (t' =? t)%nat; destruct k; cbn; rewrite ?andb_false_r; reflexivity.
Qed.
Lemma sum_rest : forall s t c, st_glob (sumstats s t c) = st_glob s /\ st_pc (sumstats s t c) = st_pc s.
Proof. intros. split; reflexivity. Qed.

Lemma setpc_same : forall f t p, setpc f t p t = p.
Proof. intros. unfold setpc. rewrite Nat.eqb_refl. reflexivity. Qed.
Lemma setpc_other : forall f t p t', t' <> t -> setpc f t p t' = f t'.
Proof. intros f t p t' H. unfold setpc. apply Nat.eqb_neq in H. rewrite H. reflexivity. Qed.

Lemma step_inv : forall s tr t s' e, inv s tr -> step s t = (s', e) -> inv s' (tr ++ e).
Proof.
  intros s tr t s' e [G A] H. pose proof (A t) as At. unfold at_ok in At.
  unfold step in H. cbv zeta in H. destruct (st_pc s t) as [[|k ks] rest|[|[c acts] q] rest|c [|[k|k] acts] q rest] eqn:P.
  - destruct rest as [|q rest]; injection H as <- <-; rewrite app_nil_r; [split; assumption|].
    destruct At as (H1 & H2 & H3 & H4 & H5). inversion H1; subst. split; [exact G|]. intro t'.
    destruct (Nat.eq_dec t' t) as [->|Ne].
    + unfold at_ok. cbn [st_pc st_conn st_thr]. rewrite setpc_same. repeat split; try assumption.
      intro k. rewrite H4. symmetry. apply H5. intros [].
    + eapply at_ok_other; [| | | | |apply A]; intros; try reflexivity. apply setpc_other. assumption.
  - injection H as <- <-. destruct At as (H1 & H2 & H3 & H4 & H5). split.
    + intro k'. cbn [st_glob]. unfold put1. rewrite settled_snoc.
      destruct (kind_dec k' k) as [->|Ne].
      * rewrite kind_eqb_refl, G, H3, u64_add_l, u64_add_r. reflexivity.
      * rewrite (kind_neq _ _ Ne), (kind_neq k k' (not_eq_sym Ne)), N.add_0_r. apply G.
    + intro t'. destruct (Nat.eq_dec t' t) as [->|Ne].
      * unfold at_ok. cbn [st_pc st_conn st_thr]. rewrite setpc_same.
        assert (Pd : forall k', pend t k' (tr ++ [EFlush t k]) = if kind_eqb k' k then 0 else pend t k' tr).
        { intro k'. unfold pend. rewrite open_snoc. cbn [is_flush is_own one]. rewrite Nat.eqb_refl. cbn [andb].
          destruct (kind_dec k' k) as [->|Ne]; [rewrite kind_eqb_refl; reflexivity|].
          rewrite (kind_neq _ _ Ne), (kind_neq k k' (not_eq_sym Ne)). lia. }
        split; [assumption|]. split; [assumption|]. split; [|split].
        -- intro k'. rewrite Pd. unfold put2. rewrite Nat.eqb_refl. cbn [andb].
           destruct (kind_eqb k' k); [reflexivity|apply H3].
        -- intro k'. unfold recent. rewrite open_snoc. cbn [is_round is_own one]. fold (recent t k' tr). rewrite H4. reflexivity.
        -- intros k' Nin. rewrite Pd. destruct (kind_dec k' k) as [->|Nk]; [rewrite kind_eqb_refl; reflexivity|].
           rewrite (kind_neq _ _ Nk). apply H5. intros [X|X]; [congruence|contradiction].
      * eapply at_ok_other; [| | | | |apply A].
        -- cbn [st_pc]. apply setpc_other. assumption.
        -- intro k'. cbn [st_thr]. unfold put2. apply Nat.eqb_neq in Ne. rewrite Ne. reflexivity.
        -- reflexivity.
        -- intro k'. apply (pend_other t' t); [assumption|reflexivity].
        -- intro k'. apply (pend_other t' t); [assumption|reflexivity].
  - injection H as <- <-. destruct At as (H0 & H1 & H2 & H3 & H4). split.
    + intro k. rewrite settled_snoc, N.add_0_r. apply G.
    + intro t'. destruct (Nat.eq_dec t' t) as [->|Ne].
      * unfold at_ok. cbn [st_pc st_conn st_thr]. rewrite setpc_same.
        assert (Pd : forall k', pend t k' (tr ++ [ERound t]) = pend t k' tr).
        { intro k'. unfold pend. rewrite open_snoc. cbn [is_flush is_own one]. lia. }
        split; [assumption|]. split; [assumption|]. split; [|split].
        -- intro k. rewrite Pd. apply H3.
        -- intro k. unfold recent. rewrite open_snoc. cbn [is_round is_own one]. rewrite Nat.eqb_refl. reflexivity.
        -- intros k Nin. exfalso. apply Nin. destruct k; cbn; auto.
      * eapply at_ok_other; [| | | | |apply A].
        -- cbn [st_pc]. apply setpc_other. assumption.
        -- reflexivity.
        -- reflexivity.
        -- intro k'. apply (pend_other t' t); [assumption|reflexivity].
        -- intro k'. apply (pend_other t' t); [assumption|reflexivity].
  - injection H as <- <-. rewrite app_nil_r. destruct At as (H0 & H1 & H2 & H3 & H4). inversion H0; subst. split; [exact G|].
    intro t'. destruct (Nat.eq_dec t' t) as [->|Ne].
    + unfold at_ok. cbn [st_pc st_conn st_thr]. rewrite setpc_same.
      split; [assumption|]. split; [assumption|]. split; [intros; apply H2|]. split; [|split].
      * intro k. rewrite H2. match goal with X : few_call _ |- _ => specialize (X k); cbn [snd] in X end. lia.
      * intro k. rewrite H2, N.sub_0_r. split; [lia|apply H3].
      * assumption.
    + eapply at_ok_other; [| | | | |apply A]; intros; try reflexivity. apply setpc_other. assumption.
  - pose proof (sum_conn s t c) as Sc. pose proof (sum_thr s t c) as Sh. destruct (sum_rest s t c) as [Sg Sp].
    set (s9 := sumstats s t c) in *. clearbody s9.
    injection H as <- <-. rewrite app_nil_r. destruct At as (H0 & H1 & H2 & H3 & H4 & H5).
    split; [cbn [st_glob]; rewrite Sg; exact G|].
    intro t'. destruct (Nat.eq_dec t' t) as [->|Ne].
    + unfold at_ok. cbn [st_pc]. rewrite setpc_same.
      split; [assumption|]. split; [assumption|]. cbn [st_conn st_thr]. split; [|split].
      * intros c' k. rewrite Sc, Nat.eqb_refl. cbn [andb].
        destruct (Nat.eqb_spec c' c); [reflexivity|]. apply H2. assumption.
      * intro k. rewrite Sh, Nat.eqb_refl. destruct (H4 k) as [L ->]. rewrite u64_add_l. f_equal. lia.
      * assumption.
    + eapply at_ok_other; [| | | | |apply A].
      * cbn [st_pc]. rewrite setpc_other by assumption. rewrite Sp. reflexivity.
      * intro k. cbn [st_thr]. rewrite Sh. apply Nat.eqb_neq in Ne. rewrite Ne. reflexivity.
      * intros c' k. cbn [st_conn]. rewrite Sc. apply Nat.eqb_neq in Ne. rewrite Ne. reflexivity.
      * reflexivity.
      * reflexivity.
  - injection H as <- <-. destruct At as (H0 & H1 & H2 & H3 & H4 & H5). split.
    + intro k'. rewrite settled_snoc, N.add_0_r. apply G.
    + intro t'. destruct (Nat.eq_dec t' t) as [->|Ne].
      * unfold at_ok. cbn [st_pc st_conn st_thr]. rewrite setpc_same.
        assert (Pd : forall k', pend t k' (tr ++ [EInc t k]) = pend t k' tr + one (kind_eqb k k')).
        { intro k'. unfold pend. rewrite open_snoc. cbn [is_flush is_own]. rewrite Nat.eqb_refl. reflexivity. }
        assert (Cn : forall k', put3 (st_conn s) t c k (u32 (st_conn s t c k + 1)) t c k' =
          st_conn s t c k' + one (kind_eqb k k')).
        { intro k'. unfold put3. rewrite !Nat.eqb_refl. cbn [andb].
          destruct (kind_dec k' k) as [->|Nk].
          - rewrite kind_eqb_refl. cbn [one]. unfold u32. apply N.mod_small.
            specialize (H3 k). unfold incs in H3. cbn [filter] in H3. rewrite kind_eqb_refl in H3. cbn [length] in H3.
            change (2 ^ 32) with 4294967296 in *. lia.
          - rewrite (kind_neq _ _ Nk), (kind_neq k k' (not_eq_sym Nk)). cbn [one]. lia. }
        split; [assumption|]. split; [assumption|]. split; [|split; [|split]].
        -- intros c' k' Nc. unfold put3. apply Nat.eqb_neq in Nc. rewrite Nc, andb_false_r. cbn [andb].
           apply H2. apply Nat.eqb_neq. assumption.
        -- intro k'. rewrite Cn. specialize (H3 k'). unfold incs in H3 |- *. cbn [filter] in H3.
           destruct (kind_eqb k k'); cbn [length one] in *; lia.
        -- intro k'. rewrite Cn, Pd. destruct (H4 k') as [L ->]. split; [lia|]. f_equal. lia.
        -- intro k'. rewrite Pd. unfold recent. rewrite open_snoc. cbn [is_round is_own].
           rewrite Nat.eqb_refl. cbn [andb]. fold (recent t k' tr). rewrite H5. reflexivity.
      * eapply at_ok_other; [| | | | |apply A].
        -- cbn [st_pc]. apply setpc_other. assumption.
        -- reflexivity.
        -- intros c' k'. cbn [st_conn]. unfold put3. apply Nat.eqb_neq in Ne. rewrite Ne. reflexivity.
        -- intro k'. apply (pend_other t' t); [assumption|reflexivity].
        -- intro k'. apply (pend_other t' t); [assumption|reflexivity].
  - injection H as <- <-. destruct At as (H0 & H1 & H2 & H3 & H4 & H5). split.
    + intro k'. rewrite settled_snoc, N.add_0_r. apply G.
    + assert (Pd : forall t' k', pend t' k' (tr ++ [ERead t k (st_glob s k)]) = pend t' k' tr /\
        recent t' k' (tr ++ [ERead t k (st_glob s k)]) = recent t' k' tr).
      { intros t' k'. unfold pend, recent. rewrite !open_snoc. cbn [is_flush is_own is_round one]. lia. }
      intro t'. destruct (Nat.eq_dec t' t) as [->|Ne].
      * unfold at_ok. cbn [st_pc st_conn st_thr]. rewrite setpc_same.
        split; [assumption|]. split; [assumption|]. split; [assumption|]. split; [exact H3|]. split.
        -- intro k'. rewrite (proj1 (Pd t k')). apply H4.
        -- intro k'. rewrite (proj1 (Pd t k')), (proj2 (Pd t k')). apply H5.
      * eapply at_ok_other; [| | | | |apply A].
        -- cbn [st_pc]. apply setpc_other. assumption.
        -- reflexivity.
        -- reflexivity.
        -- intro k'. apply Pd.
        -- intro k'. apply Pd.
Qed.

Lemma init_inv : forall work, (forall t, few (work t)) -> inv (init work) [].
Proof.
  intros work F. split; [reflexivity|]. intro t. unfold at_ok. cbn.
  split; [apply F|]. repeat split; reflexivity.
Qed.

Lemma run_inv : forall sched s tr s' e, inv s tr -> run s sched = (s', e) -> inv s' (tr ++ e).
Proof.
  induction sched as [|t r IH]; intros s tr s' e I H; cbn [run] in H.
  - injection H as <- <-. rewrite app_nil_r. assumption.
  - destruct (step s t) as [s1 e1] eqn:E1. destruct (run s1 r) as [s2 e2] eqn:E2. injection H as <- <-.
    rewrite app_assoc. eapply IH; [|exact E2]. eapply step_inv; eassumption.
Qed.

(** Every event of a run is made by a step from a state of it. *)
Lemma run_split : forall sched s s' e a x b, run s sched = (s', e) -> e = a ++ x :: b ->
  exists pre t post s1 s2, sched = pre ++ t :: post /\ run s pre = (s1, a) /\ step s1 t = (s2, [x]).
Proof.
  induction sched as [|t r IH]; intros s s' e a x b H Q; cbn [run] in H.
  - injection H as _ <-. destruct a; discriminate.
  - destruct (step s t) as [s1 e1] eqn:E1. destruct (run s1 r) as [s2 e2] eqn:E2. injection H as <- <-.
    assert (L : e1 = [] \/ exists y, e1 = [y]).
    { unfold step in E1. cbv zeta in E1.
      destruct (st_pc s t) as [[|k ks] [|q rest]|[|[c acts] q] rest|c [|[k|k] acts] q rest]; injection E1 as _ <-; eauto. }
    destruct L as [->|[y ->]].
    + cbn [app] in Q. destruct (IH _ _ _ _ _ _ E2 Q) as (pre & t1 & post & sa & sb & -> & Ra & Sa).
      exists (t :: pre), t1, post, sa, sb. split; [reflexivity|]. split; [|exact Sa]. cbn [run]. rewrite E1, Ra. reflexivity.
    + destruct a as [|a0 a]; cbn [app] in Q; injection Q as -> Q.
      * exists [], t, r, s, s1. auto.
      * destruct (IH _ _ _ _ _ _ E2 Q) as (pre & t1 & post & sa & sb & -> & Ra & Sa).
        exists (t :: pre), t1, post, sa, sb. split; [reflexivity|]. split; [|exact Sa]. cbn [run]. rewrite E1, Ra. reflexivity.
Qed.

Lemma read_step : forall s t s' t' k v, step s t = (s', [ERead t' k v]) ->
  t' = t /\ v = st_glob s k /\ exists c acts q rest, st_pc s t = AtData c acts q rest.
Proof.
  intros s t s' t' k v H. unfold step in H. cbv zeta in H.
  destruct (st_pc s t) as [[|k0 ks] [|q rest]|[|[c acts] q] rest|c [|[k0|k0] acts] q rest]; try discriminate.
  injection H as _ <- <- <-. eauto 8.
Qed.
