From Verif Require Import Base Map Refcount ConcProofs.
Local Open Scope Z_scope.

Definition of_entry (e : nat) (p : owner * nat) : bool := (snd p =? e)%nat.
Definition pending (c : rst) (e : nat) : nat :=
  length (filter (fun p : nat * nat => (snd p =? e)%nat) (r_pend c)).

(** The state of an entry that exists. *)
Definition cell_ok (k p : nat) (x : cell) : Prop :=
  c_rc x = Z.of_nat k /\
  if c_live x then ((0 < k)%nat /\ p = 0%nat) \/ (k = 0%nat /\ p = 1%nat)
  else k = 0%nat /\ p = 0%nat.

Record rinv (c : rst) : Prop := {
  ri_cells : forall e x, nth_error (r_cells c) e = Some x -> cell_ok (references c e) (pending c e) x;
  ri_refs : forall o e, In (o, e) (r_refs c) -> (e < length (r_cells c))%nat;
  ri_pend : forall t e, In (t, e) (r_pend c) -> (e < length (r_cells c))%nat;
  ri_borrow : forall t s e, In (t, s, e) (r_borrow c) ->
    nth_error (r_locks c) s = Some (Some t) /\ In (InMap s, e) (r_refs c) }.

Lemma owner_eqb_eq : forall a b, owner_eqb a b = true <-> a = b.
Proof.
  intros [s|t] [s'|t']; cbn; split; intros H; try discriminate; try inversion H; subst;
    try (apply Nat.eqb_eq in H; congruence); apply Nat.eqb_refl.
Qed.
Lemma ref_eqb_eq : forall a b, ref_eqb a b = true <-> a = b.
Proof.
  intros [o e] [o' e']. unfold ref_eqb. cbn [fst snd]. rewrite andb_true_iff, owner_eqb_eq, Nat.eqb_eq.
  split; [intros [-> ->]; reflexivity|intros H; inversion H; auto].
Qed.
Lemma pair_eqb_eq : forall a b, pair_eqb a b = true <-> a = b.
Proof.
  intros [o e] [o' e']. unfold pair_eqb. cbn [fst snd]. rewrite andb_true_iff, !Nat.eqb_eq.
  split; [intros [-> ->]; reflexivity|intros H; inversion H; auto].
Qed.

Section RemoveOne.
Variables (A : Type) (eqb : A -> A -> bool).
Hypothesis eqb_eq : forall a b, eqb a b = true <-> a = b.
Lemma remove_count : forall p x l, In x l ->
  length (filter p l) = (length (filter p (remove_one eqb x l)) + if p x then 1 else 0)%nat.
Proof.
  intros p x. induction l as [|y l IH]; intros I; [destruct I|]. cbn [remove_one].
  destruct (eqb x y) eqn:E.
  - apply eqb_eq in E. subst y. cbn [filter]. destruct (p x); cbn [length]; lia.
  - destruct I as [->|I]; [pose proof (proj2 (eqb_eq x x) eq_refl); congruence|].
    specialize (IH I). cbn [filter]. destruct (p y); cbn [length]; lia.
Qed.
Lemma remove_in : forall x y l, In y (remove_one eqb x l) -> In y l.
Proof.
  intros x y. induction l as [|z l IH]; cbn; [tauto|]. destruct (eqb x z); cbn; tauto.
Qed.
Lemma remove_other : forall x y l, In y l -> y <> x -> In y (remove_one eqb x l).
Proof.
  intros x y. induction l as [|z l IH]; cbn; [tauto|]. intros [->|I] D.
  - destruct (eqb x y) eqn:E; [apply eqb_eq in E; congruence|left; reflexivity].
  - destruct (eqb x z); [exact I|right; auto].
Qed.
End RemoveOne.

Lemma references_pos : forall c o e, In (o, e) (r_refs c) -> (0 < references c e)%nat.
Proof.
  intros c o e I. unfold references. assert (In (o, e) (filter (fun p => (snd p =? e)%nat) (r_refs c))) as H.
  { apply filter_In. split; [exact I|apply Nat.eqb_refl]. }
  destruct (filter _ _); [destruct H|cbn; lia].
Qed.
Lemma pending_pos : forall c t e, In (t, e) (r_pend c) -> (0 < pending c e)%nat.
Proof.
  intros c o e I. unfold pending. assert (In (o, e) (filter (fun p => (snd p =? e)%nat) (r_pend c))) as H.
  { apply filter_In. split; [exact I|apply Nat.eqb_refl]. }
  destruct (filter _ _); [destruct H|cbn; lia].
Qed.

Lemma int32_id : forall x, -2147483648 <= x <= 2147483647 -> int32 x = x.
Proof. intros x B. unfold int32. rewrite Z.mod_small by lia. lia. Qed.

(** Someone who has a reference finds the entry allocated. *)
Lemma ref_live : forall c, rinv c -> forall o e, In (o, e) (r_refs c) ->
  exists x, nth_error (r_cells c) e = Some x /\ c_live x = true /\ c_rc x = Z.of_nat (references c e) /\
    pending c e = 0%nat.
Proof.
  intros c I o e R. pose proof (ri_refs c I o e R) as L. apply nth_error_Some in L.
  destruct (nth_error (r_cells c) e) as [x|] eqn:N; [|congruence]. exists x.
  pose proof (references_pos _ _ _ R) as P. destruct (ri_cells c I e x N) as [RC Q].
  destruct (c_live x); [destruct Q as [[_ Q]|[Q _]]; [auto|lia]|lia].
Qed.

(** A cell changes, the number of references and of threads about to free it
    changes with it, and nothing else. *)
Lemma step_cell : forall c c' e x x',
  rinv c -> nth_error (r_cells c) e = Some x ->
  r_cells c' = upd (r_cells c) e x' -> r_locks c' = r_locks c -> r_borrow c' = r_borrow c ->
  cell_ok (references c' e) (pending c' e) x' ->
  (forall e', e' <> e -> references c' e' = references c e' /\ pending c' e' = pending c e') ->
  (forall o e', In (o, e') (r_refs c') -> e' = e \/ In (o, e') (r_refs c)) ->
  (forall t e', In (t, e') (r_pend c') -> e' = e \/ In (t, e') (r_pend c)) ->
  (forall s e', In (InMap s, e') (r_refs c) -> In (InMap s, e') (r_refs c')) ->
  rinv c'.
Proof.
  intros c c' e x x' I N EC EL EB CK OT IR IP IM.
  assert (LT : (e < length (r_cells c))%nat) by (apply nth_error_Some; congruence).
  split.
  - intros e0 y Y. rewrite EC in Y. rewrite nth_error_update in Y.
    destruct (e =? e0)%nat eqn:E.
    + apply Nat.eqb_eq in E. subst e0. rewrite N in Y. inversion Y; subst. exact CK.
    + apply Nat.eqb_neq in E. destruct (OT e0) as [-> ->]; [congruence|]. apply (ri_cells c I e0 y Y).
  - intros o e0 H. rewrite EC, update_length. destruct (IR _ _ H) as [->|H']; [exact LT|exact (ri_refs c I _ _ H')].
  - intros t e0 H. rewrite EC, update_length. destruct (IP _ _ H) as [->|H']; [exact LT|exact (ri_pend c I _ _ H')].
  - intros t s e0 H. rewrite EB in H. rewrite EL. destruct (ri_borrow c I _ _ _ H) as [B1 B2]. auto.
Qed.

Definition datas (c : rst) : list (list byte) := List.map c_data (r_cells c).
(** How often the entry has been freed. *)
Definition dead (c : rst) (e : nat) : nat :=
  match nth_error (r_cells c) e with Some x => if c_live x then 0 else 1 | None => 0 end.

Record good_step (a : ract) (c c1 : rst) (ev : list revent) : Prop := {
  gs_inv : (forall e, Z.of_nat (references c1 e) <= 2147483647) -> rinv c1;
  gs_data : datas c1 = datas c ++ created [a];
  gs_read : forall e d, In (RRead e d) ev -> nth_error (datas c) e = Some d;
  gs_free : forall e, (dead c1 e = dead c e + frees ev e)%nat }.

Lemma upd_map : forall A B (f : A -> B) l i x y, nth_error l i = Some y -> f x = f y ->
  List.map f (upd l i x) = List.map f l.
Proof.
  intros A B f. induction l as [|z l IH]; intros [|i] x y N E; cbn in *; try discriminate; [congruence|].
  f_equal. eapply IH; eassumption.
Qed.

Lemma count_cons : forall A (p : A -> bool) x l,
  length (filter p (x :: l)) = ((if p x then 1 else 0) + length (filter p l))%nat.
Proof. intros. cbn. destruct (p x); reflexivity. Qed.

(** References move; the cells stay. *)
Lemma step_move_ref : forall a c c1 o o' e,
  rinv c -> In (o, e) (r_refs c) -> r_cells c1 = r_cells c -> r_locks c1 = r_locks c -> r_pend c1 = r_pend c ->
  r_refs c1 = (o', e) :: remove_one ref_eqb (o, e) (r_refs c) ->
  (forall t s e', In (t, s, e') (r_borrow c1) -> In (t, s, e') (r_borrow c) /\ (InMap s, e') <> (o, e)) ->
  created [a] = [] -> good_step a c c1 [].
Proof.
  intros a c c1 o o' e I R EC EL EP ER EB CA.
  assert (RF : forall e', references c1 e' = references c e').
  { intros e'. unfold references. rewrite ER, count_cons.
    rewrite (remove_count _ _ ref_eqb_eq _ _ _ R). cbn [snd]. lia. }
  split.
  - intros _. split.
    + intros e0 x N. rewrite EC in N. rewrite RF. unfold pending. rewrite EP. apply (ri_cells c I e0 x N).
    + intros o0 e0 H. rewrite EC. rewrite ER in H. destruct H as [H|H].
      * inversion H; subst. apply (ri_refs c I o e0 R).
      * apply remove_in in H. apply (ri_refs c I _ _ H).
    + intros t e0 H. rewrite EC. rewrite EP in H. apply (ri_pend c I _ _ H).
    + intros t s e0 H. destruct (EB _ _ _ H) as [H' D]. destruct (ri_borrow c I _ _ _ H') as [B1 B2].
      rewrite EL, ER. split; [exact B1|]. right. apply remove_other; [exact ref_eqb_eq|exact B2|exact D].
  - unfold datas. rewrite EC, CA, app_nil_r. reflexivity.
  - intros ? ? [].
  - intros e0. unfold dead. rewrite EC. cbn. lia.
Qed.

Lemma dead_same : forall c c1 e x x', nth_error (r_cells c) e = Some x -> r_cells c1 = upd (r_cells c) e x' ->
  c_live x' = c_live x -> forall e', dead c1 e' = dead c e'.
Proof.
  intros c c1 e x x' N EC L e'. unfold dead. rewrite EC, nth_error_update.
  destruct (e =? e')%nat eqn:E; [|reflexivity]. apply Nat.eqb_eq in E. subst e'. rewrite N, L. reflexivity.
Qed.

Lemma step_retain : forall a c t e, rinv c -> (exists o, In (o, e) (r_refs c)) -> created [a] = [] ->
  (a = ARetain t e \/ exists s, a = AClone t s e) ->
  exists c1 ev, rstep a c = Some (c1, ev) /\ good_step a c c1 ev.
Proof.
  intros a c t e I [o R] CA W. destruct (ref_live c I o e R) as (x & N & L & RC & P).
  assert (EA : rstep a c = with_cell c e (fun x =>
        (set_refs (set_cell c e (mkCell (int32 (c_rc x + 1)) (c_data x) (c_live x)))
           ((Of t, e) :: r_refs c), []))) by (destruct W as [->|[s ->]]; reflexivity).
  rewrite EA. unfold with_cell. rewrite N, L. eexists _, _. split; [reflexivity|].
  set (c1 := set_refs _ _).
  assert (RF : forall e', references c1 e' = ((if (e =? e')%nat then 1 else 0) + references c e')%nat).
  { intros e'. unfold references at 1, c1. cbn [r_refs set_refs]. rewrite count_cons. reflexivity. }
  split.
  - intros M. specialize (M e). rewrite RF, Nat.eqb_refl in M. pose proof (references_pos _ _ _ R) as Q.
    eapply step_cell with (e := e) (x := x); [exact I|exact N|reflexivity|reflexivity|reflexivity| | | | |].
    + rewrite RF, Nat.eqb_refl. split; cbn [c_rc c_live].
      * rewrite int32_id by lia. lia.
      * left. split; [lia|exact P].
    + intros e' D. rewrite RF. destruct (e =? e')%nat eqn:E; [apply Nat.eqb_eq in E; congruence|]. auto.
    + cbn. intros o' e' [H|H]; [inversion H; auto|auto].
    + cbn. auto.
    + cbn. auto.
  - rewrite CA, app_nil_r. unfold datas. cbn. eapply upd_map; [exact N|reflexivity].
  - intros ? ? [].
  - intros e'. rewrite (dead_same c c1 e x (mkCell (int32 (c_rc x + 1)) (c_data x) true) N); [cbn; lia|reflexivity|].
    symmetry; exact L.
Qed.

Lemma same_good : forall a c ev, rinv c -> created [a] = [] -> (forall e, frees ev e = 0%nat) ->
  (forall e d, In (RRead e d) ev -> nth_error (datas c) e = Some d) -> good_step a c c ev.
Proof.
  intros a c ev I CA F RD. split; [auto|rewrite CA, app_nil_r; reflexivity|exact RD|intros e; rewrite F; lia].
Qed.

Lemma step_look : forall a c e, rinv c -> (exists o, In (o, e) (r_refs c)) -> created [a] = [] ->
  rstep a c = with_cell c e (fun x => (c, [RRead e (c_data x)])) ->
  exists c1 ev, rstep a c = Some (c1, ev) /\ good_step a c c1 ev.
Proof.
  intros a c e I [o R] CA EA. destruct (ref_live c I o e R) as (x & N & L & RC & P).
  rewrite EA. unfold with_cell. rewrite N, L. eexists _, _. split; [reflexivity|].
  apply same_good; [exact I|exact CA|reflexivity|].
  intros e0 d [H|[]]. inversion H; subst. unfold datas. rewrite nth_error_map, N. reflexivity.
Qed.

Lemma step_good : forall a c, rinv c -> allowed a c ->
  exists c1 ev, rstep a c = Some (c1, ev) /\ good_step a c c1 ev.
Proof.
  intros a c I AL. destruct a as [t s|t s|t d|t s e|t s e|t s e|t s e|t s e|t e|t t' e|t e|t e|t e]; cbn [allowed] in AL.
  - (* lock *)
    eexists _, _. split; [reflexivity|]. split.
    + intros _. destruct I as [I1 I2 I3 I4]. split; cbn; try assumption.
      intros t0 s0 e0 H. destruct (I4 _ _ _ H) as [B1 B2]. split; [|exact B2]. rewrite nth_error_update.
      destruct (s =? s0)%nat eqn:E; [|exact B1]. apply Nat.eqb_eq in E. subst s0. congruence.
    + cbn. rewrite app_nil_r. reflexivity.
    + intros ? ? [].
    + intros e. unfold dead. cbn. lia.
  - (* unlock *)
    eexists _, _. split; [reflexivity|]. split.
    + intros _. destruct I as [I1 I2 I3 I4]. split; cbn; try assumption.
      intros t0 s0 e0 H. apply filter_In in H. destruct H as [H L]. destruct (I4 _ _ _ H) as [B1 B2].
      split; [|exact B2]. rewrite nth_error_update. destruct (s =? s0)%nat eqn:E; [|exact B1].
      apply Nat.eqb_eq in E. subst s0. assert (t0 = t) by congruence. subst. cbn in L.
      rewrite !Nat.eqb_refl in L. discriminate L.
    + cbn. rewrite app_nil_r. reflexivity.
    + intros ? ? [].
    + intros e. unfold dead. cbn. lia.
  - (* new *)
    eexists _, _. split; [reflexivity|]. split.
    + intros _. split; cbn [r_cells r_refs r_pend r_borrow r_locks In].
      * intros e x N. unfold references, pending. cbn [r_refs r_pend]. rewrite count_cons. cbn [snd].
        destruct (Nat.lt_trichotomy e (length (r_cells c))) as [LT|[->|GT]].
        -- rewrite nth_error_app1 in N by lia. destruct (length (r_cells c) =? e)%nat eqn:E; [apply Nat.eqb_eq in E; lia|].
           apply (ri_cells c I e x N).
        -- rewrite nth_error_app2, Nat.sub_diag in N by lia. inversion N; subst. rewrite Nat.eqb_refl.
           assert (Z1 : length (filter (fun p : owner * nat => (snd p =? length (r_cells c))%nat) (r_refs c)) = 0%nat).
           { destruct (filter _ (r_refs c)) as [|[o e] l] eqn:F; [reflexivity|]. exfalso.
             assert (In (o, e) (filter (fun p : owner * nat => (snd p =? length (r_cells c))%nat) (r_refs c))) as H
               by (rewrite F; left; reflexivity). apply filter_In in H. cbn in H. destruct H as [H E].
             apply (ri_refs c I) in H. apply Nat.eqb_eq in E. lia. }
           assert (Z2 : length (filter (fun p : nat * nat => (snd p =? length (r_cells c))%nat) (r_pend c)) = 0%nat).
           { destruct (filter _ (r_pend c)) as [|[o e] l] eqn:F; [reflexivity|]. exfalso.
             assert (In (o, e) (filter (fun p : nat * nat => (snd p =? length (r_cells c))%nat) (r_pend c))) as H
               by (rewrite F; left; reflexivity). apply filter_In in H. cbn in H. destruct H as [H E].
             apply (ri_pend c I) in H. apply Nat.eqb_eq in E. lia. }
           rewrite Z1, Z2. split; cbn; [reflexivity|]. left. lia.
        -- assert (nth_error (r_cells c ++ [mkCell 1 d true]) e = None) as X; [|congruence].
           apply nth_error_None. rewrite app_length. cbn. lia.
      * intros o e [H|H]; rewrite app_length; cbn; [inversion H; lia|apply (ri_refs c I) in H; lia].
      * intros o e H; rewrite app_length; cbn. apply (ri_pend c I) in H; lia.
      * intros t0 s0 e0 H. destruct (ri_borrow c I _ _ _ H) as [B1 B2]. auto.
    + unfold datas. cbn. rewrite map_app. reflexivity.
    + intros ? ? [].
    + intros e. unfold dead. cbn. rewrite Nat.add_0_r.
      destruct (Nat.lt_trichotomy e (length (r_cells c))) as [LT|[->|GT]].
      * rewrite nth_error_app1 by lia. reflexivity.
      * rewrite nth_error_app2, Nat.sub_diag by lia. cbn.
        assert (nth_error (r_cells c) (length (r_cells c)) = None) as -> by (apply nth_error_None; lia). reflexivity.
      * assert (nth_error (r_cells c ++ [mkCell 1 d true]) e = None) as -> by (apply nth_error_None; rewrite app_length; cbn; lia).
        assert (nth_error (r_cells c) e = None) as -> by (apply nth_error_None; lia). reflexivity.
  - (* insert *)
    destruct AL as [LK R]. eexists _, _. split; [reflexivity|].
    eapply step_move_ref with (o := Of t) (o' := InMap s) (e := e); try reflexivity; [exact I|exact R|].
    cbn. intros t0 s0 e0 H. split; [exact H|discriminate].
  - (* take *)
    destruct AL as [LK R]. eexists _, _. split; [reflexivity|].
    eapply step_move_ref with (o := InMap s) (o' := Of t) (e := e); try reflexivity; [exact I|exact R|].
    cbn. intros t0 s0 e0 H. apply filter_In in H. destruct H as [H L]. split; [exact H|].
    intros E. inversion E; subst. destruct (ri_borrow c I _ _ _ H) as [B1 _]. assert (t0 = t) by congruence. subst.
    cbn in L. rewrite !Nat.eqb_refl in L. discriminate L.
  - (* borrow *)
    destruct AL as [LK R]. eexists _, _. split; [reflexivity|]. split.
    + intros _. destruct I as [I1 I2 I3 I4]. split; cbn; try assumption.
      intros t0 s0 e0 [H|H]; [inversion H; subst; auto|apply I4; exact H].
    + cbn. rewrite app_nil_r. reflexivity.
    + intros ? ? [].
    + intros e0. unfold dead. cbn. lia.
  - (* look in the table *)
    destruct AL as [LK R]. destruct (ri_borrow c I _ _ _ R) as [_ R'].
    apply step_look with (e := e); [exact I|eauto|reflexivity|reflexivity].
  - (* clone *)
    destruct AL as [LK R]. destruct (ri_borrow c I _ _ _ R) as [_ R'].
    apply step_retain with (t := t) (e := e); [exact I|eauto|reflexivity|eauto].
  - apply step_retain with (t := t) (e := e); [exact I|eauto|reflexivity|eauto].
  - (* give *)
    eexists _, _. split; [reflexivity|].
    eapply step_move_ref with (o := Of t) (o' := Of t') (e := e); try reflexivity; [exact I|exact AL|].
    cbn. intros t0 s0 e0 H. split; [exact H|discriminate].
  - apply step_look with (e := e); [exact I|eauto|reflexivity|reflexivity].
  - (* drop *)
    destruct (ref_live c I _ _ AL) as (x & N & L & RC & P). cbn [rstep]. unfold with_cell. rewrite N, L.
    pose proof (references_pos _ _ _ AL) as Q.
    set (c0 := set_refs _ _). eexists _, _. split; [reflexivity|].
    assert (RF : forall e', references c e' = (references c0 e' + if (e =? e')%nat then 1 else 0)%nat).
    { intros e'. unfold references, c0. cbn [r_refs set_refs].
      rewrite (remove_count _ _ ref_eqb_eq _ _ _ AL). reflexivity. }
    set (c1 := if 1 <? c_rc x then c0 else _).
    assert (RF1 : forall e', references c1 e' = references c0 e') by (intros e'; unfold c1; destruct (_ <? _); reflexivity).
    assert (CE : r_cells c1 = upd (r_cells c) e (mkCell (int32 (c_rc x - 1)) (c_data x) true))
      by (unfold c1; destruct (_ <? _); reflexivity).
    split.
    + intros M. specialize (M e). rewrite RF1 in M. specialize (RF e) as RFe. rewrite Nat.eqb_refl in RFe.
      eapply step_cell with (e := e) (x := x); [exact I|exact N|exact CE| | | | | | |].
      * unfold c1. destruct (_ <? _); reflexivity.
      * unfold c1. destruct (_ <? _); reflexivity.
      * rewrite RF1. split; cbn [c_rc c_live].
        -- rewrite int32_id by lia. lia.
        -- unfold c1. destruct (1 <? c_rc x) eqn:E.
           ++ apply Z.ltb_lt in E. left. split; [lia|]. exact P.
           ++ apply Z.ltb_ge in E. right. split; [lia|]. unfold pending. cbn [r_pend set_pend]. rewrite count_cons.
              cbn [snd]. rewrite Nat.eqb_refl. unfold pending in P. rewrite P. reflexivity.
      * intros e' D. rewrite RF1, RF. destruct (e =? e')%nat eqn:E; [apply Nat.eqb_eq in E; congruence|].
        split; [lia|]. unfold c1. destruct (_ <? _); [reflexivity|]. unfold pending. cbn [r_pend set_pend].
        rewrite count_cons. cbn [snd]. rewrite E. reflexivity.
      * intros o e' H. right. unfold c1 in H. destruct (_ <? _); cbn in H; eapply remove_in; exact H.
      * intros t0 e' H. unfold c1 in H. destruct (_ <? _); cbn in H; [auto|]. destruct H as [H|H]; [inversion H; auto|auto].
      * intros s e' H. assert (H' : In (InMap s, e') (remove_one ref_eqb (Of t, e) (r_refs c))).
        { apply remove_other; [exact ref_eqb_eq|exact H|discriminate]. }
        unfold c1. destruct (_ <? _); exact H'.
    + unfold datas. rewrite CE. cbn. rewrite app_nil_r. eapply upd_map; [exact N|reflexivity].
    + intros ? ? [].
    + intros e'. rewrite (dead_same c c1 e x _ N CE); [cbn; lia|symmetry; exact L].
  - (* free *)
    pose proof (pending_pos _ _ _ AL) as Q. pose proof (ri_pend c I _ _ AL) as LT.
    apply nth_error_Some in LT. destruct (nth_error (r_cells c) e) as [x|] eqn:N; [|congruence].
    destruct (ri_cells c I e x N) as [RC CK]. cbn [rstep]. unfold with_cell. rewrite N.
    destruct (c_live x) eqn:L; [|lia]. destruct CK as [CK|[K P]]; [lia|].
    eexists _, _. split; [reflexivity|]. set (c1 := set_pend _ _).
    assert (PF : forall e', pending c e' = (pending c1 e' + if (e =? e')%nat then 1 else 0)%nat).
    { intros e'. unfold pending, c1. cbn [r_pend set_pend].
      rewrite (remove_count _ _ pair_eqb_eq _ _ _ AL). reflexivity. }
    split.
    + intros M. eapply step_cell with (e := e) (x := x); [exact I|exact N|reflexivity|reflexivity|reflexivity| | | | |].
      * specialize (PF e). rewrite Nat.eqb_refl in PF. change (references c1 e) with (references c e). split; cbn [c_rc c_live].
        -- exact RC.
        -- lia.
      * intros e' D. specialize (PF e'). destruct (e =? e')%nat eqn:E; [apply Nat.eqb_eq in E; congruence|].
        split; [reflexivity|lia].
      * cbn. auto.
      * cbn. intros t0 e' H. right. eapply remove_in; exact H.
      * cbn. auto.
    + unfold datas. cbn. rewrite app_nil_r. eapply upd_map; [exact N|reflexivity].
    + intros ? ? [H|[]]. discriminate H.
    + intros e'. unfold dead, frees. cbn [r_cells c1 set_pend set_cell filter]. subst c1. cbn [r_cells set_pend set_cell].
      rewrite nth_error_update. destruct (e =? e')%nat eqn:E.
      * apply Nat.eqb_eq in E. subst e'. rewrite N, L. reflexivity.
      * cbn. lia.
Qed.

Lemma exec_good : forall l c, rinv c -> disciplined c l ->
  exists c1 evs, rexec c l = Some (c1, evs) /\ rinv c1 /\
    datas c1 = datas c ++ created l /\
    (forall e d, In (RRead e d) evs -> nth_error (datas c1) e = Some d) /\
    (forall e, (dead c1 e = dead c e + frees evs e)%nat).
Proof.
  induction l as [|a l IH]; intros c I D.
  - exists c, []. cbn. rewrite app_nil_r. split; [reflexivity|]. split; [exact I|]. split; [reflexivity|].
    split; [intros ? ? []|intros; lia].
  - cbn [disciplined] in D. destruct D as [AL D]. destruct (step_good a c I AL) as (c1 & ev & ST & GS).
    rewrite ST in D. destruct D as [M D]. destruct GS as [G1 G2 G3 G4]. specialize (G1 M).
    destruct (IH c1 G1 D) as (c2 & evs & EX & I2 & DT & RD & FR).
    exists c2, (ev ++ evs). cbn [rexec]. rewrite ST, EX. split; [reflexivity|]. split; [exact I2|].
    split; [|split].
    + rewrite DT, G2, <- app_assoc. f_equal. cbn. destruct a; reflexivity.
    + intros e d H. apply in_app_or in H. destruct H as [H|H]; [|auto].
      apply G3 in H. rewrite DT, G2. rewrite !nth_error_app1; [exact H| |].
      * apply nth_error_Some. congruence.
      * rewrite app_length. assert (e < length (datas c))%nat by (apply nth_error_Some; congruence). lia.
    + intros e. rewrite FR, G4. unfold frees. rewrite filter_app, app_length. lia.
Qed.

Lemma empty_inv : forall n, rinv (empty_state n).
Proof. intros n. split; cbn; try (intros; contradiction). intros [|e] x H; discriminate H. Qed.
