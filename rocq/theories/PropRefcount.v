(** Reference counts keep scanned entries alive (C26). *)
From Verif Require Import Base Map Refcount RefcountProofs.
Local Open Scope Z_scope.

(** Whatever the threads do, in any order, as long as they use only references
    they have and the tables only under the locks: no freed entry is touched;
    what is read through a pointer are the bytes the entry was created with;
    no entry is freed twice; an entry somebody has a reference to has not been
    freed; and an entry nobody refers to has been freed, or some thread is about
    to free it, and then only one. *)
Theorem C26_safe : forall n l, disciplined (empty_state n) l ->
  exists c evs, rexec (empty_state n) l = Some (c, evs) /\
    (forall e d, In (RRead e d) evs -> nth_error (created l) e = Some d) /\
    (forall e, (frees evs e <= 1)%nat) /\
    (forall o e, In (o, e) (r_refs c) -> frees evs e = 0%nat) /\
    (forall e, (e < length (created l))%nat -> (forall o, ~ In (o, e) (r_refs c)) ->
       (frees evs e = 1%nat /\ forall t, ~ In (t, e) (r_pend c)) \/
       (frees evs e = 0%nat /\ exists t, In (t, e) (r_pend c) /\ forall t', In (t', e) (r_pend c) -> t' = t)).
Proof.
  intros n l D. destruct (exec_good l _ (empty_inv n) D) as (c & evs & EX & I & DT & RD & FR).
  exists c, evs. split; [exact EX|]. change (datas (empty_state n)) with (@nil (list byte)) in DT. cbn [app] in DT.
  assert (FD : forall e, frees evs e = dead c e).
  { intros e. rewrite (FR e). unfold dead at 1. cbn. destruct e; reflexivity. }
  split; [intros e d H; rewrite <- DT; apply RD; exact H|].
  split; [intros e; rewrite FD; unfold dead; destruct (nth_error _ _) as [x|]; [destruct (c_live x)|]; lia|].
  split.
  - intros o e R. destruct (ref_live c I o e R) as (x & N & L & _). rewrite FD. unfold dead. rewrite N, L. reflexivity.
  - intros e LT NR. rewrite FD. rewrite <- DT in LT. unfold datas in LT. rewrite map_length in LT.
    apply nth_error_Some in LT. unfold dead. destruct (nth_error (r_cells c) e) as [x|] eqn:N; [|congruence].
    destruct (ri_cells c I e x N) as [_ CK].
    assert (R0 : references c e = 0%nat).
    { unfold references. destruct (filter _ (r_refs c)) as [|[o e0] r] eqn:F; [reflexivity|]. exfalso.
      assert (In (o, e0) (filter (fun p => (snd p =? e)%nat) (r_refs c))) as H by (rewrite F; left; reflexivity).
      apply filter_In in H. destruct H as [H E]. apply Nat.eqb_eq in E. cbn in E. subst. apply (NR o H). }
    destruct (c_live x).
    + destruct CK as [CK|[_ P]]; [lia|]. right. split; [reflexivity|].
      unfold pending in P. destruct (filter _ (r_pend c)) as [|[t e0] [|? ?]] eqn:F; try discriminate P.
      assert (In (t, e0) (filter (fun p : nat * nat => (snd p =? e)%nat) (r_pend c))) as H by (rewrite F; left; reflexivity).
      apply filter_In in H. destruct H as [H E]. apply Nat.eqb_eq in E. cbn in E. subst e0. exists t. split; [exact H|].
      intros t' H'. assert (In (t', e) (filter (fun p : nat * nat => (snd p =? e)%nat) (r_pend c))) as H2.
      { apply filter_In. split; [exact H'|apply Nat.eqb_refl]. }
      rewrite F in H2. destruct H2 as [H2|[]]. inversion H2. reflexivity.
    + left. split; [reflexivity|]. intros t H. apply pending_pos in H. lia.
Qed.

(** The thread that gives up the last reference is the one that frees. *)
Theorem C26_last : forall n l t e c evs,
  disciplined (empty_state n) (l ++ [ADrop t e]) ->
  rexec (empty_state n) (l ++ [ADrop t e]) = Some (c, evs) ->
  (forall o, ~ In (o, e) (r_refs c)) -> In (t, e) (r_pend c).
Proof.
  intros n l t e c evs D EX NR.
  assert (SP : forall l c0, disciplined c0 (l ++ [ADrop t e]) -> rinv c0 -> rexec c0 (l ++ [ADrop t e]) = Some (c, evs) ->
    exists c1, rinv c1 /\ In (Of t, e) (r_refs c1) /\ exists ev, rstep (ADrop t e) c1 = Some (c, ev)).
  { clear. intros l. revert evs. induction l as [|a l IH]; intros evs c0 D I EX; cbn [app disciplined rexec] in *.
    - destruct D as [AL _]. exists c0. split; [exact I|]. split; [exact AL|].
      destruct (rstep (ADrop t e) c0) as [[c1 ev]|] eqn:ST; [|discriminate EX]. inversion EX; subst. eauto.
    - destruct D as [AL D]. destruct (step_good a c0 I AL) as (c1 & ev & ST & [G1 _ _ _]). rewrite ST in *.
      destruct D as [M D]. destruct (rexec c1 _) as [[c2 ev2]|] eqn:EX2; [|discriminate EX]. inversion EX; subst.
      eapply IH; [exact D|exact (G1 M)|exact EX2]. }
  destruct (SP l _ D (empty_inv n) EX) as (c1 & I & R & ev & ST).
  destruct (ref_live c1 I _ _ R) as (x & N & L & RC & P). cbn [rstep] in ST. unfold with_cell in ST.
  rewrite N, L in ST. inversion ST as [[HC HE]]. clear ST.
  assert (RF : forall c2, r_refs c2 = remove_one ref_eqb (Of t, e) (r_refs c1) ->
    (forall o, ~ In (o, e) (r_refs c2)) -> references c1 e = 1%nat).
  { intros c2 E NR2. unfold references. rewrite (remove_count _ _ ref_eqb_eq _ _ _ R). cbn [snd]. rewrite Nat.eqb_refl.
    rewrite <- E. destruct (filter _ (r_refs c2)) as [|[o e0] r] eqn:F; [reflexivity|]. exfalso.
    assert (In (o, e0) (filter (fun p => (snd p =? e)%nat) (r_refs c2))) as H by (rewrite F; left; reflexivity).
    apply filter_In in H. destruct H as [H E0]. apply Nat.eqb_eq in E0. cbn in E0. subst. apply (NR2 o H). }
  destruct (1 <? c_rc x) eqn:E.
  - exfalso. assert (R1 : references c1 e = 1%nat).
    { apply (RF c); [rewrite <- HC; reflexivity|exact NR]. }
    apply Z.ltb_lt in E. lia.
  - rewrite <- HC in *. left. reflexivity.
Qed.

(** Thread 0 stores an entry in shard 1 of 2; thread 1 scans and gets a
    reference; thread 0 deletes the entry; thread 1 still reads it, and frees it
    when it releases it. *)
Definition scan_story : list ract :=
  [ALock 0 1; ANew 0 [7%N; 9%N]; AInsert 0 1 0; AUnlock 0 1;
   ALock 1 1; ABorrow 1 1 0; AClone 1 1 0; AUnlock 1 1;
   ALock 0 1; ATake 0 1 0; ADrop 0 0; AUnlock 0 1;
   ALook 1 0; ADrop 1 0; AFree 1 0].

Lemma few_references : forall c e, (length (r_refs c) <= 1000)%nat -> Z.of_nat (references c e) <= 2147483647.
Proof.
  intros c e H. unfold references. assert (length (filter (fun p => (snd p =? e)%nat) (r_refs c)) <= length (r_refs c))%nat.
  { clear H. induction (r_refs c) as [|y r IH]; [reflexivity|]. cbn. destruct (snd y =? e)%nat; cbn; lia. }
  lia.
Qed.

Ltac story := repeat first
  [ exact I
  | split; [cbn [allowed]; repeat split; cbn; auto; fail|]
  | match goal with |- match rstep ?a ?c with _ => _ end =>
      let r := eval vm_compute in (rstep a c) in change (rstep a c) with r; cbn iota beta end
  | split; [intros e; apply few_references; cbn; lia|]
  | progress cbn [disciplined] ].

Example C26_case :
  disciplined (empty_state 2) scan_story /\
  exists c, rexec (empty_state 2) scan_story = Some (c, [RRead 0 [7%N; 9%N]; RFreed 0]) /\
    r_refs c = [] /\ r_pend c = [].
Proof.
  split.
  - unfold scan_story. story.
  - eexists. split; [vm_compute; reflexivity|]. split; reflexivity.
Qed.

(** The scan must increment before it unlocks the shard: otherwise the entry can
    be deleted and freed in between. *)
Example C26_unlocked_refuted :
  rexec (empty_state 2)
    [ALock 0 1; ANew 0 [7%N]; AInsert 0 1 0; AUnlock 0 1;
     ALock 1 1; ABorrow 1 1 0; AUnlock 1 1;
     ALock 0 1; ATake 0 1 0; ADrop 0 0; AFree 0 0; AUnlock 0 1;
     AClone 1 1 0] = None.
Proof. vm_compute. reflexivity. Qed.

(** An entry released twice by the same holder. *)
Example C26_double_release_refuted :
  rexec (empty_state 1)
    [ALock 0 0; ANew 0 [7%N]; AInsert 0 0 0; ABorrow 0 0 0; AClone 0 0 0; AUnlock 0 0;
     ADrop 0 0; ADrop 0 0; AFree 0 0; ALock 1 0; ABorrow 1 0 0; ALookIn 1 0 0] = None.
Proof. vm_compute. reflexivity. Qed.

(** The bound on the number of references is needed: the counter wraps. Thread
    0 takes 2^31 more references and releases one; the entry is freed while it
    has 2^31 references left. *)
Lemma retain_many : forall k c x, nth_error (r_cells c) 0 = Some x -> c_live x = true ->
  exists c', rexec c (repeat (ARetain 0 0) k) = Some (c', []) /\
    (exists rc, (k = 0%nat -> rc = c_rc x) /\ (k <> 0%nat -> rc = int32 (c_rc x + Z.of_nat k)) /\
      nth_error (r_cells c') 0 = Some (mkCell rc (c_data x) true)) /\
    r_refs c' = repeat (Of 0, 0%nat) k ++ r_refs c.
Proof.
  induction k as [|k IH]; intros c x N L.
  - exists c. cbn [repeat rexec app]. split; [reflexivity|]. split; [|reflexivity]. exists (c_rc x). split; [reflexivity|]. split; [congruence|].
    rewrite N, <- L. destruct x; reflexivity.
  - cbn [repeat rexec rstep]. unfold with_cell. rewrite N, L.
    set (c1 := set_refs _ _).
    destruct (IH c1 (mkCell (int32 (c_rc x + 1)) (c_data x) true)) as (c' & EX & (rc & R0 & R1 & N') & RF).
    + unfold c1. cbn. destruct (r_cells c); [discriminate N|reflexivity].
    + reflexivity.
    + exists c'. rewrite EX. split; [reflexivity|]. split.
      * exists rc. split; [discriminate|]. split; [|exact N']. intros _. cbn [c_rc] in *. destruct k as [|k].
        -- rewrite (R0 eq_refl). f_equal.
        -- rewrite (R1 ltac:(discriminate)). unfold int32. f_equal.
           replace ((c_rc x + 1 + 2147483648) mod 4294967296 - 2147483648 + Z.of_nat (S k) + 2147483648)
             with ((c_rc x + 1 + 2147483648) mod 4294967296 + Z.of_nat (S k)) by lia.
           rewrite Z.add_mod_idemp_l by lia. f_equal. lia.
      * rewrite RF. unfold c1. cbn [r_refs set_refs].
        change ((Of 0, 0%nat) :: repeat (Of 0, 0%nat) k ++ r_refs c) with (((Of 0, 0%nat) :: repeat (Of 0, 0%nat) k) ++ r_refs c).
        rewrite (repeat_cons k). rewrite <- app_assoc. reflexivity.
Qed.

Theorem C26_overflow_refuted : exists l c evs,
  rexec (empty_state 1) l = Some (c, evs) /\
  In (RFreed 0) evs /\ Z.of_nat (references c 0) = 2147483648.
Proof.
  destruct (Z_of_nat_complete 2147483648) as [k KZ]; [lia|]. symmetry in KZ.
  destruct (retain_many k (mkRst [mkCell 1 [] true] [None] [(Of 0, 0%nat)] [] []) (mkCell 1 [] true) eq_refl eq_refl)
    as (c' & EX & (rc & R0 & R1 & N) & RF).
  assert (RC : rc = int32 (1 + 2147483648)) by (rewrite R1; [cbn [c_rc]; rewrite KZ; reflexivity|lia]).
  assert (RX : forall a b c c1 ev, rexec c a = Some (c1, ev) ->
    rexec c (a ++ b) = match rexec c1 b with None => None | Some (c2, evs) => Some (c2, ev ++ evs) end).
  { induction a as [|x a IH]; intros b c c1 ev H; cbn [app rexec] in *.
    - inversion H; subst. destruct (rexec c1 b) as [[? ?]|]; reflexivity.
    - destruct (rstep x c) as [[cx ex]|]; [|discriminate H]. destruct (rexec cx a) as [[cy ey]|] eqn:Y; [|discriminate H].
      inversion H; subst. rewrite (IH b _ _ _ Y). destruct (rexec c1 b) as [[? ?]|]; [|reflexivity].
      rewrite app_assoc. reflexivity. }
  exists ((ANew 0 [] :: repeat (ARetain 0 0) k) ++ [ADrop 0 0; AFree 0 0]).
  assert (E1 : rexec (empty_state 1) (ANew 0 [] :: repeat (ARetain 0 0) k) = Some (c', [])).
  { cbn [rexec rstep]. cbn [empty_state r_cells r_locks r_refs r_borrow r_pend app length].
    change (repeat None 1) with [@None nat]. rewrite EX. reflexivity. }
  rewrite (RX _ _ _ _ _ E1). cbn [rexec rstep]. unfold with_cell at 1. rewrite N. cbn [c_live c_rc c_data].
  assert (LE : (1 <? rc) = false) by (rewrite RC; reflexivity). rewrite LE.
  unfold with_cell. cbn [r_cells set_pend set_refs set_cell].
  destruct (r_cells c') as [|x0 cs]; [discriminate N|]. cbn [nth_error upd] in N |- *. cbn [c_live].
  eexists _, _. split; [reflexivity|]. split; [left; reflexivity|].
  unfold references. cbn [r_refs set_pend set_refs set_cell]. rewrite RF.
  destruct k as [|k]; [discriminate KZ|]. cbn [repeat app remove_one]. unfold ref_eqb at 1. cbn [fst snd owner_eqb Nat.eqb andb].
  assert (FL : forall m, length (filter (fun p : owner * nat => (snd p =? 0)%nat) (repeat (Of 0, 0%nat) m ++ [(Of 0, 0%nat)])) = S m).
  { induction m as [|m IH]; [reflexivity|]. cbn. rewrite IH. reflexivity. }
  rewrite FL. exact KZ.
Qed.
