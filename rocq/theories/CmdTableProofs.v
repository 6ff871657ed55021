From Verif Require Import Base Text IntText CmdTable.
Local Open Scope N_scope.

Lemma argeq_lower : forall s c, argeq s c = true <-> lower s = c.
Proof.
  induction s as [|b s IH]; intros [|x c]; cbn; split; intros H; try discriminate; try reflexivity.
  - apply andb_true_iff in H. destruct H as [H1 H2]. apply N.eqb_eq in H1. apply IH in H2. unfold lower in H2. subst. reflexivity.
  - inversion H; subst. rewrite N.eqb_refl. apply IH. reflexivity.
Qed.
Lemma tolower_idem : forall b, tolower (tolower b) = tolower b.
Proof.
  intros b. unfold tolower. destruct ((65 <=? b) && (b <=? 90)) eqn:E; [|rewrite E; reflexivity].
  apply andb_true_iff in E. destruct E as [E1 E2]. apply N.leb_le in E1. apply N.leb_le in E2.
  destruct ((65 <=? b + 32) && (b + 32 <=? 90)) eqn:F; [|reflexivity].
  apply andb_true_iff in F. destruct F as [_ F]. apply N.leb_le in F. lia.
Qed.
Lemma fnv_lower : forall s h, fnv1a_loop (lower s) h = fnv1a_loop s h.
Proof. induction s as [|b s IH]; intros h; cbn; [reflexivity|]. rewrite tolower_idem. apply IH. Qed.
Lemma lower_idem : forall s, lower (lower s) = lower s.
Proof. intros s. unfold lower. rewrite map_map. apply map_ext. intros. apply tolower_idem. Qed.
Lemma argeq_of_lower : forall s c, argeq s c = argeq (lower s) c.
Proof.
  intros s c. destruct (argeq s c) eqn:A; destruct (argeq (lower s) c) eqn:B; try reflexivity.
  - apply argeq_lower in A. assert (argeq (lower s) c = true) by (apply argeq_lower; rewrite lower_idem; exact A). congruence.
  - apply argeq_lower in B. rewrite lower_idem in B. assert (argeq s c = true) by (apply argeq_lower; exact B). congruence.
Qed.
Lemma get_loop_lower : forall t s, get_loop t s = get_loop t (lower s).
Proof. induction t as [|[i|] t IH]; intros s; cbn [get_loop]; [reflexivity| |reflexivity]. rewrite argeq_of_lower, IH. reflexivity. Qed.
Lemma get_cmd_lower : forall s, get_cmd s = get_cmd (lower s).
Proof. intros s. unfold get_cmd, fnv1a_case. rewrite fnv_lower. apply get_loop_lower. Qed.

(** Every bucket is followed by an empty one. *)
Definition has_end (t : list (option nat)) : bool := existsb (fun o => match o with None => true | _ => false end) t.
Definition table_v := Eval vm_compute in table.
Lemma table_eq : table = table_v.
Proof. vm_cast_no_check (eq_refl table_v). Qed.
Lemma table_ends : forallb (fun k => has_end (skipn k table_v)) (seq 0 512) = true.
Proof. vm_compute. reflexivity. Qed.
Lemma nbuckets_512 : nbuckets = 512%nat.
Proof. vm_compute. reflexivity. Qed.
Lemma get_loop_ends : forall t s, has_end t = true -> get_loop t s <> None.
Proof.
  induction t as [|[i|] t IH]; intros s H; cbn [get_loop has_end existsb orb] in *; try discriminate.
  destruct (argeq _ _); [discriminate|apply IH; exact H].
Qed.
Lemma start_lt : forall s, (N.to_nat (N.land (fnv1a_case s) (N.of_nat nbuckets - 1)) < 512)%nat.
Proof.
  intros s. rewrite nbuckets_512. change (N.of_nat 512 - 1) with (N.ones 9). rewrite N.land_ones.
  pose proof (N.mod_lt (fnv1a_case s) (2 ^ 9) ltac:(discriminate)). change (2 ^ 9) with 512 in *. lia.
Qed.
Lemma get_cmd_total : forall s, get_cmd s <> None.
Proof.
  intros s. unfold get_cmd. rewrite table_eq. apply get_loop_ends.
  pose proof (start_lt s) as L. pose proof table_ends as T. rewrite forallb_forall in T. apply T. apply in_seq. lia.
Qed.
Lemma get_loop_found : forall t s i, get_loop t s = Some (Some i) -> argeq s (nth i cmd_names []) = true.
Proof.
  induction t as [|[j|] t IH]; intros s i H; cbn [get_loop] in H; try discriminate.
  destruct (argeq s (nth j cmd_names [])) eqn:A; [inversion H; subst; exact A|eauto].
Qed.
Definition finds_all : bool :=
  forallb (fun i => match get_cmd (nth i cmd_names []) with Some (Some j) => (j =? i)%nat | _ => false end) (seq 0 40).
Lemma finds_all_true : finds_all = true.
Proof. vm_compute. reflexivity. Qed.
Lemma names_len : length cmd_names = 40%nat.
Proof. reflexivity. Qed.
Lemma table_range : forallb (fun o => match o with Some i => (i <? 40)%nat | None => true end) table_v = true.
Proof. vm_compute. reflexivity. Qed.
Lemma get_loop_in : forall t s i, get_loop t s = Some (Some i) -> In (Some i) t.
Proof.
  induction t as [|[j|] t IH]; intros s i H; cbn [get_loop] in H; try discriminate.
  destruct (argeq _ _); [inversion H; subst; left; reflexivity|right; eauto].
Qed.
Lemma in_skipn : forall A (x : A) n l, In x (skipn n l) -> In x l.
Proof. intros A x n l H. rewrite <- (firstn_skipn n l). apply in_or_app. right. exact H. Qed.

Lemma get_cmd_spec : forall s,
  (forall i, get_cmd s = Some (Some i) <-> nth_error cmd_names i = Some (lower s)) /\
  (get_cmd s = Some None <-> ~ In (lower s) cmd_names).
Proof.
  intros s.
  assert (F : forall i, get_cmd s = Some (Some i) <-> nth_error cmd_names i = Some (lower s)).
  { intros i. split; intros H.
    - pose proof H as H2. unfold get_cmd in H2. rewrite table_eq in H2.
      assert (I : (i < 40)%nat).
      { apply get_loop_in in H2. apply in_skipn in H2. pose proof table_range as T. rewrite forallb_forall in T.
        specialize (T _ H2). apply Nat.ltb_lt in T. exact T. }
      apply get_loop_found in H2. apply argeq_lower in H2. rewrite H2. apply nth_error_nth'. rewrite names_len. exact I.
    - assert (I : (i < 40)%nat) by (rewrite <- names_len; apply nth_error_Some; congruence).
      rewrite get_cmd_lower. rewrite <- (nth_error_nth _ _ [] H).
      pose proof finds_all_true as T. unfold finds_all in T. rewrite forallb_forall in T.
      specialize (T i ltac:(apply in_seq; lia)). destruct (get_cmd _) as [[j|]|]; try discriminate T.
      apply Nat.eqb_eq in T. subst. reflexivity. }
  split; [exact F|]. split.
  - intros H I. apply In_nth_error in I. destruct I as [i I]. apply F in I. congruence.
  - intros H. destruct (get_cmd s) as [[i|]|] eqn:E; [|reflexivity|exfalso; exact (get_cmd_total s E)].
    exfalso. apply H. specialize (proj1 (F i) eq_refl) as N. eapply nth_error_In; exact N.
Qed.

(** ** Ranges *)
Definition covered (l : list (nat * nat)) : list nat := concat (List.map (fun p => seq (fst p) (snd p)) l).

Lemma ranges_loop_cover : forall left i nprocs nshards start,
  (i + left = nprocs)%nat -> (0 < left)%nat -> (start = i * (nshards / nprocs))%nat ->
  covered (ranges_loop left i nprocs nshards start) = seq start (nshards - start).
Proof.
  induction left as [|left IH]; intros i nprocs nshards start E P S; [lia|].
  cbn [ranges_loop]. unfold covered. cbn [List.map concat fst snd].
  destruct (Nat.eqb_spec i (nprocs - 1)) as [L|L].
  - assert (left = 0)%nat by lia. subst left. cbn [ranges_loop List.map concat]. apply app_nil_r.
  - change (concat (List.map (fun p => seq (fst p) (snd p)) ?x)) with (covered x).
    rewrite IH; [|lia|lia|].
    + set (q := (nshards / nprocs)%nat) in *.
      assert (Q : (nprocs * q <= nshards)%nat) by (apply Nat.mul_div_le; lia). clearbody q.
      assert (B : (start + q <= nshards)%nat) by nia.
      replace (nshards - start)%nat with (q + (nshards - (start + q)))%nat by lia. rewrite seq_app. reflexivity.
    + subst start. lia.
Qed.
Lemma ranges_cover : forall procs nshards, (0 < procs)%nat -> (0 < nshards)%nat ->
  covered (ranges procs nshards) = seq 0 nshards.
Proof.
  intros procs nshards P S. unfold ranges. rewrite ranges_loop_cover; [rewrite Nat.sub_0_r; reflexivity|reflexivity| |reflexivity].
  destruct (nshards <? procs)%nat; lia.
Qed.
