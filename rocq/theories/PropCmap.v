(** C57: the table of connections. *)
From Verif Require Import Base Hash Cmap.
From Coq Require Import Lia Permutation.
Local Open Scope N_scope.
Notation length := List.length.

Section Proofs.
Variable V : Type.
Notation cmap := (cmap V).
Implicit Types m : cmap.
Definition entries m : list (N * V) := concat (cm_buckets m).
Record cinv m : Prop := {
  ci_size : (4 <= length (cm_buckets m))%nat;
  ci_fds : NoDup (map fst (entries m));
  ci_place : forall i c, In c (nth i (cm_buckets m) []) -> i = cm_index (fst c) (length (cm_buckets m));
  ci_len : N.of_nat (length (entries m)) <= cm_len m }.

Lemma set_length : forall (bs : list (list (N * V))) i b, length (set_bucket i b bs) = length bs.
Proof. induction bs as [|x bs IH]; intros [|i] b; cbn; try reflexivity. rewrite IH. reflexivity. Qed.
Lemma set_nth : forall (bs : list (list (N * V))) i j b, (i < length bs)%nat -> nth j (set_bucket i b bs) [] = if (j =? i)%nat then b else nth j bs [].
Proof.
  induction bs as [|x bs IH]; intros i j b H; [cbn in H; lia|]. destruct i as [|i], j as [|j]; cbn; try reflexivity. apply IH. cbn in H. lia.
Qed.
Lemma set_entries : forall (bs : list (list (N * V))) i b k, (i < length bs)%nat ->
  Permutation (k ++ nth i bs []) b -> Permutation (concat (set_bucket i b bs)) (k ++ concat bs).
Proof.
  induction bs as [|x bs IH]; intros i b k H P; [cbn in H; lia|]. destruct i as [|i]; cbn in *.
  - rewrite app_assoc. apply Permutation_app_tail. symmetry. exact P.
  - rewrite (IH i b k) by (lia || exact P). rewrite !app_assoc. apply Permutation_app_tail. apply Permutation_app_comm.
Qed.
Lemma index_lt : forall fd n, (0 < n)%nat -> (cm_index fd n < n)%nat.
Proof. intros fd n H. unfold cm_index. assert (X := N.mod_lt (mix13 fd mod 2 ^ 32) (N.of_nat n)). lia. Qed.
Lemma in_concat_nth : forall (bs : list (list (N * V))) i c, In c (nth i bs []) -> In c (concat bs).
Proof.
  induction bs as [|x bs IH]; intros [|i] c H; cbn in *; try contradiction; apply in_app_iff; [left; exact H|right; exact (IH i c H)].
Qed.
Lemma nth_in_concat : forall (bs : list (list (N * V))) c, In c (concat bs) -> exists i, (i < length bs)%nat /\ In c (nth i bs []).
Proof.
  induction bs as [|x bs IH]; intros c H; cbn in H; [contradiction|]. apply in_app_iff in H. destruct H as [H|H].
  - exists 0%nat. split; [cbn; lia|exact H].
  - destruct (IH c H) as (i & I1 & I2). exists (S i). split; [cbn; lia|exact I2].
Qed.
Lemma link_entries : forall fd v m, (0 < length (cm_buckets m))%nat -> Permutation (entries (cm_link fd v m)) ((fd, v) :: entries m).
Proof.
  intros fd v m H. unfold entries, cm_link. cbn [cm_buckets]. apply (set_entries _ _ _ [(fd, v)]); [apply index_lt; exact H|]. reflexivity.
Qed.
Lemma link_inv : forall fd v m, cinv m -> ~ In fd (map fst (entries m)) -> cinv (cm_link fd v m).
Proof.
  intros fd v m [S F P L] N. assert (E := link_entries fd v m ltac:(lia)). constructor.
  - unfold cm_link. cbn [cm_buckets]. rewrite set_length. exact S.
  - apply (Permutation_NoDup (l := map fst ((fd, v) :: entries m))); [apply Permutation_map; symmetry; exact E|]. cbn. constructor; assumption.
  - intros i c H. unfold cm_link in *. cbn [cm_buckets] in *. rewrite set_length. rewrite set_nth in H by (apply index_lt; lia).
    destruct (Nat.eqb_spec i (cm_index fd (length (cm_buckets m)))) as [Q|Q]; [|exact (P i c H)].
    destruct H as [H|H]; [subst c; exact Q|]. rewrite <- Q in H. exact (P i c H).
  - rewrite (Permutation_length E). cbn [length cm_link cm_len]. lia.
Qed.
(** Growing keeps the connections, and the new table is large enough. *)
Lemma grow_ok : forall m, cinv m -> cm_len m <= N.of_nat (length (cm_buckets m)) ->
  exists m', cmap_grow m = Some m' /\ cinv m' /\ Permutation (entries m') (entries m) /\
    length (cm_buckets m') = (length (cm_buckets m) * 2)%nat /\ cm_len m' = N.of_nat (length (entries m)).
Proof.
  intros m [S F P L] B. unfold cmap_grow. fold (entries m).
  set (n := (length (cm_buckets m) * 2)%nat). set (f := fun (m2 : option cmap) (c : N * V) => _).
  assert (GO : forall l pre m2, entries m = pre ++ l -> cinv m2 -> Permutation (entries m2) pre -> length (cm_buckets m2) = n -> cm_len m2 = N.of_nat (length pre) ->
    exists m', fold_left f l (Some m2) = Some m' /\ cinv m' /\ Permutation (entries m') (entries m) /\ length (cm_buckets m') = n /\ cm_len m' = N.of_nat (length (entries m))).
  { induction l as [|[fd v] l IH]; intros pre m2 E I2 P2 N2 L2.
    - rewrite app_nil_r in E. exists m2. split; [reflexivity|]. split; [exact I2|]. rewrite E. auto.
    - cbn [fold_left]. unfold f at 2. cbn [fst snd].
      assert (Len : (length pre < length (entries m))%nat) by (rewrite E, app_length; cbn; lia).
      assert (Fu : cm_full m2 = false).
      { unfold cm_full. rewrite N2, L2. apply N.leb_gt. subst n. pose proof (N.div_le_mono (N.of_nat (length (cm_buckets m) * 2)) (N.of_nat (length (cm_buckets m) * 2)) 4).
        assert (D := N.mul_div_le (N.of_nat (length (cm_buckets m) * 2)) 4). lia. }
      rewrite Fu. assert (Nn : ~ In fd (map fst (entries m2))).
      { intro Q. rewrite E, map_app in F. cbn in F. apply NoDup_remove_2 in F. apply F. apply in_app_iff. left.
        apply (Permutation_in (l := map fst (entries m2))); [apply Permutation_map; exact P2|exact Q]. }
      apply (IH (pre ++ [(fd, v)])).
      + rewrite E, <- app_assoc. reflexivity.
      + apply link_inv; assumption.
      + rewrite link_entries by lia. rewrite P2. apply Permutation_cons_append.
      + unfold cm_link. cbn [cm_buckets]. rewrite set_length. exact N2.
      + unfold cm_link. cbn [cm_len]. rewrite L2, app_length. cbn. lia. }
  assert (R0 : forall k, concat (repeat (@nil (N * V)) k) = []) by (induction k as [|k IH]; [reflexivity|exact IH]).
  assert (R1 : forall k i, nth i (repeat (@nil (N * V)) k) [] = []) by (induction k as [|k IH]; intros [|i]; cbn; auto).
  apply (GO (entries m) []).
  - reflexivity.
  - constructor; unfold entries; cbn [cm_buckets cm_len]; rewrite ?repeat_length, ?R0.
    + subst n. lia.
    + constructor.
    + intros i c H. rewrite R1 in H. destruct H.
    + cbn. lia.
  - unfold entries. cbn [cm_buckets]. rewrite R0. reflexivity.
  - cbn [cm_buckets]. apply repeat_length.
  - reflexivity.
Qed.
Lemma delete_chain : forall fd (b : list (N * V)) v, In (fd, v) b -> NoDup (map fst b) -> exists b', chain_delete fd b = Some b' /\ Permutation b ((fd, v) :: b').
Proof.
  induction b as [|[x y] b IH]; intros v H N; [destruct H|]. cbn in N. inversion N as [|? ? N1 N2]; subst. cbn [chain_delete fst].
  destruct (N.eqb_spec x fd) as [E|E].
  - subst x. exists b. split; [reflexivity|]. destruct H as [H|H]; [rewrite H; reflexivity|]. destruct (N1 (in_map fst _ _ H)).
  - destruct H as [H|H]; [congruence|]. destruct (IH v H N2) as (b' & E1 & E2). rewrite E1. exists ((x, y) :: b'). split; [reflexivity|].
    rewrite E2. apply perm_swap.
Qed.
Lemma nodup_app : forall (X : Type) (l k : list X), NoDup (l ++ k) -> NoDup l /\ NoDup k.
Proof.
  induction l as [|x l IH]; intros k H; [split; [constructor|exact H]|]. cbn in H. inversion H as [|? ? N1 N2]; subst. destruct (IH k N2) as [A B].
  split; [constructor; [|exact A]|exact B]. intro Q. apply N1. apply in_app_iff. left. exact Q.
Qed.
Lemma nodup_nth : forall (bs : list (list (N * V))) i, NoDup (map fst (concat bs)) -> NoDup (map fst (nth i bs [])).
Proof.
  induction bs as [|x bs IH]; intros [|i] H; cbn in *; try constructor; rewrite map_app in H; apply nodup_app in H; [apply H|apply IH; apply H].
Qed.
Lemma delete_ok : forall fd v m, cinv m -> In (fd, v) (entries m) ->
  exists m', cmap_delete fd m = Some m' /\ cinv m' /\ Permutation (entries m) ((fd, v) :: entries m') /\
    length (cm_buckets m') = length (cm_buckets m) /\ cm_len m' = cm_len m.
Proof.
  intros fd v m [S F P L] H. destruct (nth_in_concat _ _ H) as (i & I1 & I2). assert (Ei := P i _ I2). cbn [fst] in Ei.
  unfold cmap_delete. rewrite <- Ei. destruct (delete_chain fd _ v I2 (nodup_nth _ i F)) as (b' & E1 & E2). rewrite E1.
  eexists. split; [reflexivity|].
  assert (En : Permutation (entries m) ((fd, v) :: concat (set_bucket i b' (cm_buckets m)))).
  { clear - I1 E2. unfold entries. revert i I1 E2. induction (cm_buckets m) as [|x bs IH]; intros i I1 E2; [cbn in I1; lia|]. destruct i as [|i]; cbn in *.
    - apply (Permutation_app_tail (concat bs)) in E2. exact E2.
    - rewrite (IH i) by (lia || exact E2). symmetry. apply Permutation_middle. }
  assert (Fn : NoDup (map fst ((fd, v) :: concat (set_bucket i b' (cm_buckets m))))) by (apply (Permutation_NoDup (Permutation_map fst En)); exact F).
  split; [constructor|].
  - cbn [cm_buckets]. rewrite set_length. exact S.
  - unfold entries. cbn [cm_buckets]. cbn in Fn. inversion Fn; assumption.
  - intros j c C. cbn [cm_buckets] in *. rewrite set_length. rewrite set_nth in C by exact I1. destruct (Nat.eqb_spec j i) as [Q|Q]; [|exact (P j c C)].
    subst j. apply P. apply (Permutation_in (l := (fd, v) :: b')); [symmetry; exact E2|right; exact C].
  - cbn [cm_len]. unfold entries at 1. cbn [cm_buckets]. apply Permutation_length in En. cbn [length] in En. lia.
  - split; [exact En|]. cbn. split; [apply set_length|reflexivity].
Qed.
Lemma get_ok : forall fd m, cinv m -> forall v, cmap_get fd m = Some v <-> In (fd, v) (entries m).
Proof.
  intros fd m [S F P L] v. unfold cmap_get. set (i := cm_index fd (length (cm_buckets m))).
  destruct (find (fun c => fst c =? fd) (nth i (cm_buckets m) [])) as [[x y]|] eqn:E.
  - apply find_some in E. destruct E as [E1 E2]. cbn in E2. apply N.eqb_eq in E2. subst x. cbn [snd]. apply in_concat_nth in E1. split.
    + intro H. injection H as <-. exact E1.
    + intro H. f_equal. clear - F E1 H. unfold entries in *. induction (concat (cm_buckets m)) as [|[a b] l IH]; [destruct H|]. cbn in F. inversion F as [|? ? N1 N2]; subst.
      destruct E1 as [E1|E1], H as [H|H]; try congruence.
      * exfalso. apply N1. inversion E1; subst. exact (in_map fst _ _ H).
      * exfalso. apply N1. inversion H; subst. exact (in_map fst _ _ E1).
      * exact (IH N2 E1 H).
  - split; [discriminate|]. intro H. exfalso. destruct (nth_in_concat _ _ H) as (j & J1 & J2). assert (Q := P j _ J2). cbn [fst] in Q. fold i in Q. subst j.
    assert (X := find_none _ _ E _ J2). cbn in X. rewrite N.eqb_refl in X. discriminate.
Qed.
(** The table has no more in [len] than three quarters of its buckets, but one. *)
Definition bounded m : Prop := cm_len m <= N.of_nat (length (cm_buckets m)) - N.of_nat (length (cm_buckets m)) / 4.
Definition agrees m (f : N -> option V) : Prop := forall fd v, f fd = Some v <-> In (fd, v) (entries m).
Lemma full_bounded : forall m, bounded m -> cm_len m <= N.of_nat (length (cm_buckets m)). Proof. unfold bounded. intros. lia. Qed.
Lemma insert_ok : forall fd v m, cinv m -> bounded m -> ~ In fd (map fst (entries m)) ->
  exists m', cmap_insert fd v m = Some m' /\ cinv m' /\ bounded m' /\ Permutation (entries m') ((fd, v) :: entries m).
Proof.
  intros fd v m I B N. unfold cmap_insert. destruct (cm_full m) eqn:Fu.
  - destruct (grow_ok m I (full_bounded m B)) as (m1 & E & I1 & P1 & N1 & L1). rewrite E. eexists. split; [reflexivity|].
    assert (Nn : ~ In fd (map fst (entries m1))).
    { intro Q. apply N. apply (Permutation_in (l := map fst (entries m1))); [apply Permutation_map; exact P1|exact Q]. }
    split; [apply link_inv; assumption|]. split.
    + unfold bounded, cm_link in *. cbn [cm_len cm_buckets]. rewrite set_length, N1, L1. assert (Q := ci_len _ I). assert (S := ci_size _ I).
      assert (D1 := N.mul_div_le (N.of_nat (length (cm_buckets m) * 2)) 4). lia.
    + rewrite link_entries by (assert (S := ci_size _ I1); lia). rewrite P1. reflexivity.
  - eexists. split; [reflexivity|]. split; [apply link_inv; assumption|]. split.
    + unfold cm_full in Fu. apply N.leb_gt in Fu. unfold bounded, cm_link. cbn [cm_len cm_buckets]. rewrite set_length. lia.
    + apply link_entries. assert (S := ci_size _ I). lia.
Qed.
Lemma agrees_in : forall m f fd, agrees m f -> (In fd (map fst (entries m)) <-> f fd <> None).
Proof.
  intros m f fd A. split.
  - intro H. apply in_map_iff in H. destruct H as ([x v] & E & H). cbn in E. subst x. apply A in H. congruence.
  - intro H. destruct (f fd) as [v|] eqn:E; [|congruence]. apply A in E. exact (in_map fst _ _ E).
Qed.
Lemma op_ok : forall o m f, cinv m -> bounded m -> agrees m f -> cmay o f ->
  exists m', cop_run o m = Some m' /\ cinv m' /\ bounded m' /\ agrees m' (cspec o f).
Proof.
  intros [fd v|fd] m f I B A M; cbn [cmay cop_run cspec] in *.
  - destruct (insert_ok fd v m I B) as (m' & E & I' & B' & P). { rewrite (agrees_in m f fd A). congruence. }
    exists m'. split; [exact E|]. split; [exact I'|]. split; [exact B'|]. intros x y. destruct (N.eqb_spec x fd) as [Q|Q].
    + subst x. split; intro H.
      * injection H as <-. apply (Permutation_in (l := (fd, v) :: entries m)); [symmetry; exact P|left; reflexivity].
      * apply (Permutation_in _ P) in H. destruct H as [H|H]; [congruence|]. apply A in H. congruence.
    + split; intro H.
      * apply A in H. apply (Permutation_in (l := (fd, v) :: entries m)); [symmetry; exact P|right; exact H].
      * apply (Permutation_in _ P) in H. destruct H as [H|H]; [congruence|]. apply A. exact H.
  - destruct (f fd) as [v|] eqn:Ef; [|congruence]. assert (H0 := proj1 (A fd v) Ef). destruct (delete_ok fd v m I H0) as (m' & E & I' & P & L1 & L2).
    exists m'. split; [exact E|]. split; [exact I'|]. split; [unfold bounded in *; rewrite L1, L2; exact B|].
    assert (Nd : NoDup (map fst ((fd, v) :: entries m'))) by (apply (Permutation_NoDup (Permutation_map fst P)); exact (ci_fds _ I)).
    cbn in Nd. inversion Nd as [|? ? N1 N2]; subst. intros x y. destruct (N.eqb_spec x fd) as [Q|Q].
    + subst x. split; [discriminate|]. intro H. destruct (N1 (in_map fst _ _ H)).
    + rewrite (A x y). split; intro H.
      * apply (Permutation_in _ P) in H. destruct H as [H|H]; [congruence|exact H].
      * apply (Permutation_in (l := (fd, v) :: entries m')); [symmetry; exact P|right; exact H].
Qed.
Lemma ops_ok : forall os m f, cinv m -> bounded m -> agrees m f -> cmay_all os f ->
  exists m', cops_run os m = Some m' /\ cinv m' /\ bounded m' /\ agrees m' (fold_left (fun f o => cspec o f) os f).
Proof.
  induction os as [|o os IH]; intros m f I B A M; [exists m; auto|]. destruct M as [M1 M2]. destruct (op_ok o m f I B A M1) as (m1 & E & I1 & B1 & A1).
  cbn [cops_run fold_left]. rewrite E. exact (IH m1 _ I1 B1 A1 M2).
Qed.
Lemma new_ok : cinv cmap_new /\ bounded cmap_new /\ agrees cmap_new (fun _ => None).
Proof.
  split; [|split].
  - constructor; [cbn; lia|constructor| |cbn; lia]. intros i c H. cbn [cmap_new cm_buckets] in H. exfalso. revert i H.
    generalize 64%nat. induction n as [|n IH]; intros [|i] H; cbn in H; try contradiction. exact (IH i H).
  - vm_compute. discriminate.
  - intros fd v. split; [discriminate|intros []].
Qed.
End Proofs.

(** Whatever connections open and close, in whatever order: the table never fails, and a lookup
    finds exactly the connection that is open with the descriptor. *)
Theorem C57_table : forall (V : Type) (os : list (cop V)), cmay_all os (fun _ => None) ->
  exists m, cops_run os cmap_new = Some m /\ forall fd, cmap_get fd m = fold_left (fun f o => cspec o f) os (fun _ => None) fd.
Proof.
  intros V os M. destruct (new_ok V) as (I & B & A). destruct (ops_ok V os _ _ I B A M) as (m & E & I' & B' & A'). exists m. split; [exact E|].
  intro fd. set (f := fold_left _ os _) in *. destruct (f fd) as [v|] eqn:Ef.
  - apply (get_ok V fd m I' v). apply A'. exact Ef.
  - destruct (cmap_get fd m) as [v|] eqn:Eg; [|reflexivity]. apply (get_ok V fd m I' v) in Eg. apply A' in Eg. congruence.
Qed.
(** Descriptors 5 and 37 and more than 48 others, so that the table grows. *)
Definition many : list (cop nat) := map (fun i => COpen (N.of_nat i) i) (seq 0 60) ++ [CClose 7; CClose 59; COpen 7 99%nat].
Example C57_case : cmay_all many (fun _ => None) /\
  exists m, cops_run many cmap_new = Some m /\ length (cm_buckets m) = 128%nat /\ cmap_get 7 m = Some 99%nat /\ cmap_get 59 m = None /\ cmap_get 33 m = Some 33%nat.
Proof.
  split.
  - cbn. repeat split; discriminate.
  - assert (H : match cops_run many cmap_new with None => None | Some m => Some (length (cm_buckets m), cmap_get 7 m, cmap_get 59 m, cmap_get 33 m) end =
      Some (128%nat, Some 99%nat, None, Some 33%nat)) by (vm_compute; reflexivity).
    destruct (cops_run many cmap_new) as [m|]; [|discriminate]. exists m. injection H as H1 H2 H3 H4. auto.
Qed.

(** *** What does not hold *)
(** The size of the table should depend on how many connections are open at once. It does not: when
    one connection after the other is opened and closed, the table grows without bound,
    because closing does not count down. [src/net.c:414-430] *)
Definition one_by_one (k : nat) : list (cop unit) := concat (repeat [COpen 5 tt; CClose 5] k).
Definition vacant (b : nat) (l : N) (m : cmap unit) : Prop := cm_buckets m = repeat [] b /\ cm_len m = l.
Lemma set_twice : forall b i (x : list (N * unit)), set_bucket i [] (set_bucket i x (repeat [] b)) = repeat [] b.
Proof. induction b as [|b IH]; intros [|i] x; cbn; try reflexivity. rewrite IH. reflexivity. Qed.
Lemma link_close : forall b l m, (0 < b)%nat -> vacant b l m -> exists m', cmap_delete 5 (cm_link 5 tt m) = Some m' /\ vacant b (l + 1) m'.
Proof.
  intros b l m H [B L]. unfold cmap_delete, cm_link. cbn [cm_buckets cm_len]. rewrite set_length, B, repeat_length, L.
  rewrite set_nth by (rewrite repeat_length; apply index_lt; exact H). rewrite Nat.eqb_refl. cbn [chain_delete fst N.eqb]. rewrite Pos.eqb_refl.
  eexists. split; [reflexivity|]. split; [|reflexivity]. cbn [cm_buckets].
  assert (R : forall i, nth i (repeat (@nil (N * unit)) b) [] = []) by (clear; induction b as [|b IH]; intros [|i]; cbn; auto). rewrite R. apply set_twice.
Qed.
Lemma concat_nil : forall b, concat (repeat (@nil (N * unit)) b) = []. Proof. induction b as [|b IH]; [reflexivity|exact IH]. Qed.
Lemma pair_step : forall b l m, (0 < b)%nat -> vacant b l m ->
  exists m', cops_run [COpen 5 tt; CClose 5] m = Some m' /\
    vacant (if N.of_nat b - N.of_nat b / 4 <=? l then (b * 2)%nat else b) (if N.of_nat b - N.of_nat b / 4 <=? l then 1 else l + 1) m'.
Proof.
  intros b l m H [B L]. cbn [cops_run cop_run]. unfold cmap_insert, cm_full. rewrite B, repeat_length, L. destruct (N.of_nat b - N.of_nat b / 4 <=? l).
  - unfold cmap_grow. rewrite B, concat_nil, repeat_length. cbn [fold_left].
    destruct (link_close (b * 2) 0 (mkCmap (repeat [] (b * 2)) 0)) as (m' & E & V); [lia|split; reflexivity|]. rewrite E. exists m'. split; [reflexivity|exact V].
  - destruct (link_close b l m H (conj B L)) as (m' & E & V). rewrite E. exists m'. split; [reflexivity|exact V].
Qed.
Lemma cops_app : forall (os ps : list (cop unit)) m, cops_run (os ++ ps) m = match cops_run os m with None => None | Some m => cops_run ps m end.
Proof. induction os as [|o os IH]; intros ps m; [reflexivity|]. cbn. destruct (cop_run o m); [apply IH|reflexivity]. Qed.
Lemma doubles : forall d b l m, (0 < b)%nat -> vacant b l m -> N.of_nat b - N.of_nat b / 4 - l = N.of_nat d ->
  exists k m', cops_run (one_by_one k) m = Some m' /\ vacant (b * 2) 1 m'.
Proof.
  induction d as [|d IH]; intros b l m H V D; destruct (pair_step b l m H V) as (m1 & E1 & V1).
  - rewrite (proj2 (N.leb_le _ _)) in V1 by lia. exists 1%nat, m1. split; [exact E1|exact V1].
  - rewrite (proj2 (N.leb_gt _ _)) in V1 by lia. destruct (IH b (l + 1) m1 H V1) as (k & m' & E & V'); [lia|].
    exists (S k), m'. split; [|exact V']. change (one_by_one (S k)) with ([COpen 5 tt; CClose 5] ++ one_by_one k). rewrite cops_app, E1. exact E.
Qed.
Theorem C57_growth_refuted : forall n, exists k m, cmay_all (one_by_one k) (fun _ => None) /\
  cops_run (one_by_one k) cmap_new = Some m /\ (forall fd, cmap_get fd m = None) /\ (n <= length (cm_buckets m))%nat.
Proof.
  assert (M : forall k f, f 5 = None -> cmay_all (one_by_one k) f).
  { induction k as [|k IH]; intros f F; [exact I|]. change (one_by_one (S k)) with ([COpen 5 tt; CClose 5] ++ one_by_one k). cbn [app cmay_all cmay]. split; [exact F|].
    split; [cbn; discriminate|]. apply IH. reflexivity. }
  assert (GO : forall n, exists k m b l, cops_run (one_by_one k) cmap_new = Some m /\ vacant b l m /\ (0 < b)%nat /\ (n <= b)%nat).
  { induction n as [|n (k & m & b & l & E & V & P & L)].
    - exists 0%nat, cmap_new, 64%nat, 0. split; [reflexivity|]. split; [split; reflexivity|]. split; lia.
    - destruct (doubles (N.to_nat (N.of_nat b - N.of_nat b / 4 - l)) b l m P V) as (k2 & m2 & E2 & V2); [lia|].
      exists (k + k2)%nat, m2, (b * 2)%nat, 1. split; [|split; [exact V2|lia]].
      assert (O : one_by_one (k + k2) = one_by_one k ++ one_by_one k2) by (unfold one_by_one; rewrite repeat_app, concat_app; reflexivity).
      rewrite O, cops_app, E. exact E2. }
  intro n. destruct (GO n) as (k & m & b & l & E & (V1 & V2) & P & L). exists k, m. split; [apply M; reflexivity|]. split; [exact E|].
  rewrite V1, repeat_length. split; [|exact L]. intro fd. unfold cmap_get. rewrite V1.
  assert (R : forall i, nth i (repeat (@nil (N * unit)) b) [] = []) by (clear; induction b as [|b IH]; intros [|i]; cbn; auto). rewrite R. reflexivity.
Qed.
