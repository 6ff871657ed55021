(** The robin-hood table: invariant, lookup, insertion, deletion, rehash. *)
From Verif Require Import Base Hash Map.
From Coq Require Import Permutation.
Local Open Scope nat_scope.

(** ** Cyclic index arithmetic *)
Definition addm (n i k : nat) : nat := if i + k <? n then i + k else i + k - n.
Definition offs (n s x : nat) : nat := if s <=? x then x - s else x + n - s.

Ltac ad := unfold addm, offs in *;
  repeat match goal with
  | |- context [?a <? ?b] => destruct (Nat.ltb_spec a b)
  | |- context [?a <=? ?b] => destruct (Nat.leb_spec a b)
  | H : context [?a <? ?b] |- _ => destruct (Nat.ltb_spec a b)
  | H : context [?a <=? ?b] |- _ => destruct (Nat.leb_spec a b)
  end; try lia.

Lemma addm_lt : forall n i k, i < n -> k <= n -> addm n i k < n.
Proof. intros. ad. Qed.
Lemma addm_add : forall n i a b, i < n -> a + b <= n ->
  addm n (addm n i a) b = addm n i (a + b).
Proof. intros. ad. Qed.
Lemma addm_0 : forall n i, i < n -> addm n i 0 = i.
Proof. intros. ad. Qed.
Lemma addm_offs : forall n s x, s < n -> x < n -> addm n s (offs n s x) = x.
Proof. intros. ad. Qed.
Lemma offs_lt : forall n s x, s < n -> x < n -> offs n s x < n.
Proof. intros. ad. Qed.
Lemma offs_addm : forall n s k, s < n -> k < n -> offs n s (addm n s k) = k.
Proof. intros. ad. Qed.
Lemma addm_inj : forall n i a b, i < n -> a < n -> b < n -> addm n i a = addm n i b -> a = b.
Proof. intros. ad. Qed.

Lemma ar_zs : forall n i m q, i < n -> m < n -> q < m ->
  addm n (addm n i (n - 1 - m)) (q + 1) = addm n (addm n i (n - m)) q.
Proof. intros. rewrite !addm_add by lia. f_equal. lia. Qed.
Lemma ar_prevz : forall n i m, i < n -> m < n ->
  addm n i (n - 1) = addm n (addm n i (n - 1 - m)) m.
Proof. intros. rewrite !addm_add by lia. f_equal. lia. Qed.
Lemma ar_offhome : forall n i m h d, i < n -> m < n -> h < n -> 1 <= d -> d <= m + 1 ->
  addm n h (d - 1) = i -> offs n (addm n i (n - m)) h = m + 1 - d.
Proof. intros. subst i. ad. Qed.
Lemma ar_pq : forall n i m q, i < n -> m < n -> q < m ->
  addm n i (n - 1 - (m - 1 - q)) = addm n (addm n i (n - m)) q.
Proof. intros. rewrite !addm_add by lia. f_equal. lia. Qed.
Lemma ar_last : forall n i m q, i < n -> m < n -> q < m ->
  addm n (addm n (addm n i (n - m)) q) (m - 1 - q) = addm n i (n - 1).
Proof. intros. rewrite !addm_add by (try apply addm_lt; lia). f_equal. lia. Qed.
Lemma ar_offb : forall n s q h d, s < n -> q < n -> h < n -> 1 <= d -> d <= q + 1 ->
  addm n h (d - 1) = addm n s q -> offs n s h = q + 1 - d.
Proof. intros. ad. Qed.
Lemma ar_prev_next : forall n i, i < n -> addm n (addm n i 1) (n - 1) = i.
Proof. intros. ad. Qed.
Lemma ar_next_prev : forall n i, i < n -> addm n (addm n i (n - 1)) 1 = i.
Proof. intros. ad. Qed.
Lemma ar_ne : forall n i j, i < n -> j < n -> j <> 0 -> addm n i j <> i.
Proof. intros. ad. Qed.
Lemma ar_is_prev : forall n x i, x < n -> addm n x 1 = i -> addm n i (n - 1) = x.
Proof. intros. subst i. apply ar_prev_next. assumption. Qed.

Definition pow2 (n : nat) : Prop := exists k, (N.of_nat n = 2 ^ N.of_nat k)%N /\ k > 0.

Lemma pow2_ge2 : forall n, pow2 n -> 2 <= n.
Proof.
  intros n (k & E & Hk). destruct k as [|k]; [lia|].
  rewrite Nat2N.inj_succ, N.pow_succ_r' in E.
  assert (2 ^ N.of_nat k <> 0)%N by (apply N.pow_nonzero; lia). lia.
Qed.

Lemma band_addm : forall n i, pow2 n -> i < n -> band n (i + 1) = addm n i 1.
Proof.
  intros n i (k & E & Hk) Hi. unfold band. rewrite E, land_ones_mod, <- E.
  unfold addm. destruct (i + 1 <? n) eqn:L.
  - rewrite N.mod_small by lia. lia.
  - replace (N.of_nat (i + 1)) with (N.of_nat n) by lia.
    rewrite N.mod_same by lia. lia.
Qed.

Lemma home_lt : forall n h, pow2 n -> home n h < n.
Proof.
  intros n h (k & E & Hk). unfold home. rewrite E, land_ones_mod.
  assert (2 ^ N.of_nat k <> 0)%N by (apply N.pow_nonzero; lia).
  pose proof (N.mod_lt h (2 ^ N.of_nat k)). lia.
Qed.

Lemma home_mod : forall n h, pow2 n -> home n h = N.to_nat (h mod N.of_nat n)%N.
Proof.
  intros n h (k & E & Hk). unfold home. rewrite E, land_ones_mod, <- E. reflexivity.
Qed.

(** ** Lists with one element replaced *)
Lemma upd_length : forall A (l : list A) i x, length (upd l i x) = length l.
Proof. induction l; intros [|i] x; cbn; auto. Qed.

Lemma nth_upd_same : forall A (l : list A) i x d, i < length l -> nth i (upd l i x) d = x.
Proof. induction l; intros [|i] x d H; cbn in *; try lia; auto. apply IHl. lia. Qed.

Lemma nth_upd_other : forall A (l : list A) i j x d, i <> j -> nth i (upd l j x) d = nth i l d.
Proof.
  induction l; intros [|i] [|j] x d H; cbn; auto; try lia.
Qed.

Lemma upd_upd : forall A (l : list A) i x y, upd (upd l i x) i y = upd l i y.
Proof. induction l; intros [|i] x y; cbn; auto. f_equal. apply IHl. Qed.

Lemma upd_same : forall A (l : list A) i d, upd l i (nth i l d) = l.
Proof. induction l; intros [|i] d; cbn; auto. f_equal. apply IHl. Qed.

Section Items.
Context {E : Type}.
Notation slot := (option (bkt E)).

Definition slot_items (s : slot) : list (N * E) :=
  match s with None => [] | Some b => [(b_hash b, b_ent b)] end.

Lemma items_cons : forall (s : slot) t, items (s :: t) = slot_items s ++ items t.
Proof. intros [b|] t; reflexivity. Qed.

Lemma items_app : forall (a b : list slot), items (a ++ b) = items a ++ items b.
Proof.
  induction a as [|s a IH]; intro b; [reflexivity|].
  cbn [app]. rewrite !items_cons, IH, app_assoc. reflexivity.
Qed.

Lemma items_upd : forall (t : list slot) i s, i < length t ->
  Permutation (slot_items (nth i t None) ++ items (upd t i s)) (slot_items s ++ items t).
Proof.
  induction t as [|x t IH]; intros [|i] s H; cbn [length] in H; try lia.
  - cbn [nth upd]. rewrite !items_cons.
    rewrite !app_assoc. apply Permutation_app_tail. apply Permutation_app_comm.
  - cbn [nth upd]. rewrite !items_cons.
    rewrite app_assoc.
    eapply perm_trans; [apply Permutation_app_tail, Permutation_app_comm|].
    rewrite <- app_assoc.
    eapply perm_trans; [apply Permutation_app_head, IH; lia|].
    rewrite !app_assoc. apply Permutation_app_tail. apply Permutation_app_comm.
Qed.

Lemma items_repeat_none : forall n, items (repeat (@None (bkt E)) n) = [].
Proof. induction n; cbn; auto. Qed.

Lemma nth_items_in : forall (t : list slot) i b, nth i t None = Some b ->
  In (b_hash b, b_ent b) (items t).
Proof.
  induction t as [|s t IH]; intros [|i] b H; cbn [nth] in H; try discriminate.
  - subst. rewrite items_cons. left. reflexivity.
  - rewrite items_cons. apply in_or_app. right. apply IH with i. assumption.
Qed.

Lemma in_items_nth : forall (t : list slot) h e, In (h, e) (items t) ->
  exists i b, i < length t /\ nth i t None = Some b /\ b_hash b = h /\ b_ent b = e.
Proof.
  induction t as [|s t IH]; intros h e H; [destruct H|].
  rewrite items_cons in H. apply in_app_or in H. destruct H as [H|H].
  - destruct s as [b|]; [|destruct H].
    destruct H as [H|[]]. injection H as <- <-.
    exists 0, b. cbn. repeat split; auto. lia.
  - destruct (IH _ _ H) as (i & b & Hi & Hb & Hh & He).
    exists (S i), b. cbn. repeat split; auto. lia.
Qed.

Lemma items_length_le : forall (t : list slot), length (items t) <= length t.
Proof.
  induction t as [|s t IH]; [cbn; lia|].
  rewrite items_cons, app_length. destruct s; cbn [slot_items length]; lia.
Qed.

Lemma empty_slot_exists : forall (t : list slot), length (items t) < length t ->
  exists i, i < length t /\ nth i t None = None.
Proof.
  induction t as [|s t IH]; intro H; [cbn in H; lia|].
  rewrite items_cons, app_length in H. destruct s as [b|].
  - cbn [slot_items length] in H. destruct IH as (i & Hi & He); [lia|].
    exists (S i). cbn. split; [lia|assumption].
  - exists 0. cbn. split; [lia|reflexivity].
Qed.

Lemma nodup_pos : forall (K : Type) (key : N * E -> K) (t : list slot) i j b b',
  NoDup (List.map key (items t)) ->
  nth i t None = Some b -> nth j t None = Some b' ->
  key (b_hash b, b_ent b) = key (b_hash b', b_ent b') -> i = j.
Proof.
  intros K key. induction t as [|s t IH]; intros [|i] [|j] b b' Hn Hi Hj Hk;
    cbn [nth] in *; try discriminate; auto; rewrite items_cons, map_app in Hn.
  - subst s. cbn [slot_items List.map app] in Hn. inversion Hn as [|? ? Hni _]; subst.
    exfalso. apply Hni. rewrite Hk. apply in_map. apply nth_items_in with j. assumption.
  - subst s. cbn [slot_items List.map app] in Hn. inversion Hn as [|? ? Hni _]; subst.
    exfalso. apply Hni. rewrite <- Hk. apply in_map. apply nth_items_in with i. assumption.
  - f_equal. apply IH with b b'; auto.
    destruct s; cbn [slot_items List.map app] in Hn; [inversion Hn; assumption|assumption].
Qed.

Lemma rot_nth : forall (t : list slot) s q, s < length t -> q < length t ->
  nth q (skipn s t ++ firstn s t) None = nth (addm (length t) s q) t None.
Proof.
  intros t s q Hs Hq.
  assert (N1 : forall k, nth k (skipn s t) None = nth (s + k) t None).
  { clear. revert t. induction s as [|s IH]; intros t k; [reflexivity|].
    destruct t as [|x t]; cbn [skipn Nat.add nth].
    - destruct k; reflexivity.
    - apply IH. }
  assert (N2 : forall k, k < s -> nth k (firstn s t) None = nth k t None).
  { clear. revert t. induction s as [|s IH]; intros t k Hk; [lia|].
    destruct t as [|x t]; [reflexivity|]. destruct k; cbn; auto. apply IH. lia. }
  destruct (Nat.lt_ge_cases q (length (skipn s t))) as [L|L].
  - rewrite app_nth1 by assumption. rewrite skipn_length in L. rewrite N1.
    f_equal. ad.
  - rewrite app_nth2 by assumption. rewrite skipn_length in *. rewrite N2 by lia.
    f_equal. ad.
Qed.

Lemma filter_run : forall (P : N -> bool) m (r : list slot),
  (forall q, q < m -> exists b, nth q r None = Some b /\ P (b_hash b) = true) ->
  m <= length (filter P (List.map fst (items r))).
Proof.
  intros P. induction m as [|m IH]; intros r H; [lia|].
  destruct r as [|s r].
  - destruct (H 0) as (b & Hb & _); [lia|discriminate].
  - destruct (H 0) as (b & Hb & HP); [lia|]. cbn [nth] in Hb. subst s.
    cbn [items List.map fst filter]. rewrite HP. cbn [length].
    apply le_n_S. apply IH. intros q Hq. destruct (H (S q)) as (b' & Hb' & HP'); [lia|].
    exists b'. auto.
Qed.

(** ** Crowding: how many hashes have their home in a window of buckets *)
Definition cntw (n s L : nat) (hs : list N) : nat :=
  length (filter (fun h => offs n s (home n h) <? L) hs).

Definition fits_n (n : nat) (hs : list N) : Prop :=
  forall s L, s < n -> 1 <= L <= n -> cntw n s L hs <= L + 253.

Lemma filter_perm : forall A (P : A -> bool) l l', Permutation l l' ->
  length (filter P l) = length (filter P l').
Proof.
  intros A P l l' H. induction H; cbn; auto.
  - destruct (P x); cbn; auto.
  - destruct (P x), (P y); cbn; auto.
  - congruence.
Qed.

Lemma filter_le : forall A (P : A -> bool) l, length (filter P l) <= length l.
Proof.
  induction l as [|x l IH]; cbn; [lia|]. destruct (P x); cbn [length]; lia.
Qed.

Lemma fits_perm : forall n a b, Permutation a b -> fits_n n a -> fits_n n b.
Proof.
  intros n a b Hp Hf s L Hs HL. unfold cntw.
  rewrite <- (filter_perm _ _ _ _ Hp). apply Hf; assumption.
Qed.

Lemma fits_tail : forall n h l, fits_n n (h :: l) -> fits_n n l.
Proof.
  intros n h l Hf s L Hs HL. specialize (Hf s L Hs HL). unfold cntw in *.
  cbn [filter] in Hf. destruct (offs n s (home n h) <? L); cbn [length] in Hf; lia.
Qed.

Lemma fits_app_l : forall n a b, fits_n n (a ++ b) -> fits_n n a.
Proof.
  intros n a b Hf s L Hs HL. specialize (Hf s L Hs HL). unfold cntw in *.
  rewrite filter_app, app_length in Hf. lia.
Qed.

Lemma fits_small : forall n hs, length hs <= 254 -> fits_n n hs.
Proof.
  intros n hs H s L Hs HL. unfold cntw.
  pose proof (filter_le _ (fun h => offs n s (home n h) <? L) hs).
  lia.
Qed.

(** ** The invariant *)
Definition dib (t : list slot) (i : nat) : nat :=
  match nth i t None with None => 0 | Some b => b_dib b end.

Record RH (n : nat) (t : list slot) : Prop := {
  rh_len : length t = n;
  rh_step : forall i, i < n -> dib t (addm n i 1) <= dib t i + 1;
  rh_home : forall i b, i < n -> nth i t None = Some b ->
    1 <= b_dib b /\ b_dib b <= 254 /\ b_dib b <= n /\
    addm n (home n (b_hash b)) (b_dib b - 1) = i
}.

Lemma rh_empty : forall n, RH n (repeat None n).
Proof.
  assert (G : forall n i, nth i (repeat (@None (bkt E)) n) None = None).
  { induction n; intros [|i]; cbn; auto. }
  intro n. constructor.
  - apply repeat_length.
  - intros i Hi. unfold dib. rewrite !G. lia.
  - intros i b Hi H. rewrite G in H. discriminate.
Qed.

Lemma dib_chain : forall n t i k, RH n t -> i < n -> k <= n ->
  dib t (addm n i k) <= dib t i + k.
Proof.
  intros n t i k H Hi. induction k as [|k IH]; intro Hk.
  - rewrite addm_0 by assumption. lia.
  - specialize (IH ltac:(lia)).
    pose proof (rh_step _ _ H (addm n i k) ltac:(apply addm_lt; lia)) as S1.
    rewrite addm_add in S1 by lia. replace (k + 1) with (S k) in S1 by lia. lia.
Qed.

Lemma dib_zero : forall (t : list slot) i, nth i t None = None -> dib t i = 0.
Proof. intros t i H. unfold dib. rewrite H. reflexivity. Qed.

Lemma dib_some : forall (t : list slot) i b, nth i t None = Some b -> dib t i = b_dib b.
Proof. intros t i b H. unfold dib. rewrite H. reflexivity. Qed.

Lemma dib_pos_some : forall (t : list slot) i, dib t i > 0 -> exists b, nth i t None = Some b.
Proof.
  intros t i H. unfold dib in H. destruct (nth i t None) as [b|]; [|lia].
  exists b. reflexivity.
Qed.

Lemma first_true : forall (P : nat -> bool) j, P j = true ->
  exists m, m <= j /\ P m = true /\ forall q, q < m -> P q = false.
Proof.
  intros P j. induction j as [j IH] using lt_wf_ind. intro H.
  destruct (existsb P (seq 0 j)) eqn:Ex.
  - apply existsb_exists in Ex. destruct Ex as (q & Hq & Pq). apply in_seq in Hq.
    destruct (IH q ltac:(lia) Pq) as (m & Hm & Pm & Hf). exists m. repeat split; auto. lia.
  - exists j. repeat split; auto. intros q Hq.
    destruct (P q) eqn:Pq; auto.
    assert (existsb P (seq 0 j) = true).
    { apply existsb_exists. exists q. split; [apply in_seq; lia|assumption]. }
    congruence.
Qed.

(** The situation inside the insertion loops: bucket [eb] is carried to [i]. *)
Record carried (n : nat) (t : list slot) (i : nat) (eb : bkt E) : Prop := {
  ca_i : i < n;
  ca_pos : 1 <= b_dib eb;
  ca_prev : b_dib eb <= dib t (addm n i (n - 1)) + 1;
  ca_home : addm n (home n (b_hash eb)) (b_dib eb - 1) = i
}.

Lemma carried_le_n : forall n t i eb e, pow2 n -> RH n t -> carried n t i eb ->
  e < n -> nth e t None = None -> b_dib eb <= n.
Proof.
  intros n t i eb e Hp H [Hi Hpos Hprev Hh] He Hne.
  set (p := addm n i (n - 1)) in *.
  assert (Hpn : p < n) by (apply addm_lt; lia).
  pose proof (dib_chain n t e (offs n e p) H He) as C.
  pose proof (offs_lt n e p He Hpn).
  rewrite addm_offs in C by assumption. rewrite (dib_zero _ _ Hne) in C.
  specialize (C ltac:(lia)). lia.
Qed.

Lemma carried_bound : forall n t i eb e, pow2 n -> RH n t -> carried n t i eb ->
  e < n -> nth e t None = None ->
  fits_n n (b_hash eb :: List.map fst (items t)) -> b_dib eb <= 254.
Proof.
  intros n t i eb e Hp H Hca He Hne Hfit.
  pose proof (carried_le_n n t i eb e Hp H Hca He Hne) as Hdn.
  destruct Hca as [Hi Hpos Hprev Hh].
  pose proof (pow2_ge2 n Hp) as Hn2.
  (* m: number of used buckets right before i *)
  destruct (first_true (fun j => match nth (addm n i (n - 1 - j)) t None with
    None => true | _ => false end) (n - 1 - offs n i e)) as (m & Hm & Pm & Pq).
  { pose proof (offs_lt n i e Hi He).
    replace (n - 1 - (n - 1 - offs n i e)) with (offs n i e) by lia.
    rewrite addm_offs by assumption. rewrite Hne. reflexivity. }
  assert (Hmn : m < n) by lia.
  set (z := addm n i (n - 1 - m)) in *.
  assert (Hz : z < n) by (apply addm_lt; lia).
  assert (Zn : nth z t None = None) by (destruct (nth z t None); congruence).
  set (s := addm n i (n - m)) in *.
  assert (Hs : s < n) by (apply addm_lt; lia).
  assert (Zs : forall q, q < m -> addm n z (q + 1) = addm n s q).
  { intros q Hq. apply ar_zs; assumption. }
  assert (Hprevz : addm n i (n - 1) = addm n z m) by (apply ar_prevz; assumption).
  assert (Dm : b_dib eb <= m + 1).
  { rewrite Hprevz in Hprev. pose proof (dib_chain n t z m H Hz ltac:(lia)) as C.
    rewrite (dib_zero _ _ Zn) in C. lia. }
  assert (Ho : offs n s (home n (b_hash eb)) = m + 1 - b_dib eb).
  { apply ar_offhome with (i := i); auto. apply home_lt; assumption. }
  assert (Hused : forall q, q < m -> exists b, nth (addm n s q) t None = Some b /\
     (offs n s (home n (b_hash b)) <? m + 2 - b_dib eb) = true).
  { intros q Hq.
    assert (Pnn : nth (addm n s q) t None <> None).
    { specialize (Pq (m - 1 - q) ltac:(lia)). cbv beta in Pq.
      replace (addm n i (n - 1 - (m - 1 - q))) with (addm n s q) in Pq
        by (symmetry; apply ar_pq; assumption).
      destruct (nth (addm n s q) t None); congruence. }
    destruct (nth (addm n s q) t None) as [b|] eqn:Eb; [|congruence].
    exists b. split; [reflexivity|].
    assert (Hsq : addm n s q < n) by (apply addm_lt; lia).
    pose proof (rh_home _ _ H _ _ Hsq Eb) as (B1 & B2 & B3 & B4).
    pose proof (home_lt n (b_hash b) Hp) as Hhb.
    (* upper bound on dib from the empty slot z *)
    pose proof (dib_chain n t z (q + 1) H Hz ltac:(lia)) as C1.
    rewrite (dib_zero _ _ Zn), Zs, (dib_some _ _ _ Eb) in C1 by assumption.
    (* lower bound from the bucket before i *)
    pose proof (dib_chain n t (addm n s q) (m - 1 - q) H Hsq ltac:(lia)) as C2.
    unfold s in C2 at 1. rewrite ar_last in C2 by assumption.
    rewrite (dib_some _ _ _ Eb) in C2.
    assert (Hoff : offs n s (home n (b_hash b)) = q + 1 - b_dib b).
    { apply ar_offb; auto; lia. }
    rewrite Hoff. apply Nat.ltb_lt. lia. }
  specialize (Hfit s (m + 2 - b_dib eb) Hs ltac:(lia)).
  unfold cntw in Hfit. cbn [filter] in Hfit. rewrite Ho in Hfit.
  replace (m + 1 - b_dib eb <? m + 2 - b_dib eb) with true in Hfit by lia.
  cbn [length] in Hfit.
  pose proof (filter_run (fun h => offs n s (home n h) <? m + 2 - b_dib eb) m
    (skipn s t ++ firstn s t)) as F.
  rewrite (filter_perm _ _ (List.map fst (items (skipn s t ++ firstn s t)))
     (List.map fst (items t))) in F.
  - enough (m <= length (filter (fun h => offs n s (home n h) <? m + 2 - b_dib eb)
       (List.map fst (items t)))) by lia.
    apply F. intros q Hq. destruct (Hused q Hq) as (b & Hb & HP).
    exists b. split; [|exact HP].
    rewrite rot_nth by (rewrite (rh_len _ _ H); lia).
    rewrite (rh_len _ _ H). exact Hb.
  - apply Permutation_map. rewrite items_app.
    rewrite <- (firstn_skipn s t) at 3. rewrite items_app. apply Permutation_app_comm.
Qed.

(** ** Insertion of an entry whose key is not present *)
Lemma mk_slot_pos : forall (b : bkt E), 1 <= b_dib b -> mk_slot b = Some b.
Proof. intros b H. unfold mk_slot. destruct (b_dib b =? 0) eqn:Z; [lia|reflexivity]. Qed.

Lemma dib_upd : forall (t : list slot) i j s, j < length t ->
  dib (upd t j s) i = if i =? j then match s with None => 0 | Some b => b_dib b end
                      else dib t i.
Proof.
  intros t i j s Hj. unfold dib. destruct (i =? j) eqn:Eij.
  - apply Nat.eqb_eq in Eij. subst. rewrite nth_upd_same by assumption. reflexivity.
  - apply Nat.eqb_neq in Eij. rewrite nth_upd_other by assumption. reflexivity.
Qed.

(* putting the carried bucket at i, over a free or poorer bucket, keeps RH *)
Lemma rh_put : forall n t i eb, pow2 n -> RH n t -> carried n t i eb ->
  b_dib eb <= 254 -> b_dib eb <= n -> dib t i <= b_dib eb -> RH n (upd t i (Some eb)).
Proof.
  intros n t i eb Hp H [Hi Hpos Hprev Hh] H254 Hn Hpoor.
  pose proof (rh_len _ _ H) as Hlen. pose proof (pow2_ge2 n Hp) as Hn2.
  constructor.
  - rewrite upd_length. assumption.
  - intros x Hx. rewrite !dib_upd by lia.
    destruct (addm n x 1 =? i) eqn:E1; destruct (x =? i) eqn:E2.
    + lia.
    + apply Nat.eqb_eq in E1. rewrite (ar_is_prev n x i Hx E1) in Hprev. lia.
    + apply Nat.eqb_eq in E2. subst x. pose proof (rh_step _ _ H i Hi). lia.
    + apply (rh_step _ _ H). assumption.
  - intros x b Hx Hb. destruct (Nat.eq_dec x i) as [->|Hne].
    + rewrite nth_upd_same in Hb by lia. injection Hb as <-. auto.
    + rewrite nth_upd_other in Hb by assumption. apply (rh_home _ _ H); assumption.
Qed.

Lemma place_ok : forall f n t i eb j, pow2 n -> RH n t -> carried n t i eb ->
  fits_n n (b_hash eb :: List.map fst (items t)) ->
  j < n -> nth (addm n i j) t None = None -> j < f ->
  exists t', place_loop f t n i eb = Some t' /\ RH n t' /\
    Permutation (items t') ((b_hash eb, b_ent eb) :: items t).
Proof.
  induction f as [|f IH]; intros n t i eb j Hp H Hca Hfit Hj Hej Hjf; [lia|].
  pose proof (rh_len _ _ H) as Hlen. pose proof (pow2_ge2 n Hp) as Hn2.
  pose proof Hca as [Hi Hpos Hprev Hh].
  assert (He : addm n i j < n) by (apply addm_lt; lia).
  pose proof (carried_bound n t i eb _ Hp H Hca He Hej Hfit) as H254.
  pose proof (carried_le_n n t i eb _ Hp H Hca He Hej) as Hdn.
  cbn [place_loop].
  destruct (nth i t None) as [b|] eqn:Eb.
  - assert (Hj0 : j <> 0).
    { intros ->. rewrite addm_0 in Hej by assumption. congruence. }
    assert (Hni : addm n i 1 < n) by (apply addm_lt; lia).
    assert (Enext : addm n (addm n i 1) (j - 1) = addm n i j).
    { rewrite addm_add by lia. f_equal. lia. }
    assert (Eprev : addm n (addm n i 1) (n - 1) = i) by (apply ar_prev_next; assumption).
    assert (Hij : addm n i j <> i) by (apply ar_ne; assumption).
    pose proof (rh_home _ _ H i b Hi Eb) as (B1 & B2 & B3 & B4).
    pose proof (home_lt n (b_hash b) Hp) as Hhb.
    pose proof (home_lt n (b_hash eb) Hp) as Hhe.
    destruct (b_dib b <? b_dib eb) eqn:Lt.
    + (* swap *)
      rewrite band_addm by assumption. rewrite mk_slot_pos by assumption.
      assert (Hput : RH n (upd t i (Some eb))).
      { apply rh_put; auto. rewrite (dib_some _ _ _ Eb). lia. }
      pose proof (items_upd t i (Some eb) ltac:(lia)) as Hperm.
      rewrite Eb in Hperm. cbn [slot_items app] in Hperm.
      destruct (IH n (upd t i (Some eb)) (addm n i 1) (inc_dib b) (j - 1))
        as (t' & E1 & R1 & P1); auto.
      * unfold inc_dib. rewrite Nat.mod_small by lia.
        constructor; cbn [b_dib b_hash].
        -- assumption.
        -- lia.
        -- rewrite Eprev. rewrite dib_upd by lia. rewrite Nat.eqb_refl. lia.
        -- replace (b_dib b + 1 - 1) with (b_dib b - 1 + 1) by lia.
           rewrite <- addm_add by lia. rewrite B4. reflexivity.
      * cbn [inc_dib b_hash]. eapply fits_perm; [|exact Hfit].
        change (b_hash b :: List.map fst (items (upd t i (Some eb))))
          with (List.map fst ((b_hash b, b_ent b) :: items (upd t i (Some eb)))).
        change (b_hash eb :: List.map fst (items t))
          with (List.map fst ((b_hash eb, b_ent eb) :: items t)).
        apply Permutation_map. symmetry. exact Hperm.
      * lia.
      * rewrite Enext. rewrite nth_upd_other by assumption. assumption.
      * lia.
      * exists t'. split; [exact E1|]. split; [exact R1|].
        eapply perm_trans; [exact P1|]. cbn [inc_dib b_hash b_ent]. exact Hperm.
    + (* continue *)
      rewrite band_addm by assumption.
      destruct (IH n t (addm n i 1) (inc_dib eb) (j - 1)) as (t' & E1 & R1 & P1); auto.
      * unfold inc_dib. rewrite Nat.mod_small by lia.
        constructor; cbn [b_dib b_hash].
        -- assumption.
        -- lia.
        -- rewrite Eprev. rewrite (dib_some _ _ _ Eb). lia.
        -- replace (b_dib eb + 1 - 1) with (b_dib eb - 1 + 1) by lia.
           rewrite <- addm_add by lia. rewrite Hh. reflexivity.
      * lia.
      * rewrite Enext. assumption.
      * lia.
      * exists t'. auto.
  - exists (upd t i (mk_slot eb)). split; [reflexivity|].
    rewrite mk_slot_pos by assumption. split.
    + apply rh_put; auto. rewrite (dib_zero _ _ Eb). lia.
    + pose proof (items_upd t i (Some eb) ltac:(lia)) as Hperm.
      rewrite Eb in Hperm. exact Hperm.
Qed.

Lemma carried_start : forall n t h e, pow2 n -> carried n t (home n h) (mkB 1 h e).
Proof.
  intros n t h e Hp. pose proof (home_lt n h Hp).
  constructor; cbn [b_dib b_hash]; try lia.
  rewrite addm_0; auto.
Qed.

(** ** Rehash *)
Lemma rehash_ok : forall old n t, pow2 n -> RH n t ->
  length (items old) + length (items t) < n ->
  fits_n n (List.map fst (items old) ++ List.map fst (items t)) ->
  exists t', rehash old t n = Some t' /\ RH n t' /\
    Permutation (items t') (items old ++ items t).
Proof.
  induction old as [|[b|] old IH]; intros n t Hp H Hcnt Hfit.
  - exists t. cbn. auto.
  - cbn [items List.map app length] in *. cbn [rehash].
    destruct (empty_slot_exists t) as (e & He & Hne); [rewrite (rh_len _ _ H); lia|].
    rewrite (rh_len _ _ H) in He.
    pose proof (home_lt n (b_hash b) Hp) as Hh.
    destruct (place_ok n n t (home n (b_hash b)) (mkB 1 (b_hash b) (b_ent b))
      (offs n (home n (b_hash b)) e)) as (t1 & E1 & R1 & P1); auto.
    + apply carried_start. assumption.
    + cbn [b_hash].
      apply fits_app_l with (b := List.map fst (items old)).
      eapply fits_perm; [|exact Hfit]. cbn [app].
      apply perm_skip. apply Permutation_app_comm.
    + apply offs_lt; assumption.
    + rewrite addm_offs by assumption. assumption.
    + apply offs_lt; assumption.
    + rewrite E1. cbn [b_hash b_ent] in P1.
      destruct (IH n t1 Hp R1) as (t' & E2 & R2 & P2).
      * rewrite (Permutation_length P1). cbn [length]. lia.
      * eapply fits_perm; [|exact Hfit]. cbn [fst].
        eapply perm_trans; [apply Permutation_middle|].
        apply Permutation_app_head.
        change (b_hash b :: List.map fst (items t))
          with (List.map fst ((b_hash b, b_ent b) :: items t)).
        apply Permutation_map. symmetry. exact P1.
      * exists t'. split; [exact E2|]. split; [exact R2|].
        eapply perm_trans; [exact P2|].
        eapply perm_trans; [apply Permutation_app_head; exact P1|].
        symmetry. apply Permutation_middle.
  - cbn [rehash items] in *. apply IH; auto.
Qed.

(** ** Lookup *)
Section Lookup.
Variable ekey : E -> bytes.

Definition keys (t : list slot) : list bytes := List.map (fun p => ekey (snd p)) (items t).

Lemma find_steps : forall f n t p b d k key hash, pow2 n -> RH n t -> p < n ->
  nth p t None = Some b -> d = b_dib b ->
  (forall i b', i < n -> nth i t None = Some b' -> bucket_eq ekey b' key hash = true -> i = p) ->
  bucket_eq ekey b key hash = true ->
  k < d -> d - k <= f ->
  find_loop ekey f t n (addm n (home n (b_hash b)) k) key hash = Some (Some p).
Proof.
  induction f as [|f IH]; intros n t p b d k key hash Hp H Hpn Hb Hd Huniq Heq Hk Hf; [lia|].
  pose proof (rh_home _ _ H _ _ Hpn Hb) as (B1 & B2 & B3 & B4).
  pose proof (home_lt n (b_hash b) Hp) as Hh. pose proof (pow2_ge2 n Hp).
  set (h := home n (b_hash b)) in *.
  assert (Hi : addm n h k < n) by (apply addm_lt; lia).
  assert (C : dib t (addm n h k) >= k + 1).
  { pose proof (dib_chain n t (addm n h k) (d - 1 - k) H Hi ltac:(lia)) as C.
    rewrite addm_add in C by lia. replace (k + (d - 1 - k)) with (d - 1) in C by lia.
    subst d. rewrite B4 in C. rewrite (dib_some _ _ _ Hb) in C. lia. }
  cbn [find_loop].
  destruct (dib_pos_some t (addm n h k)) as (b' & Hb'); [lia|].
  rewrite Hb'.
  destruct (bucket_eq ekey b' key hash) eqn:Eq.
  - do 2 f_equal. eapply Huniq; eauto.
  - rewrite band_addm by assumption. rewrite addm_add by lia.
    assert (k <> d - 1).
    { intros ->. subst d. rewrite B4 in Hb'. rewrite Hb in Hb'. injection Hb' as <-. congruence. }
    apply IH with (d := d); auto; lia.
Qed.

Lemma find_none : forall f n t i j key hash, pow2 n -> length t = n -> i < n ->
  (forall x b', x < n -> nth x t None = Some b' -> bucket_eq ekey b' key hash = false) ->
  j < n -> nth (addm n i j) t None = None -> j < f ->
  find_loop ekey f t n i key hash = Some None.
Proof.
  induction f as [|f IH]; intros n t i j key hash Hp Hl Hi Hno Hj Hej Hjf; [lia|].
  pose proof (pow2_ge2 n Hp).
  cbn [find_loop]. destruct (nth i t None) as [b|] eqn:Eb; [|reflexivity].
  rewrite (Hno i b Hi Eb). rewrite band_addm by assumption.
  assert (j <> 0) by (intros ->; rewrite addm_0 in Hej by assumption; congruence).
  apply IH with (j := j - 1); auto; try lia.
  - apply addm_lt; lia.
  - rewrite addm_add by lia. replace (1 + (j - 1)) with j by lia. assumption.
Qed.

(** Lookup succeeds exactly on the keys that are present. *)
Lemma find_present : forall n t p b key hash, pow2 n -> RH n t -> p < n ->
  nth p t None = Some b -> NoDup (keys t) -> ekey (b_ent b) = key -> b_hash b = hash ->
  find_loop ekey n t n (home n hash) key hash = Some (Some p).
Proof.
  intros n t p b key hash Hp H Hpn Hb Hnd Hk Hh.
  pose proof (rh_home _ _ H _ _ Hpn Hb) as (B1 & B2 & B3 & B4).
  pose proof (home_lt n (b_hash b) Hp) as Hhl.
  subst hash. rewrite <- (addm_0 n (home n (b_hash b))) by assumption.
  apply find_steps with (d := b_dib b); auto; try lia.
  - intros i b' Hi Hb' Heq.
    apply (nodup_pos bytes (fun p => ekey (snd p)) t i p b' b); auto.
    cbn [snd]. unfold bucket_eq in Heq. apply andb_true_iff in Heq.
    destruct Heq as [_ Heq]. apply beq_eq in Heq. congruence.
  - unfold bucket_eq. rewrite N.eqb_refl, Hk, beq_refl. reflexivity.
Qed.

Lemma find_absent : forall n t i key hash, pow2 n -> length t = n -> i < n ->
  length (items t) < n -> ~ In key (keys t) ->
  find_loop ekey n t n i key hash = Some None.
Proof.
  intros n t i key hash Hp Hl Hi Hc Hno.
  destruct (empty_slot_exists t) as (e & He & Hne); [lia|].
  apply find_none with (j := offs n i e); auto.
  - intros x b' Hx Hb'. unfold bucket_eq. apply andb_false_iff. right.
    apply beq_neq. intros ->. apply Hno. unfold keys.
    change (ekey (b_ent b')) with ((fun p => ekey (snd p)) (b_hash b', b_ent b')).
    apply in_map. apply nth_items_in with x. assumption.
  - apply offs_lt; lia.
  - rewrite addm_offs by lia. assumption.
  - apply offs_lt; lia.
Qed.


(** ** Insertion when the key is not present, and when it is *)
Variable ecmp : E -> E -> bool.
Variable W : E -> Prop.
Hypothesis ecmp_spec : forall a b, W a -> W b -> (ecmp a b = true <-> ekey a = ekey b).

Lemma in_keys : forall (t : list slot) i b, nth i t None = Some b -> In (ekey (b_ent b)) (keys t).
Proof.
  intros t i b H. unfold keys.
  change (ekey (b_ent b)) with ((fun p => ekey (snd p)) (b_hash b, b_ent b)).
  apply in_map. apply nth_items_in with i. assumption.
Qed.

Lemma ins_absent : forall f n (t : list slot) i eb,
  Forall (fun p => W (snd p)) (items t) -> W (b_ent eb) ->
  length t = n -> pow2 n -> i < n ->
  NoDup (ekey (b_ent eb) :: keys t) ->
  ins_loop ecmp f t n i eb
  = match place_loop f t n i eb with Some t' => Some (t', None) | None => None end.
Proof.
  induction f as [|f IH]; intros n t i eb Hw Hwe Hl Hp Hi Hnd; [reflexivity|].
  pose proof (pow2_ge2 n Hp).
  cbn [ins_loop place_loop]. destruct (nth i t None) as [b|] eqn:Eb; [|reflexivity].
  assert (Wb : W (b_ent b)).
  { rewrite Forall_forall in Hw. apply (Hw (b_hash b, b_ent b)). apply nth_items_in with i; assumption. }
  assert (Hne : ecmp (b_ent eb) (b_ent b) = false).
  { destruct (ecmp (b_ent eb) (b_ent b)) eqn:Ec; [|reflexivity].
    apply ecmp_spec in Ec; auto. inversion Hnd as [|? ? Hni _]; subst. exfalso. apply Hni.
    rewrite Ec. apply in_keys with i. assumption. }
  rewrite Hne, andb_false_r.
  rewrite band_addm by assumption.
  assert (Hni : addm n i 1 < n) by (apply addm_lt; lia).
  destruct (b_dib b <? b_dib eb) eqn:Lt.
  - pose proof (items_upd t i (mk_slot eb) ltac:(lia)) as Hpm. rewrite Eb in Hpm.
    cbn [slot_items app] in Hpm.
    apply IH; auto.
    + assert (Fa : Forall (fun p => W (snd p)) ((b_hash b, b_ent b) :: items (upd t i (mk_slot eb)))).
      { eapply Permutation_Forall; [symmetry; exact Hpm|]. apply Forall_app. split; [|assumption].
        unfold mk_slot. destruct (b_dib eb =? 0); cbn [slot_items]; auto. }
      inversion Fa; assumption.
    + rewrite upd_length. assumption.
    + cbn [inc_dib b_ent].
      apply (Permutation_NoDup (l := List.map (fun p => ekey (snd p)) (slot_items (mk_slot eb) ++ items t))).
      * change (ekey (b_ent b) :: keys (upd t i (mk_slot eb)))
          with (List.map (fun p => ekey (snd p)) ((b_hash b, b_ent b) :: items (upd t i (mk_slot eb)))).
        apply Permutation_map. symmetry. exact Hpm.
      * rewrite map_app. unfold mk_slot. destruct (b_dib eb =? 0); cbn [slot_items List.map app snd].
        -- inversion Hnd; assumption.
        -- assumption.
  - apply IH; auto.
Qed.

Lemma ins_steps : forall f n (t : list slot) p b d k e, pow2 n -> RH n t -> p < n ->
  nth p t None = Some b -> d = b_dib b ->
  Forall (fun q => W (snd q)) (items t) -> W e ->
  NoDup (keys t) -> ekey (b_ent b) = ekey e ->
  k < d -> d - k <= f ->
  ins_loop ecmp f t n (addm n (home n (b_hash b)) k) (mkB (k + 1) (b_hash b) e)
  = Some (upd t p (Some (mkB (b_dib b) (b_hash b) e)), Some (b_ent b)).
Proof.
  induction f as [|f IH]; intros n t p b d k e Hp H Hpn Hb Hd Hw We Hnd Hkey Hk Hf; [lia|].
  pose proof (rh_home _ _ H _ _ Hpn Hb) as (B1 & B2 & B3 & B4).
  pose proof (home_lt n (b_hash b) Hp) as Hh. pose proof (pow2_ge2 n Hp).
  set (h := home n (b_hash b)) in *.
  assert (Hi : addm n h k < n) by (apply addm_lt; lia).
  assert (C : dib t (addm n h k) >= k + 1).
  { pose proof (dib_chain n t (addm n h k) (d - 1 - k) H Hi ltac:(lia)) as C.
    rewrite addm_add in C by lia. replace (k + (d - 1 - k)) with (d - 1) in C by lia.
    subst d. rewrite B4 in C. rewrite (dib_some _ _ _ Hb) in C. lia. }
  cbn [ins_loop b_hash b_ent b_dib].
  destruct (dib_pos_some t (addm n h k)) as (b' & Hb'); [lia|].
  rewrite Hb'. rewrite (dib_some _ _ _ Hb') in C.
  destruct (Nat.eq_dec k (d - 1)) as [Ek|Nk].
  - subst k d. rewrite B4 in Hb'. rewrite Hb in Hb'. injection Hb' as <-.
    rewrite N.eqb_refl. rewrite B4.
    replace (ecmp e (b_ent b)) with true; [reflexivity|].
    symmetry. apply ecmp_spec; auto.
    rewrite Forall_forall in Hw. apply (Hw (b_hash b, b_ent b)). apply nth_items_in with p; assumption.
  - assert (Hne : ecmp e (b_ent b') = false).
    { destruct (ecmp e (b_ent b')) eqn:Ec; [|reflexivity].
      apply ecmp_spec in Ec; auto.
      - assert (addm n h k = p).
        { apply (nodup_pos bytes (fun p => ekey (snd p)) t (addm n h k) p b' b); auto.
          cbn [snd]. congruence. }
        subst d. rewrite <- B4 in H1. apply addm_inj in H1; lia.
      - rewrite Forall_forall in Hw. apply (Hw (b_hash b', b_ent b')).
        apply nth_items_in with (addm n h k); assumption. }
    rewrite Hne, andb_false_r.
    replace (b_dib b' <? k + 1) with false by lia.
    rewrite band_addm, addm_add by lia || assumption.
    unfold inc_dib. cbn [b_dib b_hash b_ent]. rewrite Nat.mod_small by lia.
    apply (IH n t p b d (k + 1) e); auto; lia.
Qed.

Lemma ins_present : forall n (t : list slot) p b e, pow2 n -> RH n t -> p < n ->
  nth p t None = Some b ->
  Forall (fun q => W (snd q)) (items t) -> W e ->
  NoDup (keys t) -> ekey (b_ent b) = ekey e ->
  ins_loop ecmp n t n (home n (b_hash b)) (mkB 1 (b_hash b) e)
  = Some (upd t p (Some (mkB (b_dib b) (b_hash b) e)), Some (b_ent b)).
Proof.
  intros n t p b e Hp H Hpn Hb Hw We Hnd Hkey.
  pose proof (rh_home _ _ H _ _ Hpn Hb) as (B1 & B2 & B3 & B4).
  pose proof (home_lt n (b_hash b) Hp) as Hhl.
  rewrite <- (addm_0 n (home n (b_hash b))) by assumption.
  apply (ins_steps n n t p b (b_dib b) 0 e); auto; lia.
Qed.

End Lookup.

(** ** Changing the entry of a bucket keeps the structure *)
Lemma rh_set_ent : forall n (t : list slot) p b e, RH n t -> p < n -> nth p t None = Some b ->
  RH n (upd t p (Some (mkB (b_dib b) (b_hash b) e))).
Proof.
  intros n t p b e H Hpn Hb. pose proof (rh_len _ _ H) as Hl. constructor.
  - rewrite upd_length. assumption.
  - intros i Hi. rewrite !dib_upd by lia. cbn [b_dib].
    pose proof (rh_step _ _ H i Hi) as S1.
    pose proof (dib_some _ _ _ Hb) as D.
    destruct (addm n i 1 =? p) eqn:E1; destruct (i =? p) eqn:E2;
      repeat match goal with
      | X : (_ =? _) = true |- _ => apply Nat.eqb_eq in X; rewrite ?X in *; clear X
      end; lia.
  - intros i b' Hi Hb'. destruct (Nat.eq_dec i p) as [->|Hne].
    + rewrite nth_upd_same in Hb' by lia. injection Hb' as <-. cbn [b_dib b_hash].
      apply (rh_home _ _ H p b); auto.
    + rewrite nth_upd_other in Hb' by assumption. apply (rh_home _ _ H); assumption.
Qed.

(** ** Deletion by backward shift *)
Record hole (n : nat) (t : list slot) (h : nat) : Prop := {
  ho_len : length t = n;
  ho_h : h < n;
  ho_none : nth h t None = None;
  ho_step : forall i, i < n -> i <> h -> dib t (addm n i 1) <= dib t i + 1;
  ho_gap : dib t (addm n h 1) <= dib t (addm n h (n - 1)) + 2;
  ho_home : forall i b, i < n -> nth i t None = Some b ->
    1 <= b_dib b /\ b_dib b <= 254 /\ b_dib b <= n /\
    addm n (home n (b_hash b)) (b_dib b - 1) = i
}.

Lemma del_loop_hole : forall f n (t : list slot) h, pow2 n -> length t = n -> h < n ->
  del_loop f (upd t h None) n h = del_loop f t n h.
Proof.
  intros [|f] n t h Hp Hl Hh; [reflexivity|]. pose proof (pow2_ge2 n Hp).
  cbn [del_loop]. rewrite band_addm by assumption.
  rewrite nth_upd_other by (apply ar_ne; lia).
  destruct (nth (addm n h 1) t None) as [b|]; rewrite ?upd_upd; reflexivity.
Qed.

(** same hash and entry, the distance may differ *)
Definition same_content (a b : slot) : Prop :=
  match a, b with
  | Some x, Some y => b_hash x = b_hash y /\ b_ent x = b_ent y
  | _, _ => False
  end.

Lemma del_ok : forall f n (t : list slot) h j, pow2 n -> hole n t h ->
  1 <= j -> j < n -> nth (addm n h j) t None = None -> j <= f ->
  exists t', del_loop f t n h = Some t' /\ RH n t' /\ Permutation (items t') (items t) /\
    (forall i, i < n -> nth i t' None = None \/ nth i t' None = nth i t None \/
       (offs n h i < j /\ same_content (nth i t' None) (nth (addm n i 1) t None))).
Proof.
  induction f as [|f IH]; intros n t h j Hp H Hj1 Hjn Hej Hjf; [lia|].
  pose proof (pow2_ge2 n Hp) as Hn2. destruct H as [Hl Hh Hnone Hstep Hgap Hhome].
  cbn [del_loop]. rewrite band_addm by assumption.
  assert (Hi : addm n h 1 < n) by (apply addm_lt; lia).
  assert (Hih : addm n h 1 <> h) by (apply ar_ne; lia).
  assert (Hstop : dib t (addm n h 1) <= 1 ->
    exists t', Some (upd t h None) = Some t' /\ RH n t' /\ Permutation (items t') (items t) /\
    (forall i, i < n -> nth i t' None = None \/ nth i t' None = nth i t None \/
       (offs n h i < j /\ same_content (nth i t' None) (nth (addm n i 1) t None)))).
  { intro D. exists t. rewrite <- Hnone. rewrite upd_same. split; [reflexivity|].
    split; [|split; [reflexivity|auto]].
    constructor; auto. intros i Hin. destruct (Nat.eq_dec i h) as [->|Ne]; [|auto].
    lia. }
  destruct (nth (addm n h 1) t None) as [b|] eqn:Eb.
  2:{ apply Hstop. rewrite (dib_zero _ _ Eb). lia. }
  destruct (b_dib b <=? 1) eqn:D1.
  { apply Hstop. rewrite (dib_some _ _ _ Eb). lia. }
  clear Hstop. assert (D2 : 2 <= b_dib b) by lia. clear D1.
  rewrite mk_slot_pos by (cbn; lia).
  set (b' := mkB (b_dib b - 1) (b_hash b) (b_ent b)).
  set (i := addm n h 1) in *.
  set (t1 := upd t h (Some b')).
  assert (Ht1l : length t1 = n) by (unfold t1; rewrite upd_length; assumption).
  rewrite <- del_loop_hole by assumption.
  set (t2 := upd t1 i None).
  assert (Ht2l : length t2 = n) by (unfold t2; rewrite upd_length; assumption).
  assert (N2 : forall x, nth x t2 None = if x =? i then None else if x =? h then Some b' else nth x t None).
  { intro x. unfold t2, t1. destruct (x =? i) eqn:X1.
    - apply Nat.eqb_eq in X1. subst x. apply nth_upd_same. rewrite upd_length. lia.
    - apply Nat.eqb_neq in X1. rewrite nth_upd_other by assumption.
      destruct (x =? h) eqn:X2.
      + apply Nat.eqb_eq in X2. subst x. apply nth_upd_same. lia.
      + apply Nat.eqb_neq in X2. apply nth_upd_other. assumption. }
  assert (D2' : forall x, dib t2 x = if x =? i then 0 else if x =? h then b_dib b - 1 else dib t x).
  { intro x. unfold dib at 1. rewrite N2. destruct (x =? i); [reflexivity|].
    destruct (x =? h); reflexivity. }
  pose proof (dib_some _ _ _ Eb) as Db.
  destruct (Hhome _ _ Hi Eb) as (B1 & B2 & B3 & B4).
  pose proof (home_lt n (b_hash b) Hp) as Hhb.
  assert (Hj2 : j <> 1).
  { intros ->. fold i in Hej. congruence. }
  assert (Hjh : addm n h j <> h) by (apply ar_ne; lia).
  assert (Hji : addm n h j <> i).
  { intro X. unfold i in X. apply addm_inj in X; lia. }
  assert (Enext : addm n i (j - 1) = addm n h j).
  { unfold i. rewrite addm_add by lia. f_equal. lia. }
  assert (Hprev_i : addm n i (n - 1) = h) by (apply ar_prev_next; assumption).
  destruct (IH n t2 i (j - 1)) as (t' & E1 & R1 & P1 & Q1); auto; try lia.
  - constructor; auto.
    + rewrite N2, Nat.eqb_refl. reflexivity.
    + intros x Hx Hxi. rewrite !D2'.
      replace (x =? i) with false by lia.
      destruct (addm n x 1 =? i) eqn:X1; [lia|].
      destruct (addm n x 1 =? h) eqn:X2.
      * apply Nat.eqb_eq in X2. rewrite (ar_is_prev n x h Hx X2) in Hgap.
        destruct (x =? h) eqn:X3; lia.
      * destruct (x =? h) eqn:X3.
        -- apply Nat.eqb_eq in X3. subst x. fold i in X1. lia.
        -- apply Hstep; lia.
    + rewrite Hprev_i. rewrite !D2'.
      replace (h =? i) with false by lia. rewrite Nat.eqb_refl.
      destruct (addm n i 1 =? i) eqn:X1; [lia|].
      destruct (addm n i 1 =? h) eqn:X2; [lia|].
      pose proof (Hstep i Hi Hih). lia.
    + intros x bx Hx. rewrite N2.
      destruct (x =? i) eqn:X1; [discriminate|]. destruct (x =? h) eqn:X2.
      * intros [= <-]. apply Nat.eqb_eq in X2. subst x. unfold b'. cbn [b_dib b_hash].
        repeat split; try lia.
        replace (b_dib b - 1 - 1) with (b_dib b - 2) by lia.
        apply (f_equal (fun z => addm n z (n - 1))) in B4. rewrite Hprev_i in B4.
        rewrite <- B4. clear - D2 B3 Hhb. ad.
      * apply Hhome. assumption.
  - rewrite Enext, N2. replace (addm n h j =? i) with false by lia.
    replace (addm n h j =? h) with false by lia. assumption.
  - exists t'. split; [exact E1|]. split; [exact R1|]. split.
    + eapply perm_trans; [exact P1|].
      pose proof (items_upd t h (Some b') ltac:(lia)) as P2.
      rewrite Hnone in P2. cbn [slot_items app] in P2. fold t1 in P2.
      pose proof (items_upd t1 i None ltac:(lia)) as P3. fold t2 in P3.
      assert (X : nth i t1 None = Some b).
      { unfold t1. rewrite nth_upd_other by assumption. assumption. }
      rewrite X in P3. cbn [slot_items app] in P3.
      apply Permutation_cons_inv with (a := (b_hash b, b_ent b)).
      eapply perm_trans; [exact P3|]. exact P2.
    + intros x Hx. destruct (Q1 x Hx) as [Q|[Q|[Q Q']]].
      * left. assumption.
      * rewrite N2 in Q. destruct (x =? i) eqn:X1; [left; assumption|].
        destruct (x =? h) eqn:X2; [|right; left; assumption].
        right. right. apply Nat.eqb_eq in X2. subst x. split; [clear - Hj1; ad|].
        rewrite Q. fold i. rewrite Eb. cbn. auto.
      * right. right.
        assert (Hoff : offs n h x < j).
        { clear - Q Hx Hh Hj1 Hjn Hn2. unfold i in Q. ad. }
        split; [assumption|].
        rewrite N2 in Q'.
        destruct (addm n x 1 =? i) eqn:X1.
        { destruct (nth x t' None); cbn in Q'; contradiction. }
        destruct (addm n x 1 =? h) eqn:X2; [|assumption].
        exfalso. apply Nat.eqb_eq in X2. clear - X2 Hx Hh Q Hjn Hn2 Hj1. unfold i in Q. ad.
Qed.

Lemma delbkt_ok : forall n (t : list slot) p b, pow2 n -> RH n t -> p < n ->
  nth p t None = Some b -> length (items t) < n ->
  exists t', del_loop n (upd t p None) n p = Some t' /\ RH n t' /\
    Permutation ((b_hash b, b_ent b) :: items t') (items t) /\
    (forall i, i < n -> nth i t' None = None \/ (i <> p /\ nth i t' None = nth i t None) \/
       (addm n i 1 <> p /\ same_content (nth i t' None) (nth (addm n i 1) t None))).
Proof.
  intros n t p b Hp H Hpn Hb Hc. pose proof (pow2_ge2 n Hp) as Hn2.
  pose proof (rh_len _ _ H) as Hl.
  destruct (empty_slot_exists t) as (e & He & Hne); [lia|]. rewrite Hl in He.
  pose proof (offs_lt n p e Hpn He) as Ho. pose proof (addm_offs n p e Hpn He) as Hao.
  set (j := offs n p e) in *.
  assert (Hj : j <> 0).
  { intros Z. rewrite Z, addm_0 in Hao by assumption. congruence. }
  destruct (del_ok n n (upd t p None) p j) as (t' & E1 & R1 & P1 & Q1); auto; try lia.
  - constructor; auto.
    + rewrite upd_length. assumption.
    + apply nth_upd_same. lia.
    + intros i Hi Hip. rewrite !dib_upd by lia. replace (i =? p) with false by lia.
      destruct (addm n i 1 =? p); [lia|]. apply (rh_step _ _ H). assumption.
    + rewrite !dib_upd by lia.
      replace (addm n p 1 =? p) with false
        by (symmetry; apply Nat.eqb_neq; apply ar_ne; lia).
      replace (addm n p (n - 1) =? p) with false
        by (symmetry; apply Nat.eqb_neq; apply ar_ne; lia).
      pose proof (rh_step _ _ H p Hpn).
      pose proof (rh_step _ _ H (addm n p (n - 1)) ltac:(apply addm_lt; lia)) as S2.
      rewrite ar_next_prev in S2 by assumption. lia.
    + intros i b' Hi Hb'. destruct (Nat.eq_dec i p) as [->|Ne].
      * rewrite nth_upd_same in Hb' by lia. discriminate.
      * rewrite nth_upd_other in Hb' by assumption. apply (rh_home _ _ H); assumption.
  - rewrite Hao. rewrite nth_upd_other; [assumption|]. intros ->. congruence.
  - exists t'. split; [exact E1|]. split; [exact R1|]. split.
    + pose proof (items_upd t p None ltac:(lia)) as P2. rewrite Hb in P2.
      cbn [slot_items app] in P2. eapply perm_trans; [|exact P2].
      apply perm_skip. exact P1.
    + intros i Hi. destruct (Q1 i Hi) as [Q|[Q|[Q Q']]]; auto.
      * destruct (Nat.eq_dec i p) as [->|Ne].
        -- left. rewrite Q. apply nth_upd_same. lia.
        -- right. left. split; [assumption|]. rewrite Q. apply nth_upd_other. assumption.
      * right. right.
        assert (addm n i 1 <> p) by (clear - Q Hi Hpn Ho Hn2 Hj; ad).
        split; [assumption|]. rewrite nth_upd_other in Q' by assumption. assumption.
Qed.
End Items.
