(** The checksum finds every change of at most 32 consecutive bits. *)
From Verif Require Import Base Save SaveSpec.
Local Open Scope N_scope.

Lemma bit_lin : forall a b, crc_bit (N.lxor a b) = N.lxor (crc_bit a) (crc_bit b).
Proof.
  intros a b. unfold crc_bit.
  assert (O : N.odd (N.lxor a b) = xorb (N.odd a) (N.odd b)) by (rewrite <- !N.bit0_odd; apply N.lxor_spec).
  rewrite O, N.shiftr_lxor. set (P := 0xedb88320).
  destruct (N.odd a), (N.odd b); cbn [xorb].
  - rewrite <- N.lxor_assoc. rewrite (N.lxor_comm P (N.shiftr a 1)), (N.lxor_assoc (N.shiftr a 1) P P), N.lxor_nilpotent, N.lxor_0_r. reflexivity.
  - rewrite N.lxor_assoc. reflexivity.
  - rewrite <- !N.lxor_assoc, (N.lxor_comm (N.shiftr a 1) P). reflexivity.
  - reflexivity.
Qed.
Lemma bit_0 : crc_bit 0 = 0.
Proof. reflexivity. Qed.
Lemma lt_pow_bits : forall x n, x < 2 ^ n <-> (forall i, n <= i -> N.testbit x i = false).
Proof.
  intros x n. split.
  - intros H i Hi. destruct (N.eq_dec x 0) as [->|Nz]; [apply N.bits_0|].
    apply N.bits_above_log2. apply N.log2_lt_pow2 in H; lia.
  - intro H. destruct (N.lt_ge_cases x (2 ^ n)) as [L|L]; [exact L|].
    exfalso. assert (0 < x) by (pose proof (N.pow_nonzero 2 n); lia).
    assert (n <= N.log2 x) by (apply N.log2_le_pow2; assumption).
    specialize (H _ H1). rewrite N.bit_log2 in H by lia. discriminate.
Qed.
Lemma lxor_lt : forall a b n, a < 2 ^ n -> b < 2 ^ n -> N.lxor a b < 2 ^ n.
Proof.
  intros a b n A B. rewrite lt_pow_bits in *. intros i Hi. rewrite N.lxor_spec, (A i Hi), (B i Hi). reflexivity.
Qed.
Lemma bit_lt : forall x, x < 2 ^ 32 -> crc_bit x < 2 ^ 32.
Proof.
  intros x H. unfold crc_bit. assert (L : N.shiftr x 1 < 2 ^ 32) by (rewrite N.shiftr_div_pow2; change (2 ^ 1) with 2; lia).
  destruct (N.odd x); [|exact L]. apply lxor_lt; [lia|exact L].
Qed.
Lemma bit_zero : forall x, x < 2 ^ 32 -> crc_bit x = 0 -> x = 0.
Proof.
  intros x L H. unfold crc_bit in H. rewrite N.shiftr_div_pow2 in H. change (2 ^ 1) with 2 in H. destruct (N.odd x) eqn:O.
  - apply N.lxor_eq in H. lia.
  - rewrite <- N.bit0_odd in O. rewrite N.bit0_odd in O. unfold N.odd in O. apply negb_false_iff in O. apply N.even_spec in O. destruct O as (y & ->). lia.
Qed.
Lemma bit_even : forall x, crc_bit (2 * x) = x.
Proof.
  intro x. unfold crc_bit. replace (N.odd (2 * x)) with false.
  - rewrite N.shiftr_div_pow2. change (2 ^ 1) with 2. lia.
  - symmetry. rewrite N.odd_mul. reflexivity.
Qed.

Fixpoint bits (n : nat) (x : N) : N := match n with O => x | S n' => bits n' (crc_bit x) end.
Lemma bits_lin : forall n a b, bits n (N.lxor a b) = N.lxor (bits n a) (bits n b).
Proof. induction n as [|n IH]; intros a b; [reflexivity|]. cbn [bits]. rewrite bit_lin. apply IH. Qed.
Lemma bits_add : forall n m x, bits (n + m) x = bits m (bits n x).
Proof. induction n as [|n IH]; intros m x; [reflexivity|]. cbn [bits Nat.add]. apply IH. Qed.
Lemma bits_lt : forall n x, x < 2 ^ 32 -> bits n x < 2 ^ 32.
Proof. induction n as [|n IH]; intros x H; [exact H|]. cbn [bits]. apply IH, bit_lt, H. Qed.
Lemma bits_zero : forall n x, x < 2 ^ 32 -> bits n x = 0 -> x = 0.
Proof. induction n as [|n IH]; intros x L H; [exact H|]. cbn [bits] in H. apply bit_zero; [exact L|]. apply IH; [apply bit_lt, L|exact H]. Qed.
Lemma bits_shift : forall n x, bits n (N.shiftl x (N.of_nat n)) = x.
Proof.
  induction n as [|n IH]; intro x; [apply N.shiftl_0_r|]. cbn [bits]. rewrite Nat2N.inj_succ, N.shiftl_succ_r.
  replace (N.double (N.shiftl x (N.of_nat n))) with (2 * N.shiftl x (N.of_nat n)) by (symmetry; apply N.double_spec).
  rewrite bit_even. apply IH.
Qed.
Lemma table_bits : forall x, crc_table x = bits 8 x.
Proof. reflexivity. Qed.

Lemma byte_bits : forall s b, byte_ok b -> crc_byte s b = bits 8 (N.lxor s b).
Proof.
  intros s b Hb. unfold crc_byte. rewrite table_bits.
  assert (E : N.lxor s b = N.lxor (N.land (N.lxor s b) 255) (N.shiftl (N.shiftr s 8) 8)).
  { apply N.bits_inj. intro i. rewrite !N.lxor_spec, N.land_spec, N.lxor_spec.
    change 255 with (N.ones 8). destruct (N.lt_ge_cases i 8) as [L|L].
    - rewrite N.ones_spec_low by exact L. rewrite N.shiftl_spec_low by exact L. rewrite andb_true_r, xorb_false_r. reflexivity.
    - rewrite N.ones_spec_high by exact L. rewrite N.shiftl_spec_high' by exact L. rewrite N.shiftr_spec'.
      replace (i - 8 + 8) with i by lia.
      assert (B : N.testbit b i = false) by (apply (proj1 (lt_pow_bits b 8)); [exact Hb|exact L]).
      rewrite B, andb_false_r, xorb_false_r, xorb_false_l. reflexivity. }
  rewrite E at 2. rewrite bits_lin. f_equal. symmetry. exact (bits_shift 8 (N.shiftr s 8)).
Qed.

Lemma le_val_split : forall b l, byte_ok b -> b + 256 * le_val l = N.lxor b (N.shiftl (le_val l) 8).
Proof.
  intros b l Hb. rewrite N.shiftl_mul_pow2. change (2 ^ 8) with 256. symmetry.
  rewrite N.mul_comm. apply N.bits_inj. intro i. rewrite N.lxor_spec.
  change 256 with (2 ^ 8). rewrite (N.mul_comm (2 ^ 8)).
  destruct (N.lt_ge_cases i 8) as [L|L].
  - rewrite N.mul_pow2_bits_low by exact L. rewrite xorb_false_r. rewrite <- (N.mod_pow2_bits_low (b + _) 8 i L).
    rewrite N.mod_add by discriminate. rewrite N.mod_small by exact Hb. reflexivity.
  - rewrite (N.mul_pow2_bits_high _ 8 i L).
    assert (B : N.testbit b i = false) by (apply (proj1 (lt_pow_bits b 8)); [exact Hb|exact L]). rewrite B, xorb_false_l.
    replace i with (i - 8 + 8) at 2 by lia. rewrite <- N.div_pow2_bits. rewrite N.div_add by discriminate.
    rewrite (N.div_small b) by exact Hb. reflexivity.
Qed.

(** The state after reading [a]. *)
Lemma fold_bits : forall a s, bytes_ok a -> fold_left crc_byte a s = bits (8 * length a) (N.lxor s (le_val a)).
Proof.
  induction a as [|b a IH]; intros s H; cbn [fold_left length le_val].
  - rewrite N.lxor_0_r. reflexivity.
  - inversion H as [|? ? Hb Ha]; subst. rewrite IH by exact Ha. rewrite byte_bits by exact Hb.
    rewrite le_val_split by exact Hb. rewrite <- N.lxor_assoc.
    replace (8 * S (length a))%nat with (8 + 8 * length a)%nat by lia. rewrite bits_add.
    f_equal. rewrite (bits_lin 8 (N.lxor s b)). f_equal. symmetry. exact (bits_shift 8 (le_val a)).
Qed.

Lemma fold_lt : forall a s, bytes_ok a -> s < 2 ^ 32 -> fold_left crc_byte a s < 2 ^ 32.
Proof.
  induction a as [|b a IH]; intros s H L; [exact L|]. inversion H as [|? ? Hb Ha]; subst. cbn [fold_left]. apply IH; [exact Ha|].
  rewrite byte_bits by exact Hb. apply bits_lt. apply lxor_lt; [exact L|]. unfold byte_ok in Hb. lia.
Qed.
Lemma crc32_lt : forall a, bytes_ok a -> crc32 a < 2 ^ 32.
Proof. intros a H. apply lxor_lt; [|reflexivity]. apply fold_lt; [exact H|reflexivity]. Qed.

(** A difference of the form [w * 2^k] changes the checksum. *)
Lemma burst_differs : forall a b w k, bytes_ok a -> bytes_ok b -> length a = length b ->
  N.lxor (le_val a) (le_val b) = N.shiftl w k -> 0 < w < 2 ^ 32 -> crc32 a <> crc32 b.
Proof.
  intros a b w k Ha Hb Hl E [W0 W] H. unfold crc32 in H.
  assert (H1 : fold_left crc_byte a 0xFFFFFFFF = fold_left crc_byte b 0xFFFFFFFF).
  { rewrite <- (N.lxor_0_r (fold_left crc_byte a _)), <- (N.lxor_0_r (fold_left crc_byte b _)).
    rewrite <- (N.lxor_nilpotent 0xFFFFFFFF), <- !N.lxor_assoc, H. reflexivity. }
  rewrite !fold_bits in H1 by assumption. rewrite <- Hl in H1.
  assert (Z0 : bits (8 * length a) (N.shiftl w k) = 0).
  { rewrite <- E. rewrite bits_lin. rewrite !bits_lin in H1.
    assert (H2 : bits (8 * length a) (le_val a) = bits (8 * length a) (le_val b)).
    { set (t := bits (8 * length a) 0xFFFFFFFF) in *.
      rewrite <- (N.lxor_0_l (bits _ (le_val a))), <- (N.lxor_0_l (bits _ (le_val b))).
      rewrite <- (N.lxor_nilpotent t), !N.lxor_assoc, H1. reflexivity. }
    rewrite H2. apply N.lxor_nilpotent. }
  assert (Lk : k < 8 * N.of_nat (length a)).
  { destruct (N.lt_ge_cases k (8 * N.of_nat (length a))) as [L|L]; [exact L|]. exfalso.
    assert (X : N.shiftl w k < 2 ^ (8 * N.of_nat (length a))).
    { rewrite <- E. apply lxor_lt.
      - pose proof (le_val_bound a Ha) as B. change 256 with (2 ^ 8) in B. rewrite <- N.pow_mul_r in B. exact B.
      - pose proof (le_val_bound b Hb) as B. change 256 with (2 ^ 8) in B. rewrite <- N.pow_mul_r, <- Hl in B. exact B. }
    rewrite N.shiftl_mul_pow2 in X.
    assert (2 ^ (8 * N.of_nat (length a)) <= 2 ^ k) by (apply N.pow_le_mono_r; lia).
    assert (1 * 2 ^ k <= w * 2 ^ k) by (apply N.mul_le_mono_r; lia). lia. }
  replace (8 * length a)%nat with (N.to_nat k + (8 * length a - N.to_nat k))%nat in Z0 by lia.
  rewrite bits_add in Z0. pose proof (bits_shift (N.to_nat k) w) as Bs. rewrite N2Nat.id in Bs. rewrite Bs in Z0.
  apply bits_zero in Z0; [lia|exact W].
Qed.

Lemma le_val_bit : forall d i, bytes_ok d -> N.testbit (le_val d) i = data_bit d i.
Proof.
  induction d as [|b d IH]; intros i H; unfold data_bit.
  - cbn [le_val]. rewrite N.bits_0. destruct (N.to_nat (i / 8)); cbn [nth]; rewrite N.bits_0; reflexivity.
  - inversion H as [|? ? Hb Hd]; subst. cbn [le_val]. rewrite le_val_split by exact Hb. rewrite N.lxor_spec.
    destruct (N.lt_ge_cases i 8) as [L|L].
    + rewrite N.shiftl_spec_low by exact L. rewrite N.div_small by exact L. rewrite N.mod_small by exact L. cbn [N.to_nat nth]. apply xorb_false_r.
    + rewrite N.shiftl_spec_high' by exact L. rewrite IH by exact Hd. unfold data_bit.
      assert (B : N.testbit b i = false) by (apply (proj1 (lt_pow_bits b 8)); [exact Hb|exact L]). rewrite B, xorb_false_l.
      assert (Q : i / 8 = (i - 8) / 8 + 1 /\ i mod 8 = (i - 8) mod 8) by lia. destruct Q as [Q1 Q2].
      rewrite Q1, Q2. replace (N.to_nat ((i - 8) / 8 + 1)) with (S (N.to_nat ((i - 8) / 8))) by lia. reflexivity.
Qed.
Lemma le_val_inj : forall a b, bytes_ok a -> bytes_ok b -> length a = length b -> le_val a = le_val b -> a = b.
Proof.
  intros a b Ha Hb Hl E. rewrite <- (le_bytes_val a Ha), <- (le_bytes_val b Hb), Hl, E. reflexivity.
Qed.

Lemma window_differs : forall a b k, bytes_ok a -> bytes_ok b -> length a = length b -> a <> b ->
  (forall i, data_bit a i <> data_bit b i -> k <= i < k + 32) -> crc32 a <> crc32 b.
Proof.
  intros a b k Ha Hb Hl Ne W. set (x := N.lxor (le_val a) (le_val b)).
  apply (burst_differs a b (N.shiftr x k) k Ha Hb Hl).
  - fold x. apply N.bits_inj. intro i. destruct (N.lt_ge_cases i k) as [L|L].
    + rewrite N.shiftl_spec_low by exact L. unfold x. rewrite N.lxor_spec, !le_val_bit by assumption.
      destruct (Bool.bool_dec (data_bit a i) (data_bit b i)) as [->|D]; [apply xorb_nilpotent|]. specialize (W i D). lia.
    + rewrite N.shiftl_spec_high' by exact L. rewrite N.shiftr_spec'. f_equal. lia.
  - split.
    + assert (Nz : x <> 0). { intro Z. apply N.lxor_eq in Z. apply Ne. apply le_val_inj; assumption. }
      assert (B : exists i, N.testbit x i = true) by (exists (N.log2 x); apply N.bit_log2, Nz).
      destruct B as (i & Bi). assert (D : data_bit a i <> data_bit b i).
      { intro D. unfold x in Bi. rewrite N.lxor_spec, !le_val_bit in Bi by assumption. rewrite D, xorb_nilpotent in Bi. discriminate. }
      specialize (W i D). destruct (N.eq_dec (N.shiftr x k) 0) as [Z|Z]; [|lia].
      assert (Bk : N.testbit (N.shiftr x k) (i - k) = true) by (rewrite N.shiftr_spec'; replace (i - k + k) with i by lia; exact Bi).
      rewrite Z, N.bits_0 in Bk. discriminate.
    + apply lt_pow_bits. intros i Hi. rewrite N.shiftr_spec'. unfold x. rewrite N.lxor_spec, !le_val_bit by assumption.
      destruct (Bool.bool_dec (data_bit a (i + k)) (data_bit b (i + k))) as [->|D]; [apply xorb_nilpotent|]. specialize (W (i + k) D). lia.
Qed.
