From Verif Require Import Base Varint.
Local Open Scope N_scope.

Lemma lor128 : forall x, N.lor (u8 x) 128 = x mod 128 + 128.
Proof.
  intro x. unfold u8.
  assert (H : N.lor (x mod 256) 128 = (x mod 256) mod 128 + 128).
  { pose proof (all_bytes_spec (fun b => N.lor b 128 =? b mod 128 + 128) eq_refl
      (x mod 256)) as Hb.
    cbv beta in Hb. unfold byte_ok in Hb.
    apply N.eqb_eq. apply Hb. lia. }
  rewrite H. f_equal. lia.
Qed.

Lemma land127 : forall b, N.land b 127 = b mod 128.
Proof. intro b. change 127 with (2 ^ 7 - 1). rewrite land_ones_mod. reflexivity. Qed.

Lemma land1 : forall b, N.land b 1 = b mod 2.
Proof. intro b. change 1 with (2 ^ 1 - 1). rewrite land_ones_mod. reflexivity. Qed.

Lemma shr7 : forall x, N.shiftr x 7 = x / 128.
Proof. intro. rewrite N.shiftr_div_pow2. reflexivity. Qed.

(* One read step: the accumulator [a < 2^(7i)] gets the next seven bits. *)
Lemma read_acc : forall a b i, (i < 10)%nat -> a < 2 ^ (7 * N.of_nat i) ->
  b mod 128 * 2 ^ (7 * N.of_nat i) < 2 ^ 64 ->
  N.lor a (u64 (N.shiftl (N.land b 127) (7 * N.of_nat i)))
  = b mod 128 * 2 ^ (7 * N.of_nat i) + a.
Proof.
  intros a b i Hi Ha Hb.
  rewrite land127, N.shiftl_mul_pow2. unfold u64.
  rewrite N.mod_small by assumption.
  rewrite N.lor_comm. apply lor_disjoint. assumption.
Qed.

Lemma pow7_succ : forall i, 2 ^ (7 * N.of_nat (S i)) = 128 * 2 ^ (7 * N.of_nat i).
Proof.
  intro i. replace (7 * N.of_nat (S i)) with (7 + 7 * N.of_nat i) by lia.
  rewrite N.pow_add_r. reflexivity.
Qed.

Lemma pow7_pos : forall i, 0 < 2 ^ (7 * N.of_nat i).
Proof. intro i. apply N.neq_0_lt_0. apply N.pow_nonzero. lia. Qed.

(* Reading what was written, with the accumulator in the middle of a value. *)
Lemma read_write_loop : forall f i x a rest,
  (i + f = 10)%nat -> a < 2 ^ (7 * N.of_nat i) ->
  x * 2 ^ (7 * N.of_nat i) + a < 2 ^ 64 -> (i < 10)%nat ->
  varint_read_loop (varint_write_loop f x ++ rest) i a
    = VOk (i + length (varint_write_loop f x)) (x * 2 ^ (7 * N.of_nat i) + a)
  /\ varint_read_nolen_loop (varint_write_loop f x ++ rest) i a
    = Some ((i + length (varint_write_loop f x))%nat, x * 2 ^ (7 * N.of_nat i) + a).
Proof.
  induction f as [|f IH]; intros i x a rest Hf Ha Hx Hi; [lia|].
  cbn [varint_write_loop].
  pose proof (pow7_pos i) as Hp.
  set (p := 2 ^ (7 * N.of_nat i)) in *.
  destruct (x <? 128) eqn:Hlt.
  - assert (Hx8 : u8 x = x) by (unfold u8; apply N.mod_small; lia).
    rewrite Hx8. cbn [app varint_read_loop varint_read_nolen_loop].
    destruct (i =? 10)%nat eqn:E; [lia|].
    destruct (10 <=? i)%nat eqn:E2; [lia|].
    rewrite Hlt.
    assert (Hm : x mod 128 = x) by (apply N.mod_small; lia).
    rewrite read_acc; fold p; try rewrite Hm; try lia.
    cbn [length]. split; f_equal; try lia.
    f_equal; lia.
  - cbn [app varint_read_loop varint_read_nolen_loop].
    destruct (i =? 10)%nat eqn:E; [lia|].
    destruct (10 <=? i)%nat eqn:E2; [lia|].
    rewrite lor128.
    assert (Hnl : (x mod 128 + 128 <? 128) = false) by lia.
    rewrite Hnl.
    assert (Hmm : (x mod 128 + 128) mod 128 = x mod 128) by lia.
    assert (Hle : x mod 128 * p <= x * p) by (apply N.mul_le_mono_r; lia).
    rewrite read_acc; fold p; try rewrite Hmm; try lia.
    rewrite shr7.
    assert (Hi9 : (i < 9)%nat).
    { destruct (Nat.eq_dec i 9) as [->|]; [|lia].
      exfalso. unfold p in Hx. change (2 ^ (7 * N.of_nat 9)) with (2 ^ 63) in Hx. lia. }
    assert (Hdm : x / 128 * (128 * p) + x mod 128 * p = x * p).
    { rewrite (N.div_mod x 128) at 3 by lia. lia. }
    destruct (IH (S i) (x / 128) (x mod 128 * p + a) rest) as [IH1 IH2]; try lia.
    + rewrite pow7_succ. fold p.
      assert (x mod 128 * p <= 127 * p) by (apply N.mul_le_mono_r; lia). lia.
    + rewrite pow7_succ. fold p. lia.
    + rewrite IH1, IH2. rewrite pow7_succ. fold p. cbn [length].
      split; f_equal; try lia. f_equal; lia.
Qed.

Lemma varint_roundtrip : forall x rest, x < 2 ^ 64 ->
  varint_read_u64 (varint_write_u64 x ++ rest) = VOk (length (varint_write_u64 x)) x.
Proof.
  intros x rest Hx. unfold varint_read_u64, varint_write_u64.
  destruct (read_write_loop 10 0 x 0 rest) as [H _];
    change (2 ^ (7 * N.of_nat 0)) with 1 in *; try lia.
  rewrite H. cbn [Nat.add]. f_equal. lia.
Qed.

Lemma varint_roundtrip_nolen : forall x rest, x < 2 ^ 64 ->
  varint_read_nolen (varint_write_u64 x ++ rest)
  = Some (length (varint_write_u64 x), x).
Proof.
  intros x rest Hx. unfold varint_read_nolen, varint_write_u64.
  destruct (read_write_loop 10 0 x 0 rest) as [_ H];
    change (2 ^ (7 * N.of_nat 0)) with 1 in *; try lia.
  rewrite H. cbn [Nat.add]. do 2 f_equal. lia.
Qed.

Lemma varint_write_loop_len : forall f x,
  (1 <= length (varint_write_loop f x) <= S f)%nat.
Proof.
  induction f as [|f IH]; intro x; cbn [varint_write_loop length]; [lia|].
  destruct (x <? 128); cbn [length]; [lia|]. specialize (IH (N.shiftr x 7)). lia.
Qed.

(* With enough fuel the last byte is below 128 and the others are not. *)
Lemma varint_write_shape : forall f x, x < 128 ^ N.of_nat (S f) ->
  exists pre b, varint_write_loop f x = pre ++ [b] /\ b < 128
    /\ Forall (fun c => 128 <= c < 256) pre /\ (length pre <= f)%nat.
Proof.
  induction f as [|f IH]; intros x Hx; cbn [varint_write_loop].
  - change (128 ^ N.of_nat 1) with 128 in Hx.
    exists [], x. cbn. unfold u8. rewrite N.mod_small by lia. auto.
  - destruct (x <? 128) eqn:Hlt.
    + exists [], x. cbn. unfold u8. rewrite N.mod_small by lia.
      repeat split; auto; lia.
    + destruct (IH (N.shiftr x 7)) as (pre & b & E & Hb & Hpre & Hl).
      * rewrite shr7. rewrite Nat2N.inj_succ, N.pow_succ_r' in Hx.
        apply N.div_lt_upper_bound; lia.
      * exists (N.lor (u8 x) 128 :: pre), b. rewrite E. cbn.
        repeat split; auto; try lia.
        constructor; auto. rewrite lor128. lia.
Qed.

Lemma varint_write_loop_len2 : forall f y, (y < 128 ^ N.of_nat f) -> (1 <= f)%nat ->
  (length (varint_write_loop f y) <= f)%nat.
Proof.
  induction f as [|f IH]; intros y Hy Hf; [lia|].
  cbn [varint_write_loop]. destruct (y <? 128) eqn:E; cbn [length]; [lia|].
  rewrite shr7.
  destruct f as [|f].
  - change (128 ^ N.of_nat 1) with 128 in Hy. lia.
  - apply le_n_S. apply IH; [|lia].
    rewrite Nat2N.inj_succ, N.pow_succ_r' in Hy.
    apply N.div_lt_upper_bound; lia.
Qed.

Lemma varint_length : forall x, x < 2 ^ 64 ->
  (1 <= length (varint_write_u64 x) <= 10)%nat.
Proof.
  intros x Hx. unfold varint_write_u64.
  pose proof (varint_write_loop_len 10 x) as H1. split; [lia|].
  apply varint_write_loop_len2; [|lia].
  change (128 ^ N.of_nat 10) with (2 ^ 70). lia.
Qed.

Lemma varint_write_ok : forall x, x < 2 ^ 64 -> bytes_ok (varint_write_u64 x).
Proof.
  intros x Hx. unfold varint_write_u64.
  destruct (varint_write_shape 10 x) as (pre & b & E & Hb & Hpre & _).
  - change (128 ^ N.of_nat 11) with (2 ^ 77). lia.
  - rewrite E. apply bytes_ok_app. split.
    + unfold bytes_ok. eapply Forall_impl; [|exact Hpre].
      cbv beta. unfold byte_ok. intros; lia.
    + repeat constructor. unfold byte_ok. lia.
Qed.

(* Any list of continuation bytes makes the reader wait. *)
Lemma read_continuation : forall pre i a, Forall (fun c => 128 <= c < 256) pre ->
  (i + length pre < 10)%nat -> varint_read_loop pre i a = VMore.
Proof.
  induction pre as [|c pre IH]; intros i a Hp Hl; cbn [varint_read_loop length] in *.
  - destruct (i =? 10)%nat eqn:E; [lia|reflexivity].
  - destruct (i =? 10)%nat eqn:E; [lia|].
    inversion Hp as [|? ? Hc Hp']; subst.
    destruct (c <? 128) eqn:E2; [lia|]. apply IH; auto. lia.
Qed.

Lemma varint_prefix : forall x k, x < 2 ^ 64 ->
  (k < length (varint_write_u64 x))%nat ->
  varint_read_u64 (firstn k (varint_write_u64 x)) = VMore.
Proof.
  intros x k Hx Hk. pose proof (varint_length x Hx) as Hlen.
  unfold varint_write_u64 in *.
  destruct (varint_write_shape 10 x) as (pre & b & E & Hb & Hpre & _).
  - change (128 ^ N.of_nat 11) with (2 ^ 77). lia.
  - rewrite E in *. rewrite app_length in *. cbn [length] in *.
    rewrite firstn_app. replace (k - length pre)%nat with 0%nat by lia.
    cbn [firstn]. rewrite app_nil_r. unfold varint_read_u64.
    apply read_continuation.
    + rewrite Forall_forall in *. intros c Hc. apply Hpre.
      rewrite <- (firstn_skipn k pre). apply in_or_app. left. assumption.
    + rewrite firstn_length. lia.
Qed.

(* The reader's answer depends only on the bytes it says it consumed. *)
Lemma read_local : forall data i a n x rest,
  varint_read_loop data i a = VOk n x ->
  (i < n <= i + length data)%nat /\
  varint_read_loop (firstn (n - i) data ++ rest) i a = VOk n x.
Proof.
  induction data as [|b data IH]; intros i a n x rest H; cbn [varint_read_loop] in H.
  - destruct (i =? 10)%nat; discriminate.
  - destruct (i =? 10)%nat eqn:E; [discriminate|].
    destruct (b <? 128) eqn:Hb.
    + injection H as <- <-. split; [cbn [length]; lia|].
      replace (S i - i)%nat with 1%nat by lia.
      cbn [firstn app varint_read_loop]. rewrite E, Hb. reflexivity.
    + destruct (IH _ _ _ _ rest H) as [Hn H2]. split; [cbn [length]; lia|].
      replace (n - i)%nat with (S (n - S i)) by lia.
      cbn [firstn app varint_read_loop]. rewrite E, Hb. exact H2.
Qed.

Lemma zigzag_roundtrip : forall x, i64_ok x -> zigzag x < 2 ^ 64 /\ unzigzag (zigzag x) = x.
Proof.
  intros x Hx. unfold i64_ok, INT64_MIN, INT64_MAX in Hx.
  unfold zigzag, unzigzag, u64, i64_of_u64, u64_of_i64.
  rewrite N.shiftl_mul_pow2. change (2 ^ 1) with 2.
  destruct (x <? 0)%Z eqn:Hneg.
  - assert (E : (x mod 2 ^ 64 = x + 2 ^ 64)%Z)
      by (symmetry; apply Z.mod_unique_pos with (q := (-1)%Z); lia).
    rewrite E.
    assert (E2 : (Z.to_N (x + 2 ^ 64) * 2) mod 2 ^ 64 = Z.to_N (2 * x + 2 ^ 64)).
    { symmetry. apply N.mod_unique with (q := 1); lia. }
    rewrite E2. clear E E2. split; [lia|].
    rewrite N.shiftr_div_pow2. change (2 ^ 1) with 2.
    rewrite land1.
    assert (E3 : (2 ^ 64 - 1 - Z.to_N (2 * x + 2 ^ 64)) = 2 * Z.to_N (- x - 1) + 1) by lia.
    rewrite E3.
    assert (E4 : (2 * Z.to_N (- x - 1) + 1) mod 2 = 1) by lia.
    rewrite E4. rewrite N.eqb_refl.
    assert (E5 : (2 * Z.to_N (- x - 1) + 1) / 2 = Z.to_N (- x - 1)) by lia.
    rewrite E5. destruct (_ <? _) eqn:Hl; lia.
  - rewrite Z.mod_small by lia.
    rewrite N.mod_small by lia. split; [lia|].
    rewrite N.shiftr_div_pow2. change (2 ^ 1) with 2.
    replace (Z.to_N x * 2 / 2) with (Z.to_N x) by lia.
    assert (E : N.land (Z.to_N x * 2) 1 = 0).
    { rewrite land1. lia. }
    rewrite E. cbn. destruct (_ <? _) eqn:Hl; lia.
Qed.

Lemma varint_i64_roundtrip : forall x rest, i64_ok x ->
  varint_read_i64 (varint_write_i64 x ++ rest) = IOk (length (varint_write_i64 x)) x.
Proof.
  intros x rest Hx. destruct (zigzag_roundtrip x Hx) as [Hb Hr].
  unfold varint_read_i64, varint_write_i64.
  rewrite varint_roundtrip by assumption. rewrite Hr. reflexivity.
Qed.
