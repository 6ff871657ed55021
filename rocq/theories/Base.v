(** Bytes, machine integers, and list helpers shared by all model files.
    Nothing here models a particular function of the code base: these are the
    C data representations (x86-64 / arm64 Linux, little endian). *)
From Coq Require Export List NArith ZArith Lia Bool Arith.
From Coq Require Export ZifyBool ZifyNat ZifyN.
From Coq Require Import Permutation.
Export ListNotations.
Ltac Zify.zify_post_hook ::= Z.div_mod_to_equations.

Arguments N.add : simpl never.
Arguments N.sub : simpl never.
Arguments N.mul : simpl never.
Arguments N.div : simpl never.
Arguments N.modulo : simpl never.
Arguments N.pow : simpl never.
Arguments N.shiftl : simpl never.
Arguments N.shiftr : simpl never.
Arguments N.land : simpl never.
Arguments N.lor : simpl never.
Arguments N.lxor : simpl never.
Arguments Z.add : simpl never.
Arguments Z.sub : simpl never.
Arguments Z.mul : simpl never.
Arguments Z.pow : simpl never.
Arguments Z.div : simpl never.
Arguments Z.modulo : simpl never.

(** A byte is a number below 256, a byte string is a list of those. *)
Definition byte := N.
Definition bytes := list N.
Definition byte_ok (b : N) : Prop := (b < 256)%N.
Definition bytes_ok (l : bytes) : Prop := Forall byte_ok l.
Definition bytes_okb (l : bytes) : bool := forallb (fun b => b <? 256)%N l.

Definition two64 : N := (2 ^ 64)%N.
Definition two32 : N := (2 ^ 32)%N.
(** Conversion to uint8_t, uint32_t and uint64_t. *)
Definition u8 (x : N) : N := (x mod 256)%N.
Definition u32 (x : N) : N := (x mod 2 ^ 32)%N.
Definition u64 (x : N) : N := (x mod 2 ^ 64)%N.

(** int64_t range and conversion between int64_t and its two's complement
    bit pattern. *)
Definition INT64_MAX : Z := (2 ^ 63 - 1)%Z.
Definition INT64_MIN : Z := (- 2 ^ 63)%Z.
Definition i64_ok (z : Z) : Prop := (INT64_MIN <= z <= INT64_MAX)%Z.
Definition u64_of_i64 (z : Z) : N := Z.to_N (z mod 2 ^ 64)%Z.
Definition i64_of_u64 (x : N) : Z :=
  if (x <? 2 ^ 63)%N then Z.of_N x else (Z.of_N x - 2 ^ 64)%Z.

(** memcpy of an [n]-byte little endian integer to and from memory. *)
Fixpoint le_bytes (n : nat) (x : N) : bytes :=
  match n with
  | O => []
  | S n' => (x mod 256)%N :: le_bytes n' (x / 256)%N
  end.
Fixpoint le_val (l : bytes) : N :=
  match l with
  | [] => 0%N
  | b :: r => (b + 256 * le_val r)%N
  end.

(** memcmp(a,b,n)==0 with equal lengths *)
Fixpoint beq (a b : bytes) : bool :=
  match a, b with
  | [], [] => true
  | x :: a', y :: b' => (x =? y)%N && beq a' b'
  | _, _ => false
  end.

Lemma beq_eq : forall a b, beq a b = true <-> a = b.
Proof.
  induction a as [|x a IH]; intros [|y b]; cbn; split; intro H; try easy.
  - apply andb_true_iff in H. destruct H as [H1 H2].
    apply N.eqb_eq in H1. apply IH in H2. congruence.
  - injection H as -> ->. rewrite N.eqb_refl. apply IH. reflexivity.
Qed.

Lemma beq_refl : forall a, beq a a = true.
Proof. intro a. apply beq_eq. reflexivity. Qed.

Lemma beq_neq : forall a b, beq a b = false <-> a <> b.
Proof.
  intros a b. rewrite <- beq_eq. destruct (beq a b); split; congruence.
Qed.

Lemma bytes_okb_ok : forall l, bytes_okb l = true <-> bytes_ok l.
Proof.
  intro l. unfold bytes_okb, bytes_ok, byte_ok.
  rewrite forallb_forall, Forall_forall.
  split; intros H x Hx; apply H in Hx; lia.
Qed.

Lemma le_bytes_length : forall n x, length (le_bytes n x) = n.
Proof. induction n; intros; cbn; auto. Qed.

Lemma le_bytes_ok : forall n x, bytes_ok (le_bytes n x).
Proof.
  induction n; intros; cbn; constructor.
  - unfold byte_ok. lia.
  - apply IHn.
Qed.

Lemma le_val_bytes : forall n x,
  (x < 256 ^ N.of_nat n)%N -> le_val (le_bytes n x) = x.
Proof.
  induction n; intros x H.
  - cbn in *. change (256 ^ 0)%N with 1%N in H. lia.
  - cbn [le_bytes le_val].
    rewrite Nat2N.inj_succ, N.pow_succ_r' in H.
    rewrite IHn; lia.
Qed.

Lemma le_bytes_val : forall l, bytes_ok l -> le_bytes (length l) (le_val l) = l.
Proof.
  induction l as [|b l IH]; intro H; cbn; auto.
  inversion H as [|? ? Hb Hl]; subst. unfold byte_ok in Hb.
  f_equal.
  - lia.
  - replace ((b + 256 * le_val l) / 256)%N with (le_val l) by lia.
    apply IH; assumption.
Qed.

Lemma le_val_bound : forall l, bytes_ok l ->
  (le_val l < 256 ^ N.of_nat (length l))%N.
Proof.
  induction l as [|b l IH]; intro H; cbn [length le_val].
  - change (256 ^ N.of_nat 0)%N with 1%N. lia.
  - inversion H as [|? ? Hb Hl]; subst. unfold byte_ok in Hb.
    specialize (IH Hl).
    rewrite Nat2N.inj_succ, N.pow_succ_r'. lia.
Qed.

Lemma i64_u64_roundtrip : forall z, i64_ok z -> i64_of_u64 (u64_of_i64 z) = z.
Proof.
  intros z H. unfold i64_ok, INT64_MIN, INT64_MAX in H.
  unfold i64_of_u64, u64_of_i64.
  destruct (Z_lt_ge_dec z 0) as [Hn|Hp].
  - assert (E : (z mod 2 ^ 64 = z + 2 ^ 64)%Z)
      by (symmetry; apply Z.mod_unique_pos with (q := (-1)%Z); lia).
    rewrite E.
    destruct (_ <? _)%N eqn:Hl; lia.
  - rewrite Z.mod_small by lia.
    destruct (_ <? _)%N eqn:Hl; lia.
Qed.

Lemma u64_of_i64_bound : forall z, (u64_of_i64 z < 2 ^ 64)%N.
Proof. intro z. unfold u64_of_i64. lia. Qed.

Lemma u64_of_i64_nonneg : forall z, (0 <= z <= INT64_MAX)%Z ->
  u64_of_i64 z = Z.to_N z.
Proof.
  intros z H. unfold INT64_MAX in H. unfold u64_of_i64. rewrite Z.mod_small; lia.
Qed.

Lemma bytes_ok_app : forall a b, bytes_ok (a ++ b) <-> bytes_ok a /\ bytes_ok b.
Proof. intros. unfold bytes_ok. apply Forall_app. Qed.

Lemma firstn_exact : forall A (a b : list A), firstn (length a) (a ++ b) = a.
Proof. intros. rewrite firstn_app, Nat.sub_diag, firstn_all. cbn. apply app_nil_r. Qed.

Lemma skipn_exact : forall A (a b : list A), skipn (length a) (a ++ b) = b.
Proof. intros. rewrite skipn_app, Nat.sub_diag, skipn_all. reflexivity. Qed.

(** [a lor b = a + b] when the bits do not overlap. *)
Lemma lor_disjoint : forall a b k, (b < 2 ^ k)%N ->
  N.lor (a * 2 ^ k) b = (a * 2 ^ k + b)%N.
Proof.
  intros a b k Hb.
  rewrite <- N.lxor_lor.
  - symmetry. apply N.add_nocarry_lxor.
    apply N.bits_inj. intro i. rewrite N.land_spec, N.bits_0.
    destruct (N.lt_ge_cases i k) as [Hi|Hi].
    + rewrite N.mul_pow2_bits_low by assumption. reflexivity.
    + destruct (N.eq_dec b 0) as [->|Hnz]; [rewrite N.bits_0; apply andb_false_r|].
      rewrite (N.bits_above_log2 b).
      * apply andb_false_r.
      * apply N.lt_le_trans with k; [|assumption]. apply N.log2_lt_pow2; lia.
  - apply N.bits_inj. intro i. rewrite N.land_spec, N.bits_0.
    destruct (N.lt_ge_cases i k) as [Hi|Hi].
    + rewrite N.mul_pow2_bits_low by assumption. reflexivity.
    + destruct (N.eq_dec b 0) as [->|Hnz]; [rewrite N.bits_0; apply andb_false_r|].
      rewrite (N.bits_above_log2 b).
      * apply andb_false_r.
      * apply N.lt_le_trans with k; [|assumption]. apply N.log2_lt_pow2; lia.
Qed.

Lemma land_ones_mod : forall x k, N.land x (2 ^ k - 1) = (x mod 2 ^ k)%N.
Proof. intros. rewrite N.sub_1_r, <- N.ones_equiv. apply N.land_ones. Qed.

(** The comparison idiom of the code base: memcmp on the common length, and the
    lengths when that is equal (for example [src/pogocache.c:664-669]). *)
Fixpoint lex (a b : bytes) : comparison :=
  match a, b with
  | [], [] => Eq
  | [], _ => Lt
  | _, [] => Gt
  | x :: a', y :: b' => match N.compare x y with Eq => lex a' b' | c => c end
  end.

Lemma lex_refl : forall l, lex l l = Eq.
Proof. induction l; cbn; auto. rewrite N.compare_refl. assumption. Qed.

Lemma lex_eq : forall a b, lex a b = Eq <-> a = b.
Proof.
  induction a as [|x a IH]; intros [|y b]; cbn; split; intro H; try easy.
  - destruct (N.compare_spec x y); try discriminate. subst. f_equal. apply IH. assumption.
  - injection H as -> ->. rewrite N.compare_refl. apply lex_refl.
Qed.

(** Properties of all bytes can be decided by running through them. *)
Definition all_bytes : list N := map N.of_nat (seq 0 256).
Lemma all_bytes_spec : forall P : N -> bool,
  forallb P all_bytes = true -> forall b, byte_ok b -> P b = true.
Proof.
  intros P H b Hb. rewrite forallb_forall in H. apply H.
  unfold all_bytes. apply in_map_iff. exists (N.to_nat b).
  unfold byte_ok in Hb. split; [lia|]. apply in_seq. lia.
Qed.
