(** Pointer and hash packing are lossless. *)
From Verif Require Import Base Hash.
Local Open Scope N_scope.

Lemma and255 : forall x, N.land x 255 = x mod 256.
Proof. intro. change 255 with (2 ^ 8 - 1). rewrite land_ones_mod. reflexivity. Qed.

Lemma lor_add_low : forall a b k, a < 2 ^ k -> N.lor a (b * 2 ^ k) = b * 2 ^ k + a.
Proof. intros. rewrite N.lor_comm. apply lor_disjoint. assumption. Qed.

Lemma ptr_roundtrip : forall p, p < 2 ^ 48 -> load_ptr (store_ptr p) = p.
Proof.
  intros p Hp. unfold load_ptr, store_ptr. cbn [nth].
  rewrite !and255, !N.shiftl_mul_pow2, !N.shiftr_div_pow2.
  change (2 ^ 0) with 1. rewrite N.mul_1_r, N.div_1_r.
  assert (H1 : p mod 256 < 2 ^ 8) by lia.
  rewrite (lor_add_low _ _ 8) by exact H1.
  rewrite (lor_add_low _ _ 16) by lia.
  rewrite (lor_add_low _ _ 24) by lia.
  rewrite (lor_add_low _ _ 32) by lia.
  rewrite (lor_add_low _ _ 40) by lia.
  change (2 ^ 8) with 256. change (2 ^ 16) with 65536. change (2 ^ 24) with 16777216.
  change (2 ^ 32) with 4294967296. change (2 ^ 40) with 1099511627776.
  change (2 ^ 48) with 281474976710656 in Hp. lia.
Qed.

Lemma clip_hash_mod : forall h, clip_hash h = h mod 2 ^ 24.
Proof.
  intro h. unfold clip_hash, u32. change 0xFFFFFF with (2 ^ 24 - 1).
  rewrite land_ones_mod. change (2 ^ 24) with 16777216. change (2 ^ 32) with 4294967296. lia.
Qed.

Lemma hash_roundtrip : forall h, read_hash (write_hash (clip_hash h)) = clip_hash h.
Proof.
  intro h. rewrite clip_hash_mod.
  assert (Hx : h mod 2 ^ 24 < 2 ^ 24) by (apply N.mod_lt; lia).
  set (x := h mod 2 ^ 24) in *. clearbody x. clear h.
  unfold read_hash, write_hash. cbn [nth].
  rewrite !and255, !N.shiftl_mul_pow2, !N.shiftr_div_pow2.
  change (2 ^ 0) with 1. rewrite N.mul_1_r, N.div_1_r.
  rewrite (lor_add_low _ _ 8) by (change (2 ^ 8) with 256; lia).
  rewrite (lor_add_low _ _ 16) by (change (2 ^ 16) with 65536; change (2 ^ 8) with 256; lia).
  change (2 ^ 8) with 256. change (2 ^ 16) with 65536. change (2 ^ 24) with 16777216 in Hx. lia.
Qed.

Lemma ptr_bytes : forall p, length (store_ptr p) = 6%nat /\ bytes_ok (store_ptr p).
Proof.
  intro p. split; [reflexivity|]. unfold store_ptr. rewrite !and255.
  repeat constructor; unfold byte_ok; apply N.mod_lt; lia.
Qed.

Lemma hash_bytes : forall h, length (write_hash h) = 3%nat /\ bytes_ok (write_hash h).
Proof.
  intro p. split; [reflexivity|]. unfold write_hash. rewrite !and255.
  repeat constructor; unfold byte_ok; apply N.mod_lt; lia.
Qed.
