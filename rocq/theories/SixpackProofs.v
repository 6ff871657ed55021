From Verif Require Import Base Sixpack.
Local Open Scope N_scope.

Definition packable (b : N) : Prop := tosix b <> 0.
Definition packableb (b : N) : bool := negb (tosix b =? 0).

Lemma tosix_lt : forall b, tosix b < 64.
Proof.
  intro b. destruct (N.lt_ge_cases b 256) as [H|H].
  - pose proof (all_bytes_spec (fun b => tosix b <? 64) eq_refl b H) as E.
    cbv beta in E. lia.
  - unfold tosix. rewrite nth_overflow; [lia|].
    change (length tosix_tbl) with 128%nat. lia.
Qed.

Lemma tosix_fromsix : forall b, packable b -> fromsix (tosix b) = b /\ b < 128.
Proof.
  intros b H. destruct (N.lt_ge_cases b 256) as [Hb|Hb].
  - pose proof (all_bytes_spec (fun b => (tosix b =? 0) ||
      ((fromsix (tosix b) =? b) && (b <? 128))) eq_refl b Hb) as E.
    cbv beta in E. unfold packable in H.
    destruct (tosix b =? 0) eqn:E0; [lia|]. cbn [orb] in E.
    apply andb_true_iff in E. destruct E as [E1 E2]. split; [apply N.eqb_eq|apply N.ltb_lt]; assumption.
  - exfalso. apply H. unfold tosix. apply nth_overflow.
    change (length tosix_tbl) with 128%nat. lia.
Qed.

Lemma fromsix_nz : forall b, packable b -> fromsix (tosix b) <> 0.
Proof.
  intros b H. destruct (tosix_fromsix b H) as [E _]. rewrite E.
  intro Z. subst. apply H. reflexivity.
Qed.

(* Arithmetic form of the three packed bytes of a chunk. *)
Lemma pack_b0 : forall ta tb, ta < 64 -> tb < 64 ->
  N.lor (u8 (N.shiftl ta 2)) (N.shiftr tb 4) = 4 * ta + tb / 16.
Proof.
  intros. unfold u8. rewrite N.shiftl_mul_pow2, N.shiftr_div_pow2.
  change (2 ^ 4) with 16. rewrite N.mod_small by (change (2 ^ 2) with 4; lia).
  rewrite lor_disjoint; change (2 ^ 2) with 4; lia.
Qed.
Lemma pack_b1 : forall tb tc, tb < 64 -> tc < 64 ->
  N.lor (u8 (N.shiftl tb 4)) (N.shiftr tc 2) = 16 * (tb mod 16) + tc / 4.
Proof.
  intros. unfold u8. rewrite N.shiftl_mul_pow2, N.shiftr_div_pow2.
  change (2 ^ 2) with 4.
  replace ((tb * 2 ^ 4) mod 256) with (tb mod 16 * 2 ^ 4) by (change (2 ^ 4) with 16; lia).
  rewrite lor_disjoint; change (2 ^ 4) with 16; lia.
Qed.
Lemma pack_b2 : forall tc td, tc < 64 -> td < 64 ->
  N.lor (u8 (N.shiftl tc 6)) td = 64 * (tc mod 4) + td.
Proof.
  intros. unfold u8. rewrite N.shiftl_mul_pow2.
  replace ((tc * 2 ^ 6) mod 256) with (tc mod 4 * 2 ^ 6) by (change (2 ^ 6) with 64; lia).
  rewrite lor_disjoint; change (2 ^ 6) with 64; lia.
Qed.

Lemma and63 : forall x, N.land x 63 = x mod 64.
Proof. intro. change 63 with (2 ^ 6 - 1). rewrite land_ones_mod. reflexivity. Qed.

Lemma unpack_0 : forall ta tb, ta < 64 -> tb < 64 ->
  N.shiftr (4 * ta + tb / 16) 2 = ta.
Proof. intros. rewrite N.shiftr_div_pow2. change (2 ^ 2) with 4. lia. Qed.
Lemma unpack_1 : forall ta tb tc, ta < 64 -> tb < 64 -> tc < 64 ->
  N.land (N.lor (N.shiftl (4 * ta + tb / 16) 4)
                (N.shiftr (16 * (tb mod 16) + tc / 4) 4)) 63 = tb.
Proof.
  intros. rewrite and63, N.shiftl_mul_pow2, N.shiftr_div_pow2.
  rewrite lor_disjoint; change (2 ^ 4) with 16; lia.
Qed.
Lemma unpack_2 : forall tb tc td, tb < 64 -> tc < 64 -> td < 64 ->
  N.land (N.lor (N.shiftl (16 * (tb mod 16) + tc / 4) 2)
                (N.shiftr (64 * (tc mod 4) + td) 6)) 63 = tc.
Proof.
  intros. rewrite and63, N.shiftl_mul_pow2, N.shiftr_div_pow2.
  rewrite lor_disjoint; change (2 ^ 2) with 4; change (2 ^ 6) with 64; lia.
Qed.
Lemma unpack_3 : forall tc td, tc < 64 -> td < 64 ->
  N.land (64 * (tc mod 4) + td) 63 = td.
Proof. intros. rewrite and63. lia. Qed.

(* The packed form by chunks of four. *)
Fixpoint pack (l : list N) : bytes :=
  match l with
  | [] => []
  | [a] => [4 * a]
  | [a; b] => [4 * a + b / 16; 16 * (b mod 16)]
  | [a; b; c] => [4 * a + b / 16; 16 * (b mod 16) + c / 4; 64 * (c mod 4)]
  | a :: b :: c :: d :: r =>
      [4 * a + b / 16; 16 * (b mod 16) + c / 4; 64 * (c mod 4) + d] ++ pack r
  end.

Lemma four_ind : forall (A : Type) (P : list A -> Prop),
  P [] -> (forall a, P [a]) -> (forall a b, P [a; b]) -> (forall a b c, P [a; b; c]) ->
  (forall a b c d r, P r -> P (a :: b :: c :: d :: r)) -> forall l, P l.
Proof.
  intros A P H0 H1 H2 H3 H4.
  fix IH 1. intros [|a [|b [|c [|d r]]]]; [exact H0|apply H1|apply H2|apply H3|].
  apply H4. apply IH.
Qed.

Lemma u8_shl2 : forall a, a < 64 -> u8 (N.shiftl a 2) = 4 * a.
Proof. intros. unfold u8. rewrite N.shiftl_mul_pow2. change (2 ^ 2) with 4. lia. Qed.
Lemma u8_shl4 : forall a, a < 64 -> u8 (N.shiftl a 4) = 16 * (a mod 16).
Proof. intros. unfold u8. rewrite N.shiftl_mul_pow2. change (2 ^ 4) with 16. lia. Qed.
Lemma u8_shl6 : forall a, a < 64 -> u8 (N.shiftl a 6) = 64 * (a mod 4).
Proof. intros. unfold u8. rewrite N.shiftl_mul_pow2. change (2 ^ 6) with 64. lia. Qed.

Lemma packable_eqb : forall b, packable b -> (tosix b =? 0) = false.
Proof. intros b H. unfold packable in H. lia. Qed.

Lemma sixpack_loop_spec : forall l i dst, Forall packable l -> i mod 4 = 0 ->
  sixpack_loop l i dst = rev dst ++ pack (map tosix l).
Proof.
  intro l. pattern l. apply four_ind; clear l.
  - intros. cbn. rewrite app_nil_r. reflexivity.
  - intros a i dst H Hi. inversion H as [|? ? Ha _]; subst.
    cbn [sixpack_loop map pack]. rewrite packable_eqb by assumption. cbv zeta.
    rewrite (proj2 (N.eqb_eq (i mod 4) 0) Hi). cbn [sixpack_loop rev].
    rewrite u8_shl2 by apply tosix_lt. reflexivity.
  - intros a b i dst H Hi. inversion H as [|? ? Ha H1]; subst.
    inversion H1 as [|? ? Hb _]; subst.
    cbn [sixpack_loop map pack]. rewrite !packable_eqb by assumption. cbv zeta.
    rewrite (proj2 (N.eqb_eq (i mod 4) 0) Hi).
    replace ((i + 1) mod 4 =? 0) with false by lia.
    replace ((i + 1) mod 4 =? 1) with true by lia.
    cbn [sixpack_loop rev or_head].
    rewrite pack_b0, u8_shl4 by apply tosix_lt.
    rewrite <- !app_assoc. reflexivity.
  - intros a b c i dst H Hi. inversion H as [|? ? Ha H1]; subst.
    inversion H1 as [|? ? Hb H2]; subst. inversion H2 as [|? ? Hc _]; subst.
    cbn [sixpack_loop map pack]. rewrite !packable_eqb by assumption. cbv zeta.
    rewrite (proj2 (N.eqb_eq (i mod 4) 0) Hi).
    replace ((i + 1) mod 4 =? 0) with false by lia.
    replace ((i + 1) mod 4 =? 1) with true by lia.
    replace ((i + 1 + 1) mod 4 =? 0) with false by lia.
    replace ((i + 1 + 1) mod 4 =? 1) with false by lia.
    replace ((i + 1 + 1) mod 4 =? 2) with true by lia.
    cbn [sixpack_loop rev or_head].
    rewrite pack_b0, pack_b1, u8_shl6 by apply tosix_lt.
    rewrite <- !app_assoc. reflexivity.
  - intros a b c d r IH i dst H Hi. inversion H as [|? ? Ha H1]; subst.
    inversion H1 as [|? ? Hb H2]; subst. inversion H2 as [|? ? Hc H3]; subst.
    inversion H3 as [|? ? Hd H4]; subst.
    cbn [sixpack_loop map pack]. rewrite !packable_eqb by assumption. cbv zeta.
    rewrite (proj2 (N.eqb_eq (i mod 4) 0) Hi).
    replace ((i + 1) mod 4 =? 0) with false by lia.
    replace ((i + 1) mod 4 =? 1) with true by lia.
    replace ((i + 1 + 1) mod 4 =? 0) with false by lia.
    replace ((i + 1 + 1) mod 4 =? 1) with false by lia.
    replace ((i + 1 + 1) mod 4 =? 2) with true by lia.
    replace ((i + 1 + 1 + 1) mod 4 =? 0) with false by lia.
    replace ((i + 1 + 1 + 1) mod 4 =? 1) with false by lia.
    replace ((i + 1 + 1 + 1) mod 4 =? 2) with false by lia.
    cbn [or_head].
    rewrite pack_b0, pack_b1, pack_b2 by apply tosix_lt.
    rewrite IH by (auto; lia). cbn [rev].
    rewrite <- !app_assoc. reflexivity.
Qed.

Lemma sixpack_loop_bad : forall l i dst, ~ Forall packable l ->
  sixpack_loop l i dst = [].
Proof.
  induction l as [|b l IH]; intros i dst H.
  - exfalso. apply H. constructor.
  - cbn [sixpack_loop]. destruct (tosix b =? 0) eqn:E; [reflexivity|].
    cbv zeta. apply IH. intro Hl. apply H. constructor; [|assumption].
    unfold packable. lia.
Qed.

Lemma sixpack_spec : forall l, Forall packable l -> sixpack l = pack (map tosix l).
Proof. intros l H. unfold sixpack. rewrite sixpack_loop_spec by (auto; lia). reflexivity. Qed.

Lemma packable_dec : forall l, {Forall packable l} + {~ Forall packable l}.
Proof.
  intro l. apply Forall_dec. intro b. unfold packable.
  destruct (N.eq_dec (tosix b) 0) as [E|E]; [right|left]; auto.
Qed.

Lemma sixpack_nonempty : forall l, sixpack l <> [] <-> (Forall packable l /\ l <> []).
Proof.
  intro l. destruct (packable_dec l) as [H|H].
  - rewrite sixpack_spec by assumption. split.
    + intro Hn. split; auto. intros ->. apply Hn. reflexivity.
    + intros [_ Hn]. destruct l as [|a [|b [|c [|d r]]]]; cbn; congruence.
  - unfold sixpack. rewrite sixpack_loop_bad by assumption. split; [congruence|].
    intros [Hp _]. contradiction.
Qed.

(* Unpacking, one chunk at a time. *)
Ltac invF := repeat match goal with H : Forall _ (_ :: _) |- _ =>
  inversion H; clear H; subst end.

Lemma pack_bytes_ok : forall l, Forall (fun x => x < 64) l -> bytes_ok (pack l).
Proof.
  intro l. pattern l. apply four_ind; clear l; unfold bytes_ok, byte_ok; cbn [pack app].
  - constructor.
  - intros a H. invF. repeat constructor. lia.
  - intros a b H. invF.
    repeat constructor; lia.
  - intros a b c H. invF. repeat constructor; lia.
  - intros a b c d r IH H. invF.
    repeat constructor; try lia. apply IH. assumption.
Qed.

Definition pad3 (l : bytes) : bytes :=
  if (length l mod 4 =? 3)%nat then [0] else [].

Lemma unsixpack_loop_spec : forall l p dst, Forall (fun x => x < 64) l ->
  unsixpack_loop (pack l) p 0 dst = pad3 l ++ rev (map fromsix l) ++ dst.
Proof.
  intro l. pattern l. apply four_ind; clear l.
  - reflexivity.
  - intros a p dst H. invF.
    cbn [pack unsixpack_loop]. rewrite N.eqb_refl.
    replace (4 * a) with (4 * a + 0 / 16) by lia.
    rewrite unpack_0 by lia. reflexivity.
  - intros a b p dst H. invF.
    cbn [pack unsixpack_loop]. rewrite N.eqb_refl. change (1 =? 0) with false.
    change (1 =? 1) with true. cbv iota.
    rewrite unpack_0 by lia.
    replace (16 * (b mod 16)) with (16 * (b mod 16) + 0 / 4) by lia.
    rewrite unpack_1 by lia. reflexivity.
  - intros a b c p dst H. invF.
    cbn [pack unsixpack_loop]. rewrite N.eqb_refl.
    change (1 =? 0) with false. change (1 =? 1) with true.
    change (2 =? 0) with false. change (2 =? 1) with false. cbv iota.
    rewrite unpack_0, unpack_1 by lia.
    replace (64 * (c mod 4)) with (64 * (c mod 4) + 0) by lia.
    rewrite unpack_2, unpack_3 by lia. reflexivity.
  - intros a b c d r IH p dst H. invF.
    cbn [pack app unsixpack_loop]. rewrite N.eqb_refl.
    change (1 =? 0) with false. change (1 =? 1) with true.
    change (2 =? 0) with false. change (2 =? 1) with false. cbv iota.
    rewrite unpack_0, unpack_1, unpack_2, unpack_3 by lia.
    rewrite IH by assumption.
    assert (Hp : pad3 (a :: b :: c :: d :: r) = pad3 r).
    { unfold pad3. cbn [length].
      replace (S (S (S (S (length r)))) mod 4)%nat with (length r mod 4)%nat by lia.
      reflexivity. }
    rewrite Hp. cbn [map rev]. rewrite <- !app_assoc. reflexivity.
Qed.

Lemma map_fromsix_tosix : forall l, Forall packable l -> map fromsix (map tosix l) = l.
Proof.
  induction 1 as [|b l Hb Hl IH]; cbn; [reflexivity|].
  rewrite IH. f_equal. apply tosix_fromsix. assumption.
Qed.

Lemma map_tosix_lt : forall l, Forall (fun x => x < 64) (map tosix l).
Proof. induction l; cbn; constructor; auto. apply tosix_lt. Qed.

Theorem unsixpack_sixpack : forall l, Forall packable l -> unsixpack (sixpack l) = l.
Proof.
  intros l H. rewrite sixpack_spec by assumption. unfold unsixpack.
  rewrite unsixpack_loop_spec by apply map_tosix_lt.
  rewrite map_fromsix_tosix by assumption.
  rewrite app_nil_r. unfold pad3.
  destruct (_ =? 3)%nat; cbn [app].
  - cbn [N.eqb]. apply rev_involutive.
  - destruct (rev l) as [|h r] eqn:E.
    + rewrite <- (rev_involutive l), E. reflexivity.
    + rewrite <- E, rev_involutive.
      destruct (h =? 0) eqn:Hz; [|reflexivity].
      assert (Hin : In h l) by (apply in_rev; rewrite E; left; reflexivity).
      rewrite Forall_forall in H. apply H in Hin.
      apply N.eqb_eq in Hz. subst h. exfalso. apply Hin. reflexivity.
Qed.

Lemma pack_length : forall l, (4 * length (pack l) <= 3 * length l + 3)%nat
   /\ (3 * length l <= 4 * length (pack l))%nat.
Proof.
  intro l. pattern l. apply four_ind; clear l; cbn [pack app length]; intros; lia.
Qed.

Lemma sixpack_ok : forall l, bytes_ok (sixpack l).
Proof.
  intro l. destruct (packable_dec l) as [H|H].
  - rewrite sixpack_spec by assumption. apply pack_bytes_ok, map_tosix_lt.
  - unfold sixpack. rewrite sixpack_loop_bad by assumption. constructor.
Qed.

Lemma sixpack_length : forall l, (4 * length (sixpack l) <= 3 * length l + 3)%nat.
Proof.
  intro l. destruct (packable_dec l) as [H|H].
  - rewrite sixpack_spec by assumption.
    pose proof (pack_length (map tosix l)) as [Hp _]. rewrite map_length in Hp. exact Hp.
  - unfold sixpack. rewrite sixpack_loop_bad by assumption. cbn. lia.
Qed.

(** ** memcmp order of packed keys *)

Lemma lex_tosix : forall a b, Forall packable a -> Forall packable b ->
  lex (map tosix a) (map tosix b) = lex a b.
Proof.
  assert (M : forall x y, packable x -> packable y ->
    N.compare (tosix x) (tosix y) = N.compare x y).
  { assert (G : forallb (fun x => forallb (fun y => (tosix x =? 0) || (tosix y =? 0) ||
       match N.compare (tosix x) (tosix y), N.compare x y with
       | Eq, Eq | Lt, Lt | Gt, Gt => true | _, _ => false end) all_bytes) all_bytes = true)
      by (vm_compute; reflexivity).
    intros x y Hx Hy.
    destruct (tosix_fromsix x Hx) as [_ Lx]. destruct (tosix_fromsix y Hy) as [_ Ly].
    pose proof (all_bytes_spec _ G x) as G1. cbv beta in G1.
    pose proof (all_bytes_spec _ (G1 ltac:(unfold byte_ok; lia)) y) as G2. cbv beta in G2.
    specialize (G2 ltac:(unfold byte_ok; lia)).
    rewrite (packable_eqb x), (packable_eqb y) in G2 by assumption. cbn [orb] in G2.
    destruct (N.compare (tosix x) (tosix y)), (N.compare x y); congruence. }
  induction a as [|x a IH]; intros [|y b] Ha Hb; cbn [map lex]; auto.
  inversion Ha; subst. inversion Hb; subst. rewrite M by assumption.
  destruct (x ?= y); auto.
Qed.

(* Value of the first n digits in base B, most significant first, missing
   digits being zero. *)
Fixpoint vp (B : N) (n : nat) (x : list N) : N :=
  match n, x with
  | O, _ => 0
  | _, [] => 0
  | S m, d :: r => d * B ^ N.of_nat m + vp B m r
  end.

Lemma vp_nil : forall B n, vp B n [] = 0.
Proof. intros B [|n]; reflexivity. Qed.

Lemma vp_lt : forall B n x, 0 < B -> Forall (fun d => d < B) x -> vp B n x < B ^ N.of_nat n.
Proof.
  intros B n. induction n as [|n IH]; intros x HB Hx; cbn [vp].
  - apply N.neq_0_lt_0. apply N.pow_nonzero. lia.
  - assert (HP : 0 < B ^ N.of_nat n) by (apply N.neq_0_lt_0, N.pow_nonzero; lia).
    rewrite Nat2N.inj_succ, N.pow_succ_r'.
    destruct x as [|d r].
    + apply N.mul_pos_pos; assumption.
    + inversion Hx; subst. specialize (IH r HB ltac:(assumption)).
      assert ((d + 1) * B ^ N.of_nat n <= B * B ^ N.of_nat n)
        by (apply N.mul_le_mono_r; lia). lia.
Qed.

Lemma lex_vp : forall B n x y, 0 < B ->
  Forall (fun d => d < B) x -> Forall (fun d => d < B) y ->
  (length x <= n)%nat -> (length y <= n)%nat ->
  lex x y = match vp B n x ?= vp B n y with
            | Eq => Nat.compare (length x) (length y) | c => c end.
Proof.
  intros B n. induction n as [|n IH]; intros x y HB Hx Hy Lx Ly.
  - destruct x, y; cbn [length] in *; try lia. reflexivity.
  - assert (HP : 0 < B ^ N.of_nat n) by (apply N.neq_0_lt_0, N.pow_nonzero; lia).
    destruct x as [|d x], y as [|e y]; cbn [lex vp length] in *.
    + reflexivity.
    + destruct (N.compare_spec 0 (e * B ^ N.of_nat n + vp B n y)); auto; lia.
    + destruct (N.compare_spec (d * B ^ N.of_nat n + vp B n x) 0); auto; lia.
    + inversion Hx; subst. inversion Hy; subst.
      rewrite (IH x y) by (auto; lia).
      assert (Bx : vp B n x < B ^ N.of_nat n) by (apply vp_lt; auto).
      assert (By : vp B n y < B ^ N.of_nat n) by (apply vp_lt; auto).
      set (P := B ^ N.of_nat n) in *.
      destruct (N.compare_spec d e) as [E|E|E].
      * subst e.
        destruct (N.compare_spec (vp B n x) (vp B n y));
        destruct (N.compare_spec (d * P + vp B n x) (d * P + vp B n y));
          try lia; reflexivity.
      * assert ((d + 1) * P <= e * P) by (apply N.mul_le_mono_r; lia).
        destruct (N.compare_spec (d * P + vp B n x) (e * P + vp B n y)); auto; lia.
      * assert ((e + 1) * P <= d * P) by (apply N.mul_le_mono_r; lia).
        destruct (N.compare_spec (d * P + vp B n x) (e * P + vp B n y)); auto; lia.
Qed.

Lemma vp_cons : forall B n d r, vp B (S n) (d :: r) = d * B ^ N.of_nat n + vp B n r.
Proof. reflexivity. Qed.

Lemma pow_plus : forall B n k, B ^ N.of_nat (n + k) = B ^ N.of_nat k * B ^ N.of_nat n.
Proof. intros. rewrite Nat2N.inj_add, N.pow_add_r. lia. Qed.

Lemma chunk_value : forall P a b c d, a < 64 -> b < 64 -> c < 64 -> d < 64 ->
  (4 * a + b / 16) * (65536 * P) + ((16 * (b mod 16) + c / 4) * (256 * P)
     + (64 * (c mod 4) + d) * P)
  = a * (262144 * P) + (b * (4096 * P) + (c * (64 * P) + d * P)).
Proof.
  intros P a b c d Ha Hb Hc Hd.
  assert (E : (4 * a + b / 16) * 65536 + (16 * (b mod 16) + c / 4) * 256
     + (64 * (c mod 4) + d) = a * 262144 + b * 4096 + c * 64 + d) by lia.
  transitivity (((4 * a + b / 16) * 65536 + (16 * (b mod 16) + c / 4) * 256
     + (64 * (c mod 4) + d)) * P); [lia|]. rewrite E. lia.
Qed.

Lemma vp_pack : forall m l, Forall (fun x => x < 64) l -> (length l <= 4 * m)%nat ->
  vp 256 (3 * m) (pack l) = vp 64 (4 * m) l.
Proof.
  assert (PE : forall k, 256 ^ N.of_nat (3 * k) = 64 ^ N.of_nat (4 * k)).
  { intro k. change 256 with (2 ^ 8). change 64 with (2 ^ 6).
    rewrite <- !N.pow_mul_r. f_equal. lia. }
  induction m as [|m IH]; intros l Hl Ll.
  - destruct l; [reflexivity|cbn [length] in Ll; lia].
  - replace (3 * S m)%nat with (S (S (S (3 * m)))) by lia.
    replace (4 * S m)%nat with (S (S (S (S (4 * m))))) by lia.
    assert (Q : forall B n, B ^ N.of_nat (S n) = B * B ^ N.of_nat n).
    { intros. rewrite Nat2N.inj_succ, N.pow_succ_r'. reflexivity. }
    pose proof (chunk_value (64 ^ N.of_nat (4 * m))) as CV.
    destruct l as [|a [|b [|c [|d r]]]]; invF; cbn [pack app].
    + reflexivity.
    + rewrite !vp_cons, !vp_nil. rewrite !Q, PE.
      pose proof (CV a 0 0 0). 
      change (0 / 16) with 0 in *. change (0 mod 16) with 0 in *.
      change (0 / 4) with 0 in *. change (0 mod 4) with 0 in *. lia.
    + rewrite !vp_cons, !vp_nil. rewrite !Q, PE.
      pose proof (CV a b 0 0). 
      change (0 / 4) with 0 in *. change (0 mod 4) with 0 in *. lia.
    + rewrite !vp_cons, !vp_nil. rewrite !Q, PE.
      pose proof (CV a b c 0). lia.
    + rewrite !vp_cons. rewrite IH by (auto; cbn [length] in Ll; lia).
      rewrite !Q, PE. pose proof (CV a b c d). lia.
Qed.

Lemma vp_inj : forall n x y, 
  Forall (fun d => 0 < d < 64) x -> Forall (fun d => 0 < d < 64) y ->
  (length x <= n)%nat -> (length y <= n)%nat -> vp 64 n x = vp 64 n y -> x = y.
Proof.
  assert (W : forall l, Forall (fun d => 0 < d < 64) l -> Forall (fun d => d < 64) l).
  { intros l H. eapply Forall_impl; [|exact H]. cbv beta. intros; lia. }
  induction n as [|n IH]; intros x y Hx Hy Lx Ly E.
  - destruct x, y; cbn [length] in *; try lia. reflexivity.
  - assert (HP : 0 < 64 ^ N.of_nat n) by (apply N.neq_0_lt_0, N.pow_nonzero; lia).
    destruct x as [|d x], y as [|e y]; cbn [vp length] in *; auto.
    + inversion Hy; subst. exfalso.
      assert (1 * 64 ^ N.of_nat n <= e * 64 ^ N.of_nat n) by (apply N.mul_le_mono_r; lia). lia.
    + inversion Hx; subst. exfalso.
      assert (1 * 64 ^ N.of_nat n <= d * 64 ^ N.of_nat n) by (apply N.mul_le_mono_r; lia). lia.
    + inversion Hx; subst. inversion Hy; subst.
      pose proof (vp_lt 64 n x ltac:(lia) ltac:(auto)) as Bx.
      pose proof (vp_lt 64 n y ltac:(lia) ltac:(auto)) as By.
      set (P := 64 ^ N.of_nat n) in *.
      assert (d = e).
      { destruct (N.lt_trichotomy d e) as [L|[L|L]]; auto; exfalso.
        - assert ((d + 1) * P <= e * P) by (apply N.mul_le_mono_r; lia). lia.
        - assert ((e + 1) * P <= d * P) by (apply N.mul_le_mono_r; lia). lia. }
      subst e. f_equal. apply IH; auto; lia.
Qed.

Lemma lex_pack : forall a b,
  Forall (fun x => 0 < x < 64) a -> Forall (fun x => 0 < x < 64) b ->
  lex (pack a) (pack b) = lex a b.
Proof.
  assert (W : forall l, Forall (fun d => 0 < d < 64) l -> Forall (fun d => d < 64) l).
  { intros l H. eapply Forall_impl; [|exact H]. cbv beta. intros; lia. }
  intros a b Ha Hb.
  set (m := (length a + length b)%nat).
  pose proof (pack_length a) as [La _]. pose proof (pack_length b) as [Lb _].
  rewrite (lex_vp 256 (3 * m)); try (apply pack_bytes_ok; auto); try lia.
  rewrite (lex_vp 64 (4 * m) a b) by (auto; lia).
  rewrite !vp_pack by (auto; lia).
  destruct (N.compare_spec (vp 64 (4 * m) a) (vp 64 (4 * m) b)) as [E|E|E]; auto.
  apply vp_inj in E; auto; try lia. subst b. rewrite !Nat.compare_refl. reflexivity.
Qed.

Theorem sixpack_order : forall a b, Forall packable a -> Forall packable b ->
  lex (sixpack a) (sixpack b) = lex a b.
Proof.
  intros a b Ha Hb. rewrite !sixpack_spec by assumption.
  rewrite <- (lex_tosix a b) by assumption.
  assert (P : forall l, Forall packable l -> Forall (fun x => 0 < x < 64) (map tosix l)).
  { induction 1 as [|x l Hx Hl IH]; cbn [map]; constructor; auto.
    pose proof (tosix_lt x). unfold packable in Hx. lia. }
  apply lex_pack; apply P; assumption.
Qed.
