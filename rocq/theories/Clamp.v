(** Clamped 64-bit arithmetic. *)
From Verif Require Import Base.
Local Open Scope Z_scope.

(** A signed 64-bit operation: [None] when the result overflows, which is
    undefined behaviour in C. [src/util.c:41-72], the operations on int64_t *)
Definition i64_chk (x : Z) : option Z :=
  if (INT64_MIN <=? x) && (x <=? INT64_MAX) then Some x else None.

(** [src/pogocache.c:240-251 int64_add_clamp] and its copy [src/util.c:41-52];
    [(a ^ b) < 0] on two's complement integers is [Z.lxor a b <? 0]. *)
Definition int64_add_clamp (a b : Z) : option Z :=
  if negb (Z.lxor a b <? 0) then
    if a >? 0 then
      match i64_chk (INT64_MAX - a) with
      | None => None
      | Some d => if b >? d then Some INT64_MAX else i64_chk (a + b)
      end
    else
      match i64_chk (INT64_MIN - a) with
      | None => None
      | Some d => if b <? d then Some INT64_MIN else i64_chk (a + b)
      end
  else i64_chk (a + b).

(** [src/util.c:55-72 int64_mul_clamp]; C division truncates ([Z.quot]). *)
Definition int64_mul_clamp (a b : Z) : option Z :=
  if negb (a =? 0) || negb (b =? 0) then
    if a >? 0 then
      if (b >? 0) && (a >? Z.quot INT64_MAX b) then Some INT64_MAX
      else if (b <? 0) && (b <? Z.quot INT64_MIN a) then Some INT64_MIN
      else i64_chk (a * b)
    else
      if (b >? 0) && (a <? Z.quot INT64_MIN b) then Some INT64_MIN
      else if (b <? 0) && (a <? Z.quot INT64_MAX b) then Some INT64_MAX
      else i64_chk (a * b)
  else i64_chk (a * b).

(** *** Proofs *)
(** The range of the results of [src/util.c:41-72]; for the proofs. *)
Definition clampZ (x : Z) : Z :=
  if x <? INT64_MIN then INT64_MIN else if INT64_MAX <? x then INT64_MAX else x.

Lemma lxor_sign : forall a b, (Z.lxor a b <? 0) = xorb (a <? 0) (b <? 0).
Proof.
  intros a b. pose proof (Z.lxor_nonneg a b) as H.
  destruct (a <? 0) eqn:A; destruct (b <? 0) eqn:B; cbn [xorb];
    destruct (Z.lxor a b <? 0) eqn:X; try reflexivity; exfalso; lia.
Qed.

Lemma i64_chk_ok : forall x, i64_ok x -> i64_chk x = Some x.
Proof.
  intros x [H1 H2]. unfold i64_chk.
  replace (INT64_MIN <=? x) with true by lia. replace (x <=? INT64_MAX) with true by lia.
  reflexivity.
Qed.

Lemma add_clamp_spec : forall a b, i64_ok a -> i64_ok b ->
  int64_add_clamp a b = Some (clampZ (a + b)).
Proof.
  intros a b Ha Hb. unfold int64_add_clamp, clampZ. rewrite lxor_sign.
  unfold i64_ok, INT64_MIN, INT64_MAX in *. unfold i64_chk, INT64_MIN, INT64_MAX.
  destruct (a <? 0) eqn:A; destruct (b <? 0) eqn:B; cbn [xorb negb];
  destruct (a >? 0) eqn:A0; try lia;
  repeat match goal with
  | |- context [if ?c then _ else _] => destruct c eqn:?
  end; try reflexivity; try lia; try (f_equal; lia).
Qed.

Lemma quot_pp : forall x y, 0 < y -> 0 <= x ->
  exists q, Z.quot x y = q /\ 0 <= q /\ q * y <= x < (q + 1) * y.
Proof.
  intros x y Hy Hx. exists (x / y). rewrite Z.quot_div_nonneg by lia.
  pose proof (Z.mul_div_le x y Hy). pose proof (Z.mul_succ_div_gt x y Hy).
  pose proof (Z.div_pos x y Hx Hy).
  set (q := x / y) in *. clearbody q. repeat split; nia.
Qed.
Lemma quot_np : forall x y, 0 < y -> 0 <= x ->
  exists q, Z.quot (- x) y = - q /\ 0 <= q /\ q * y <= x < (q + 1) * y.
Proof.
  intros x y Hy Hx. destruct (quot_pp x y Hy Hx) as (q & E & H). exists q.
  rewrite Z.quot_opp_l by (intro; subst y; discriminate). rewrite E. auto.
Qed.
Lemma quot_pn : forall x y, 0 < y -> 0 <= x ->
  exists q, Z.quot x (- y) = - q /\ 0 <= q /\ q * y <= x < (q + 1) * y.
Proof.
  intros x y Hy Hx. destruct (quot_pp x y Hy Hx) as (q & E & H). exists q.
  rewrite Z.quot_opp_r by (intro; subst y; discriminate). rewrite E. auto.
Qed.

Lemma mul_clamp_spec : forall a b, i64_ok a -> i64_ok b ->
  int64_mul_clamp a b = Some (clampZ (a * b)).
Proof.
  intros a b Ha Hb. unfold int64_mul_clamp, clampZ.
  unfold i64_ok in *. unfold i64_chk.
  assert (HM : 0 < INT64_MAX) by reflexivity.
  assert (Hm : INT64_MIN = - (INT64_MAX + 1)) by reflexivity.
  rewrite Hm in *. set (M := INT64_MAX) in *. clearbody M. clear Hm.
  assert (Fin : - (M + 1) <= a * b <= M -> (if (- (M + 1) <=? a * b) && (a * b <=? M) then Some (a * b) else None)
     = Some (if a * b <? - (M + 1) then - (M + 1) else if M <? a * b then M else a * b)).
  { intro. replace (- (M + 1) <=? a * b) with true by lia. replace (a * b <=? M) with true by lia.
    replace (a * b <? - (M + 1)) with false by lia. replace (M <? a * b) with false by lia. reflexivity. }
  assert (Hi : M < a * b -> Some M =
     Some (if a * b <? - (M + 1) then - (M + 1) else if M <? a * b then M else a * b)).
  { intro. replace (a * b <? - (M + 1)) with false by lia. replace (M <? a * b) with true by lia. reflexivity. }
  assert (Lo : a * b < - (M + 1) -> Some (- (M + 1)) =
     Some (if a * b <? - (M + 1) then - (M + 1) else if M <? a * b then M else a * b)).
  { intro. replace (a * b <? - (M + 1)) with true by lia. reflexivity. }
  destruct (negb (a =? 0) || negb (b =? 0)) eqn:NZ.
  2:{ assert (a = 0) by lia. assert (b = 0) by lia. subst a b. apply Fin. lia. }
  clear NZ.
  destruct (a >? 0) eqn:A.
  - destruct (b >? 0) eqn:B; cbn [andb].
    + replace (b <? 0) with false by lia. cbn [andb].
      destruct (quot_pp M b) as (q & E & Q0 & Q); [lia|lia|]. rewrite E. clear E.
      destruct (a >? q) eqn:C.
      * apply Hi. nia.
      * apply Fin. nia.
    + destruct (b <? 0) eqn:B0; cbn [andb].
      * destruct (quot_np (M + 1) a) as (q & E & Q0 & Q); [lia|lia|]. rewrite E. clear E.
        destruct (b <? - q) eqn:C.
        -- apply Lo. nia.
        -- apply Fin. nia.
      * assert (b = 0) by lia. subst b. apply Fin. lia.
  - destruct (b >? 0) eqn:B; cbn [andb].
    + replace (b <? 0) with false by lia. cbn [andb].
      destruct (quot_np (M + 1) b) as (q & E & Q0 & Q); [lia|lia|]. rewrite E. clear E.
      destruct (a <? - q) eqn:C.
      * apply Lo. nia.
      * apply Fin. nia.
    + destruct (b <? 0) eqn:B0; cbn [andb].
      * destruct (quot_pn M (- b)) as (q & E & Q0 & Q); [lia|lia|].
        rewrite Z.opp_involutive in E. rewrite E. clear E.
        destruct (a <? - q) eqn:C.
        -- apply Hi. nia.
        -- apply Fin. nia.
      * assert (b = 0) by lia. subst b. apply Fin. lia.
Qed.
