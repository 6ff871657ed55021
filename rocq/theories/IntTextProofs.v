From Verif Require Import Base IntText.
Local Open Scope N_scope.

Lemma is_digit_range : forall b, is_digit b = true <-> 48 <= b <= 57.
Proof. intros b. unfold is_digit. rewrite andb_true_iff, !N.leb_le. lia. Qed.
Lemma digit_not_space : forall b, is_digit b = true -> is_space b = false.
Proof. intros b H. apply is_digit_range in H. unfold is_space. destruct (b =? 32) eqn:E; [apply N.eqb_eq in E; lia|].
  cbn. destruct (9 <=? b) eqn:A; [|reflexivity]. cbn. apply N.leb_gt. lia. Qed.

Lemma decimal_app : forall a b, decimal (a ++ b) = decimal a * 10 ^ N.of_nat (length b) + decimal b.
Proof.
  induction a as [|d a IH]; intros b; cbn [app decimal]; [lia|]. rewrite IH, app_length, Nat2N.inj_add, N.pow_add_r. lia.
Qed.
Lemma decimal_snoc : forall a d, decimal (a ++ [d]) = 10 * decimal a + (d - 48).
Proof. intros a d. rewrite decimal_app. cbn. lia. Qed.

(** scan_digits *)
Lemma scan_digits_spec : forall s acc v n, scan_digits s acc = (v, n) ->
  exists ds rest, s = ds ++ rest /\ length ds = n /\ Forall (fun d => is_digit d = true) ds /\
    v = acc * 10 ^ N.of_nat n + decimal ds /\ (forall b r, rest = b :: r -> is_digit b = false).
Proof.
  induction s as [|b s IH]; intros acc v n E; cbn [scan_digits] in E.
  - inversion E; subst. exists [], []. cbn. repeat split; try constructor; [lia|discriminate].
  - destruct (is_digit b) eqn:D.
    + destruct (scan_digits s (10 * acc + (b - 48))) as [v' n'] eqn:E'. inversion E; subst.
      destruct (IH _ _ _ E') as (ds & rest & -> & L & F & V & R).
      exists (b :: ds), rest. cbn [app length decimal]. rewrite L. repeat split; [constructor; assumption| |exact R].
      rewrite V, Nat2N.inj_succ, N.pow_succ_r'. lia.
    + inversion E; subst. exists [], (b :: s). cbn. repeat split; try constructor; [lia|]. intros b' r H. inversion H; subst. exact D.
Qed.

Lemma skip_spaces_spec : forall s, exists sp rest, s = sp ++ rest /\ length sp = skip_spaces s /\
  Forall (fun b => is_space b = true) sp /\ (forall b r, rest = b :: r -> is_space b = false).
Proof.
  induction s as [|b s (sp & rest & -> & L & F & R)].
  - exists [], []. repeat split; [constructor|discriminate].
  - cbn [skip_spaces]. destruct (is_space b) eqn:E.
    + exists (b :: sp), rest. cbn [app length]. rewrite L. repeat split; [constructor; assumption|exact R].
    + exists [], (b :: sp ++ rest). repeat split; [constructor|]. intros b' r H. inversion H; subst. exact E.
Qed.

Lemma skipn_len : forall A (a b : list A), skipn (length a) (a ++ b) = b.
Proof. intros A a b. rewrite skipn_app, skipn_all, Nat.sub_diag. reflexivity. Qed.

(** Splitting into leading bytes with a property and the rest is unique. *)
Lemma split_unique : forall A (p : A -> bool) a b a' b',
  a ++ b = a' ++ b' -> Forall (fun x => p x = true) a -> Forall (fun x => p x = true) a' ->
  (forall x r, b = x :: r -> p x = false) -> (forall x r, b' = x :: r -> p x = false) -> a = a' /\ b = b'.
Proof.
  intros A p. induction a as [|x a IH]; intros b [|x' a'] b' E F F' B B'; cbn in E.
  - auto.
  - subst b. inversion F'; subst. rewrite (B _ _ eq_refl) in H1. discriminate.
  - subst b'. inversion F; subst. rewrite (B' _ _ eq_refl) in H1. discriminate.
  - inversion E; subst. inversion F; subst. inversion F'; subst. destruct (IH _ _ _ H1 H3 H5 B B') as [-> ->]. auto.
Qed.

Lemma sign_spec : forall rest : bytes,
  let p := match rest with 45 :: _ => (true, 1%nat) | 43 :: _ => (false, 1%nat) | _ => (false, O) end in
  exists sg, rest = sg ++ skipn (snd p) rest /\ length sg = snd p /\
     if fst p then sg = [45] else sg = [] \/ sg = [43].
Proof.
  intros [|b r]; cbv zeta; [exists []; cbn; auto|].
  destruct (N.eq_dec b 45) as [->|N45]; [exists [45]; cbn; auto|].
  destruct (N.eq_dec b 43) as [->|N43]; [exists [43]; cbn; auto|].
  assert (M : (match b :: r with 45 :: _ => (true, 1%nat) | 43 :: _ => (false, 1%nat) | _ => (false, O) end) = (false, O)).
  { destruct b as [|q]; [reflexivity|]. do 6 (try destruct q as [q|q|]; try reflexivity); congruence. }
  rewrite M. exists []. cbn. auto.
Qed.

(** The whole string is read. *)
Lemma strto_whole : forall s neg v n, strto s = (neg, v, n) -> n = length s -> s <> [] -> reads s neg v.
Proof.
  intros s neg v n E L NE. unfold strto in E.
  destruct (skip_spaces_spec s) as (sp & rest & S & LS & FS & RS). rewrite <- LS in E. rewrite S in E.
  rewrite skipn_len in E.
  pose proof (sign_spec rest) as P. cbv zeta in P.
  set (p := match rest with 45 :: _ => (true, 1%nat) | 43 :: _ => (false, 1%nat) | _ => (false, O) end) in *.
  clearbody p. destruct p as [ng j]. cbn [fst snd] in P. destruct P as (sg & R & LG & SG).
  destruct (scan_digits (skipn j rest) 0) as [w m] eqn:SD.
  destruct (scan_digits_spec _ _ _ _ SD) as (ds & tl & D & LD & FD & V & _).
  destruct m as [|m].
  - inversion E; subst n v neg. destruct s; [congruence|discriminate].
  - inversion E; subst neg v n. rewrite S, R, D, !app_length in H2.
    assert (tl = []) by (destruct tl; [reflexivity|cbn in H2; lia]). subst tl.
    rewrite app_nil_r in D. exists sp, sg, ds. rewrite S, R, D at 1. repeat split; try assumption.
    + destruct ds; [discriminate LD|congruence].
    + lia.
Qed.

Lemma reads_strto : forall s neg v, reads s neg v -> strto s = (neg, v, length s).
Proof.
  intros s neg v (sp & sg & ds & -> & FS & SG & [ND FD] & V). unfold strto.
  assert (HD : exists d r, ds = d :: r /\ is_digit d = true).
  { destruct ds as [|d r]; [congruence|]. inversion FD; subst. eauto. }
  destruct HD as (d0 & r0 & HD & D0).
  assert (R1 : forall b r, sg ++ ds = b :: r -> is_space b = false).
  { intros b r H. assert (SGC : sg = [] \/ sg = [43] \/ sg = [45]) by (destruct neg; tauto).
    destruct SGC as [-> | [-> | ->]]; cbn in H.
    - rewrite HD in H. inversion H; subst. apply digit_not_space. exact D0.
    - inversion H. reflexivity.
    - inversion H. reflexivity. }
  assert (K : skip_spaces (sp ++ sg ++ ds) = length sp).
  { destruct (skip_spaces_spec (sp ++ sg ++ ds)) as (sp' & rest & E & L & F & R).
    destruct (split_unique _ is_space _ _ _ _ E FS F R1 R) as [-> _]. auto. }
  rewrite K, skipn_len.
  assert (M : (match sg ++ ds with 45 :: _ => (true, 1%nat) | 43 :: _ => (false, 1%nat) | _ => (false, O) end)
              = (neg, length sg)).
  { destruct neg; [subst sg; reflexivity|]. destruct SG as [->| ->]; [|reflexivity]. cbn [app length].
    rewrite HD. apply is_digit_range in D0. clear - D0.
    destruct d0 as [|p]; [lia|]. do 6 (try destruct p as [p|p|]; try reflexivity); lia. }
  rewrite M, skipn_len. destruct (scan_digits ds 0) as [w m] eqn:SD.
  destruct (scan_digits_spec _ _ _ _ SD) as (ds' & tl & D & LD & FD' & V' & R).
  assert (X : ds' = ds /\ tl = []).
  { apply (split_unique _ is_digit ds' tl ds []); [rewrite app_nil_r; symmetry; exact D|assumption|assumption|exact R|discriminate]. }
  destruct X as [-> ->]. rewrite HD in LD. destruct m as [|m]; [discriminate LD|]. rewrite <- HD in LD.
  rewrite !app_length, LD. f_equal; [f_equal; lia|]. lia.
Qed.

Lemma strto_empty : strto [] = (false, 0, O).
Proof. reflexivity. Qed.

Lemma reads_nonempty : forall neg v, ~ reads [] neg v.
Proof.
  intros neg v (sp & sg & ds & E & _ & _ & [ND _] & _). symmetry in E. apply app_eq_nil in E. destruct E as [_ E].
  apply app_eq_nil in E. destruct E; congruence.
Qed.

Definition signed (neg : bool) (v : N) : Z := if neg then (- Z.of_N v)%Z else Z.of_N v.

Lemma parse_i64_spec : forall s z, parse_i64 s = Some z <->
  (length s <= 21)%nat /\ i64_ok z /\
  ((s = [] /\ z = 0%Z) \/ exists neg v, reads s neg v /\ z = signed neg v).
Proof.
  intros s z. unfold parse_i64. destruct (21 <? length s)%nat eqn:LE.
  { apply Nat.ltb_lt in LE. split; [discriminate|lia]. }
  apply Nat.ltb_ge in LE. split.
  - destruct (strto s) as [[neg v] n] eqn:E. intros H.
    destruct ((_ && _)%Z && _) eqn:C in H; [|discriminate H].
    inversion H; subst z. apply andb_true_iff in C. destruct C as [C C3]. apply andb_true_iff in C. destruct C as [C1 C2].
    apply Z.leb_le in C1. apply Z.leb_le in C2. apply Nat.eqb_eq in C3.
    split; [exact LE|]. split; [split; assumption|].
    destruct s as [|b s']; [left; cbn in E; inversion E; subst; auto|].
    right. exists neg, v. split; [eapply strto_whole; [exact E|exact C3|discriminate]|reflexivity].
  - intros (_ & [B1 B2] & [[-> ->]|(neg & v & R & ->)]).
    + reflexivity.
    + rewrite (reads_strto _ _ _ R). change (if neg then _ else _) with (signed neg v).
      rewrite (proj2 (Z.leb_le _ _) B1), (proj2 (Z.leb_le _ _) B2), Nat.eqb_refl. reflexivity.
Qed.

Lemma parse_u64_spec : forall s x, parse_u64 s = Some x <->
  (length s <= 21)%nat /\ hd 0 s <> 45 /\
  ((s = [] /\ x = 0) \/
   exists neg v, reads s neg v /\ v < 2 ^ 64 /\ x = if neg then u64 (2 ^ 64 - v) else v).
Proof.
  intros s x. unfold parse_u64. destruct (21 <? length s)%nat eqn:LE.
  { apply Nat.ltb_lt in LE. split; [discriminate|lia]. }
  apply Nat.ltb_ge in LE.
  assert (M : hd 0 s <> 45 -> forall A (a b : A), (match s with 45 :: _ => a | _ => b end) = b).
  { intros H A a b. destruct s as [|[|p] s]; cbn in H; try reflexivity.
    do 6 (try destruct p as [p|p|]; try reflexivity); congruence. }
  destruct (N.eq_dec (hd 0 s) 45) as [H45|H45].
  { destruct s as [|b s]; [discriminate H45|]. cbn in H45. subst b. split; [discriminate|intros (_ & H & _); cbn in H; congruence]. }
  rewrite (M H45). clear M. split.
  - destruct (strto s) as [[neg v] n] eqn:E. intros H.
    destruct (_ && _) eqn:C in H; [|discriminate H].
    inversion H; subst x. apply andb_true_iff in C. destruct C as [C C3].
    apply N.ltb_lt in C. apply Nat.eqb_eq in C3.
    split; [exact LE|]. split; [exact H45|].
    destruct s as [|b s']; [left; cbn in E; inversion E; subst; auto|].
    right. exists neg, v. split; [eapply strto_whole; [exact E|exact C3|discriminate]|]. auto.
  - intros (_ & _ & [[-> ->]|(neg & v & R & B & ->)]).
    + reflexivity.
    + rewrite (reads_strto _ _ _ R), (proj2 (N.ltb_lt _ _) B), Nat.eqb_refl. reflexivity.
Qed.

(** u64toa *)
Lemma toa_loop : forall fuel x acc, x < 10 ^ N.of_nat fuel -> 0 < x ->
  exists ds, u64toa_loop fuel x acc = acc ++ rev ds /\ canonical ds x.
Proof.
  induction fuel as [|f IH]; intros x acc B P; [cbn in B; lia|]. cbn [u64toa_loop].
  rewrite Nat2N.inj_succ, N.pow_succ_r' in B.
  assert (M : x mod 10 < 10) by (apply N.mod_lt; lia).
  pose proof (N.div_mod x 10 ltac:(lia)) as DM.
  destruct (0 <? x / 10) eqn:E.
  - apply N.ltb_lt in E. destruct (IH (x / 10) (acc ++ [48 + x mod 10])) as (ds & R & [[ND FD] [V H0]]).
    + apply N.div_lt_upper_bound; lia.
    + exact E.
    + exists (ds ++ [48 + x mod 10]). rewrite R, rev_app_distr. cbn [rev app]. rewrite <- app_assoc. split; [reflexivity|].
      split; [|split].
      * split; [destruct ds; discriminate|]. apply Forall_app. split; [exact FD|]. constructor; [|constructor].
        apply is_digit_range. lia.
      * rewrite decimal_snoc, V. lia.
      * destruct ds as [|d ds]; [congruence|]. cbn [hd app]. intros ->. exfalso. specialize (H0 eq_refl).
        inversion H0; subst. cbn in V. lia.
  - apply N.ltb_ge in E. exists [48 + x mod 10]. split; [reflexivity|]. split; [|split].
    + split; [discriminate|]. constructor; [|constructor]. apply is_digit_range. lia.
    + cbn. lia.
    + cbn. intros H. f_equal. exact H.
Qed.

Lemma u64toa_canonical : forall x, x < 2 ^ 64 -> canonical (u64toa x) x.
Proof.
  intros x B. unfold u64toa. destruct (x <? 10) eqn:E.
  - apply N.ltb_lt in E. split; [|split].
    + split; [discriminate|]. constructor; [|constructor]. apply is_digit_range. lia.
    + cbn. lia.
    + cbn. intros H. f_equal. exact H.
  - apply N.ltb_ge in E. destruct (toa_loop 20 x []) as (ds & R & C); [|lia|].
    + eapply N.lt_trans; [exact B|reflexivity].
    + rewrite R. cbn [app]. rewrite rev_involutive. exact C.
Qed.

Lemma pow10_pos : forall n, 0 < 10 ^ n.
Proof. intros n. apply N.neq_0_lt_0. apply N.pow_nonzero. discriminate. Qed.
Lemma decimal_bound : forall ds, Forall (fun d => is_digit d = true) ds -> decimal ds < 10 ^ N.of_nat (length ds).
Proof.
  induction ds as [|d ds IH]; intros F; [reflexivity|]. inversion F; subst. specialize (IH H2).
  apply is_digit_range in H1. cbn [decimal length]. rewrite Nat2N.inj_succ, N.pow_succ_r'.
  change byte with N in *. set (q := 10 ^ N.of_nat (length ds)) in *. clearbody q.
  assert (E : d - 48 <= 9) by lia. set (e := d - 48) in *. clearbody e.
  apply (N.mul_le_mono_r _ _ q) in E. lia.
Qed.
Lemma canonical_low : forall ds x, canonical ds x -> ds = [48] \/ 10 ^ N.of_nat (length ds - 1) <= x.
Proof.
  intros [|d ds] x [[ND F] [V H]]; [congruence|]. cbn [hd] in H. destruct (N.eq_dec d 48) as [->|D]; [left; auto|].
  right. inversion F; subst. apply is_digit_range in H2. cbn [decimal length]. rewrite Nat.sub_succ, Nat.sub_0_r.
  change byte with N in *. set (q := 10 ^ N.of_nat (length ds)) in *. clearbody q.
  assert (E : 1 <= d - 48) by lia. set (e := d - 48) in *. clearbody e.
  apply (N.mul_le_mono_r _ _ q) in E. lia.
Qed.
Lemma canonical_length : forall ds x, canonical ds x -> x < 2 ^ 64 -> (length ds <= 20)%nat.
Proof.
  intros ds x C B. destruct (canonical_low ds x C) as [->|L]; [cbn; lia|].
  destruct (Nat.le_gt_cases (length ds) 20) as [H|H]; [exact H|exfalso].
  assert (10 ^ 20 <= 10 ^ N.of_nat (length ds - 1)) by (apply N.pow_le_mono_r; lia).
  assert (2 ^ 64 < 10 ^ 20) by reflexivity. lia.
Qed.
Lemma canonical_unique : forall ds ds' x, canonical ds x -> canonical ds' x -> ds = ds'.
Proof.
  intros ds ds' x C C'.
  assert (LEN : length ds = length ds').
  { pose proof C as [[N1 F1] [V1 H1]]. pose proof C' as [[N2 F2] [V2 H2]]. change byte with N in *.
    pose proof (decimal_bound _ F1) as B1. pose proof (decimal_bound _ F2) as B2.
    assert (Z0 : forall l, canonical l x -> l = [48] -> x = 0) by (intros l [_ [V _]] ->; cbn in V; lia).
    destruct (canonical_low ds x C) as [E1|L1]; destruct (canonical_low ds' x C') as [E2|L2]; subst; try reflexivity.
    - exfalso. pose proof (Z0 _ C eq_refl). assert (0 < 10 ^ N.of_nat (length ds' - 1)) by apply pow10_pos.
      cbn [decimal] in *. lia.
    - exfalso. pose proof (Z0 _ C' eq_refl). assert (0 < 10 ^ N.of_nat (length ds - 1)) by apply pow10_pos.
      cbn [decimal] in *. lia.
    - destruct (Nat.lt_trichotomy (length ds) (length ds')) as [LT|[E|GT]]; [exfalso|exact E|exfalso].
      + assert (10 ^ N.of_nat (length ds) <= 10 ^ N.of_nat (length ds' - 1)) by (apply N.pow_le_mono_r; change byte with N in *; [discriminate|lia]). change byte with N in *. lia.
      + assert (10 ^ N.of_nat (length ds') <= 10 ^ N.of_nat (length ds - 1)) by (apply N.pow_le_mono_r; change byte with N in *; [discriminate|lia]). change byte with N in *. lia. }
  destruct C as [[_ F] [V _]]. destruct C' as [[_ F'] [V' _]]. clear - F F' LEN V V'. subst x.
  revert ds' F' LEN V'. induction ds as [|d ds IH]; intros [|d' ds'] F' LEN V'; try discriminate LEN; [reflexivity|].
  inversion F; subst. inversion F'; subst. cbn [length] in LEN. injection LEN as LEN.
  apply is_digit_range in H1. apply is_digit_range in H3.
  pose proof (decimal_bound _ H2) as B. pose proof (decimal_bound _ H4) as B'. cbn [decimal] in V'.
  change byte with N in *. rewrite <- LEN in V', B'. set (q := 10 ^ N.of_nat (length ds)) in *. clearbody q.
  assert (DD : d = d').
  { destruct (N.lt_trichotomy d d') as [LT|[E|GT]]; [exfalso|exact E|exfalso].
    - assert (E : d - 48 + 1 <= d' - 48) by lia. set (e := d - 48) in *. set (e' := d' - 48) in *. clearbody e e'.
      apply (N.mul_le_mono_r _ _ q) in E. lia.
    - assert (E : d' - 48 + 1 <= d - 48) by lia. set (e := d - 48) in *. set (e' := d' - 48) in *. clearbody e e'.
      apply (N.mul_le_mono_r _ _ q) in E. lia. }
  subst d'. f_equal. apply IH; [assumption|assumption|assumption|lia].
Qed.

Lemma parse_print_u64 : forall x, x < 2 ^ 64 -> parse_u64 (u64toa x) = Some x.
Proof.
  intros x B. pose proof (u64toa_canonical x B) as C. pose proof (canonical_length _ _ C B) as L.
  destruct C as [[ND F] [V _]]. apply parse_u64_spec. split; [lia|]. split.
  - destruct (u64toa x) as [|d r]; [congruence|]. inversion F; subst. apply is_digit_range in H1. cbn. lia.
  - right. exists false, x. split; [|auto]. exists [], [], (u64toa x). repeat split; auto.
Qed.
Lemma parse_print_i64 : forall z, i64_ok z -> parse_i64 (i64toa z) = Some z.
Proof.
  intros z B. unfold i64toa. destruct (z <? 0)%Z eqn:E.
  - destruct (z =? INT64_MIN)%Z eqn:M.
    + apply Z.eqb_eq in M. subst z. vm_compute. reflexivity.
    + apply Z.ltb_lt in E. assert (B' : Z.to_N (- z) < 2 ^ 64) by (unfold i64_ok, INT64_MIN in B; lia).
      pose proof (u64toa_canonical _ B') as C. pose proof (canonical_length _ _ C B') as L.
      destruct C as [[ND F] [V _]]. apply parse_i64_spec. cbn [length]. split; [lia|]. split; [exact B|].
      right. exists true, (Z.to_N (- z)). split; [|unfold signed; lia].
      exists [], [45], (u64toa (Z.to_N (- z))). repeat split; auto.
  - apply Z.ltb_ge in E. assert (B' : Z.to_N z < 2 ^ 64) by (unfold i64_ok, INT64_MAX in B; lia).
    pose proof (u64toa_canonical _ B') as C. pose proof (canonical_length _ _ C B') as L.
    destruct C as [[ND F] [V _]]. apply parse_i64_spec. split; [lia|]. split; [exact B|].
    right. exists false, (Z.to_N z). split; [|unfold signed; lia].
    exists [], [], (u64toa (Z.to_N z)). repeat split; auto.
Qed.
