(** The output buffer: what every writer keeps up and what it appends. *)
From Coq Require Import String.
From Verif Require Import Base Types Text IntText IntTextProofs Prog Cmds Reply OutBuf.
Local Open Scope N_scope.
Notation length := List.length.

(** ** Outcomes *)
Definition good {A} (f : fate A) (P : A -> Prop) : Prop := match f with Fine a => P a | NoMemory => True | _ => False end.
Lemma good_bind : forall A B (f : fate A) (g : A -> fate B) P Q, good f P -> (forall a, P a -> good (g a) Q) -> good (bind f g) Q.
Proof. intros A B [a| | | | |] g P Q H K; cbn in *; auto; contradiction. Qed.
Lemma good_weak : forall A (f : fate A) (P Q : A -> Prop), good f P -> (forall a, P a -> Q a) -> good f Q.
Proof. intros A [a| | | | |] P Q H K; cbn in *; auto. Qed.

(** ** Blocks *)
Lemma size_fresh : forall n, size (fresh_block n) = n.
Proof. intro n. unfold size, fresh_block. rewrite repeat_length. lia. Qed.
(** The block begins with these bytes. *)
Definition begins (b : block) (s : bytes) : Prop := exists r, b = map Some s ++ r.
Lemma begins_size : forall b s, begins b s -> N.of_nat (length s) <= size b.
Proof. intros b s [r ->]. unfold size. rewrite app_length, map_length. lia. Qed.
Lemma put_begins : forall b s t i, begins b s -> i = N.of_nat (length s) -> i + N.of_nat (length t) <= size b ->
  exists b', put b i t = Fine b' /\ size b' = size b /\ begins b' (s ++ t).
Proof.
  intros b s t i [r ->] -> L. unfold put. apply N.leb_le in L. rewrite L. apply N.leb_le in L. eexists. split; [reflexivity|].
  unfold size in *. rewrite app_length, map_length in *. rewrite Nat2N.id.
  assert (F : firstn (length s) (map Some s ++ r) = map Some s). { rewrite <- (map_length Some s) at 1. apply firstn_exact. }
  rewrite F. rewrite skipn_app, map_length. rewrite skipn_all2 by (rewrite map_length; lia).
  replace (length s + length t - length s)%nat with (length t) by lia. cbn [app]. split.
  - rewrite !app_length, !map_length, skipn_length. lia.
  - exists (skipn (length t) r). rewrite map_app, app_assoc. reflexivity.
Qed.
Lemma all_set_map : forall s r, all_set (map Some s ++ r) = match all_set r with Some t => Some (s ++ t) | None => None end.
Proof. induction s as [|x s IH]; intro r; cbn; [destruct (all_set r); reflexivity|]. rewrite IH. destruct (all_set r); reflexivity. Qed.
Lemma get_begins : forall b s n, begins b s -> n = N.of_nat (length s) -> get b 0 n = Fine s.
Proof.
  intros b s n B ->. pose proof (begins_size b s B) as L. destruct B as [r ->]. unfold get. cbn [N.to_nat skipn].
  replace (0 + N.of_nat (length s) <=? _) with true by (symmetry; apply N.leb_le; lia). rewrite Nat2N.id.
  assert (F : firstn (length s) (map Some s ++ r) = map Some s). { rewrite <- (map_length Some s) at 1. apply firstn_exact. }
  rewrite F. pose proof (all_set_map s []) as A. rewrite app_nil_r in A. cbn in A. rewrite app_nil_r in A. rewrite A. reflexivity.
Qed.
Lemma fresh_begins : forall n, begins (fresh_block n) [].
Proof. intro n. exists (fresh_block n). reflexivity. Qed.
Lemma get_cstr_begins : forall b s, ~ In 0 s -> begins b (s ++ [0]) -> get_cstr b = Fine s.
Proof.
  intros b s Z [r ->]. rewrite map_app, <- app_assoc. induction s as [|x s IH]; [reflexivity|].
  cbn. destruct (N.eqb_spec x 0) as [->|]; [exfalso; apply Z; left; reflexivity|].
  cbn in IH. rewrite IH; [reflexivity|]. intro K. apply Z. right. exact K.
Qed.
Lemma put_all_begins : forall l b s i, begins b s -> i = N.of_nat (length s) -> i + N.of_nat (length (concat l)) <= size b ->
  exists b', put_all b i l = Fine b' /\ size b' = size b /\ begins b' (s ++ concat l).
Proof.
  induction l as [|t l IH]; intros b s i B E L; cbn [put_all concat] in *.
  - exists b. rewrite app_nil_r. auto.
  - rewrite app_length in L. destruct (put_begins b s t i B E) as (b1 & -> & S1 & B1); [lia|]. cbn [bind].
    destruct (IH b1 (s ++ t) (i + N.of_nat (length t)) B1) as (b2 & -> & S2 & B2).
    + rewrite app_length. lia.
    + rewrite S1. lia.
    + exists b2. rewrite S2, S1, app_assoc. auto.
Qed.

(** ** The buffer of the connection *)
Definition LARGE : N := 2 ^ 60.
(** The buffer holds exactly [s], with [extra] blocks of its writers around. *)
Definition holds (extra : nat) (c : oconn) (s : bytes) : Prop :=
  oc_len c = N.of_nat (length s) /\
  match oc_out c with
  | None => s = [] /\ oc_live c = extra
  | Some b => begins b s /\ oc_live c = S extra /\ exists k, 4 <= k <= 62 /\ size b = 2 ^ k
  end.
Lemma holds_cap : forall e c s, holds e c s -> N.of_nat (length s) <= cap c /\ cap c <= 2 ^ 62.
Proof.
  intros e c s [_ H]. unfold cap. destruct (oc_out c) as [b|].
  - destruct H as (B & _ & k & K & E). rewrite E. split; [rewrite <- E; apply begins_size; exact B|apply N.pow_le_mono_r; lia].
  - destruct H as [-> _]. cbn. lia.
Qed.

Lemma sub64_le : forall x y, y <= x -> x < 2 ^ 64 -> sub64 x y = x - y.
Proof. intros x y L B. unfold sub64. replace (x + 2 ^ 64 - y) with (x - y + 1 * 2 ^ 64) by lia. rewrite N.mod_add by lia. apply N.mod_small. lia. Qed.
Lemma pow_k : forall k, 4 <= k <= 63 -> 16 <= 2 ^ k /\ 2 ^ k <= 2 ^ 63 /\ 2 ^ (k + 1) = 2 ^ k * 2.
Proof.
  intros k K. split; [|split].
  - change 16 with (2 ^ 4). apply N.pow_le_mono_r; lia.
  - apply N.pow_le_mono_r; lia.
  - rewrite N.pow_add_r. change (2 ^ 1) with 2. reflexivity.
Qed.
Lemma grow_ok : forall fuel k len amount, 4 <= k <= 63 -> (63 - N.to_nat k < fuel)%nat -> len <= 2 ^ 62 -> len <= 2 ^ k -> amount <= 2 ^ 61 ->
  exists k', grow fuel (2 ^ k) len amount = Fine (2 ^ k') /\ k <= k' <= 63 /\ amount + len <= 2 ^ k' /\ (k' = k \/ 2 ^ k' < 2 * (len + amount)).
Proof.
  induction fuel as [|f IH]; intros k len amount K F L1 L2 A; [lia|]. destruct (pow_k k K) as (P1 & P2 & P3). cbn [grow].
  rewrite sub64_le by (change (2 ^ 63) with 9223372036854775808 in *; change (2 ^ 64) with 18446744073709551616; lia).
  destruct (N.ltb_spec (2 ^ k - len) amount) as [C|C].
  - assert (K' : k < 63).
    { destruct (N.eq_dec k 63) as [->|]; [|lia]. exfalso. change (2 ^ 63) with (2 * 2 ^ 62) in C. change (2 ^ 62) with (2 * 2 ^ 61) in *. lia. }
    destruct (pow_k (k + 1) ltac:(lia)) as (Q1 & Q2 & _).
    replace ((2 ^ k * 2) mod 2 ^ 64) with (2 ^ (k + 1)).
    2: { rewrite P3 in *. symmetry. apply N.mod_small. change (2 ^ 63) with 9223372036854775808 in *. change (2 ^ 64) with 18446744073709551616. lia. }
    destruct (IH (k + 1) len amount) as (k' & E & R & S & T); try lia. exists k'. split; [exact E|]. split; [lia|]. split; [lia|]. right.
    destruct T as [->|T]; [rewrite P3; lia|exact T].
  - exists k. split; [reflexivity|]. split; [lia|]. split; [lia|left; reflexivity].
Qed.

Section Writers.
Variable grant : nat -> N -> bool.
(** No allocator gives more than this. *)
Hypothesis grant_small : forall n z, grant n z = true -> z <= 2 ^ 62.

Lemma ensure_frugal : forall e c s amount, holds e c s -> amount <= 2 ^ 61 ->
  good (ensure grant c amount) (fun c' => (holds e c' s /\ N.of_nat (length s) + amount <= cap c') /\
    (cap c' = cap c \/ cap c' <= N.max 16 (2 * (N.of_nat (length s) + amount)))).
Proof.
  intros e c s amount H A. destruct (holds_cap e c s H) as [C1 C2]. pose proof H as [Le Hb]. unfold ensure.
  assert (P62 : cap c < 2 ^ 64). { eapply N.le_lt_trans; [exact C2|]. apply N.pow_lt_mono_r; lia. }
  rewrite sub64_le by (rewrite ?Le; lia). destruct (N.leb_spec amount (cap c - oc_len c)) as [Q|Q].
  - cbn [good]. split; [split; [exact H|]; lia|left; reflexivity].
  - assert (G : exists k, (if cap c =? 0 then 16 else (cap c * 2) mod 2 ^ 64) = 2 ^ k /\ 4 <= k <= 63 /\ oc_len c <= 2 ^ k /\ 2 ^ k <= N.max 16 (2 * (N.of_nat (length s) + amount))).
    { unfold cap in *. destruct (oc_out c) as [b|].
      - destruct Hb as (_ & _ & k & K & E). rewrite E in *. destruct (pow_k k ltac:(lia)) as (P1 & _ & P3). destruct (pow_k (k + 1) ltac:(lia)) as (_ & P2 & _).
        exists (k + 1). destruct (N.eqb_spec (2 ^ k) 0); [lia|]. split; [|split; [lia|]].
        + rewrite P3 in *. apply N.mod_small. change (2 ^ 63) with 9223372036854775808 in *. change (2 ^ 64) with 18446744073709551616. lia.
        + rewrite Le, P3. lia.
      - exists 4. rewrite N.eqb_refl. split; [reflexivity|]. change (2 ^ 4) with 16. lia. }
    destruct G as (k & -> & K & L & Mx). destruct (grow_ok 66 k (oc_len c) amount) as (k' & -> & K' & S & Mi); [exact K|lia|lia|exact L|exact A|]. cbn [bind].
    unfold xmalloc. destruct (grant (oc_calls c) (2 ^ k')) eqn:Gr; [|exact I]. cbn [bind].
    apply grant_small in Gr. assert (K62 : k' <= 62). { apply N.pow_le_mono_r_iff in Gr; lia. }
    rewrite size_fresh. replace (oc_len c <=? 2 ^ k') with true by (symmetry; apply N.leb_le; lia).
    replace (oc_len c <=? cap c) with true by (symmetry; apply N.leb_le; lia). cbn [andb good].
    set (old := match oc_out c with Some o => o | None => [] end).
    assert (Fo : firstn (N.to_nat (oc_len c)) old = map Some s).
    { rewrite Le, Nat2N.id. unfold old. destruct (oc_out c) as [b|].
      - destruct Hb as ([r ->] & _). rewrite <- (map_length Some s) at 1. apply firstn_exact.
      - destruct Hb as [-> _]. reflexivity. }
    rewrite Fo. unfold holds, cap. cbn [oc_out oc_len oc_live oc_calls].
    assert (Sz : size (map Some s ++ skipn (N.to_nat (oc_len c)) (fresh_block (2 ^ k'))) = 2 ^ k').
    { pose proof (size_fresh (2 ^ k')) as Z. unfold size in *. rewrite app_length, map_length, skipn_length. lia. }
    split; [|right; rewrite Sz; destruct Mi as [->|Mi]; [exact Mx|rewrite Le in Mi; lia]].
    split; [split; [exact Le|]|rewrite Sz, <- Le; lia]. split; [|split].
    + eexists. reflexivity.
    + destruct (oc_out c) as [b|]; [destruct Hb as (_ & -> & _)|destruct Hb as (_ & ->)]; reflexivity.
    + exists k'. split; [lia|exact Sz].
Qed.
Lemma ensure_ok : forall e c s amount, holds e c s -> amount <= 2 ^ 61 ->
  good (ensure grant c amount) (fun c' => holds e c' s /\ N.of_nat (length s) + amount <= cap c').
Proof. intros e c s amount H A. eapply good_weak; [apply ensure_frugal; eassumption|]. cbv beta. tauto. Qed.
Lemma write_nocheck_ok : forall e c s t, holds e c s -> N.of_nat (length s) + N.of_nat (length t) <= cap c ->
  good (write_nocheck c t) (fun c' => holds e c' (s ++ t) /\ cap c' = cap c).
Proof.
  intros e c s t H L. destruct (holds_cap e c s H) as [C1 C2]. destruct H as [Le Hb]. unfold write_nocheck, cap in *. destruct (oc_out c) as [b|] eqn:Eo.
  - destruct Hb as (B & Li & k & K & Sz). destruct (put_begins b s t (oc_len c) B Le) as (b' & -> & S' & B'); [lia|]. cbn [bind good].
    split; [|cbn [oc_out]; exact S']. split; cbn [oc_out oc_len oc_live].
    + rewrite app_length, Le. unfold add64. rewrite N.mod_small; [lia|]. eapply N.le_lt_trans; [|apply (N.pow_lt_mono_r 2 62 64); lia]. lia.
    + split; [exact B'|]. split; [exact Li|]. exists k. split; [exact K|congruence].
  - destruct Hb as [-> Li]. assert (t = []) as -> by (destruct t; [reflexivity|cbn [List.length] in L; lia]).
    cbn. split; [|rewrite Eo; reflexivity]. split; [exact Le|]. rewrite Eo. auto.
Qed.
Lemma write_ok : forall e c s t, holds e c s -> N.of_nat (length t) <= 2 ^ 61 -> good (write grant c t) (fun c' => holds e c' (s ++ t)).
Proof.
  intros e c s t H L. unfold write. destruct (holds_cap e c s H) as [C1 C2]. pose proof (proj1 H) as Le.
  assert (P62 : cap c < 2 ^ 64). { eapply N.le_lt_trans; [exact C2|]. apply N.pow_lt_mono_r; lia. }
  rewrite sub64_le by (rewrite ?Le; lia).
  eapply good_bind with (P := fun c' => holds e c' s /\ N.of_nat (length s) + N.of_nat (length t) <= cap c').
  - destruct (N.ltb_spec (cap c - oc_len c) (N.of_nat (length t))) as [Q|Q]; [apply ensure_ok; assumption|].
    cbn [good]. split; [exact H|]. lia.
  - intros c' [H' L']. eapply good_weak; [apply write_nocheck_ok; eassumption|]. intros a [Ha _]. exact Ha.
Qed.
Lemma write_byte_ok : forall e c s x, holds e c s -> good (write_byte grant c x) (fun c' => holds e c' (s ++ [x])).
Proof.
  intros e c s x H. unfold write_byte. destruct (holds_cap e c s H) as [C1 C2]. pose proof (proj1 H) as Le.
  eapply good_bind with (P := fun c' => holds e c' s /\ N.of_nat (length s) + 1 <= cap c').
  - destruct (N.eqb_spec (cap c) (oc_len c)) as [Q|Q]; [apply ensure_ok; [exact H|]; apply (N.pow_le_mono_r 2 0 61); lia|].
    cbn [good]. split; [exact H|]. lia.
  - intros c' [H' L']. eapply good_weak; [apply write_nocheck_ok; [exact H'|exact L']|]. intros a [Ha _]. exact Ha.
Qed.

(** ** Lines and bulks *)
Lemma begins_prefix : forall b s t, begins b (s ++ t) -> begins b s.
Proof. intros b s t [r ->]. exists (map Some t ++ r). rewrite map_app, app_assoc. reflexivity. Qed.
Lemma get_at : forall b p x q, begins b (p ++ x :: q) -> get b (N.of_nat (length p)) 1 = Fine [x].
Proof.
  intros b p x q B. pose proof (begins_size _ _ B) as L. destruct B as [r ->]. unfold get. rewrite app_length in L. cbn [List.length] in L.
  replace (N.of_nat (length p) + 1 <=? _) with true by (symmetry; apply N.leb_le; lia).
  rewrite Nat2N.id, map_app, <- app_assoc. rewrite <- (map_length Some p) at 1. rewrite skipn_exact. reflexivity.
Qed.
Lemma put_at : forall b p x q y, begins b (p ++ x :: q) ->
  exists b', put b (N.of_nat (length p)) [y] = Fine b' /\ size b' = size b /\ begins b' (p ++ y :: q).
Proof.
  intros b p x q y B. pose proof (begins_size _ _ B) as L. destruct B as [r ->]. unfold put. rewrite app_length in L. cbn [List.length] in *.
  replace (N.of_nat (length p) + N.of_nat 1 <=? _) with true by (symmetry; apply N.leb_le; lia).
  rewrite Nat2N.id, map_app, <- app_assoc.
  assert (F : firstn (length p) (map Some p ++ map Some (x :: q) ++ r) = map Some p). { rewrite <- (map_length Some p) at 1. apply firstn_exact. }
  rewrite F. rewrite skipn_app, map_length. rewrite skipn_all2 by (rewrite map_length; lia).
  replace (length p + 1 - length p)%nat with 1%nat by lia. cbn [skipn map app].
  eexists. split; [reflexivity|]. split.
  - unfold size. rewrite !app_length. cbn [List.length]. rewrite !app_length, !map_length. reflexivity.
  - exists r. rewrite map_app, <- app_assoc. reflexivity.
Qed.
Lemma tame_ok : forall n m b p i, (n <= length m)%nat -> begins b (p ++ m) -> i = N.of_nat (length p) ->
  exists b', tame_loop n i b = Fine b' /\ size b' = size b /\ begins b' (p ++ map tame (firstn n m) ++ skipn n m).
Proof.
  induction n as [|n IH]; intros m b p i L B E; cbn [tame_loop].
  - exists b. auto.
  - destruct m as [|x m]; [cbn [List.length] in L; lia|]. cbn [List.length] in L. rewrite E, (get_at b p x m B). cbn [bind].
    assert (S : exists b1, (if x <? 32 then put b (N.of_nat (length p)) [32] else Fine b) = Fine b1 /\ size b1 = size b /\ begins b1 (p ++ tame x :: m)).
    { unfold tame. destruct (x <? 32); [apply (put_at b p x m 32 B)|exists b; auto]. }
    destruct S as (b1 & -> & S1 & B1). cbn [bind].
    destruct (IH m b1 (p ++ [tame x]) (N.of_nat (length p) + 1)) as (b2 & -> & S2 & B2).
    + lia.
    + rewrite <- app_assoc. exact B1.
    + rewrite app_length. cbn [List.length]. lia.
    + exists b2. split; [reflexivity|]. split; [congruence|]. cbn [firstn map skipn]. rewrite <- app_assoc in B2. exact B2.
Qed.
Lemma writeln_ok : forall e c s ch msg, holds e c s -> N.of_nat (length msg) <= LARGE ->
  good (out_writeln grant c ch msg) (fun c' => holds e c' (s ++ writeln (length s) ch msg)).
Proof.
  intros e c s ch msg H L. unfold out_writeln.
  assert (A : add64 3 (N.of_nat (length msg)) = N.of_nat (length msg) + 3).
  { unfold add64. rewrite N.mod_small; [lia|]. unfold LARGE in L. change (2 ^ 60) with 1152921504606846976 in L. change (2 ^ 64) with 18446744073709551616. lia. }
  rewrite A. eapply good_bind; [apply ensure_ok; [exact H|]|].
  { unfold LARGE in L. change (2 ^ 60) with 1152921504606846976 in L. change (2 ^ 61) with 2305843009213693952. lia. }
  intros c1 [H1 C1]. eapply good_bind; [apply (write_nocheck_ok e c1 s [ch] H1); cbn [List.length]; lia|].
  intros c2 [H2 C2]. assert (M : oc_len c2 = N.of_nat (length s) + 1). { rewrite (proj1 H2), app_length. cbn [List.length]. lia. }
  rewrite M. eapply good_bind; [apply (write_nocheck_ok e c2 (s ++ [ch]) msg H2); rewrite app_length; cbn [List.length]; lia|].
  intros c3 [H3 C3]. eapply good_bind; [apply (write_nocheck_ok e c3 _ [13] H3); rewrite !app_length; cbn [List.length]; lia|].
  intros c4 [H4 C4]. eapply good_bind; [apply (write_nocheck_ok e c4 _ [10] H4); rewrite !app_length; cbn [List.length]; lia|].
  intros c5 [H5 C5]. destruct H5 as [Le Hb]. destruct (oc_out c5) as [b|].
  2: { destruct Hb as [E _]. apply (f_equal (@List.length _)) in E. rewrite !app_length in E. cbn [List.length] in E. lia. }
  destruct Hb as (B & Li & k & K & Sz).
  destruct (tame_ok (N.to_nat (N.of_nat (length msg) - (N.of_nat (length s) + 1))) (msg ++ [13; 10]) b (s ++ [ch]) (N.of_nat (length s) + 1)) as (b' & -> & S' & B').
  - rewrite app_length. cbn [List.length]. lia.
  - replace ((s ++ [ch]) ++ msg ++ [13; 10]) with ((((s ++ [ch]) ++ msg) ++ [13]) ++ [10]); [exact B|]. rewrite <- !app_assoc. reflexivity.
  - rewrite app_length. cbn [List.length]. lia.
  - cbn [bind good]. replace (N.to_nat (N.of_nat (length msg) - (N.of_nat (length s) + 1))) with (length msg - (length s + 1))%nat in B' by lia.
    assert (W : (s ++ [ch]) ++ map tame (firstn (length msg - (length s + 1)) (msg ++ [13; 10])) ++ skipn (length msg - (length s + 1)) (msg ++ [13; 10])
                = s ++ writeln (length s) ch msg).
    { unfold writeln. rewrite <- app_assoc. cbn [app]. do 2 f_equal. rewrite firstn_app, skipn_app.
      replace (length msg - (length s + 1) - length msg)%nat with 0%nat by lia. cbn [firstn skipn]. rewrite app_nil_r. reflexivity. }
    rewrite W in B'. split; cbn [oc_len oc_out oc_live].
    + rewrite Le. unfold writeln. rewrite !app_length. cbn [List.length]. rewrite !app_length, map_length, firstn_length, skipn_length. cbn [List.length crlf]. lia.
    + split; [exact B'|]. split; [exact Li|]. exists k. split; [exact K|congruence].
Qed.

Lemma u64toa_loop_length : forall f x acc, (length (u64toa_loop f x acc) <= f + length acc)%nat.
Proof.
  induction f as [|f IH]; intros x acc; cbn [u64toa_loop]; [lia|].
  match goal with |- context [if ?q then _ else _] => destruct q end; [|rewrite ?app_length; cbn [List.length]; lia].
  eapply Nat.le_trans; [apply IH|]. rewrite ?app_length. cbn [List.length]. lia.
Qed.
Lemma u64toa_length : forall x, (1 <= length (u64toa x) <= 20)%nat.
Proof.
  intro x. unfold u64toa. destruct (x <? 10); [cbn [List.length]; lia|]. rewrite rev_length. split.
  - assert (G : forall f y acc, (length acc <= length (u64toa_loop f y acc))%nat).
    { induction f as [|f IH]; intros y acc; cbn [u64toa_loop]; [lia|].
      match goal with |- context [if ?q then _ else _] => destruct q end; rewrite ?app_length; cbn [List.length]; [|lia].
      eapply Nat.le_trans; [|apply IH]. rewrite ?app_length. cbn [List.length]. lia. }
    cbn [u64toa_loop]. match goal with |- context [if ?q then _ else _] => destruct q end; [|cbn [List.length app]; lia].
    eapply Nat.le_trans; [|apply (G 19%nat)]. cbn [List.length app]. lia.
  - eapply Nat.le_trans; [apply u64toa_loop_length|]. cbn [List.length]. lia.
Qed.
Lemma i64toa_length : forall z, (length (i64toa z) <= 21)%nat.
Proof.
  intro z. unfold i64toa. repeat match goal with |- context [if ?q then _ else _] => destruct q end; cbn [List.length];
    try (pose proof (u64toa_length (Z.to_N (- z))); lia); try (pose proof (u64toa_length (Z.to_N z)); lia); vm_compute; lia.
Qed.
Lemma bulk_ok : forall e c s t, holds e c s -> N.of_nat (length t) <= LARGE ->
  good (out_bulk grant c t) (fun c' => holds e c' (s ++ [36] ++ u64toa (N.of_nat (length t)) ++ crlf ++ t ++ crlf)).
Proof.
  intros e c s t H L. unfold out_bulk. pose proof (u64toa_length (N.of_nat (length t))) as D. set (d := u64toa (N.of_nat (length t))) in *.
  assert (A : add64 32 (N.of_nat (length t)) = N.of_nat (length t) + 32).
  { unfold add64. rewrite N.mod_small; [lia|]. unfold LARGE in L. change (2 ^ 60) with 1152921504606846976 in L. change (2 ^ 64) with 18446744073709551616. lia. }
  rewrite A. eapply good_bind; [apply ensure_ok; [exact H|]|].
  { unfold LARGE in L. change (2 ^ 60) with 1152921504606846976 in L. change (2 ^ 61) with 2305843009213693952. lia. }
  intros c1 [[Le Hb] C1]. unfold cap in C1. destruct (oc_out c1) as [b|]; [|cbn in C1; lia]. destruct Hb as (B & Li & k & K & Sz). rewrite Le.
  set (n := N.of_nat (length s)) in *. clearbody d.
  destruct (put_begins b s [36] n B eq_refl) as (b1 & -> & S1 & B1); [cbn [List.length]; lia|]. cbn [bind].
  destruct (put_begins b1 _ (d ++ [0]) (n + 1) B1) as (b2 & -> & S2 & B2); [rewrite app_length; cbn [List.length]; lia|rewrite app_length; cbn [List.length]; lia|]. cbn [bind].
  rewrite app_assoc in B2. apply begins_prefix in B2.
  destruct (put_begins b2 _ [13] (n + 1 + N.of_nat (length d)) B2) as (b3 & -> & S3 & B3); [rewrite !app_length; cbn [List.length]; lia|cbn [List.length]; lia|]. cbn [bind].
  destruct (put_begins b3 _ [10] (n + 1 + N.of_nat (length d) + 1) B3) as (b4 & -> & S4 & B4); [rewrite !app_length; cbn [List.length]; lia|cbn [List.length]; lia|]. cbn [bind].
  destruct (put_begins b4 _ t (n + 1 + N.of_nat (length d) + 2) B4) as (b5 & -> & S5 & B5); [rewrite !app_length; cbn [List.length]; lia|lia|]. cbn [bind].
  destruct (put_begins b5 _ [13] (n + 1 + N.of_nat (length d) + 2 + N.of_nat (length t)) B5) as (b6 & -> & S6 & B6); [rewrite !app_length; cbn [List.length]; lia|cbn [List.length]; lia|]. cbn [bind].
  destruct (put_begins b6 _ [10] (n + 1 + N.of_nat (length d) + 2 + N.of_nat (length t) + 1) B6) as (b7 & -> & S7 & B7); [rewrite !app_length; cbn [List.length]; lia|cbn [List.length]; lia|]. cbn [bind].
  unfold setlen, cap. cbn [oc_out oc_calls oc_live].
  match goal with |- context [?x <? size b7] => replace (x <? size b7) with true by (symmetry; apply N.ltb_lt; lia) end. cbn [good].
  split; cbn [oc_out oc_len oc_live].
  - rewrite !app_length. cbn [List.length crlf]. lia.
  - split; [|split; [exact Li|]].
    + replace (s ++ [36] ++ d ++ crlf ++ t ++ crlf) with (((((((s ++ [36]) ++ d) ++ [13]) ++ [10]) ++ t) ++ [13]) ++ [10]); [exact B7|]. rewrite <- !app_assoc. reflexivity.
    + exists k. split; [exact K|congruence].
Qed.

(** ** Numbers, heads, texts, messages *)
Lemma num24_ok : forall d, (length d <= 23)%nat -> num24 d = Fine d.
Proof.
  intros d L. unfold num24. destruct (put_begins (fresh_block 24) [] (d ++ [0]) 0 (fresh_begins 24) eq_refl) as (b & -> & _ & B).
  - rewrite size_fresh, app_length. cbn [List.length]. lia.
  - cbn [bind]. apply get_begins; [|reflexivity]. apply (begins_prefix b d [0]). exact B.
Qed.
Lemma snprintf_ok : forall b s, N.of_nat (length s) < size b -> begins b [] -> exists b', snprintf b s = Fine b' /\ size b' = size b /\ begins b' (s ++ [0]).
Proof.
  intros b s L B. unfold snprintf. rewrite firstn_all2 by lia. apply (put_begins b [] (s ++ [0]) 0 B eq_refl). rewrite app_length. cbn [List.length]. lia.
Qed.
Lemma array_ok : forall e c s n, holds e c s -> good (out_array grant c n) (fun c' => holds e c' (s ++ writeln (length s) 42 (u64toa n))).
Proof.
  intros e c s n H. unfold out_array. pose proof (u64toa_length n). rewrite num24_ok by lia. cbn [bind]. apply writeln_ok; [exact H|].
  unfold LARGE. change (2 ^ 60) with 1152921504606846976. lia.
Qed.
Lemma uint_ok : forall e pr c s n, holds e c s ->
  good (out_uint grant pr c n) (fun c' => holds e c' (s ++ (if is_memcache pr then u64toa n else writeln (length s) 43 (u64toa n)))).
Proof.
  intros e pr c s n H. unfold out_uint. pose proof (u64toa_length n). rewrite num24_ok by lia. cbn [bind]. destruct (is_memcache pr).
  - apply write_ok; [exact H|]. change (2 ^ 61) with 2305843009213693952. lia.
  - apply writeln_ok; [exact H|]. unfold LARGE. change (2 ^ 60) with 1152921504606846976. lia.
Qed.
Lemma int_ok : forall e pr c s z, holds e c s ->
  good (out_int grant pr c z) (fun c' => holds e c' (s ++ (if is_memcache pr then i64toa z else writeln (length s) 58 (i64toa z)))).
Proof.
  intros e pr c s n H. unfold out_int. pose proof (i64toa_length n). rewrite num24_ok by lia. cbn [bind]. destruct (is_memcache pr).
  - apply write_ok; [exact H|]. change (2 ^ 61) with 2305843009213693952. lia.
  - apply writeln_ok; [exact H|]. unfold LARGE. change (2 ^ 60) with 1152921504606846976. lia.
Qed.
Lemma http_ok' : forall e c s code status body, holds e c s -> (length status <= 400)%nat -> N.of_nat (length body) <= 2 ^ 61 ->
  good (out_http grant c code status body) (fun c' => holds e c' (s ++ http_reply code status body)).
Proof.
  intros e c s code status body H Ls Lb. unfold out_http.
  assert (R : http_reply code status body = http_head code status (length body) ++ body).
  { unfold http_reply, http_head. rewrite <- !app_assoc. reflexivity. }
  rewrite R. set (h := http_head code status (length body)).
  assert (Lh : (length h <= 500)%nat).
  { unfold h, http_head. rewrite !app_length. pose proof (u64toa_length code). pose proof (u64toa_length (N.of_nat (length body))).
    change (length (bs "HTTP/1.1 ")) with 9%nat. change (length (bs "Content-Length: ")) with 16%nat. change (length (bs "Connection: Close")) with 17%nat.
    cbn [List.length crlf]. lia. }
  clearbody h. destruct (snprintf_ok (fresh_block 512) h) as (b & -> & _ & B); [rewrite size_fresh; lia|apply fresh_begins|]. cbn [bind].
  apply begins_prefix in B. rewrite (get_begins b h _ B eq_refl). cbn [bind].
  eapply good_bind; [apply write_ok; [exact H|]; change (2 ^ 61) with 2305843009213693952; lia|]. cbv beta. intros c1 H1.
  destruct (N.ltb_spec 0 (N.of_nat (length body))) as [Q|Q].
  - rewrite app_assoc. apply write_ok; assumption.
  - assert (body = []) as -> by (destruct body; [reflexivity|cbn [List.length] in Q; lia]). rewrite app_nil_r. exact H1.
Qed.
Lemma xmalloc_ok : forall e c s n, holds e c s -> good (xmalloc grant c n) (fun m => fst m = fresh_block n /\ holds (S e) (snd m) s).
Proof.
  intros e c s n [Le Hb]. unfold xmalloc. destruct (grant (oc_calls c) n); [|exact I]. cbn [good fst snd]. split; [reflexivity|].
  split; cbn [oc_len oc_out oc_live]; [exact Le|]. destruct (oc_out c) as [b|]; [destruct Hb as (A & -> & C)|destruct Hb as (A & ->)]; auto.
Qed.
Lemma xfree_ok : forall e c s, holds (S e) c s -> holds e (xfree c) s.
Proof.
  intros e c s [Le Hb]. split; cbn [xfree oc_len oc_out oc_live]; [exact Le|].
  destruct (oc_out c) as [b|]; [destruct Hb as (A & -> & C)|destruct Hb as (A & ->)]; auto.
Qed.
Lemma text_ok : forall e c s room t, holds e c s -> ~ In 0 t -> N.of_nat (length t) < room -> N.of_nat (length t) <= 2 ^ 61 ->
  good (out_text grant c room t) (fun c' => holds e c' (s ++ t)).
Proof.
  intros e c s room t H Z L1 L2. unfold out_text. eapply good_bind; [apply xmalloc_ok; exact H|]. intros [b c1] [Eb H1]. cbn [fst snd] in *. subst b.
  destruct (snprintf_ok (fresh_block room) t) as (b & -> & _ & B); [rewrite size_fresh; exact L1|apply fresh_begins|]. cbn [bind].
  rewrite (get_cstr_begins b t Z B). cbn [bind]. eapply good_bind; [apply write_ok; [exact H1|exact L2]|]. cbv beta. intros c2 H2. apply xfree_ok. exact H2.
Qed.
Lemma http_text_ok : forall e c s room code status t, holds e c s -> ~ In 0 t -> N.of_nat (length t) < room -> N.of_nat (length t) <= 2 ^ 61 ->
  (length status <= 400)%nat -> good (out_http_text grant c room code status t) (fun c' => holds e c' (s ++ http_reply code status t)).
Proof.
  intros e c s room code status t H Z L1 L2 L3. unfold out_http_text. eapply good_bind; [apply xmalloc_ok; exact H|]. intros [b c1] [Eb H1]. cbn [fst snd] in *. subst b.
  destruct (snprintf_ok (fresh_block room) t) as (b & -> & _ & B); [rewrite size_fresh; exact L1|apply fresh_begins|]. cbn [bind].
  rewrite (get_cstr_begins b t Z B). cbn [bind]. eapply good_bind; [apply http_ok'; [exact H1|exact L3|exact L2]|]. cbv beta. intros c2 H2. apply xfree_ok. exact H2.
Qed.
Lemma message_ok : forall e c s room parts, holds e c s -> room = N.of_nat (length (concat parts)) -> room <= 2 ^ 61 ->
  good (out_message grant c room parts) (fun c' => holds e c' (s ++ concat parts)).
Proof.
  intros e c s room parts H -> L. unfold out_message. eapply good_bind; [apply xmalloc_ok; exact H|]. intros [b c1] [Eb H1]. cbn [fst snd] in *. subst b.
  destruct (put_all_begins parts (fresh_block (N.of_nat (length (concat parts)))) [] 0 (fresh_begins _) eq_refl) as (b & -> & _ & B); [rewrite size_fresh; lia|]. cbn [bind app].
  cbn [app] in B. rewrite (get_begins b _ _ B eq_refl). cbn [bind].
  eapply good_bind; [apply write_ok; [exact H1|exact L]|]. cbv beta. intros c2 H2. apply xfree_ok. exact H2.
Qed.
Lemma frame_ok : forall e c s tag room parts, holds e c s -> room = 5 + N.of_nat (length (concat parts)) -> room <= 2 ^ 61 ->
  good (out_message grant c room ([tag] :: be32 (room - 1) :: parts)) (fun c' => holds e c' (s ++ pg_frame tag (concat parts))).
Proof.
  intros e c s tag room parts H E L. eapply good_weak; [apply message_ok; [exact H| |exact L]|].
  - cbn [concat]. rewrite !app_length. cbn [List.length be32]. lia.
  - cbv beta. intros c' H'. unfold pg_frame. cbn [concat app] in H'. replace (room - 1) with (4 + N.of_nat (length (concat parts))) in H' by lia. exact H'.
Qed.

(** What is small enough to be in memory at all. *)
Definition small_wr (w : wr) : Prop :=
  match w with
  | WError m | WString m | WBulk m | WRaw m | PComplete m => N.of_nat (length m) <= LARGE
  | WHttp _ status body => (length status <= 400)%nat /\ N.of_nat (length body) <= LARGE
  | PRowDesc cols | PRow cols => fold_right (fun col n => N.of_nat (length col) + 19 + n) 0 cols <= LARGE
  | WNull | WArray _ | WUint _ | WInt _ | PReady => True
  end.
Lemma cstr_length : forall m, (length (cstr m) <= length m)%nat.
Proof. induction m as [|x m IH]; cbn; [lia|]. destruct (x =? 0); cbn [List.length]; lia. Qed.
Lemma cstr_no0 : forall m, ~ In 0 (cstr m).
Proof. induction m as [|x m IH]; cbn; [tauto|]. destruct (N.eqb_spec x 0) as [|N0]; [tauto|]. cbn. intros [->|K]; [apply N0; reflexivity|exact (IH K)]. Qed.
Lemma cstr_id : forall m, ~ In 0 m -> cstr m = m.
Proof. induction m as [|x m IH]; intro Z; cbn; [reflexivity|]. destruct (N.eqb_spec x 0) as [->|]; [exfalso; apply Z; left; reflexivity|]. rewrite IH; [reflexivity|]. intro K. apply Z. right. exact K. Qed.
Lemma skipn_no0 : forall n (m : bytes), ~ In 0 m -> ~ In 0 (skipn n m).
Proof. intros n m Z K. apply Z. rewrite <- (firstn_skipn n m). apply in_or_app. right. exact K. Qed.
Lemma strip_no0 : forall m, ~ In 0 m -> ~ In 0 (strip_err m).
Proof. intros m Z. unfold strip_err. destruct (starts (bs "ERR ") m); [apply skipn_no0|]; exact Z. Qed.
Lemma strip_length : forall m, (length (strip_err m) <= length m)%nat.
Proof. intro m. unfold strip_err. destruct (starts (bs "ERR ") m); [rewrite skipn_length|]; lia. Qed.
Ltac large := unfold LARGE in *; change (2 ^ 60) with 1152921504606846976 in *; change (2 ^ 61) with 2305843009213693952 in *; lia.
Lemma ready_ok : forall e po c s, holds e c s -> good (out_ready grant po c) (fun c' => holds e c' (s ++ pg_ready po)).
Proof.
  intros e po c s H. unfold out_ready, pg_ready. destruct (po_execute po).
  - rewrite app_nil_r. exact H.
  - apply write_ok; [exact H|]. cbn [List.length]. large.
Qed.
Lemma pg_error_ok : forall e c s m, holds e c s -> N.of_nat (length m) <= LARGE ->
  good (out_pg_error grant c m) (fun c' => holds e c' (s ++ pg_error m)).
Proof.
  intros e c s m H L. unfold out_pg_error. pose proof (cstr_length m) as C.
  assert (E : pg_error m = pg_frame 69 (concat [bs "SERROR" ++ [0]; bs "VERROR" ++ [0]; bs "C23505" ++ [0]; [77]; cstr m ++ [0]; [0]])).
  { unfold pg_error. f_equal. cbn [concat]. rewrite <- !app_assoc. reflexivity. }
  rewrite E. apply frame_ok; [exact H| |].
  - cbn [concat]. rewrite !app_length. change (length (bs "SERROR")) with 6%nat. change (length (bs "VERROR")) with 6%nat. change (length (bs "C23505")) with 6%nat.
    cbn [List.length]. lia.
  - large.
Qed.
Lemma complete_ok : forall e c s m, holds e c s -> N.of_nat (length m) <= LARGE ->
  good (out_complete grant c m) (fun c' => holds e c' (s ++ pg_complete m)).
Proof.
  intros e c s m H L. unfold out_complete. pose proof (cstr_length m) as C.
  assert (E : pg_complete m = pg_frame 67 (concat [cstr m ++ [0]])) by (unfold pg_complete; cbn [concat]; rewrite app_nil_r; reflexivity). rewrite E.
  apply frame_ok; [exact H| |].
  - cbn [concat]. rewrite !app_length. cbn [List.length]. lia.
  - large.
Qed.
Lemma status_ok : forall e c s k v, holds e c s -> N.of_nat (length k) + N.of_nat (length v) <= LARGE ->
  good (out_status grant c k v) (fun c' => holds e c' (s ++ pg_status k v)).
Proof.
  intros e c s k v H Lk. unfold out_status, pg_status. pose proof (cstr_length k) as Ck. pose proof (cstr_length v) as Cv.
  set (size := 4 + _ + 1 + _ + 1). replace (be32 size) with (be32 (1 + size - 1)) by (f_equal; lia).
  replace (cstr k ++ [0] ++ cstr v ++ [0]) with (concat [cstr k ++ [0]; cstr v ++ [0]]) by (cbn [concat]; rewrite <- !app_assoc; reflexivity).
  apply frame_ok; [exact H| |]; unfold size.
  - cbn [concat]. rewrite !app_length. cbn [List.length]. lia.
  - large.
Qed.
Lemma row_data_ok : forall e c s cols, holds e c s -> fold_right (fun col n => N.of_nat (length col) + 19 + n) 0 cols <= LARGE ->
  good (out_row_data grant c cols) (fun c' => holds e c' (s ++ pg_row_data cols)).
Proof.
  intros e c s cols H L. unfold out_row_data, pg_row_data.
  assert (F : forall l a, fold_left (fun size col => size + (4 + N.of_nat (length col))) l a = a + N.of_nat (length (concat (flat_map (fun col => [be32 (N.of_nat (length col)); col]) l)))).
  { induction l as [|x l IH]; intro a; cbn [fold_left flat_map concat app]; [cbn; lia|]. rewrite IH. rewrite !app_length. cbn [List.length be32]. lia. }
  assert (B : forall l, N.of_nat (length (concat (flat_map (fun col => [be32 (N.of_nat (length col)); col]) l))) <= fold_right (fun col n => N.of_nat (length col) + 19 + n) 0 l).
  { induction l as [|x l IH]; cbn [fold_right flat_map concat app]; [cbn; lia|]. rewrite !app_length. cbn [List.length be32]. lia. }
  assert (C : forall l, concat (flat_map (fun col => [be32 (N.of_nat (length col)); col]) l) = flat_map (fun c => len32 c ++ c) l).
  { induction l as [|x l IH]; cbn [flat_map concat app]; [reflexivity|]. rewrite IH. unfold len32. rewrite <- app_assoc. reflexivity. }
  specialize (B cols). rewrite <- C, F. set (p := flat_map _ cols) in *.
  replace (be16 (N.of_nat (length cols)) ++ concat p) with (concat (be16 (N.of_nat (length cols)) :: p)) by reflexivity.
  apply frame_ok; [exact H| |].
  - cbn [concat]. rewrite app_length. cbn [List.length be16]. lia.
  - large.
Qed.
Lemma row_desc_ok : forall e po c s cols, holds e c s -> fold_right (fun col n => N.of_nat (length col) + 19 + n) 0 cols <= LARGE ->
  good (out_row_desc grant po c cols) (fun c' => holds e c' (s ++ pg_row_desc po cols)).
Proof.
  intros e po c s cols H L. unfold out_row_desc, pg_row_desc.
  set (g := fun col => [cstr col ++ [0]; be32 0; be16 0; be32 (po_oid po); be16 (2 ^ 16 - 1); be32 (2 ^ 32 - 1); be16 1]).
  assert (G : forall x l, concat (g x ++ l) = pg_field po x ++ concat l).
  { intros x l. unfold g, pg_field. cbn [app concat]. rewrite <- !app_assoc. reflexivity. }
  assert (Lf : forall x, length (pg_field po x) = (length (cstr x) + 19)%nat).
  { intro x. unfold pg_field. rewrite !app_length. cbn [List.length be32 be16]. lia. }
  clearbody g.
  assert (C : forall l, concat (flat_map g l) = flat_map (pg_field po) l).
  { induction l as [|x l IH]; cbn [flat_map]; [reflexivity|]. rewrite G, IH. reflexivity. }
  assert (F : forall l a, fold_left (fun size col => size + (N.of_nat (length (cstr col)) + 1) + (4 + 2 + 4 + 2 + 4 + 2)) l a = a + N.of_nat (length (concat (flat_map g l)))).
  { induction l as [|x l IH]; intro a; cbn [fold_left flat_map]; [cbn; lia|]. rewrite IH, G, app_length, Lf. lia. }
  assert (B : forall l, N.of_nat (length (concat (flat_map g l))) <= fold_right (fun col n => N.of_nat (length col) + 19 + n) 0 l).
  { induction l as [|x l IH]; cbn [fold_right flat_map]; [cbn; lia|]. rewrite G, app_length, Lf. pose proof (cstr_length x). lia. }
  specialize (B cols). rewrite <- C, F. set (p := flat_map g cols) in *.
  replace (be16 (N.of_nat (length cols)) ++ concat p) with (concat (be16 (N.of_nat (length cols)) :: p)) by reflexivity.
  apply frame_ok; [exact H| |].
  - cbn [concat]. rewrite app_length. cbn [List.length be16]. lia.
  - large.
Qed.
Lemma error_ok : forall pg e po pr c s m, N.of_nat (length (page_html pg)) <= LARGE -> N.of_nat (length (page_text pg)) <= LARGE ->
  holds e c s -> N.of_nat (length m) <= LARGE -> good (out_error grant pg po pr c m) (fun c' => holds e c' (s ++ write_error pg po pr (length s) m)).
Proof.
  intros pg e po pr c s m P1 P2 H L. unfold out_error, write_error. pose proof (cstr_length m) as C. pose proof (cstr_no0 m) as Z.
  set (t := cstr m) in *. clearbody t. destruct pr.
  - repeat match goal with |- context [if ?q then _ else _] => destruct q eqn:? end;
      try (apply text_ok; [exact H| | |]); try (apply write_ok; [exact H|cbn; large]);
      try (rewrite !app_length; try rewrite skipn_length; change (length (bs "SERVER_ERROR ")) with 13%nat; change (length (bs "CLIENT_ERROR ")) with 13%nat; cbn [List.length crlf]; try large);
      try (intros K; repeat (apply in_app_or in K; destruct K as [K|K]); try (exact (Z K)); try (exact (skipn_no0 4 t Z K)); try (cbn in K; intuition discriminate)).
    all: try (rewrite !app_length; change (length (bs "SERVER_ERROR ")) with 13%nat; cbn [List.length crlf]; large).
  - eapply good_bind; [apply pg_error_ok; [exact H|]|].
    + pose proof (strip_length t). large.
    + cbv beta. intros c1 H1. rewrite app_assoc. apply ready_ok. exact H1.
  - pose proof (strip_length t) as Sl. pose proof (strip_no0 t Z) as Sz. set (u := strip_err t) in *. clearbody u.
    assert (Short : (length (bs "OK") <= 400 /\ length (bs "Method Not Allowed") <= 400 /\ length (bs "Unauthorized") <= 400 /\ length (bs "Bad Request") <= 400 /\
      length (bs "Internal Server Error") <= 400)%nat).
    { repeat split; apply Nat.leb_le; vm_compute; reflexivity. }
    destruct Short as (S1 & S2 & S3 & S4 & S5).
    destruct (beq u (bs "Show Help HTML")); [apply http_ok'; [exact H|exact S1|large]|].
    destruct (beq u (bs "Show Help TEXT")); [apply http_ok'; [exact H|exact S1|large]|].
    destruct (beq u (bs "Method Not Allowed")); [apply http_ok'; [exact H|exact S2|apply N.leb_le; vm_compute; reflexivity]|].
    destruct (beq u (bs "Unauthorized")); [apply http_ok'; [exact H|exact S3|apply N.leb_le; vm_compute; reflexivity]|].
    destruct (beq u (bs "Bad Request")); [apply http_ok'; [exact H|exact S4|apply N.leb_le; vm_compute; reflexivity]|].
    apply http_text_ok; [exact H| | | |exact S5].
    + intros K. apply in_app_or in K. destruct K as [K|K]; [cbn in K; intuition discriminate|]. apply in_app_or in K. destruct K as [K|K]; [exact (Sz K)|cbn in K; intuition discriminate].
    + rewrite !app_length. change (length (bs "ERR ")) with 4%nat. cbn [List.length crlf]. lia.
    + rewrite !app_length. change (length (bs "ERR ")) with 4%nat. cbn [List.length crlf]. large.
  - apply writeln_ok; [exact H|]. large.
Qed.
Lemma wr_ok : forall pg e po pr c s w, N.of_nat (length (page_html pg)) <= LARGE -> N.of_nat (length (page_text pg)) <= LARGE ->
  holds e c s -> small_wr w -> good (out_wr grant pg po pr c w) (fun c' => holds e c' (s ++ emit pg po pr (length s) w)).
Proof.
  intros pg e po pr c s w P1 P2 H L. destruct w; cbn [out_wr emit small_wr] in *.
  - apply error_ok; assumption.
  - apply writeln_ok; [exact H|]. pose proof (cstr_length s0). large.
  - apply write_ok; [exact H|]. cbn. large.
  - apply bulk_ok; assumption.
  - apply write_ok; [exact H|]. large.
  - apply http_ok'; [exact H|tauto|]. large.
  - apply array_ok; exact H.
  - apply uint_ok; exact H.
  - apply int_ok; exact H.
  - apply row_desc_ok; assumption.
  - apply row_data_ok; assumption.
  - apply complete_ok; assumption.
  - apply ready_ok; exact H.
Qed.
Lemma wrs_ok : forall pg e po pr ws c s, N.of_nat (length (page_html pg)) <= LARGE -> N.of_nat (length (page_text pg)) <= LARGE ->
  holds e c s -> Forall small_wr ws -> good (out_wrs grant pg po pr c ws) (fun c' => holds e c' (s ++ emits pg po pr (length s) ws)).
Proof.
  intros pg e po pr ws. induction ws as [|w ws IH]; intros c s P1 P2 H L; cbn [out_wrs emits].
  - rewrite app_nil_r. exact H.
  - inversion_clear L as [|? ? L1 L2]. eapply good_bind; [apply wr_ok; eassumption|]. cbv beta. intros c1 H1.
    rewrite app_assoc, <- app_length. apply IH; assumption.
Qed.
Lemma flush_ok : forall e c s, holds e c s -> good (out_flush c) (fun x => fst x = s /\ holds e (snd x) []).
Proof.
  intros e c s [Le Hb]. unfold out_flush. destruct (oc_out c) as [b|] eqn:Eo.
  - destruct Hb as (B & Li & K). rewrite (get_begins b s _ B Le). cbn [bind good fst snd]. split; [reflexivity|]. split; [reflexivity|]. cbn [oc_out oc_live].
    split; [exists b; reflexivity|]. auto.
  - destruct Hb as [-> Li]. rewrite Le. cbn. split; [reflexivity|]. split; [reflexivity|]. cbn. auto.
Qed.
Lemma rounds_ok : forall pg e rs c, N.of_nat (length (page_html pg)) <= LARGE -> N.of_nat (length (page_text pg)) <= LARGE ->
  holds e c [] -> Forall (fun r => Forall small_wr (snd r)) rs ->
  good (out_rounds grant pg c rs) (fun x => fst x = map (fun r => emits pg (fst (fst r)) (snd (fst r)) 0 (snd r)) rs /\ holds e (snd x) []).
Proof.
  intros pg e rs. induction rs as [|[[po pr] ws] rs IH]; intros c P1 P2 H L; cbn [out_rounds].
  - split; [reflexivity|exact H].
  - inversion_clear L as [|? ? L1 L2]. cbn [snd] in L1. eapply good_bind; [apply wrs_ok; eassumption|]. cbv beta. cbn [app List.length]. intros c1 H1.
    eapply good_bind; [apply flush_ok; exact H1|]. intros [s c2] [E2 H2]. cbn [fst snd] in *. subst s.
    eapply good_bind; [apply IH; eassumption|]. intros [l c3] [E3 H3]. cbn [fst snd good] in *. subst l. split; [reflexivity|exact H3].
Qed.
End Writers.
