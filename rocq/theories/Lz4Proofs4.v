(** Proofs about the LZ4 compressor. *)
From Verif Require Import Base Lz4 Lz4Spec Lz4Proofs1 Lz4Proofs2 Lz4Proofs3.
Local Open Scope nat_scope.
Notation length := List.length.

Lemma run_ext_eq f : forall r, r < f -> run_ext f r = repeat 255%N (r / 255) ++ [N.of_nat (r mod 255)].
Proof.
  induction f as [|f IH]; intros r H; [lia|]. cbn [run_ext]. destruct (Nat.leb_spec 255 r) as [A|A].
  - rewrite IH by lia. replace (r / 255) with (S ((r - 255) / 255)) by lia. cbn [repeat app]. f_equal. f_equal. f_equal. f_equal. lia.
  - replace (r / 255) with 0 by lia. cbn [repeat app]. f_equal. f_equal. lia.
Qed.
Lemma run_bytes_eq len : run_bytes len = more len.
Proof.
  unfold run_bytes, more. destruct (Nat.leb_spec 15 len) as [A|A].
  - destruct (Nat.ltb_spec len 15) as [B|_]; [lia|]. apply run_ext_eq. lia.
  - destruct (Nat.ltb_spec len 15) as [_|B]; [reflexivity|lia].
Qed.
Lemma run_nibble_eq len : run_nibble len = nibble len.
Proof. unfold run_nibble, nibble. destruct (Nat.leb_spec 15 len); lia. Qed.
Lemma match_ext_eq mc : (if 15 <=? mc then match_ext (mc - 15) else []) = more mc.
Proof.
  unfold match_ext, more. destruct (Nat.leb_spec 15 mc) as [A|A].
  - destruct (Nat.ltb_spec mc 15) as [B|_]; [lia|]. rewrite app_assoc, <- repeat_app. f_equal.
    + f_equal. lia.
    + f_equal. f_equal. lia.
  - destruct (Nat.ltb_spec mc 15) as [_|B]; [reflexivity|lia].
Qed.
Lemma more_len v : length (more v) = if v <? 15 then 0 else (v - 15) / 255 + 1.
Proof. unfold more. destruct (v <? 15); [reflexivity|]. rewrite app_length, repeat_length. reflexivity. Qed.
Lemma more_len_le v : length (more v) <= (v + 240) / 255.
Proof. rewrite more_len. destruct (Nat.ltb_spec v 15); lia. Qed.
Lemma more_ok v : bytes_ok (more v).
Proof.
  unfold more. destruct (v <? 15); [constructor|]. apply bytes_ok_app. split.
  - apply Forall_forall. intros x X. apply repeat_spec in X. subst x. unfold byte_ok. lia.
  - constructor; [unfold byte_ok; lia|constructor].
Qed.
Lemma write_seq_ok s : bytes_ok (lits s) -> (N.of_nat (off s) <= 65535)%N -> bytes_ok (write_seq s).
Proof.
  intros L O. unfold write_seq, nibble.
  apply bytes_ok_app. split; [constructor; [unfold byte_ok; lia|constructor]|].
  apply bytes_ok_app. split; [apply more_ok|]. apply bytes_ok_app. split; [exact L|].
  apply bytes_ok_app. split; [constructor; [unfold byte_ok; lia|constructor; [unfold byte_ok; lia|constructor]]|apply more_ok].
Qed.

Section Encode.
Variable src : bytes.
Notation n := (length src).
Variable cap : nat.
Hypothesis NM : (N.of_nat n <= MAX_INPUT)%N.
Hypothesis CAP : n + n / 255 + 16 <= cap.

(** ** The hash table *)
Definition hash_fits (h : N) : Prop := (h < (if small src then 2 ^ 13 else 2 ^ 12))%N.
Lemma hash_at_ok p : p + 8 <= n -> exists h, hash_at src p = Fine h /\ hash_fits h.
Proof.
  intros H. unfold hash_at, hash_fits. destruct (small src).
  - destruct (Nat.leb_spec (p + 4) n) as [_|A]; [|lia]. eexists. split; [reflexivity|]. unfold hash4. rewrite N.shiftr_div_pow2.
    apply N.div_lt_upper_bound; [lia|]. apply N.mod_lt. lia.
  - destruct (Nat.leb_spec (p + 8) n) as [_|A]; [|lia]. eexists. split; [reflexivity|]. unfold hash5. rewrite N.shiftr_div_pow2.
    apply N.div_lt_upper_bound; [lia|]. apply N.mod_lt. lia.
Qed.
Definition below (t : table) (k : nat) : Prop := forall h, t h < k.
Lemma entry_ok t h k : hash_fits h -> below t k -> exists m, entry src t h = Fine m /\ m < k.
Proof.
  intros H B. unfold entry, hash_fits in *. apply N.ltb_lt in H. rewrite H. exists (t h). split; [reflexivity|apply B].
Qed.
Lemma enter_below t h k idx : below t k -> idx < k -> idx + 12 <= n -> below (enter src t h idx) k.
Proof.
  intros B I H g. unfold enter. destruct (g =? h)%N; [|apply B].
  replace (N.of_nat idx mod (if small src then 2 ^ 16 else 2 ^ 32))%N with (N.of_nat idx); [rewrite Nat2N.id; exact I|].
  symmetry. apply N.mod_small. unfold small. unfold MAX_INPUT in NM.
  destruct (N.ltb_spec (N.of_nat n) 65547); change (2 ^ 16)%N with 65536%N; change (2 ^ 32)%N with 4294967296%N; lia.
Qed.
Lemma below_more t k k' : below t k -> k <= k' -> below t k'.
Proof. intros B H h. specialize (B h). lia. Qed.
Lemma too_far_dist m ip : too_far src m ip = false -> ip + 12 <= n -> (N.of_nat (ip - m) <= 65535)%N.
Proof.
  unfold too_far, small. destruct (N.ltb_spec (N.of_nat n) 65547) as [A|A]; cbn [negb andb].
  - intros _ H. lia.
  - intros H _. apply N.ltb_ge in H. lia.
Qed.
Lemma same4_ok a b : a + 4 <= n -> b + 4 <= n -> exists e, same4 src a b = Fine e /\
  (e = true -> forall i, i < 4 -> nth (a + i) src 0%N = nth (b + i) src 0%N).
Proof.
  intros A B. unfold same4. destruct (Nat.leb_spec (a + 4) n) as [_|X]; [|lia]. destruct (Nat.leb_spec (b + 4) n) as [_|X]; [|lia]. cbn [andb].
  eexists. split; [reflexivity|]. intros E i I. apply beq_eq in E.
  rewrite <- !nth_skipn_add. rewrite <- (nth_firstn_lt (skipn a src) 4 i) by exact I. rewrite E. rewrite nth_firstn_lt by exact I. reflexivity.
Qed.

(** ** The search *)
Definition same_from (p q o : nat) : Prop := forall i, p <= i < q -> nth i src 0%N = nth (i - o) src 0%N.
Lemma search_ok fuel : forall fwd fh step nb t, n < fwd + fuel -> 0 < step -> 64 <= nb -> hash_fits fh -> below t fwd ->
  fwd + 11 <= n ->
  search src fuel fwd fh step nb t = Fine SLast \/
  exists ip m t', search src fuel fwd fh step nb t = Fine (SFound ip m t') /\ fwd <= ip /\ ip + 12 <= n /\ m < ip /\
    (N.of_nat (ip - m) <= 65535)%N /\ same_from ip (ip + 4) (ip - m) /\ below t' (S ip).
Proof.
  induction fuel as [|fuel IH]; intros fwd fh step nb t F S NB HF B I; [lia|]. cbn [search].
  destruct (entry_ok t fh fwd HF B) as (m & -> & M). cbn [andthen]. cbv zeta.
  destruct (Nat.ltb_spec n (fwd + step + 11)) as [A|A]; [left; reflexivity|].
  destruct (hash_at_ok (fwd + step)) as (fh' & -> & HF'); [lia|]. cbn [andthen].
  assert (B' : below (enter src t fh fwd) (1 + fwd)) by (apply enter_below; [apply below_more with (k := fwd); [exact B|lia]|lia|lia]).
  assert (GO : search src fuel (fwd + step) fh' (nb / 64) (1 + nb) (enter src t fh fwd) = Fine SLast \/
    exists ip m t', search src fuel (fwd + step) fh' (nb / 64) (1 + nb) (enter src t fh fwd) = Fine (SFound ip m t') /\ fwd <= ip /\ ip + 12 <= n /\ m < ip /\
    (N.of_nat (ip - m) <= 65535)%N /\ same_from ip (ip + 4) (ip - m) /\ below t' (1 + ip)).
  { destruct (IH (fwd + step) fh' (nb / 64) (1 + nb) (enter src t fh fwd)) as [E|(ip & m' & t' & E & X1 & X)].
    - lia.
    - lia.
    - lia.
    - exact HF'.
    - apply below_more with (k := 1 + fwd); [exact B'|lia].
    - lia.
    - left. exact E.
    - right. exists ip, m', t'. split; [exact E|]. split; [lia|exact X]. }
  destruct (too_far src m fwd) eqn:TF; [exact GO|].
  destruct (same4_ok m fwd) as (e & -> & EQ); [lia|lia|]. cbn [andthen]. destruct e; [|exact GO].
  right. exists fwd, m, (enter src t fh fwd). split; [reflexivity|]. split; [lia|]. split; [lia|]. split; [exact M|].
  split; [apply too_far_dist; [exact TF|lia]|]. split; [|exact B'].
  intros i J. specialize (EQ eq_refl (i - fwd)). replace (fwd + (i - fwd)) with i in EQ by lia.
  replace (m + (i - fwd)) with (i - (fwd - m)) in EQ by lia. symmetry. apply EQ. lia.
Qed.
Lemma catch_up_ok anchor ip : forall m ip' m', catch_up src anchor ip m = (ip', m') -> anchor <= ip -> m < ip ->
  anchor <= ip' <= ip /\ ip' - m' = ip - m /\ m' < ip' /\ same_from ip' ip (ip - m).
Proof.
  induction ip as [|i IH]; intros m ip' m' E A M; [lia|]. cbn [catch_up] in E. destruct m as [|j].
  - injection E as <- <-. repeat split; try lia. intros k K. lia.
  - destruct ((anchor <? S i) && (nth i src 0 =? nth j src 0)%N) eqn:C.
    + apply andb_prop in C as [C1 C2]. apply Nat.ltb_lt in C1. apply N.eqb_eq in C2.
      destruct (IH j ip' m' E) as (X1 & X2 & X3 & X4); [lia|lia|]. split; [lia|]. split; [lia|]. split; [lia|].
      intros k K. destruct (Nat.eq_dec k i) as [->|Z]; [rewrite C2; f_equal; lia|].
      replace (S i - S j) with (i - j) by lia. apply X4. lia.
    + injection E as <- <-. repeat split; try lia. intros k K. lia.
Qed.
Lemma count_ok k : forall p m, m < p -> count src k p m <= k /\ same_from p (p + count src k p m) (p - m) /\
  forall q, q <= p + k -> same_from p q (p - m) -> q <= p + count src k p m.
Proof.
  induction k as [|k IH]; intros p m M; cbn [count].
  - split; [lia|]. split; [intros i I; lia|]. intros q Q _. lia.
  - destruct (N.eqb_spec (nth p src 0%N) (nth m src 0%N)) as [E|E].
    + destruct (IH (S p) (S m)) as (X1 & X2 & X3); [lia|]. replace (S p - S m) with (p - m) in * by lia.
      split; [lia|]. split.
      * intros i I. destruct (Nat.eq_dec i p) as [->|Z]; [rewrite E; f_equal; lia|]. apply X2. lia.
      * intros q Q SF. destruct (Nat.le_gt_cases q (S p)) as [A|A]; [lia|].
        specialize (X3 q ltac:(lia)). assert (q <= S p + count src k (S p) (S m)); [|lia]. apply X3. intros i I. apply SF. lia.
    + split; [lia|]. split; [intros i I; lia|]. intros q Q SF. destruct (Nat.le_gt_cases q p) as [A|A]; [lia|].
      exfalso. apply E. rewrite SF by lia. f_equal. lia.
Qed.

(** ** What has been written *)
Fixpoint laid (k : nat) (l : list seq) (a : nat) : Prop :=
  match l with
  | [] => k = a
  | s :: l =>
      4 <= mlen s /\ 1 <= off s /\ (N.of_nat (off s) <= 65535)%N /\ off s <= k + length (lits s) /\
      k + length (lits s) + 12 <= n /\ k + length (lits s) + mlen s + 5 <= n /\ laid (k + length (lits s) + mlen s) l a
  end.
Lemma laid_size l : forall k a, laid k l a -> a = k + size l.
Proof.
  induction l as [|s l IH]; intros k a H; cbn [laid size] in *; [lia|].
  destruct H as (_ & _ & _ & _ & _ & _ & H). apply IH in H. lia.
Qed.
Lemma laid_snoc l : forall k a s, laid k l a -> 4 <= mlen s -> 1 <= off s -> (N.of_nat (off s) <= 65535)%N -> off s <= a + length (lits s) ->
  a + length (lits s) + 12 <= n -> a + length (lits s) + mlen s + 5 <= n -> laid k (l ++ [s]) (a + length (lits s) + mlen s).
Proof.
  induction l as [|x l IH]; intros k a s H M O1 O2 O3 E1 E2; cbn [laid app] in *.
  - subst k. repeat split; assumption.
  - destruct H as (H1 & H2 & H3 & H4 & H5 & H6 & H7). repeat split; try assumption. apply IH; assumption.
Qed.
Lemma laid_rules l : forall k a, laid k l a -> a <= n -> rules k l (n - a) /\ (l <> [] -> 5 <= n - a).
Proof.
  induction l as [|s l IH]; intros k a H A; cbn [laid rules] in *; [split; [exact I|congruence]|].
  destruct H as (H1 & H2 & H3 & H4 & H5 & H6 & H7). destruct (IH _ _ H7 A) as [R1 R2]. pose proof (laid_size _ _ _ H7) as Z.
  assert (L5 : 5 <= n - a) by (destruct l as [|y l]; [cbn [laid] in H7; lia|apply R2; discriminate]).
  split; [|intros _; exact L5]. repeat split; try assumption. lia.
Qed.
Lemma extend_src k : forall p o, 0 < o <= p -> p + k <= n -> same_from p (p + k) o -> extend (firstn p src) o k = firstn (p + k) src.
Proof.
  induction k as [|k IH]; intros p o O H SF; cbn [extend]; [f_equal; lia|].
  assert (L : length (firstn p src) = p) by (rewrite firstn_length; lia). rewrite L.
  replace (firstn p src ++ [nth (p - o) (firstn p src) 0%N]) with (firstn (S p) src).
  - rewrite (IH (S p)); [f_equal; lia|lia|lia|]. intros i I. apply SF. lia.
  - rewrite nth_firstn_lt by lia. rewrite <- SF by lia.
    apply nth_ext with (d := 0%N) (d' := 0%N); [rewrite app_length, L, firstn_length; cbn [List.length]; lia|].
    intros i I. rewrite firstn_length in I. rewrite nth_firstn_lt by lia. destruct (Nat.eq_dec i p) as [->|Z].
    + rewrite app_nth2 by lia. rewrite L, Nat.sub_diag. reflexivity.
    + rewrite app_nth1 by lia. rewrite nth_firstn_lt by lia. reflexivity.
Qed.
Lemma firstn_plus (p k : nat) : firstn p src ++ firstn k (skipn p src) = firstn (p + k) src.
Proof.
  rewrite <- (firstn_skipn p (firstn (p + k) src)). f_equal.
  - rewrite firstn_firstn. f_equal. lia.
  - rewrite skipn_firstn_comm. f_equal. lia.
Qed.
(** The output up to here is the sequences of the input up to [a]. *)
Definition shape (out : bytes) (a : nat) : Prop :=
  exists l, out = flat_map write_seq l /\ laid 0 l a /\ fold_left expand_seq l [] = firstn a src /\ length out <= a + a / 255 /\ bytes_ok src /\
    Forall (fun s => bytes_ok (lits s) /\ (N.of_nat (off s) <= 65535)%N) l.

Lemma room_arith A len mc e1 e2 o : o <= A + A / 255 -> e1 <= (len + 240) / 255 -> e2 <= (mc + 240) / 255 -> A + len + mc + 4 <= n ->
  o + (1 + (e1 + len) + 2 + e2) <= A + len + mc + 4 + (A + len + mc + 4) / 255 /\
  o + 1 + (e1 + len) + 2 <= cap /\ o + 1 + (e1 + len) + 2 + e2 <= cap /\ o + 1 + (e1 + len) + 2 + ((mc - 15) / 255 + 4) <= cap.
Proof. intros H1 H2 H3 H4. lia. Qed.
Lemma room_ok o k : o + k <= cap -> room cap o k = Fine tt.
Proof. intros H. unfold room. destruct (Nat.leb_spec (o + k) cap); [reflexivity|lia]. Qed.

(** A sequence more. *)
Lemma shape_snoc out a ip o mc : shape out a -> a <= ip -> ip + 12 <= n -> 0 < o <= ip -> (N.of_nat o <= 65535)%N -> ip + mc + 4 + 5 <= n ->
  same_from ip (ip + mc + 4) o ->
  shape (out ++ [N.of_nat (16 * nibble (ip - a) + nibble mc)] ++ (more (ip - a) ++ firstn (ip - a) (skipn a src) ++
        [N.of_nat o mod 256; N.of_nat o / 256 mod 256]%N) ++ more mc) (ip + mc + 4).
Proof.
  intros (l & E & L & X & B & SB & OK) A H O O2 H2 SF.
  set (s := {| lits := firstn (ip - a) (skipn a src); off := o; mlen := mc + 4 |}).
  assert (LL : length (lits s) = ip - a) by (cbn; rewrite firstn_length, skipn_length; lia).
  exists (l ++ [s]).
  assert (W : write_seq s = [N.of_nat (16 * nibble (ip - a) + nibble mc)] ++ (more (ip - a) ++ firstn (ip - a) (skipn a src) ++
        [N.of_nat o mod 256; N.of_nat o / 256 mod 256]%N) ++ more mc).
  { unfold write_seq. rewrite LL. unfold s. cbn [lits off mlen]. replace (mc + 4 - 4) with mc by lia. rewrite <- !app_assoc.
    replace (N.of_nat o / 256 mod 256)%N with (N.of_nat o / 256)%N by lia. reflexivity. }
  rewrite <- W. split; [rewrite flat_map_app, <- E; cbn [flat_map]; rewrite app_nil_r; reflexivity|].
  split.
  { replace (ip + mc + 4) with (a + length (lits s) + mlen s) by (rewrite LL; cbn; lia). apply laid_snoc; rewrite ?LL; unfold s; cbn [mlen off]; [exact L|lia|lia|exact O2|lia|lia|lia]. }
  split.
  { rewrite fold_left_app. cbn [fold_left]. rewrite X. unfold expand_seq. cbn [lits off mlen s]. rewrite firstn_plus.
    replace (a + (ip - a)) with ip by lia. rewrite extend_src; [f_equal; lia|exact O|lia|]. replace (ip + (mc + 4)) with (ip + mc + 4) by lia. exact SF. }
  split.
  { rewrite app_length. unfold write_seq. rewrite !app_length, LL. cbn [List.length mlen s].
    pose proof (room_arith a (ip - a) mc (length (more (ip - a))) (length (more (mc + 4 - 4))) (length out) B (more_len_le _)) as R.
    replace (mc + 4 - 4) with mc in * by lia.
    specialize (R (more_len_le _) ltac:(lia)). destruct R as [R _]. lia. }
  split; [exact SB|]. apply Forall_app. split; [exact OK|]. constructor; [|constructor]. split; [|exact O2]. cbn [lits s].
  apply Forall_forall. intros x Hx. apply In_nth with (d := 0%N) in Hx as (i & I & <-). rewrite firstn_length, skipn_length in I.
  rewrite nth_firstn_lt, nth_skipn_add by lia. unfold bytes_ok in SB. rewrite Forall_forall in SB. apply SB. apply nth_In. lia.
Qed.
Lemma shape_end out a : shape out a -> a <= n -> exists b, last_lits src cap out a = Fine (write b) /\ proper b /\ expand b = src /\ bytes_ok (write b) /\
  length (write b) <= cap.
Proof.
  intros (l & E & L & X & B & SB & OK) A. exists (l, skipn a src). unfold last_lits. rewrite run_bytes_eq, run_nibble_eq.
  assert (SL : length (skipn a src) = n - a) by apply skipn_length. pose proof (more_len_le (n - a)) as ML.
  rewrite room_ok by lia. cbn [andthen].
  assert (W : write (l, skipn a src) = out ++ [N.of_nat (16 * nibble (n - a))] ++ more (n - a) ++ skipn a src) by (unfold write; cbn [fst snd]; rewrite SL, <- E; reflexivity).
  rewrite W. split; [reflexivity|]. split; [unfold proper; cbn [fst snd]; rewrite SL; apply laid_rules; assumption|].
  split; [unfold expand; cbn [fst snd]; rewrite X; apply firstn_skipn|]. split.
  - apply bytes_ok_app. split.
    + rewrite E. apply Forall_flat_map. eapply Forall_impl; [|exact OK]. intros s [S1 S2]. apply write_seq_ok; assumption.
    + apply bytes_ok_app. split; [constructor; [unfold byte_ok, nibble; lia|constructor]|]. apply bytes_ok_app. split; [apply more_ok|].
      rewrite <- (firstn_skipn a src) in SB. apply bytes_ok_app in SB. apply SB.
  - rewrite !app_length, SL. cbn [List.length]. lia.
Qed.

(** ** Matches *)
Lemma next_match_ok fuel : forall out anchor ip m t top, shape out anchor -> anchor <= ip -> ip <= top -> top + 12 <= n -> m < ip ->
  (N.of_nat (ip - m) <= 65535)%N -> same_from ip (top + 4) (ip - m) -> below t (S top) -> n < ip + fuel ->
  (exists out' a', next_match src cap fuel out (nibble (ip - anchor)) (more (ip - anchor) ++ firstn (ip - anchor) (skipn anchor src)) ip m t = Fine (NLast out' a') /\
     shape out' a' /\ a' <= n) \/
  (exists out' a' fh t', next_match src cap fuel out (nibble (ip - anchor)) (more (ip - anchor) ++ firstn (ip - anchor) (skipn anchor src)) ip m t = Fine (NSearch out' a' (S a') fh t') /\
     shape out' a' /\ top < a' /\ a' + 12 <= n /\ hash_fits fh /\ below t' (S a')).
Proof.
  induction fuel as [|fuel IH]; intros out anchor ip m t top SH A IT T12 M O SF B F; [lia|]. cbn [next_match]. cbv zeta.
  assert (LL : length (firstn (ip - anchor) (skipn anchor src)) = ip - anchor) by (rewrite firstn_length, skipn_length; lia).
  destruct (count_ok (n - 5 - (ip + 4)) (ip + 4) (m + 4)) as (C1 & C2 & C3); [lia|].
  replace (ip + 4 - (m + 4)) with (ip - m) in * by lia.
  set (mc := count src (n - 5 - (ip + 4)) (ip + 4) (m + 4)) in *.
  assert (TOP : top + 4 <= ip + 4 + mc).
  { apply C3; [lia|]. intros i I. apply SF. lia. }
  assert (OUT : length out <= anchor + anchor / 255) by (destruct SH as (l & _ & _ & _ & X & _); exact X).
  destruct (room_arith anchor (ip - anchor) mc (length (more (ip - anchor))) (length (more mc)) (length out) OUT (more_len_le _) (more_len_le _)) as (_ & R1 & R2 & R3); [lia|].
  rewrite app_length, LL.
  rewrite room_ok by lia. cbn [andthen].
  replace (if 15 <=? mc then room cap (length out + 1 + (length (more (ip - anchor)) + (ip - anchor)) + 2) (4 * ((mc - 15) / 1020) + 4) else Fine tt)
    with (@Fine unit tt) by (destruct (15 <=? mc); [|reflexivity]; rewrite room_ok by lia; reflexivity).
  cbn [andthen]. rewrite match_ext_eq. rewrite room_ok by lia. cbn [andthen].
  replace (if 15 <=? mc then 15 else mc) with (nibble mc) by (unfold nibble; destruct (Nat.leb_spec 15 mc); lia).
  assert (SAME : same_from ip (ip + mc + 4) (ip - m)).
  { intros i I. destruct (Nat.lt_ge_cases i (ip + 4)) as [X|X]; [apply SF; lia|apply C2; lia]. }
  pose proof (shape_snoc out anchor ip (ip - m) mc SH A ltac:(lia) ltac:(lia) O ltac:(lia) SAME) as SH'. clear SF C2 C3.
  rewrite <- (app_assoc (more (ip - anchor))).
  set (out' := out ++ [N.of_nat (16 * nibble (ip - anchor) + nibble mc)] ++ (more (ip - anchor) ++ firstn (ip - anchor) (skipn anchor src) ++
        [N.of_nat (ip - m) mod 256; N.of_nat (ip - m) / 256 mod 256]%N) ++ more mc) in *.
  set (ip' := ip + mc + 4) in *. assert (IP' : top + 4 <= ip') by (unfold ip'; lia). assert (LIM : ip' + 5 <= n) by (unfold ip'; lia). clearbody ip' out' mc.
  destruct (Nat.leb_spec n (ip' + 11)) as [X|X].
  - left. exists out', ip'. split; [reflexivity|]. split; [exact SH'|lia].
  - destruct (hash_at_ok (ip' - 2)) as (h1 & -> & HF1); [lia|]. cbn [andthen].
    destruct (hash_at_ok ip') as (h2 & -> & HF2); [lia|]. cbn [andthen].
    assert (B1 : below (enter src t h1 (ip' - 2)) ip') by (apply enter_below; [apply below_more with (k := S top); [exact B|lia]|lia|lia]).
    destruct (entry_ok _ h2 ip' HF2 B1) as (m' & -> & M'). cbn [andthen].
    assert (B2 : below (enter src (enter src t h1 (ip' - 2)) h2 ip') (S ip')) by (apply enter_below; [apply below_more with (k := ip'); [exact B1|lia]|lia|lia]).
    destruct (same4_ok m' ip') as (e & -> & EQ); [lia|lia|]. cbn [andthen].
    destruct (negb (too_far src m' ip') && e) eqn:C.
    + apply andb_prop in C as [TF E]. apply negb_true_iff in TF. subst e.
      assert (SF' : same_from ip' (ip' + 4) (ip' - m')).
      { intros i I. specialize (EQ eq_refl (i - ip')). replace (ip' + (i - ip')) with i in EQ by lia.
        replace (m' + (i - ip')) with (i - (ip' - m')) in EQ by lia. symmetry. apply EQ. lia. }
      destruct (IH out' ip' ip' m' (enter src (enter src t h1 (ip' - 2)) h2 ip') ip') as [(o2 & a2 & E2 & X2)|(o2 & a2 & fh & t2 & E2 & X1 & X2 & X3)];
        [exact SH'|lia|lia|lia|exact M'|apply too_far_dist; [exact TF|lia]|exact SF'|exact B2|lia| |].
      * left. exists o2, a2. rewrite Nat.sub_diag in E2. cbn [nibble more Nat.min Nat.ltb Nat.leb firstn app] in E2. split; [exact E2|exact X2].
      * right. exists o2, a2, fh, t2. rewrite Nat.sub_diag in E2. cbn [nibble more Nat.min Nat.ltb Nat.leb firstn app] in E2. split; [exact E2|].
        split; [exact X1|]. split; [lia|exact X3].
    + destruct (hash_at_ok (S ip')) as (fh & -> & HF); [lia|]. cbn [andthen]. right. exists out', ip', fh, (enter src (enter src t h1 (ip' - 2)) h2 ip').
      split; [reflexivity|]. split; [exact SH'|]. split; [lia|]. split; [lia|]. split; [exact HF|exact B2].
Qed.
Lemma put_lits_ok out anchor ip : shape out anchor -> anchor <= ip -> ip + 12 <= n ->
  put_lits src cap (length out) anchor ip = Fine (more (ip - anchor) ++ firstn (ip - anchor) (skipn anchor src)).
Proof.
  intros SH A H. assert (OUT : length out <= anchor + anchor / 255) by (destruct SH as (l & _ & _ & _ & X & _); exact X).
  unfold put_lits. rewrite run_bytes_eq. pose proof (more_len_le (ip - anchor)) as ML.
  assert (W : Nat.max 8 (8 * ((ip - anchor + 7) / 8)) <= ip - anchor + 8) by lia.
  set (w := Nat.max 8 (8 * ((ip - anchor + 7) / 8))) in *. clearbody w.
  rewrite room_ok by lia. cbn [andthen]. destruct (Nat.leb_spec (anchor + w) n) as [_|X]; [reflexivity|lia].
Qed.
Lemma main_loop_ok fuel : forall out anchor ip fh t, shape out anchor -> anchor < ip -> ip + 11 <= n -> hash_fits fh -> below t ip -> n < ip + fuel ->
  exists b, main_loop src cap fuel out anchor ip fh t = Fine (write b) /\ proper b /\ expand b = src /\ bytes_ok (write b) /\ length (write b) <= cap.
Proof.
  induction fuel as [|fuel IH]; intros out anchor ip fh t SH A H HF B F; [lia|]. cbn [main_loop].
  destruct (search_ok (S n) ip fh 1 64 t) as [->|(ip1 & m & t' & -> & X1 & X2 & X3 & X4 & X5 & X6)]; [lia|lia|lia|exact HF|exact B|exact H| |]; cbn [andthen].
  - apply shape_end; [exact SH|lia].
  - destruct (catch_up src anchor ip1 m) as [ip2 m2] eqn:E. apply catch_up_ok in E; [|lia|lia]. destruct E as (C1 & C2 & C3 & C4).
    rewrite (put_lits_ok out anchor ip2); [|exact SH|lia|lia]. cbn [andthen]. rewrite run_nibble_eq.
    destruct (next_match_ok (S n) out anchor ip2 m2 t' ip1) as [(out' & a' & -> & S1 & S2)|(out' & a' & fh' & t2 & -> & S1 & S2 & S3 & S4 & S5)];
      [exact SH|lia|lia|lia|lia|rewrite C2; exact X4| |exact X6|lia| |]; cbn [andthen].
    + rewrite C2. intros i I. destruct (Nat.lt_ge_cases i ip1) as [Y|Y]; [apply C4; lia|apply X5; lia].
    + apply shape_end; assumption.
    + apply IH; [exact S1|lia|lia|exact S4|exact S5|lia].
Qed.
Lemma shape_start : bytes_ok src -> shape [] 0.
Proof. intros SB. exists []. split; [reflexivity|]. split; [reflexivity|]. split; [reflexivity|]. split; [cbn; lia|]. split; [exact SB|constructor]. Qed.
Lemma compress_ok : bytes_ok src -> exists b, compress_default src cap = Fine (write b) /\ proper b /\ expand b = src /\ bytes_ok (write b) /\ length (write b) <= cap.
Proof.
  intros SB. unfold compress_default. destruct (N.ltb_spec MAX_INPUT (N.of_nat n)) as [A|_]; [lia|].
  destruct (Nat.eqb_spec n 0) as [Z|Z].
  - exists ([], []). rewrite room_ok by lia. assert (E : src = []) by (destruct src; [reflexivity|discriminate]).
    split; [reflexivity|]. split; [exact I|]. split; [rewrite E; reflexivity|]. split; [repeat constructor|cbn; lia].
  - unfold compress_validated. destruct (Nat.ltb_spec n 13) as [C|C]; [apply shape_end; [apply shape_start; exact SB|lia]|].
    destruct (hash_at_ok 0) as (h & -> & HF); [lia|]. cbn [andthen]. cbv zeta.
    destruct (hash_at_ok 1) as (fh & -> & HF1); [lia|]. cbn [andthen].
    apply main_loop_ok; [apply shape_start; exact SB|lia|lia|exact HF1| |lia].
    apply enter_below; [intros g; lia|lia|lia].
Qed.
End Encode.
