(** Proofs about the LZ4 decompressor: all rounds. *)
From Verif Require Import Base Lz4 Lz4Spec Lz4Proofs1 Lz4Proofs2.
Local Open Scope nat_scope.
Notation length := List.length.

Definition agree (k : nat) (a b : bytes) : Prop := forall j, j < k -> nth j a 0%N = nth j b 0%N.
Lemma agree_firstn k a b : agree k a b -> k <= length a -> k <= length b -> firstn k a = firstn k b.
Proof.
  intros H A B. apply nth_ext with (d := 0%N) (d' := 0%N).
  - rewrite !firstn_length. lia.
  - intros j J. rewrite firstn_length in J. rewrite !nth_firstn_lt by lia. apply H. lia.
Qed.
Lemma written_agree src m1 m1' m2 m2' op s len o ml : written src m1 m1' op s len o ml -> written src m2 m2' op s len o ml -> o <= op + len ->
  agree op m1 m2 -> agree (op + len + ml) m1' m2'.
Proof.
  intros (L1 & P1 & A1 & B1) (L2 & P2 & A2 & B2) O H.
  assert (G : forall k j, j < k -> j < op + len + ml -> nth j m1' 0%N = nth j m2' 0%N).
  { induction k as [|k IH]; intros j K J; [lia|].
    destruct (Nat.lt_ge_cases j op) as [C|C]; [rewrite P1, P2 by lia; apply H; lia|].
    destruct (Nat.lt_ge_cases j (op + len)) as [D|D]; [rewrite A1, A2 by lia; reflexivity|].
    rewrite B1, B2 by lia. destruct (Nat.eqb_spec o 0) as [->|Z]; [reflexivity|]. apply IH; lia. }
  intros j J. apply (G (S j)); lia.
Qed.

Section Decode.
Variable src : bytes.
Hypothesis SB : bytes_ok src.
Variable osz : nat.
Notation n := (length src).

(** Whatever the input: no stray access, and the result does not depend on what the buffer held. *)
Lemma rounds_settled fuel : forall fast ip op m0, n < ip + fuel -> ip < n -> op <= osz -> (fast = true -> op + 64 <= osz) -> length m0 = osz ->
  exists r, (forall x, r = Some x -> length x <= osz) /\
    forall mem, length mem = osz -> agree op m0 mem -> rounds src osz fuel fast mem ip op = Fine r.
Proof.
  induction fuel as [|fuel IH]; intros fast ip op m0 F I H FS M0; [lia|]. cbn [rounds].
  destruct (round_plan src SB osz fast ip op I H FS) as (p & G & D). destruct p as [|s len|f' s len o ml ip']; cbn [good] in G.
  - exists None. split; [discriminate|]. intros mem M A. specialize (D mem M). cbn [does] in D. rewrite D. reflexivity.
  - destruct G as (G1 & G2). destruct (D m0 M0) as (m0' & E0 & (L0 & P0 & C0)).
    exists (Some (firstn (op + len) m0')). split; [intros x [= <-]; rewrite firstn_length; lia|].
    intros mem M A. destruct (D mem M) as (m1 & E1 & (L1 & P1 & C1)). rewrite E1. cbn [andthen]. f_equal. f_equal.
    apply agree_firstn; [|lia|lia]. intros j J. destruct (Nat.lt_ge_cases j op) as [B|B].
    + rewrite P0, P1 by lia. symmetry. apply A. lia.
    + rewrite C0, C1 by lia. reflexivity.
  - destruct G as (G1 & G2 & G3 & G4 & G5). destruct (D m0 M0) as (m0' & E0 & W0).
    destruct (IH f' ip' (op + len + ml) m0') as (r & R1 & R2); [lia..|exact G5|rewrite (proj1 W0); exact M0|].
    exists r. split; [exact R1|]. intros mem M A. destruct (D mem M) as (m1 & E1 & W1). rewrite E1. cbn [andthen].
    apply R2; [rewrite (proj1 W1); exact M|]. apply (written_agree src m0 m0' mem m1 op s len o ml W0 W1 G2 A).
Qed.
Lemma decompress_settled : exists r, (forall x, r = Some x -> length x <= osz) /\
  forall mem, length mem = osz -> decompress_safe src osz mem = Fine r.
Proof.
  unfold decompress_safe. destruct (Nat.eqb_spec osz 0) as [->|Z].
  - destruct (Nat.eqb_spec n 1) as [E|E].
    + destruct (byte_at_ok src SB 0) as (b & -> & _); [lia|]. cbn [andthen]. eexists. split; [|intros mem _; reflexivity].
      intros x. destruct (b =? 0); [|discriminate]. intros [= <-]. reflexivity.
    + exists None. split; [discriminate|]. reflexivity.
  - destruct (Nat.eqb_spec n 0) as [E|E]; [exists None; split; [discriminate|reflexivity]|].
    destruct (rounds_settled (S n) (64 <=? osz) 0 0 (repeat 0%N osz)) as (r & R1 & R2);
      [lia..|intros X; apply Nat.leb_le in X; lia|apply repeat_length|].
    exists r. split; [exact R1|]. intros mem M. apply R2; [exact M|]. intros j J. lia.
Qed.

(** ** A proper block *)
Lemma skipn_cons_inv ip a (rest : bytes) : skipn ip src = a :: rest -> nth_error src ip = Some a /\ skipn (S ip) src = rest.
Proof.
  clear SB. revert ip. induction src as [|b l IH]; intros [|ip] H; cbn in H; try discriminate.
  - injection H as -> ->. split; reflexivity.
  - apply IH in H. exact H.
Qed.
Lemma skipn_app_inv (a : bytes) : forall ip b, skipn ip src = a ++ b -> skipn (ip + length a) src = b.
Proof.
  induction a as [|x a IH]; intros ip b H; cbn [app] in H.
  - cbn. rewrite Nat.add_0_r. exact H.
  - apply skipn_cons_inv in H as [_ H]. apply IH in H. cbn [List.length]. rewrite <- plus_n_Sm. exact H.
Qed.
Lemma skipn_len_inv ip (a : bytes) : skipn ip src = a -> 0 < length a -> n = ip + length a.
Proof. intros H P. pose proof (skipn_length ip src) as L. rewrite H in L. lia. Qed.
Lemma ext_at_read k b rest : (b < 255)%N -> forall ip, skipn ip src = repeat 255%N k ++ b :: rest -> ext_at src ip (255 * k + N.to_nat b) (ip + k + 1).
Proof.
  intros B. induction k as [|k IH]; intros ip H; cbn [repeat app] in H; apply skipn_cons_inv in H as [E H].
  - replace (ip + 0 + 1) with (S ip) by lia. cbn [Nat.mul Nat.add]. apply ext_stop; [exact E|lia].
  - apply IH in H. replace (255 * S k + N.to_nat b) with (255 + (255 * k + N.to_nat b)) by lia. apply ext_more; [exact E|].
    replace (ip + S k + 1) with (S ip + k + 1) by lia. exact H.
Qed.
Lemma more_read v rest ip : skipn ip src = more v ++ rest -> len_at src ip (nibble v) v (ip + length (more v)).
Proof.
  unfold more, nibble. intros H. destruct (Nat.ltb_spec v 15) as [A|A].
  - left. cbn [List.length]. lia.
  - right. split; [lia|]. exists (v - 15). split; [|lia].
    rewrite <- app_assoc in H. cbn [app] in H. apply ext_at_read in H; [|lia].
    rewrite Nat2N.id in H. rewrite app_length, repeat_length. cbn [List.length].
    replace (255 * ((v - 15) / 255) + (v - 15) mod 255) with (v - 15) in H by lia. rewrite Nat.add_assoc. exact H.
Qed.
Lemma byte_read ip b rest : skipn ip src = b :: rest -> byte_at src ip = Fine (N.to_nat b) /\ skipn (S ip) src = rest.
Proof. intros H. apply skipn_cons_inv in H as [E H]. unfold byte_at. rewrite E. split; [reflexivity|exact H]. Qed.
Lemma nth_read ip (a rest : bytes) i : skipn ip src = a ++ rest -> i < length a -> nth (ip + i) src 0%N = nth i a 0%N.
Proof. intros H I. rewrite <- nth_skipn_add, H, app_nth1 by exact I. reflexivity. Qed.
Lemma seq_read s rest ip : skipn ip src = write_seq s ++ rest -> 4 <= mlen s -> (N.of_nat (off s) <= 65535)%N ->
  exists st, seq_at src ip st (length (lits s)) (off s) (mlen s) (ip + length (write_seq s)) /\
    skipn (ip + length (write_seq s)) src = rest /\ (forall i, i < length (lits s) -> nth (st + i) src 0%N = nth i (lits s) 0%N).
Proof.
  intros H M O. pose proof H as HR. apply skipn_app_inv in HR. unfold write_seq in H.
  rewrite <- !app_assoc in H. cbn [app] in H.
  apply byte_read in H as [T H].
  pose proof (more_read _ _ _ H) as LA. apply skipn_app_inv in H.
  set (st := S ip + length (more (length (lits s)))) in *.
  exists st. split; [|split; [exact HR|intros i I; apply (nth_read _ _ _ _ H I)]].
  apply skipn_app_inv in H.
  apply byte_read in H as [O1 H]. apply byte_read in H as [O2 H].
  pose proof (more_read _ _ _ H) as LM.
  exists (16 * nibble (length (lits s)) + nibble (mlen s - 4)).
  assert (N1 : nibble (length (lits s)) <= 15) by (unfold nibble; lia). assert (N2 : nibble (mlen s - 4) <= 15) by (unfold nibble; lia).
  split; [rewrite T; f_equal; apply Nat2N.id|]. split.
  { replace ((16 * nibble (length (lits s)) + nibble (mlen s - 4)) / 16) with (nibble (length (lits s))) by lia. exact LA. }
  split.
  { unfold offset_at. rewrite O1. cbn [andthen]. rewrite O2. cbn [andthen]. f_equal. lia. }
  split; [|exact M].
  replace ((16 * nibble (length (lits s)) + nibble (mlen s - 4)) mod 16) with (nibble (mlen s - 4)) by lia.
  unfold write_seq. rewrite !app_length. cbn [List.length].
  replace (st + length (lits s) + 2) with (S (S (st + length (lits s)))) by lia.
  replace (ip + (1 + (length (more (length (lits s))) + (length (lits s) + (2 + length (more (mlen s - 4)))))))
    with (S (S (st + length (lits s))) + length (more (mlen s - 4))) by (unfold st; lia).
  exact LM.
Qed.
Lemma last_read (last : bytes) ip : skipn ip src = [N.of_nat (16 * nibble (length last))] ++ more (length last) ++ last ->
  exists st, last_at src ip st (length last) /\ (forall i, i < length last -> nth (st + i) src 0%N = nth i last 0%N).
Proof.
  intros H. pose proof (skipn_len_inv _ _ H) as NL. rewrite !app_length in NL. cbn [List.length] in NL. specialize (NL ltac:(lia)).
  cbn [app] in H. apply byte_read in H as [T H]. pose proof (more_read _ _ _ H) as LA. apply skipn_app_inv in H.
  exists (S ip + length (more (length last))). split; [|intros i I; apply (nth_read _ last []); [rewrite app_nil_r; exact H|exact I]].
  exists (16 * nibble (length last)). split; [rewrite T; f_equal; apply Nat2N.id|]. split; [|lia].
  replace (16 * nibble (length last) / 16) with (nibble (length last)) by lia. exact LA.
Qed.

Lemma seq_at_det ip s len o ml ip' s2 len2 o2 ml2 ip2 : seq_at src ip s len o ml ip' -> seq_at src ip s2 len2 o2 ml2 ip2 ->
  s = s2 /\ len = len2 /\ o = o2 /\ ml = ml2 /\ ip' = ip2.
Proof.
  intros (t & T & LA & O & LM & M) (t2 & T2 & LA2 & O2 & LM2 & M2). rewrite T in T2. injection T2 as <-.
  destruct (len_at_det _ _ _ _ _ _ _ LA LA2) as [<- <-]. rewrite O in O2. injection O2 as <-.
  destruct (len_at_det _ _ _ _ _ _ _ LM LM2) as [X <-]. repeat split; lia.
Qed.
Lemma last_at_det ip s len s2 len2 : last_at src ip s len -> last_at src ip s2 len2 -> s = s2 /\ len = len2.
Proof.
  intros (t & T & LA & _) (t2 & T2 & LA2 & _). rewrite T in T2. injection T2 as <-.
  destruct (len_at_det _ _ _ _ _ _ _ LA LA2) as [<- <-]. split; reflexivity.
Qed.
Lemma seq_not_last ip s len o ml ip' s2 len2 : seq_at src ip s len o ml ip' -> last_at src ip s2 len2 -> False.
Proof.
  intros (t & T & LA & O & LM & M) (t2 & T2 & LA2 & E). rewrite T in T2. injection T2 as <-.
  destruct (len_at_det _ _ _ _ _ _ _ LA LA2) as [<- <-]. apply offset_at_in in O. lia.
Qed.

Lemma extend_ok k : forall out o, 0 < o <= length out ->
  length (extend out o k) = length out + k /\ (forall j, j < length out -> nth j (extend out o k) 0%N = nth j out 0%N) /\
  (forall j, length out <= j < length out + k -> nth j (extend out o k) 0%N = nth (j - o) (extend out o k) 0%N).
Proof.
  induction k as [|k IH]; intros out o O; cbn [extend].
  - split; [lia|]. split; [reflexivity|]. intros j J. lia.
  - destruct (IH (out ++ [nth (length out - o) out 0%N]) o) as (L & P & C); [rewrite app_length; cbn; lia|].
    rewrite app_length in L, P, C. cbn [List.length] in L, P, C. split; [lia|]. split.
    + intros j J. rewrite P by lia. apply app_nth1. exact J.
    + intros j J. destruct (Nat.eq_dec j (length out)) as [->|X].
      * rewrite P by lia. rewrite app_nth2 by lia. rewrite Nat.sub_diag. cbn [nth].
        rewrite P by lia. rewrite app_nth1 by lia. reflexivity.
      * apply C. lia.
Qed.
Lemma written_expand mem mem' out s st : length mem = osz -> written src mem mem' (length out) st (length (lits s)) (off s) (mlen s) ->
  firstn (length out) mem = out -> length out + length (lits s) + mlen s <= osz -> 0 < off s <= length out + length (lits s) ->
  (forall i, i < length (lits s) -> nth (st + i) src 0%N = nth i (lits s) 0%N) ->
  firstn (length out + length (lits s) + mlen s) mem' = expand_seq out s.
Proof.
  intros M (L & P & A & B) F H O LT. unfold expand_seq.
  destruct (extend_ok (mlen s) (out ++ lits s) (off s)) as (EL & EP & EC); [rewrite app_length; lia|].
  rewrite app_length in EL, EP, EC.
  apply nth_ext with (d := 0%N) (d' := 0%N); [rewrite firstn_length; lia|].
  assert (G : forall k j, j < k -> j < length out + length (lits s) + mlen s -> nth j mem' 0%N = nth j (extend (out ++ lits s) (off s) (mlen s)) 0%N).
  { induction k as [|k IH]; intros j K J; [lia|].
    destruct (Nat.lt_ge_cases j (length out)) as [C|C].
    { rewrite EP by lia. rewrite app_nth1 by lia. rewrite P by lia. rewrite <- F at 1. rewrite nth_firstn_lt by lia. reflexivity. }
    destruct (Nat.lt_ge_cases j (length out + length (lits s))) as [D|D].
    { rewrite EP by lia. rewrite app_nth2 by lia. rewrite A by lia. apply LT. lia. }
    rewrite B, EC by lia. destruct (Nat.eqb_spec (off s) 0) as [Z|_]; [lia|]. apply IH; lia. }
  intros j J. rewrite firstn_length in J. rewrite nth_firstn_lt by lia. apply (G (S j)); lia.
Qed.

Lemma rounds_expand (last : bytes) : forall l fuel fast mem ip out, skipn ip src = write (l, last) -> length mem = osz -> n < ip + fuel ->
  firstn (length out) mem = out -> length out + size l + length last <= osz -> rules (length out) l (length last) ->
  (fast = true -> length out + 64 <= osz) -> rounds src osz fuel fast mem ip (length out) = Fine (Some (fold_left expand_seq l out ++ last)).
Proof.
  induction l as [|s l IH]; intros fuel fast mem ip out H M FU F Z R FS.
  - unfold write in H. cbn [fst snd flat_map] in H. rewrite app_nil_l in H.
    pose proof (skipn_len_inv _ _ H) as NL. rewrite !app_length in NL. cbn [List.length] in NL. specialize (NL ltac:(lia)).
    destruct fuel as [|fuel]; [lia|]. cbn [rounds].
    apply last_read in H as (st & LA & LT). cbn [size] in Z.
    destruct (round_plan src SB osz fast ip (length out)) as (p & G & D); [lia|lia|exact FS|].
    specialize (D mem M). destruct p as [|s2 len2|f2 s2 len2 o2 ml2 ip2]; cbn [good] in G.
    + destruct G as [_ G]. exfalso. apply (G _ _ LA). lia.
    + destruct G as [G1 G2]. destruct (last_at_det _ _ _ _ _ G1 LA) as [-> ->].
      destruct D as (m1 & E & (L1 & P1 & C1)). rewrite E. cbn [andthen fold_left]. f_equal. f_equal.
      apply nth_ext with (d := 0%N) (d' := 0%N); [rewrite firstn_length, app_length; lia|].
      intros j J. rewrite firstn_length in J. rewrite nth_firstn_lt by lia.
      destruct (Nat.lt_ge_cases j (length out)) as [C|C].
      * rewrite app_nth1 by lia. rewrite P1 by lia. rewrite <- F at 1. rewrite nth_firstn_lt by lia. reflexivity.
      * rewrite app_nth2 by lia. rewrite C1 by lia. apply LT. lia.
    + exfalso. apply (seq_not_last _ _ _ _ _ _ _ _ (proj1 G) LA).
  - destruct R as (R1 & R2 & R3 & R4 & R5 & R6 & R7).
    unfold write in H. cbn [fst snd flat_map] in H. rewrite <- app_assoc in H.
    apply seq_read in H as (st & SA & HR & LT); [|exact R1|exact R3].
    fold (write (l, last)) in HR.
    assert (NL : n = ip + length (write_seq s) + length (write (l, last))).
    { apply (skipn_len_inv _ _ HR). unfold write. rewrite !app_length. cbn. lia. }
    assert (WL : 6 <= length (write (l, last))) by (unfold write; cbn [fst snd]; rewrite !app_length; cbn [List.length]; lia).
    assert (WS : 1 <= length (write_seq s)) by (unfold write_seq; rewrite !app_length; cbn [List.length]; lia).
    destruct fuel as [|fuel]; [lia|]. cbn [rounds]. cbn [size] in Z.
    destruct (round_plan src SB osz fast ip (length out)) as (p & G & D); [lia|lia|exact FS|].
    specialize (D mem M). destruct p as [|s2 len2|f2 s2 len2 o2 ml2 ip2]; cbn [good] in G.
    + destruct G as [G _]. exfalso. apply (G _ _ _ _ _ SA); lia.
    + exfalso. apply (seq_not_last _ _ _ _ _ _ _ _ SA (proj1 G)).
    + destruct G as (G1 & G2 & G3 & G4 & G5). destruct (seq_at_det _ _ _ _ _ _ _ _ _ _ _ G1 SA) as (-> & -> & -> & -> & ->).
      destruct D as (m1 & E & W). rewrite E. cbn [andthen fold_left].
      assert (X : firstn (length out + length (lits s) + mlen s) m1 = expand_seq out s)
        by (apply (written_expand mem m1 out s st); [exact M|exact W|exact F|lia|lia|exact LT]).
      assert (XL : length (expand_seq out s) = length out + length (lits s) + mlen s).
      { unfold expand_seq. destruct (extend_ok (mlen s) (out ++ lits s) (off s)) as (EL & _); [rewrite app_length; lia|]. rewrite EL, app_length. lia. }
      rewrite <- XL in *. apply IH.
      * exact HR.
      * rewrite (proj1 W). exact M.
      * lia.
      * exact X.
      * lia.
      * exact R7.
      * exact G5.
Qed.
End Decode.

Lemma expand_seq_len l : forall out k last, length out = k -> rules k l last -> length (fold_left expand_seq l out) = k + size l.
Proof.
  induction l as [|s l IH]; intros out k last E R; cbn [fold_left size]; [lia|].
  destruct R as (R1 & R2 & R3 & R4 & R5 & R6 & R7).
  assert (XL : length (expand_seq out s) = k + length (lits s) + mlen s).
  { unfold expand_seq. destruct (extend_ok (mlen s) (out ++ lits s) (off s)) as (EL & _); [rewrite app_length; lia|]. rewrite EL, app_length. lia. }
  rewrite (IH _ _ last XL R7). lia.
Qed.
(** A proper block is decompressed to what it stands for. *)
Lemma decompress_proper b osz mem : proper b -> bytes_ok (write b) -> length (expand b) <= osz -> length mem = osz ->
  decompress_safe (write b) osz mem = Fine (Some (expand b)).
Proof.
  intros R SB H M. destruct b as [l last]. unfold proper, expand in *. cbn [fst snd] in *.
  pose proof (expand_seq_len l [] 0 _ eq_refl R) as XL. rewrite app_length, XL in H.
  assert (WL : 1 <= length (write (l, last))) by (unfold write; rewrite !app_length; cbn [List.length]; lia).
  unfold decompress_safe. destruct (Nat.eqb_spec osz 0) as [Z|Z].
  - destruct last as [|? ?]; [|cbn in H; lia]. destruct l as [|s l]; [|cbn in H, R; lia]. reflexivity.
  - destruct (Nat.eqb_spec (length (write (l, last))) 0) as [E|_]; [lia|].
    apply (rounds_expand (write (l, last)) SB osz last l _ _ mem 0 []).
    + reflexivity.
    + exact M.
    + lia.
    + reflexivity.
    + cbn [List.length]. lia.
    + exact R.
    + intros X. apply Nat.leb_le in X. cbn [List.length]. lia.
Qed.
