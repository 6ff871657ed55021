(** Proofs about the copies in LZ4: where they write, and what. *)
From Verif Require Import Base Lz4.
Local Open Scope nat_scope.
Notation length := List.length.

Lemma nth_firstn_lt {A} (l : list A) k j d : j < k -> nth j (firstn k l) d = nth j l d.
Proof.
  revert k j. induction l as [|a l IH]; intros [|k] [|j] H; cbn; try reflexivity; try lia. apply IH; lia.
Qed.
Lemma nth_skipn_add {A} (l : list A) k j d : nth j (skipn k l) d = nth (k + j) l d.
Proof. revert l. induction k as [|k IH]; intros [|a l]; cbn; try reflexivity; [destruct j; reflexivity|apply IH]. Qed.

Lemma blit_len mem d x : d + length x <= length mem -> length (blit mem d x) = length mem.
Proof. intros. unfold blit. rewrite !app_length, firstn_length, skipn_length. lia. Qed.
Lemma blit_nth mem d x j : d + length x <= length mem ->
  nth j (blit mem d x) 0%N = if (d <=? j) && (j <? d + length x) then nth (j - d) x 0%N else nth j mem 0%N.
Proof.
  intros H. unfold blit.
  assert (L : length (firstn d mem) = d) by (rewrite firstn_length; lia).
  destruct (Nat.leb_spec d j) as [A|A]; cbn [andb].
  - rewrite app_nth2 by lia. rewrite L. destruct (Nat.ltb_spec j (d + length x)) as [B|B].
    + rewrite app_nth1 by lia. reflexivity.
    + rewrite app_nth2 by lia. rewrite nth_skipn_add. f_equal. lia.
  - rewrite app_nth1 by lia. apply nth_firstn_lt. lia.
Qed.

Lemma put_ok mem d x : d + length x <= length mem ->
  exists mem', put mem d x = Fine mem' /\ length mem' = length mem /\
    (forall j, d <= j < d + length x -> nth j mem' 0%N = nth (j - d) x 0%N) /\
    (forall j, j < d \/ d + length x <= j -> nth j mem' 0%N = nth j mem 0%N).
Proof.
  intros H. unfold put. destruct (Nat.leb_spec (d + length x) (length mem)) as [A|A]; [|lia].
  exists (blit mem d x). split; [reflexivity|]. split; [apply blit_len; lia|]. split; intros j J; rewrite blit_nth by lia.
  - destruct (Nat.leb_spec d j); [|lia]. destruct (Nat.ltb_spec j (d + length x)); [|lia]. reflexivity.
  - destruct (Nat.leb_spec d j); cbn [andb]; [|reflexivity]. destruct (Nat.ltb_spec j (d + length x)); [lia|]. reflexivity.
Qed.

(** From [d] to [e], what is [D] bytes back; zeros for distance 0; before [d] nothing changes. *)
Definition copied (mem mem' : bytes) (d e D : nat) : Prop :=
  length mem' = length mem /\ (forall j, j < d -> nth j mem' 0%N = nth j mem 0%N) /\
  (forall j, d <= j < e -> nth j mem' 0%N = if D =? 0 then 0%N else nth (j - D) mem' 0%N).

Lemma copied_shorter mem mem' d e f D : copied mem mem' d f D -> e <= f -> copied mem mem' d e D.
Proof. intros (L & P & C) H. split; [exact L|]. split; [exact P|]. intros j J. apply C. lia. Qed.
Lemma copied_trans mem m1 m2 d e f D : copied mem m1 d e D -> copied m1 m2 e f D -> d <= e -> copied mem m2 d f D.
Proof.
  intros (L1 & P1 & C1) (L2 & P2 & C2) H. split; [congruence|]. split.
  - intros j J. rewrite P2, P1 by lia. reflexivity.
  - intros j J. destruct (Nat.lt_ge_cases j e) as [A|A].
    + rewrite P2 by lia. rewrite C1 by lia. destruct (D =? 0); [reflexivity|]. rewrite P2 by lia. reflexivity.
    + apply C2. lia.
Qed.

Lemma memcpy_ok mem d s k D : s + D = d -> k <= D -> 0 < D -> d + k <= length mem ->
  exists mem', memcpy mem d s k = Fine mem' /\ copied mem mem' d (d + k) D.
Proof.
  intros SD K P H. unfold memcpy.
  destruct (Nat.leb_spec (s + k) (length mem)) as [A|A]; [|lia].
  destruct (Nat.leb_spec (s + k) d) as [B|B]; [|lia]. cbn [andb orb].
  assert (L : length (firstn k (skipn s mem)) = k) by (rewrite firstn_length, skipn_length; lia).
  destruct (put_ok mem d (firstn k (skipn s mem))) as (mem' & E & L' & N & Q); [lia|].
  rewrite L in *. exists mem'. split; [exact E|]. split; [exact L'|]. split; [intros j J; apply Q; lia|].
  intros j J. destruct (Nat.eqb_spec D 0) as [Z|_]; [lia|]. rewrite N by lia.
  rewrite nth_firstn_lt, nth_skipn_add by lia. rewrite Q by lia. f_equal. lia.
Qed.

Lemma bytecopy_ok k : forall mem d s D, s + D = d -> 0 < D -> d + k <= length mem ->
  exists mem', bytecopy k mem d s = Fine mem' /\ copied mem mem' d (d + k) D.
Proof.
  induction k as [|k IH]; intros mem d s D SD P H; cbn [bytecopy].
  - exists mem. split; [reflexivity|]. split; [reflexivity|]. split; [reflexivity|]. intros j J. lia.
  - destruct (nth_error mem s) as [b|] eqn:E; [|apply nth_error_None in E; lia].
    destruct (put_ok mem d [b]) as (m1 & E1 & L1 & N1 & Q1); [cbn; lia|]. rewrite E1. cbn [andthen].
    cbn [List.length] in *.
    destruct (IH m1 (1 + d) (1 + s) D) as (m2 & E2 & C2); [lia|lia|lia|].
    exists m2. split; [exact E2|]. replace (d + S k) with (S d + k) by lia.
    apply copied_trans with (m1 := m1) (e := S d); [|exact C2|lia].
    split; [exact L1|]. split; [intros j J; apply Q1; lia|]. intros j J.
    destruct (Nat.eqb_spec D 0) as [Z|_]; [lia|]. rewrite N1 by lia. rewrite (Q1 (j - D)) by lia.
    replace (j - d) with 0 by lia. cbn. replace (j - D) with s by lia. symmetry. apply nth_error_nth. exact E.
Qed.
(** The same place: nothing changes. *)
Lemma bytecopy_same k : forall mem d, d + k <= length mem ->
  exists mem', bytecopy k mem d d = Fine mem' /\ length mem' = length mem /\ forall j, nth j mem' 0%N = nth j mem 0%N.
Proof.
  induction k as [|k IH]; intros mem d H; cbn [bytecopy].
  - exists mem. repeat split; reflexivity.
  - destruct (nth_error mem d) as [b|] eqn:E; [|apply nth_error_None in E; lia].
    destruct (put_ok mem d [b]) as (m1 & E1 & L1 & N1 & Q1); [cbn; lia|]. rewrite E1. cbn [andthen].
    cbn [List.length] in *.
    destruct (IH m1 (S d)) as (m2 & E2 & L2 & C2); [lia|].
    exists m2. split; [exact E2|]. split; [congruence|]. intros j. rewrite C2.
    destruct (Nat.eq_dec j d) as [->|X]; [|apply Q1; lia]. rewrite N1 by lia. rewrite Nat.sub_diag. cbn.
    symmetry. apply nth_error_nth. exact E.
Qed.

Lemma wild8_ok fuel : forall mem d s e D, s + D = d -> 8 <= D -> d + 8 <= length mem -> e + 7 <= length mem -> e < d + fuel ->
  0 < fuel -> exists mem' f, wild8 fuel mem d s e = Fine mem' /\ copied mem mem' d f D /\ e <= f /\ d + 8 <= f.
Proof.
  induction fuel as [|fuel IH]; intros mem d s e D SD P H1 H2 F F0; [lia|]. cbn [wild8].
  destruct (memcpy_ok mem d s 8 D) as (m1 & E1 & C1); [lia..|]. rewrite E1. cbn [andthen].
  pose proof (proj1 C1) as L1.
  destruct (Nat.ltb_spec (d + 8) e) as [A|A].
  - destruct (IH m1 (d + 8) (s + 8) e D) as (m2 & f & E2 & C2 & G1 & G2); [lia..|].
    exists m2, f. split; [exact E2|]. split; [apply copied_trans with (m1 := m1) (e := d + 8); [exact C1|exact C2|lia]|]. lia.
  - exists m1, (d + 8). split; [reflexivity|]. split; [exact C1|]. lia.
Qed.
Lemma wild32_ok fuel : forall mem d s e D, s + D = d -> 16 <= D -> d + 32 <= length mem -> e + 31 <= length mem -> e < d + fuel ->
  0 < fuel -> exists mem' f, wild32 fuel mem d s e = Fine mem' /\ copied mem mem' d f D /\ e <= f.
Proof.
  induction fuel as [|fuel IH]; intros mem d s e D SD P H1 H2 F F0; [lia|]. cbn [wild32].
  destruct (memcpy_ok mem d s 16 D) as (m1 & E1 & C1); [lia..|]. rewrite E1. cbn [andthen].
  pose proof (proj1 C1) as L1.
  destruct (memcpy_ok m1 (d + 16) (s + 16) 16 D) as (m2 & E2 & C2); [lia..|]. rewrite E2. cbn [andthen].
  pose proof (proj1 C2) as L2.
  assert (C12 : copied mem m2 d (d + 32) D).
  { replace (d + 32) with (d + 16 + 16) by lia. apply copied_trans with (m1 := m1) (e := d + 16); [exact C1|exact C2|lia]. }
  destruct (Nat.ltb_spec (d + 32) e) as [A|A].
  - destruct (IH m2 (d + 32) (s + 32) e D) as (m3 & f & E3 & C3 & G1); [lia..|].
    exists m3, f. split; [exact E3|]. split; [apply copied_trans with (m1 := m2) (e := d + 32); [exact C12|exact C3|lia]|]. lia.
  - exists m2, (d + 32). split; [reflexivity|]. split; [exact C12|]. lia.
Qed.

(** A copy from a multiple of the distance. *)
Lemma chain (m : bytes) d o k : 0 < o ->
  forall j, (forall i, d <= i < j -> nth i m 0%N = nth (i - o) m 0%N) -> d + k * o <= j ->
  nth (j - o) m 0%N = nth (j - o - k * o) m 0%N.
Proof.
  intros O. induction k as [|k IH]; intros j P H; [f_equal; lia|].
  rewrite IH; [|exact P|lia]. rewrite P by lia. f_equal. lia.
Qed.
Lemma copied_multiple mem m1 m2 d e f o k : 0 < o -> copied mem m1 d e o -> copied m1 m2 e f (S k * o) -> d <= e -> d + k * o <= e ->
  copied mem m2 d f o.
Proof.
  intros O (L1 & P1 & C1) (L2 & P2 & C2) H K. split; [congruence|]. split; [intros j J; rewrite P2, P1 by lia; reflexivity|].
  destruct (Nat.eqb_spec o 0) as [Z|_]; [lia|].
  assert (G : forall n j, j < n -> d <= j < f -> nth j m2 0%N = nth (j - o) m2 0%N).
  { induction n as [|n IH]; intros j N J; [lia|].
    destruct (Nat.lt_ge_cases j e) as [A|A].
    - rewrite P2 by lia. rewrite C1 by lia. rewrite P2 by lia. reflexivity.
    - rewrite C2 by lia. destruct (Nat.eqb_spec (S k * o) 0) as [Z|_]; [lia|].
      rewrite (chain m2 d o k O j); [f_equal; lia| |lia]. intros i I. apply IH; lia. }
  intros j J. apply (G (S j)); lia.
Qed.

(** Where copying goes on after the first 8 bytes: from a multiple of the distance. *)
Definition stride (o : nat) : nat := nth o [8; 8; 8; 9; 8; 10; 12; 14] 0.

Lemma near8_ok mem d s o : o < 8 -> s + o = d -> d + 8 <= length mem ->
  exists mem', near8 mem d s o = Fine (mem', d + 8 - stride o) /\ copied mem mem' d (d + 8) o.
Proof.
  intros O SD H. unfold near8.
  destruct (put_ok mem d [0; 0; 0; 0]%N) as (m0 & E0 & L0 & N0 & Q0); [cbn; lia|]. rewrite E0. cbn [andthen].
  cbn [List.length] in N0, Q0.
  assert (Q : forall j, j < d -> nth j m0 0%N = nth j mem 0%N) by (intros j J; apply Q0; lia).
  destruct (Nat.eq_dec o 0) as [->|NZ].
  - assert (s = d) by lia. subst s.
    destruct (bytecopy_same 4 m0 d) as (m1 & E1 & L1 & C1); [lia|]. rewrite E1. cbn [andthen].
    change (inc32table 0) with 0. rewrite Nat.add_0_r.
    destruct (memcpy_ok m1 (d + 4) d 4 4) as (m2 & E2 & (L2 & P2 & C2)); [lia..|]. rewrite E2. cbn [andthen].
    exists m2. split; [f_equal; f_equal; unfold stride, dec64table; cbn [nth]; lia|].
    assert (Z : forall i, d <= i < d + 4 -> nth i m2 0%N = 0%N).
    { intros i I. rewrite P2, C1, N0 by lia. destruct (i - d) as [|[|[|[|[|?]]]]]; reflexivity. }
    split; [congruence|]. split; [intros j J; rewrite P2, C1 by lia; apply Q; exact J|].
    intros j J. cbn [Nat.eqb]. destruct (Nat.lt_ge_cases j (d + 4)) as [A|A]; [apply Z; lia|].
    rewrite C2 by lia. cbn [Nat.eqb]. apply Z. lia.
  - destruct (bytecopy_ok 4 m0 d s o) as (m1 & E1 & C1); [lia..|]. rewrite E1. cbn [andthen].
    pose proof (proj1 C1) as L1.
    assert (C0 : copied mem m1 d (d + 4) o).
    { destruct C1 as (_ & P1 & C1). split; [congruence|]. split; [intros j J; rewrite P1 by lia; apply Q; exact J|exact C1]. }
    clear C1.
    (* the distance of the copy of four bytes *)
    assert (I : exists k, s + inc32table o + S k * o = d + 4 /\ 4 <= S k * o /\ k * o <= 4 /\
                          Z.to_nat (Z.of_nat (s + inc32table o) - dec64table o) = d + 8 - stride o).
    { destruct o as [|[|[|[|[|[|[|[|?]]]]]]]]; try lia; unfold inc32table, dec64table, stride; cbn [nth];
        [exists 3|exists 1|exists 1|exists 1|exists 0|exists 0|exists 0]; lia. }
    destruct I as (k & I1 & I2 & I3 & I4).
    destruct (memcpy_ok m1 (d + 4) (s + inc32table o) 4 (S k * o)) as (m2 & E2 & C2); [lia..|]. rewrite E2. cbn [andthen].
    exists m2. split; [f_equal; f_equal; exact I4|].
    replace (d + 8) with (d + 4 + 4) by lia.
    apply copied_multiple with (m1 := m1) (e := d + 4) (k := k); [lia|exact C0|exact C2|lia|lia].
Qed.

(** After the first 8 bytes, whatever copies from that stride continues the match. *)
Lemma first8_ok mem d s o : s + o = d -> d + 8 <= length mem ->
  exists mem' m D, first8 mem d s o = Fine (mem', m) /\ copied mem mem' d (d + 8) o /\ m + D = d + 8 /\ 8 <= D /\
    forall m2 f, copied mem' m2 (d + 8) f D -> copied mem m2 d f o.
Proof.
  intros SD H. unfold first8. destruct (Nat.ltb_spec o 8) as [A|A].
  - destruct (near8_ok mem d s o A SD H) as (m1 & E1 & C1). rewrite E1.
    exists m1, (d + 8 - stride o), (stride o). split; [reflexivity|]. split; [exact C1|].
    assert (St : stride o <= d + 8 /\ 8 <= stride o /\ (o = 0 \/ exists k, stride o = S k * o /\ k * o <= 8)).
    { destruct o as [|[|[|[|[|[|[|[|?]]]]]]]]; try lia; unfold stride; cbn [nth]; (split; [lia|]; split; [lia|]); [left; lia|right..];
        [exists 7|exists 3|exists 2|exists 1|exists 1|exists 1|exists 1]; lia. }
    destruct St as (S1 & S2 & S3). split; [lia|]. split; [exact S2|]. intros m2 f C2.
    destruct S3 as [->|(k & K1 & K2)].
    + change (stride 0) with 8 in C2. destruct C1 as (L1 & P1 & C1), C2 as (L2 & P2 & C2).
      split; [congruence|]. split; [intros j J; rewrite P2, P1 by lia; reflexivity|]. cbn [Nat.eqb] in *.
      assert (G : forall n j, j < n -> d <= j < f -> nth j m2 0%N = 0%N).
      { induction n as [|n IH]; intros j N J; [lia|].
        destruct (Nat.lt_ge_cases j (d + 8)) as [B|B]; [rewrite P2 by lia; apply C1; lia|].
        rewrite C2 by lia. apply IH; lia. }
      intros j J. apply (G (1 + j)); lia.
    + destruct (Nat.eq_dec o 0) as [->|NZ]; [lia|].
      rewrite K1 in C2. apply copied_multiple with (m1 := m1) (e := d + 8) (k := k); [lia|exact C1|exact C2|lia|lia].
  - destruct (memcpy_ok mem d s 8 o) as (m1 & E1 & C1); [lia..|]. rewrite E1. cbn [andthen].
    exists m1, (s + 8), o. split; [reflexivity|]. split; [exact C1|]. split; [lia|]. split; [exact A|].
    intros m2 f C2. apply copied_trans with (m1 := m1) (e := d + 8); [exact C1|exact C2|lia].
Qed.

Lemma using_offset_base_ok mem d s e o : s + o = d -> d + 16 <= length mem -> e + 7 <= length mem ->
  exists mem' f, using_offset_base mem d s e o = Fine mem' /\ copied mem mem' d f o /\ e <= f.
Proof.
  intros SD H1 H2. unfold using_offset_base.
  destruct (first8_ok mem d s o SD) as (m1 & m & D & E1 & C1 & M & P & G); [lia|]. rewrite E1. cbn [andthen fst snd].
  pose proof (proj1 C1) as L1.
  destruct (wild8_ok (1 + e) m1 (d + 8) m e D) as (m2 & f & E2 & C2 & F1 & F2); [lia..|].
  exists m2, f. split; [exact E2|]. split; [apply G; exact C2|exact F1].
Qed.

Lemma stripes_ok v (V : length v = 8) fuel : forall mem d e, d + 8 <= length mem -> e + 7 <= length mem -> e < d + fuel -> 0 < fuel ->
  exists mem' f, stripes fuel mem v d e = Fine mem' /\ e <= f /\ length mem' = length mem /\
    (forall j, j < d -> nth j mem' 0%N = nth j mem 0%N) /\
    (forall j, d <= j < f -> nth j mem' 0%N = nth ((j - d) mod 8) v 0%N).
Proof.
  induction fuel as [|fuel IH]; intros mem d e H1 H2 F F0; [lia|]. cbn [stripes].
  destruct (put_ok mem d v) as (m1 & E1 & L1 & N1 & Q1); [lia|]. rewrite V in *. rewrite E1. cbn [andthen].
  destruct (Nat.ltb_spec (d + 8) e) as [A|A].
  - destruct (IH m1 (d + 8) e) as (m2 & f & E2 & G & L2 & P2 & C2); [lia..|].
    exists m2, f. split; [exact E2|]. split; [exact G|]. split; [congruence|]. split.
    + intros j J. rewrite P2 by lia. apply Q1. lia.
    + intros j J. destruct (Nat.lt_ge_cases j (d + 8)) as [B|B].
      * rewrite P2, N1 by lia. f_equal. lia.
      * rewrite C2 by lia. f_equal. lia.
  - exists m1, (d + 8). split; [reflexivity|]. split; [lia|]. split; [exact L1|]. split.
    + intros j J. apply Q1. lia.
    + intros j J. rewrite N1 by lia. f_equal. lia.
Qed.
Lemma get_ok mem s k : s + k <= length mem -> get mem s k = Fine (firstn k (skipn s mem)).
Proof. intros H. unfold get. destruct (Nat.leb_spec (s + k) (length mem)); [reflexivity|lia]. Qed.
(** A pattern of 8 bytes with period [o], at distance [o]. *)
Lemma stripes_copied mem v s d e o : length v = 8 -> 0 < o -> s + o = d -> d + 8 <= length mem -> e + 7 <= length mem ->
  (forall i, i < 8 -> nth i v 0%N = nth (s + i mod o) mem 0%N) ->
  (forall i, o <= i -> (i mod 8) mod o = (i - o) mod 8 mod o) -> (forall i, i < o -> i mod 8 mod o = i) ->
  exists mem' f, stripes (S e) mem v d e = Fine mem' /\ copied mem mem' d f o /\ e <= f.
Proof.
  intros V O SD H1 H2 P M M0.
  destruct (stripes_ok v V (1 + e) mem d e) as (m1 & f & E & G & L & Q & C); [lia..|].
  exists m1, f. split; [exact E|]. split; [|exact G]. split; [exact L|]. split; [exact Q|].
  intros j J. destruct (Nat.eqb_spec o 0) as [Z|_]; [lia|].
  assert (B8 : forall i, i mod 8 < 8) by (intros; apply Nat.mod_upper_bound; lia).
  rewrite C by lia. rewrite P by apply B8.
  destruct (Nat.lt_ge_cases (j - d) o) as [A|A].
  - rewrite M0 by lia. rewrite Q by lia. f_equal. lia.
  - rewrite M by lia. rewrite C by lia. rewrite P by apply B8. f_equal. f_equal. f_equal. f_equal. lia.
Qed.
Ltac by8 := let i := fresh in let I := fresh in intros i I; destruct i as [|[|[|[|[|[|[|[|?]]]]]]]]; try lia;
  rewrite ?app_nth1, ?app_nth2 by (cbn; lia); cbn; reflexivity.
Lemma get_list mem s k : s + k <= length mem -> get mem s k = Fine (map (fun i => nth (s + i) mem 0%N) (List.seq 0 k)).
Proof.
  intros H. rewrite get_ok by exact H. f_equal. apply nth_ext with (d := 0%N) (d' := 0%N).
  - rewrite map_length, seq_length, firstn_length, skipn_length. lia.
  - intros i I. rewrite firstn_length, skipn_length in I.
    rewrite nth_firstn_lt, nth_skipn_add by lia.
    rewrite (nth_indep (map _ _) 0%N (nth (s + 0) mem 0%N)) by (rewrite map_length, seq_length; lia).
    rewrite (map_nth (fun i => nth (s + i) mem 0%N)). rewrite seq_nth by lia. reflexivity.
Qed.
Lemma using_offset_ok mem d s e o : s + o = d -> d + 16 <= length mem -> e + 7 <= length mem ->
  exists mem' f, using_offset mem d s e o = Fine mem' /\ copied mem mem' d f o /\ e <= f.
Proof.
  intros SD H1 H2. unfold using_offset.
  destruct o as [|[|[|[|[|o]]]]]; try (apply using_offset_base_ok; lia).
  - rewrite get_list by lia. cbn [andthen]. apply stripes_copied with (s := s); [reflexivity|lia..| |lia|lia]. by8.
  - rewrite get_list by lia. cbn [andthen]. apply stripes_copied with (s := s); [reflexivity|lia..| |lia|lia]. by8.
  - rewrite get_list by lia. cbn [andthen]. apply stripes_copied with (s := s); [reflexivity|lia..| |lia|lia]. by8.
Qed.

(** ** Literals *)
Definition literally (src mem mem' : bytes) (d s k : nat) : Prop :=
  length mem' = length mem /\ (forall j, j < d -> nth j mem' 0%N = nth j mem 0%N) /\
  (forall j, d <= j < d + k -> nth j mem' 0%N = nth (s + (j - d)) src 0%N).
Lemma literally_shorter src mem mem' d s k k' : literally src mem mem' d s k -> k' <= k -> literally src mem mem' d s k'.
Proof. intros (L & P & C) H. split; [exact L|]. split; [exact P|]. intros j J. apply C. lia. Qed.
Lemma literally_trans src mem m1 m2 d s k k' : literally src mem m1 d s k -> literally src m1 m2 (d + k) (s + k) k' ->
  literally src mem m2 d s (k + k').
Proof.
  intros (L1 & P1 & C1) (L2 & P2 & C2). split; [congruence|]. split; [intros j J; rewrite P2, P1 by lia; reflexivity|].
  intros j J. destruct (Nat.lt_ge_cases j (d + k)) as [A|A]; [rewrite P2 by lia; apply C1; lia|].
  rewrite C2 by lia. f_equal. lia.
Qed.
Lemma from_src_ok src mem d s k : s + k <= length src -> d + k <= length mem ->
  exists mem', from_src src mem d s k = Fine mem' /\ literally src mem mem' d s k.
Proof.
  intros H1 H2. unfold from_src. destruct (Nat.leb_spec (s + k) (length src)) as [_|A]; [|lia].
  assert (L : length (firstn k (skipn s src)) = k) by (rewrite firstn_length, skipn_length; lia).
  destruct (put_ok mem d (firstn k (skipn s src))) as (m1 & E & L1 & N & Q); [lia|]. rewrite L in *.
  exists m1. split; [exact E|]. split; [exact L1|]. split; [intros j J; apply Q; lia|].
  intros j J. rewrite N by lia. rewrite nth_firstn_lt, nth_skipn_add by lia. reflexivity.
Qed.
Lemma wild8_src_ok src fuel : forall mem d s e, s + 8 <= length src -> s + (e - d) + 7 <= length src ->
  d + 8 <= length mem -> e + 7 <= length mem -> e < d + fuel -> 0 < fuel ->
  exists mem', wild8_src src fuel mem d s e = Fine mem' /\ literally src mem mem' d s (e - d).
Proof.
  induction fuel as [|fuel IH]; intros mem d s e H1 H2 H3 H4 F F0; [lia|]. cbn [wild8_src].
  destruct (from_src_ok src mem d s 8) as (m1 & E1 & C1); [lia..|]. rewrite E1. cbn [andthen]. pose proof (proj1 C1) as L1.
  destruct (Nat.ltb_spec (d + 8) e) as [A|A].
  - destruct (IH m1 (d + 8) (s + 8) e) as (m2 & E2 & C2); [lia..|].
    exists m2. split; [exact E2|]. replace (e - d) with (8 + (e - (d + 8))) by lia.
    apply literally_trans with (m1 := m1); assumption.
  - exists m1. split; [reflexivity|]. apply literally_shorter with (k := 8); [exact C1|lia].
Qed.
Lemma wild32_src_ok src fuel : forall mem d s e, s + 32 <= length src -> s + (e - d) + 31 <= length src ->
  d + 32 <= length mem -> e + 31 <= length mem -> e < d + fuel -> 0 < fuel ->
  exists mem', wild32_src src fuel mem d s e = Fine mem' /\ literally src mem mem' d s (e - d).
Proof.
  induction fuel as [|fuel IH]; intros mem d s e H1 H2 H3 H4 F F0; [lia|]. cbn [wild32_src].
  destruct (from_src_ok src mem d s 16) as (m1 & E1 & C1); [lia..|]. rewrite E1. cbn [andthen]. pose proof (proj1 C1) as L1.
  destruct (from_src_ok src m1 (d + 16) (s + 16) 16) as (m2 & E2 & C2); [lia..|]. rewrite E2. cbn [andthen]. pose proof (proj1 C2) as L2.
  pose proof (literally_trans _ _ _ _ _ _ _ _ C1 C2) as C12. change (16 + 16) with 32 in C12.
  destruct (Nat.ltb_spec (d + 32) e) as [A|A].
  - destruct (IH m2 (d + 32) (s + 32) e) as (m3 & E3 & C3); [lia..|].
    exists m3. split; [exact E3|]. replace (e - d) with (32 + (e - (d + 32))) by lia.
    apply literally_trans with (m1 := m2); assumption.
  - exists m2. split; [reflexivity|]. apply literally_shorter with (k := 32); [exact C12|lia].
Qed.
