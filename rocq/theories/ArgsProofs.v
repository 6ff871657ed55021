(** Facts for C55. *)
From Verif Require Import Base Varint VarintProofs Args ArgsSpec.
From Coq Require Import Lia.
Local Open Scope N_scope.

(** *** Memory *)
Definition wfm (m : mem) : Prop := forall i, m_block m i <> None -> (i < m_next m)%nat.
(** The blocks [ids] became the blocks [ids'], and nothing else happened. *)
Record change (m : mem) (ids : list nat) (m' : mem) (ids' : list nat) : Prop := {
  c_next : (m_next m <= m_next m')%nat;
  c_keep : forall i, (i < m_next m)%nat -> ~ In i ids -> m_block m' i = m_block m i;
  c_new : forall i, In i ids' -> In i ids \/ (m_next m <= i < m_next m')%nat;
  c_live : forall i, m_block m' i <> None -> In i ids' \/ (m_block m i <> None /\ ~ In i ids)
}.
Lemma change_refl : forall m ids, change m ids m ids.
Proof.
  intros m ids. constructor; auto. intros i H. destruct (in_dec Nat.eq_dec i ids); [left; assumption|right; split; assumption].
Qed.
Lemma change_wf : forall m ids m' ids', wfm m -> (forall i, In i ids -> (i < m_next m)%nat) -> change m ids m' ids' -> wfm m'.
Proof.
  intros m ids m' ids' W I C i H. destruct (c_live _ _ _ _ C i H) as [X|[X _]].
  - destruct (c_new _ _ _ _ C i X) as [Y|Y]; [apply I in Y; generalize (c_next _ _ _ _ C); lia|lia].
  - apply W in X. generalize (c_next _ _ _ _ C). lia.
Qed.
Lemma change_trans : forall m a m1 b m2 c, (forall i, In i a -> (i < m_next m)%nat) ->
  change m a m1 b -> change m1 b m2 c -> change m a m2 c.
Proof.
  intros m a m1 b m2 c I H K. assert (N1 := c_next _ _ _ _ H). assert (N2 := c_next _ _ _ _ K). constructor.
  - lia.
  - intros i L Ni. rewrite (c_keep _ _ _ _ K), (c_keep _ _ _ _ H); [reflexivity|exact L|exact Ni|lia|].
    intro X. destruct (c_new _ _ _ _ H i X) as [Y|Y]; [exact (Ni Y)|lia].
  - intros i X. destruct (c_new _ _ _ _ K i X) as [Y|Y]; [|right; lia]. destruct (c_new _ _ _ _ H i Y) as [Z|Z]; [left; exact Z|right; lia].
  - intros i X. destruct (c_live _ _ _ _ K i X) as [Y|[Y Z]]; [left; exact Y|]. destruct (c_live _ _ _ _ H i Y) as [U|U]; [contradiction|right; exact U].
Qed.
(** Other blocks beside the ones that change. *)
Lemma change_frame : forall m a m' b r, change m a m' b -> (forall i, In i r -> ~ In i a /\ (i < m_next m)%nat) ->
  change m (a ++ r) m' (b ++ r).
Proof.
  intros m a m' b r C D. constructor.
  - exact (c_next _ _ _ _ C).
  - intros i L N. apply (c_keep _ _ _ _ C); [exact L|]. intro X. apply N, in_or_app. left. exact X.
  - intros i X. apply in_app_or in X. destruct X as [X|X]; [|left; apply in_or_app; right; exact X].
    destruct (c_new _ _ _ _ C i X) as [Y|Y]; [left; apply in_or_app; left; exact Y|right; exact Y].
  - intros i X. destruct (c_live _ _ _ _ C i X) as [Y|[Y Z]]; [left; apply in_or_app; left; exact Y|].
    destruct (in_dec Nat.eq_dec i r) as [R|R]; [left; apply in_or_app; right; exact R|].
    right. split; [exact Y|]. intro U. apply in_app_or in U. destruct U; contradiction.
Qed.
Lemma change_perm : forall m a m' b a' b', change m a m' b -> (forall i, In i a <-> In i a') -> (forall i, In i b <-> In i b') -> change m a' m' b'.
Proof.
  intros m a m' b a' b' C A B. constructor.
  - exact (c_next _ _ _ _ C).
  - intros i L N. apply (c_keep _ _ _ _ C); [exact L|]. rewrite A. exact N.
  - intros i X. apply B in X. destruct (c_new _ _ _ _ C i X) as [Y|Y]; [left; apply A; exact Y|right; exact Y].
  - intros i X. destruct (c_live _ _ _ _ C i X) as [Y|[Y Z]]; [left; apply B; exact Y|]. right. split; [exact Y|]. rewrite <- A. exact Z.
Qed.

(** *** Buffers *)
Definition bids (b : buf) : list nat := if bu_cap b =? 0 then [] else match bu_data b with PBlock i => [i] | _ => [] end.
(** An own buffer that holds [t]. *)
Definition filled (m : mem) (b : buf) (t : bytes) : Prop :=
  (bu_cap b = 0 /\ bu_len b = 0 /\ t = []) \/
  (exists i blk, bu_data b = PBlock i /\ m_block m i = Some blk /\ N.of_nat (length blk) = bu_cap b /\ 0 < bu_cap b <= 2 ^ 63 /\
     bu_len b = N.of_nat (length t) /\ bu_len b <= bu_cap b /\ firstn (length t) blk = map Some t).
Lemma bids_live : forall m b t, wfm m -> filled m b t -> forall i, In i (bids b) -> (i < m_next m)%nat.
Proof.
  intros m b t W [(A & _)|(i & blk & A & B & C & D & _)] j H; unfold bids in H.
  - rewrite A in H. contradiction.
  - destruct (bu_cap b =? 0); [contradiction|]. rewrite A in H. destruct H as [<-|[]]. apply W. rewrite B. discriminate.
Qed.
Lemma filled_keep : forall m m' b t, filled m b t -> (forall i, In i (bids b) -> m_block m' i = m_block m i) -> filled m' b t.
Proof.
  intros m m' b t [A|(i & blk & A & B & C & D & E)] K; [left; exact A|]. right. exists i, blk. split; [exact A|]. split; [|split; [exact C|split; [exact D|exact E]]].
  rewrite K; [exact B|]. unfold bids. destruct (N.eqb_spec (bu_cap b) 0); [lia|]. rewrite A. left. reflexivity.
Qed.
Lemma grow_ok : forall fuel need cap, need < 2 ^ 62 -> 0 < cap <= 2 ^ 63 -> 2 ^ 63 < 2 ^ N.of_nat fuel * cap ->
  exists c, grow_cap fuel need cap = Fine c /\ need <= c /\ cap <= c <= 2 ^ 63.
Proof.
  induction fuel as [|f IH]; intros need cap Hn Hc Hf. { change (2 ^ N.of_nat 0) with 1 in Hf. lia. }
  cbn [grow_cap]. destruct (N.ltb_spec cap need) as [L|L].
  - assert (E : u64 (cap * 2) = cap * 2). { unfold u64. apply N.mod_small. change (2 ^ 64) with (4 * 2 ^ 62). lia. }
    rewrite E. change (2 ^ 63) with (2 * 2 ^ 62) in *. destruct (IH need (cap * 2) Hn) as (c & A & B & C); [lia| |].
    + rewrite Nat2N.inj_succ, N.pow_succ_r' in Hf. lia.
    + exists c. split; [exact A|]. lia.
  - exists cap. split; [reflexivity|]. lia.
Qed.
Lemma set_same : forall i x m, m_block (set_block i x m) i = x.
Proof. intros i x m. cbn. rewrite Nat.eqb_refl. reflexivity. Qed.
Lemma set_other : forall i j x m, j <> i -> m_block (set_block i x m) j = m_block m j.
Proof. intros i j x m H. cbn. destruct (Nat.eqb_spec j i); [contradiction|reflexivity]. Qed.
Lemma firstn_map_some : forall (t : bytes), firstn (length t) (map Some t) = map Some t.
Proof. intro t. rewrite <- (map_length Some t). apply firstn_all. Qed.
(** Room is made. *)
Lemma ensure_ok : forall m b t n, wfm m -> filled m b t -> N.of_nat (length t) + n < 2 ^ 62 -> 0 < n ->
  exists b' m', buf_ensure b n m = Fine (b', m') /\ filled m' b' t /\ bu_len b' = N.of_nat (length t) /\ N.of_nat (length t) + n <= bu_cap b' /\
    wfm m' /\ change m (bids b) m' (bids b').
Proof.
  intros m b t n W F H Hn. unfold buf_ensure.
  assert (L : bu_len b = N.of_nat (length t)). { destruct F as [(A & B & C)|(i & blk & A & B & C & D & E & _)]; [rewrite C; exact B|exact E]. }
  assert (U : u64 (bu_len b + n) = N.of_nat (length t) + n). { rewrite L. unfold u64. apply N.mod_small. change (2 ^ 64) with (4 * 2 ^ 62). lia. }
  rewrite U. destruct (N.ltb_spec (bu_cap b) (N.of_nat (length t) + n)) as [G|G].
  2: { exists b, m. split; [reflexivity|]. split; [exact F|]. split; [exact L|]. split; [exact G|]. split; [exact W|apply change_refl]. }
  destruct F as [(A & B & C)|(i & blk & A & B & C & D & E & E2 & E3)].
  - rewrite A, N.eqb_refl. destruct (grow_ok 65 (N.of_nat (length t) + n) 16 H) as (c & G1 & G2 & G3); [vm_compute; split; congruence|reflexivity|].
    rewrite G1. cbn [rbind xrealloc xmalloc]. eexists. eexists. split; [reflexivity|]. subst t. cbn [bu_len bu_cap].
    split; [|split; [|split; [|split]]].
    + right. exists (m_next m), (repeat None (N.to_nat c)). split; [reflexivity|]. split; [cbn; rewrite Nat.eqb_refl; reflexivity|].
      cbn [bu_cap bu_len]. rewrite repeat_length, N2Nat.id. split; [reflexivity|]. split; [lia|]. split; [exact B|]. split; [lia|reflexivity].
    + exact B.
    + exact G2.
    + intros i Hi. cbn in *. destruct (Nat.eqb_spec i (m_next m)); [lia|]. apply W in Hi. lia.
    + unfold bids. rewrite A. cbn [bu_cap bu_data N.eqb]. destruct (N.eqb_spec c 0); [lia|]. constructor; cbn.
      * lia.
      * intros i Hi _. destruct (Nat.eqb_spec i (m_next m)); [lia|reflexivity].
      * intros i [<-|[]]. right. lia.
      * intros j Hj. destruct (Nat.eqb_spec j (m_next m)) as [X|X]; [left; left; symmetry; exact X|right; split; [exact Hj|tauto]].
  - destruct (N.eqb_spec (bu_cap b) 0) as [|Hc]; [lia|].
    assert (G0 : u64 (bu_cap b * 2) = bu_cap b * 2). { unfold u64. apply N.mod_small. change (2 ^ 64) with (4 * 2 ^ 62). lia. }
    rewrite G0. destruct (grow_ok 65 (N.of_nat (length t) + n) (bu_cap b * 2) H) as (c & G1 & G2 & G3).
    { change (2 ^ 63) with (2 * 2 ^ 62). lia. }
    { change (2 ^ N.of_nat 65) with (4 * 2 ^ 63). lia. }
    rewrite G1. cbn [rbind]. rewrite A. cbn [xrealloc]. rewrite B. cbn [xmalloc fst snd]. eexists. eexists. split; [reflexivity|].
    assert (Hi : (i < m_next m)%nat) by (apply W; rewrite B; discriminate).
    assert (Lb : (length t <= length blk)%nat) by lia.
    cbn [bu_len bu_cap]. split; [|split; [|split; [|split]]].
    + right. exists (m_next m), (firstn (N.to_nat c) (blk ++ repeat None (N.to_nat c))). split; [reflexivity|].
      cbn [bu_cap bu_len m_block set_block]. destruct (Nat.eqb_spec (m_next m) i); [lia|]. rewrite Nat.eqb_refl. split; [reflexivity|].
      rewrite firstn_length, app_length, repeat_length. split; [lia|]. split; [lia|]. split; [exact E|]. split; [lia|].
      rewrite firstn_firstn, Nat.min_l by lia. rewrite firstn_app. replace (length t - length blk)%nat with 0%nat by lia.
      cbn [firstn]. rewrite app_nil_r. exact E3.
    + exact E.
    + exact G2.
    + intros j Hj. cbn in *. destruct (Nat.eqb_spec j i); [lia|]. destruct (Nat.eqb_spec j (m_next m)); [lia|]. apply W in Hj. lia.
    + unfold bids. cbn [bu_cap bu_data]. rewrite A. destruct (N.eqb_spec (bu_cap b) 0); [lia|]. destruct (N.eqb_spec c 0); [lia|]. constructor; cbn.
      * lia.
      * intros j Hj Nj. destruct (Nat.eqb_spec j i); [subst; tauto|]. destruct (Nat.eqb_spec j (m_next m)); [lia|reflexivity].
      * intros j [<-|[]]. right. lia.
      * intros j Hj. destruct (Nat.eqb_spec j i) as [X|Ni]; [congruence|]. destruct (Nat.eqb_spec j (m_next m)) as [X|X]; [left; left; symmetry; exact X|].
        right. split; [exact Hj|]. intros [Y|[]]. congruence.
Qed.
(** Bytes are written where there is room. *)
Lemma write_ok : forall m b t s, wfm m -> filled m b t -> 0 < bu_cap b -> N.of_nat (length t + length s) <= bu_cap b ->
  exists m', mwrite (bu_data b) (bu_len b) s m = Fine m' /\
    filled m' (mkBuf (bu_data b) (bu_len b + N.of_nat (length s)) (bu_cap b)) (t ++ s) /\ wfm m' /\
    change m (bids b) m' (bids (mkBuf (bu_data b) (bu_len b + N.of_nat (length s)) (bu_cap b))).
Proof.
  intros m b t s W [(A & _)|(i & blk & A & B & C & D & E & E2 & E3)] Hc Hr; [lia|].
  unfold mwrite. rewrite A, B. destruct (N.leb_spec (bu_len b + N.of_nat (length s)) (N.of_nat (length blk))) as [L|L]; [|lia].
  assert (Hi : (i < m_next m)%nat) by (apply W; rewrite B; discriminate).
  eexists. split; [reflexivity|]. split; [|split].
  - right. exists i, (firstn (N.to_nat (bu_len b)) blk ++ map Some s ++ skipn (N.to_nat (bu_len b) + length s) blk). split; [reflexivity|].
    split; [apply set_same|]. cbn [bu_cap bu_len]. rewrite !app_length, firstn_length, map_length, skipn_length. rewrite E in *. rewrite Nat2N.id.
    split; [lia|]. split; [exact D|]. split; [lia|]. split; [lia|].
    rewrite E3, map_app, app_assoc, <- map_app. rewrite <- (app_length t s), <- (map_length Some (t ++ s)), firstn_app, firstn_all, Nat.sub_diag.
    cbn [firstn]. apply app_nil_r.
  - intros j Hj. cbn in Hj. destruct (Nat.eqb_spec j i); [subst; cbn; lia|]. apply W in Hj. cbn. lia.
  - unfold bids. cbn [bu_cap bu_data]. rewrite A. destruct (N.eqb_spec (bu_cap b) 0); [lia|]. constructor; cbn.
    + lia.
    + intros j Hj Nj. destruct (Nat.eqb_spec j i); [subst; tauto|reflexivity].
    + auto.
    + intros j Hj. destruct (Nat.eqb_spec j i) as [X|Ni]; [left; left; symmetry; exact X|]. right. split; [exact Hj|]. intros [Y|[]]. congruence.
Qed.
Lemma append_ok : forall m b t s, wfm m -> filled m b t -> N.of_nat (length t + length s) < 2 ^ 62 ->
  exists b' m', buf_append b s m = Fine (b', m') /\ filled m' b' (t ++ s) /\ wfm m' /\ change m (bids b) m' (bids b').
Proof.
  intros m b t s W F H. unfold buf_append. destruct s as [|x s'] eqn:Es.
  - exists b, m. rewrite app_nil_r. split; [reflexivity|]. split; [exact F|]. split; [exact W|apply change_refl].
  - rewrite <- Es in *. assert (Ls : (0 < length s)%nat) by (rewrite Es; cbn; lia). clear x Es.
    destruct (ensure_ok m b t (N.of_nat (length s)) W F) as (b1 & m1 & E1 & F1 & L1 & R1 & W1 & C1); [lia|lia|].
    rewrite E1. cbn [rbind]. destruct (write_ok m1 b1 t s W1 F1) as (m2 & E2 & F2 & W2 & C2); [lia|lia|].
    rewrite E2. cbn [rbind]. assert (U : u64 (bu_len b1 + N.of_nat (length s)) = bu_len b1 + N.of_nat (length s)).
    { unfold u64. apply N.mod_small. change (2 ^ 64) with (4 * 2 ^ 62). lia. }
    rewrite U. eexists. eexists. split; [reflexivity|]. split; [exact F2|]. split; [exact W2|].
    refine (change_trans _ _ _ _ _ _ _ C1 C2). exact (bids_live _ _ _ W F).
Qed.
Lemma byte_ok1 : forall m b t x, wfm m -> filled m b t -> N.of_nat (length t) + 1 < 2 ^ 62 ->
  exists b' m', buf_append_byte b x m = Fine (b', m') /\ filled m' b' (t ++ [x]) /\ wfm m' /\ change m (bids b) m' (bids b').
Proof.
  intros m b t x W F H. unfold buf_append_byte. destruct (N.ltb_spec (bu_len b) (bu_cap b)) as [L|L].
  - assert (Lb : bu_len b = N.of_nat (length t)). { destruct F as [(A & B & C)|(i & blk & A & B & C & D & E & _)]; [lia|exact E]. }
    destruct (write_ok m b t [x] W F) as (m2 & E2 & F2 & W2 & C2); [lia|cbn [length]; lia|].
    rewrite E2. cbn [rbind]. change (N.of_nat (length [x])) with 1 in *. eexists. eexists. split; [reflexivity|]. split; [exact F2|]. split; [exact W2|exact C2].
  - apply append_ok; [exact W|exact F|cbn [length]; lia].
Qed.
Lemma short_ok : forall m b t s, wfm m -> filled m b t -> (length s <= 10)%nat -> N.of_nat (length t) + 10 < 2 ^ 62 ->
  exists b' m', buf_append_short b s m = Fine (b', m') /\ filled m' b' (t ++ s) /\ wfm m' /\ change m (bids b) m' (bids b').
Proof.
  intros m b t s W F Ls H. unfold buf_append_short.
  destruct (ensure_ok m b t 10 W F) as (b1 & m1 & E1 & F1 & L1 & R1 & W1 & C1); [lia|lia|].
  rewrite E1. cbn [rbind]. destruct (write_ok m1 b1 t s W1 F1) as (m2 & E2 & F2 & W2 & C2); [lia|lia|].
  rewrite E2. cbn [rbind]. assert (U : u64 (bu_len b1 + N.of_nat (length s)) = bu_len b1 + N.of_nat (length s)).
  { unfold u64. apply N.mod_small. change (2 ^ 64) with (4 * 2 ^ 62). lia. }
  rewrite U. eexists. eexists. split; [reflexivity|]. split; [exact F2|]. split; [exact W2|].
  refine (change_trans _ _ _ _ _ _ _ C1 C2). exact (bids_live _ _ _ W F).
Qed.
(** What may be cleared: an own buffer, or one without memory of its own. *)
Lemma clear_ok : forall m b, wfm m -> (bu_cap b = 0 \/ exists t, filled m b t) ->
  exists m', buf_clear b m = Fine (buf_zero, m') /\ wfm m' /\ change m (bids b) m' [].
Proof.
  intros m b W F. assert (G : bu_cap b = 0 \/ exists i, bu_data b = PBlock i /\ m_block m i <> None /\ bu_cap b <> 0).
  { destruct F as [A|(t & [(A & _)|(i & blk & A & B & C & D & _)])]; [left; exact A|left; exact A|]. right. exists i. split; [exact A|]. split; [rewrite B; discriminate|lia]. }
  unfold buf_clear, bids. destruct G as [A|(i & A & B & C)].
  - rewrite A, N.eqb_refl. exists m. split; [reflexivity|]. split; [exact W|apply change_refl].
  - destruct (N.eqb_spec (bu_cap b) 0); [contradiction|]. rewrite A. cbn [xfree]. destruct (m_block m i) eqn:Bl; [|congruence]. cbn [rbind].
    eexists. split; [reflexivity|]. split.
    + intros j Hj. cbn in Hj. destruct (Nat.eqb_spec j i); [congruence|]. apply W in Hj. exact Hj.
    + constructor; cbn.
      * lia.
      * intros j Hj Nj. destruct (Nat.eqb_spec j i); [subst; tauto|reflexivity].
      * intros j [].
      * intros j Hj. destruct (Nat.eqb_spec j i) as [X|Ni]; [congruence|]. right. split; [exact Hj|]. intros [Y|[]]. congruence.
Qed.
Lemma filled_text : forall m b t, filled m b t -> bu_cap b <> 0 -> buf_text b m = Fine t.
Proof.
  intros m b t [(A & _)|(i & blk & A & B & C & D & E & E2 & E3)] H; [contradiction|]. unfold buf_text, mread. rewrite A, B.
  destruct (N.eqb_spec (bu_len b) 0) as [Z|Z]. { rewrite Z in E. destruct t; [reflexivity|cbn in E; lia]. }
  destruct (N.leb_spec (bu_len b) (N.of_nat (length blk))); [|lia]. rewrite E, Nat2N.id, E3.
  assert (G : forall s : bytes, all_set (map Some s) = Some s). { induction s as [|y s IH]; [reflexivity|]. cbn. rewrite IH. reflexivity. }
  rewrite G. reflexivity.
Qed.
