(** The cursor scan over all shards: what one call of pogocache_entry_iter does
    to the entries that are still ahead of the cursor. Proofs only. *)
From Coq Require Import Permutation.
From Verif Require Import Base Types Clamp Entry EntryProofs Hash Map MapProofs MapInv Shard
  Spec Trace ShardProofs ScanProofs LoopProofs Cache Refine.
Local Open Scope N_scope.

Definition maps (ch : cache) : list (map entry) := List.map s_map (ca_shards ch).
(** all entries in the tables *)
Definition allents (ms : list (map entry)) : list entry := flat_map ents ms.
(** the entries from bucket [iter] of table [idx] on *)
Definition ahead (ms : list (map entry)) (idx iter : nat) : list entry :=
  match nth_error ms idx with Some m => after m iter | None => [] end ++ allents (skipn (S idx) ms).

Lemma skipn_split : forall A (l1 l2 : list A) x, skipn (S (length l1)) (l1 ++ x :: l2) = l2.
Proof. induction l1; intros; cbn; [reflexivity|apply IHl1]. Qed.
Lemma nth_error_split_at : forall A (l1 l2 : list A) x, nth_error (l1 ++ x :: l2) (length l1) = Some x.
Proof. induction l1; intros; cbn; [reflexivity|apply IHl1]. Qed.
Lemma ahead_split : forall l1 m l2 iter, ahead (l1 ++ m :: l2) (length l1) iter = after m iter ++ allents l2.
Proof. intros. unfold ahead. rewrite nth_error_split_at, skipn_split. reflexivity. Qed.
Lemma allents_app : forall a b, allents (a ++ b) = allents a ++ allents b.
Proof. intros. apply flat_map_app. Qed.
Lemma allents_cons : forall m l, allents (m :: l) = ents m ++ allents l.
Proof. reflexivity. Qed.
Lemma ahead_end : forall ms idx iter, (length ms <= idx)%nat -> ahead ms idx iter = [].
Proof.
  intros ms idx iter H. unfold ahead. rewrite (proj2 (nth_error_None ms idx) H), skipn_all2 by lia. reflexivity.
Qed.
Lemma ahead_start : forall ms, ahead ms 0 0 = allents ms.
Proof. intros [|m ms]; [reflexivity|]. unfold ahead. cbn [nth_error skipn]. reflexivity. Qed.
Lemma ahead_next : forall ms idx, ahead ms (S idx) 0 = allents (skipn (S idx) ms).
Proof.
  intros ms idx. unfold ahead. generalize (S idx). clear idx. intro i. revert ms.
  induction i as [|i IH]; intros [|m ms]; try reflexivity. cbn [nth_error]. rewrite IH. reflexivity.
Qed.

Section C.
Variable c : ctx.
Hypothesis load_ok : 55 <= c_load c <= 95.
Notation cinv := (cinv c).

Lemma maps_upd : forall l i s, List.map s_map (upd l i s) = upd (List.map s_map l) i (s_map s).
Proof. induction l; intros [|i] s; cbn; auto. f_equal. apply IHl. Qed.

(** One shard's part of the scan. *)
Lemma entry_shard : forall ch now idx iter, cinv ch -> (idx < N.to_nat (c_nshards c))%nat ->
  exists ch1 r j ev l1 m l2 m',
    on_shard ch idx (fun s => match entryiter s now iter with
              | Bad t => Bad t | Ok (s', r, j, ev) => Ok (s', (r, j), ev) end) = Ok (ch1, (r, j), ev) /\
    cinv ch1 /\ maps ch = l1 ++ m :: l2 /\ length l1 = idx /\ maps ch1 = l1 ++ m' :: l2 /\
    m_nb m' = m_nb m /\ (length (ents m') <= length (ents m))%nat /\ NoDup (ents m) /\
    (forall x, In x (ents m) -> entry_alive x now = true -> In x (ents m')) /\
    (forall x, In x (ents m') -> In x (ents m)) /\
    ((forall x, In x (ents m) -> entry_alive x now = true) -> length (ents m') = length (ents m)) /\
    match r with
    | Some e => In e (ents m) /\ entry_alive e now = true /\ (j <= m_nb m)%nat /\
        (forall x, In x (before m' j) -> In x (before m iter) \/ x = e) /\
        (length (ents m') = length (ents m) -> m' = m /\ after m iter = e :: after m j)
    | None =>
        (forall x, In x (ents m') -> In x (before m iter)) /\
        (length (ents m') = length (ents m) -> m' = m /\ after m iter = [])
    end.
Proof.
  intros ch now idx iter I Hi.
  destruct (shard_at c ch idx I Hi) as (s & Hs).
  destruct (entryiter_ok c load_ok (placed (ca_next ch) s) now iter (ci_shard c ch I _ _ Hs))
    as (s' & r & j & ev1 & E & G & Hc & Sh & Fr & Rt & Rs & T1 & T2 & T3 & T4 & T5).
  change (ShardProofs.sabs c (placed (ca_next ch) s)) with (sabs c s) in Fr.
  destruct (on_shard_ok c load_ok _ (fun s => match entryiter s now iter with
              | Bad t => Bad t | Ok (s', r, j, ev) => Ok (s', (r, j), ev) end)
     ch idx s s' (r, j) ev1 (rets ev1) I Hs) as (ch1 & E1 & G1 & A1 & C1 & S1).
  - rewrite E. reflexivity.
  - apply G.
  - rewrite (g2_next _ _ _ _ G). cbn. lia.
  - intros held _. apply (g2_heap _ _ _ _ G).
  - rewrite Rt. destruct r as [e|]; [|constructor]. constructor; [|constructor].
    destruct Rs as (_ & Hin & _). pose proof (si_next _ _ (g2_inv _ _ _ _ G)) as F.
    rewrite Forall_forall in F. apply F. apply in_map. assumption.
  - apply (g2_mirror _ _ _ _ G).
  - apply noins_no. eapply entryiter_noins. eassumption.
  - intros k Hk. apply (ci_route c ch I _ _ k Hs). destruct (Fr k) as [X|[_ X]]; congruence.
  - destruct (nth_error_split _ _ Hs) as (l1 & l2 & L1 & L2).
    exists ch1, r, j, ev1, (List.map s_map l1), (s_map s), (List.map s_map l2), (s_map s').
    split; [exact E1|]. split; [apply (cg_inv _ _ _ _ _ G1)|].
    split; [unfold maps; rewrite L1, map_app; reflexivity|].
    split; [rewrite map_length; assumption|].
    split; [unfold maps; rewrite S1, L1, <- L2, upd_split, map_app; reflexivity|].
    split; [exact T1|]. split; [exact T2|].
    split.
    { pose proof (nodup_keys c _ (ci_shard c ch I _ _ Hs)) as Nd. apply NoDup_map_inv in Nd. exact Nd. }
    split; [exact T3|]. split; [exact T4|]. split; [exact T5|].
    destruct r as [e|].
    + destruct Rs as (X1 & X2 & X3 & X4 & X5 & X6). exact (conj X1 (conj X3 (conj X4 (conj X5 X6)))).
    + destruct Rs as (X1 & X2 & X3). exact (conj X2 X3).
Qed.

Lemma nodup_apart : forall (m : map entry) i x, NoDup (ents m) -> In x (before m i) -> In x (after m i) -> False.
Proof.
  intros m i x Nd A B. rewrite <- (before_after m i) in Nd. revert A Nd. generalize (before m i).
  induction l as [|y l IH]; intros A Nd; [destruct A|]. cbn in Nd. inversion Nd; subst.
  destruct A as [->|A]; [|auto]. match goal with H : ~ In _ _ |- _ => apply H end. apply in_app_iff. auto.
Qed.

Definition cursor_at (idx iter : nat) : N := N.lor (N.shiftl (N.of_nat idx) 32) (N.of_nat iter).

Lemma entry_loop_moves : forall now fuel ch idx iter evs, cinv ch ->
  (idx < N.to_nat (c_nshards c))%nat -> (N.to_nat (c_nshards c) - idx <= fuel)%nat ->
  exists ch' r cur ev, entry_iter_loop c fuel ch now idx iter evs = Ok (ch', (r, cur), ev) /\
    cinv ch' /\ List.map (@m_nb entry) (maps ch') = List.map (@m_nb entry) (maps ch) /\
    (length (allents (maps ch')) <= length (allents (maps ch)))%nat /\
    (forall x, In x (allents (maps ch)) -> entry_alive x now = true -> In x (allents (maps ch'))) /\
    (forall x, In x (allents (maps ch')) -> In x (allents (maps ch))) /\
    ((forall x, In x (allents (maps ch)) -> entry_alive x now = true) ->
       length (allents (maps ch')) = length (allents (maps ch))) /\
    match r with
    | Some (id, k, v) => exists e idx' j, k = ekey c e /\ v = eview c e /\ In e (allents (maps ch)) /\
        entry_alive e now = true /\ cur = cursor_at idx' j /\ (idx' < N.to_nat (c_nshards c))%nat /\
        (exists m, nth_error (maps ch) idx' = Some m /\ (j <= m_nb m)%nat) /\
        (forall x, In x (ahead (maps ch) idx iter) -> entry_alive x now = true ->
           x = e \/ In x (ahead (maps ch') idx' j)) /\
        (length (allents (maps ch')) = length (allents (maps ch)) ->
           maps ch' = maps ch /\ ahead (maps ch) idx iter = e :: ahead (maps ch) idx' j)
    | None => cur = 0 /\ (forall x, In x (ahead (maps ch) idx iter) -> entry_alive x now = false) /\
        (length (allents (maps ch')) = length (allents (maps ch)) ->
           maps ch' = maps ch /\ ahead (maps ch) idx iter = [])
    end.
Proof.
  intros now. induction fuel as [|f IH]; intros ch idx iter evs I Hi Hf; [lia|]. cbn [entry_iter_loop].
  destruct (entry_shard ch now idx iter I Hi)
    as (ch1 & r & j & ev & l1 & m & l2 & m' & E & I1 & M & L & M1 & Nb & Le & Nd & Al & Sub & Eq & R).
  rewrite E. clear E.
  assert (Len : forall a b, length (allents (l1 ++ a :: l2)) = length (allents (l1 ++ b :: l2)) ->
    length (ents a) = length (ents b)).
  { intros a b. rewrite !allents_app, !allents_cons, !app_length. lia. }
  assert (Le1 : (length (allents (maps ch1)) <= length (allents (maps ch)))%nat).
  { rewrite M, M1, !allents_app, !allents_cons, !app_length. lia. }
  assert (Al1 : forall x, In x (allents (maps ch)) -> entry_alive x now = true -> In x (allents (maps ch1))).
  { intro x. rewrite M, M1, !allents_app, !allents_cons, !in_app_iff. intros [X|[X|X]] A; auto. }
  assert (Sub1 : forall x, In x (allents (maps ch1)) -> In x (allents (maps ch))).
  { intro x. rewrite M, M1, !allents_app, !allents_cons, !in_app_iff. intros [X|[X|X]]; auto. }
  assert (Eq1 : (forall x, In x (allents (maps ch)) -> entry_alive x now = true) ->
    length (allents (maps ch1)) = length (allents (maps ch))).
  { intro A. rewrite M, M1, !allents_app, !allents_cons, !app_length. rewrite Eq; [reflexivity|].
    intros x Hx. apply A. rewrite M, allents_app, allents_cons, !in_app_iff. auto. }
  assert (Nb1 : List.map (@m_nb entry) (maps ch1) = List.map (@m_nb entry) (maps ch)).
  { rewrite M, M1, !map_app. cbn. rewrite Nb. reflexivity. }
  destruct r as [e|].
  - destruct R as (R1 & R2 & R3 & R4 & R5).
    exists ch1, (Some (e_id e, ekey c e, eview c e)). eexists. exists (evs ++ ev). split; [reflexivity|].
    do 6 (split; [assumption|]). exists e, idx, j.
    do 2 (split; [reflexivity|]).
    split; [rewrite M, allents_app, allents_cons, !in_app_iff; auto|].
    split; [assumption|]. split; [reflexivity|]. split; [assumption|].
    split; [exists m; rewrite M, <- L, nth_error_split_at; auto|].
    rewrite M, M1, <- L, !ahead_split. split.
    + intros x Hx A. apply in_app_iff in Hx. destruct Hx as [Hx|Hx]; [|right; apply in_app_iff; auto].
      assert (Hm : In x (ents m)) by (rewrite <- (before_after m iter); apply in_app_iff; auto).
      specialize (Al x Hm A). rewrite <- (before_after m' j) in Al. apply in_app_iff in Al.
      destruct Al as [Y|Y]; [|right; apply in_app_iff; auto]. left.
      destruct (R4 x Y) as [Z|Z]; [|assumption]. exfalso. exact (nodup_apart m iter x Nd Z Hx).
    + intro Q. destruct (R5 (Len _ _ Q)) as [-> ->]. auto.
  - destruct R as (R4 & R5).
    assert (Dead : forall x, In x (after m iter) -> entry_alive x now = false).
    { intros x Hx. destruct (entry_alive x now) eqn:A; [|reflexivity]. exfalso.
      assert (Hm : In x (ents m)) by (rewrite <- (before_after m iter); apply in_app_iff; auto).
      exact (nodup_apart m iter x Nd (R4 x (Al x Hm A)) Hx). }
    assert (Step : forall x, In x (ahead (maps ch) idx iter) -> entry_alive x now = true ->
      In x (ahead (maps ch1) (idx + 1) 0)).
    { intros x Hx A. replace (idx + 1)%nat with (S idx) by lia. rewrite ahead_next.
      rewrite M in Hx. rewrite M1. rewrite <- L in *. rewrite skipn_split. rewrite ahead_split in Hx.
      apply in_app_iff in Hx. destruct Hx as [Hx|Hx]; [|assumption]. rewrite (Dead x Hx) in A. discriminate. }
    assert (Static : length (allents (maps ch1)) = length (allents (maps ch)) ->
      maps ch1 = maps ch /\ ahead (maps ch) idx iter = ahead (maps ch) (idx + 1) 0).
    { rewrite M, M1. intro Q. destruct (R5 (Len _ _ Q)) as [-> A]. split; [reflexivity|].
      replace (idx + 1)%nat with (S idx) by lia. rewrite ahead_next, <- L, skipn_split, ahead_split, A.
      reflexivity. }
    destruct (N.eqb_spec (N.of_nat (idx + 1)) (c_nshards c)) as [Ed|Ed].
    + exists ch1, None, 0, (evs ++ ev). split; [reflexivity|]. do 6 (split; [assumption|]).
      split; [reflexivity|].
      assert (End : forall ch0 i, cinv ch0 -> i = (idx + 1)%nat -> ahead (maps ch0) i 0 = []).
      { intros ch0 i I0 ->. apply ahead_end. unfold maps. rewrite map_length, (ci_len c ch0 I0). lia. }
      split.
      * intros x Hx. destruct (entry_alive x now) eqn:A; [|reflexivity]. exfalso.
        pose proof (Step x Hx A) as Y. rewrite (End ch1 _ I1 eq_refl) in Y. destruct Y.
      * intro Q. destruct (Static Q) as [S1 S2]. split; [assumption|]. rewrite S2. apply End; auto.
    + destruct (IH ch1 (idx + 1)%nat 0%nat (evs ++ ev) I1)
        as (ch2 & r2 & cur & ev2 & E2 & I2 & Nb2 & Le2 & Al2 & Sub2 & Eq2 & R2); [lia|lia|].
      exists ch2, r2, cur, ev2. split; [exact E2|]. split; [assumption|]. split; [congruence|].
      split; [lia|]. split; [auto|]. split; [auto|].
      split.
      { intro A. rewrite Eq2; [auto|]. intros x Hx. apply A. auto. }
      assert (Both : length (allents (maps ch2)) = length (allents (maps ch)) ->
        length (allents (maps ch2)) = length (allents (maps ch1)) /\
        length (allents (maps ch1)) = length (allents (maps ch))) by lia.
      destruct r2 as [[[id k] v]|].
      * destruct R2 as (e & idx' & j' & X1 & X2 & X3 & X4 & X5 & X6 & (m0 & X7 & X7') & X8 & X9).
        exists e, idx', j'. do 2 (split; [assumption|]). split; [auto|]. do 3 (split; [assumption|]).
        split.
        { assert (Z : nth_error (List.map (@m_nb entry) (maps ch)) idx' = Some (m_nb m0)).
          { rewrite <- Nb1. rewrite nth_error_map, X7. reflexivity. }
          rewrite nth_error_map in Z. destruct (nth_error (maps ch) idx') as [m3|]; [|discriminate].
          exists m3. injection Z as Z. split; [reflexivity|lia]. }
        split; [intros x Hx A; apply X8; auto|].
        intro Q. destruct (Both Q) as [Q1 Q2]. destruct (Static Q2) as [S1 S2].
        destruct (X9 Q1) as [Y1 Y2]. split; [congruence|]. rewrite S2, <- S1. assumption.
      * destruct R2 as (X1 & X2 & X3). split; [assumption|]. split.
        -- intros x Hx. destruct (entry_alive x now) eqn:A; [|reflexivity]. rewrite (X2 x) in A; [discriminate|auto].
        -- intro Q. destruct (Both Q) as [Q1 Q2]. destruct (Static Q2) as [S1 S2].
           destruct (X3 Q1) as [Y1 Y2]. split; [congruence|]. rewrite S2, <- S1. assumption.
Qed.

(** *** Entries and items *)
Lemma in_allents : forall ch e, In e (allents (maps ch)) ->
  exists i s, nth_error (ca_shards ch) i = Some s /\ In e (sents s).
Proof.
  intros ch e H. unfold allents, maps in H. apply in_flat_map in H. destruct H as (m & Hm & He).
  apply in_map_iff in Hm. destruct Hm as (s & <- & Hs). apply In_nth_error in Hs. destruct Hs as (i & Hi).
  exists i, s. auto.
Qed.

Lemma allents_cabs : forall ch e, cinv ch -> In e (allents (maps ch)) ->
  cabs c ch (ekey c e) = Some (item_of c e).
Proof.
  intros ch e I H. destruct (in_allents ch e H) as (i & s & Hs & He).
  pose proof (nodup_keys c _ (ci_shard c ch I _ _ Hs)) as Nd.
  change (sents (placed (ca_next ch) s)) with (sents s) in Nd.
  assert (Hk : sabs c s (ekey c e) = Some (item_of c e)) by (unfold sabs; rewrite (lk_in _ _ _ Nd He); reflexivity).
  rewrite (cabs_at c ch i s (ekey c e) Hs); [exact Hk|].
  apply (ci_route c ch I _ _ _ Hs). congruence.
Qed.

Lemma allents_live : forall ch e now, cinv ch -> In e (allents (maps ch)) ->
  live_item (cabs c ch) (ekey c e) now = if entry_alive e now then Some (item_of c e) else None.
Proof.
  intros ch e now I H. destruct (in_allents ch e H) as (i & s & Hs & He).
  pose proof (live_item_some c (placed (ca_next ch) s) e now (ci_shard c ch I _ _ Hs) He) as L.
  assert (Hk : sabs c s (ekey c e) <> None).
  { pose proof (nodup_keys c _ (ci_shard c ch I _ _ Hs)) as Nd.
    change (sents (placed (ca_next ch) s)) with (sents s) in Nd.
    unfold sabs. rewrite (lk_in _ _ _ Nd He). discriminate. }
  rewrite (live_at c ch i s (ekey c e) now Hs); [exact L|]. apply (ci_route c ch I _ _ _ Hs Hk).
Qed.

Lemma live_allents : forall ch k it now, cinv ch -> live_item (cabs c ch) k now = Some it ->
  exists e, In e (allents (maps ch)) /\ ekey c e = k /\ item_of c e = it /\ entry_alive e now = true.
Proof.
  intros ch k it now I H.
  assert (Z : exists e, In e (allents (maps ch)) /\ ekey c e = k).
  { unfold live_item, cabs in H. destruct (nth_error (ca_shards ch) (route c k)) as [s|] eqn:Hs; [|discriminate].
    unfold sabs in H. destruct (lk (ekey c) (sents s) k) as [e|] eqn:L; [|discriminate].
    apply lk_some in L. exists e. split; [|apply L]. unfold allents, maps. apply in_flat_map.
    exists (s_map s). split; [apply in_map; apply nth_error_In with (1 := Hs)|apply L]. }
  destruct Z as (e & He & <-). exists e. split; [assumption|]. split; [reflexivity|].
  rewrite (allents_live ch e now I He) in H. destruct (entry_alive e now); [|discriminate]. split; congruence.
Qed.

Lemma allents_nodup : forall ch, cinv ch -> NoDup (List.map (ekey c) (allents (maps ch))).
Proof.
  intros ch I. unfold maps.
  assert (G : forall l (off : nat), (forall i s, nth_error l i = Some s ->
      NoDup (List.map (ekey c) (sents s)) /\ forall e, In e (sents s) -> route c (ekey c e) = (off + i)%nat) ->
      NoDup (List.map (ekey c) (allents (List.map s_map l)))).
  { induction l as [|s l IH]; intros off H; [constructor|]. cbn [List.map]. rewrite allents_cons, map_app.
    apply NoDup_app_intro.
    - apply (H 0%nat s eq_refl).
    - apply (IH (S off)). intros i s0 Hs. destruct (H (S i) s0 Hs) as [A B]. split; [assumption|].
      intros e He. rewrite (B e He). lia.
    - intros k A B. apply in_map_iff in A, B. destruct A as (a & <- & Ha), B as (b & Hb & Hbin).
      destruct (H 0%nat s eq_refl) as [_ R]. pose proof (R a Ha) as Ra.
      unfold allents in Hbin. apply in_flat_map in Hbin. destruct Hbin as (m & Hm & Hin).
      apply in_map_iff in Hm. destruct Hm as (s0 & <- & Hs0). apply In_nth_error in Hs0.
      destruct Hs0 as (i & Hi). destruct (H (S i) s0 Hi) as [_ R0]. pose proof (R0 b Hin) as Rb.
      rewrite Hb in Rb. lia. }
  apply (G _ 0%nat). intros i s Hs. pose proof (nodup_keys c _ (ci_shard c ch I _ _ Hs)) as Nd.
  split; [exact Nd|]. intros e He. apply (ci_route c ch I _ _ _ Hs). unfold sabs.
  change (sents (placed (ca_next ch) s)) with (sents s) in Nd. rewrite (lk_in _ _ _ Nd He). discriminate.
Qed.

End C.
