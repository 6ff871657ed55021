(** C67: what the running total of stored items counts. *)
From Coq Require Import Permutation.
From Verif Require Import Base Types Clamp Entry EntryProofs Hash Map MapProofs MapInv Shard
  Spec Trace ShardProofs ScanProofs LoopProofs Cache Refine Reach Observe PropCache PropItems Small
  PropMemory PropScan CursorProofs SizeProofs PropSize TotalProofs.
Local Open Scope N_scope.

(** *** Specification *)

(** The calls that make the total grow by one, for a key: a store that answers
    INSERTED or NOTFOUND although the cache holds no item of the key, not even an
    expired one; and a delete called off by its callback. *)
Inductive counted (c : ctx) (ch : cache) : call -> result -> bytes -> Prop :=
| ct_store : forall key val o time st shown, ~ holds c ch key -> st = INSERTED \/ st = NOTFOUND ->
    counted c ch (Store key val o time) (RStatus st shown) key
| ct_cancel : forall key cb time shown,
    counted c ch (Delete key cb time) (RStatus CANCELED shown) key.

(** [counting c one ch h ch' n]: the history leads from [ch] to [ch'] and [n] of
    its calls are counted, for keys of shard [one], or any. *)
Inductive counting (c : ctx) (one : option Z) : cache -> list (env * call) -> cache -> N -> Prop :=
| cn_nil : forall ch, counting c one ch [] ch 0
| cn_yes : forall ch en x ch1 r evs key h ch2 n, step c en ch x = Ok (ch1, r, evs) ->
    counted c ch x r key -> concerns c one key -> counting c one ch1 h ch2 n ->
    counting c one ch ((en, x) :: h) ch2 (1 + n)
| cn_no : forall ch en x ch1 r evs h ch2 n, step c en ch x = Ok (ch1, r, evs) ->
    (forall key, counted c ch x r key -> ~ concerns c one key) -> counting c one ch1 h ch2 n ->
    counting c one ch ((en, x) :: h) ch2 n.

(** *** Proofs *)
Definition totals (ch : cache) : list N := List.map (fun s => m_total (s_map s)) (ca_shards ch).

Lemma upd_same : forall A (l : list A) i x, nth_error l i = Some x -> upd l i x = l.
Proof.
  induction l as [|a l IH]; intros [|i] x H; cbn in *; try discriminate.
  - injection H as ->. reflexivity.
  - f_equal. apply IH. assumption.
Qed.
Lemma map_upd : forall A B (f : A -> B) l i x, List.map f (upd l i x) = upd (List.map f l) i (f x).
Proof. induction l as [|a l IH]; intros [|i] x; cbn; try reflexivity. f_equal. apply IH. Qed.

Lemma map_rep : forall A B (f : A -> B) x n, List.map f (repeat x n) = repeat (f x) n.
Proof. induction n; cbn; [reflexivity|]. f_equal. assumption. Qed.

Lemma on_shard_totals : forall A (f : shard -> out (shard * A * list event)) ch i ch' a evs,
  on_shard ch i f = Ok (ch', a, evs) ->
  exists s s', nth_error (ca_shards ch) i = Some s /\ f (placed (ca_next ch) s) = Ok (s', a, evs) /\
    totals ch' = upd (totals ch) i (m_total (s_map s')).
Proof.
  intros A f ch i ch' a evs H. unfold on_shard in H.
  destruct (nth_error (ca_shards ch) i) as [s|] eqn:Hs; [|discriminate].
  destruct (f _) as [[[s' a'] ev]|] eqn:E; [|discriminate]. injection H as <- <- <-.
  exists s, s'. split; [reflexivity|]. split; [exact E|]. unfold totals. cbn [ca_shards]. apply map_upd.
Qed.

Lemma on_shard_still : forall A (f : shard -> out (shard * A * list event)) ch i ch' a evs,
  on_shard ch i f = Ok (ch', a, evs) ->
  (forall s s' a evs, f s = Ok (s', a, evs) -> m_total (s_map s') = m_total (s_map s)) ->
  totals ch' = totals ch.
Proof.
  intros A f ch i ch' a evs H F. apply on_shard_totals in H. destruct H as (s & s' & Hs & E & ->).
  apply F in E. rewrite E. apply upd_same. unfold totals. rewrite nth_error_map, Hs. reflexivity.
Qed.

Lemma each_still : forall A (body : nat -> A -> shard -> out (shard * (A * bool) * list event)) is a ch ch' a' evs,
  each body is a ch = Ok (ch', a', evs) ->
  (forall i a s s' r evs, body i a s = Ok (s', r, evs) -> m_total (s_map s') = m_total (s_map s)) ->
  totals ch' = totals ch.
Proof.
  intros A body. induction is as [|i is IH]; intros a ch ch' a' evs H F; cbn [each] in H.
  { injection H as <- _ _. reflexivity. }
  destruct (on_shard ch i (body i a)) as [[[ch1 [a1 stop]] ev1]|] eqn:E; [|discriminate].
  apply on_shard_still in E; [|intros s s' r ev; apply F].
  destruct stop; [injection H as <- _ _; exact E|].
  destruct (each body is a1 ch1) as [[[ch2 a2] ev2]|] eqn:E2; [|discriminate]. injection H as <- _ _.
  rewrite <- E. eapply IH; [exact E2|exact F].
Qed.

Lemma sum_still : forall c f one ch ch' n evs, cache_sum c f ch one = Ok (ch', n, evs) -> totals ch' = totals ch.
Proof.
  intros c f one ch ch' n evs E. eapply each_still; [exact E|].
  intros i a s s' r ev B. injection B as <- _ _. reflexivity.
Qed.

Lemma entry_loop_still : forall c now fuel ch idx iter evs ch' r ev,
  entry_iter_loop c fuel ch now idx iter evs = Ok (ch', r, ev) -> totals ch' = totals ch.
Proof.
  intros c now. induction fuel as [|f IH]; intros ch idx iter evs ch' r ev H; [discriminate|].
  cbn [entry_iter_loop] in H.
  destruct (on_shard ch idx _) as [[[ch1 [r1 j]] ev1]|] eqn:E; [|discriminate].
  apply on_shard_still in E.
  2:{ intros s s' a ev0 B. destruct (entryiter s now iter) as [[[[s2 r2] j2] ev2]|] eqn:Y; [|discriminate].
      injection B as <- _ _. eapply entryiter_total; exact Y. }
  destruct r1 as [e|]; [injection H as <- _ _; exact E|].
  destruct (N.of_nat (idx + 1) =? c_nshards c); [injection H as <- _ _; exact E|].
  rewrite <- E. eapply IH; exact H.
Qed.

Section V.
Variable o : opts.
Let c := ctx_of o.
Let load_ok : 55 <= c_load c <= 95 := opts_load o.

Definition bump (l : list N) (i : nat) : list N := upd l i (u64 (nth i l 0 + 1)).

(** What one call does to the totals of the shards. *)
Lemma step_totals : forall en ch x ch' r evs, reachable c ch -> call_ok c en (cabs c ch) x ->
  step c en ch x = Ok (ch', r, evs) ->
  (exists key, counted c ch x r key /\ totals ch' = bump (totals ch) (route c key)) \/
  ((forall key, ~ counted c ch x r key) /\ totals ch' = totals ch).
Proof.
  intros en ch x ch' r evs R K H. pose proof (reach_cinv o ch R) as I. fold c in I.
  destruct x as [key val so time|key lo time|key cb time|cb one time|cursor time
    |one time|psz time|one df time|one|one|one eo]; cbn [step call_ok] in *.
  - destruct (cache_store _ _ _ _ _ _ _) as [[[ch1 st] ev]|] eqn:E; [|discriminate]. injection H as <- <- _.
    destruct K as (K1 & K2 & K3).
    apply on_shard_totals in E. destruct E as (s & s' & Hs & B & ->).
    assert (T : nth_error (totals ch) (route c key) = Some (m_total (s_map s)))
      by (unfold totals; rewrite nth_error_map, Hs; reflexivity).
    assert (Hh : holds c ch key <-> sabs c (placed (ca_next ch) s) key <> None).
    { rewrite (holds_iff c load_ok) by exact I. unfold cabs. rewrite Hs. reflexivity. }
    apply (storeop_total c load_ok) in B; [|apply (ci_shard c ch I _ _ Hs)|exact K1|apply (roomy_crowd c ch key s I K3 Hs)].
    assert (St : forall st0, (st0 = INSERTED \/ st0 = NOTFOUND) -> st = st0 ->
      (exists k, counted c ch (Store key val so time) (RStatus st (flat_map (fun ev0 =>
         match ev0 with EvShow _ k w => [(k, w)] | _ => [] end) ev)) k /\
         upd (totals ch) (route c key) (m_total (s_map s')) = bump (totals ch) (route c k)) \/
      ((forall k, ~ counted c ch (Store key val so time) (RStatus st (flat_map (fun ev0 =>
         match ev0 with EvShow _ k w => [(k, w)] | _ => [] end) ev)) k) /\
         upd (totals ch) (route c key) (m_total (s_map s')) = totals ch)).
    { intros st0 Hst ->.
      assert (B' : m_total (s_map s') = match sabs c (placed (ca_next ch) s) key with
          None => u64 (m_total (s_map s) + 1) | Some _ => m_total (s_map s) end)
        by (destruct Hst as [-> | ->]; exact B).
      destruct (sabs c (placed (ca_next ch) s) key) as [it|].
      - right. split; [|rewrite B'; apply upd_same; exact T].
        intros k C. inversion C as [? ? ? ? ? ? Nh _|]; subst. apply Nh. apply Hh. discriminate.
      - left. exists key. split; [constructor; [|exact Hst]|].
        + intro X. apply Hh in X. apply X. reflexivity.
        + unfold bump. rewrite (nth_error_nth _ _ 0 T), B'. reflexivity. }
    destruct st; try (apply (St _ (or_introl eq_refl) eq_refl)); try (apply (St _ (or_intror eq_refl) eq_refl));
      (right; split; [intros k C; inversion C as [? ? ? ? ? ? _ [Q|Q]|]; discriminate Q
                     |rewrite B; apply upd_same; exact T]).
  - destruct (cache_load _ _ _ _ _ _) as [[[ch1 st] ev]|] eqn:E; [|discriminate]. injection H as <- <- _.
    right. split; [intros k C; inversion C|]. eapply on_shard_still; [exact E|]. intros s s' a ev0. apply loadop_total.
  - destruct (cache_delete _ _ _ _ _ _) as [[[ch1 st] ev]|] eqn:E; [|discriminate]. injection H as <- <- _.
    apply on_shard_totals in E. destruct E as (s & s' & Hs & B & ->).
    assert (T : nth_error (totals ch) (route c key) = Some (m_total (s_map s)))
      by (unfold totals; rewrite nth_error_map, Hs; reflexivity).
    apply deleteop_total in B. cbn [placed s_map] in B.
    destruct st; try (right; split; [intros k C; inversion C|rewrite B; apply upd_same; exact T]).
    left. exists key. split; [constructor|]. unfold bump. rewrite (nth_error_nth _ _ 0 T), B. reflexivity.
  - destruct (cache_iter _ _ _ _ _ _ _) as [[[ch1 [st1 st]] ev]|] eqn:E; [|discriminate]. injection H as <- <- _.
    right. split; [intros k C; inversion C|]. eapply each_still; [exact E|].
    intros i a s s' r0 ev0 B. unfold iter_body in B.
    destruct (iterop _ _ _ _ _ _) as [[[[s2 st2] sx] ev2]|] eqn:Y; [|discriminate]. injection B as <- _ _.
    eapply iterop_total; exact Y.
  - destruct (cache_entry_iter _ _ _ _ _) as [[[ch1 [r1 j]] ev]|] eqn:E; [|discriminate]. injection H as <- <- _.
    right. split; [intros k C; inversion C|]. unfold cache_entry_iter in E. cbv zeta in E.
    destruct ((2 ^ 31 <=? _) || _); [injection E as <- _ _ _; reflexivity|].
    destruct (2 ^ 31 <=? _); [injection E as <- _ _ _; reflexivity|].
    eapply entry_loop_still; exact E.
  - destruct (cache_sweep _ _ _ _ _) as [[[ch1 [sw kp]] ev]|] eqn:E; [|discriminate]. injection H as <- <- _.
    right. split; [intros k C; inversion C|]. eapply each_still; [exact E|].
    intros i a s s' r0 ev0 B. unfold sweep_body in B.
    destruct (sweepop _ _ _ _) as [[[s2 [x1 x2]] ev2]|] eqn:Y; [|discriminate]. injection B as <- _ _.
    eapply sweepop_total; exact Y.
  - destruct (cache_sweep_poll _ _ _ _ _) as [[[ch1 [d n]] ev]|] eqn:E; [|discriminate]. injection H as <- <- _.
    right. split; [intros k C; inversion C|]. eapply on_shard_still; [exact E|].
    intros s s' a ev0 B. injection B as <- _ _. reflexivity.
  - destruct (cache_clear _ _ _ _ _ _) as [[[ch1 u] ev]|] eqn:E; [|discriminate]. injection H as <- <- _.
    right. split; [intros k C; inversion C|]. eapply each_still; [exact E|].
    intros i a s s' r0 ev0 B. unfold clear_body in B.
    destruct (clearop _ _ _ _ _) as [[s2 ev2]|] eqn:Y; [|discriminate]. injection B as <- _ _.
    eapply clearop_total; exact Y.
  - destruct (cache_sum _ _ _ _) as [[[ch1 n] ev]|] eqn:E; [|discriminate]. injection H as <- <- _.
    right. split; [intros k C; inversion C|]. eapply sum_still; exact E.
  - destruct (cache_sum _ _ _ _) as [[[ch1 n] ev]|] eqn:E; [|discriminate]. injection H as <- <- _.
    right. split; [intros k C; inversion C|]. eapply sum_still; exact E.
  - destruct (cache_sum _ _ _ _) as [[[ch1 n] ev]|] eqn:E; [|discriminate]. injection H as <- <- _.
    right. split; [intros k C; inversion C|]. eapply sum_still; exact E.
Qed.

Definition sum_at (l : list N) (is : list nat) : N := fold_right (fun i a => nth i l 0 + a) 0 is.

Lemma sum_totals : forall is acc ch, Forall (fun i => (i < length (ca_shards ch))%nat) is ->
  exists ch', each (add_body totalop) is (u64 acc) ch = Ok (ch', u64 (acc + sum_at (totals ch) is), []).
Proof.
  induction is as [|i is IH]; intros acc ch F.
  - exists ch. cbn. rewrite N.add_0_r. reflexivity.
  - inversion F; subst. cbn [each].
    destruct (on_shard ch i (add_body totalop i (u64 acc))) as [[[ch1 [a1 stop]] ev1]|] eqn:E.
    2:{ unfold on_shard in E. destruct (nth_error (ca_shards ch) i) as [s|] eqn:Hs; [discriminate|].
        apply nth_error_None in Hs. lia. }
    pose proof E as E'. apply on_shard_still in E'.
    2:{ intros s s' a ev B. injection B as <- _ _. reflexivity. }
    unfold on_shard in E. destruct (nth_error (ca_shards ch) i) as [s|] eqn:Hs; [|discriminate].
    injection E as <- <- <- <-. rewrite u64_add_l. cbn [s_next] in *.
    destruct (IH (acc + totalop (mkShard (s_cas s) (s_map s) (ca_next ch)))
      (mkCache (ca_next ch) (upd (ca_shards ch) i (mkShard (s_cas s) (s_map s) (ca_next ch))))) as [ch' E].
    { cbn [ca_shards]. rewrite upd_length. assumption. }
    rewrite E. exists ch'. cbn [app]. rewrite E'. do 3 f_equal.
    cbn [sum_at fold_right]. fold (sum_at (totals ch) is). unfold totalop. cbn [s_map].
    rewrite (nth_error_nth (totals ch) i 0 (x := m_total (s_map s))); [f_equal; lia|].
    unfold totals. rewrite nth_error_map, Hs. reflexivity.
Qed.

Lemma nth_upd : forall (l : list N) i j x, (i < length l)%nat ->
  nth j (upd l i x) 0 = if (j =? i)%nat then x else nth j l 0.
Proof.
  induction l as [|a l IH]; intros [|i] [|j] x H; cbn in *; try lia; try reflexivity. apply IH. lia.
Qed.
Lemma sum_bump_out : forall is l i, (i < length l)%nat -> ~ In i is -> sum_at (bump l i) is = sum_at l is.
Proof.
  induction is as [|j is IH]; intros l i H Nin; [reflexivity|]. cbn [sum_at fold_right].
  fold (sum_at (bump l i) is). fold (sum_at l is). rewrite IH; [|exact H|intro X; apply Nin; right; exact X].
  f_equal. unfold bump. rewrite nth_upd by exact H.
  destruct (Nat.eqb_spec j i) as [->|]; [exfalso; apply Nin; left; reflexivity|reflexivity].
Qed.
Lemma sum_bump_in : forall is l i, (i < length l)%nat -> NoDup is -> In i is ->
  u64 (sum_at (bump l i) is) = u64 (1 + sum_at l is).
Proof.
  induction is as [|j is IH]; intros l i H Nd Hin; [destruct Hin|]. inversion Nd; subst.
  cbn [sum_at fold_right]. fold (sum_at (bump l i) is). fold (sum_at l is).
  destruct (Nat.eq_dec j i) as [->|Ne].
  - rewrite sum_bump_out by assumption. unfold bump. rewrite nth_upd by exact H. rewrite Nat.eqb_refl.
    rewrite u64_add_l. f_equal. lia.
  - destruct Hin as [X|Hin]; [contradiction|]. rewrite <- u64_add_r, IH by assumption. rewrite u64_add_r.
    unfold bump. rewrite nth_upd by exact H. apply Nat.eqb_neq in Ne. rewrite Ne. f_equal. lia.
Qed.

Lemma counted_one : forall ch x r k1 k2, counted c ch x r k1 -> counted c ch x r k2 -> k1 = k2.
Proof. intros ch x r k1 k2 A B. inversion A; subst; inversion B; subst; reflexivity. Qed.

Lemma counting_unique : forall one h ch ch1 n1, counting c one ch h ch1 n1 ->
  forall ch2 n2, counting c one ch h ch2 n2 -> n1 = n2.
Proof.
  intros one h ch ch1 n1 A. induction A as [ch|ch en x ch1 r evs key h ch2 n E C1 C2 A IH|ch en x ch1 r evs h ch2 n E C1 A IH];
    intros ch3 n3 B; inversion B; subst; try reflexivity.
  - rewrite E in *. match goal with X : Ok _ = Ok _ |- _ => injection X as <- <- <- end. f_equal. eapply IH; eassumption.
  - rewrite E in *. match goal with X : Ok _ = Ok _ |- _ => injection X as <- <- <- end. exfalso.
    match goal with X : forall _, counted _ _ _ _ _ -> _ |- _ => eapply X; eassumption end.
  - rewrite E in *. match goal with X : Ok _ = Ok _ |- _ => injection X as <- <- <- end. exfalso.
    match goal with X : forall _, counted _ _ _ _ _ -> _ |- _ => eapply X; eassumption end.
  - rewrite E in *. match goal with X : Ok _ = Ok _ |- _ => injection X as <- <- <- end. eapply IH; eassumption.
Qed.

Lemma run_totals : forall one h ch ch' rs evs, reachable c ch -> sensible c ch h ->
  run c ch h = Ok (ch', rs, evs) ->
  exists n, counting c one ch h ch' n /\
    u64 (sum_at (totals ch') (chosen c one)) = u64 (n + sum_at (totals ch) (chosen c one)).
Proof.
  intro one. induction h as [|[en x] h IH]; intros ch ch' rs evs R Se H; cbn [run] in H.
  - injection H as <- _ _. exists 0. split; [constructor|reflexivity].
  - destruct Se as [S1 S2].
    destruct (step c en ch x) as [[[ch1 r] ev1]|] eqn:E; [|discriminate].
    destruct (run c ch1 h) as [[[ch2 rs2] ev2]|] eqn:E2; [|discriminate]. injection H as <- _ _.
    assert (R1 : reachable c ch1).
    { destruct (reachable_step c load_ok (opts_shards o) ch en x R S1) as (ch3 & r3 & ev3 & E3 & R3 & _).
      rewrite E in E3. injection E3 as <- _ _. exact R3. }
    destruct (IH ch1 ch2 rs2 ev2 R1 (S2 _ _ _ eq_refl) E2) as (n & Cn & Q).
    pose proof (reach_cinv o ch R) as I. fold c in I.
    destruct (step_totals en ch x ch1 r ev1 R S1 E) as [(key & Ct & T)|[Nc T]].
    + assert (L : (route c key < length (totals ch))%nat).
      { unfold totals. rewrite map_length. apply (route_lt c load_ok ch key I). }
      destruct (in_dec Nat.eq_dec (route c key) (chosen c one)) as [Hin|Nin].
      * exists (1 + n). split.
        -- eapply cn_yes; [exact E|exact Ct| |exact Cn]. apply (in_chosen c load_ok ch one key I). exact Hin.
        -- rewrite Q, T, <- u64_add_r, sum_bump_in; [|exact L|apply chosen_nodup|exact Hin].
           rewrite u64_add_r. f_equal. lia.
      * exists n. split.
        -- eapply cn_no; [exact E| |exact Cn]. intros k Ck X. rewrite (counted_one ch x r k key Ck Ct) in X.
           apply Nin. apply (in_chosen c load_ok ch one key I). exact X.
        -- rewrite Q, T, sum_bump_out by assumption. reflexivity.
    + exists n. split; [eapply cn_no; [exact E| |exact Cn]; intros k Ck; elim (Nc k Ck)|]. rewrite Q, T. reflexivity.
Qed.
End V.

(** ** C67 The total is the number of counted calls *)
Theorem C67_total : forall o al ch0 h ch rs evs en one,
  cache_new (ctx_of o) al = Ok (Some ch0) -> sensible (ctx_of o) ch0 h ->
  run (ctx_of o) ch0 h = Ok (ch, rs, evs) ->
  exists n, counting (ctx_of o) one ch0 h ch n /\
    (forall ch' n', counting (ctx_of o) one ch0 h ch' n' -> n' = n) /\
    exists ch', step (ctx_of o) en ch (Total one) = Ok (ch', RNum (u64 n), []).
Proof.
  intros o al ch0 h ch rs evs en one Hn Se Ru. set (c := ctx_of o) in *.
  assert (R0 : reachable c ch0) by (exists al, ch0, [], [], []; repeat split; assumption).
  assert (R : reachable c ch) by (eapply reachable_run; eassumption).
  pose proof (reach_cinv o ch R) as I. fold c in I.
  destruct (run_totals o one h ch0 ch rs evs R0 Se Ru) as (n & Cn & Q). fold c in Cn, Q.
  exists n. split; [exact Cn|]. split; [intros ch' n' C'; eapply counting_unique; eassumption|].
  cbn [step]. unfold cache_sum.
  destruct (sum_totals o (chosen c one) 0 ch) as [ch' E].
  { rewrite (ci_len c ch I). apply (chosen_lt c (opts_load o) one). }
  change (u64 0) with 0 in E. rewrite E, N.add_0_l, Q. exists ch'. do 4 f_equal.
  replace (sum_at (totals ch0) (chosen c one)) with 0; [rewrite N.add_0_r; reflexivity|].
  unfold cache_new in Hn. destruct (new_loop c al _ 0 []) as [[l|]|] eqn:El; try discriminate.
  injection Hn as <-. apply new_loop_ok in El. cbn [app] in El. subst l. unfold totals. cbn [ca_shards].
  rewrite map_rep. change (m_total (s_map (shard_init c))) with 0. generalize (N.to_nat (c_nshards c)). intro k.
  clear. induction (chosen c one) as [|i is IH]; [reflexivity|]. cbn [sum_at fold_right]. fold (sum_at (repeat 0 k) is).
  rewrite nth_repeat. exact IH.
Qed.

(** Every call leaves the total as it is or adds one to it. *)
Theorem C67_grows : forall o ch en x ch' r evs en1 en2 one,
  reachable (ctx_of o) ch -> call_ok (ctx_of o) en (cabs (ctx_of o) ch) x ->
  step (ctx_of o) en ch x = Ok (ch', r, evs) ->
  exists n n' c1 c2, step (ctx_of o) en1 ch (Total one) = Ok (c1, RNum n, []) /\
    step (ctx_of o) en2 ch' (Total one) = Ok (c2, RNum n', []) /\ (n' = n \/ n' = u64 (n + 1)).
Proof.
  intros o ch en x ch' r evs en1 en2 one R K E. set (c := ctx_of o) in *.
  pose proof (reach_cinv o ch R) as I. fold c in I.
  assert (R1 : reachable c ch').
  { destruct (reachable_step c (opts_load o) (opts_shards o) ch en x R K) as (ch3 & r3 & ev3 & E3 & R3 & _).
    rewrite E in E3. injection E3 as <- _ _. exact R3. }
  pose proof (reach_cinv o ch' R1) as I'. fold c in I'.
  destruct (sum_totals o (chosen c one) 0 ch) as [c1 E1].
  { rewrite (ci_len c ch I). apply (chosen_lt c (opts_load o) one). }
  destruct (sum_totals o (chosen c one) 0 ch') as [c2 E2].
  { rewrite (ci_len c ch' I'). apply (chosen_lt c (opts_load o) one). }
  change (u64 0) with 0 in E1, E2. rewrite N.add_0_l in E1, E2.
  eexists _, _, c1, c2. cbn [step]. unfold cache_sum. rewrite E1, E2.
  split; [reflexivity|]. split; [reflexivity|].
  destruct (step_totals o en ch x ch' r evs R K E) as [(key & _ & T)|[_ T]]; rewrite T; [|left; reflexivity].
  assert (L : (route c key < length (totals ch))%nat).
  { unfold totals. rewrite map_length. apply (route_lt c (opts_load o) ch key I). }
  destruct (in_dec Nat.eq_dec (route c key) (chosen c one)) as [Hin|Nin].
  - right. rewrite (sum_bump_in o); [|exact L|apply chosen_nodup|exact Hin]. rewrite u64_add_l. f_equal. lia.
  - left. rewrite (sum_bump_out o) by assumption. reflexivity.
Qed.

(** Histories where the total is what its name says: no store is conditional on
    the item being there, no delete can be called off, no store meets an expired
    item that is still in the cache. *)
Definition straight (c : ctx) (en : env) (ch : cache) (x : call) : Prop :=
  match x with
  | Store key _ o time => so_xx o = false /\ so_casop o = false /\
      (holds c ch key -> live c ch (resolve_now time (en_clock en)) key)
  | Delete _ cb _ => cb = None
  | _ => True
  end.
Fixpoint straight_history (c : ctx) (ch : cache) (h : list (env * call)) : Prop :=
  match h with
  | [] => True
  | (en, x) :: r => straight c en ch x /\
      forall ch' res evs, step c en ch x = Ok (ch', res, evs) -> straight_history c ch' r
  end.
(** The number of answers INSERTED. *)
Definition inserted (r : result) : bool := match r with RStatus INSERTED _ => true | _ => false end.

Lemma step_straight : forall o en ch x ch' r evs, reachable (ctx_of o) ch ->
  call_ok (ctx_of o) en (cabs (ctx_of o) ch) x -> straight (ctx_of o) en ch x ->
  step (ctx_of o) en ch x = Ok (ch', r, evs) ->
  if inserted r then exists key, counted (ctx_of o) ch x r key
  else forall key, ~ counted (ctx_of o) ch x r key.
Proof.
  intros o en ch x ch' r evs R K S E. set (c := ctx_of o) in *.
  pose proof (reach_cinv o ch R) as I. fold c in I.
  destruct (step_refines c (opts_load o) en ch x I K) as (ch1 & r1 & ev1 & E1 & _ & Sp).
  rewrite E in E1. injection E1 as <- <- <-.
  destruct x as [key val so time|key lo time|key cb time|cb one time|cursor time
    |one time|psz time|one df time|one|one|one eo]; cbn [straight] in S.
  - destruct S as (Hx & Hc & Hl).
    assert (Hlv : live_item (cabs c ch) key (resolve_now time (en_clock en)) = None -> ~ holds c ch key).
    { intros L H. apply Hl in H. apply (live_iff c (opts_load o)) in H; [|exact I]. contradiction. }
    inversion Sp; subst.
    match goal with X : sp_store_step _ _ _ _ _ _ _ _ _ _ _ _ _ _ |- _ => rename X into P end.
    cbn [world_of w_map w_cas] in P.
    assert (N : (st = INSERTED /\ live_item (cabs c ch) key (resolve_now time (en_clock en)) = None) \/
      (st <> INSERTED /\ st <> NOTFOUND)).
    { inversion P as [m9 cas9 st9 sh9 Q _|m9 cas9 sh9 vi Q _ _ _ _ _ _|_ _|_]; subst;
        try (right; split; discriminate);
        unfold sp_store in Q; destruct (live_item _ _ _) as [it|]; try rewrite Hx in Q; rewrite Hc in Q; cbn [orb] in Q;
        try (destruct (so_nx so); [|destruct (so_entry so) as [f|]; [destruct (f _)|]]);
        try discriminate Q; injection Q; intros; subst; try (right; split; discriminate);
        left; split; reflexivity. }
    destruct N as [[-> L]|[N1 N2]].
    + exists key. constructor; [exact (Hlv L)|left; reflexivity].
    + assert (Q : inserted (RStatus st shown) = false) by (destruct st; try reflexivity; contradiction).
      rewrite Q. intros k C. inversion C as [? ? ? ? ? ? _ [X|X]|]; subst; contradiction.
  - inversion Sp; subst.
    match goal with X : sp_load _ _ _ _ _ _ _ = _ |- _ => rename X into P end.
    assert (N : inserted (RStatus st shown) = false).
    { unfold sp_load in P. destruct (live_item _ _ _) as [it|]; [|injection P as _ _ <- _; reflexivity].
      destruct (lo_entry lo) as [f|]; [|injection P as _ _ <- _; reflexivity].
      destruct (f _) as [u|]; [|injection P as _ _ <- _; reflexivity].
      destruct (al_entry _); injection P as _ _ <- _; reflexivity. }
    rewrite N. intros k C. inversion C.
  - subst cb. inversion Sp; subst.
    match goal with X : sp_delete _ _ _ _ = _ |- _ => rename X into P end.
    assert (N : st = DELETED \/ st = NOTFOUND).
    { unfold sp_delete in P. destruct (live_item _ _ _) as [it|]; injection P as _ <- _; auto. }
    destruct N as [-> | ->]; cbn [inserted]; intros k C; inversion C.
  - inversion Sp; subst.
    assert (N : inserted (RStatus st shown) = false).
    { match goal with X : sp_iter _ _ _ _ _ _ _ _ _ _ |- _ => rename X into P end.
      pose proof (it_run _ _ _ _ _ _ _ _ _ _ P) as Q. destruct cb as [f|].
      - destruct Q as ([|] & _ & ->); reflexivity.
      - destruct Q as (_ & _ & _ & ->). reflexivity. }
    rewrite N. intros k C. inversion C.
  - inversion Sp; subst; intros k C; inversion C.
  - inversion Sp; subst; intros k C; inversion C.
  - inversion Sp; subst; intros k C; inversion C.
  - inversion Sp; subst; intros k C; inversion C.
  - inversion Sp; subst; intros k C; inversion C.
  - inversion Sp; subst; intros k C; inversion C.
  - inversion Sp; subst; intros k C; inversion C.
Qed.

Theorem C67_straight : forall o al ch0 h ch rs evs en,
  cache_new (ctx_of o) al = Ok (Some ch0) -> sensible (ctx_of o) ch0 h ->
  straight_history (ctx_of o) ch0 h -> run (ctx_of o) ch0 h = Ok (ch, rs, evs) ->
  exists ch', step (ctx_of o) en ch (Total None) =
    Ok (ch', RNum (u64 (N.of_nat (length (filter inserted rs)))), []).
Proof.
  intros o al ch0 h ch rs evs en Hn Se Sh Ru.
  destruct (C67_total o al ch0 h ch rs evs en None Hn Se Ru) as (n & _ & U & ch' & E).
  exists ch'. rewrite E. do 5 f_equal. symmetry. apply (U ch).
  assert (R0 : reachable (ctx_of o) ch0) by (exists al, ch0, [], [], []; repeat split; assumption).
  clear Hn U E ch' n. revert ch0 rs evs R0 Se Sh Ru.
  induction h as [|[en1 x] h IH]; intros ch0 rs evs R0 Se Sh Ru; cbn [run] in Ru.
  - injection Ru as <- <- _. constructor.
  - destruct Se as [S1 S2], Sh as [H1 H2].
    destruct (step (ctx_of o) en1 ch0 x) as [[[ch1 r] ev1]|] eqn:E; [|discriminate].
    destruct (run (ctx_of o) ch1 h) as [[[ch2 rs2] ev2]|] eqn:E2; [|discriminate]. injection Ru as <- <- _.
    assert (R1 : reachable (ctx_of o) ch1).
    { destruct (reachable_step _ (opts_load o) (opts_shards o) ch0 en1 x R0 S1) as (ch3 & r3 & ev3 & E3 & R3 & _).
      rewrite E in E3. injection E3 as <- _ _. exact R3. }
    specialize (IH ch1 rs2 ev2 R1 (S2 _ _ _ eq_refl) (H2 _ _ _ eq_refl) E2).
    pose proof (step_straight o en1 ch0 x ch1 r ev1 R0 S1 H1 E) as Q. cbn [filter].
    destruct (inserted r).
    + destruct Q as [key Ct]. cbn [length].
      replace (N.of_nat (S (length (filter inserted rs2)))) with (1 + N.of_nat (length (filter inserted rs2))) by lia.
      eapply cn_yes; [exact E|exact Ct|exact Logic.I|exact IH].
    + eapply cn_no; [exact E| |exact IH]. intros k C. elim (Q k C).
Qed.

(** *** Cases *)
Definition calls_off : delete_cb := Some (fun _ => false).
Definition total_history : list (env * call) :=
  [ (plenty_env 100, Store [97] [1] plain_store 0);
    (plenty_env 101, Store [98] [2] (ttl_store 500) 0);
    (plenty_env 102, Store [97] [3] plain_store 0);
    (plenty_env 103, Delete [98] None 0);
    (plenty_env 104, Store [98] [4] plain_store 0);
    (plenty_env 105, Load [97] look 0);
    (plenty_env 106, Clear None false 0);
    (plenty_env 107, Store [99] [5] plain_store 0) ].

Lemma total_sensible : sensible wrap_c (one_new false) total_history.
Proof.
  destruct (new_ok wrap_c (opts_load (one_opts false)) (opts_shards (one_opts false)) _ _ (one_is_new false)) as (I & _ & _ & A & _).
  apply (few_sensible wrap_c (opts_load (one_opts false)) total_history (one_new false) []); [assumption| | |].
  - intros k X. destruct (X (A k)).
  - apply (few_short (one_opts false)). cbn. lia.
  - fine_history.
Qed.

(** No item is expired at any call. *)
Fixpoint fresh_run (c : ctx) (ch : cache) (h : list (env * call)) : bool :=
  match h with
  | [] => true
  | (en, x) :: r =>
      match x with
      | Store _ _ _ time => forallb (fun e => entry_alive e (resolve_now time (en_clock en))) (allents (maps ch))
      | _ => true
      end
      && match step c en ch x with Ok (ch', _, _) => fresh_run c ch' r | Bad _ => true end
  end.
Definition unconditional (x : call) : Prop :=
  match x with
  | Store _ _ o _ => so_xx o = false /\ so_casop o = false
  | Delete _ cb _ => cb = None
  | _ => True
  end.
Lemma fresh_run_ok : forall o h ch, reachable (ctx_of o) ch -> sensible (ctx_of o) ch h ->
  Forall (fun p => unconditional (snd p)) h -> fresh_run (ctx_of o) ch h = true -> straight_history (ctx_of o) ch h.
Proof.
  intros o. induction h as [|[en x] h IH]; intros ch R Se F T; [exact Logic.I|].
  inversion F; subst. destruct Se as [S1 S2]. cbn [fresh_run] in T. apply andb_true_iff in T. destruct T as [T1 T2].
  cbn [snd] in *. split.
  - destruct x; cbn [straight unconditional] in *; try exact Logic.I; try assumption.
    match goal with X : _ /\ _ |- _ => destruct X as [U1 U2] end.
    split; [assumption|]. split; [assumption|]. intros; eapply fresh_live; eassumption.
  - intros ch' res evs E. rewrite E in T2. apply IH; [|apply (S2 _ _ _ E)|assumption|assumption].
    destruct (reachable_step _ (opts_load o) (opts_shards o) ch en x R S1) as (ch3 & r3 & ev3 & E3 & R3 & _).
    rewrite E in E3. injection E3 as <- _ _. exact R3.
Qed.

(** Four stores make a new item, one of them after a delete and one after a
    clear; one replaces. The total is 4 although one item is left. *)
Example C67_case : cache_new wrap_c (fun _ => true) = Ok (Some (one_new false)) /\
  sensible wrap_c (one_new false) total_history /\
  straight_history wrap_c (one_new false) total_history /\
  exists ch rs evs ch', run wrap_c (one_new false) total_history = Ok (ch, rs, evs) /\
    length (filter inserted rs) = 4%nat /\
    step wrap_c (plenty_env 110) ch (Total None) = Ok (ch', RNum 4, []) /\
    step wrap_c (plenty_env 110) ch (Count None) = Ok (ch', RNum 1, []).
Proof.
  split; [apply one_is_new|]. split; [exact total_sensible|]. split.
  { apply (fresh_run_ok (one_opts false)).
    - exists (fun _ => true), (one_new false), [], [], []. split; [apply one_is_new|]. split; [exact Logic.I|reflexivity].
    - exact total_sensible.
    - unfold total_history. repeat apply Forall_cons; try apply Forall_nil; try exact Logic.I; try (split; reflexivity); reflexivity.
    - vm_compute. reflexivity. }
  eexists _, _, _, _. split; [vm_compute; reflexivity|]. split; [vm_compute; reflexivity|].
  split; vm_compute; reflexivity.
Qed.

(** Without the restriction the total is not the number of items stored. A store
    that wants the item to be there counts although it stores nothing; a delete
    that is called off counts again; a store over an expired item answers
    INSERTED and does not count. Each history has its number of answers INSERTED
    and the total in the end. *)
Definition odd_totals : list (list (env * call) * nat * N) :=
  [ ([ (plenty_env 100, Store [97] [1] xx_opts 0) ], 0%nat, 1);
    ([ (plenty_env 100, Store [97] [1] (cas_opts 7) 0); (plenty_env 101, Store [97] [1] (cas_opts 7) 0) ], 0%nat, 2);
    ([ (plenty_env 100, Store [97] [1] plain_store 0); (plenty_env 101, Delete [97] calls_off 0) ], 1%nat, 2);
    ([ (plenty_env 100, Store [97] [1] (ttl_store 10) 0); (plenty_env 200, Store [97] [2] plain_store 0) ], 2%nat, 1) ].
Theorem C67_ever_stored_refuted : forall h k n, In (h, k, n) odd_totals ->
  exists ch rs evs ch', run wrap_c (one_new false) h = Ok (ch, rs, evs) /\ reachable wrap_c ch /\
    length (filter inserted rs) = k /\ N.of_nat k <> n /\
    step wrap_c (plenty_env 300) ch (Total None) = Ok (ch', RNum n, []).
Proof.
  intros h k n H. unfold odd_totals in H.
  assert (D : forall ch rs evs, run wrap_c (one_new false) h = Ok (ch, rs, evs) ->
    Forall (fun p => args_fine wrap_c (fst p) (snd p)) h -> (length (stored h) <= 253)%nat -> reachable wrap_c ch).
  { intros ch rs evs R A L. eapply short_reachable; [apply one_is_new|exact A|exact L|exact R]. }
  repeat (destruct H as [H|H]; [injection H as <- <- <-; eexists _, _, _, _; split; [vm_compute; reflexivity|];
    split; [eapply D; [vm_compute; reflexivity|fine_history|cbn; lia]|];
    split; [vm_compute; reflexivity|]; split; [discriminate|vm_compute; reflexivity]|]).
  destruct H.
Qed.
