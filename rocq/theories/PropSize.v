(** C17: the reported size of the entries. *)
From Coq Require Import Permutation.
From Verif Require Import Base Types Clamp Entry EntryProofs Hash Map MapProofs MapInv Shard
  Spec Trace ShardProofs ScanProofs LoopProofs Cache Refine Reach Observe PropCache PropItems Small
  PropMemory PropScan CursorProofs SizeProofs.
Local Open Scope N_scope.

(** The bytes allocated for an entry: the fixed part and the data behind it. *)
Definition alloc_size (e : entry) : N := SIZEOF_ENTRY + N.of_nat (length (e_data e)).
(** The entries a call about [one] shard, or all, concerns. *)
Definition entries (c : ctx) (ch : cache) (one : option Z) : list entry :=
  flat_map (fun i => match nth_error (ca_shards ch) i with
                     | Some s => List.map snd (items (m_buckets (s_map s)))
                     | None => [] end) (chosen c one).
Definition total_size (es : list entry) : N := fold_right (fun e a => alloc_size e + a) 0 es.

(** The calls after which the reported size is still right: loads that replace
    nothing and meet no expired item, and scans that remove nothing; stores,
    deletes and clears always. *)
Definition tidy (c : ctx) (en : env) (ch : cache) (x : call) : Prop :=
  match x with
  | Load key o time => (forall f w, lo_entry o = Some f -> f w = None) /\
      (holds c ch key -> live c ch (resolve_now time (en_clock en)) key)
  | Iter cb one time => (forall f h k v, cb = Some f -> fst (f h k v) = false) /\
      (forall k, concerns c one k -> holds c ch k -> live c ch (resolve_now time (en_clock en)) k)
  | EntryIter _ time => forall k, holds c ch k -> live c ch (resolve_now time (en_clock en)) k
  | Sweep one time =>
      forall k, concerns c one k -> holds c ch k -> live c ch (resolve_now time (en_clock en)) k
  | _ => True
  end.
Fixpoint tidy_history (c : ctx) (ch : cache) (h : list (env * call)) : Prop :=
  match h with
  | [] => True
  | (en, x) :: r => tidy c en ch x /\
      forall ch' res evs, step c en ch x = Ok (ch', res, evs) -> tidy_history c ch' r
  end.

Definition csized (ch : cache) : Prop := forall s, In s (ca_shards ch) -> sized (s_map s).

Lemma in_upd : forall A (l : list A) i x y, In y (upd l i x) -> y = x \/ In y l.
Proof.
  induction l as [|a l IH]; intros [|i] x y H; cbn in *; auto.
  - destruct H; auto.
  - destruct H as [H|H]; auto. destruct (IH i x y H); auto.
Qed.

Lemma on_shard_sized : forall A (f : shard -> out (shard * A * list event)) ch i ch' a evs,
  on_shard ch i f = Ok (ch', a, evs) ->
  (forall s0 s s' a evs, nth_error (ca_shards ch) i = Some s0 -> s = placed (ca_next ch) s0 ->
     f s = Ok (s', a, evs) -> sized (s_map s) -> sized (s_map s')) ->
  csized ch -> csized ch'.
Proof.
  intros A f ch i ch' a evs H F S. unfold on_shard in H.
  destruct (nth_error (ca_shards ch) i) as [s|] eqn:Hs; [|discriminate].
  destruct (f _) as [[[s' a'] ev]|] eqn:E; [|discriminate]. injection H as <- _ _.
  intros y Hy. cbn [ca_shards] in Hy. apply in_upd in Hy. destruct Hy as [->|Hy]; [|apply S; assumption].
  eapply F; [reflexivity|reflexivity|exact E|]. cbn. apply S. apply nth_error_In with (1 := Hs).
Qed.

Lemma each_sized : forall A (body : nat -> A -> shard -> out (shard * (A * bool) * list event)) is a ch ch' a' evs,
  NoDup is -> each body is a ch = Ok (ch', a', evs) ->
  (forall i s0 a s s' r evs, In i is -> nth_error (ca_shards ch) i = Some s0 -> s_map s = s_map s0 ->
     body i a s = Ok (s', r, evs) -> sized (s_map s) -> sized (s_map s')) ->
  csized ch -> csized ch'.
Proof.
  intros A body. induction is as [|i is IH]; intros a ch ch' a' evs Nd H F S; cbn [each] in H.
  { injection H as <- _ _. assumption. }
  inversion Nd; subst. destruct (on_shard ch i (body i a)) as [[[ch1 [a1 stop]] ev1]|] eqn:E; [|discriminate].
  assert (S1 : csized ch1).
  { apply (on_shard_sized _ _ _ _ _ _ _ E); [|assumption]. intros s0 s s' a0 ev Hs -> B Z.
    eapply F; [left; reflexivity|exact Hs| |exact B|exact Z]. reflexivity. }
  destruct stop; [injection H as <- _ _; assumption|].
  destruct (each body is a1 ch1) as [[[ch2 a2] ev2]|] eqn:E2; [|discriminate]. injection H as <- _ _.
  eapply IH; [assumption|exact E2| |exact S1].
  intros j s0 a0 s s' r ev Hj Hs. apply F; [right; assumption|].
  unfold on_shard in E. destruct (nth_error (ca_shards ch) i) as [si|] eqn:Hi; [|discriminate].
  destruct (body i a _) as [[[si' [a9 st9]] ev9]|]; [|discriminate]. injection E as <- _ _ _. cbn [ca_shards] in Hs.
  rewrite nth_error_upd in Hs by (apply nth_error_Some; congruence).
  destruct (Nat.eqb_spec j i) as [->|]; [contradiction|assumption].
Qed.

Section V.
Variable o : opts.
Let c := ctx_of o.
Let load_ok : 55 <= c_load c <= 95 := opts_load o.

Lemma sent_live : forall ch i s e now, cinv c ch -> nth_error (ca_shards ch) i = Some s -> In e (sents s) ->
  (holds c ch (ekey c e) -> live c ch now (ekey c e)) -> entry_alive e now = true.
Proof.
  intros ch i s e now I Hs He H.
  destruct (sent_item c ch i s e I Hs He) as [Q _].
  assert (L : live c ch now (ekey c e)) by (apply H; apply (holds_iff c load_ok); [assumption|congruence]).
  apply (live_iff c load_ok) in L; [|assumption].
  pose proof (live_item_some c (placed (ca_next ch) s) e now (ci_shard c ch I _ _ Hs) He) as X.
  unfold live_item in L. rewrite Q in L. rewrite (item_alive c) in L.
  - destruct (entry_alive e now); [reflexivity|congruence].
  - eapply ents_wf; [apply (ci_shard c ch I _ _ Hs)|exact He].
Qed.

Lemma entry_loop_sized : forall now fuel ch idx iter evs ch' r ev,
  (forall s e, In s (ca_shards ch) -> In e (sents s) -> entry_alive e now = true) ->
  entry_iter_loop c fuel ch now idx iter evs = Ok (ch', r, ev) -> csized ch -> csized ch'.
Proof.
  intros now. induction fuel as [|f IH]; intros ch idx iter evs ch' r ev Al H S; [discriminate|].
  cbn [entry_iter_loop] in H.
  destruct (on_shard ch idx _) as [[[ch1 [r1 j]] ev1]|] eqn:E; [|discriminate].
  assert (S1 : csized ch1).
  { apply (on_shard_sized _ _ _ _ _ _ _ E); [|assumption]. intros s0 s s' a0 ev0 Hs -> B Z.
    destruct (entryiter _ now iter) as [[[[s2 r2] j2] ev2]|] eqn:Y; [|discriminate].
    injection B as <- _ _. eapply entryiter_sized; [|exact Y|exact Z].
    intros e He. apply (Al s0 e); [apply nth_error_In with (1 := Hs)|exact He]. }
  assert (A1 : forall s e, In s (ca_shards ch1) -> In e (sents s) -> entry_alive e now = true).
  { unfold on_shard in E. destruct (nth_error (ca_shards ch) idx) as [s0|] eqn:Hs; [|discriminate].
    destruct (entryiter _ now iter) as [[[[s2 r2] j2] ev2]|] eqn:Y; [|discriminate].
    injection E as <- _ _ _. cbn [ca_shards]. intros s e Hin He. apply in_upd in Hin.
    destruct Hin as [->|Hin]; [|apply (Al s e Hin He)].
    apply (Al s0 e); [apply nth_error_In with (1 := Hs)|].
    unfold entryiter in Y. cbn [s_map] in Y. destruct (m_count (s_map s0) =? 0)%nat; [injection Y as <- _ _ _; exact He|].
    destruct (Shard.scan _ _ _ _ _ _) as [[[[st1 m] stopped] ev9]|] eqn:Sc; [|discriminate].
    apply scan_still in Sc.
    - cbn in Sc. subst m. destruct stopped; injection Y as <- _ _ _; exact He.
    - intros st0 x Hx. unfold entryiter_judge. rewrite (Al s0 x); [reflexivity| |exact Hx].
      apply nth_error_In with (1 := Hs). }
  destruct r1 as [e|]; [injection H as <- _ _; assumption|].
  destruct (N.of_nat (idx + 1) =? c_nshards c); [injection H as <- _ _; assumption|].
  eapply IH; eassumption.
Qed.

Lemma sum_sized : forall f one ch ch' n evs, cache_sum c f ch one = Ok (ch', n, evs) -> csized ch -> csized ch'.
Proof.
  intros f one ch ch' n evs E S. unfold cache_sum in E.
  eapply (each_sized _ _ _ _ _ _ _ _ (chosen_nodup c one) E); [|assumption].
  intros i s0 a s s' r0 ev0 Hi Hs Q B Z. unfold add_body in B. injection B as <- _ _. exact Z.
Qed.

Lemma step_sized : forall en ch x ch' r evs, reachable c ch -> call_ok c en (cabs c ch) x ->
  tidy c en ch x -> step c en ch x = Ok (ch', r, evs) -> csized ch -> csized ch'.
Proof.
  intros en ch x ch' r evs R K T H S. pose proof (reach_cinv o ch R) as I. fold c in I.
  destruct x as [key val so time|key lo time|key cb time|cb one time|cursor time
    |one time|psz time|one df time|one|one|one eo]; cbn [step call_ok tidy] in *.
  - destruct (cache_store _ _ _ _ _ _ _) as [[[ch1 st] ev]|] eqn:E; [|discriminate]. injection H as <- _ _.
    destruct K as (K1 & K2 & K3).
    apply (on_shard_sized _ _ _ _ _ _ _ E); [|assumption]. intros s0 s s' a0 ev0 Hs -> B Z.
    eapply (storeop_sized c load_ok); [apply (ci_shard c ch I _ _ Hs)|exact K1| |exact B|exact Z].
    apply (roomy_crowd c ch key s0 I K3 Hs).
  - destruct (cache_load _ _ _ _ _ _) as [[[ch1 st] ev]|] eqn:E; [|discriminate]. injection H as <- _ _.
    destruct T as [T1 T2].
    apply (on_shard_sized _ _ _ _ _ _ _ E); [|assumption]. intros s0 s s' a0 ev0 Hs -> B Z.
    eapply (loadop_sized c load_ok); [apply (ci_shard c ch I _ _ Hs)|exact T1| |exact B|exact Z].
    intros e He Ke. subst key. apply (sent_live ch _ s0 e _ I Hs He T2).
  - destruct (cache_delete _ _ _ _ _ _) as [[[ch1 st] ev]|] eqn:E; [|discriminate]. injection H as <- _ _.
    apply (on_shard_sized _ _ _ _ _ _ _ E); [|assumption]. intros s0 s s' a0 ev0 Hs -> B Z.
    eapply (deleteop_sized c load_ok); [apply (ci_shard c ch I _ _ Hs)|exact B|exact Z].
  - destruct (cache_iter _ _ _ _ _ _ _) as [[[ch1 [st1 st]] ev]|] eqn:E; [|discriminate]. injection H as <- _ _.
    destruct T as [T1 T2]. unfold cache_iter in E.
    eapply (each_sized _ _ _ _ _ _ _ _ (chosen_nodup c one) E); [|assumption].
    intros i s0 a s s' r0 ev0 Hi Hs Q B Z. unfold iter_body in B.
    destruct (iterop _ _ _ _ _ _) as [[[[s2 st2] sx] ev2]|] eqn:Y; [|discriminate]. injection B as <- _ _.
    pose proof (ci_shard c ch I _ _ Hs) as Is.
    eapply (iterop_sized c load_ok); [|intros e He| |exact Y|exact Z].
    + rewrite Q. apply (si_map c _ Is).
    + unfold sents in He. rewrite Q in He. apply (sent_live ch i s0 e _ I Hs He). apply T2.
      apply (in_chosen c load_ok ch one (ekey c e) I). destruct (sent_item c ch i s0 e I Hs He) as [_ Hr].
      rewrite Hr. exact Hi.
    + intros f h k v Hf. destruct cb as [g|]; [|discriminate]. injection Hf as <-. cbn [snd].
      apply (T1 g h k v eq_refl).
  - destruct (cache_entry_iter _ _ _ _ _) as [[[ch1 [r1 j]] ev]|] eqn:E; [|discriminate]. injection H as <- _ _.
    unfold cache_entry_iter in E. cbv zeta in E.
    destruct ((2 ^ 31 <=? _) || _); [injection E as <- _ _ _; assumption|].
    destruct (2 ^ 31 <=? _); [injection E as <- _ _ _; assumption|].
    eapply entry_loop_sized; [|exact E|assumption].
    intros s e Hin He. apply In_nth_error in Hin. destruct Hin as [i Hs].
    apply (sent_live ch i s e _ I Hs He). apply T.
  - destruct (cache_sweep _ _ _ _ _) as [[[ch1 [sw kp]] ev]|] eqn:E; [|discriminate]. injection H as <- _ _.
    unfold cache_sweep in E.
    eapply (each_sized _ _ _ _ _ _ _ _ (chosen_nodup c one) E); [|assumption].
    intros i s0 a s s' r0 ev0 Hi Hs Q B Z. unfold sweep_body in B.
    destruct (sweepop _ _ _ _) as [[[s2 [x1 x2]] ev2]|] eqn:Y; [|discriminate]. injection B as <- _ _.
    eapply (sweepop_sized c load_ok); [|intros e He|exact Y|exact Z].
    + rewrite Q. apply (si_map c _ (ci_shard c ch I _ _ Hs)).
    + unfold sents in He. rewrite Q in He. apply (sent_live ch i s0 e _ I Hs He). apply T.
      apply (in_chosen c load_ok ch one (ekey c e) I). destruct (sent_item c ch i s0 e I Hs He) as [_ Hr].
      rewrite Hr. exact Hi.
  - destruct (cache_sweep_poll _ _ _ _ _) as [[[ch1 [d n]] ev]|] eqn:E; [|discriminate]. injection H as <- _ _.
    apply (on_shard_sized _ _ _ _ _ _ _ E); [|assumption]. intros s0 s s' a0 ev0 Hs -> B Z.
    injection B as <- _ _. exact Z.
  - destruct (cache_clear _ _ _ _ _ _) as [[[ch1 u] ev]|] eqn:E; [|discriminate]. injection H as <- _ _.
    unfold cache_clear in E.
    eapply (each_sized _ _ _ _ _ _ _ _ (chosen_nodup c one) E); [|assumption].
    intros i s0 a s s' r0 ev0 Hi Hs Q B Z. unfold clear_body in B.
    destruct (clearop _ _ _ _ _) as [[s2 ev2]|] eqn:Y; [|discriminate]. injection B as <- _ _.
    eapply (clearop_sized c); exact Y.
  - destruct (cache_sum _ _ _ _) as [[[ch1 n] ev]|] eqn:E; [|discriminate]. injection H as <- _ _.
    eapply sum_sized; eassumption.
  - destruct (cache_sum _ _ _ _) as [[[ch1 n] ev]|] eqn:E; [|discriminate]. injection H as <- _ _.
    eapply sum_sized; eassumption.
  - destruct (cache_sum _ _ _ _) as [[[ch1 n] ev]|] eqn:E; [|discriminate]. injection H as <- _ _.
    eapply sum_sized; eassumption.
Qed.

Lemma run_sized : forall h ch ch' rs evs, reachable c ch -> sensible c ch h -> tidy_history c ch h ->
  run c ch h = Ok (ch', rs, evs) -> csized ch -> csized ch'.
Proof.
  induction h as [|[en x] h IH]; intros ch ch' rs evs R Se Ti H S; cbn [run] in H.
  - injection H as <- _ _. assumption.
  - destruct Se as [S1 S2], Ti as [T1 T2].
    destruct (step c en ch x) as [[[ch1 r] ev1]|] eqn:E; [|discriminate].
    destruct (run c ch1 h) as [[[ch2 rs2] ev2]|] eqn:E2; [|discriminate]. injection H as <- _ _.
    eapply IH; [|apply (S2 _ _ _ eq_refl)|apply (T2 _ _ _ eq_refl)|exact E2|eapply step_sized; eassumption].
    destruct (reachable_step c load_ok (opts_shards o) ch en x R S1) as (ch3 & r3 & ev3 & E3 & R3 & _).
    rewrite E in E3. injection E3 as <- _ _. exact R3.
Qed.
End V.

Lemma u64_add_l : forall a b, u64 (u64 a + b) = u64 (a + b).
Proof. intros. unfold u64. apply N.add_mod_idemp_l. discriminate. Qed.
Lemma u64_add_r : forall a b, u64 (a + u64 b) = u64 (a + b).
Proof. intros. unfold u64. apply N.add_mod_idemp_r. discriminate. Qed.

Definition ensum (ms : list (map entry)) (is : list nat) : N :=
  fold_right (fun i a => match nth_error ms i with Some m => m_entsize m | None => 0 end + a) 0 is.

Lemma sum_ensum : forall is acc ch, Forall (fun i => (i < length (ca_shards ch))%nat) is ->
  exists ch', each (add_body (fun s => sizeop s true)) is (u64 acc) ch =
    Ok (ch', u64 (acc + ensum (List.map s_map (ca_shards ch)) is), []).
Proof.
  induction is as [|i is IH]; intros acc ch F.
  - exists ch. cbn. rewrite N.add_0_r. reflexivity.
  - inversion F; subst. cbn [each]. unfold on_shard.
    destruct (nth_error (ca_shards ch) i) as [s|] eqn:Hs; [|apply nth_error_None in Hs; lia].
    unfold add_body at 1.
    assert (Q : List.map s_map (upd (ca_shards ch) i (mkShard (s_cas s) (s_map s) (ca_next ch))) =
                List.map s_map (ca_shards ch)).
    { clear - Hs. revert i Hs. induction (ca_shards ch) as [|x l IHl]; intros [|i] Hs; cbn in *; try discriminate.
      - injection Hs as ->. reflexivity.
      - f_equal. apply IHl. assumption. }
    rewrite u64_add_l. destruct (IH (acc + sizeop (mkShard (s_cas s) (s_map s) (ca_next ch)) true)
      (mkCache (ca_next ch) (upd (ca_shards ch) i (mkShard (s_cas s) (s_map s) (ca_next ch))))) as [ch' E].
    { cbn [ca_shards]. rewrite upd_length. assumption. }
    cbn [s_next]. rewrite E. exists ch'. cbn [ca_shards app]. rewrite Q. do 3 f_equal.
    cbn [ensum fold_right]. fold (ensum (List.map s_map (ca_shards ch)) is).
    rewrite nth_error_map, Hs. cbn [option_map]. unfold sizeop. cbn [s_map]. rewrite N.add_0_l.
    rewrite <- !N.add_assoc. rewrite <- (u64_add_r acc (u64 _ + _)), u64_add_l, u64_add_r. reflexivity.
Qed.

Lemma total_app : forall a b, total_size (a ++ b) = total_size a + total_size b.
Proof. induction a as [|e a IH]; intro b; cbn [app total_size fold_right]; [reflexivity|].
  fold (total_size (a ++ b)). fold (total_size a). rewrite IH. lia. Qed.

(** ** C17 The reported size of the entries is the sum of their allocations *)
Theorem C17_size : forall o al ch0 h ch rs evs en one,
  cache_new (ctx_of o) al = Ok (Some ch0) -> sensible (ctx_of o) ch0 h -> tidy_history (ctx_of o) ch0 h ->
  run (ctx_of o) ch0 h = Ok (ch, rs, evs) ->
  (exists ch', step (ctx_of o) en ch (Size one true) =
     Ok (ch', RNum (u64 (total_size (entries (ctx_of o) ch one))), [])) /\
  NoDup (List.map (ekey (ctx_of o)) (entries (ctx_of o) ch one)) /\
  forall k, In k (List.map (ekey (ctx_of o)) (entries (ctx_of o) ch one)) <->
    concerns (ctx_of o) one k /\ holds (ctx_of o) ch k.
Proof.
  intros o al ch0 h ch rs evs en one Hn Se Ti Ru. set (c := ctx_of o) in *.
  assert (R0 : reachable c ch0) by (exists al, ch0, [], [], []; repeat split; assumption).
  assert (R : reachable c ch) by (eapply reachable_run; eassumption).
  pose proof (reach_cinv o ch R) as I. fold c in I.
  assert (S0 : csized ch0).
  { unfold cache_new in Hn. destruct (new_loop c al _ 0 []) as [[l|]|] eqn:E; try discriminate.
    injection Hn as <-. apply new_loop_ok in E. cbn [app] in E. subst l. intros s Hs. cbn [ca_shards] in Hs.
    apply repeat_spec in Hs. subst s. unfold sized, shard_init. cbn [s_map].
    replace (ents _) with (@nil entry); [reflexivity|]. symmetry. apply (init_ents (c_load c)). }
  pose proof (run_sized o h ch0 ch rs evs R0 Se Ti Ru S0) as Sz.
  split; [|split].
  - cbn [step]. unfold cache_sum.
    destruct (sum_ensum (chosen c one) 0 ch) as [ch' E].
    { rewrite (ci_len c ch I). apply (chosen_lt c (opts_load o) one). }
    change (u64 0) with 0 in E. rewrite E, N.add_0_l. exists ch'. do 4 f_equal.
    unfold entries. clear - Sz I. induction (chosen c one) as [|i is IH]; [reflexivity|].
    cbn [ensum fold_right flat_map]. fold (ensum (List.map s_map (ca_shards ch)) is).
    rewrite total_app, nth_error_map, <- u64_add_r, IH, u64_add_r.
    destruct (nth_error (ca_shards ch) i) as [s|] eqn:Hs; cbn [option_map]; [|reflexivity].
    rewrite (Sz s (nth_error_In _ _ Hs)), u64_add_l. do 2 f_equal.
    change (List.map snd (items (m_buckets (s_map s)))) with (ents (s_map s)).
    assert (W : forall e, In e (ents (s_map s)) -> entry_memsize e = alloc_size e).
    { intros e He. destruct (wf_memsize c e) as [Q _];
        [eapply ents_wf; [apply (si_map c _ (ci_shard c ch I _ _ Hs))|exact He]|].
      rewrite Q. unfold alloc_size. lia. }
    clear - W. induction (ents (s_map s)) as [|e es IH]; [reflexivity|].
    cbn [esum total_size fold_right]. fold (esum es). fold (total_size es).
    rewrite (W e) by (left; reflexivity). rewrite IH; [reflexivity|]. intros; apply W; right; assumption.
  - unfold entries. pose proof (chosen_nodup c one) as Nd. induction (chosen c one) as [|i is IH]; [constructor|].
    inversion Nd; subst. cbn [flat_map]. rewrite map_app.
    assert (H9 : forall j s e, nth_error (ca_shards ch) j = Some s -> In e (sents s) -> route c (ekey c e) = j).
    { intros j s e Hs He. apply (sent_item c ch j s e I Hs He). }
    apply NoDup_app_intro.
    + destruct (nth_error (ca_shards ch) i) as [s|] eqn:Hs; [|constructor].
      apply (nodup_keys c _ (ci_shard c ch I _ _ Hs)).
    + apply IH. assumption.
    + intros k Hk Hk2. apply in_map_iff in Hk. destruct Hk as (e & <- & He).
      destruct (nth_error (ca_shards ch) i) as [s|] eqn:Hs; [|destruct He].
      apply (H9 _ _ _ Hs) in He. apply in_map_iff in Hk2. destruct Hk2 as (e2 & Q2 & He2).
      apply in_flat_map in He2. destruct He2 as (j & Hj & He2).
      destruct (nth_error (ca_shards ch) j) as [s2|] eqn:Hs2; [|destruct He2].
      apply (H9 _ _ _ Hs2) in He2. rewrite Q2, He in He2. congruence.
  - intro k. rewrite (holds_iff c (opts_load o)) by assumption.
    change (concerns c one k) with (sel (route c) one k). rewrite <- (in_chosen c (opts_load o) ch one k I).
    unfold entries. split.
    + intro Hk. apply in_map_iff in Hk. destruct Hk as (e & <- & He).
      apply in_flat_map in He. destruct He as (j & Hj & He).
      destruct (nth_error (ca_shards ch) j) as [s|] eqn:Hs; [|destruct He].
      destruct (sent_item c ch j s e I Hs He) as [Q ->]. split; [assumption|congruence].
    + intros [Hr Hk]. destruct (cabs c ch k) as [it|] eqn:Q; [|contradiction].
      destruct (item_sent c ch k it I Q) as (s & e & Hs & He & <- & _).
      apply in_map_iff. exists e. split; [reflexivity|]. apply in_flat_map.
      eexists. split; [exact Hr|]. rewrite Hs. exact He.
Qed.

(** *** Cases *)
Fixpoint tidy_run (c : ctx) (ch : cache) (h : list (env * call)) : bool :=
  match h with
  | [] => true
  | (en, x) :: r =>
      let fresh time := forallb (fun e => entry_alive e (resolve_now time (en_clock en))) (allents (maps ch)) in
      match x with Load _ _ time | Iter _ _ time | EntryIter _ time | Sweep _ time => fresh time | _ => true end
      && match step c en ch x with Ok (ch', _, _) => tidy_run c ch' r | Bad _ => true end
  end.
Definition plain_callbacks (x : call) : Prop :=
  match x with
  | Load _ o _ => forall f w, lo_entry o = Some f -> f w = None
  | Iter cb _ _ => forall f h k v, cb = Some f -> fst (f h k v) = false
  | _ => True
  end.
Lemma fresh_live : forall o ch now, reachable (ctx_of o) ch ->
  forallb (fun e => entry_alive e now) (allents (maps ch)) = true ->
  forall k, holds (ctx_of o) ch k -> live (ctx_of o) ch now k.
Proof.
  intros o ch now R Z k H. pose proof (reach_cinv o ch R) as I.
  apply (holds_iff _ (opts_load o)) in H; [|exact I].
  destruct (cabs (ctx_of o) ch k) as [it|] eqn:Q; [|contradiction].
  destruct (item_sent (ctx_of o) ch k it I Q) as (s & e & Hs & He & <- & _).
  apply (live_iff _ (opts_load o)); [exact I|].
  assert (Ha : In e (allents (maps ch))).
  { unfold allents, maps. apply in_flat_map. exists (s_map s). split; [apply in_map; apply nth_error_In with (1 := Hs)|exact He]. }
  rewrite (allents_live _ ch e now I Ha). rewrite forallb_forall in Z. rewrite (Z e Ha). discriminate.
Qed.
Lemma tidy_run_ok : forall o h ch, reachable (ctx_of o) ch -> sensible (ctx_of o) ch h ->
  Forall (fun p => plain_callbacks (snd p)) h -> tidy_run (ctx_of o) ch h = true -> tidy_history (ctx_of o) ch h.
Proof.
  intros o. induction h as [|[en x] h IH]; intros ch R Se F T; [exact Logic.I|].
  inversion F; subst. destruct Se as [S1 S2]. cbn [tidy_run] in T. apply andb_true_iff in T. destruct T as [T1 T2].
  cbn [snd] in *. split.
  - destruct x; cbn [tidy plain_callbacks] in *; try exact Logic.I;
      try (split; [assumption|]); intros; eapply fresh_live; eassumption.
  - intros ch' res evs E. rewrite E in T2. apply IH; [|apply (S2 _ _ _ E)|assumption|assumption].
    destruct (reachable_step _ (opts_load o) (opts_shards o) ch en x R S1) as (ch3 & r3 & ev3 & E3 & R3 & _).
    rewrite E in E3. injection E3 as <- _ _. exact R3.
Qed.

Example C17_case : cache_new demo_c (fun _ => true) = Ok (Some demo_new) /\
  sensible demo_c demo_new demo_history /\ tidy_history demo_c demo_new demo_history /\
  total_size (entries demo_c demo_ch None) = 69.
Proof.
  split; [exact demo_is_new|]. split; [exact demo_sensible|]. split; [|vm_compute; reflexivity].
  apply (tidy_run_ok demo_opts).
  - exists (fun _ => true), demo_new, [], [], []. split; [exact demo_is_new|]. split; [exact Logic.I|reflexivity].
  - exact demo_sensible.
  - unfold demo_history. repeat apply Forall_cons; try apply Forall_nil; try exact Logic.I.
    intros f w H. cbn in H. injection H as <-. reflexivity.
  - vm_compute. reflexivity.
Qed.

(** Without the restriction the size is wrong: each of these histories leaves an
    empty cache whose reported size is not 0. A load that meets an expired item,
    a sweep, and an iteration that deletes, remove without subtracting; a load
    that replaces the item with a bigger one does not add, so that the delete
    after it subtracts too much. *)
Definition adds_expiry : load_opts := mkLoadOpts false (Some (fun w => Some (mkUpdate (v_val w) (v_flags w) 500))).
Definition drift_histories : list (list (env * call) * N) :=
  [ ([ (plenty_env 100, Store [97; 97] [1] (ttl_store 10) 0);
       (plenty_env 200, Load [97; 97] look 0) ], 41);
    ([ (plenty_env 100, Store [97; 97] [1] (ttl_store 10) 0);
       (plenty_env 200, Sweep None 0) ], 41);
    ([ (plenty_env 100, Store [97; 97] [1] (ttl_store 10) 0);
       (plenty_env 105, Iter (Some (fun _ _ _ => (true, false))) None 0) ], 41);
    ([ (plenty_env 100, Store [97; 97] [1] plain_store 0);
       (plenty_env 105, Load [97; 97] adds_expiry 0);
       (plenty_env 110, Delete [97; 97] None 0) ], 2 ^ 64 - 8) ].
Lemma nothing_held : forall o ch, reachable (ctx_of o) ch -> allents (maps ch) = [] ->
  forall k, ~ holds (ctx_of o) ch k.
Proof.
  intros o ch R E k H. pose proof (reach_cinv o ch R) as I. apply (holds_iff _ (opts_load o)) in H; [|exact I].
  destruct (cabs (ctx_of o) ch k) as [it|] eqn:Q; [|contradiction].
  destruct (item_sent (ctx_of o) ch k it I Q) as (s & e & Hs & He & _).
  assert (Ha : In e (allents (maps ch))).
  { unfold allents, maps. apply in_flat_map. exists (s_map s). split; [apply in_map; apply nth_error_In with (1 := Hs)|exact He]. }
  rewrite E in Ha. destruct Ha.
Qed.
Theorem C17_drift_refuted : forall h n, In (h, n) drift_histories -> exists ch rs evs ch',
  run wrap_c (one_new false) h = Ok (ch, rs, evs) /\ reachable wrap_c ch /\
  (forall k, ~ holds wrap_c ch k) /\ step wrap_c (plenty_env 300) ch (Size None true) = Ok (ch', RNum n, []).
Proof.
  intros h n H. unfold drift_histories in H.
  assert (D : forall ch rs evs, run wrap_c (one_new false) h = Ok (ch, rs, evs) ->
    Forall (fun p => args_fine wrap_c (fst p) (snd p)) h -> (length (stored h) <= 253)%nat ->
    allents (maps ch) = [] -> reachable wrap_c ch /\ (forall k, ~ holds wrap_c ch k)).
  { intros ch rs evs R A L E. assert (Rc : reachable wrap_c ch) by (eapply short_reachable; [apply one_is_new|exact A|exact L|exact R]).
    split; [exact Rc|]. exact (nothing_held (one_opts false) ch Rc E). }
  repeat (destruct H as [H|H]; [injection H as <- <-; eexists _, _, _, _; split; [vm_compute; reflexivity|];
    rewrite <- and_assoc; split; [eapply D; [vm_compute; reflexivity|fine_history; try (intros g w u H1 [] H2; cbn in H1; injection H1 as <-; cbn in H2; injection H2 as <-; constructor; cbn; (assumption || discriminate || reflexivity))|cbn; lia|reflexivity]|vm_compute; reflexivity]|]).
  destruct H.
Qed.
