(** C49: calls on all shards are the calls on each shard in order. *)
From Verif Require Import Base Types Clamp Entry EntryProofs Hash Map MapProofs MapInv Shard
  Spec Trace ShardProofs ScanProofs LoopProofs Cache Refine Reach Observe PropCache Small PropMemory PropScan.
Local Open Scope N_scope.

(** The part of a call on all shards that concerns shard [i]. *)
Definition part (x : call) (i : nat) : option call :=
  match x with
  | Sweep None t => Some (Sweep (Some (Z.of_nat i)) t)
  | Clear None d t => Some (Clear (Some (Z.of_nat i)) d t)
  | Count None => Some (Count (Some (Z.of_nat i)))
  | Total None => Some (Total (Some (Z.of_nat i)))
  | Size None e => Some (Size (Some (Z.of_nat i)) e)
  | _ => None
  end.
Definition sum (l : list N) : N := fold_right N.add 0 l.
(** The results of the parts put together: 64-bit sums. *)
Definition together (x : call) (rs : list result) : result :=
  match x with
  | Sweep _ _ => RSwept (u64 (sum (List.map (fun r => match r with RSwept s _ => s | _ => 0 end) rs)))
                        (u64 (sum (List.map (fun r => match r with RSwept _ k => k | _ => 0 end) rs)))
  | Clear _ _ _ => RVoid
  | _ => RNum (u64 (sum (List.map (fun r => match r with RNum n => n | _ => 0 end) rs)))
  end.

Section E.
Variable c : ctx.

(** Running [g] on the shards in turn, collecting the values. *)
Fixpoint eachv {V} (g : nat -> shard -> out (shard * V * list event)) (is : list nat) (ch : cache)
  : out (cache * list V * list event) :=
  match is with
  | [] => Ok (ch, [], [])
  | i :: r => match on_shard ch i (g i) with
      | Bad t => Bad t
      | Ok (ch1, v, ev1) => match eachv g r ch1 with
          | Bad t => Bad t | Ok (ch2, vs, ev2) => Ok (ch2, v :: vs, ev1 ++ ev2) end
      end
  end.

Lemma each_eachv : forall V A (g : nat -> shard -> out (shard * V * list event)) (add : A -> V -> A)
  (body : nat -> A -> shard -> out (shard * (A * bool) * list event)),
  (forall i a s, body i a s = match g i s with Bad t => Bad t
      | Ok (s', v, evs) => Ok (s', (add a v, false), evs) end) ->
  forall is a ch, each body is a ch = match eachv g is ch with Bad t => Bad t
      | Ok (ch', vs, evs) => Ok (ch', fold_left add vs a, evs) end.
Proof.
  intros V A g add body Hb. induction is as [|i r IH]; intros a ch; cbn [each eachv]; [reflexivity|].
  unfold on_shard. destruct (nth_error (ca_shards ch) i) as [s|]; [|reflexivity]. rewrite Hb.
  destruct (g i _) as [[[s' v] ev1]|]; [|reflexivity]. rewrite IH.
  destruct (eachv g r _) as [[[ch2 vs] ev2]|]; reflexivity.
Qed.

Lemma run_parts : forall V (g : nat -> shard -> out (shard * V * list event)) en x (res : V -> result),
  (forall i ch, (i < N.to_nat (c_nshards c))%nat ->
     exists y, part x i = Some y /\ step c en ch y = match on_shard ch i (g i) with
       Bad t => Bad t | Ok (ch', v, evs) => Ok (ch', res v, evs) end) ->
  forall is ch, (forall i, In i is -> (i < N.to_nat (c_nshards c))%nat) ->
    run c ch (flat_map (fun i => match part x i with Some y => [(en, y)] | None => [] end) is)
    = match eachv g is ch with Bad t => Bad t
      | Ok (ch', vs, evs) => Ok (ch', List.map res vs, evs) end.
Proof.
  intros V g en x res H. induction is as [|i r IH]; intros ch Hi; cbn [flat_map eachv run]; [reflexivity|].
  destruct (H i ch (Hi i (or_introl eq_refl))) as (y & Py & Sy). rewrite Py. cbn [app run]. rewrite Sy.
  destruct (on_shard ch i (g i)) as [[[ch1 v] ev1]|]; [|reflexivity].
  rewrite IH by (intros; apply Hi; right; assumption).
  destruct (eachv g r ch1) as [[[ch2 vs] ev2]|]; reflexivity.
Qed.

Lemma chosen_one : forall i, (i < N.to_nat (c_nshards c))%nat -> chosen c (Some (Z.of_nat i)) = [i].
Proof.
  intros i H. unfold chosen. rewrite Nat2Z.id.
  replace ((Z.of_nat i <? 0) || (Z.of_N (c_nshards c) <=? Z.of_nat i))%Z with false; [reflexivity|].
  symmetry. apply orb_false_iff. lia.
Qed.

Lemma u64_fold : forall l a, fold_left (fun a v => u64 (a + v)) l (u64 a) = u64 (a + sum l).
Proof.
  induction l as [|x l IH]; intro a; cbn [fold_left sum fold_right].
  - rewrite N.add_0_r. reflexivity.
  - replace (u64 (u64 a + x)) with (u64 (a + x)).
    + rewrite IH. fold (sum l). f_equal. lia.
    + unfold u64. rewrite N.add_mod_idemp_l by discriminate. reflexivity.
Qed.

Lemma u64_sum : forall l, u64 (sum (List.map u64 l)) = u64 (sum l).
Proof.
  induction l as [|x l IH]; cbn [List.map sum fold_right]; [reflexivity|].
  fold (sum l) (sum (List.map u64 l)). unfold u64 in *.
  rewrite N.add_mod_idemp_l by discriminate. rewrite <- N.add_mod_idemp_r by discriminate.
  rewrite IH. rewrite N.add_mod_idemp_r by discriminate. reflexivity.
Qed.

Lemma num_parts : forall en ch x f,
  (forall ch, step c en ch x = match cache_sum c f ch None with
      | Bad t => Bad t | Ok (ch', n, evs) => Ok (ch', RNum n, evs) end) ->
  (forall i, exists y, part x i = Some y /\ forall ch, step c en ch y = match cache_sum c f ch (Some (Z.of_nat i)) with
      | Bad t => Bad t | Ok (ch', n, evs) => Ok (ch', RNum n, evs) end) ->
  (forall rs, together x rs = RNum (u64 (sum (List.map (fun r => match r with RNum n => n | _ => 0 end) rs)))) ->
  step c en ch x =
  match run c ch (flat_map (fun i => match part x i with Some y => [(en, y)] | None => [] end)
                    (seq 0 (N.to_nat (c_nshards c)))) with
  | Bad t => Bad t
  | Ok (ch', rs, evs) => Ok (ch', together x rs, evs)
  end.
Proof.
  intros en ch x f H1 H2 H3. rewrite H1. unfold cache_sum. cbn [chosen].
  set (g := fun (i : nat) (s : shard) => @Ok (shard * N * list event) (s, f s, [])).
  rewrite (each_eachv _ _ g (fun a v => u64 (a + v))) by reflexivity.
  rewrite (run_parts _ g en x (fun v => RNum (u64 v))).
  3:{ intros i X; apply in_seq in X; lia. }
  2:{ intros i ch0 Li. destruct (H2 i) as (y & Py & Sy). exists y. split; [assumption|]. rewrite Sy.
      unfold cache_sum. rewrite (chosen_one i Li). cbn [each]. unfold on_shard, add_body at 1, g.
      destruct (nth_error (ca_shards ch0) i); reflexivity. }
  destruct (eachv g _ ch) as [[[ch' vs] evs]|]; [|reflexivity]. rewrite H3.
  change 0 with (u64 0). rewrite u64_fold, N.add_0_l, <- u64_sum, !map_map. reflexivity.
Qed.
End E.

(** ** C49 *)
(** A call on all shards does what the calls on shard 0, 1, 2, ... do one after
    the other, and its result is their sum. *)
Theorem C49_all_shards : forall c en ch x, (forall i, part x i <> None) ->
  step c en ch x =
  match run c ch (flat_map (fun i => match part x i with Some y => [(en, y)] | None => [] end)
                    (seq 0 (N.to_nat (c_nshards c)))) with
  | Bad t => Bad t
  | Ok (ch', rs, evs) => Ok (ch', together x rs, evs)
  end.
Proof.
  intros c en ch x Hx.
  assert (Hi : forall i, In i (seq 0 (N.to_nat (c_nshards c))) -> (i < N.to_nat (c_nshards c))%nat)
    by (intros i X; apply in_seq in X; lia).
  destruct x as [key val o time|key o time|key cb time|cb one time|cursor time
    |one time|psz time|one df time|one|one|one eo]; try (destruct (Hx 0%nat); reflexivity);
    destruct one; try (destruct (Hx 0%nat); reflexivity); cbn [step].
  - unfold cache_sweep. cbn [chosen]. set (now := resolve_now time (en_clock en)).
    set (g := fun i s => match sweepop c (en_mem en i) s now with
       | Bad t => Bad t | Ok (s', v, evs) => Ok (s', v, evs) end).
    rewrite (each_eachv _ _ g (fun a v => (u64 (fst a + fst v), u64 (snd a + snd v)))).
    2:{ intros i a s. unfold sweep_body, g. destruct (sweepop _ _ _ _) as [[[s' [sw kp]] ev]|]; reflexivity. }
    rewrite (run_parts c _ g en (Sweep None time) (fun v => RSwept (u64 (fst v)) (u64 (snd v)))).
    3:{ exact Hi. }
    2:{ intros i ch0 Li. eexists. split; [reflexivity|]. cbn [step]. unfold cache_sweep.
        rewrite (chosen_one c i Li). cbn [each]. unfold on_shard, sweep_body at 1, g. fold now.
        destruct (nth_error (ca_shards ch0) i); [|reflexivity].
        destruct (sweepop _ _ _ _) as [[[s' [sw kp]] ev]|]; [|reflexivity]. rewrite app_nil_r. reflexivity. }
    destruct (eachv g _ ch) as [[[ch' vs] evs]|]; [|reflexivity]. cbn [together].
    assert (F : forall vs a b, fold_left (fun a v : N * N => (u64 (fst a + fst v), u64 (snd a + snd v))) vs (a, b)
      = (fold_left (fun a v => u64 (a + v)) (List.map fst vs) a, fold_left (fun a v => u64 (a + v)) (List.map snd vs) b)).
    { clear. induction vs as [|v vs IH]; intros a b; [reflexivity|]. cbn [fold_left List.map fst snd]. apply IH. }
    rewrite F. change 0 with (u64 0). rewrite !u64_fold, !N.add_0_l. rewrite !map_map.
    rewrite <- (u64_sum (List.map fst vs)), <- (u64_sum (List.map snd vs)), !map_map. reflexivity.
  - unfold cache_clear. cbn [chosen]. set (now := resolve_now time (en_clock en)).
    set (g := fun i s => match clearop c (en_mem en i) s now df with
       | Bad t => Bad t | Ok (s', evs) => Ok (s', tt, evs) end).
    rewrite (each_eachv _ _ g (fun a _ => a)).
    2:{ intros i [] s. unfold clear_body, g. destruct (clearop _ _ _ _ _) as [[s' ev]|]; reflexivity. }
    rewrite (run_parts c _ g en (Clear None df time) (fun _ => RVoid)).
    3:{ exact Hi. }
    2:{ intros i ch0 Li. eexists. split; [reflexivity|]. cbn [step]. unfold cache_clear.
        rewrite (chosen_one c i Li). cbn [each]. unfold on_shard, clear_body at 1, g. fold now.
        destruct (nth_error (ca_shards ch0) i); [|reflexivity].
        destruct (clearop _ _ _ _ _) as [[s' ev]|]; [|reflexivity]. rewrite app_nil_r. reflexivity. }
    destruct (eachv g _ ch) as [[[ch' vs] evs]|]; reflexivity.
  - apply (num_parts c en ch (Count None) countop); [reflexivity| |reflexivity]. intro i. eexists. split; reflexivity.
  - apply (num_parts c en ch (Total None) totalop); [reflexivity| |reflexivity]. intro i. eexists. split; reflexivity.
  - apply (num_parts c en ch (Size None eo) (fun s => sizeop s eo)); [reflexivity| |reflexivity]. intro i. eexists. split; reflexivity.
Qed.

(** Iterating over the shards one by one, the callback being told what it was
    shown before. *)
Fixpoint iter_parts (c : ctx) (en : env) (f : list (bytes * view) -> bytes -> view -> iter_action)
    (time : Z) (is : list nat) (hist : list (bytes * view)) (ch : cache)
  : out (cache * result * list event) :=
  match is with
  | [] => Ok (ch, RStatus FINISHED hist, [])
  | i :: r =>
      match step c en ch (Iter (Some (fun h => f (hist ++ h))) (Some (Z.of_nat i)) time) with
      | Ok (ch1, RStatus FINISHED sh, ev1) =>
          match iter_parts c en f time r (hist ++ sh) ch1 with
          | Ok (ch2, res, ev2) => Ok (ch2, res, ev1 ++ ev2)
          | Bad t => Bad t
          end
      | Ok (ch1, RStatus st sh, ev1) => Ok (ch1, RStatus st (hist ++ sh), ev1)
      | Ok (ch1, res, ev1) => Ok (ch1, res, ev1)
      | Bad t => Bad t
      end
  end.

Section I.
Variable c : ctx.

Lemma scan_sim : forall S1 S2 (R : S1 -> S2 -> Prop) (j1 : S1 -> entry -> S1 * list event * verdict)
  (j2 : S2 -> entry -> S2 * list event * verdict),
  (forall a b e, R a b -> R (fst (fst (j1 a e))) (fst (fst (j2 b e))) /\
     snd (fst (j1 a e)) = snd (fst (j2 b e)) /\ snd (j1 a e) = snd (j2 b e)) ->
  forall fuel a b m i evs, R a b ->
  match scan j1 fuel a m i evs, scan j2 fuel b m i evs with
  | Ok (a', m1, o1, e1), Ok (b', m2, o2, e2) => R a' b' /\ m1 = m2 /\ o1 = o2 /\ e1 = e2
  | Bad x, Bad y => x = y
  | _, _ => False
  end.
Proof.
  intros S1 S2 R j1 j2 Hj. induction fuel as [|f IH]; intros a b m i evs Hr; cbn [scan]; [reflexivity|].
  destruct (m_nb m <=? i)%nat; [auto|].
  destruct (nth i (m_buckets m) None) as [bk|]; [|apply IH; assumption].
  pose proof (Hj a b (b_ent bk) Hr) as (R1 & R2 & R3).
  destruct (j1 a (b_ent bk)) as [[a1 ea] va]. destruct (j2 b (b_ent bk)) as [[b1 eb] vb].
  cbn [fst snd] in *. subst eb vb. destruct (vd_del va).
  - destruct (delbkt m i); [|reflexivity]. destruct (vd_stop va); [auto|apply IH; assumption].
  - destruct (vd_stop va); [auto|apply IH; assumption].
Qed.

Lemma shown_app : forall a b, shown (a ++ b) = shown a ++ shown b.
Proof. intros. unfold shown. apply flat_map_app. Qed.

(** The state of the history callback is what was shown. *)
Lemma scan_hist : forall (f : list (bytes * view) -> bytes -> view -> iter_action) now fuel h m i evs st m' o evs',
  scan (iter_judge c (Some (fun h k v => (h ++ [(k, v)], f h k v))) now) fuel h m i evs = Ok (st, m', o, evs') ->
  forall h0, h = h0 ++ shown evs -> st = h0 ++ shown evs'.
Proof.
  intros f now. induction fuel as [|n IH]; intros h m i evs st m' o evs' E h0 Hh; cbn [scan] in E; [discriminate|].
  destruct (m_nb m <=? i)%nat; [injection E as <- _ _ <-; assumption|].
  destruct (nth i (m_buckets m) None) as [bk|]; [|eapply IH; eassumption].
  unfold iter_judge at 1 in E. destruct (entry_alive (b_ent bk) now); cbn [negb vd_del vd_stop] in E.
  - destruct (f h (ekey c (b_ent bk)) (eview c (b_ent bk))) as [del stop].
    assert (Hs : forall l, shown l = [] -> h ++ [(ekey c (b_ent bk), eview c (b_ent bk))] =
       h0 ++ shown (evs ++ [EvShow (b_ent bk) (ekey c (b_ent bk)) (eview c (b_ent bk))] ++ l)).
    { intros l Hl. rewrite !shown_app, Hl, Hh, <- !app_assoc. reflexivity. }
    destruct del; cbn [vd_del vd_stop] in E.
    + destruct (delbkt m i); [|discriminate]. destruct stop.
      * injection E as <- _ _ <-. apply Hs. reflexivity.
      * eapply IH; [eassumption|]. apply Hs. reflexivity.
    + destruct stop.
      * injection E as <- _ _ <-. rewrite <- (app_nil_r [EvShow _ _ _]). apply Hs. reflexivity.
      * eapply IH; [eassumption|]. rewrite <- (app_nil_r [EvShow _ _ _]). apply Hs. reflexivity.
  - destruct (delbkt m i); [|discriminate]. eapply IH; [eassumption|].
    rewrite !shown_app. cbn. rewrite app_nil_r. assumption.
Qed.

Lemma iterop_hist : forall f mm s now hist,
  match iterop c mm s (Some (fun h k v => (h ++ [(k, v)], f h k v))) hist now,
        iterop c mm s (Some (fun h k v => (h ++ [(k, v)], f (hist ++ h) k v))) [] now with
  | Ok (s1, st1, x1, e1), Ok (s2, st2, x2, e2) => s1 = s2 /\ st1 = hist ++ st2 /\ x1 = x2 /\ e1 = e2 /\ st2 = shown e2
  | Bad x, Bad y => x = y
  | _, _ => False
  end.
Proof.
  intros f mm s now hist. unfold iterop.
  pose proof (scan_sim (list (bytes * view)) (list (bytes * view)) (fun a b => a = hist ++ b)
    (iter_judge c (Some (fun h k v => (h ++ [(k, v)], f h k v))) now)
    (iter_judge c (Some (fun h k v => (h ++ [(k, v)], f (hist ++ h) k v))) now)) as Q.
  specialize (Q ltac:(intros a b e ->; unfold iter_judge; destruct (entry_alive e now); cbn [negb];
    [destruct (f (hist ++ b) (ekey c e) (eview c e)); cbn; rewrite <- app_assoc; auto|cbn; auto])
    (scan_fuel (s_map s)) hist [] (s_map s) 0%nat [] ltac:(symmetry; apply app_nil_r)).
  pose proof (scan_hist (fun h => f (hist ++ h)) now (scan_fuel (s_map s)) [] (s_map s) 0%nat []) as H.
  destruct (scan _ (scan_fuel (s_map s)) hist (s_map s) 0 []) as [[[[a m1] o1] e1]|];
    destruct (scan _ (scan_fuel (s_map s)) [] (s_map s) 0 []) as [[[[b m2] o2] e2]|]; try contradiction; [|assumption].
  destruct Q as (-> & -> & -> & ->). match goal with |- context [match ?x with Some _ => _ | None => _ end] => destruct x end; [|reflexivity].
  split; [reflexivity|]. split; [reflexivity|]. split; [reflexivity|]. split; [reflexivity|].
  apply (H _ _ _ _ eq_refl []). reflexivity.
Qed.
End I.

(** Iterating over all shards is iterating over shard 0, 1, 2, ... in order until
    the callback stops. *)
Theorem C49_iterate : forall c en ch f time,
  step c en ch (Iter (Some f) None time) = iter_parts c en f time (seq 0 (N.to_nat (c_nshards c))) [] ch.
Proof.
  intros c en ch f time. cbn [step]. unfold cache_iter. cbn [chosen].
  assert (Hi : forall i, In i (seq 0 (N.to_nat (c_nshards c))) -> (i < N.to_nat (c_nshards c))%nat)
    by (intros i X; apply in_seq in X; lia).
  set (now := resolve_now time (en_clock en)).
  assert (IB : forall cb nw i (a : list (bytes * view) * status) s, iter_body c en cb nw i a s =
    match iterop c (en_mem en i) s cb (fst a) nw with
    | Bad t => Bad t
    | Ok (s', st', status, evs) =>
        Ok (s', ((st', status), match status with FINISHED => false | _ => true end), evs)
    end) by reflexivity.
  assert (G : forall is hist ch, (forall i, In i is -> (i < N.to_nat (c_nshards c))%nat) ->
    iter_parts c en f time is hist ch =
    match each (iter_body c en (Some (fun h k w => (h ++ [(k, w)], f h k w))) now) is (hist, FINISHED) ch with
    | Bad t => Bad t | Ok (ch', (_, st), evs) => Ok (ch', RStatus st (hist ++ shown evs), evs) end).
  { clear Hi. induction is as [|i r IH]; intros hist ch0 Hi; cbn [iter_parts each].
    - cbn. rewrite app_nil_r. reflexivity.
    - cbn [step]. unfold cache_iter. rewrite (chosen_one c i) by (apply Hi; left; reflexivity). cbn [each].
      unfold on_shard. destruct (nth_error (ca_shards ch0) i) as [s|]; [|reflexivity].
      rewrite !IB. cbn [fst]. fold now.
      pose proof (iterop_hist c f (en_mem en i) (mkShard (s_cas s) (s_map s) (ca_next ch0)) now hist) as Q.
      destruct (iterop c _ _ _ hist now) as [[[[s1 st1] x1] e1]|];
        destruct (iterop c _ _ _ [] now) as [[[[s2 st2] x2] e2]|]; try contradiction; [|subst; reflexivity].
      destruct Q as (-> & -> & -> & -> & ->).
      change (flat_map (fun ev => match ev with EvShow _ k w => [(k, w)] | _ => [] end)) with shown.
      destruct x2; try (rewrite ?app_nil_r; reflexivity).
      rewrite app_nil_r. rewrite IH by (intros; apply Hi; right; assumption).
      destruct (each _ r (hist ++ shown e2, FINISHED) _) as [[[ch2 [st2 x2]] ev2]|]; [|reflexivity].
      rewrite shown_app, app_assoc. reflexivity. }
  rewrite (G _ [] ch Hi).
  destruct (each _ _ ([], FINISHED) ch) as [[[ch2 [st2 x2]] ev2]|]; reflexivity.
Qed.

(** [x] is a call on shard [i] alone: it names a key of that shard or its number. *)
Definition only (c : ctx) (x : call) (i : nat) : Prop :=
  match x with
  | Store key _ _ _ | Load key _ _ | Delete key _ _ => route c key = i
  | Iter _ (Some z) _ | Sweep (Some z) _ | Clear (Some z) _ _
  | Count (Some z) | Total (Some z) | Size (Some z) _ => z = Z.of_nat i
  | _ => False
  end.

(** Such calls leave the other shards as they are. *)
Theorem C49_one_shard : forall c en ch x i ch' r evs,
  only c x i -> step c en ch x = Ok (ch', r, evs) ->
  length (ca_shards ch') = length (ca_shards ch) /\
  forall j, j <> i -> nth_error (ca_shards ch') j = nth_error (ca_shards ch) j.
Proof.
  intros c en ch x i ch' r evs On E.
  assert (OS : forall A (f : shard -> out (shard * A * list event)) ch1 k ch2 a ev,
    on_shard ch1 k f = Ok (ch2, a, ev) -> length (ca_shards ch2) = length (ca_shards ch1) /\
     forall j, j <> k -> nth_error (ca_shards ch2) j = nth_error (ca_shards ch1) j).
  { intros A f ch1 k ch2 a ev X. unfold on_shard in X.
    destruct (nth_error (ca_shards ch1) k) as [s|] eqn:Hs; [|discriminate].
    destruct (f _) as [[[s' a'] ev']|]; [|discriminate]. injection X as <- _ _. cbn [ca_shards].
    split; [apply upd_length|]. intros j Hj. rewrite nth_error_upd by (apply nth_error_Some; congruence).
    apply Nat.eqb_neq in Hj. rewrite Hj. reflexivity. }
  assert (EA : forall A (body : nat -> A -> shard -> out (shard * (A * bool) * list event)) a ch2 a2 ev,
    each body (chosen c (Some (Z.of_nat i))) a ch = Ok (ch2, a2, ev) ->
     length (ca_shards ch2) = length (ca_shards ch) /\
     forall j, j <> i -> nth_error (ca_shards ch2) j = nth_error (ca_shards ch) j).
  { intros A body a ch2 a2 ev X. unfold chosen in X. rewrite Nat2Z.id in X.
    destruct (_ || _)%bool; cbn [each] in X; [injection X as <- _ _; auto|].
    destruct (on_shard ch i (body i a)) as [[[ch3 [a3 stop]] ev3]|] eqn:O; [|discriminate].
    apply OS in O. destruct stop; injection X as <- _ _; exact O. }
  destruct x as [key val o time|key o time|key cb time|cb one time|cursor time
    |one time|psz time|one df time|one|one|one eo]; cbn [only step] in *; try contradiction;
    try (destruct one as [z|]; [subst z|contradiction]).
  - unfold cache_store in E. destruct (on_shard _ _ _) as [[[? ?] ?]|] eqn:O; [|discriminate].
    injection E as <- _ _. subst i. eapply OS; eassumption.
  - unfold cache_load in E. destruct (on_shard _ _ _) as [[[? ?] ?]|] eqn:O; [|discriminate].
    injection E as <- _ _. subst i. eapply OS; eassumption.
  - unfold cache_delete in E. destruct (on_shard _ _ _) as [[[? ?] ?]|] eqn:O; [|discriminate].
    injection E as <- _ _. subst i. eapply OS; eassumption.
  - unfold cache_iter in E. destruct (each _ _ _ _) as [[[? [? ?]] ?]|] eqn:O; [|discriminate].
    injection E as <- _ _. eapply EA; eassumption.
  - unfold cache_sweep in E. destruct (each _ _ _ _) as [[[? [? ?]] ?]|] eqn:O; [|discriminate].
    injection E as <- _ _. eapply EA; eassumption.
  - unfold cache_clear in E. destruct (each _ _ _ _) as [[[? ?] ?]|] eqn:O; [|discriminate].
    injection E as <- _ _. eapply EA; eassumption.
  - unfold cache_sum in E. destruct (each _ _ _ _) as [[[? ?] ?]|] eqn:O; [|discriminate].
    injection E as <- _ _. eapply EA; eassumption.
  - unfold cache_sum in E. destruct (each _ _ _ _) as [[[? ?] ?]|] eqn:O; [|discriminate].
    injection E as <- _ _. eapply EA; eassumption.
  - unfold cache_sum in E. destruct (each _ _ _ _) as [[[? ?] ?]|] eqn:O; [|discriminate].
    injection E as <- _ _. eapply EA; eassumption.
Qed.

(** A shard number that does not exist concerns nothing. *)
Theorem C49_no_such_shard : forall c en ch z,
  (z < 0 \/ Z.of_N (c_nshards c) <= z)%Z ->
  (forall t, step c en ch (Sweep (Some z) t) = Ok (ch, RSwept 0 0, [])) /\
  (forall d t, step c en ch (Clear (Some z) d t) = Ok (ch, RVoid, [])) /\
  (forall f t, step c en ch (Iter f (Some z) t) = Ok (ch, RStatus FINISHED [], [])) /\
  step c en ch (Count (Some z)) = Ok (ch, RNum 0, []).
Proof.
  intros c en ch z H.
  assert (X : chosen c (Some z) = []).
  { unfold chosen. destruct (Z.ltb_spec z 0); cbn [orb]; [reflexivity|].
    destruct (Z.leb_spec (Z.of_N (c_nshards c)) z); [reflexivity|lia]. }
  cbn [step]. unfold cache_sweep, cache_clear, cache_iter, cache_sum. rewrite X. cbn [each].
  repeat split; reflexivity.
Qed.

(** Every key has one shard. *)
Theorem C49_route : forall o key, (N.of_nat (route (ctx_of o) key) < c_nshards (ctx_of o))%N.
Proof.
  intros o key. unfold route, shard_index. rewrite N2Nat.id. apply N.mod_lt.
  pose proof (opts_shards o). lia.
Qed.

(** With two shards holding items: a sweep of all is two sweeps. *)
Example C49_case : exists ch' ch1 ch2 evs n n1 n2,
  (forall i, part (Count None) i <> None) /\
  step demo_c (plenty_env 110) demo_ch (Count None) = Ok (ch', RNum n, evs) /\
  step demo_c (plenty_env 110) demo_ch (Count (Some 0%Z)) = Ok (ch1, RNum n1, evs) /\
  step demo_c (plenty_env 110) demo_ch (Count (Some 1%Z)) = Ok (ch2, RNum n2, evs) /\
  0 < n1 /\ 0 < n2 /\ n = n1 + n2.
Proof.
  eexists _, _, _, _, _, _, _. split; [discriminate|]. split; [vm_compute; reflexivity|].
  split; [vm_compute; reflexivity|]. split; [vm_compute; reflexivity|]. split; [|split]; reflexivity.
Qed.
