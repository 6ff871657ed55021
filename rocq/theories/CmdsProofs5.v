(** Facts for the properties of SCAN. *)
From Verif Require Import Base Types Clamp Entry EntryProofs Hash Map MapProofs MapInv Shard
  Spec Trace ShardProofs ScanProofs LoopProofs Cache Refine Reach Observe PropCache PropItems CursorProofs PropCursor
  Text IntText IntTextProofs Glob GlobProofs CmdTable CmdTableProofs PropText Prog CmdSpec CmdSpec2 CmdSpec3 Cmds
  CmdsProofs CmdsProofs2 CmdsProofs3 PropCmds PropCmds2.
From Coq Require Import String Permutation.
Local Open Scope N_scope.
Notation length := List.length.

(** *** A returned cursor is not 0 *)
Lemma scan_stop_pos : forall now fuel m i evs r m' j ev,
  Shard.scan (entryiter_judge now) fuel None m i evs = Ok (Some r, m', Some j, ev) -> (1 <= j)%nat.
Proof.
  intros now. induction fuel as [|f IH]; intros m i evs r m' j ev; cbn [Shard.scan]; [discriminate|].
  destruct (m_nb m <=? i)%nat; [discriminate|]. destruct (nth i (m_buckets m) None) as [b|]; [|apply IH].
  unfold entryiter_judge at 1. destruct (entry_alive (b_ent b) now); cbn [negb vd_del vd_stop].
  - intro E. injection E as _ _ <- _. lia.
  - destruct (delbkt m i); [apply IH|discriminate].
Qed.
Lemma entry_loop_pos : forall c now fuel ch idx iter evs ch' x cur ev,
  entry_iter_loop c fuel ch now idx iter evs = Ok (ch', (Some x, cur), ev) -> cur <> 0.
Proof.
  intros c now. induction fuel as [|f IH]; intros ch idx iter evs ch' x cur ev; cbn [entry_iter_loop]; [discriminate|].
  unfold on_shard. destruct (nth_error (ca_shards ch) idx) as [s|]; [|discriminate].
  unfold entryiter. cbn [s_map]. destruct (m_count (s_map s) =? 0)%nat; cbn iota beta.
  - destruct (N.of_nat (idx + 1) =? c_nshards c); [discriminate|apply IH].
  - destruct (Shard.scan _ _ _ _ _ _) as [[[[r m] [j|]] ev1]|] eqn:E; cbn iota beta; [| |discriminate].
    + destruct r as [e|].
      * intro H. injection H as _ _ <- _. apply scan_stop_pos in E. intro Z. apply N.lor_eq_0_iff in Z. lia.
      * destruct (N.of_nat (idx + 1) =? c_nshards c); [discriminate|apply IH].
    + destruct (N.of_nat (idx + 1) =? c_nshards c); [discriminate|apply IH].
Qed.
Lemma entry_alive_less : forall e t t', (t <= t')%Z -> entry_alive e t' = true -> entry_alive e t = true.
Proof. intros e t t' L. unfold entry_alive, entry_alive_exp. intro H. apply orb_true_iff in H. apply orb_true_iff. lia. Qed.
Lemma cursor_small : forall i j, N.of_nat i < 2 ^ 31 -> N.of_nat j < 2 ^ 31 -> cursor_at i j < 2 ^ 64.
Proof.
  intros i j Hi Hj. destruct (cursor_fields i j Hi Hj) as [F1 F2]. rewrite N.shiftr_div_pow2 in F1.
  change 0xFFFFFFFF with (N.ones 32) in F2. rewrite N.land_ones in F2.
  pose proof (N.div_mod (cursor_at i j) (2 ^ 32) ltac:(discriminate)) as D. rewrite F1, F2 in D.
  change (2 ^ 32) with 4294967296 in D. change (2 ^ 31) with 2147483648 in *. change (2 ^ 64) with 18446744073709551616. lia.
Qed.

Section V.
Variable o : opts.
Let c := ctx_of o.
Let load_ok : 55 <= c_load c <= 95 := opts_load o.

Lemma step_entry : forall en ch idx j now, reachable c ch -> (0 < now)%Z ->
  c_nshards c < 2 ^ 31 -> (forall n, In n (List.map (@m_nb entry) (maps ch)) -> N.of_nat n < 2 ^ 31) ->
  (idx < N.to_nat (c_nshards c))%nat -> N.of_nat j < 2 ^ 31 ->
  exists ch' r cur evs,
    step c en ch (EntryIter (cursor_at idx j) now) = Ok (ch', REntry r cur, evs) /\ reachable c ch' /\
    List.map (@m_nb entry) (maps ch') = List.map (@m_nb entry) (maps ch) /\
    (length (allents (maps ch')) <= length (allents (maps ch)))%nat /\
    (forall x, In x (allents (maps ch)) -> entry_alive x now = true -> In x (allents (maps ch'))) /\
    (forall x, In x (allents (maps ch')) -> In x (allents (maps ch))) /\
    ((forall x, In x (allents (maps ch)) -> entry_alive x now = true) ->
       length (allents (maps ch')) = length (allents (maps ch))) /\
    match r with
    | Some (id, k, v) => exists e idx' j', k = ekey c e /\ v = eview c e /\ In e (allents (maps ch)) /\
        entry_alive e now = true /\ cur = cursor_at idx' j' /\ cur <> 0 /\ (idx' < N.to_nat (c_nshards c))%nat /\
        N.of_nat j' < 2 ^ 31 /\
        (forall x, In x (ahead (maps ch) idx j) -> entry_alive x now = true ->
           x = e \/ In x (ahead (maps ch') idx' j')) /\
        (length (allents (maps ch')) = length (allents (maps ch)) ->
           maps ch' = maps ch /\ ahead (maps ch) idx j = e :: ahead (maps ch) idx' j')
    | None => cur = 0 /\ (forall x, In x (ahead (maps ch) idx j) -> entry_alive x now = false) /\
        (length (allents (maps ch')) = length (allents (maps ch)) ->
           maps ch' = maps ch /\ ahead (maps ch) idx j = [])
    end.
Proof.
  intros en ch idx j now R Hnow Hs Hn Hi Hj. pose proof (reach_cinv o ch R) as I.
  destruct (entry_step o en now ch idx j I Hs Hn Hi Hj) as (ch1 & r & cur & evs & E & L). fold c in E, L.
  rewrite (resolve_pos _ _ Hnow) in L.
  destruct (entry_loop_moves c load_ok now (S (N.to_nat (c_nshards c) - idx)) ch idx j [] I Hi)
    as (ch1' & r' & cur' & evs' & E' & I1 & Nb & Le & Al & Sub & Eq & Rr); [lia|].
  rewrite L in E'. injection E' as <- <- <- <-.
  assert (K : call_ok c en (cabs c ch) (EntryIter (cursor_at idx j) now)).
  { cbn [call_ok]. destruct (cursor_fields idx j) as [F1 _]; [lia|assumption|]. rewrite F1. lia. }
  destruct (reachable_step c load_ok (opts_shards o) ch en _ R K) as (ch2 & r2 & ev2 & E2 & R2 & _).
  rewrite E in E2. injection E2 as <- _ _.
  exists ch1, r, cur, evs. split; [exact E|]. split; [exact R2|]. do 5 (split; [assumption|]).
  destruct r as [[[id k] v]|]; [|exact Rr].
  destruct Rr as (e & idx' & j' & A1 & A2 & A3 & A4 & A5 & A6 & (m & A7 & A8) & A9 & A10).
  exists e, idx', j'. do 5 (split; [assumption|]). split; [eapply entry_loop_pos; exact L|]. split; [assumption|].
  split; [|split; assumption].
  assert (Z : N.of_nat (m_nb m) < 2 ^ 31) by (apply Hn; apply in_map; apply nth_error_In with (1 := A7)). lia.
Qed.

(** *** The loop of one call *)
Lemma scan_work_spec : forall orc pat now count, (0 < now)%Z -> c_nshards c < 2 ^ 31 ->
  forall nl p ch idx j acc n, reachable c ch ->
  (forall n, In n (List.map (@m_nb entry) (maps ch)) -> N.of_nat n < 2 ^ 31) ->
  (idx < N.to_nat (c_nshards c))%nat -> N.of_nat j < 2 ^ 31 -> (length acc <= count)%nat ->
  (length (allents (maps ch)) <= nl)%nat -> (length (ahead (maps ch) idx j) <= p)%nat ->
  exists enough ch' n' evs es cur',
    let found := acc ++ List.filter (gmatch pat 0) (List.map (ekey c) es) in
    (forall fuel k, (enough <= fuel)%nat ->
      prun c orc n ch (scan_work fuel pat now count (cursor_at idx j) acc k) =
        match prun c orc n' ch' (k found cur') with
        | Bad t => Bad t | Ok (ch2, es2, ev2) => Ok (ch2, es2, evs ++ ev2) end) /\
    reachable c ch' /\ List.map (@m_nb entry) (maps ch') = List.map (@m_nb entry) (maps ch) /\
    (length found <= count)%nat /\
    (length (allents (maps ch')) <= length (allents (maps ch)))%nat /\
    (forall e, In e es -> In e (allents (maps ch)) /\ entry_alive e now = true) /\
    (forall x, In x (allents (maps ch)) -> entry_alive x now = true -> In x (allents (maps ch'))) /\
    (forall x, In x (allents (maps ch')) -> In x (allents (maps ch))) /\
    ((forall x, In x (allents (maps ch)) -> entry_alive x now = true) -> maps ch' = maps ch) /\
    ((cur' = 0 /\ (length acc < count)%nat /\ (forall x, In x (ahead (maps ch) idx j) -> entry_alive x now = true -> In x es) /\
        (maps ch' = maps ch -> ahead (maps ch) idx j = es)) \/
     (exists idx' j', cur' = cursor_at idx' j' /\ length found = count /\ (idx' < N.to_nat (c_nshards c))%nat /\ N.of_nat j' < 2 ^ 31 /\
        (es <> [] -> cur' <> 0) /\
        (forall x, In x (ahead (maps ch) idx j) -> entry_alive x now = true -> In x es \/ In x (ahead (maps ch') idx' j')) /\
        (length (allents (maps ch')) = length (allents (maps ch)) -> maps ch' = maps ch /\ ahead (maps ch) idx j = es ++ ahead (maps ch) idx' j'))).
Proof.
  intros orc pat now count Hnow Hs nl. induction nl as [nl IHn] using lt_wf_ind.
  intro p. induction p as [p IHp] using lt_wf_ind. intros ch idx j acc n R Hn Hi Hj La Ln Lp.
  destruct (Nat.leb_spec count (length acc)) as [Full|Full].
  { exists 0%nat, ch, n, [], [], (cursor_at idx j). cbn [List.map List.filter]. rewrite app_nil_r.
    split.
    { intros fuel k _. destruct fuel; cbn [scan_work]; (rewrite (proj2 (Nat.leb_le _ _) Full));
        destruct (prun c orc n ch _) as [[[? ?] ?]|]; reflexivity. }
    split; [exact R|]. split; [reflexivity|]. split; [lia|]. split; [lia|]. split; [intros e []|].
    split; [auto|]. split; [auto|]. split; [auto|]. right. exists idx, j. split; [reflexivity|]. split; [lia|]. split; [exact Hi|].
    split; [exact Hj|]. split; [congruence|]. split; [auto|]. auto. }
  destruct (step_entry (in_env (orc n)) ch idx j now R Hnow Hs Hn Hi Hj)
    as (ch1 & r & cur & evs & E & R1 & Nb & Le & Al & Sub & Eq & Rr).
  destruct r as [[[id key] v]|].
  - destruct Rr as (e & idx' & j' & -> & -> & Hin & Ha & -> & Nz & Hi' & Hj' & Cov & St).
    set (acc1 := if gmatch pat 0 (ekey c e) then acc ++ [ekey c e] else acc).
    assert (La1 : (length acc1 <= count)%nat).
    { unfold acc1. destruct (gmatch pat 0 (ekey c e)); [rewrite app_length; cbn|]; lia. }
    assert (Hn1 : forall q, In q (List.map (@m_nb entry) (maps ch1)) -> N.of_nat q < 2 ^ 31) by (rewrite Nb; assumption).
    assert (Fnd : forall es, acc1 ++ List.filter (gmatch pat 0) (List.map (ekey c) es)
      = acc ++ List.filter (gmatch pat 0) (List.map (ekey c) (e :: es))).
    { intro es. unfold acc1. cbn [List.map List.filter]. destruct (gmatch pat 0 (ekey c e)); [rewrite <- app_assoc|]; reflexivity. }
    assert (Next : exists enough ch' n' evs es cur',
      let found := acc1 ++ List.filter (gmatch pat 0) (List.map (ekey c) es) in
      (forall fuel k, (enough <= fuel)%nat ->
        prun c orc (S n) ch1 (scan_work fuel pat now count (cursor_at idx' j') acc1 k) =
          match prun c orc n' ch' (k found cur') with
          | Bad t => Bad t | Ok (ch2, es2, ev2) => Ok (ch2, es2, evs ++ ev2) end) /\
      reachable c ch' /\ List.map (@m_nb entry) (maps ch') = List.map (@m_nb entry) (maps ch1) /\
      (length found <= count)%nat /\
      (length (allents (maps ch')) <= length (allents (maps ch1)))%nat /\
      (forall e, In e es -> In e (allents (maps ch1)) /\ entry_alive e now = true) /\
      (forall x, In x (allents (maps ch1)) -> entry_alive x now = true -> In x (allents (maps ch'))) /\
      (forall x, In x (allents (maps ch')) -> In x (allents (maps ch1))) /\
      ((forall x, In x (allents (maps ch1)) -> entry_alive x now = true) -> maps ch' = maps ch1) /\
      ((cur' = 0 /\ (length acc1 < count)%nat /\ (forall x, In x (ahead (maps ch1) idx' j') -> entry_alive x now = true -> In x es) /\
          (maps ch' = maps ch1 -> ahead (maps ch1) idx' j' = es)) \/
       (exists idx2 j2, cur' = cursor_at idx2 j2 /\ length found = count /\ (idx2 < N.to_nat (c_nshards c))%nat /\ N.of_nat j2 < 2 ^ 31 /\
          (es <> [] -> cur' <> 0) /\
          (forall x, In x (ahead (maps ch1) idx' j') -> entry_alive x now = true -> In x es \/ In x (ahead (maps ch') idx2 j2)) /\
          (length (allents (maps ch')) = length (allents (maps ch1)) -> maps ch' = maps ch1 /\ ahead (maps ch1) idx' j' = es ++ ahead (maps ch1) idx2 j2)))).
    { destruct (Nat.eq_dec (length (allents (maps ch1))) (length (allents (maps ch)))) as [Q|Q].
      - destruct (St Q) as [S1 S2]. apply (IHp (length (ahead (maps ch1) idx' j'))); try assumption; try lia.
        rewrite S1. rewrite S2 in Lp. cbn in Lp. lia.
      - apply (IHn (length (allents (maps ch1)))) with (p := length (ahead (maps ch1) idx' j')); try assumption; lia. }
    destruct Next as (enough & ch' & n' & evs' & es & cur' & A1 & A2 & A3 & A4 & A5 & A6 & A7 & A8 & A9 & A10).
    exists (S enough), ch', n', (evs ++ evs'), (e :: es), cur'. cbv zeta in *. rewrite <- Fnd. split.
    { intros fuel k Hf. destruct fuel as [|fuel]; [lia|]. cbn [scan_work]. rewrite (proj2 (Nat.leb_gt _ _) Full). cbn [prun].
      rewrite E. fold acc1. rewrite A1 by lia. destruct (prun c orc n' ch' _) as [[[? ?] ?]|]; [rewrite app_assoc|]; reflexivity. }
    split; [exact A2|]. split; [congruence|]. split; [exact A4|]. split; [lia|].
    split; [intros x [<-|Hx]; [auto|]; destruct (A6 x Hx); auto|]. split; [auto|]. split; [auto|].
    split.
    { intro Aa. destruct (St (Eq Aa)) as [S1 _]. rewrite <- S1. apply A9. rewrite S1. exact Aa. }
    assert (NotLoop : (length acc1 < count)%nat -> (length acc < count)%nat) by lia.
    destruct A10 as [(B1 & B2 & B3 & B4)|(idx2 & j2 & B1 & B2 & B3 & B4 & B5 & B6 & B7)].
    + left. split; [exact B1|]. split; [exact Full|]. split.
      * intros x Hx Ax. destruct (Cov x Hx Ax) as [->|Y]; [left; reflexivity|right; apply B3; assumption].
      * intro Q. assert (Q1 : length (allents (maps ch1)) = length (allents (maps ch))) by (rewrite Q in A5; lia).
        destruct (St Q1) as [S1 S2]. rewrite S2. f_equal. rewrite <- S1. apply B4. congruence.
    + right. exists idx2, j2. split; [exact B1|]. split; [exact B2|]. split; [exact B3|]. split; [exact B4|]. split; [|split].
      * intros _. destruct es as [|x es]; [|apply B5; discriminate].
        destruct (Nat.leb_spec count (length acc1)) as [F1|F1].
        -- pose proof (A1 enough (fun _ cc => Fail (if cc =? cur' then AssertFail else NullFree)) (le_n _)) as Z.
           destruct enough; cbn [scan_work] in Z; (rewrite (proj2 (Nat.leb_le _ _) F1) in Z); cbn [prun] in Z;
             rewrite N.eqb_refl in Z; destruct (N.eqb_spec (cursor_at idx' j') cur') as [<-|]; try exact Nz; discriminate Z.
        -- cbn [List.map List.filter] in B2. rewrite app_nil_r in B2. lia.
      * intros x Hx Ax. destruct (Cov x Hx Ax) as [->|Y]; [left; left; reflexivity|].
        destruct (B6 x Y Ax); [left; right; assumption|right; assumption].
      * intro Q. assert (Q1 : length (allents (maps ch1)) = length (allents (maps ch))) by lia.
        destruct (St Q1) as [S1 S2]. destruct (B7 ltac:(lia)) as [S3 S4]. split; [congruence|].
        rewrite S2. cbn [app]. f_equal. rewrite <- S1. exact S4.
  - destruct Rr as (-> & Dead & St).
    exists 1%nat, ch1, (S n), evs, [], 0. cbn [List.map List.filter]. rewrite app_nil_r. split.
    { intros fuel k Hf. destruct fuel as [|fuel]; [lia|]. cbn [scan_work]. rewrite (proj2 (Nat.leb_gt _ _) Full). cbn [prun].
      rewrite E. reflexivity. }
    split; [exact R1|]. split; [exact Nb|]. split; [lia|]. split; [exact Le|]. split; [intros e []|]. split; [exact Al|].
    split; [exact Sub|]. split; [intro Aa; apply (St (Eq Aa))|]. left. split; [reflexivity|]. split; [exact Full|]. split.
    + intros x Hx Ax. rewrite (Dead x Hx) in Ax. discriminate.
    + intro Q. apply St. rewrite Q. reflexivity.
Qed.

(** *** The options *)
Lemma scan_loop_ok : forall rest os, scan_spelled rest os -> forall pat count k,
  scan_loop rest pat count k = k (scan_pattern os pat) (scan_count os count).
Proof.
  intros rest os S. induction S as [|w v r os W S IH|w v x r os W V B S IH|w v r os W V S IH]; intros pat count k;
    cbn [scan_loop scan_pattern scan_count].
  - reflexivity.
  - rewrite (proj2 (is_word_iff w "match") W). apply IH.
  - rewrite (proj2 (is_word_no w "match")) by (rewrite W; discriminate). rewrite (proj2 (is_word_iff w "count") W).
    apply nat_text_parse in V. rewrite V.
    replace ((x =? 0) || (2 ^ 31 - 1 <? x)) with false; [apply IH|]. symmetry.
    apply orb_false_iff. split; [apply N.eqb_neq|apply N.ltb_ge]; lia.
  - rewrite (proj2 (is_word_no w "match")) by (rewrite W; discriminate).
    rewrite (proj2 (is_word_no w "count")) by (rewrite W; discriminate). rewrite (proj2 (is_word_iff w "type") W).
    rewrite (proj2 (is_word_iff v "string") V). apply IH.
Qed.
Lemma scan_loop_bad : forall len rest pat count k, (length rest <= len)%nat -> (forall os, ~ scan_spelled rest os) ->
  exists m, scan_loop rest pat count k = error m.
Proof.
  induction len as [|len IH]; intros rest pat count k L S.
  - destruct rest; [|cbn in L; lia]. destruct (S [] sc_end).
  - destruct rest as [|w r]; [destruct (S [] sc_end)|]. cbn in L. cbn [scan_loop].
    destruct (is_word w "match") eqn:W1.
    { apply is_word_iff in W1. destruct r as [|v r]; [eexists; reflexivity|]. cbn in L.
      apply IH; [lia|]. intros os X. apply (S (SMatch v :: os)). constructor; assumption. }
    destruct (is_word w "count") eqn:W2.
    { apply is_word_iff in W2. destruct r as [|v r]; [eexists; reflexivity|].
      destruct (parse_u64 v) as [x|] eqn:P; [|eexists; reflexivity].
      destruct ((x =? 0) || (2 ^ 31 - 1 <? x)) eqn:B; [eexists; reflexivity|].
      apply orb_false_iff in B. destruct B as [B1 B2]. apply N.eqb_neq in B1. apply N.ltb_ge in B2.
      apply nat_text_parse in P. cbn in L. apply IH; [lia|]. intros os X. apply (S (SCount x :: os)). constructor; try assumption. lia. }
    destruct (is_word w "type") eqn:W3; [|eexists; reflexivity].
    apply is_word_iff in W3. destruct r as [|v r]; [eexists; reflexivity|].
    destruct (is_word v "string") eqn:W4; [|eexists; reflexivity]. apply is_word_iff in W4. cbn in L.
    apply IH; [lia|]. intros os X. apply (S (SType :: os)). constructor; assumption.
Qed.
Lemma asked_count_pos : forall rest os, scan_spelled rest os -> 0 < asked_count os.
Proof.
  intros rest os S. unfold asked_count. assert (G : forall d, 0 < d -> 0 < scan_count os d); [|apply G; reflexivity].
  induction S; intros d P; cbn [scan_count]; auto. apply IHS. lia.
Qed.
Lemma scan_answer : forall pr keys cur n orc ch,
  prun c orc n ch (if is_pg pr then
              answer ([PRowDesc [bs "key"; bs "cursor"]]
                      ++ List.map (fun key => PRow [key; u64toa cur]) keys
                      ++ complete (tag (bs "SCAN") (u64toa (N.of_nat (length keys)))))
            else answer ([WArray 2; WBulk (u64toa cur); WArray (N.of_nat (length keys))]
                         ++ List.map WBulk keys)) = Ok (ch, List.map Out (scan_reply u64toa pr keys cur), []).
Proof. intros. destruct pr; cbn [is_pg by_proto]; rewrite prun_answer; reflexivity. Qed.

(** One call from a good position. *)
Lemma call_spec : forall orc n ch pr a0 cur rest os idx j, reachable c ch -> fine orc ->
  c_nshards c < 2 ^ 31 -> (forall n, In n (List.map (@m_nb entry) (maps ch)) -> N.of_nat n < 2 ^ 31) ->
  (idx < N.to_nat (c_nshards c))%nat -> N.of_nat j < 2 ^ 31 ->
  nat_text cur (cursor_at idx j) -> scan_spelled rest os ->
  let now := in_now (orc n) in
  exists enough ch' evs es cur',
    let found := List.filter (gmatch (asked_pattern os) 0) (List.map (ekey c) es) in
    (forall fuel, (enough <= fuel)%nat -> prun c orc n ch (cmdSCAN fuel pr (a0 :: cur :: rest)) =
      Ok (ch', List.map Out (scan_reply u64toa pr found cur'), evs)) /\
    reachable c ch' /\ List.map (@m_nb entry) (maps ch') = List.map (@m_nb entry) (maps ch) /\
    N.of_nat (length found) <= asked_count os /\
    (length (allents (maps ch')) <= length (allents (maps ch)))%nat /\
    (forall e, In e es -> In e (allents (maps ch)) /\ entry_alive e now = true) /\
    (forall x, In x (allents (maps ch)) -> entry_alive x now = true -> In x (allents (maps ch'))) /\
    (forall x, In x (allents (maps ch')) -> In x (allents (maps ch))) /\
    ((forall x, In x (allents (maps ch)) -> entry_alive x now = true) -> maps ch' = maps ch) /\
    ((cur' = 0 /\ (forall x, In x (ahead (maps ch) idx j) -> entry_alive x now = true -> In x es) /\
        (maps ch' = maps ch -> ahead (maps ch) idx j = es)) \/
     (exists idx' j', cur' = cursor_at idx' j' /\ N.of_nat (length found) = asked_count os /\ (idx' < N.to_nat (c_nshards c))%nat /\ N.of_nat j' < 2 ^ 31 /\
        cur' <> 0 /\ es <> [] /\
        (forall x, In x (ahead (maps ch) idx j) -> entry_alive x now = true -> In x es \/ In x (ahead (maps ch') idx' j')) /\
        (length (allents (maps ch')) = length (allents (maps ch)) -> maps ch' = maps ch /\ ahead (maps ch) idx j = es ++ ahead (maps ch) idx' j'))).
Proof.
  intros orc n ch pr a0 cur rest os idx j R F Hs Hn Hi Hj Nc Sp now.
  destruct (F n) as [[[Hnow _] _] _]. fold now in Hnow. pose proof (asked_count_pos rest os Sp) as Cp.
  destruct (scan_work_spec orc (asked_pattern os) now (N.to_nat (asked_count os)) Hnow Hs _ _ ch idx j [] (S n) R Hn Hi Hj (Nat.le_0_l _) (le_n _) (le_n _))
    as (enough & ch' & n' & evs & es & cur' & A1 & A2 & A3 & A4 & A5 & A6 & A7 & A8 & A9 & A10).
  cbn [app] in *. exists enough, ch', (evs ++ []), es, cur'. cbv zeta. split.
  { intros fuel Hf. unfold cmdSCAN. apply nat_text_parse in Nc. rewrite Nc. rewrite (scan_loop_ok rest os Sp).
    rewrite prun_ask. rewrite A1 by exact Hf. rewrite scan_answer. reflexivity. }
  do 2 (split; [assumption|]). split; [lia|]. do 5 (split; [assumption|]).
  destruct A10 as [(B1 & _ & B2 & B3)|(idx' & j' & B1 & B2 & B3 & B4 & B5 & B6 & B7)]; [left; auto|]. right.
  assert (Ne : es <> []). { intros ->. cbn in B2. lia. }
  exists idx', j'. do 1 (split; [assumption|]). split; [lia|]. auto 10.
Qed.
End V.
