(** C53: SCAN, stated with the vocabulary of CmdSpec3.v. *)
From Verif Require Import Base Types Clamp Entry EntryProofs Hash Map MapProofs MapInv Shard
  Spec Trace ShardProofs ScanProofs LoopProofs Cache Refine Reach Observe PropCache PropItems CursorProofs PropCursor
  Text IntText IntTextProofs Glob GlobProofs CmdTable CmdTableProofs PropText Prog CmdSpec CmdSpec2 CmdSpec3 Cmds
  CmdsProofs CmdsProofs2 CmdsProofs3 PropCmds PropCmds2 CmdsProofs5 Small PropMemory.
From Coq Require Import String Permutation.
Local Open Scope N_scope.
Notation length := List.length.

Section V.
Variable o : opts.
Let c := ctx_of o.

Lemma series_spec : forall (orc : nat -> nat -> input) pr a0 rest os,
  (forall i, fine (orc i)) -> (forall i, (in_now (orc i 0%nat) <= in_now (orc (S i) 0%nat))%Z) ->
  scan_spelled rest os -> c_nshards c < 2 ^ 31 ->
  forall nl p i ch idx j cur, reachable c ch ->
  (forall n, In n (List.map (@m_nb entry) (maps ch)) -> N.of_nat n < 2 ^ 31) ->
  (idx < N.to_nat (c_nshards c))%nat -> N.of_nat j < 2 ^ 31 -> nat_text cur (cursor_at idx j) ->
  (length (allents (maps ch)) <= nl)%nat -> (length (ahead (maps ch) idx j) <= p)%nat ->
  exists enough es last ch',
    (forall fuel, (enough <= fuel)%nat ->
      series c (fun cur => cmdSCAN fuel pr (a0 :: cur :: rest)) pr u64toa orc i ch cur
        (List.filter (gmatch (asked_pattern os) 0) (List.map (ekey c) es)) last ch') /\
    (in_now (orc i 0%nat) <= in_now (orc last 0%nat))%Z /\ reachable c ch' /\
    (forall e, In e es -> In e (allents (maps ch)) /\ entry_alive e (in_now (orc i 0%nat)) = true) /\
    (forall x, In x (allents (maps ch)) -> entry_alive x (in_now (orc last 0%nat)) = true -> In x (allents (maps ch'))) /\
    (forall x, In x (allents (maps ch')) -> In x (allents (maps ch))) /\
    (forall x, In x (ahead (maps ch) idx j) -> entry_alive x (in_now (orc last 0%nat)) = true -> In x es) /\
    ((forall x, In x (allents (maps ch)) -> entry_alive x (in_now (orc last 0%nat)) = true) -> es = ahead (maps ch) idx j).
Proof.
  intros orc pr a0 rest os F Mono Sp Hs nl. induction nl as [nl IHn] using lt_wf_ind.
  intro p. induction p as [p IHp] using lt_wf_ind. intros i ch idx j cur R Hn Hi Hj Nc Ln Lp.
  destruct (call_spec o (orc i) 0 ch pr a0 cur rest os idx j R (F i) Hs Hn Hi Hj Nc Sp)
    as (enough & ch1 & evs & es & cur' & A1 & A2 & A3 & A4 & A5 & A6 & A7 & A8 & A9 & A10).
  fold c in A1, A2, A4, A10. cbv zeta in *. set (now := in_now (orc i 0%nat)) in *.
  destruct A10 as [(-> & B2 & B3)|(idx' & j' & -> & B2 & B3 & B4 & B5 & B6 & B7 & B8)].
  - exists enough, es, i, ch1. fold now. split; [intros fuel Hf; eapply se_last; apply A1; exact Hf|].
    split; [lia|]. split; [exact A2|]. do 4 (split; [assumption|]). intro Aa. symmetry. apply B3. apply A9. exact Aa.
  - assert (Hn1 : forall q, In q (List.map (@m_nb entry) (maps ch1)) -> N.of_nat q < 2 ^ 31) by (rewrite A3; assumption).
    assert (Nc1 : nat_text (u64toa (cursor_at idx' j')) (cursor_at idx' j')).
    { apply nat_text_parse. apply parse_print_u64. apply cursor_small; [lia|exact B4]. }
    assert (Next : exists enough es last ch',
      (forall fuel, (enough <= fuel)%nat ->
        series c (fun cur => cmdSCAN fuel pr (a0 :: cur :: rest)) pr u64toa orc (S i) ch1 (u64toa (cursor_at idx' j'))
          (List.filter (gmatch (asked_pattern os) 0) (List.map (ekey c) es)) last ch') /\
      (in_now (orc (S i) 0%nat) <= in_now (orc last 0%nat))%Z /\ reachable c ch' /\
      (forall e, In e es -> In e (allents (maps ch1)) /\ entry_alive e (in_now (orc (S i) 0%nat)) = true) /\
      (forall x, In x (allents (maps ch1)) -> entry_alive x (in_now (orc last 0%nat)) = true -> In x (allents (maps ch'))) /\
      (forall x, In x (allents (maps ch')) -> In x (allents (maps ch1))) /\
      (forall x, In x (ahead (maps ch1) idx' j') -> entry_alive x (in_now (orc last 0%nat)) = true -> In x es) /\
      ((forall x, In x (allents (maps ch1)) -> entry_alive x (in_now (orc last 0%nat)) = true) -> es = ahead (maps ch1) idx' j')).
    { destruct (Nat.eq_dec (length (allents (maps ch1))) (length (allents (maps ch)))) as [Q|Q].
      - destruct (B8 Q) as [S1 S2]. apply (IHp (length (ahead (maps ch1) idx' j'))); try assumption; try lia.
        rewrite S1. rewrite S2, app_length in Lp. destruct es; [congruence|]. cbn in Lp. lia.
      - apply (IHn (length (allents (maps ch1)))) with (p := length (ahead (maps ch1) idx' j')); try assumption; lia. }
    destruct Next as (enough2 & es2 & last & ch' & C1 & C2 & C3 & C4 & C5 & C6 & C7 & C8).
    pose proof (Mono i) as Mi. fold now in Mi.
    exists (Nat.max enough enough2), (es ++ es2), last, ch'. split.
    { intros fuel Hf. rewrite map_app, filter_app. eapply se_more; [exact B5|apply A1; lia|apply C1; lia]. }
    split; [lia|]. split; [exact C3|]. split; [|split; [|split; [|split]]].
    + intros e He. apply in_app_iff in He. destruct He as [He|He]; [auto|]. destruct (C4 e He) as [D1 D2].
      split; [auto|]. eapply entry_alive_less; [exact Mi|exact D2].
    + intros x Hx Ax. apply C5; [|exact Ax]. apply A7; [exact Hx|]. eapply entry_alive_less; [|exact Ax]. lia.
    + auto.
    + intros x Hx Ax. apply in_app_iff. destruct (B7 x Hx) as [D|D]; [eapply entry_alive_less; [|exact Ax]; lia|auto|].
      right. apply C7; assumption.
    + intro Aa. assert (An : forall x, In x (allents (maps ch)) -> entry_alive x now = true).
      { intros x Hx. eapply entry_alive_less; [|apply Aa; exact Hx]. lia. }
      pose proof (A9 An) as Q. destruct (B8 ltac:(rewrite Q; reflexivity)) as [_ S2]. rewrite S2. f_equal. rewrite <- Q.
      apply C8. rewrite Q. exact Aa.
Qed.

Lemma live_entry : forall ch e now, reachable c ch -> In e (allents (maps ch)) -> entry_alive e now = true -> live o ch now (ekey c e).
Proof.
  intros ch e now R He Ha. exists (shown_of (item_of c e)). pose proof (reach_cinv o ch R) as I.
  apply (sees_iff _ (opts_load o)); [exact I|]. fold c. rewrite (allents_live c ch e now I He), Ha. reflexivity.
Qed.
Lemma entry_live : forall ch key now, reachable c ch -> live o ch now key ->
  exists e, In e (allents (maps ch)) /\ ekey c e = key /\ entry_alive e now = true.
Proof.
  intros ch key now R (v & S). apply sees_item in S; [|exact R]. fold c in S.
  destruct (live_item (cabs c ch) key now) as [it|] eqn:L; [|discriminate].
  destruct (live_allents c ch key it now (reach_cinv o ch R) L) as (e & A & B & _ & D). exists e. auto.
Qed.
Lemma all_same_entries : forall ch ch' now, reachable c ch -> reachable c ch' ->
  (forall x, In x (allents (maps ch)) -> entry_alive x now = true -> In x (allents (maps ch'))) ->
  (forall x, In x (allents (maps ch')) -> In x (allents (maps ch))) -> all_same o now ch ch'.
Proof.
  intros ch ch' now R R' A B key. apply same_from_abs; [exact R|exact R'|]. intros t Ht.
  pose proof (reach_cinv o ch R) as I. pose proof (reach_cinv o ch' R') as I'. fold c in I, I'. fold c.
  destruct (live_item (cabs c ch) key t) as [it|] eqn:L.
  - destruct (live_allents c ch key it t I L) as (e & E1 & <- & <- & E2).
    rewrite (allents_live c ch' e t I'); [rewrite E2; reflexivity|]. apply A; [exact E1|]. eapply entry_alive_less; eassumption.
  - destruct (live_item (cabs c ch') key t) as [it|] eqn:L'; [|reflexivity].
    destruct (live_allents c ch' key it t I' L') as (e & E1 & <- & <- & E2).
    rewrite (allents_live c ch e t I (B e E1)), E2 in L. discriminate.
Qed.
Lemma kept_entry : forall ch e, reachable c ch -> In e (allents (maps ch)) -> kept o ch (ekey c e).
Proof.
  intros ch e R He. exists (entry_expires e - 1)%Z, (shown_of (item_of c e)).
  pose proof (reach_cinv o ch R) as I. apply (sees_iff _ (opts_load o)); [exact I|]. fold c.
  rewrite (allents_live c ch e _ I He). replace (entry_alive e (entry_expires e - 1)) with true; [reflexivity|].
  symmetry. unfold entry_alive, entry_alive_exp. apply orb_true_iff. right. lia.
Qed.
Lemma in_found : forall pat (l : list bytes) key, plain_pattern pat ->
  (In key (List.filter (gmatch pat 0) l) <-> In key l /\ lang pat key).
Proof. intros pat l key [P1 P2]. rewrite filter_In, (C36_glob pat key P1 P2). reflexivity. Qed.
End V.

(** *** C53 *)
(** A series of SCAN calls from cursor 0 ends, whatever time each call is made. Only
    matching keys that held a live item when it began are returned, and every matching key
    whose item is still alive at the end is returned; once, if no expired item is in
    the way. Nothing is changed. *)
Theorem C53_series : forall o ch (orc : nat -> nat -> input) pr a0 rest os,
  reachable (ctx_of o) ch -> cursor_fits (ctx_of o) ch -> (forall i, fine (orc i)) ->
  (forall i, (in_now (orc i 0%nat) <= in_now (orc (S i) 0%nat))%Z) ->
  scan_spelled rest os -> plain_pattern (asked_pattern os) ->
  exists enough dec keys last ch', prints dec /\
    (forall fuel, (enough <= fuel)%nat ->
      series (ctx_of o) (fun cur => cmdSCAN fuel pr (a0 :: cur :: rest)) pr dec orc 0 ch (bs "0") keys last ch') /\
    (forall key, In key keys -> live o ch (in_now (orc 0%nat 0%nat)) key /\ lang (asked_pattern os) key) /\
    (forall key, live o ch (in_now (orc last 0%nat)) key -> lang (asked_pattern os) key -> In key keys) /\
    ((forall key, kept o ch key -> live o ch (in_now (orc last 0%nat)) key) -> NoDup keys) /\
    reachable (ctx_of o) ch' /\ all_same o (in_now (orc last 0%nat)) ch ch'.
Proof.
  intros o ch orc pr a0 rest os R Ft F Mono Sp Pl. pose proof (reach_cinv o ch R) as I.
  destruct (series_spec o orc pr a0 rest os F Mono Sp (proj1 Ft) _ _ 0%nat ch 0%nat 0%nat (bs "0") R (fits_maps o ch Ft)
    ltac:(pose proof (opts_shards o) as X; lia) ltac:(reflexivity)
    ltac:(apply nat_text_parse; reflexivity) (le_n _) (le_n _))
    as (enough & es & last & ch' & A1 & A2 & A3 & A4 & A5 & A6 & A7 & A8).
  rewrite ahead_start in A7, A8.
  eexists enough, u64toa, _, last, ch'. split; [exact u64toa_prints|]. split; [exact A1|]. split; [|split; [|split; [|split]]].
  - intros key H. apply in_found in H; [|exact Pl]. destruct H as [H L]. split; [|exact L].
    apply in_map_iff in H. destruct H as (e & <- & He). destruct (A4 e He) as [D1 D2]. apply live_entry; assumption.
  - intros key L G. apply in_found; [exact Pl|]. split; [|exact G].
    destruct (entry_live o ch key _ R L) as (e & E1 & <- & E2). apply in_map. apply A7; assumption.
  - intro Aa. apply NoDup_filter. rewrite A8.
    + apply (allents_nodup _ (opts_load o)). exact I.
    + intros x Hx. destruct (entry_live o ch _ _ R (Aa _ (kept_entry o ch x R Hx))) as (e & E1 & E2 & E3).
      replace x with e; [exact E3|]. pose proof (allents_nodup (ctx_of o) (opts_load o) ch I) as Nd.
      clear - E1 E2 Hx Nd. revert E1 Hx Nd. generalize (allents (maps ch)). induction l as [|y l IH]; intros A B Nd; [destruct A|].
      cbn [List.map] in Nd. inversion Nd as [|? ? N1 N2]; subst. destruct A as [->|A], B as [->|B]; auto.
      * destruct N1. rewrite E2. apply in_map. exact B.
      * destruct N1. rewrite <- E2. apply in_map. exact A.
  - exact A3.
  - apply all_same_entries; assumption.
Qed.

(** The parts of a number that is a cursor. *)
Lemma cursor_parts : forall x, x = cursor_at (N.to_nat (N.shiftr x 32)) (N.to_nat (N.land x 0xFFFFFFFF)).
Proof.
  intro x. unfold cursor_at. rewrite !N2Nat.id. apply N.bits_inj. intro n. rewrite N.lor_spec.
  change 0xFFFFFFFF with (N.ones 32). rewrite N.land_spec. destruct (N.lt_ge_cases n 32) as [H|H].
  - rewrite N.shiftl_spec_low, N.ones_spec_low by exact H. rewrite andb_true_r. reflexivity.
  - rewrite N.shiftl_spec_high', N.ones_spec_high, N.shiftr_spec by lia. rewrite andb_false_r, orb_false_r. f_equal. lia.
Qed.
(** One SCAN call with any cursor but one of shard number equal to the number of shards: it ends, returns only matching keys
    that hold a live item, not more than asked for, and changes nothing. If the
    cursor that it returns is not 0, it returned as many as asked for. *)
Theorem C53_call : forall o ch orc n pr a0 cur x rest os,
  reachable (ctx_of o) ch -> cursor_fits (ctx_of o) ch -> fine orc ->
  nat_text cur x -> N.shiftr x 32 <> c_nshards (ctx_of o) ->
  scan_spelled rest os -> plain_pattern (asked_pattern os) ->
  exists enough dec keys next ch' evs, prints dec /\
    (forall fuel, (enough <= fuel)%nat -> prun (ctx_of o) orc n ch (cmdSCAN fuel pr (a0 :: cur :: rest)) =
      Ok (ch', List.map Out (scan_reply dec pr keys next), evs)) /\
    (forall key, In key keys -> live o ch (in_now (orc n)) key /\ lang (asked_pattern os) key) /\
    N.of_nat (length keys) <= asked_count os /\ (next <> 0 -> N.of_nat (length keys) = asked_count os) /\
    reachable (ctx_of o) ch' /\ all_same o (in_now (orc n)) ch ch'.
Proof.
  intros o ch orc n pr a0 cur x rest os R Ft F Nc Hx Sp Pl.
  destruct ((N.shiftr x 32 <? c_nshards (ctx_of o)) && (N.land x 0xFFFFFFFF <? 2 ^ 31)) eqn:In0.
  - apply andb_true_iff in In0. destruct In0 as [I1 I2]. apply N.ltb_lt in I1, I2.
    rewrite (cursor_parts x) in Nc.
    destruct (call_spec o orc n ch pr a0 cur rest os (N.to_nat (N.shiftr x 32)) (N.to_nat (N.land x 0xFFFFFFFF)) R F (proj1 Ft) (fits_maps o ch Ft) ltac:(lia) ltac:(lia) Nc Sp)
      as (enough & ch' & evs & es & cur' & A1 & A2 & A3 & A4 & A5 & A6 & A7 & A8 & A9 & A10).
    cbv zeta in *. eexists enough, u64toa, _, cur', ch', evs. split; [exact u64toa_prints|]. split; [exact A1|].
    split; [|split; [exact A4|split; [|split; [exact A2|]]]].
    + intros key H. apply in_found in H; [|exact Pl]. destruct H as [H L]. split; [|exact L].
      apply in_map_iff in H. destruct H as (e & <- & He). destruct (A6 e He) as [D1 D2]. apply live_entry; assumption.
    + intro Nz. destruct A10 as [(B1 & _)|(idx' & j' & _ & B2 & _)]; [congruence|exact B2].
    + apply all_same_entries; assumption.
  - pose proof (asked_count_pos o rest os Sp) as Cp.
    assert (E : forall en, step (ctx_of o) en ch (EntryIter x (in_now (orc n))) = Ok (ch, REntry None 0, [])).
    { intro en. cbn [step]. unfold cache_entry_iter. cbv zeta. apply andb_false_iff in In0.
      destruct (2 ^ 31 <=? N.shiftr x 32) eqn:B1; [reflexivity|]. cbn [orb].
      destruct (N.ltb_spec (c_nshards (ctx_of o)) (N.shiftr x 32)); [reflexivity|].
      destruct (N.leb_spec (2 ^ 31) (N.land x 0xFFFFFFFF)); [reflexivity|]. exfalso.
      destruct In0 as [Z|Z]; [apply N.ltb_ge in Z; lia|]. apply N.ltb_ge in Z. change 0xFFFFFFFF with 4294967295 in *. lia. }
    exists 1%nat, u64toa, [], 0, ch, []. split; [exact u64toa_prints|]. split.
    { intros fuel Hf. unfold cmdSCAN. apply nat_text_parse in Nc. rewrite Nc, (scan_loop_ok o rest os Sp), prun_ask.
      destruct fuel as [|fuel]; [lia|]. cbn [scan_work length].
      assert (Z : (N.to_nat (asked_count os) <=? 0)%nat = false) by (apply Nat.leb_gt; lia).
      unfold asked_count in Z. rewrite Z. cbn [prun]. rewrite E. rewrite (scan_answer o pr []). reflexivity. }
    split; [intros key []|]. split; [cbn; lia|]. split; [congruence|]. split; [exact R|].
    intros key t v _. reflexivity.
Qed.
(** A cursor that is not a number and options that are not those are refused. *)
Theorem C53_reject : forall o ch orc n pr a0 cur rest fuel,
  (forall x, ~ nat_text cur x) \/ (forall os, ~ scan_spelled rest os) ->
  exists m, prun (ctx_of o) orc n ch (cmdSCAN fuel pr (a0 :: cur :: rest)) = Ok (ch, [Out (WError m)], []).
Proof.
  intros o ch orc n pr a0 cur rest fuel H. unfold cmdSCAN. destruct (parse_u64 cur) as [x|] eqn:P.
  - destruct H as [H|H]; [destruct (H x); apply nat_text_parse; exact P|].
    match goal with |- context [scan_loop rest ?p ?q ?kk] => destruct (scan_loop_bad o (length rest) rest p q kk (le_n _) H) as (m & E) end.
    rewrite E. eexists. apply prun_error.
  - eexists. apply prun_error.
Qed.
(** The cursor of shard number equal to the number of shards has the server read beyond its
    array of shards [src/pogocache.c:1793]: any client can send it. *)
Theorem C53_cursor_refuted : forall o ch orc n pr a0 fuel, reachable (ctx_of o) ch -> c_nshards (ctx_of o) < 2 ^ 31 ->
  exists cur, prun (ctx_of o) orc n ch (cmdSCAN (S fuel) pr [a0; cur]) = Bad OutOfBounds.
Proof.
  intros o ch orc n pr a0 fuel R Hs.
  destruct (C15_cursor_refuted o ch (in_env (orc (S n))) (in_now (orc n)) R Hs) as (x & E).
  assert (B : x < 2 ^ 64).
  { destruct (N.lt_ge_cases x (2 ^ 64)) as [B|B]; [exact B|]. exfalso. cbn [step] in E. unfold cache_entry_iter in E. cbv zeta in E.
    replace (2 ^ 31 <=? N.shiftr x 32) with true in E; [discriminate|]. symmetry. apply N.leb_le.
    rewrite N.shiftr_div_pow2. apply N.div_le_lower_bound; [discriminate|].
    change (2 ^ 32 * 2 ^ 31) with 9223372036854775808. change (2 ^ 64) with 18446744073709551616 in B. lia. }
  exists (u64toa x). unfold cmdSCAN. rewrite (parse_print_u64 x B). cbn [scan_loop]. rewrite prun_ask.
  cbn [scan_work length]. change (N.to_nat 100 <=? 0)%nat with false. cbn [prun]. rewrite E. reflexivity.
Qed.

(** *** Cases *)
(** Two items of which the second was moved out of its place by the first. *)
Definition pair_history : list (env * call) :=
  [ (plenty_env 100, Store (bs "am") (bs "1") plain_store 0);
    (plenty_env 101, Store (bs "au") (bs "2") plain_store 0) ].
Definition pair_opts : opts := one_opts false.
Definition pair_c : ctx := ctx_of pair_opts.
Definition pair_ch : cache :=
  match run pair_c (one_new false) pair_history with Ok (ch, _, _) => ch | Bad _ => one_new false end.
Lemma pair_args : Forall (fun p => args_fine pair_c (fst p) (snd p)) pair_history.
Proof. unfold pair_history. fine_history. Qed.
Lemma pair_run : exists rs evs, run pair_c (one_new false) pair_history = Ok (pair_ch, rs, evs).
Proof. eexists _, _. vm_compute. reflexivity. Qed.
Lemma pair_reachable : reachable pair_c pair_ch.
Proof.
  destruct pair_run as (rs & evs & R).
  eapply short_reachable; [apply one_is_new|exact pair_args| |exact R]. cbn. lia.
Qed.
Lemma pair_live : forall ch key now v, reachable pair_c ch ->
  option_map shown_of (live_item (cabs pair_c ch) key now) = Some v -> live pair_opts ch now key.
Proof.
  intros ch key now v R E. exists v. apply (sees_iff _ (opts_load pair_opts)); [apply (reach_cinv pair_opts); exact R|symmetry; exact E].
Qed.
Lemma pair_fits : cursor_fits pair_c pair_ch.
Proof. apply cursor_fits_b. vm_compute. reflexivity. Qed.

(** A scan of two calls. *)
Example C53_case : reachable pair_c pair_ch /\ cursor_fits pair_c pair_ch /\ (forall i : nat, fine demo_orc) /\
  let rest := [bs "COUNT"; bs "1"; bs "match"; bs "a?"] in let os := [SCount 1; SMatch (bs "a?")] in
  scan_spelled rest os /\ plain_pattern (asked_pattern os) /\ asked_count os = 1 /\
  exists next ch1 ch2 ch', next <> 0 /\
  prun pair_c demo_orc 0 pair_ch (cmdSCAN 9 RESP (bs "SCAN" :: bs "0" :: rest)) =
    Ok (ch1, List.map Out [WArray 2; WBulk (u64toa next); WArray 1; WBulk (bs "am")], [EvRetain 1]) /\
  series pair_c (fun cur => cmdSCAN 9 RESP (bs "SCAN" :: cur :: rest)) RESP u64toa (fun _ => demo_orc) 0 pair_ch (bs "0")
    [bs "am"; bs "au"] 2 ch' /\ ch2 = ch'.
Proof.
  split; [exact pair_reachable|]. split; [exact pair_fits|]. split; [intros _; exact demo_fine|]. cbv zeta.
  split.
  { apply sc_count; [reflexivity|apply nat_text_parse; reflexivity|lia|]. apply sc_match; [reflexivity|]. constructor. }
  split; [split; [reflexivity|]; vm_compute; lia|]. split; [reflexivity|].
  exists 46. eexists _, _, _. split; [discriminate|]. split; [vm_compute; reflexivity|]. split; [|reflexivity].
  change [bs "am"; bs "au"] with ([bs "am"] ++ [bs "au"] ++ []).
  eapply (se_more _ _ _ _ _ _ _ _ _ 46); [discriminate|vm_compute; reflexivity|].
  eapply (se_more _ _ _ _ _ _ _ _ _ 47); [discriminate|vm_compute; reflexivity|].
  eapply se_last. vm_compute. reflexivity.
Qed.
(** "An item that is there all the time is returned by a scan, whatever other clients do meanwhile" is
    refuted: deleting an item moves another one to a place the scan has left. *)
Theorem C53_other_clients_refuted : exists ch1 ch2 ch3 e1 e2 e3 next,
  reachable pair_c pair_ch /\ next <> 0 /\
  prun pair_c demo_orc 0 pair_ch (cmdSCAN 9 RESP [bs "SCAN"; bs "0"; bs "COUNT"; bs "1"])
    = Ok (ch1, List.map Out (scan_reply u64toa RESP [bs "am"] next), e1) /\
  prun pair_c demo_orc 0 ch1 (cmdDEL RESP [bs "DEL"; bs "am"]) = Ok (ch2, [Out (WInt 1)], e2) /\
  prun pair_c demo_orc 0 ch2 (cmdSCAN 9 RESP [bs "SCAN"; u64toa next; bs "COUNT"; bs "1"])
    = Ok (ch3, List.map Out (scan_reply u64toa RESP [] 0), e3) /\
  live pair_opts pair_ch 110 (bs "au") /\ live pair_opts ch3 110 (bs "au").
Proof.
  eexists _, _, _, _, _, _, 46. split; [exact pair_reachable|]. split; [discriminate|].
  split; [vm_compute; reflexivity|]. split; [vm_compute; reflexivity|]. split; [vm_compute; reflexivity|].
  split; [eapply pair_live; [exact pair_reachable|vm_compute; reflexivity]|].
  eapply pair_live; [|vm_compute; reflexivity].
  eapply (reachable_run pair_c pair_ch
    [(plenty_env 110, EntryIter 0 110); (plenty_env 110, Delete (bs "am") None 110); (plenty_env 110, EntryIter 46 110)]).
  - exact pair_reachable.
  - cbn [sensible]. split; [cbn; discriminate|]. intros. split; [exact Logic.I|]. intros. split; [cbn; discriminate|]. intros. exact Logic.I.
  - vm_compute. reflexivity.
Qed.
