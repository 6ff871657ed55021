(** C51, C52: commands on the whole cache, stated with the vocabulary of CmdSpec3.v. *)
From Verif Require Import Base Types Clamp Entry EntryProofs Hash Map MapProofs MapInv Shard
  Spec Trace ShardProofs ScanProofs LoopProofs Cache Refine Reach Observe PropCache PropItems
  Text IntText IntTextProofs Glob GlobProofs CmdTable CmdTableProofs PropText Prog CmdSpec CmdSpec2 CmdSpec3 Cmds
  CmdsProofs CmdsProofs2 CmdsProofs3 PropCmds PropCmds2 CmdsProofs4.
From Coq Require Import String Permutation.
Local Open Scope N_scope.
Notation length := List.length.

(** *** C51: FLUSHALL, SWEEP, PURGE *)
(** FLUSHALL, FLUSHDB and FLUSH with spelled options: in the foreground, nothing is
    left when the reply is written; in the background, a program that leaves nothing
    is started after the delay, and the reply is written at once. *)
Theorem C51_flush : forall o orc n ch pr a0 rest os name,
  reachable (ctx_of o) ch -> fine orc -> manned orc -> flush_named a0 name -> flush_spelled rest os ->
  let r := prun (ctx_of o) orc n ch (cmdFLUSHALL (shards_of o) pr (a0 :: rest)) in
  if in_background os then
    exists q, r = Ok (ch, Forked (delay_of os) q :: List.map Out (flush_reply pr name "ASYNC"), []) /\
      does o q (fun _ _ ch' => empty o ch')
  else if in_work (orc n) then
    exists ch' evs, r = Ok (ch', List.map Out (flush_reply pr name "SYNC"), evs) /\
      reachable (ctx_of o) ch' /\ empty o ch'
  else r = Ok (ch, List.map Out no_worker, []).
Proof.
  intros o orc n ch pr a0 rest os name R F M Nm Sp r. unfold r, cmdFLUSHALL. cbn [hd List.tl].
  assert (Fn : flush_name a0 = bs name).
  { unfold flush_name. destruct Nm as [[W ->]|[[W ->]|[W ->]]].
    - rewrite (proj2 (is_word_iff a0 "flush") W). reflexivity.
    - rewrite (proj2 (is_word_no a0 "flush")) by (rewrite W; discriminate).
      rewrite (proj2 (is_word_iff a0 "flushdb") W). reflexivity.
    - rewrite (proj2 (is_word_no a0 "flush")) by (rewrite W; discriminate).
      rewrite (proj2 (is_word_no a0 "flushdb")) by (rewrite W; discriminate). reflexivity. }
  rewrite Fn.
  assert (Rp : forall how, by_proto pr [raw_line "OK"] (complete (tag (bs name) (bs how))) [WString (bs "OK")] [WString (bs "OK")]
     = flush_reply pr name how) by (intro how; destruct pr; reflexivity).
  match goal with |- context [flush_loop rest false false 0%Z ?kk] => destruct (flush_loop_ok rest os Sp false false 0%Z kk) as (fast & E) end.
  rewrite E. clear E. unfold in_background, delay_of.
  destruct (match background os with Some b => b | None => false end).
  - cbn [prun]. rewrite prun_answer, Rp. eexists. split; [reflexivity|].
    intros orc' n' ch0 R0 F0 M0. destruct (flush_work_spec o orc' n' ch0 fast Done R0 F0 M0) as (ch' & n2 & ev & R' & Em & E).
    rewrite E. cbn [prun]. eexists ch', _. split; [reflexivity|]. split; [exact R'|exact Em].
  - rewrite prun_ask. destruct (in_work (orc n)).
    + match goal with |- context [flush_work _ fast ?kk] => destruct (flush_work_spec o orc (S n) ch fast kk R F M) as (ch' & n2 & ev & R' & Em & E) end.
      rewrite E, prun_answer, Rp. eexists ch', _. split; [reflexivity|]. split; [exact R'|exact Em].
    + rewrite prun_error. reflexivity.
Qed.
(** Anything else is refused and nothing happens. *)
Theorem C51_flush_reject : forall o orc n ch pr nshards a0 rest, (forall os, ~ flush_spelled rest os) ->
  exists m, In m [bs "ERR syntax error"; bs "ERR invalid delay argument"] /\
    prun (ctx_of o) orc n ch (cmdFLUSHALL nshards pr (a0 :: rest)) = Ok (ch, [Out (WError m)], []).
Proof.
  intros o orc n ch pr nshards a0 rest S. unfold cmdFLUSHALL. cbn [List.tl].
  match goal with |- context [flush_loop rest false false 0%Z ?kk] => destruct (flush_loop_bad (length rest) rest false false 0%Z kk (le_n _) S) as (m & I & E) end.
  rewrite E. exists m. split; [exact I|]. apply prun_error.
Qed.
(** SWEEP, SWEEP FAST: what had expired is gone; SWEEP ASYNC: a program that does so is
    started. Other words are refused. *)
Theorem C51_sweep : forall o orc n ch pr a0 rest,
  reachable (ctx_of o) ch -> fine orc -> manned orc ->
  let r := prun (ctx_of o) orc n ch (cmdSWEEP (shards_of o) pr (a0 :: rest)) in
  (rest = [] \/ (exists w, rest = [w] /\ word w "fast") ->
     if in_work (orc n) then
       exists ch' evs, r = Ok (ch', List.map Out (sweep_reply pr "SWEEP" "SYNC"), evs) /\
         reachable (ctx_of o) ch' /\ swept o (in_now (orc (S n))) ch ch'
     else r = Ok (ch, List.map Out no_worker, [])) /\
  ((exists w, rest = [w] /\ word w "async") ->
     exists q, r = Ok (ch, Forked 0 q :: List.map Out (sweep_reply pr "SWEEP" "ASYNC"), []) /\ does o q (swept o)) /\
  (length rest = 1%nat -> ~ (exists w, rest = [w] /\ (word w "fast" \/ word w "async")) ->
     r = Ok (ch, [Out (WError (bs "ERR syntax error"))], [])) /\
  ((1 < length rest)%nat -> r = Ok (ch, [Out (WError (bs "ERR wrong number of arguments"))], [])).
Proof.
  intros o orc n ch pr a0 rest R F M r.
  assert (Rp : forall how, (if is_pg pr then complete (bs ("SWEEP " ++ how)) else [WString (bs "OK")]) = sweep_reply pr "SWEEP" how).
  { intro how. destruct pr; reflexivity. }
  assert (Fg : forall fast r0, prun (ctx_of o) orc n ch (Ask (fun i => if in_work i then sweep_work (shards_of o) fast
      (answer (if is_pg pr then complete (bs ("SWEEP " ++ "SYNC")) else [WString (bs "OK")])) else error (bs "ERR failed to do work"))) = r0 ->
    if in_work (orc n) then
       exists ch' evs, r0 = Ok (ch', List.map Out (sweep_reply pr "SWEEP" "SYNC"), evs) /\
         reachable (ctx_of o) ch' /\ swept o (in_now (orc (S n))) ch ch'
     else r0 = Ok (ch, List.map Out no_worker, [])).
  { intros fast r0 Er. rewrite <- Er, prun_ask. destruct (in_work (orc n)); [|apply prun_error].
    match goal with |- context [sweep_work _ fast ?kk] => destruct (sweep_work_spec o orc (S n) ch fast kk R F M) as (ch' & n2 & ev & R' & Sw & E) end.
    rewrite E, prun_answer, Rp. eexists ch', _. split; [reflexivity|]. split; [exact R'|exact Sw]. }
  unfold r, cmdSWEEP. cbn [List.tl List.length]. split; [|split; [|split]].
  - intros [->|(w & -> & W)]; cbn [List.length Nat.ltb Nat.leb sweep_loop].
    + apply (Fg false). reflexivity.
    + rewrite (proj2 (is_word_no w "async")) by (rewrite W; discriminate). rewrite (proj2 (is_word_iff w "fast") W).
      apply (Fg true). reflexivity.
  - intros (w & -> & W). cbn [List.length Nat.ltb Nat.leb sweep_loop]. rewrite (proj2 (is_word_iff w "async") W).
    cbn [prun]. rewrite prun_answer. eexists. split; [rewrite <- Rp; reflexivity|].
    intros orc' n' ch0 R0 F0 M0. destruct (sweep_work_spec o orc' n' ch0 false Done R0 F0 M0) as (ch' & n2 & ev & R' & Em & E).
    rewrite E. cbn [prun]. eexists ch', _. split; [reflexivity|]. split; [exact R'|exact Em].
  - intros L X. destruct rest as [|w [|]]; cbn in L; try lia. cbn [List.length Nat.ltb Nat.leb sweep_loop].
    destruct (is_word w "async") eqn:W1; [destruct X; exists w; split; [reflexivity|right; apply is_word_iff; exact W1]|].
    destruct (is_word w "fast") eqn:W2; [destruct X; exists w; split; [reflexivity|left; apply is_word_iff; exact W2]|].
    apply prun_error.
  - intros L. replace (2 <? S (length rest))%nat with true by (symmetry; apply Nat.ltb_lt; lia). apply prun_error.
Qed.
(** PURGE leaves the cache alone. *)
Theorem C51_purge : forall o orc n ch pr a0 rest,
  exists es, prun (ctx_of o) orc n ch (cmdPURGE pr (a0 :: rest)) = Ok (ch, es, []) /\
  (rest = [] -> es = List.map Out (if in_work (orc n) then sweep_reply pr "PURGE" "SYNC" else no_worker)) /\
  ((exists w, rest = [w] /\ word w "async") -> es = Forked 0 Done :: List.map Out (sweep_reply pr "PURGE" "ASYNC")).
Proof.
  intros o orc n ch pr a0 rest. destruct rest as [|w [|]]; cbn [cmdPURGE].
  - rewrite prun_ask. destruct (in_work (orc n)).
    + rewrite prun_answer. eexists. split; [reflexivity|]. split; [|intros (w & X & _); discriminate].
      intros _. destruct pr; reflexivity.
    + rewrite prun_error. eexists. split; [reflexivity|]. split; [reflexivity|intros (w & X & _); discriminate].
  - destruct (is_word w "async") eqn:W.
    + cbn [prun]. rewrite prun_answer. eexists. split; [reflexivity|]. split; [discriminate|].
      intros _. destruct pr; reflexivity.
    + rewrite prun_error. eexists. split; [reflexivity|]. split; [discriminate|].
      intros (w' & X & Y). injection X as <-. apply is_word_iff in Y. unfold word in Y. congruence.
  - rewrite prun_error. eexists. split; [reflexivity|]. split; [discriminate|intros (w' & X & _); discriminate].
Qed.

(** *** C52: KEYS and DBSIZE *)
(** KEYS replies with exactly the keys that hold a live item and match the pattern, each
    once if no expired item is in the way (C14), and changes nothing. *)
Theorem C52_keys : forall o orc n ch pr a0 pat,
  reachable (ctx_of o) ch -> fine orc -> plain_pattern pat -> in_work (orc n) = true ->
  let now := in_now (orc n) in
  exists ch' keys evs dec, prints dec /\
    prun (ctx_of o) orc n ch (cmdKEYS pr [a0; pat]) = Ok (ch', List.map Out (keys_reply dec pr keys), evs) /\
    (forall key, In key keys <-> live o ch now key /\ lang pat key) /\
    ((forall key, kept o ch key -> live o ch now key) -> NoDup keys) /\
    reachable (ctx_of o) ch' /\ all_same o now ch ch'.
Proof.
  intros o orc n ch pr a0 pat R F [P1 P2] W now. unfold cmdKEYS. rewrite prun_ask, W. cbn [prun].
  destruct (F n) as [[[Hn _] _] _]. fold now in Hn |- *.
  destruct (reachable_step (ctx_of o) (opts_load o) (opts_shards o) ch (in_env (orc (S n)))
    (Iter (Some (fun _ _ _ => (false, false))) None now) R Logic.I) as (ch' & r & ev & E & R' & _ & Sp).
  rewrite E. inversion Sp; subst.
  match goal with H : sp_iter _ _ _ _ _ _ _ _ _ _ |- _ => rename H into Si end.
  rewrite (resolve_pos _ _ Hn) in Si. change (w_map (world_of (ctx_of o) ch)) with (cabs (ctx_of o) ch) in Si.
  change (w_map (world_of (ctx_of o) ch')) with (cabs (ctx_of o) ch') in Si.
  destruct (it_run _ _ _ _ _ _ _ _ _ _ Si) as (stopped & Ru & St).
  assert (Z : deleted = [] /\ stopped = false).
  { clear - Ru. induction Ru as [st0|st0 k w st1 del H|st0 k w st1 del r st2 ds stop H Ru IH].
    - auto.
    - injection H as _ _ H. discriminate.
    - injection H as _ <-. destruct IH as [-> ->]. auto. }
  destruct Z as [-> ->]. subst st.
  set (keys := List.filter (keys_match pat) (List.map fst shown)).
  assert (Rp : prun (ctx_of o) orc (S (S n)) ch' (if is_pg pr then
              answer ([PRowDesc [bs "key"]] ++ List.map (fun k => PRow [k]) keys ++ complete (tag (bs "KEYS") (u64toa (N.of_nat (length keys)))))
            else answer (WArray (N.of_nat (length keys)) :: List.map WBulk keys)) = Ok (ch', List.map Out (keys_reply u64toa pr keys), [])).
  { destruct pr; cbn [is_pg by_proto]; rewrite prun_answer; reflexivity. }
  fold keys. cbv zeta. rewrite Rp. exists ch', keys, (ev ++ []), u64toa. split; [exact u64toa_prints|]. split; [reflexivity|].
  assert (Lv : forall key, In key (List.map fst shown) <-> live o ch now key).
  { intro key. split.
    - intro H. apply in_map_iff in H. destruct H as ([k w] & <- & H). cbn [fst].
      destruct (it_live _ _ _ _ _ _ _ _ _ _ Si k w H) as (_ & it & L & ->).
      exists (shown_of it). apply (sees_iff _ (opts_load o)); [apply reach_cinv; exact R|]. rewrite L. reflexivity.
    - intros (v & S). apply sees_item in S; [|exact R].
      destruct (live_item (cabs (ctx_of o) ch) key now) as [it|] eqn:L; [|discriminate].
      apply in_map_iff. exists (key, shown_of it). split; [reflexivity|].
      apply (it_all _ _ _ _ _ _ _ _ _ _ Si); [discriminate|reflexivity|exact Logic.I|exact L]. }
  assert (Ma : forall key, keys_match pat key = true <-> lang pat key).
  { intro key. rewrite <- (C36_glob pat key P1 P2). unfold keys_match.
    assert (Star : forall s, gmatch [42] 0 s = true) by reflexivity.
    assert (Other : forall b (r : bytes) (x y : bool), b <> 42 ->
      match b :: r with [42] => x | _ => y end = y).
    { clear. intros b r x y Nb. destruct b as [|p]; [reflexivity|].
      do 6 (destruct p as [p|p|]; try reflexivity). congruence. }
    destruct pat as [|b r]; [reflexivity|]. destruct (N.eqb_spec b 42) as [->|Nb].
    - destruct r; [rewrite Star|]; reflexivity.
    - rewrite Other by exact Nb. reflexivity. }
  split; [|split; [|split; [exact R'|]]].
  - intro key. unfold keys. rewrite filter_In, Lv, Ma. reflexivity.
  - intro A. unfold keys. apply NoDup_filter. apply (it_once _ _ _ _ _ _ _ _ _ _ Si); [reflexivity|].
    intros k _. destruct (cabs (ctx_of o) ch k) as [it|] eqn:C.
    + assert (K : kept o ch k).
      { exists (i_exp it - 1)%Z, (shown_of it). apply (sees_iff _ (opts_load o)); [apply reach_cinv; exact R|].
        unfold live_item. rewrite C. unfold alive_at. replace (_ || _) with true; [reflexivity|].
        symmetry. apply orb_true_iff. right. lia. }
      destruct (A k K) as (v & S). apply sees_item in S; [|exact R]. unfold live_item in *. rewrite C in *.
      destruct (alive_at (i_exp it) now); [reflexivity|discriminate].
    + unfold live_item. rewrite C. reflexivity.
  - intro k. apply same_from_abs; [exact R|exact R'|]. intros t Ht.
    destruct (it_kept _ _ _ _ _ _ _ _ _ _ Si k (fun x => x)) as [Q|(_ & L & Q)].
    + unfold live_item. rewrite Q. reflexivity.
    + rewrite (dead_later _ _ _ _ L Ht). unfold live_item. rewrite Q. reflexivity.
Qed.
(** DBSIZE replies with the number of keys in the cache, expired items included. *)
Theorem C52_dbsize : forall o orc n ch pr a0, reachable (ctx_of o) ch ->
  exists x, Spec.number (kept o ch) x /\ (x < 2 ^ 63 ->
  exists ch' evs dec, prints dec /\
    prun (ctx_of o) orc n ch (cmdDBSIZE pr [a0]) = Ok (ch', List.map Out (dbsize_reply dec pr x), evs) /\
    reachable (ctx_of o) ch' /\ forall key, same_at (ctx_of o) ch ch' key).
Proof.
  intros o orc n ch pr a0 R. unfold cmdDBSIZE. cbn [prun].
  destruct (reachable_step (ctx_of o) (opts_load o) (opts_shards o) ch (in_env (orc n)) (Count None) R Logic.I)
    as (ch' & r & ev & E & R' & _ & Sp).
  rewrite E. inversion Sp; subst.
  match goal with H : Spec.number _ n0 |- _ => rename H into Hn end.
  rename n0 into x. exists x. split.
  { refine (Refine.number_ext _ _ _ _ Hn).
    intro k. change (w_map (world_of (ctx_of o) ch)) with (cabs (ctx_of o) ch). split.
    - intros [_ C]. destruct (cabs (ctx_of o) ch k) as [it|] eqn:Ck; [|congruence].
      exists (i_exp it - 1)%Z, (shown_of it). apply (sees_iff _ (opts_load o)); [apply reach_cinv; exact R|].
      unfold live_item. rewrite Ck. unfold alive_at. replace (_ || _) with true; [reflexivity|].
      symmetry. apply orb_true_iff. right. lia.
    - intros (t & v & S). split; [exact Logic.I|]. apply sees_item in S; [|exact R]. unfold live_item in S.
      destruct (cabs (ctx_of o) ch k); [discriminate|]. discriminate S. }
  intro B.
  assert (U : u64 x = x) by (unfold u64; apply N.mod_small; change (2 ^ 63) with 9223372036854775808 in B; lia).
  assert (I : i64_of_u64 x = Z.of_N x).
  { unfold i64_of_u64. change (2 ^ 63) with 9223372036854775808 in *. destruct (N.ltb_spec x 9223372036854775808); [reflexivity|lia]. }
  assert (T : i64toa (Z.of_N x) = u64toa x).
  { unfold i64toa. destruct (Z.ltb_spec (Z.of_N x) 0); [lia|]. rewrite N2Z.id. reflexivity. }
  rewrite U, I. exists ch', (ev ++ []), u64toa. split; [exact u64toa_prints|].
  split; [|split; [exact R'|]].
  - rewrite T. destruct pr; reflexivity.
  - intro k. apply (same_at_abs _ (opts_load o)); [apply reach_cinv; exact R|apply reach_cinv; exact R'|].
    match goal with H : forall k, w_map _ k = _ |- _ => exact (H k) end.
Qed.

(** *** Cases *)
Lemma demo_manned : manned demo_orc.
Proof. intro n. cbn. lia. Qed.
Lemma demo_live : forall key now v, sees demo_c demo_ch key now (Some v) -> live demo_opts demo_ch now key.
Proof. intros key now v S. exists v. exact S. Qed.
(** Two shards with an item that expires at 123 and one that does not. *)
Example C51_case : reachable demo_c demo_ch /\ fine demo_orc /\ manned demo_orc /\ shards_of demo_opts = 2%nat /\
  live demo_opts demo_ch 110 (bs "k1") /\ live demo_opts demo_ch 110 (bs "k3") /\ ~ live demo_opts demo_ch 200 (bs "k1") /\
  flush_named (bs "FlushDB") "FLUSHDB" /\
  flush_spelled [bs "delay"; bs "5"; bs "FAST"] [FDelay 5; FFast] /\
  in_background [FDelay 5; FFast] = true /\ delay_of [FDelay 5; FFast] = 5%Z /\
  flush_spelled [bs "async"; bs "sync"] [FAsync; FSync] /\ in_background [FAsync; FSync] = false /\
  (forall os, ~ flush_spelled [bs "delay"; bs "31536001"] os) /\
  outcome (prun demo_c demo_orc 0 demo_ch (cmdFLUSHALL 2 POSTGRES [bs "flush"; bs "fast"]))
    = Some (List.map Out [PComplete (bs "FLUSH SYNC"); PReady]) /\
  outcome (prun demo_c demo_orc 0 demo_ch (cmdSWEEP 2 RESP [bs "sweep"])) = Some [Out (WString (bs "OK"))].
Proof.
  split; [exact demo_reachable|]. split; [exact demo_fine|]. split; [exact demo_manned|]. split; [reflexivity|].
  split; [eapply demo_live; apply demo_sees_eq; vm_compute; reflexivity|].
  split; [eapply demo_live; apply demo_sees_eq; vm_compute; reflexivity|].
  split.
  { intros (v & S). assert (Z : sees demo_c demo_ch (bs "k1") 200 None) by (apply demo_sees_eq; vm_compute; reflexivity).
    pose proof (sees_unique _ (opts_load demo_opts) _ _ _ _ _ (reach_cinv demo_opts _ demo_reachable) S Z). discriminate. }
  split; [right; left; split; reflexivity|].
  split. { apply fs_delay; [reflexivity|apply int_text_parse; reflexivity|unfold year; lia|]. apply fs_fast; [reflexivity|]. constructor. }
  split; [reflexivity|]. split; [reflexivity|].
  split. { apply fs_async; [reflexivity|]. apply fs_sync; [reflexivity|]. constructor. }
  split; [reflexivity|]. split.
  { intros os S. inversion S; subst; try discriminate.
    match goal with H : int_text _ _ |- _ => apply int_text_parse in H; vm_compute in H; injection H as <- end.
    match goal with H : (_ <= _ <= year)%Z |- _ => unfold year in H; lia end. }
  split; vm_compute; reflexivity.
Qed.
Example C52_case : reachable demo_c demo_ch /\ plain_pattern (bs "k*3") /\ in_work (demo_orc 0) = true /\
  lang (bs "k*3") (bs "k3") /\ live demo_opts demo_ch 110 (bs "k3") /\ ~ lang (bs "k*3") (bs "k1") /\
  outcome (prun demo_c demo_orc 0 demo_ch (cmdKEYS RESP [bs "KEYS"; bs "k*3"]))
    = Some (List.map Out [WArray 1; WBulk (bs "k3")]) /\
  outcome (prun demo_c demo_orc 0 demo_ch (cmdDBSIZE POSTGRES [bs "DBSIZE"]))
    = Some (List.map Out [PRowDesc [bs "count"]; PRow [bs "2"]; PComplete (bs "DBSIZE"); PReady]).
Proof.
  assert (P : plain_pattern (bs "k*3")) by (split; [reflexivity|vm_compute; lia]).
  split; [exact demo_reachable|]. split; [exact P|]. split; [reflexivity|].
  split; [apply C36_glob; [apply P|apply P|vm_compute; reflexivity]|].
  split; [eapply demo_live; apply demo_sees_eq; vm_compute; reflexivity|].
  split; [intro X; apply C36_glob in X; [vm_compute in X; discriminate|apply P|apply P]|].
  split; vm_compute; reflexivity.
Qed.
