(** C81: optimistic locking: SET with the token that was read stores only if nothing was stored in between. *)
From Verif Require Import Base Types Clamp Entry Hash Map Shard Cache Reach Text IntText IntTextProofs CmdTable CmdSpec CmdSpec3 CmdsProofs CmdsProofs3 CmdsProofs4 Prog Cmds Conn ConnSpec ConnProofs7 PropCache SafeSpec SafeProofs2 PropSafe PropSafe2 PropConn Net NetSpec NetProofs PropNet Server ServerSpec ServerProofs ServerProofs2 ServerProofs3 PropReply Base PropCmds PropCursor PropCmds3  PropSafe2 SafeProofs2  PropServer.
From Verif Require Import Spec Observe CmdSpec2 PropCmds2 CmdTableProofs PropText SafeProofs PropServerSafe FrameSpec FrameProofs PropFrame PropTally PropSpan.
From Verif Require Import Refine PropItems PropLock TokProofs TokProofs2 TokProofs3.
From Coq Require Import String Lia.
Local Open Scope N_scope.
Notation length := List.length.
Notation concat := List.concat.
Notation map := List.map.

(** The cache was made by at most so many calls that [n] more tokens can be given before the counters (64 bits) wrap. *)
Definition young (o : opts) (ch : cache) (n : nat) : Prop := exists al ch0 h rs evs, cache_new (ctx_of o) al = Ok (Some ch0) /\ sensible (ctx_of o) ch0 h /\
  run (ctx_of o) ch0 h = Ok (ch, rs, evs) /\ N.of_nat (length h) + N.of_nat n < 2 ^ 64 - 3.
(** SET key val, with options, among them CAS x and not GET. *)
Definition swap (pr : proto) (key : bytes) (x : N) (args : list bytes) : Prop :=
  exists a0 val rest os, word a0 "set" /\ spelled rest os /\ valid pr os /\ ~ In Get os /\ last_cas os = Some x /\ args = a0 :: key :: val :: rest.
(** SET or SETEX of the key, and the client was told that the value was stored. *)
Definition put (e : deed) (key : bytes) (args : list bytes) (es : list eff) : Prop :=
  (exists a0 val rest, word a0 "set" /\ args = a0 :: key :: val :: rest /\ es = map Out (stored_reply (d_proto (e_did e)) "SET")) \/
  (exists a0 ex val, word a0 "setex" /\ args = [a0; key; ex; val] /\ es = map Out (stored_reply (d_proto (e_did e)) "SETEX")).

Section Log.
Variables (o : opts) (cf : config) (orc : nat -> nat -> input).
Hypothesis uc : op_usecas o = true.
Hypothesis Ns : cf_nshards cf = shards_of o.
Hypothesis H : forall j, fine (orc j) /\ manned (orc j) /\ steady (orc j) /\ ample (orc j).
Notation c := (ctx_of o).
Notation rt := (route (ctx_of o)).
Notation ran := (ran c cf orc).
(** What was stored since has a token that was not given before. *)
Definition since (ch ch' : cache) : Prop :=
  (forall k it', cabs c ch' k = Some it' -> (exists it, cabs c ch k = Some it /\ shown_of it' = shown_of it) \/ ccas ch (rt k) < i_cas it') /\
  (forall i, ccas ch i <= ccas ch' i).
Lemma since_refl : forall ch, since ch ch.
Proof. intro ch. split; [intros k it E; left; exists it; auto|intro; lia]. Qed.
Lemma since_trans : forall a b d, since a b -> since b d -> since a d.
Proof.
  intros a b d [A1 A2] [B1 B2]. split; [|intro i; specialize (A2 i); specialize (B2 i); lia]. intros k it E. destruct (B1 k it E) as [(i1 & E1 & S1)|L].
  - destruct (A1 k i1 E1) as [(i2 & E2 & S2)|L]; [left; exists i2; split; [exact E2|congruence]|right].
    change (i_cas it) with (v_cas (shown_of it)). rewrite S1. exact L.
  - right. specialize (A2 (rt k)). lia.
Qed.
Lemma fresh_since : forall a b, fresh o a b -> since a b.
Proof. intros a b [A1 A2]. split; [|intro i; apply A2]. intros k it E. destruct (A1 k it E) as [X|X]; [left; exact X|right; lia]. Qed.
(** A part of the log that begins with the cache [ch]. *)
Record part (i : nat) (ch : cache) (l : list deed) : Prop := {
  pt_reach : reachable c ch;
  pt_tok : tokens_ok o ch;
  pt_room : forall s, ccas ch s + N.of_nat (length l) < 2 ^ 64;
  pt_sized : forall l1 l2 i1 ch1, l = l1 ++ l2 -> ran i ch l1 i1 ch1 -> SafeSpec.sized o (cf_fuel cf) ch1;
  pt_ord : forall e args es, In e l -> snd (d_what (e_did e)) = Some (args, es) -> ordinary o args }.
Lemma part_met : forall i ch e l, part i ch (e :: l) -> met o ch.
Proof. intros i ch e l [R T B _ _]. constructor; [exact R| |exact T]. intro s. specialize (B s). cbn [length] in B. lia. Qed.
Lemma part_one : forall i ch e l args es w ch1 evs, part i ch (e :: l) -> snd (d_what (e_did e)) = Some (args, es) ->
  prun c (working w (orc i)) 0 ch (evcommand cf (e_auth e) (d_proto (e_did e)) args) = Ok (ch1, es, evs) -> part (S i) ch1 l /\ since ch ch1.
Proof.
  intros i ch e l args es w ch1 evs P E X. pose proof (part_met _ _ _ _ P) as M. destruct P as [R T B Sz Od].
  pose proof (Od e args es (or_introl eq_refl) E) as Oa. pose proof (Sz [] (e :: l) i ch eq_refl (ran_end _ _ _ _ _)) as Sz0. destruct (H i) as (F & Mn & St & Am).
  destruct (ordinary_ends o cf (orc i) w ch (e_auth e) (d_proto (e_did e)) args Ns F Mn St R Sz0 Oa) as (ch2 & es2 & ev2 & P2 & R2).
  rewrite X in P2. injection P2 as <- _ _.
  pose proof (any_turn o uc (working w (orc i)) (working_fine w _ F) St cf 0 ch (e_auth e) (d_proto (e_did e)) args M (sz_room _ _ _ Sz0) (proj1 Oa) _ _ _ X) as Fr.
  split; [|exact (fresh_since _ _ Fr)]. constructor.
  - exact R2.
  - exact (fresh_ok o _ _ Fr T).
  - intro s. specialize (B s). cbn [length] in B. pose proof (proj2 Fr s). lia.
  - intros l1 l2 i1 ch3 -> Q. apply (Sz (e :: l1) l2 i1 ch3 eq_refl). eapply ran_command; eassumption.
  - intros e0 a0 s0 I0. apply Od. right. exact I0.
Qed.
Lemma part_ran : forall a b i ch i' ch', ran i ch a i' ch' -> part i ch (a ++ b) -> part i' ch' b /\ since ch ch'.
Proof.
  intros a b i ch i' ch' Rn. induction Rn as [i ch|i ch e l i' ch' E Rn IH|i ch e l i' ch' args es w ch1 evs E P Rn IH]; intro Pt; cbn [app] in Pt.
  - split; [exact Pt|apply since_refl].
  - apply IH. destruct Pt as [R T B Sz Od]. constructor; try assumption.
    + intro s. specialize (B s). cbn [length] in B. lia.
    + intros l1 l2 i1 ch1 El Q. apply (Sz (e :: l1) l2 i1 ch1); [cbn [app]; rewrite El; reflexivity|]. apply ran_reply; assumption.
    + intros e0 a0 s0 I0. apply Od. right. exact I0.
  - destruct (part_one _ _ _ _ _ _ _ _ _ Pt E P) as [P1 S1]. destruct (IH P1) as [P2 S2]. split; [exact P2|eapply since_trans; eassumption].
Qed.
Lemma sees_abs : forall ch key t v, reachable c ch -> (sees c ch key t (Some v) <-> exists it, cabs c ch key = Some it /\ alive_at (i_exp it) t = true /\ shown_of it = v).
Proof.
  intros ch key t v R. pose proof (sees_iff c (opts_load o) ch key t (Some v) (reachable_inv c (opts_load o) (opts_shards o) ch R)) as S. rewrite S. clear S.
  unfold live_item. split.
  - destruct (cabs c ch key) as [it|]; [|discriminate]. destruct (alive_at (i_exp it) t) eqn:A; [|discriminate]. intro X. injection X as ->. eauto.
  - intros (it & -> & -> & <-). reflexivity.
Qed.
(** SET key val CAS x that was told stored found an item with the token x. *)
Lemma swapped : forall i ch w e key x args ch' evs, reachable c ch -> SafeSpec.sized o (cf_fuel cf) ch -> ordinary o args -> allowed cf e ->
  swap (d_proto (e_did e)) key x args ->
  prun c (working w (orc i)) 0 ch (evcommand cf (e_auth e) (d_proto (e_did e)) args) = Ok (ch', map Out (stored_reply (d_proto (e_did e)) "SET"), evs) ->
  exists v, sees c ch key (in_now (orc i 0%nat)) (Some v) /\ v_cas v = x.
Proof.
  intros i ch w e key x args ch' evs R Sz [Oa _] A (a0 & val & rest & os & W & Sp & V & Ng & Nc & ->) P.
  destruct (H i) as (F & _ & St & Am).
  assert (Ft : CmdSpec.fits o ch key val).
  { destruct (proj1 (Forall_forall _ _) Oa key ltac:(cbn; tauto)) as [B2 L2]. destruct (proj1 (Forall_forall _ _) Oa val ltac:(cbn; tauto)) as [B4 L4].
    apply fits_of; try assumption; [exact (sz_room _ _ _ Sz)|]. change (2 ^ 61) with 2305843009213693952 in L2, L4. change (2 ^ 62) with 4611686018427387904. lia. }
  rewrite (allowed_runs cf e (a0 :: key :: val :: rest) 0 A (get_at _ "set" 0%nat W eq_refl)) in P. cbn [cmd_func nth] in P.
  destruct (sees_some o ch key (in_now (orc i 0%nat)) R) as [old So].
  destruct (PropCmds.C28_set o (working w (orc i)) 0 ch (d_proto (e_did e)) a0 key val rest os old R (working_fine w _ F) (fun _ => St) Ft Sp V So) as (c' & reply & evs' & i' & y & _ & P' & (l & ->) & _ & D).
  rewrite P in P'. injection P' as _ Er _.
  destruct D as (_ & D1 & _). rewrite (Am l : in_lowmem (working w (orc i) l) = false) in D1.
  assert (Nr : ~ CmdSpec.refused (op_usecas o) os old).
  { intro Rf. destruct (D1 eq_refl Rf) as (_ & Rp & _). rewrite (Rp Ng) in Er. unfold stored_reply, refused_reply, done_pg in Er. destruct (d_proto (e_did e)); cbn in Er; try discriminate Er. destruct old; discriminate Er. }
  unfold CmdSpec.refused in Nr. rewrite Nc in Nr. destruct old as [v|]; [|destruct (Nr Logic.I)].
  exists v. split; [exact So|]. destruct (N.eq_dec x (v_cas v)) as [->|Ne]; [reflexivity|]. destruct Nr. right. exact Ne.
Qed.
(** And if it finds one it is told stored. *)
Lemma swaps : forall i ch w e key v args ch' es evs, reachable c ch -> SafeSpec.sized o (cf_fuel cf) ch -> ordinary o args -> allowed cf e ->
  swap (d_proto (e_did e)) key (v_cas v) args -> sees c ch key (in_now (orc i 0%nat)) (Some v) ->
  prun c (working w (orc i)) 0 ch (evcommand cf (e_auth e) (d_proto (e_did e)) args) = Ok (ch', es, evs) -> es = map Out (stored_reply (d_proto (e_did e)) "SET").
Proof.
  intros i ch w e key v args ch' es evs R Sz [Oa _] A (a0 & val & rest & os & W & Sp & V & Ng & Nc & ->) So P.
  destruct (H i) as (F & _ & St & Am).
  assert (Ft : CmdSpec.fits o ch key val).
  { destruct (proj1 (Forall_forall _ _) Oa key ltac:(cbn; tauto)) as [B2 L2]. destruct (proj1 (Forall_forall _ _) Oa val ltac:(cbn; tauto)) as [B4 L4].
    apply fits_of; try assumption; [exact (sz_room _ _ _ Sz)|]. change (2 ^ 61) with 2305843009213693952 in L2, L4. change (2 ^ 62) with 4611686018427387904. lia. }
  rewrite (allowed_runs cf e (a0 :: key :: val :: rest) 0 A (get_at _ "set" 0%nat W eq_refl)) in P. cbn [cmd_func nth] in P.
  destruct (PropCmds.C28_set o (working w (orc i)) 0 ch (d_proto (e_did e)) a0 key val rest os (Some v) R (working_fine w _ F) (fun _ => St) Ft Sp V So) as (c' & reply & evs' & i' & y & _ & P' & (l & ->) & _ & D).
  rewrite P in P'. injection P' as _ -> _.
  destruct D as (_ & _ & D2). rewrite (Am l : in_lowmem (working w (orc i) l) = false) in D2.
  destruct (D2 eq_refl) as (_ & Rp & _); [|rewrite (Rp Ng); reflexivity].
  unfold CmdSpec.refused. rewrite Nc. intros [X|X]; [congruence|apply X; reflexivity].
Qed.
(** A put gives the key a token that was not given before. *)
Lemma put_renews : forall i ch l w e key args ch' es evs, part i ch (e :: l) -> snd (d_what (e_did e)) = Some (args, es) -> allowed cf e -> put e key args es ->
  prun c (working w (orc i)) 0 ch (evcommand cf (e_auth e) (d_proto (e_did e)) args) = Ok (ch', es, evs) -> renewed o ch ch' key.
Proof.
  intros i ch l w e key args ch' es evs Pt E A Pu X. pose proof (part_met _ _ _ _ Pt) as M. destruct Pt as [R T B Sz Od].
  pose proof (Od e args es (or_introl eq_refl) E) as Oa. pose proof (Sz [] (e :: l) i ch eq_refl (ran_end _ _ _ _ _)) as Sz0. destruct (H i) as (F & Mn & St & Am).
  destruct Pu as [(a0 & val & rest & W & -> & ->)|(a0 & ex & val & W & -> & ->)].
  - rewrite (allowed_runs cf e (a0 :: key :: val :: rest) 0 A (get_at _ "set" 0%nat W eq_refl)) in X. cbn [cmd_func nth] in X.
    exact (set_wrote o uc (working w (orc i)) (working_fine w _ F) St _ _ _ _ _ _ _ _ _ M (sz_room _ _ _ Sz0) (proj1 Oa) X).
  - rewrite (allowed_runs cf e [a0; key; ex; val] 8 A (get_at _ "setex" 8%nat W eq_refl)) in X. cbn [cmd_func nth] in X.
    exact (setex_wrote o uc (working w (orc i)) (working_fine w _ F) _ _ _ _ _ _ _ _ _ M (sz_room _ _ _ Sz0) (proj1 Oa) X).
Qed.
End Log.

Lemma young_part : forall o cf orc pg size ss ch t, served o cf orc pg size ss ch t -> op_usecas o = true -> young o ch (length (g_log (t_shared t))) ->
  part o cf orc 0 ch (g_log (t_shared t)).
Proof.
  intros o cf orc pg size ss ch t [Ps Po Er B R Ns H Mono Sz Od] uc (al & ch0 & h & rs & evs & Nw & S1 & R1 & L).
  destruct (new_ok _ (opts_load o) (opts_shards o) al ch0 Nw) as (I0 & _ & _ & A0 & C0).
  destruct (run_refines _ (opts_load o) (opts_shards o) h ch0 I0 S1) as (x1 & x2 & x3 & E1 & G1 & P1).
  rewrite R1 in E1. injection E1 as <- <- <-.
  change (c_usecas (ctx_of o)) with (op_usecas o) in *. rewrite uc in P1. change (c_noevict (ctx_of o)) with (op_noevict o) in *.
  assert (T0 : tok_inv o (world_of (ctx_of o) ch0)).
  { intros k0 it X. cbn in X. rewrite A0 in X. discriminate X. }
  destruct (tok_run o h _ _ _ 1 P1 T0) as (T1 & M1).
  { intro i. cbn [w_cas world_of]. rewrite C0. unfold empty_world. cbn [w_cas]. destruct (_ <? _)%nat; lia. }
  { lia. }
  constructor; try assumption. intro s. pose proof (proj2 (M1 s)) as M2. cbn [w_cas world_of] in M2. change (2 ^ 64) with 18446744073709551616 in *. lia.
Qed.

(** MGETS tells for each key what is there, with its token. If SET with such a token, by any client, is told that it stored, then up to that
    moment there was all the time under the key just what MGETS told: whoever read the key in between was told so, and no SET and no SETEX of
    the key was told in between that it stored. *)
Theorem C81_exact : forall o cf orc pg size ss ch t l1 e1 mid e2 l2 g keys es1 args2 es2, served o cf orc pg size ss ch t ->
  op_usecas o = true -> young o ch (length (g_log (t_shared t))) ->
  g_log (t_shared t) = l1 ++ e1 :: mid ++ e2 :: l2 -> allowed cf e1 -> allowed cf e2 ->
  word g "mgets" -> keys <> [] -> snd (d_what (e_did e1)) = Some (g :: keys, es1) -> snd (d_what (e_did e2)) = Some (args2, es2) ->
  let i2 := commands (l1 ++ e1 :: mid) in
  exists dec olds, prints dec /\ length olds = length keys /\ es1 = map Out (mget_reply dec (d_proto (e_did e1)) true (combine keys olds)) /\
    forall key v, In (key, Some v) (combine keys olds) -> swap (d_proto (e_did e2)) key (v_cas v) args2 -> es2 = map Out (stored_reply (d_proto (e_did e2)) "SET") ->
      (exists ch3, ran (ctx_of o) cf orc 0 ch (l1 ++ e1 :: mid) i2 ch3 /\ sees (ctx_of o) ch3 key (in_now (orc i2 0%nat)) (Some v)) /\
      (forall m1 em m2 args es, mid = m1 ++ em :: m2 -> allowed cf em -> snd (d_what (e_did em)) = Some (args, es) ->
        (forall gg, word gg "get" -> args = [gg; key] -> exists dec', prints dec' /\ es = map Out (get_reply dec' (d_proto (e_did em)) key (Some v))) /\
        ~ put em key args es).
Proof.
  intros o cf orc pg size ss ch t l1 e1 mid e2 l2 g keys es1 args2 es2 Sv uc Yg El A1 A2 Wg Nk Q1 Q2 i2.
  pose proof (young_part _ _ _ _ _ _ _ _ Sv uc Yg) as Pt. destruct Sv as [Ps Po Er B R Ns H Mono _ _].
  destruct (C59_server _ _ _ _ _ _ _ _ Ps Po Er B) as (Rn & _). rewrite El in Rn, Pt.
  destruct (ran_split _ _ _ _ _ _ _ _ _ Rn) as (i1 & ch1 & Ra & Rb).
  destruct (part_ran o cf orc uc Ns H _ _ _ _ _ _ Ra Pt) as [Pt1 _].
  destruct (ran_first _ _ _ _ _ _ _ _ _ _ _ Rb Q1) as (w1 & ch2 & ev1 & P1 & Rc).
  destruct (part_one o cf orc uc Ns H _ _ _ _ _ _ _ _ _ Pt1 Q1 P1) as [Pt2 S12].
  destruct (ran_split _ _ _ _ _ _ _ _ _ Rc) as (i3 & ch3 & Rd & Re).
  destruct (part_ran o cf orc uc Ns H _ _ _ _ _ _ Rd Pt2) as [Pt3 S23].
  destruct (ran_first _ _ _ _ _ _ _ _ _ _ _ Re Q2) as (w2 & ch4 & ev2 & P2 & _).
  assert (Rp : ran (ctx_of o) cf orc 0 ch (l1 ++ e1 :: mid) i3 ch3) by (eapply ran_join; [exact Ra|eapply ran_command; [exact Q1|exact P1|exact Rd]]).
  assert (Ei : i3 = i2) by (rewrite (ran_commands _ _ _ _ _ _ _ _ Rp); reflexivity). rewrite Ei in *. clear Ei.
  pose proof (pt_reach _ _ _ _ _ _ Pt1) as R1. pose proof (pt_reach _ _ _ _ _ _ Pt3) as R3.
  destruct (H i1) as (F1 & _).
  rewrite (allowed_runs cf e1 (g :: keys) 4 A1 (get_at _ "mgets" 4%nat Wg eq_refl)) in P1. cbn [cmd_func nth] in P1.
  destruct (C32_mget o (working w1 (orc i1)) 0 ch1 (d_proto (e_did e1)) g keys true R1 (working_fine w1 _ F1) Nk ltac:(tauto)) as (c' & evs' & olds & dec & _ & Pd & F2 & Pm & _).
  rewrite P1 in Pm. injection Pm as _ -> _.
  exists dec, olds. split; [exact Pd|]. split; [clear - F2; induction F2; cbn [length]; congruence|]. split; [reflexivity|].
  intros key v Iv Sw Es2.
  assert (So1 : sees (ctx_of o) ch1 key (in_now (orc i1 0%nat)) (Some v)).
  { clear - F2 Iv. revert Iv. induction F2 as [|k0 o0 ks os Hh Ht IH]; cbn [combine In]; [tauto|]. intros [X|X]; [injection X as -> ->; exact Hh|exact (IH X)]. }
  apply (sees_abs o) in So1; [|exact R1]. destruct So1 as (it1 & C1 & _ & V1).
  pose proof (pt_tok _ _ _ _ _ _ Pt1 _ _ C1) as T1.
  assert (Vc : i_cas it1 = v_cas v) by (rewrite <- V1; reflexivity). rewrite Vc in T1.
  pose proof (pt_sized _ _ _ _ _ _ Pt3 [] _ _ _ eq_refl (ran_end _ _ _ _ _)) as Sz3.
  pose proof (pt_ord _ _ _ _ _ _ Pt3 _ _ _ (or_introl eq_refl) Q2) as O2. rewrite Es2 in P2.
  destruct (swapped o cf orc Ns H _ _ _ _ _ _ _ _ _ R3 Sz3 O2 A2 Sw P2) as (v2 & So2 & Vx).
  pose proof So2 as So3. apply (sees_abs o) in So3; [|exact R3]. destruct So3 as (it2 & C2 & Al2 & V2).
  assert (Vi : i_cas it2 = v_cas v) by (rewrite <- Vx, <- V2; reflexivity).
  assert (Back : forall chm, since o ch1 chm -> since o chm ch3 -> exists itm, cabs (ctx_of o) chm key = Some itm /\ shown_of it2 = shown_of itm).
  { intros chm Sa Sb. destruct (proj1 Sb key it2 C2) as [X|X]; [exact X|]. exfalso. pose proof (proj2 Sa (route (ctx_of o) key)). lia. }
  assert (Same : shown_of it2 = v).
  { destruct (Back ch1 (since_refl o cf orc Ns H ch1) (since_trans o cf orc Ns H _ _ _ S12 S23)) as (ix & Cx & Sx). rewrite C1 in Cx. injection Cx as <-. congruence. }
  assert (Evs : v2 = v) by congruence. rewrite Evs in *. clear Evs v2.
  split; [exists ch3; split; [exact Rp|exact So2]|].
  intros m1 em m2 args es Em Am_ Qm. rewrite Em in Rd. destruct (ran_split _ _ _ _ _ _ _ _ _ Rd) as (im & chm & Rm1 & Rm2).
  rewrite Em, <- app_assoc in Pt2. destruct (part_ran o cf orc uc Ns H _ _ _ _ _ _ Rm1 Pt2) as [Ptm S2m]. cbn [app] in Ptm.
  destruct (ran_first _ _ _ _ _ _ _ _ _ _ _ Rm2 Qm) as (wm & chn & evm & Pm & Rn2).
  destruct (part_one o cf orc uc Ns H _ _ _ _ _ _ _ _ _ Ptm Qm Pm) as [Ptn Smn].
  destruct (part_ran o cf orc uc Ns H _ _ _ _ _ _ Rn2 Ptn) as [_ Sn3].
  pose proof (since_trans o cf orc Ns H _ _ _ S12 S2m) as S1m.
  split.
  - intros gg Wgg ->. destruct (H im) as (Fm & _).
    destruct (Back chm S1m (since_trans o cf orc Ns H _ _ _ Smn Sn3)) as (itm & Cm & Sm).
    assert (Som : sees (ctx_of o) chm key (in_now (orc im 0%nat)) (Some v)).
    { apply (sees_abs o); [exact (pt_reach _ _ _ _ _ _ Ptm)|]. exists itm. split; [exact Cm|]. split; [|congruence].
      replace (i_exp itm) with (i_exp it2) by (change (v_exp (shown_of it2) = v_exp (shown_of itm)); congruence).
      apply (alive_before o cf Ns _ (in_now (orc i2 0%nat))); [exact Al2|]. apply Mono. pose proof (ran_grows _ _ _ _ _ _ _ _ Rn2). lia. }
    rewrite (allowed_runs cf em [gg; key] 1 Am_ (get_at _ "get" 1%nat Wgg eq_refl)) in Pm. cbn [cmd_func nth] in Pm.
    destruct (C32_get o (working wm (orc im)) 0 chm (d_proto (e_did em)) gg key _ (pt_reach _ _ _ _ _ _ Ptm) (working_fine wm _ Fm) Som) as (cx & evx & dx & _ & Pdx & Px & _).
    rewrite Pm in Px. injection Px as _ -> _. exists dx. split; [exact Pdx|reflexivity].
  - intro Pu. destruct (put_renews o cf orc uc Ns H _ _ _ _ _ _ _ _ _ _ Ptm Qm Am_ Pu Pm) as (itn & Cn & Tn).
    destruct (Back chn (since_trans o cf orc Ns H _ _ _ S1m Smn) Sn3) as (itx & Cx & Sx). rewrite Cn in Cx. injection Cx as <-.
    assert (i_cas it2 = i_cas itn) by (change (v_cas (shown_of it2) = v_cas (shown_of itn)); congruence).
    pose proof (proj2 S1m (route (ctx_of o) key)). lia.
Qed.
(** So of all clients that read the same token only one can store with it; the others are told that somebody was faster. *)
Theorem C81_once : forall o cf orc pg size ss ch t l1 e1 mid e2 l2 e3 l3 g keys es1 args2 es2 args3 es3, served o cf orc pg size ss ch t ->
  op_usecas o = true -> young o ch (length (g_log (t_shared t))) ->
  g_log (t_shared t) = l1 ++ e1 :: mid ++ e2 :: l2 ++ e3 :: l3 -> allowed cf e1 -> allowed cf e2 -> allowed cf e3 ->
  word g "mgets" -> keys <> [] -> snd (d_what (e_did e1)) = Some (g :: keys, es1) -> snd (d_what (e_did e2)) = Some (args2, es2) -> snd (d_what (e_did e3)) = Some (args3, es3) ->
  exists dec olds, prints dec /\ length olds = length keys /\ es1 = map Out (mget_reply dec (d_proto (e_did e1)) true (combine keys olds)) /\
    forall key v, In (key, Some v) (combine keys olds) -> swap (d_proto (e_did e2)) key (v_cas v) args2 -> swap (d_proto (e_did e3)) key (v_cas v) args3 ->
      ~ (es2 = map Out (stored_reply (d_proto (e_did e2)) "SET") /\ es3 = map Out (stored_reply (d_proto (e_did e3)) "SET")).
Proof.
  intros o cf orc pg size ss ch t l1 e1 mid e2 l2 e3 l3 g keys es1 args2 es2 args3 es3 Sv uc Yg El A1 A2 A3 Wg Nk Q1 Q2 Q3.
  assert (El' : g_log (t_shared t) = l1 ++ e1 :: (mid ++ e2 :: l2) ++ e3 :: l3) by (rewrite El, <- app_assoc; reflexivity).
  destruct (C81_exact o cf orc pg size ss ch t l1 e1 (mid ++ e2 :: l2) e3 l3 g keys es1 args3 es3 Sv uc Yg El' A1 A3 Wg Nk Q1 Q3) as (dec & olds & Pd & Le & Er & X).
  exists dec, olds. split; [exact Pd|]. split; [exact Le|]. split; [exact Er|]. intros key v Iv Sw2 Sw3 [Y2 Y3].
  destruct (X key v Iv Sw3 Y3) as [_ Z]. apply (proj2 (Z mid e2 l2 args2 es2 eq_refl A2 Q2)). left.
  destruct Sw2 as (a0 & val & rest & os & W & _ & _ & _ & _ & Ea). exists a0, val, rest. auto.
Qed.
(** If nothing may change the key in between and its time has not ended, SET with the token is told that it stored. *)
Theorem C81_accepted : forall o cf orc pg size ss ch t l1 e1 mid e2 l2 g keys es1 args2 es2, served o cf orc pg size ss ch t -> op_usecas o = true ->
  g_log (t_shared t) = l1 ++ e1 :: mid ++ e2 :: l2 -> allowed cf e1 -> allowed cf e2 ->
  word g "mgets" -> keys <> [] -> snd (d_what (e_did e1)) = Some (g :: keys, es1) -> snd (d_what (e_did e2)) = Some (args2, es2) ->
  let now2 := in_now (orc (commands (l1 ++ e1 :: mid)) 0%nat) in
  exists dec olds, prints dec /\ length olds = length keys /\ es1 = map Out (mget_reply dec (d_proto (e_did e1)) true (combine keys olds)) /\
    forall key v, In (key, Some v) (combine keys olds) -> swap (d_proto (e_did e2)) key (v_cas v) args2 ->
      (forall e args es, In e mid -> snd (d_what (e_did e)) = Some (args, es) -> ~ writes args key) -> v_exp v = 0%Z \/ (now2 < v_exp v)%Z ->
      es2 = map Out (stored_reply (d_proto (e_did e2)) "SET").
Proof.
  intros o cf orc pg size ss ch t l1 e1 mid e2 l2 g keys es1 args2 es2 Sv uc El A1 A2 Wg Nk Q1 Q2 now2.
  destruct (between o cf orc pg size ss ch t l1 e1 mid e2 l2 _ es1 _ es2 Sv El Q1 Q2) as (w1 & w2 & ch1 & ch2 & ch3 & ch4 & ev1 & ev2 & R1 & Sz1 & O1 & P1 & R2 & R3 & Sz3 & O2 & P2 & Rd & Rest & Ords).
  destruct Sv as [_ _ _ _ _ Ns H Mono _ _]. destruct (H (commands l1)) as (F1 & _).
  rewrite (allowed_runs cf e1 (g :: keys) 4 A1 (get_at _ "mgets" 4%nat Wg eq_refl)) in P1. cbn [cmd_func nth] in P1.
  destruct (C32_mget o (working w1 (orc (commands l1))) 0 ch1 (d_proto (e_did e1)) g keys true R1 (working_fine w1 _ F1) Nk ltac:(tauto)) as (c' & evs' & olds & dec & _ & Pd & F2 & Pm & As).
  rewrite P1 in Pm. injection Pm as <- -> _.
  exists dec, olds. split; [exact Pd|]. split; [clear - F2; induction F2; cbn [length]; congruence|]. split; [reflexivity|].
  intros key v Iv Sw Nw Hx.
  assert (So1 : sees (ctx_of o) ch1 key (in_now (orc (commands l1) 0%nat)) (Some v)).
  { clear - F2 Iv. revert Iv. induction F2 as [|k0 o0 ks os Hh Ht IH]; cbn [combine In]; [tauto|]. intros [X|X]; [injection X as -> ->; exact Hh|exact (IH X)]. }
  assert (Lt : (in_now (orc (commands l1) 0%nat) <= now2)%Z).
  { apply Mono. pose proof (ran_grows _ _ _ _ _ _ _ _ Rd). lia. }
  assert (So : sees (ctx_of o) ch1 key now2 (Some v)).
  { apply (sees_abs o) in So1; [|exact R1]. destruct So1 as (it & C1 & _ & V1). apply (sees_abs o); [exact R1|]. exists it. split; [exact C1|]. split; [|exact V1].
    rewrite <- V1 in Hx. cbn [shown_of v_exp] in Hx. unfold alive_at. destruct (Z.eqb_spec (i_exp it) 0); [reflexivity|]. cbn [orb]. lia. }
  apply (swaps o cf orc uc Ns H (commands (l1 ++ e1 :: mid)) ch3 w2 e2 key v args2 ch4 es2 ev2 R3 Sz3 O2 A2 Sw); [|exact P2].
  destruct (mid_kept o cf orc Ns H mid _ ch2 _ ch3 now2 key Rd R2 Rest) as [K _].
  { intros e args es Ie Qe. split; [exact (Ords e args es Ie Qe)|exact (Nw e args es Ie Qe)]. }
  { intros j Hj n. apply Mono. exact Hj. }
  apply K; [unfold now2; lia|]. apply (As key); [exact Lt|exact So].
Qed.

(** *** A case: two clients have the same token; the first to store wins *)
Definition cas_read : list bytes := [bs "MGETS"; bs "k3"].
Definition cas_get : list bytes := [bs "GET"; bs "k3"].
Definition cas_b : list bytes := [bs "SET"; bs "k3"; bs "b"; bs "CAS"; bs "2"].
Definition cas_a : list bytes := [bs "SET"; bs "k3"; bs "a"; bs "CAS"; bs "2"].
Definition cas_steps : list (nstep shared) :=
  [SRound (server_answers (demo_read [(5%nat, RData (line "MGETS k3")); (6%nat, RData (line "GET k3" ++ line "SET k3 b CAS 2"))])) [mkEvent 5 true; mkEvent 6 true];
   SRound (server_answers (demo_read [(5%nat, RData (line "SET k3 a CAS 2"))])) [mkEvent 5 true]].
Definition cas_end : thread cdata shared job := Eval vm_compute in end_of (span_run cas_steps (thread_new (shared_new demo_ch))).
Lemma cas_can : server_possible demo_c case_cf span_orc no_pages 8 cas_steps (thread_new (shared_new demo_ch)) /\ Forall (polite demo_c case_cf span_orc) cas_steps.
Proof. split; [unfold cas_steps; next_round; next_round; exact I|]. constructor; [intros fd g; apply no_others|constructor; [intros fd g; apply no_others|constructor]]. Qed.
Lemma cas_ran : span_run cas_steps (thread_new (shared_new demo_ch)) = NOk cas_end.
Proof. vm_compute. reflexivity. Qed.
Definition cas1 : cache := Eval vm_compute in then_ 0 cas_read demo_ch.
Definition cas2 : cache := Eval vm_compute in then_ 1 cas_get cas1.
Definition cas3 : cache := Eval vm_compute in then_ 2 cas_b cas2.
Definition cas4 : cache := Eval vm_compute in then_ 3 cas_a cas3.
Lemma cas1_ok : reachable demo_c cas1 /\ SafeSpec.sized demo_opts 40 cas1.
Proof. span_next 0%nat (conj demo_reachable demo_sized) cas_read. Qed.
Lemma cas2_ok : reachable demo_c cas2 /\ SafeSpec.sized demo_opts 40 cas2.
Proof. span_next 1%nat cas1_ok cas_get. Qed.
Lemma cas3_ok : reachable demo_c cas3 /\ SafeSpec.sized demo_opts 40 cas3.
Proof. span_next 2%nat cas2_ok cas_b. Qed.
Lemma cas4_ok : reachable demo_c cas4 /\ SafeSpec.sized demo_opts 40 cas4.
Proof. span_next 3%nat cas3_ok cas_a. Qed.
Lemma cas_log : exists e1 e2 e3 e4, g_log (t_shared cas_end) = [e1; e2; e3; e4] /\
  (forall e, In e [e1; e2; e3; e4] -> e_auth e = false /\ d_proto (e_did e) = RESP) /\
  snd (d_what (e_did e1)) = Some (cas_read, [Out (WArray 1); Out (WArray 3); Out (WUint 0); Out (WUint 2); Out (WBulk [])]) /\
  snd (d_what (e_did e2)) = Some (cas_get, [Out (WBulk [])]) /\ snd (d_what (e_did e3)) = Some (cas_b, [Out (WString (bs "OK"))]) /\
  snd (d_what (e_did e4)) = Some (cas_a, [Out WNull]).
Proof.
  eexists _, _, _, _. split; [vm_compute; reflexivity|]. split; [intros e I; repeat (destruct I as [<-|I]; [split; vm_compute; reflexivity|]); destruct I|].
  repeat split; vm_compute; reflexivity.
Qed.
Lemma cas_served : served demo_opts case_cf span_orc no_pages 8 cas_steps demo_ch cas_end.
Proof.
  destruct cas_log as (e1 & e2 & e3 & e4 & G & Al & W1 & W2 & W3 & W4).
  split; change (ctx_of demo_opts) with demo_c; [exact (proj1 cas_can)|exact (proj2 cas_can)|exact cas_ran|vm_compute; reflexivity|exact demo_reachable|reflexivity|exact span_input| | |].
  - exact (sv_clock _ _ _ _ _ _ _ _ span_served).
  - rewrite G. intros l1 l2 i ch1 E R.
    assert (Fo : passes 0 demo_ch [e1; e2; e3; e4] [cas1; cas2; cas3; cas4]).
    { cbn [passes].
      destruct (Al e1 ltac:(cbn; tauto)) as [A1 P1]. destruct (Al e2 ltac:(cbn; tauto)) as [A2 P2]. destruct (Al e3 ltac:(cbn; tauto)) as [A3 P3].
      destruct (Al e4 ltac:(cbn; tauto)) as [A4 P4]. rewrite A1, A2, A3, A4, P1, P2, P3, P4.
      split; [eexists _, _; split; [exact W1|]; intros []; eexists _, _; vm_compute; reflexivity|].
      split; [eexists _, _; split; [exact W2|]; intros []; eexists _, _; vm_compute; reflexivity|].
      split; [eexists _, _; split; [exact W3|]; intros []; eexists _, _; vm_compute; reflexivity|].
      split; [eexists _, _; split; [exact W4|]; intros []; eexists _, _; vm_compute; reflexivity|exact I]. }
    destruct (passes_ran _ _ _ _ Fo l1 l2 i ch1 E R) as [Q|[Q|[Q|[Q|[Q|[]]]]]]; [rewrite Q|rewrite <- Q..].
    + exact demo_sized.
    + exact (proj2 cas1_ok).
    + exact (proj2 cas2_ok).
    + exact (proj2 cas3_ok).
    + exact (proj2 cas4_ok).
  - rewrite G. intros e args es I W. destruct I as [<-|[<-|[<-|[<-|[]]]]]; [rewrite W1 in W|rewrite W2 in W|rewrite W3 in W|rewrite W4 in W]; injection W as <- _; apply ordinary_short; reflexivity.
Qed.
Lemma cas_swap : forall v, swap RESP (bs "k3") 2 [bs "SET"; bs "k3"; v; bs "CAS"; bs "2"].
Proof.
  intro v. exists (bs "SET"), v, [bs "CAS"; bs "2"], [Cas 2]. split; [reflexivity|]. split.
  { apply spell_cas; [reflexivity| |constructor]. split; [cbn; lia|]. split; [discriminate|]. right. exists false, 2. split; [|split; [reflexivity|reflexivity]].
    exists [], [], (bs "2"). split; [reflexivity|]. split; [constructor|]. split; [left; reflexivity|]. split; [split; [discriminate|repeat constructor]|reflexivity]. }
  split; [split; [intros _ u z [E|[]]; discriminate E|]; split; [intros [E|[]]; discriminate E|]; intros [E _]; destruct E as [E|[]]; discriminate E|].
  split; [intros [E|[]]; discriminate E|]. split; reflexivity.
Qed.
Lemma demo_young : young demo_opts demo_ch 4.
Proof.
  destruct PropCache.demo_run as (rs & evs & R). exists (fun _ => true), demo_new, demo_history, rs, evs. change (ctx_of demo_opts) with demo_c.
  split; [exact demo_is_new|]. split; [exact demo_sensible|]. split; [exact R|reflexivity].
Qed.
Lemma cas_spares : ~ writes cas_get (bs "k3").
Proof.
  intro W. remember cas_get as l eqn:El. remember (bs "k3") as k eqn:Ek. unfold cas_get in El.
  destruct W as [name key rest Hn|name keys key Hn Hi|name rest key Hn].
  - injection El as E _ _. rewrite E in Hn. repeat (destruct Hn as [Hn|Hn]; [discriminate Hn|]). exact Hn.
  - injection El as E _. rewrite E in Hn. discriminate Hn.
  - injection El as E _. rewrite E in Hn. repeat (destruct Hn as [Hn|Hn]; [discriminate Hn|]). exact Hn.
Qed.
(** The hypotheses of C81_exact and C81_accepted for the first and the third command (stored), with a GET in between; those of C81_once
    for the last two, the second of which is refused. *)
Example C81_case : exists e1 e2 e3 e4 es1 es3 es4,
  served demo_opts case_cf span_orc no_pages 8 cas_steps demo_ch cas_end /\ op_usecas demo_opts = true /\
  young demo_opts demo_ch (length (g_log (t_shared cas_end))) /\
  g_log (t_shared cas_end) = [] ++ e1 :: [e2] ++ e3 :: [e4] /\
  g_log (t_shared cas_end) = [] ++ e1 :: [e2] ++ e3 :: [] ++ e4 :: [] /\
  (forall e, In e [e1; e2; e3; e4] -> allowed case_cf e) /\ word (bs "MGETS") "mgets" /\
  snd (d_what (e_did e1)) = Some (bs "MGETS" :: [bs "k3"], es1) /\
  snd (d_what (e_did e3)) = Some (cas_b, es3) /\ snd (d_what (e_did e4)) = Some (cas_a, es4) /\
  (exists v, es1 = map Out (mget_reply (fun _ => []) (d_proto (e_did e1)) true [(bs "k3", Some v)]) /\ v_exp v = 0%Z /\
     swap (d_proto (e_did e3)) (bs "k3") (v_cas v) cas_b /\ swap (d_proto (e_did e4)) (bs "k3") (v_cas v) cas_a) /\
  es3 = map Out (stored_reply (d_proto (e_did e3)) "SET") /\ es4 <> map Out (stored_reply (d_proto (e_did e4)) "SET") /\
  (forall e args es, In e [e2] -> snd (d_what (e_did e)) = Some (args, es) -> ~ writes args (bs "k3")).
Proof.
  destruct cas_log as (e1 & e2 & e3 & e4 & G & Al & W1 & W2 & W3 & W4). exists e1, e2, e3, e4.
  assert (Pr : forall e, In e [e1; e2; e3; e4] -> d_proto (e_did e) = RESP) by (intros e I; exact (proj2 (Al e I))).
  rewrite (Pr e1 ltac:(cbn; tauto)), (Pr e3 ltac:(cbn; tauto)), (Pr e4 ltac:(cbn; tauto)).
  eexists _, _, _. split; [exact cas_served|]. split; [reflexivity|]. split; [rewrite G; exact demo_young|]. split; [exact G|]. split; [exact G|].
  split; [intros e _; left; reflexivity|]. split; [reflexivity|]. split; [exact W1|]. split; [exact W3|]. split; [exact W4|].
  split; [exists (mkView [] 0 0 2); split; [reflexivity|]; split; [reflexivity|]; split; apply cas_swap|].
  split; [reflexivity|]. split; [discriminate|]. intros e args es [<-|[]] Q. rewrite W2 in Q. injection Q as <- _. exact cas_spares.
Qed.
