(** Every command gives at most one token of each shard, and new items get new tokens: proofs for C81. *)
From Verif Require Import Base Types Clamp Entry Hash Map Shard Cache Reach EntryProofs MapProofs MapInv Spec Trace ShardProofs Refine Observe PropCache PropItems Text IntText IntTextProofs CmdTable CmdSpec CmdSpec2 CmdSpec3 CmdsProofs CmdsProofs2 CmdsProofs3 CmdsProofs4 CmdsProofs5 Prog Cmds SafeSpec SafeProofs SafeProofs2 PropSafe PropCmds PropCmds2 PropCmds3 PropCmds4 CmdTableProofs PropText PropStatCmd TokProofs TokProofs2.
From Coq Require Import String Lia.
Local Open Scope N_scope.
Notation length := List.length.

Lemma quiet_look : forall key b now, quiet_call (Load key (mkLoadOpts b just_look) now).
Proof. intros key b now f w X. injection X as <-. reflexivity. Qed.
Lemma quiet_plain : forall key b now, quiet_call (Load key (mkLoadOpts b None) now).
Proof. intros key b now f w X. discriminate X. Qed.
Lemma quiet_error : forall m, quiet (error m).
Proof. intro m. apply quiet_answer. Qed.
Lemma quiet_get : forall pr args, quiet (cmdGET pr args).
Proof.
  intros pr args. unfold cmdGET. destruct args as [|a [|k [|x r]]]; try apply quiet_error. intro i. apply quiet_puts. split; [apply quiet_look|].
  intros [st sh| | | | |]; try exact Logic.I. apply quiet_puts. destruct st; apply quiet_answer.
Qed.
Lemma quiet_mget_loop : forall pr kd now keys cnt k, (forall n, quiet (k n)) -> quiet (mget_loop pr kd now keys cnt k).
Proof.
  intros pr kd now keys. induction keys as [|key r IH]; intros cnt k Q; [apply Q|]. split; [apply quiet_look|].
  intros [st sh| | | | |]; try exact Logic.I. apply quiet_puts. destruct st; try apply quiet_puts; apply IH; exact Q.
Qed.
Lemma quiet_mget : forall pr args, quiet (cmdMGET pr args).
Proof.
  intros pr args. unfold cmdMGET. destruct args as [|a [|k r]]; try apply quiet_error. intro i. cbv zeta. apply quiet_puts. apply quiet_mget_loop.
  intro n. apply quiet_answer.
Qed.
Lemma quiet_ttl : forall pr args, quiet (cmdTTL pr args).
Proof.
  intros pr args. unfold cmdTTL. destruct args as [|a [|k [|x r]]]; try apply quiet_error. cbv zeta. intro i. apply quiet_puts. split; [apply quiet_look|].
  intros [st sh| | | | |]; try exact Logic.I. apply quiet_puts. apply quiet_puts. apply quiet_answer.
Qed.
Lemma quiet_del_loop : forall now keys n k, (forall n, quiet (k n)) -> quiet (del_loop now keys n k).
Proof. intros now keys. induction keys as [|key r IH]; intros n k Q; [apply Q|]. split; [exact Logic.I|]. intros [st sh| | | | |]; try exact Logic.I. apply IH. exact Q. Qed.
Lemma quiet_del : forall pr args, quiet (cmdDEL pr args).
Proof. intros pr args. unfold cmdDEL. destruct args as [|a [|k r]]; try apply quiet_error. intro i. apply quiet_del_loop. intro n. apply quiet_answer. Qed.
Lemma quiet_found_loop : forall nt now keys n k, (forall n, quiet (k n)) -> quiet (found_loop nt now keys n k).
Proof. intros nt now keys. induction keys as [|key r IH]; intros n k Q; [apply Q|]. split; [apply quiet_plain|]. intros [st sh| | | | |]; try exact Logic.I. apply IH. exact Q. Qed.
Lemma quiet_exists : forall pr args, quiet (cmdEXISTS pr args).
Proof.
  intros pr args. unfold cmdEXISTS. destruct args as [|a [|k r]]; try apply quiet_error. intro i. apply quiet_found_loop. intro n. destruct (is_pg pr); apply quiet_answer.
Qed.
Lemma quiet_touch : forall pr args, quiet (cmdTOUCH pr args).
Proof. intros pr args. unfold cmdTOUCH. destruct args as [|a [|k r]]; try apply quiet_error. intro i. apply quiet_found_loop. intro n. apply quiet_answer. Qed.
Lemma quiet_keys : forall pr args, quiet (cmdKEYS pr args).
Proof.
  intros pr args. unfold cmdKEYS. destruct args as [|a [|k [|x r]]]; try apply quiet_error. intro i. destruct (in_work i); [|apply quiet_error].
  split; [exact Logic.I|]. intros [st sh| | | | |]; try exact Logic.I. cbv zeta. destruct (is_pg pr); apply quiet_answer.
Qed.
Lemma quiet_dbsize : forall pr args, quiet (cmdDBSIZE pr args).
Proof.
  intros pr args. unfold cmdDBSIZE. destruct args as [|a [|x r]]; try apply quiet_error. split; [exact Logic.I|]. intros [st sh| | | | |]; try exact Logic.I.
  destruct (is_pg pr); apply quiet_answer.
Qed.
Lemma quiet_each : forall mk is k, (forall i, quiet_call (mk i)) -> quiet k -> quiet (each_shard mk is k).
Proof. intros mk is k M Q. induction is as [|i r IH]; [exact Q|]. split; [apply M|intro; exact IH]. Qed.
Lemma quiet_flush : forall ns pr args, quiet (cmdFLUSHALL ns pr args).
Proof.
  intros ns pr args. unfold cmdFLUSHALL. cbv zeta.
  assert (L : forall m rest, (length rest <= m)%nat -> forall a f d k, (forall a f d, quiet (k a f d)) -> quiet (flush_loop rest a f d k)).
  { induction m as [|m IH]; intros rest Lr a f d k Q; destruct rest as [|w r]; cbn [length] in Lr; try lia; try apply Q.
    cbn [flush_loop]. do 3 (destruct (is_word w _); [apply IH; [lia|exact Q]|]). destruct (is_word w _); [|apply quiet_error].
    destruct r as [|v r']; [apply quiet_error|]. destruct (parse_i64 v); [|apply quiet_error]. cbn [length] in Lr.
    destruct ((_ || _)%bool); [apply quiet_error|]. destruct (0 <? z)%Z; apply IH; try lia; exact Q. }
  apply (L _ _ (le_n _)). intros a f d. destruct a; [apply quiet_answer|]. intro i. destruct (in_work i); [|apply quiet_error].
  intro j. destruct f; [apply quiet_each; [intro; exact Logic.I|apply quiet_answer]|]. split; [exact Logic.I|intro; apply quiet_answer].
Qed.
Lemma quiet_sweep : forall ns pr args, quiet (cmdSWEEP ns pr args).
Proof.
  intros ns pr args. unfold cmdSWEEP. destruct (2 <? length args)%nat; [apply quiet_error|].
  assert (L : forall rest a f k, (forall a f, quiet (k a f)) -> quiet (sweep_loop rest a f k)).
  { induction rest as [|w r IH]; intros a f k Q; [apply Q|]. cbn [sweep_loop]. repeat (destruct (is_word w _); [apply IH; exact Q|]). apply quiet_error. }
  apply L. intros a f. cbv zeta. destruct a; [apply quiet_answer|]. intro i. destruct (in_work i); [|apply quiet_error].
  intro j. destruct f; [apply quiet_each; [intro; exact Logic.I|apply quiet_answer]|]. split; [exact Logic.I|intro; apply quiet_answer].
Qed.
Lemma quiet_purge : forall pr args, quiet (cmdPURGE pr args).
Proof.
  intros pr args. unfold cmdPURGE. cbv zeta. destruct args as [|a [|w [|x r]]]; try apply quiet_error; try (intro i; destruct (in_work i); [apply quiet_answer|apply quiet_error]).
  destruct (is_word w "async"); [apply quiet_answer|apply quiet_error].
Qed.
Lemma quiet_scan : forall fuel pr args, quiet (cmdSCAN fuel pr args).
Proof.
  intros fuel pr args. unfold cmdSCAN. destruct args as [|a [|cur rest]]; try apply quiet_error. destruct (parse_u64 cur) as [cu|]; [|apply quiet_error].
  assert (L : forall m rest, (length rest <= m)%nat -> forall pat cnt k, (forall pat cnt, quiet (k pat cnt)) -> quiet (scan_loop rest pat cnt k)).
  { induction m as [|m IH]; intros r0 Lr pat cnt k Q; destruct r0 as [|w r]; cbn [length] in Lr; try lia; try apply Q.
    cbn [scan_loop]. destruct (is_word w "match"); [destruct r as [|v r']; [apply quiet_error|cbn [length] in Lr; apply IH; [lia|exact Q]]|].
    destruct (is_word w "count").
    { destruct r as [|v r']; [apply quiet_error|]. cbn [length] in Lr. destruct (parse_u64 v); [|apply quiet_error]. destruct (_ || _)%bool; [apply quiet_error|apply IH; [lia|exact Q]]. }
    destruct (is_word w "type"); [|apply quiet_error]. destruct r as [|v r']; [apply quiet_error|]. cbn [length] in Lr.
    destruct (is_word v "string"); [apply IH; [lia|exact Q]|apply quiet_error]. }
  apply (L _ _ (le_n _)). intros pat cnt. intro i.
  assert (Wk : forall f n c0 acc k, (forall l c1, quiet (k l c1)) -> quiet (scan_work f pat (in_now i) n c0 acc k)).
  { induction f as [|f IH]; intros n c0 acc k Q; cbn [scan_work]; destruct (n <=? length acc)%nat; try apply Q; try exact Logic.I.
    split; [exact Logic.I|]. intros [st sh|[[[x y] z]|] cur'| | | |]; try exact Logic.I; [apply IH; exact Q|apply Q]. }
  apply Wk. intros l c1. destruct (is_pg pr); apply quiet_answer.
Qed.
Lemma quiet_auth : forall pw pr args, quiet (cmdAUTH pw pr args).
Proof.
  intros pw pr args. unfold cmdAUTH. cbv zeta. destruct (negb (is_word (hd [] args) "auth")); [destruct (is_mc pr); apply quiet_answer|].
  destruct args as [|a [|p [|q [|x r]]]]; try apply quiet_error. destruct (beq p pw); [|apply quiet_error]. cbn [quiet]. destruct (is_pg pr); apply quiet_answer.
Qed.

Section Dispatch.
Variable o : opts.
Hypothesis uc : op_usecas o = true.
Variable orc : nat -> input.
Hypothesis F : fine orc.
Hypothesis St : steady orc.
Notation c := (ctx_of o).
Lemma any_turn : forall cf n ch authed pr args, met o ch -> (forall key, roomy c (cabs c ch) key) -> args_fit args ->
  turn o orc n ch (evcommand cf authed pr args).
Proof.
  intros cf n ch authed pr args M Rm Af. unfold evcommand.
  destruct (cf_useauth cf && negb authed && negb (is_http pr)); [apply (tu_quiet o orc F _ _ _ M); apply quiet_auth|].
  destruct (C33_lookup (hd [] args)) as ((g & G) & L & _). rewrite G. destruct g as [i|]; [|apply (tu_quiet o orc F _ _ _ M); apply quiet_error].
  apply L in G. clear L. assert (Hi : (i < 40)%nat) by (rewrite <- (proj1 (proj2 C33_names)); apply nth_error_Some; congruence). clear G.
  unfold cmd_func.
  do 40 (try (destruct i as [|i]; [cbn [nth]|])); [..|lia].
  all: try (apply (tu_quiet o orc F _ _ _ M); first [apply quiet_get|apply quiet_mget|apply quiet_ttl|apply quiet_del|apply quiet_exists|apply quiet_touch|apply quiet_keys|apply quiet_dbsize
    |apply quiet_flush|apply quiet_sweep|apply quiet_purge|apply quiet_scan|apply quiet_auth|exact Logic.I]).
  all: try (first [apply (set_turn o uc orc F); try assumption; intros _; exact St|apply (setex_turn o uc orc F); assumption|apply (expire_turn o uc orc F); assumption
    |apply (by_turn o uc orc F); assumption|apply (one_turn o uc orc F); assumption|apply (append_turn o uc orc F); assumption]).
  all: apply (tu_quiet o orc F _ _ _ M).
  - unfold cmdQUIT. apply quiet_puts. exact Logic.I.
  - unfold cmdECHO. destruct args as [|a0 [|m [|x r]]]; try apply quiet_error. destruct (is_pg pr); apply quiet_answer.
  - unfold cmdSELECT. destruct (negb (is_resp pr)); [apply quiet_error|]. destruct args as [|a0 [|m [|x r]]]; try apply quiet_error.
    destruct (parse_i64 m) as [z|]; [|apply quiet_error]. destruct (z >? 0)%Z; [apply quiet_error|apply quiet_answer].
  - unfold cmdPING. destruct args as [|a0 [|m [|x r]]]; try apply quiet_error; destruct (is_pg pr); apply quiet_answer.
  - unfold cmdVERSION. apply quiet_answer.
Qed.
End Dispatch.

(** *** SET that says it stored did store *)
Section Wrote.
Variable o : opts.
Hypothesis uc : op_usecas o = true.
Variable orc : nat -> input.
Hypothesis F : fine orc.
Hypothesis St : steady orc.
Notation c := (ctx_of o).
Notation rt := (route (ctx_of o)).
Definition renewed (ch ch' : cache) (key : bytes) : Prop := exists it, cabs c ch' key = Some it /\ i_cas it = ccas ch (rt key) + 1.
Lemma error_not_stored : forall n ch pr name m ch' evs, prun c orc n ch (error m) = Ok (ch', List.map Out (stored_reply pr name), evs) -> False.
Proof. intros n ch pr name m ch' evs E. rewrite prun_error in E. injection E as _ E _. destruct pr; cbn in E; discriminate E. Qed.
Lemma exec_set_wrote : forall n ch pr name now key val e nx xx get keepttl flags cas withcas ch' evs, met o ch -> fits o ch key val -> (0 < now <= INT64_MAX)%Z ->
  (0 <= e <= INT64_MAX)%Z -> flags < 2 ^ 32 ->
  prun c orc n ch (execSET pr (bs name) now key val e nx xx get keepttl flags cas withcas) = Ok (ch', List.map Out (stored_reply pr name), evs) -> renewed ch ch' key.
Proof.
  intros n ch pr name now key val e nx xx get keepttl flags cas withcas ch' evs M Ft Hn He Hf E. unfold execSET in E. rewrite prun_ask in E. cbv zeta in E. cbn [prun] in E.
  match type of E with match step _ _ _ ?x with _ => _ end = _ => set (call0 := x) in E; destruct (step c (in_env (orc (S n))) ch call0) as [[[c1 r] v1]|] eqn:E1; [|discriminate E] end.
  match type of E with match ?p with _ => _ end = _ => destruct p as [[[c2 e2] v2]|] eqn:E2; [|discriminate E] end. injection E as <- -> _.
  assert (Wr : forall k0, wrote call0 r k0 -> exists it, cabs c c1 k0 = Some it /\ i_cas it = ccas ch (rt k0) + 1).
  { refine (proj2 (proj2 (step_fresh o uc _ _ _ _ _ _ (met_inv o _ M) _ (mt_small o _ M) (mt_ok o _ M) _ E1))); [|exact (fun z => z)].
    apply store_call; try assumption; try (cbn; lia); try reflexivity. apply (F (S n)). }
  destruct r as [st sh| | | | |]; try (cbn [prun] in E2; discriminate E2).
  rewrite prun_puts in E2.
  assert (Go : (st = INSERTED \/ st = REPLACED) /\ c2 = c1).
  { destruct st; cbv iota beta zeta in E2;
      try (rewrite prun_error in E2; injection E2 as _ E2 _; destruct sh as [|[k v] sh]; destruct pr; cbn in E2; discriminate E2);
      (destruct get; [destruct sh as [|[k v] sh]; [(destruct (is_pg pr) eqn:Pg; rewrite prun_answer in E2; injection E2 as Ec E2 _; destruct pr; cbn in E2, Pg; discriminate)|
         cbn [prun] in E2; injection E2 as Ec E2 _; destruct pr; cbn in E2; discriminate E2]
       |rewrite prun_answer in E2; injection E2 as Ec E2 _; destruct sh as [|[k v] sh]; destruct pr; cbn in E2; try discriminate E2; first [split; [tauto|congruence] | exfalso; injection E2 as E2; apply app_inv_head in E2; discriminate E2]]). }
  destruct Go as [Go ->]. apply Wr. split; [reflexivity|exact Go].
Qed.
Lemma set_wrote : forall n ch pr a0 key val rest ch' evs, met o ch -> (forall key, roomy c (cabs c ch) key) -> args_fit (a0 :: key :: val :: rest) ->
  prun c orc n ch (cmdSET pr (a0 :: key :: val :: rest)) = Ok (ch', List.map Out (stored_reply pr "SET"), evs) -> renewed ch ch' key.
Proof.
  intros n ch pr a0 key val rest ch' evs M Rm Ba. unfold cmdSET.
  assert (Ft : fits o ch key val).
  { inversion Ba as [|? ? _ B1]; subst. inversion B1 as [|? ? B2 B3]; subst. inversion B3 as [|? ? B4 _]; subst.
    destruct B2 as [B2 L2], B4 as [B4 L4]. apply fits_of; try assumption.
    change (2 ^ 61) with 2305843009213693952 in L2, L4. change (2 ^ 62) with 4611686018427387904. lia. }
  rewrite prun_ask. cbv beta zeta. pose proof (now_pos orc F n) as Hn. set (now := in_now (orc n)) in *.
  match goal with |- context [set_loop pr now rest set0 ?kk] => set (K := kk) end.
  destruct (set_loop_spec o orc F pr now Hn (length rest) rest (le_n _) set0 K (S n) ch)
    as [(os & n' & s & S1 & S2 & S3 & S4)|(_ & msg & E)].
  2:{ intro X. rewrite E in X. injection X as _ X _. destruct pr; cbn in X; discriminate X. }
  rewrite S4. unfold K. clear S4 K.
  destruct (applied_sum orc pr now Hn os set0 s S3) as (A1 & A2 & A3 & A4 & A5 & A6 & A7).
  cbn [set0 ss_nx ss_xx ss_get ss_keepttl ss_hasex ss_exp ss_flags ss_withcas ss_cas] in *.
  assert (Hx : (0 <= ss_exp s <= INT64_MAX)%Z).
  { destruct (last_expire os) as [[u z]|] eqn:L.
    - destruct A5 as [_ A5].
      assert (0 < ss_exp s <= INT64_MAX)%Z; [|lia].
      apply (expires_at_range pr orc now u z); try assumption.
      + intros Q. exact (S2 Q u z (last_expire_in _ _ _ L)).
      + intros Q a b. exact (St a b n).
    - destruct A5 as [_ ->]. unfold INT64_MAX. lia. }
  replace (ss_exp s <? 0)%Z with false by lia.
  destruct (ss_keepttl s && ss_hasex s); [intro X; destruct (error_not_stored _ _ _ _ _ _ _ X)|].
  destruct (ss_xx s && ss_nx s); [intro X; destruct (error_not_stored _ _ _ _ _ _ _ X)|].
  apply exec_set_wrote; try assumption. rewrite A6. destruct (last_flags os); [apply N.mod_lt; discriminate|reflexivity].
Qed.
Lemma setex_wrote : forall n ch pr a0 key ex val ch' evs, met o ch -> (forall key, roomy c (cabs c ch) key) -> args_fit [a0; key; ex; val] ->
  prun c orc n ch (cmdSETEX pr [a0; key; ex; val]) = Ok (ch', List.map Out (stored_reply pr "SETEX"), evs) -> renewed ch ch' key.
Proof.
  intros n ch pr a0 key ex val ch' evs M Rm Ba. unfold cmdSETEX.
  assert (Ft : fits o ch key val).
  { inversion Ba as [|? ? _ B1]; subst. inversion B1 as [|? ? B2 B3]; subst. inversion B3 as [|? ? _ B4]; subst.
    inversion B4 as [|? ? B5 _]; subst.
    destruct B2 as [B2 L2], B5 as [B5 L5]. apply fits_of; try assumption.
    change (2 ^ 61) with 2305843009213693952 in L2, L5. change (2 ^ 62) with 4611686018427387904. lia. }
  rewrite prun_ask. cbv beta. destruct (parse_i64 ex) as [z|] eqn:E; [|intro X; destruct (error_not_stored _ _ _ _ _ _ _ X)].
  apply int_text_parse in E. pose proof (proj1 (proj2 E)) as Iz.
  destruct (Z.leb_spec z 0) as [L|L]; [intro X; destruct (error_not_stored _ _ _ _ _ _ _ X)|].
  pose proof (now_pos orc F n) as Hn. pose proof (now_pos orc F (S n)) as Hn'.
  unfold SECOND. rewrite mul_clamp_spec by (exact Iz || (unfold i64_ok, INT64_MIN, INT64_MAX; lia)).
  cbn [need]. rewrite prun_ask. cbv beta.
  rewrite add_clamp_spec; [|unfold i64_ok, INT64_MIN, INT64_MAX in *; lia|].
  2:{ rewrite clampZ_eq. unfold i64_ok, clamp64, INT64_MIN, INT64_MAX. lia. }
  cbn [need]. apply exec_set_wrote; try assumption; [|reflexivity].
  rewrite !clampZ_eq. unfold clamp64, INT64_MIN, INT64_MAX in *. lia.
Qed.
End Wrote.
