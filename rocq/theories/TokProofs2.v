(** What each command does to the tokens: proofs for C81. *)
From Verif Require Import Base Types Clamp Entry Hash Map Shard Cache Reach EntryProofs MapProofs MapInv Spec Trace ShardProofs Refine Observe PropCache PropItems Text IntText IntTextProofs CmdTable CmdSpec CmdSpec2 CmdSpec3 CmdsProofs CmdsProofs2 CmdsProofs3 CmdsProofs4 CmdsProofs5 Prog Cmds SafeSpec SafeProofs SafeProofs2 PropSafe PropCmds PropCmds2 PropCmds3 PropCmds4 CmdTableProofs PropText PropStatCmd TokProofs.
From Coq Require Import String Lia.
Local Open Scope N_scope.
Notation length := List.length.

Section Turn.
Variable o : opts.
Hypothesis uc : op_usecas o = true.
Variable orc : nat -> input.
Hypothesis F : fine orc.
Notation c := (ctx_of o).
Notation rt := (route (ctx_of o)).
Definition turn (n : nat) (ch : cache) (p : prog) : Prop := forall ch' es evs, prun c orc n ch p = Ok (ch', es, evs) -> fresh o ch ch'.
(** Caches the commands meet. *)
Record met (ch : cache) : Prop := mkMet { mt_reach : reachable c ch; mt_small : small ch; mt_ok : tokens_ok o ch }.
Lemma met_inv : forall ch, met ch -> cinv c ch.
Proof. intros ch M. exact (reachable_inv c (opts_load o) (opts_shards o) ch (mt_reach _ M)). Qed.
Lemma tu_quiet : forall n ch p, met ch -> quiet p -> turn n ch p.
Proof. intros n ch p M Q ch' es evs E. apply carries_fresh. exact (proj1 (quiet_run o orc F p n ch ch' es evs Q (met_inv _ M) E)). Qed.
Lemma tu_ask : forall k n ch, turn (S n) ch (k (orc n)) -> turn n ch (Ask k).
Proof. intros k n ch H ch' es evs E. rewrite prun_ask in E. exact (H _ _ _ E). Qed.
Lemma tu_eq : forall p q n n' ch, prun c orc n ch p = prun c orc n' ch q -> turn n' ch q -> turn n ch p.
Proof. intros p q n n' ch E H ch' es evs X. rewrite E in X. exact (H _ _ _ X). Qed.
Lemma now_pos : forall n, (0 < in_now (orc n) <= INT64_MAX)%Z.
Proof. intro n. apply (proj1 (F n)). Qed.
Lemma tu_store : forall n ch key val so now k, met ch -> fits o ch key val -> (0 < now <= INT64_MAX)%Z -> (0 <= so_expires so <= INT64_MAX)%Z ->
  so_ttl so = 0%Z -> so_flags so < 2 ^ 32 -> (forall r, quiet (k r)) -> turn n ch (Do (Store key val so now) k).
Proof.
  intros n ch key val so now k M Ft Hn He Tt Fl Q ch' es evs E. refine (do_fresh o uc orc n ch (Store key val so now) k ch' es evs F (met_inv _ M) _ (mt_small _ M) (mt_ok _ M) (fun z => z) Q E).
  apply store_call; try assumption; try lia. apply (F n).
Qed.
Lemma tu_look : forall n ch key b now k, met ch -> (0 < now)%Z ->
  (forall old ch1, sees c ch key now old -> met ch1 -> keeps o now ch ch1 key ->
    turn (S n) ch1 (k (match old with Some v => RStatus FOUND [(key, v)] | None => RStatus NOTFOUND [] end))) ->
  turn n ch (Do (Load key (mkLoadOpts b just_look) now) k).
Proof.
  intros n ch key b now k M P H ch' es evs E. destruct (sees_some o ch key now (mt_reach _ M)) as [old So].
  destruct (step_look o orc n ch key b just_look now old (mt_reach _ M) P (or_intror eq_refl) So) as (ch1 & ev & R1 & K & E1).
  assert (Q : carries o ch ch1).
  { refine (proj1 (quiet_run o orc F (Do (Load key (mkLoadOpts b just_look) now) (fun _ => Done)) n ch ch1 [] (ev ++ []) _ (met_inv _ M) _)).
    - split; [|intro r; exact Logic.I]. intros f w X. injection X as <-. reflexivity.
    - cbn [prun]. rewrite E1. reflexivity. }
  assert (M1 : met ch1).
  { constructor; [exact R1| |exact (fresh_ok o _ _ (carries_fresh o _ _ Q) (mt_ok _ M))]. intro i. rewrite (proj2 Q i). apply (mt_small _ M). }
  cbn [prun] in E. rewrite E1 in E. cbn [just_look] in E.
  match type of E with match prun _ _ _ _ ?p with _ => _ end = _ => destruct (prun c orc (S n) ch1 p) as [[[c2 e2] v2]|] eqn:E2; [|discriminate E] end.
  injection E as <- _ _. apply (carries_then o _ _ _ Q). eapply (H old ch1 So M1 K). destruct old; exact E2.
Qed.

(** *** The commands that may store *)
Lemma exec_set_turn : forall n ch pr name now key val e nx xx get keepttl flags cas withcas, met ch -> fits o ch key val -> (0 < now <= INT64_MAX)%Z ->
  (0 <= e <= INT64_MAX)%Z -> flags < 2 ^ 32 -> turn n ch (execSET pr name now key val e nx xx get keepttl flags cas withcas).
Proof.
  intros n ch pr name now key val e nx xx get keepttl flags cas withcas M Ft Hn He Hf. apply tu_ask. cbv zeta. apply tu_store; try assumption; try reflexivity.
  intros [st shown| | | | |]; try exact Logic.I. apply quiet_puts. destruct st; try apply quiet_answer;
    (destruct get; [destruct shown; [destruct (is_pg pr); apply quiet_answer|exact Logic.I]|apply quiet_answer]).
Qed.
Lemma set_turn : forall n ch pr args, met ch -> (pr = MEMCACHE -> steady orc) ->
  (forall key, roomy c (cabs c ch) key) -> args_fit args -> turn n ch (cmdSET pr args).
Proof.
  intros n ch pr args M St Rm Ba. unfold cmdSET.
  destruct args as [|a0 [|key [|val rest]]]; try (apply tu_quiet; [exact M|apply quiet_answer]).
  assert (Ft : fits o ch key val).
  { inversion Ba as [|? ? _ B1]; subst. inversion B1 as [|? ? B2 B3]; subst. inversion B3 as [|? ? B4 _]; subst.
    destruct B2 as [B2 L2], B4 as [B4 L4]. apply fits_of; try assumption.
    change (2 ^ 61) with 2305843009213693952 in L2, L4. change (2 ^ 62) with 4611686018427387904. lia. }
  apply tu_ask. cbv zeta. pose proof (now_pos n) as Hn. set (now := in_now (orc n)) in *.
  match goal with |- context [set_loop pr now rest set0 ?kk] => set (K := kk) end.
  destruct (set_loop_spec o orc F pr now Hn (length rest) rest (le_n _) set0 K (S n) ch)
    as [(os & n' & s & S1 & S2 & S3 & S4)|(_ & msg & E)].
  2:{ intros ch' es evs X. rewrite E in X. injection X as <- _ _. apply carries_fresh. apply carries_refl. }
  eapply tu_eq; [exact S4|]. unfold K. clear S4 K.
  destruct (applied_sum orc pr now Hn os set0 s S3) as (A1 & A2 & A3 & A4 & A5 & A6 & A7).
  cbn [set0 ss_nx ss_xx ss_get ss_keepttl ss_hasex ss_exp ss_flags ss_withcas ss_cas] in *.
  assert (Hx : (0 <= ss_exp s <= INT64_MAX)%Z).
  { destruct (last_expire os) as [[u z]|] eqn:L.
    - destruct A5 as [_ A5].
      assert (0 < ss_exp s <= INT64_MAX)%Z; [|lia].
      apply (expires_at_range pr orc now u z); try assumption.
      + intros Q. exact (S2 Q u z (last_expire_in _ _ _ L)).
      + intros Q a b. exact (St Q a b n).
    - destruct A5 as [_ ->]. unfold INT64_MAX. lia. }
  replace (ss_exp s <? 0)%Z with false by lia.
  destruct (ss_keepttl s && ss_hasex s); [apply tu_quiet; [exact M|apply quiet_answer]|].
  destruct (ss_xx s && ss_nx s); [apply tu_quiet; [exact M|apply quiet_answer]|].
  apply exec_set_turn; try assumption. rewrite A6. destruct (last_flags os); [apply N.mod_lt; discriminate|reflexivity].
Qed.
Lemma setex_turn : forall n ch pr args, met ch -> (forall key, roomy c (cabs c ch) key) -> args_fit args -> turn n ch (cmdSETEX pr args).
Proof.
  intros n ch pr args M Rm Ba. unfold cmdSETEX.
  destruct args as [|a0 [|key [|ex [|val [|x r]]]]]; try (apply tu_quiet; [exact M|apply quiet_answer]).
  assert (Ft : fits o ch key val).
  { inversion Ba as [|? ? _ B1]; subst. inversion B1 as [|? ? B2 B3]; subst. inversion B3 as [|? ? _ B4]; subst.
    inversion B4 as [|? ? B5 _]; subst.
    destruct B2 as [B2 L2], B5 as [B5 L5]. apply fits_of; try assumption.
    change (2 ^ 61) with 2305843009213693952 in L2, L5. change (2 ^ 62) with 4611686018427387904. lia. }
  apply tu_ask. cbv beta. destruct (parse_i64 ex) as [z|] eqn:E; [|apply tu_quiet; [exact M|apply quiet_answer]].
  apply int_text_parse in E. pose proof (proj1 (proj2 E)) as Iz.
  destruct (Z.leb_spec z 0) as [L|L]; [apply tu_quiet; [exact M|apply quiet_answer]|].
  pose proof (now_pos n) as Hn. pose proof (now_pos (S n)) as Hn'.
  unfold SECOND. rewrite mul_clamp_spec by (exact Iz || (unfold i64_ok, INT64_MIN, INT64_MAX; lia)).
  cbn [need]. apply tu_ask. cbv beta.
  rewrite add_clamp_spec; [|unfold i64_ok, INT64_MIN, INT64_MAX in *; lia|].
  2:{ rewrite clampZ_eq. unfold i64_ok, clamp64, INT64_MIN, INT64_MAX. lia. }
  cbn [need]. apply exec_set_turn; try assumption; [|reflexivity].
  rewrite !clampZ_eq. unfold clamp64, INT64_MIN, INT64_MAX in *. lia.
Qed.
Lemma expire_turn : forall n ch pr args, met ch -> turn n ch (cmdEXPIRE pr args).
Proof.
  intros n ch pr args M. unfold cmdEXPIRE.
  destruct args as [|a0 [|key [|secs r]]]; try (apply tu_quiet; [exact M|apply quiet_answer]).
  apply tu_ask. cbv beta. destruct (parse_i64 secs) as [z|] eqn:E; [|apply tu_quiet; [exact M|apply quiet_answer]].
  apply int_text_parse in E. pose proof (proj1 (proj2 E)) as Iz. pose proof (now_pos n) as Hn.
  unfold SECOND. rewrite mul_clamp_spec by (exact Iz || (unfold i64_ok, INT64_MIN, INT64_MAX; lia)). cbn [need].
  rewrite add_clamp_spec; [|unfold i64_ok, INT64_MIN, INT64_MAX in *; lia|].
  2:{ rewrite clampZ_eq. unfold i64_ok, clamp64, INT64_MIN, INT64_MAX. lia. }
  cbn [need]. set (e := clampZ _).
  assert (He : i64_ok e) by (unfold e; rewrite clampZ_eq; unfold i64_ok, clamp64, INT64_MIN, INT64_MAX; lia).
  intros ch' es evs X. eapply (do_fresh o uc); [exact F|exact (met_inv _ M)| |exact (mt_small _ M)|exact (mt_ok _ M)| | |exact X].
  - cbn [call_ok]. intros g w u E1 A1 H1. cbn [lo_entry] in E1. injection E1 as <-. injection H1 as <-. destruct A1. constructor; try assumption; [apply He|reflexivity].
  - intro Q. specialize (Q _ (mkView [] 0 0 0) eq_refl). discriminate Q.
  - intros [st sh| | | | |]; try exact Logic.I. destruct st; apply quiet_answer.
Qed.
Lemma count_turn : forall n ch pr key (uns decr : bool) d name, met ch -> (forall key, roomy c (cabs c ch) key) ->
  bytes_ok key -> N.of_nat (length key) < 2 ^ 61 -> in_range uns d -> turn n ch (execINCRDECR pr key (delta_of uns d) decr uns name).
Proof.
  intros n ch pr key uns decr d name M Rm Bk Lk Hd. apply tu_ask. cbv zeta. pose proof (now_pos n) as Hn.
  assert (Ft : forall s, bytes_ok s -> (length s <= 20)%nat -> fits o ch key s).
  { intros s Bs Ls. apply fits_of; try assumption. change (2 ^ 61) with 2305843009213693952 in Lk. change (2 ^ 62) with 4611686018427387904. lia. }
  apply tu_look; [exact M|lia|]. intros old ch1 So M1 K. set (now := in_now (orc n)) in *.
  assert (Fin : forall x e flags cas kk, in_range uns x -> (0 <= e <= INT64_MAX)%Z -> flags < 2 ^ 32 -> (forall r, quiet (kk r)) ->
    turn (S (S n)) ch1 (Do (Store key (print_delta (fst (apply_delta decr (delta_of uns x) (delta_of uns d)))) (mkStoreOpts e 0 cas flags false false false false false None) now) kk)).
  { intros x e flags cas kk Hx He Hf Q. rewrite (proj1 (apply_delta_spec uns decr x d Hx Hd)).
    destruct (print_delta_text uns _ (wrapped_range uns (x + (if decr then - d else d)))) as (_ & P2 & P3).
    apply tu_store; try assumption; try reflexivity. eapply keeps_fits; [exact K|apply Ft; assumption]. }
  assert (Qk : forall y r, quiet (match r with
    | RStatus NOMEM _ => error ERR_OUT_OF_MEMORY
    | RStatus INSERTED _ | RStatus REPLACED _ =>
        if is_pg pr then answer (simple_row (bs "value") (print_delta y) name)
        else answer (write_delta y :: if is_mc pr then [WRaw crlf] else [])
    | _ => Fail AssertFail end)).
  { intros y [st sh| | | | |]; try exact Logic.I. destruct st; try exact Logic.I; try apply quiet_answer; destruct (is_pg pr); apply quiet_answer. }
  destruct old as [v|]; cbv beta iota.
  - cbn [andb]. destruct (read_delta uns (v_val v)) as [x0|] eqn:Rd.
    + destruct (read_number _ _ _ Rd) as (x & -> & Hx & _). pose proof (live_args o ch key now v (mt_reach _ M) So) as Ao. cbn [andb negb].
      specialize (Fin x (v_exp v) (v_flags v) (v_cas v)). destruct (apply_delta decr (delta_of uns x) (delta_of uns d)) as [y ov]. cbn [fst] in Fin.
      destruct (ov && negb (is_mc pr)); [apply tu_quiet; [exact M1|apply quiet_answer]|]. apply Fin; [exact Hx| | |apply Qk].
      * split; [eapply exp_nonneg; [exact (mt_reach _ M)|exact So]|exact (ao_exp _ _ _ _ _ Ao)].
      * exact (ao_flags _ _ _ _ _ Ao).
    + apply tu_quiet; [exact M1|]. cbn [andb]. destruct (is_mc pr); apply quiet_answer.
  - cbn [andb negb]. destruct (is_mc pr) eqn:Mc; [apply tu_quiet; [exact M1|apply quiet_answer]|].
    assert (H0 : in_range uns 0%Z) by (destruct uns; unfold in_range; lia).
    replace (if uns then Unsigned 0 else Signed 0) with (delta_of uns 0%Z) by (destruct uns; reflexivity).
    specialize (Fin 0%Z 0%Z 0 0). destruct (apply_delta decr (delta_of uns 0%Z) (delta_of uns d)) as [y ov]. cbn [fst] in Fin.
    destruct (ov && negb false); [apply tu_quiet; [exact M1|apply quiet_answer]|]. apply Fin; [exact H0|unfold INT64_MAX; lia|reflexivity|].
    intro r. exact (Qk y r).
Qed.
Lemma by_turn : forall n ch pr args decr name, met ch -> (forall key, roomy c (cabs c ch) key) -> args_fit args -> turn n ch (cmdINCRDECRBY pr args decr name).
Proof.
  intros n ch pr args decr name M Rm Af. unfold cmdINCRDECRBY.
  destruct args as [|a0 [|key [|dl [|x r]]]]; try (apply tu_quiet; [exact M|apply quiet_answer]). cbv zeta.
  destruct (read_delta (starts_u a0) dl) as [d|] eqn:E.
  - destruct (read_number _ _ _ E) as (z & -> & Hz & _). destruct (key_fit _ _ _ Af). apply count_turn; assumption.
  - apply tu_quiet; [exact M|]. destruct (is_mc pr); apply quiet_answer.
Qed.
Lemma one_turn : forall n ch pr args decr name, met ch -> (forall key, roomy c (cabs c ch) key) -> args_fit args -> turn n ch (cmdINCRDECR pr args decr name).
Proof.
  intros n ch pr args decr name M Rm Af. unfold cmdINCRDECR.
  destruct args as [|a0 [|key [|x r]]]; try (apply tu_quiet; [exact M|apply quiet_answer]). cbv zeta. set (uns := starts_u a0).
  replace (if uns then Unsigned 1 else Signed 1) with (delta_of uns 1%Z) by (destruct uns; reflexivity).
  destruct (key_fit _ _ _ Af). apply count_turn; try assumption. destruct uns; unfold in_range; lia.
Qed.
Lemma append_turn : forall n ch pr args, met ch -> (forall key, roomy c (cabs c ch) key) -> args_fit args -> turn n ch (cmdAPPEND pr args).
Proof.
  intros n ch pr args M Rm Af. unfold cmdAPPEND. apply tu_ask. cbv zeta.
  destruct args as [|a0 [|key [|val [|x r]]]]; try (apply tu_quiet; [exact M|apply quiet_answer]).
  destruct (key_fit _ _ _ Af) as [K1 K2].
  inversion Af as [|? ? _ B1]; subst. inversion B1 as [|? ? _ B2]; subst. inversion B2 as [|? ? [B3 Lv] _]; subst.
  pose proof (now_pos n) as Hn. apply tu_look; [exact M|lia|]. intros old ch1 So M1 K. set (now := in_now (orc n)) in *.
  assert (Qk : forall len r, quiet (match r with
        | RStatus NOMEM _ => error ERR_OUT_OF_MEMORY
        | RStatus INSERTED _ | RStatus REPLACED _ =>
            answer (by_proto pr
              [raw_line "STORED"]
              (complete (tag (bs (if is_word a0 "prepend" then "PREPEND" else "APPEND")) (u64toa len)))
              [WInt (Z.of_N len)] [WInt (Z.of_N len)])
        | _ => Fail AssertFail
        end)).
  { intros len [st sh| | | | |]; try exact Logic.I. destruct st; try exact Logic.I; apply quiet_answer. }
  change (2 ^ 61) with 2305843009213693952 in K2, Lv.
  destruct old as [v|]; cbv beta iota.
  - pose proof (live_args o ch key now v (mt_reach _ M) So) as Ao.
    destruct (MAXARGSZ <? _) eqn:L; [apply tu_quiet; [exact M1|apply quiet_answer]|]. apply N.ltb_ge in L.
    apply tu_store; try assumption; try reflexivity; [|split; [eapply exp_nonneg; [exact (mt_reach _ M)|exact So]|exact (ao_exp _ _ _ _ _ Ao)]|exact (ao_flags _ _ _ _ _ Ao)|apply Qk].
    eapply keeps_fits; [exact K|]. apply fits_of; try assumption.
    + destruct (is_word a0 "prepend"); apply Forall_app; split; try assumption; exact (ao_val _ _ _ _ _ Ao).
    + change (2 ^ 62) with 4611686018427387904. unfold MAXARGSZ in L. lia.
  - destruct (is_mc pr); [apply tu_quiet; [exact M1|apply quiet_answer]|].
    apply tu_store; try assumption; try reflexivity; [|cbn; unfold INT64_MAX; lia|apply Qk].
    eapply keeps_fits; [exact K|]. apply fits_of; try assumption. change (2 ^ 62) with 4611686018427387904. lia.
Qed.
End Turn.
