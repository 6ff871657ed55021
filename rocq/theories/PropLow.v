(** C76 when memory is short: a command takes at most one key besides its own, and only SET and SETEX do. *)
From Verif Require Import Base Types Clamp Entry Hash Map Shard Cache Reach Text IntText CmdTable CmdSpec CmdSpec3 CmdsProofs CmdsProofs4 Prog Cmds Conn ConnSpec ConnProofs7 PropCache SafeSpec SafeProofs2 PropSafe PropSafe2 PropConn Net NetSpec NetProofs PropNet Server ServerSpec ServerProofs ServerProofs2 ServerProofs3 PropReply Base PropCmds PropCursor PropCmds3  PropSafe2 SafeProofs2  PropServer.
From Verif Require Import EntryProofs MapProofs MapInv Spec Trace ShardProofs Refine Observe CmdSpec2 CmdsProofs2 CmdsProofs3 CmdsProofs5 PropCmds4 PropCmds2 CmdTableProofs PropText SafeProofs PropServerSafe FrameSpec FrameProofs PropFrame.
From Coq Require Import String Lia.
Local Open Scope N_scope.
Notation length := List.length.

(** From [t] on, all keys but [key] show the same, or all but one more, which is gone. *)
Definition spares (o : opts) (t : Z) (ch ch' : cache) (key : bytes) : Prop :=
  (forall k, k <> key -> same_from o t ch ch' k) \/
  exists victim, victim <> key /\ CmdSpec.gone o ch' victim /\ forall k, k <> key -> k <> victim -> same_from o t ch ch' k.

Section Low.
Variable o : opts.
Let c := ctx_of o.
Variable orc : nat -> input.
Hypothesis F : fine orc.
Variable t : Z.
Variable key : bytes.
Definition low (n : nat) (ch : cache) (p : prog) : Prop :=
  exists ch' es evs, prun c orc n ch p = Ok (ch', es, evs) /\ spares o t ch ch' key.
Lemma spares_refl : forall ch, spares o t ch ch key.
Proof. intro ch. left. intros k _ t' v _. reflexivity. Qed.
Lemma low_same : forall n ch p ch' es evs, prun c orc n ch p = Ok (ch', es, evs) -> spares o t ch ch' key -> low n ch p.
Proof. intros n ch p ch' es evs E K. exists ch', es, evs. auto. Qed.
Lemma low_error : forall m n ch, low n ch (error m).
Proof. intros m n ch. unfold error. eapply low_same; [apply prun_answer|apply spares_refl]. Qed.
Lemma spares_set : forall pr name i now val os e ch ch' old reply, set_done o pr name i now key val os e ch ch' old reply -> spares o t ch ch' key.
Proof.
  intros pr name i now val os e ch ch' old reply (D1 & D2 & D3).
  assert (At : forall k, same_at (ctx_of o) ch ch' k -> same_from o t ch ch' k) by (intros k S t' v _; exact (S t' v)).
  destruct (in_lowmem i && op_noevict o)%bool eqn:L.
  - left. intros k _. apply At. apply (D1 eq_refl).
  - destruct (refused_dec (op_usecas o) os old) as [H|H].
    + left. destruct (D2 eq_refl H) as (_ & _ & _ & S). intros k Hk. apply At. apply S. exact Hk.
    + destruct (D3 eq_refl H) as (_ & _ & _ & S). destruct S as [S|(_ & v & Nv & G & S)].
      * left. intros k Hk. apply At. apply S. exact Hk.
      * right. exists v. split; [exact Nv|]. split; [exact G|]. intros k Hk Hv. apply At. apply S; assumption.
Qed.
Lemma set_low : forall n ch pr a0 rest, reachable c ch -> steady orc -> (forall k, roomy c (cabs c ch) k) -> args_fit (a0 :: key :: rest) -> low n ch (cmdSET pr (a0 :: key :: rest)).
Proof.
  intros n ch pr a0 rest0 R St Rm Ba. unfold cmdSET. destruct rest0 as [|val rest]; [apply low_error|].
  assert (Ft : CmdSpec.fits o ch key val).
  { inversion Ba as [|? ? _ B1]; subst. inversion B1 as [|? ? B2 B3]; subst. inversion B3 as [|? ? B4 _]; subst.
    destruct B2 as [B2 L2], B4 as [B4 L4]. apply fits_of; try assumption.
    change (2 ^ 61) with 2305843009213693952 in L2, L4. change (2 ^ 62) with 4611686018427387904. lia. }
  unfold low. rewrite prun_ask. cbv beta zeta. destruct (F n) as [[Hn _] _]. set (now := in_now (orc n)) in *.
  match goal with |- context [set_loop pr now rest set0 ?kk] => set (K := kk) end.
  destruct (set_loop_spec o orc F pr now Hn (length rest) rest (le_n _) set0 K (S n) ch)
    as [(os & n' & s & S1 & S2 & S3 & S4)|(_ & msg & E)].
  2:{ apply (low_same (S n) ch _ ch [Out (WError msg)] []); [exact E|apply spares_refl]. }
  unfold c. setoid_rewrite S4. unfold K. clear S4 K. fold c. fold (low n' ch).
  destruct (applied_sum orc pr now Hn os set0 s S3) as (A1 & A2 & A3 & A4 & A5 & A6 & A7).
  cbn [set0 ss_nx ss_xx ss_get ss_keepttl ss_hasex ss_exp ss_flags ss_withcas ss_cas] in *.
  assert (Hx : (0 <= ss_exp s <= INT64_MAX)%Z).
  { destruct (last_expire os) as [[u z]|] eqn:L.
    - destruct A5 as [_ A5].
      assert (0 < ss_exp s <= INT64_MAX)%Z; [|lia].
      apply (expires_at_range pr orc now u z); try assumption.
      + intros Q. exact (S2 Q u z (last_expire_in _ _ _ L)).
      + intros Q a b. exact (St a b n).
    - destruct A5 as [_ ->]. unfold INT64_MAX. lia. }
  replace (ss_exp s <? 0)%Z with false by lia.
  destruct (ss_keepttl s && ss_hasex s); [apply (low_error ERR_SYNTAX_ERROR)|].
  destruct (ss_xx s && ss_nx s); [apply (low_error ERR_SYNTAX_ERROR)|].
  assert (Z : forall b (Q : Prop), (b = true <-> false = true \/ Q) -> (b = true <-> Q)) by (intros b Q [X Y]; intuition congruence).
  destruct (sees_some o ch key now R) as [old So].
  assert (A8 : match last_cas os with Some x => ss_withcas s = true /\ ss_cas s = x | None => ss_withcas s = false end) by (destruct (last_cas os); [exact A7|apply A7]).
  destruct (execSET_spec o orc n' ch pr "SET" now key val (ss_exp s) (ss_nx s) (ss_xx s) (ss_get s) (ss_keepttl s)
    (ss_flags s) (ss_cas s) (ss_withcas s) os old R F Ft Hn Hx A6 (Z _ _ A1) (Z _ _ A2) (Z _ _ A3) A8 So)
    as (ch' & reply & evs & R' & E & D).
  eapply low_same; [exact E|]. eapply spares_set. exact D.
Qed.
Lemma setex_low : forall n ch pr a0 rest, reachable c ch -> (forall k, roomy c (cabs c ch) k) -> args_fit (a0 :: key :: rest) -> low n ch (cmdSETEX pr (a0 :: key :: rest)).
Proof.
  intros n ch pr a0 rest R Rm Ba. destruct rest as [|ex [|val [|x r]]]; try (unfold cmdSETEX; apply low_error).
  assert (Ft : CmdSpec.fits o ch key val).
  { inversion Ba as [|? ? _ B1]; subst. inversion B1 as [|? ? B2 B3]; subst. inversion B3 as [|? ? _ B4]; subst.
    inversion B4 as [|? ? B5 _]; subst.
    destruct B2 as [B2 L2], B5 as [B5 L5]. apply fits_of; try assumption.
    change (2 ^ 61) with 2305843009213693952 in L2, L5. change (2 ^ 62) with 4611686018427387904. lia. }
  destruct (parse_i64 ex) as [z|] eqn:E.
  2:{ unfold low, cmdSETEX. rewrite prun_ask. cbv beta. rewrite E. apply (low_error (bs "ERR invalid expire time")). }
  destruct (Z.leb_spec z 0) as [L|L].
  { unfold low, cmdSETEX. rewrite prun_ask. cbv beta. rewrite E. replace (z <=? 0)%Z with true by lia. apply (low_error (bs "ERR invalid expire time")). }
  apply int_text_parse in E. destruct (sees_some o ch key (in_now (orc n)) R) as [old So].
  destruct (C28_setex o orc n ch pr a0 key ex val z old R F Ft E L So) as (ch' & reply & evs & i & R' & E1 & (j & ->) & D).
  eapply low_same; [exact E1|]. eapply spares_set. exact D.
Qed.
End Low.

(** Whatever the state of memory: SET and SETEX leave all other keys alone but at most one, and if one is not left alone then it is gone;
    every other command leaves all keys alone that it may not change. *)
Theorem C76_lowmem : forall o cf authed pr args orc n ch t ch' es evs,
  reachable (ctx_of o) ch -> SafeSpec.sized o (cf_fuel cf) ch -> cf_nshards cf = shards_of o ->
  fine orc -> manned orc -> steady orc -> until orc t -> ordinary o args ->
  prun (ctx_of o) orc n ch (evcommand cf authed pr args) = Ok (ch', es, evs) ->
  (forall key, ~ writes args key -> same_from o t ch ch' key) \/
  exists name key rest victim, args = name :: key :: rest /\ (word name "set" \/ word name "setex") /\
    victim <> key /\ CmdSpec.gone o ch' victim /\ forall k, k <> key -> k <> victim -> same_from o t ch ch' k.
Proof.
  intros o cf authed pr args orc n ch t ch' es evs R Sz Ns F M St U Oa E.
  assert (D : forall w, word (hd [] args) w \/ ~ word (hd [] args) w).
  { intro w. unfold word. destruct (list_eq_dec N.eq_dec (lower (hd [] args)) (bs w)); [left|right]; assumption. }
  assert (Other : (~ word (hd [] args) "set" /\ ~ word (hd [] args) "setex") -> forall key, ~ writes args key -> same_from o t ch ch' key).
  { intro H. exact (frame_any o cf authed pr args orc n ch t ch' es evs R Sz Ns F M St (or_intror H) U Oa E). }
  assert (Short : forall name, args = [name] \/ args = [] -> word (hd [] args) "set" \/ word (hd [] args) "setex" -> forall key, same_from o t ch ch' key).
  { intros name Ha Hw key. assert (ch' = ch).
    { unfold evcommand in E. destruct (cf_useauth cf && negb authed && negb (is_http pr)).
      - clear - E. unfold cmdAUTH in E. cbv zeta in E. destruct (negb (is_word (hd [] args) "auth")).
        { destruct (is_mc pr); unfold error in E; rewrite prun_answer in E; injection E; auto. }
        destruct args as [|a0 [|p [|q [|x r]]]]; try (unfold error in E; rewrite prun_answer in E; injection E; auto; fail).
        destruct (beq p (cf_password cf)); [|unfold error in E; rewrite prun_answer in E; injection E; auto].
        cbn [prun] in E. destruct (is_pg pr); rewrite prun_answer in E; injection E; auto.
      - destruct Hw as [Hw|Hw].
        + rewrite (PropFrame.get_at _ "set" 0%nat Hw eq_refl) in E. destruct Ha as [-> | ->]; cbn [cmd_func nth cmdSET] in E; unfold error in E; rewrite prun_answer in E; injection E; auto.
        + rewrite (PropFrame.get_at _ "setex" 8%nat Hw eq_refl) in E. destruct Ha as [-> | ->]; cbn [cmd_func nth cmdSETEX] in E; unfold error in E; rewrite prun_answer in E; injection E; auto. }
    subst ch'. intros t' v _. reflexivity. }
  assert (Main : word (hd [] args) "set" \/ word (hd [] args) "setex" -> (forall key, ~ writes args key -> same_from o t ch ch' key) \/
    exists name key rest victim, args = name :: key :: rest /\ (word name "set" \/ word name "setex") /\
      victim <> key /\ CmdSpec.gone o ch' victim /\ forall k, k <> key -> k <> victim -> same_from o t ch ch' k).
  { intro Hw. destruct args as [|name [|key rest]].
    - left. intros k _. exact (Short [] (or_intror eq_refl) Hw k).
    - left. intros k _. exact (Short name (or_introl eq_refl) Hw k).
    - cbn [hd] in *. pose proof (sz_room _ _ _ Sz) as Rm. destruct Oa as [Oa _].
      assert (W : spares o t ch ch' key).
      { unfold evcommand in E. destruct (cf_useauth cf && negb authed && negb (is_http pr)).
        - assert (ch' = ch); [|subst; apply spares_refl]. clear - E. unfold cmdAUTH in E. cbv zeta in E. destruct (negb (is_word (hd [] (name :: key :: rest)) "auth")).
          { destruct (is_mc pr); unfold error in E; rewrite prun_answer in E; injection E; auto. }
          destruct rest as [|q [|x r]]; try (unfold error in E; rewrite prun_answer in E; injection E; auto; fail).
          destruct (beq key (cf_password cf)); [|unfold error in E; rewrite prun_answer in E; injection E; auto].
          cbn [prun] in E. destruct (is_pg pr); rewrite prun_answer in E; injection E; auto.
        - cbn [hd] in E. destruct Hw as [Hw|Hw].
          + rewrite (PropFrame.get_at _ "set" 0%nat Hw eq_refl) in E. cbn [cmd_func nth] in E.
            destruct (set_low o orc F t key n ch pr name rest R St Rm Oa) as (c2 & e2 & v2 & E2 & K). rewrite E in E2. injection E2 as <- _ _. exact K.
          + rewrite (PropFrame.get_at _ "setex" 8%nat Hw eq_refl) in E. cbn [cmd_func nth] in E.
            destruct (setex_low o orc F t key n ch pr name rest R Rm Oa) as (c2 & e2 & v2 & E2 & K). rewrite E in E2. injection E2 as <- _ _. exact K. }
      destruct W as [W|(v & Nv & G & W)].
      + left. intros k Nw. apply W. intros ->. apply Nw. apply writes_first. unfold word in Hw. destruct Hw as [-> | ->]; cbn; tauto.
      + right. exists name, key, rest, v. auto. }
  destruct (D "set"%string) as [H|H]; [exact (Main (or_introl H))|]. destruct (D "setex"%string) as [H'|H']; [exact (Main (or_intror H'))|]. left. exact (Other (conj H H')).
Qed.

(** Memory is short, and SET k6 v makes room by removing k1, which was to live until 123. *)
Definition low_orc : nat -> input := fun _ => mkInput (plenty_env 110) 110 1700000000000000000 true 4 true.
Definition low_args : list bytes := [bs "SET"; bs "k6"; bs "v"].
Definition low_ch : cache := match prun demo_c low_orc 0 case_ch (evcommand case_cf false RESP low_args) with Ok (ch, _, _) => ch | Bad _ => case_ch end.
Lemma low_fine : fine low_orc.
Proof. intros n. split; [split; cbn; unfold INT64_MAX; lia|intros s; split; reflexivity]. Qed.
Lemma low_steady : steady low_orc.
Proof. intros a b n. cbn. lia. Qed.
Lemma low_manned : manned low_orc.
Proof. intro n. cbn. lia. Qed.
Lemma low_ran : exists es evs, prun demo_c low_orc 0 case_ch (evcommand case_cf false RESP low_args) = Ok (low_ch, es, evs).
Proof. eexists _, _. vm_compute. reflexivity. Qed.
Lemma low_reachable : reachable demo_c low_ch.
Proof.
  destruct (ordinary_ends demo_opts case_cf low_orc true case_ch false RESP low_args eq_refl low_fine low_manned low_steady case_reachable case_sized (ordinary_short demo_opts low_args eq_refl eq_refl)) as (ch' & es & evs & E & R).
  destruct low_ran as (es' & evs' & E'). change (ctx_of demo_opts) with demo_c in E. change (working true low_orc) with low_orc in E.
  rewrite E' in E. clear E'. generalize dependent low_ch. intros d E. injection E as <- _ _. exact R.
Qed.
Lemma low_sees : forall key now v, option_map shown_of (live_item (cabs demo_c low_ch) key now) = v -> sees demo_c low_ch key now v.
Proof. intros key now v <-. apply (sees_iff demo_c (opts_load demo_opts)); [apply (reach_cinv demo_opts); exact low_reachable|reflexivity]. Qed.
Example C76_lowmem_case : exists es evs v,
  prun demo_c low_orc 0 case_ch (evcommand case_cf false RESP low_args) = Ok (low_ch, es, evs) /\
  reachable demo_c case_ch /\ SafeSpec.sized demo_opts (cf_fuel case_cf) case_ch /\ cf_nshards case_cf = shards_of demo_opts /\
  fine low_orc /\ manned low_orc /\ steady low_orc /\ until low_orc 110 /\ ordinary demo_opts low_args /\ ~ ample low_orc /\
  ~ writes low_args (bs "k1") /\ sees demo_c case_ch (bs "k1") 110 (Some v) /\ sees demo_c low_ch (bs "k1") 110 None /\
  sees demo_c low_ch (bs "k9") 110 (Some (mkView (bs "v") 0 0 3)).
Proof.
  destruct low_ran as (es & evs & E). exists es, evs. eexists. split; [exact E|]. split; [exact case_reachable|]. split; [exact case_sized|]. split; [reflexivity|].
  split; [exact low_fine|]. split; [exact low_manned|]. split; [exact low_steady|]. split; [intro n; cbn; lia|]. split; [apply ordinary_short; reflexivity|].
  split; [intro A; specialize (A 0%nat); discriminate A|].
  split.
  { intro W. remember low_args as l eqn:El. remember (bs "k1") as x eqn:Ex. destruct W as [name key rest H|name keys key H I|name rest key H].
    - injection El as _ E1 _. rewrite E1 in Ex. discriminate Ex.
    - injection El as E1 _. rewrite E1 in H. discriminate H.
    - injection El as E1 _. rewrite E1 in H. vm_compute in H. intuition discriminate. }
  split; [apply (sees_iff demo_c (opts_load demo_opts)); [apply (reach_cinv demo_opts); exact case_reachable|vm_compute; reflexivity]|].
  split; apply low_sees; vm_compute; reflexivity.
Qed.
