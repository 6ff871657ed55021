(** Facts for C54: no command ends in trouble. *)
From Verif Require Import Base Types Clamp Entry EntryProofs Hash Map MapProofs MapInv Shard
  Spec Trace ShardProofs ScanProofs LoopProofs Cache Refine Reach Observe PropCache PropItems CursorProofs PropCursor
  Text IntText IntTextProofs Glob GlobProofs CmdTable CmdTableProofs PropText Prog CmdSpec CmdSpec2 CmdSpec3 Cmds
  CmdsProofs CmdsProofs2 CmdsProofs3 PropCmds PropCmds2 CmdsProofs4 CmdsProofs5 PropCmds4 SafeSpec.
From Coq Require Import String Permutation.
Local Open Scope N_scope.
Notation length := List.length.

Section V.
Variable o : opts.
Let c := ctx_of o.
Variable orc : nat -> input.
Hypothesis F : fine orc.
Notation well := (ends_well o orc).

(** *** Programs *)
Lemma well_puts : forall ws n ch k, well n ch k -> well n ch (puts ws k).
Proof.
  intros ws n ch k (ch' & es & evs & E & R & Fe). exists ch', (List.map Out ws ++ es), evs.
  rewrite prun_puts, E. split; [reflexivity|]. split; [exact R|]. apply Forall_app. split; [|exact Fe].
  apply Forall_forall. intros e He. apply in_map_iff in He. destruct He as (w & <- & _). exact I.
Qed.
Lemma well_done : forall n ch, reachable c ch -> well n ch Done.
Proof. intros n ch R. exists ch, [], []. split; [reflexivity|]. split; [exact R|constructor]. Qed.
Lemma well_answer : forall ws n ch, reachable c ch -> well n ch (answer ws).
Proof. intros. apply well_puts. apply well_done. assumption. Qed.
Lemma well_error : forall m n ch, reachable c ch -> well n ch (error m).
Proof. intros. apply well_answer. assumption. Qed.
Lemma well_ask : forall k n ch, well (S n) ch (k (orc n)) -> well n ch (Ask k).
Proof. intros k n ch H. exact H. Qed.
Lemma well_fork : forall d q k n ch, harmless o q -> well n ch k -> well n ch (Fork d q k).
Proof.
  intros d q k n ch H (ch' & es & evs & E & R & Fe). exists ch', (Forked d q :: es), evs. cbn [prun]. rewrite E.
  split; [reflexivity|]. split; [exact R|]. constructor; [exact H|exact Fe].
Qed.
Lemma well_close : forall k n ch, well n ch k -> well n ch (CloseConn k).
Proof.
  intros k n ch (ch' & es & evs & E & R & Fe). exists ch', (Closed :: es), evs. cbn [prun]. rewrite E.
  split; [reflexivity|]. split; [exact R|]. constructor; [exact I|exact Fe].
Qed.
Lemma well_auth : forall k n ch, well n ch k -> well n ch (SetAuth k).
Proof.
  intros k n ch (ch' & es & evs & E & R & Fe). exists ch', (Authed :: es), evs. cbn [prun]. rewrite E.
  split; [reflexivity|]. split; [exact R|]. constructor; [exact I|exact Fe].
Qed.
Lemma well_more : forall p q n n' ch ch' ev, prun c orc n ch p =
    match prun c orc n' ch' q with Bad t => Bad t | Ok (ch2, es, ev2) => Ok (ch2, es, ev ++ ev2) end ->
  well n' ch' q -> well n ch p.
Proof.
  intros p q n n' ch ch' ev E (ch2 & es & evs & E2 & R & Fe). unfold c in E. rewrite E2 in E.
  exists ch2, es, (ev ++ evs). auto.
Qed.
Lemma well_eq : forall p q n n' ch ch', prun c orc n ch p = prun c orc n' ch' q -> well n' ch' q -> well n ch p.
Proof. intros p q n n' ch ch' E (ch2 & es & evs & E2 & H). exists ch2, es, evs. split; [|exact H]. unfold c in E. rewrite E. exact E2. Qed.
Lemma well_same : forall p ch' es evs n ch, prun c orc n ch p = Ok (ch', List.map Out es, evs) -> reachable c ch' -> well n ch p.
Proof.
  intros p ch' es evs n ch E R. exists ch', (List.map Out es), evs. split; [exact E|]. split; [exact R|].
  apply Forall_forall. intros e He. apply in_map_iff in He. destruct He as (w & <- & _). exact I.
Qed.
Lemma well_load : forall n ch key lo now k, reachable c ch -> update_ok key (lo_entry lo) -> (0 < now)%Z ->
  (forall ch' st sh, reachable c ch' -> well (S n) ch' (k (RStatus st sh))) -> well n ch (Do (Load key lo now) k).
Proof.
  intros n ch key lo now k R U Hn H.
  destruct (do_load o orc n ch key lo now k R U Hn) as (ch' & st & sh & ev & cas' & R' & E & _).
  eapply well_more; [exact E|]. apply H. exact R'.
Qed.
Lemma well_call : forall n ch x k, reachable c ch -> call_ok c (in_env (orc n)) (cabs c ch) x ->
  (forall ch' r, reachable c ch' -> spec_step (c_usecas c) (c_noevict c) (route c) (in_env (orc n)) (world_of c ch) x (world_of c ch') r ->
     well (S n) ch' (k r)) -> well n ch (Do x k).
Proof.
  intros n ch x k R K H.
  destruct (reachable_step c (opts_load o) (opts_shards o) ch (in_env (orc n)) x R K) as (ch' & r & ev & E & R' & _ & Sp).
  apply (well_more _ (k r) n (S n) ch ch' ev); [cbn [prun]; rewrite E; reflexivity|]. apply H; assumption.
Qed.

Lemma now_pos : forall n, (0 < in_now (orc n) <= INT64_MAX)%Z.
Proof. intro n. destruct (F n) as [[H _] _]. exact H. Qed.
Lemma fits_of : forall ch key val, (forall key, roomy c (cabs c ch) key) -> bytes_ok key -> bytes_ok val ->
  N.of_nat (length key) + N.of_nat (length val) < 2 ^ 62 -> fits o ch key val.
Proof. intros ch key val H A B L. constructor; auto. Qed.

(** *** The commands *)
Lemma execSET_well : forall n ch pr (name : string) now key val e nx xx get keepttl flags cas withcas os,
  reachable c ch -> fits o ch key val -> (0 < now <= INT64_MAX)%Z -> (0 <= e <= INT64_MAX)%Z ->
  flags = match last_flags os with Some x => x mod 2 ^ 32 | None => 0 end ->
  (nx = true <-> In Nx os) -> (xx = true <-> In Xx os) -> (get = true <-> In Get os) ->
  match last_cas os with Some x => withcas = true /\ cas = x | None => withcas = false end ->
  well n ch (execSET pr (bs name) now key val e nx xx get keepttl flags cas withcas).
Proof.
  intros n ch pr name now key val e nx xx get keepttl flags cas withcas os R Ft Hn He Hf H1 H2 H3 H4.
  destruct (sees_some o ch key now R) as [old So].
  destruct (execSET_spec o orc n ch pr name now key val e nx xx get keepttl flags cas withcas os old R F Ft Hn He Hf H1 H2 H3 H4 So)
    as (ch' & reply & evs & R' & E & _).
  eapply well_same; [exact E|exact R'].
Qed.
Lemma set_well : forall n ch pr args, reachable c ch -> (pr = MEMCACHE -> steady orc) ->
  (forall key, roomy c (cabs c ch) key) -> args_fit args -> well n ch (cmdSET pr args).
Proof.
  intros n ch pr args R St Rm Ba. unfold cmdSET.
  destruct args as [|a0 [|key [|val rest]]]; try (apply well_error; exact R).
  assert (Ft : fits o ch key val).
  { inversion Ba as [|? ? _ B1]; subst. inversion B1 as [|? ? B2 B3]; subst. inversion B3 as [|? ? B4 _]; subst.
    destruct B2 as [B2 L2], B4 as [B4 L4]. apply fits_of; try assumption.
    change (2 ^ 61) with 2305843009213693952 in L2, L4. change (2 ^ 62) with 4611686018427387904. lia. }
  apply well_ask. cbv zeta. pose proof (now_pos n) as Hn. set (now := in_now (orc n)) in *.
  match goal with |- context [set_loop pr now rest set0 ?kk] => set (K := kk) end.
  destruct (set_loop_spec o orc F pr now Hn (length rest) rest (le_n _) set0 K (S n) ch)
    as [(os & n' & s & S1 & S2 & S3 & S4)|(_ & msg & E)].
  2:{ apply (well_same _ ch [WError msg] []); [exact E|exact R]. }
  eapply well_eq; [exact S4|]. unfold K. clear S4 K.
  destruct (applied_sum orc pr now Hn os set0 s S3) as (A1 & A2 & A3 & A4 & A5 & A6 & A7).
  cbn [set0 ss_nx ss_xx ss_get ss_keepttl ss_hasex ss_exp ss_flags ss_withcas ss_cas] in *.
  assert (Hx : (0 <= ss_exp s <= INT64_MAX)%Z).
  { destruct (last_expire os) as [[u z]|] eqn:L.
    - destruct A5 as [_ A5].
      assert (0 < ss_exp s <= INT64_MAX)%Z; [|lia].
      apply (expires_at_range pr orc now u z); try assumption.
      + intros P. exact (S2 P u z (last_expire_in _ _ _ L)).
      + intros P a b. exact (St P a b n).
    - destruct A5 as [_ ->]. unfold INT64_MAX. lia. }
  replace (ss_exp s <? 0)%Z with false by lia.
  destruct (ss_keepttl s && ss_hasex s); [apply well_error; exact R|].
  destruct (ss_xx s && ss_nx s); [apply well_error; exact R|].
  assert (T : forall b (P : Prop), (b = true <-> false = true \/ P) -> (b = true <-> P)) by (intros b P [A B]; intuition congruence).
  apply (execSET_well n' ch pr "SET" now key val (ss_exp s) (ss_nx s) (ss_xx s) (ss_get s) (ss_keepttl s)
    (ss_flags s) (ss_cas s) (ss_withcas s) os R Ft Hn Hx A6 (T _ _ A1) (T _ _ A2) (T _ _ A3)).
  destruct (last_cas os); [exact A7|apply A7].
Qed.
Lemma setex_well : forall n ch pr args, reachable c ch ->
  (forall key, roomy c (cabs c ch) key) -> args_fit args -> well n ch (cmdSETEX pr args).
Proof.
  intros n ch pr args R Rm Ba. unfold cmdSETEX.
  destruct args as [|a0 [|key [|ex [|val [|x r]]]]]; try (apply well_error; exact R).
  assert (Ft : fits o ch key val).
  { inversion Ba as [|? ? _ B1]; subst. inversion B1 as [|? ? B2 B3]; subst. inversion B3 as [|? ? _ B4]; subst.
    inversion B4 as [|? ? B5 _]; subst.
    destruct B2 as [B2 L2], B5 as [B5 L5]. apply fits_of; try assumption.
    change (2 ^ 61) with 2305843009213693952 in L2, L5. change (2 ^ 62) with 4611686018427387904. lia. }
  apply well_ask. destruct (parse_i64 ex) as [z|] eqn:E; [|apply well_error; exact R].
  destruct (Z.leb_spec z 0) as [L|L]; [apply well_error; exact R|]. apply int_text_parse in E.
  destruct (sees_some o ch key (in_now (orc n)) R) as [old So].
  destruct (C28_setex o orc n ch pr a0 key ex val z old R F Ft E L So) as (ch' & reply & evs & i & R' & E1 & _).
  assert (W : well n ch (cmdSETEX pr [a0; key; ex; val])) by (eapply well_same; [exact E1|exact R']).
  unfold cmdSETEX in W. unfold ends_well in W. setoid_rewrite prun_ask in W.
  apply int_text_parse in E. cbv beta in W. rewrite E in W. replace (z <=? 0)%Z with false in W by lia. exact W.
Qed.
Lemma get_well : forall n ch pr args, reachable c ch -> well n ch (cmdGET pr args).
Proof.
  intros n ch pr args R. unfold cmdGET. destruct args as [|a0 [|key [|x r]]]; try (apply well_error; exact R).
  apply well_ask. apply well_puts. apply well_load; [exact R|apply look_ok|apply now_pos|].
  intros ch' st sh R'. apply well_puts. destruct st; apply well_answer; exact R'.
Qed.
Lemma mget_well : forall pr kind now k keys count n ch, reachable c ch -> (0 < now)%Z ->
  (forall ch' n' count', reachable c ch' -> well n' ch' (k count')) -> well n ch (mget_loop pr kind now keys count k).
Proof.
  intros pr kind now k. induction keys as [|key r IH]; intros count n ch R Hn H; cbn [mget_loop]; [apply H; exact R|].
  apply well_load; [exact R|apply look_ok|exact Hn|]. intros ch' st sh R'. apply well_puts.
  destruct st; try apply well_puts; apply IH; assumption.
Qed.
Lemma del_well : forall now k keys count n ch, reachable c ch -> (0 < now)%Z ->
  (forall ch' n' count', reachable c ch' -> well n' ch' (k count')) -> well n ch (del_loop now keys count k).
Proof.
  intros now k. induction keys as [|key r IH]; intros count n ch R Hn H; cbn [del_loop]; [apply H; exact R|].
  destruct (do_delete o orc n ch key now (fun res =>
      match res with
      | RStatus st _ => del_loop now r (match st with DELETED => count + 1 | _ => count end) k
      | _ => Fail AssertFail
      end) R Hn) as (ch' & st & sh & ev & R' & E & _).
  eapply well_more; [exact E|]. apply IH; assumption.
Qed.
Lemma found_well : forall b now k keys count n ch, reachable c ch -> (0 < now)%Z ->
  (forall ch' n' count', reachable c ch' -> well n' ch' (k count')) -> well n ch (found_loop b now keys count k).
Proof.
  intros b now k. induction keys as [|key r IH]; intros count n ch R Hn H; cbn [found_loop]; [apply H; exact R|].
  apply well_load; [exact R|apply plain_ok|exact Hn|]. intros ch' st sh R'. apply IH; assumption.
Qed.
Lemma expire_well : forall n ch pr args, reachable c ch -> well n ch (cmdEXPIRE pr args).
Proof.
  intros n ch pr args R. unfold cmdEXPIRE. destruct args as [|a0 [|key [|secs r]]]; try (apply well_error; exact R).
  apply well_ask. destruct (parse_i64 secs) as [z|] eqn:E; [|apply well_error; exact R].
  apply int_text_parse in E. destruct E as (_ & Hz & _). pose proof (now_pos n) as Hn.
  assert (M : int64_mul_clamp z SECOND = Some (clamp64 (z * SECOND))).
  { rewrite (mul_clamp_spec z SECOND Hz); [rewrite clampZ_eq; reflexivity|unfold i64_ok, SECOND, INT64_MIN, INT64_MAX; lia]. }
  unfold need. rewrite M.
  assert (A : int64_add_clamp (in_now (orc n)) (clamp64 (z * SECOND)) = Some (clamp64 (in_now (orc n) + clamp64 (z * SECOND)))).
  { rewrite add_clamp_spec; [rewrite clampZ_eq; reflexivity|unfold i64_ok, INT64_MIN in *; lia|apply clamp64_ok]. }
  rewrite A. apply well_load; [exact R| |apply Hn|].
  - intros g w u Eg Aw Eu. cbn in Eg. injection Eg as <-. injection Eu as <-. cbn [u_val u_exp u_flags].
    destruct Aw as [W1 W2 W3 W4 W5 W6]. constructor; try assumption; [apply clamp64_ok|reflexivity].
  - intros ch' st sh R'. apply well_answer. exact R'.
Qed.
Lemma count_well : forall n ch pr key uns decr d name, reachable c ch -> (forall key, roomy c (cabs c ch) key) ->
  bytes_ok key -> N.of_nat (length key) < 2 ^ 61 -> in_range uns d ->
  well n ch (execINCRDECR pr key (delta_of uns d) decr uns name).
Proof.
  intros n ch pr key uns decr d name R Rm Bk Lk Hd.
  destruct (sees_some o ch key (in_now (orc n)) R) as [old So].
  destruct (exec_count o orc n ch pr key uns decr d name old R F) as (ch' & reply & evs & R' & E & _); try assumption.
  { intros s Bs Ls. apply fits_of; try assumption. change (2 ^ 61) with 2305843009213693952 in Lk.
    change (2 ^ 62) with 4611686018427387904. lia. }
  eapply well_same; [exact E|exact R'].
Qed.
Lemma key_fit : forall a0 key rest, args_fit (a0 :: key :: rest) -> bytes_ok key /\ N.of_nat (length key) < 2 ^ 61.
Proof.
  intros a0 key rest B. inversion B as [|? ? _ B1]; subst. inversion B1 as [|? ? B2 _]; subst. exact B2.
Qed.
Lemma by_well : forall n ch pr args decr name, reachable c ch -> (forall key, roomy c (cabs c ch) key) ->
  args_fit args -> well n ch (cmdINCRDECRBY pr args decr name).
Proof.
  intros n ch pr args decr name R Rm A. unfold cmdINCRDECRBY.
  destruct args as [|a0 [|key [|dl [|x r]]]]; try (apply well_error; exact R). cbv zeta.
  destruct (read_delta (starts_u a0) dl) as [d|] eqn:E.
  - destruct (read_number _ _ _ E) as (z & -> & Hz & _). destruct (key_fit _ _ _ A). apply count_well; assumption.
  - destruct (is_mc pr); apply well_answer; exact R.
Qed.
Lemma one_well : forall n ch pr args decr name, reachable c ch -> (forall key, roomy c (cabs c ch) key) ->
  args_fit args -> well n ch (cmdINCRDECR pr args decr name).
Proof.
  intros n ch pr args decr name R Rm A. unfold cmdINCRDECR.
  destruct args as [|a0 [|key [|x r]]]; try (apply well_error; exact R). cbv zeta. set (uns := starts_u a0).
  replace (if uns then Unsigned 1 else Signed 1) with (delta_of uns 1%Z) by (destruct uns; reflexivity).
  destruct (key_fit _ _ _ A). apply count_well; try assumption. destruct uns; unfold in_range; lia.
Qed.
Lemma append_well : forall n ch pr args, reachable c ch -> (forall key, roomy c (cabs c ch) key) ->
  args_fit args -> well n ch (cmdAPPEND pr args).
Proof.
  intros n ch pr args R Rm A.
  destruct args as [|a0 [|key [|val [|x r]]]]; try (apply well_ask; apply well_error; exact R).
  destruct (key_fit _ _ _ A) as [K1 K2].
  inversion A as [|? ? _ B1]; subst. inversion B1 as [|? ? _ B2]; subst. inversion B2 as [|? ? [B3 Lv] _]; subst.
  assert (Ft : fits o ch key val).
  { apply fits_of; try assumption. change (2 ^ 61) with 2305843009213693952 in K2, Lv. change (2 ^ 62) with 4611686018427387904. lia. }
  destruct (sees_some o ch key (in_now (orc n)) R) as [old So].
  destruct (C30_append o orc n ch pr a0 key val (is_word a0 "prepend") old (is_word_iff a0 "prepend") R F Ft K2 Lv So)
    as (ch' & reply & evs & R' & E & _).
  eapply well_same; [exact E|exact R'].
Qed.
Lemma keys_well : forall n ch pr args, reachable c ch -> well n ch (cmdKEYS pr args).
Proof.
  intros n ch pr args R. unfold cmdKEYS. destruct args as [|a0 [|pat [|x r]]]; try (apply well_error; exact R).
  apply well_ask. destruct (in_work (orc n)); [|apply well_error; exact R].
  apply well_call; [exact R|exact I|]. intros ch' r R' Sp. inversion Sp; subst.
  destruct (is_pg pr); apply well_answer; exact R'.
Qed.
Lemma dbsize_well : forall n ch pr args, reachable c ch -> well n ch (cmdDBSIZE pr args).
Proof.
  intros n ch pr args R. unfold cmdDBSIZE. destruct args as [|a0 [|x r]]; try (apply well_error; exact R).
  apply well_call; [exact R|exact I|]. intros ch' r R' Sp. inversion Sp; subst.
  destruct (is_pg pr); apply well_answer; exact R'.
Qed.
Lemma ttl_well : forall n ch pr args, reachable c ch -> well n ch (cmdTTL pr args).
Proof.
  intros n ch pr args R. unfold cmdTTL. destruct args as [|a0 [|key [|x r]]]; try (apply well_error; exact R).
  cbv zeta. apply well_ask. apply well_puts. apply well_load; [exact R|apply look_ok|apply now_pos|].
  intros ch' st sh R'. apply well_puts. apply well_puts. apply well_answer. exact R'.
Qed.

(** *** Work on the whole cache *)
Lemma flush_harmless : forall fast, harmless o (flush_work (shards_of o) fast Done).
Proof.
  intros fast orc' n ch R F' M. destruct (flush_work_spec o orc' n ch fast Done R F' M) as (ch' & n' & ev & R' & _ & E).
  exists ch'. eexists. split; [exact E|exact R'].
Qed.
Lemma sweep_harmless : forall fast, harmless o (sweep_work (shards_of o) fast Done).
Proof.
  intros fast orc' n ch R F' M. destruct (sweep_work_spec o orc' n ch fast Done R F' M) as (ch' & n' & ev & R' & _ & E).
  exists ch'. eexists. split; [exact E|exact R'].
Qed.
Lemma flush_loop_well : forall n ch k, reachable c ch -> (forall async fast delay, well n ch (k async fast delay)) ->
  forall len rest async fast delay, (length rest <= len)%nat -> well n ch (flush_loop rest async fast delay k).
Proof.
  intros n ch k R H. induction len as [|len IH]; intros rest async fast delay L.
  - destruct rest; [apply H|cbn in L; lia].
  - destruct rest as [|w r]; [apply H|]. cbn in L. cbn [flush_loop].
    destruct (is_word w "async"); [apply IH; lia|]. destruct (is_word w "sync"); [apply IH; lia|].
    destruct (is_word w "fast"); [apply IH; lia|]. destruct (is_word w "delay"); [|apply well_error; exact R].
    destruct r as [|v r]; [apply well_error; exact R|]. destruct (parse_i64 v) as [z|]; [|apply well_error; exact R].
    destruct ((z <? 0) || (31536000 <? z))%Z; [apply well_error; exact R|]. cbn in L. destruct (0 <? z)%Z; apply IH; lia.
Qed.
Lemma flush_well : forall n ch pr args, reachable c ch -> manned orc -> well n ch (cmdFLUSHALL (shards_of o) pr args).
Proof.
  intros n ch pr args R M. unfold cmdFLUSHALL. apply (flush_loop_well n ch _ R) with (len := length (List.tl args)); [|lia].
  intros async fast delay. destruct async.
  - apply well_fork; [apply flush_harmless|]. apply well_answer. exact R.
  - apply well_ask. destruct (in_work (orc n)); [|apply well_error; exact R].
    match goal with |- well _ _ (flush_work _ _ ?kk) => destruct (flush_work_spec o orc (S n) ch fast kk R F M) as (ch' & n' & ev & R' & _ & E) end.
    eapply well_more; [exact E|]. apply well_answer. exact R'.
Qed.
Lemma sweep_loop_well : forall n ch k, reachable c ch -> (forall async fast, well n ch (k async fast)) ->
  forall rest async fast, well n ch (sweep_loop rest async fast k).
Proof.
  intros n ch k R H. induction rest as [|w r IH]; intros async fast; cbn [sweep_loop]; [apply H|].
  destruct (is_word w "async"); [apply IH|]. destruct (is_word w "fast"); [apply IH|apply well_error; exact R].
Qed.
Lemma sweep_well : forall n ch pr args, reachable c ch -> manned orc -> well n ch (cmdSWEEP (shards_of o) pr args).
Proof.
  intros n ch pr args R M. unfold cmdSWEEP. destruct (2 <? length args)%nat; [apply well_error; exact R|].
  apply (sweep_loop_well n ch _ R). intros async fast. cbv zeta. destruct async.
  - apply well_fork; [apply sweep_harmless|]. apply well_answer. exact R.
  - apply well_ask. destruct (in_work (orc n)); [|apply well_error; exact R].
    match goal with |- well _ _ (sweep_work _ _ ?kk) => destruct (sweep_work_spec o orc (S n) ch fast kk R F M) as (ch' & n' & ev & R' & _ & E) end.
    eapply well_more; [exact E|]. apply well_answer. exact R'.
Qed.
Lemma purge_well : forall n ch pr args, reachable c ch -> well n ch (cmdPURGE pr args).
Proof.
  intros n ch pr args R. unfold cmdPURGE. cbv zeta.
  assert (W : forall how, well n ch (Ask (fun i => if in_work i then answer (if is_pg pr then complete (bs how) else [WString (bs "OK")]) else error (bs "ERR failed to do work")))).
  { intro how. apply well_ask. destruct (in_work (orc n)); [apply well_answer|apply well_error]; exact R. }
  destruct args as [|a0 [|w [|x r]]]; try apply W; [|apply well_error; exact R].
  destruct (is_word w "async"); [|apply well_error; exact R].
  apply well_fork; [|apply well_answer; exact R].
  intros orc' n' ch' R' _ _. exists ch', []. split; [reflexivity|exact R'].
Qed.

(** *** SCAN *)
Lemma ahead_le : forall ms idx j, (length (ahead ms idx j) <= length (allents ms))%nat.
Proof.
  intros ms idx j. unfold ahead. destruct (nth_error ms idx) as [m|] eqn:E.
  - apply nth_error_split in E. destruct E as (l1 & l2 & -> & <-).
    replace (skipn (S (length l1)) (l1 ++ m :: l2)) with l2.
    2:{ rewrite skipn_app. rewrite skipn_all2 by lia. replace (S (length l1) - length l1)%nat with 1%nat by lia. reflexivity. }
    rewrite allents_app, allents_cons, !app_length. pose proof (before_after m j) as B.
    assert (L : (length (after m j) <= length (ents m))%nat).
    { rewrite <- B, app_length. lia. }
    lia.
  - apply nth_error_None in E. rewrite skipn_all2 by lia. cbn. lia.
Qed.
Definition steps_for (nl p : nat) : nat := (S p + nl * S nl)%nat.
Lemma scan_well : forall pat now count k, (0 < now)%Z -> c_nshards c < 2 ^ 31 ->
  (forall n ch keys cur, reachable c ch -> well n ch (k keys cur)) ->
  forall nl p ch idx j acc n fuel, reachable c ch ->
  (forall n, In n (List.map (@m_nb entry) (maps ch)) -> N.of_nat n < 2 ^ 31) ->
  (idx < N.to_nat (c_nshards c))%nat -> N.of_nat j < 2 ^ 31 ->
  (length (allents (maps ch)) <= nl)%nat -> (length (ahead (maps ch) idx j) <= p)%nat ->
  (steps_for nl p <= fuel)%nat ->
  well n ch (scan_work fuel pat now count (cursor_at idx j) acc k).
Proof.
  intros pat now count k Hnow Hs Hk nl. induction nl as [nl IHn] using lt_wf_ind.
  intro p. induction p as [p IHp] using lt_wf_ind. intros ch idx j acc n fuel R Hn Hi Hj Ln Lp Lf.
  unfold steps_for in Lf. destruct fuel as [|fuel]; [lia|]. cbn [scan_work].
  destruct (count <=? length acc)%nat; [apply Hk; exact R|].
  destruct (step_entry o (in_env (orc n)) ch idx j now R Hnow Hs Hn Hi Hj)
    as (ch1 & r & cur & evs & E & R1 & Nb & Le & Al & Sub & Eq & Rr).
  destruct r as [[[id key] v]|].
  - destruct Rr as (e & idx' & j' & -> & -> & Hin & Ha & -> & Nz & Hi' & Hj' & Cov & St).
    assert (Hn1 : forall q, In q (List.map (@m_nb entry) (maps ch1)) -> N.of_nat q < 2 ^ 31) by (rewrite Nb; assumption).
    eapply well_more; [cbn [prun]; unfold c; rewrite E; reflexivity|].
    destruct (Nat.eq_dec (length (allents (maps ch1))) (length (allents (maps ch)))) as [Q|Q].
    + destruct (St Q) as [S1 S2]. rewrite S2 in Lp. cbn in Lp.
      apply (IHp (length (ahead (maps ch1) idx' j'))); try assumption; try lia.
      * rewrite S1. lia.
      * unfold steps_for. rewrite S1. lia.
    + pose proof (ahead_le (maps ch1) idx' j') as L1.
      apply (IHn (length (allents (maps ch1)))) with (p := length (ahead (maps ch1) idx' j')); try assumption; try lia.
      unfold steps_for. assert (S (length (allents (maps ch1))) <= nl)%nat by lia. nia.
  - eapply well_more; [cbn [prun]; unfold c; rewrite E; reflexivity|]. apply Hk. exact R1.
Qed.
Lemma entries_number : forall ch n, reachable c ch -> Spec.number (kept o ch) n -> N.of_nat (length (allents (maps ch))) = n.
Proof.
  intros ch n R H. apply (number_unique _ (opts_load o) (kept o ch)); [|exact H].
  exists (List.map (ekey c) (allents (maps ch))). split; [apply allents_nodup; [exact (opts_load o)|apply reach_cinv; exact R]|].
  split; [|rewrite map_length; reflexivity]. intro key. split.
  - intro Hin. apply in_map_iff in Hin. destruct Hin as (e & <- & He). apply kept_entry; assumption.
  - intros (t & v & S). destruct (entry_live o ch key t R) as (e & A & B & _); [exists v; exact S|].
    apply in_map_iff. exists e. auto.
Qed.
Lemma cmdSCAN_well : forall n ch pr args fuel, reachable c ch -> sized o fuel ch -> word (hd [] args) "scan" -> ~ bad_cursor o args ->
  well n ch (cmdSCAN fuel pr args).
Proof.
  intros n ch pr args fuel R [_ Ft (nk & Nk & Lf)] Hw Nb. unfold cmdSCAN.
  destruct args as [|a0 [|cur rest]]; try (apply well_error; exact R).
  destruct (parse_u64 cur) as [x|] eqn:P; [|apply well_error; exact R].
  assert (Hx : N.shiftr x 32 <> c_nshards c).
  { intro Z. apply Nb. exists a0, cur, rest, x. split; [reflexivity|]. split; [exact Hw|]. split; [|exact Z].
    apply nat_text_parse. exact P. }
  assert (Loop : forall len rest pat count k, (length rest <= len)%nat -> (forall pat count, 0 < count -> well n ch (k pat count)) -> 0 < count ->
    well n ch (scan_loop rest pat count k)).
  { clear - R. induction len as [|len IH]; intros rest pat count k L H Hc.
    - destruct rest; [apply H; exact Hc|cbn in L; lia].
    - destruct rest as [|w r]; [apply H; exact Hc|]. cbn in L. cbn [scan_loop].
      destruct (is_word w "match"); [destruct r as [|v r]; [apply well_error; exact R|]; cbn in L; apply IH; [lia|assumption..]|].
      destruct (is_word w "count").
      { destruct r as [|v r]; [apply well_error; exact R|]. destruct (parse_u64 v) as [y|]; [|apply well_error; exact R].
        destruct ((y =? 0) || (2 ^ 31 - 1 <? y)) eqn:B; [apply well_error; exact R|].
        apply orb_false_iff in B. destruct B as [B _]. apply N.eqb_neq in B. cbn in L. apply IH; [lia|assumption|lia]. }
      destruct (is_word w "type"); [|apply well_error; exact R]. destruct r as [|v r]; [apply well_error; exact R|].
      destruct (is_word v "string"); [cbn in L; apply IH; [lia|assumption..]|apply well_error; exact R]. }
  apply (Loop (length rest)); [apply le_n| |reflexivity]. clear Loop. intros pat count Hc. apply well_ask.
  pose proof (now_pos n) as Hnow. set (now := in_now (orc n)) in *.
  assert (Fin : forall n ch keys cur', reachable c ch -> well n ch (if is_pg pr then
              answer ([PRowDesc [bs "key"; bs "cursor"]]
                      ++ List.map (fun key => PRow [key; u64toa cur']) keys
                      ++ complete (tag (bs "SCAN") (u64toa (N.of_nat (length keys)))))
            else answer ([WArray 2; WBulk (u64toa cur'); WArray (N.of_nat (length keys))]
                         ++ List.map WBulk keys))).
  { intros n1 ch1 keys cur' R1. destruct (is_pg pr); apply well_answer; exact R1. }
  destruct ((N.shiftr x 32 <? c_nshards c) && (N.land x 0xFFFFFFFF <? 2 ^ 31)) eqn:In0.
  - apply andb_true_iff in In0. destruct In0 as [I1 I2]. apply N.ltb_lt in I1, I2. rewrite (cursor_parts x).
    pose proof (entries_number ch nk R Nk) as En.
    eapply (scan_well pat now (N.to_nat count) _ (proj1 Hnow) (proj1 Ft) Fin); try exact R; try (apply le_n); try lia.
    + exact (fits_maps o ch Ft).
    + unfold steps_for. pose proof (ahead_le (maps ch) (N.to_nat (N.shiftr x 32)) (N.to_nat (N.land x 0xFFFFFFFF))) as L1. nia.
  - assert (E : forall en, step c en ch (EntryIter x now) = Ok (ch, REntry None 0, [])).
    { intro en. cbn [step]. unfold cache_entry_iter. cbv zeta. apply andb_false_iff in In0.
      destruct (2 ^ 31 <=? N.shiftr x 32) eqn:B1; [reflexivity|]. cbn [orb].
      destruct (N.ltb_spec (c_nshards c) (N.shiftr x 32)); [reflexivity|].
      destruct (N.leb_spec (2 ^ 31) (N.land x 0xFFFFFFFF)); [reflexivity|]. exfalso.
      destruct In0 as [Z|Z]; [apply N.ltb_ge in Z; lia|]. apply N.ltb_ge in Z. change 0xFFFFFFFF with 4294967295 in *. lia. }
    destruct fuel as [|fuel]; [apply N.le_0_r, N.eq_mul_0 in Lf; lia|]. cbn [scan_work length].
    assert (Z : (N.to_nat count <=? 0)%nat = false) by (apply Nat.leb_gt; lia). rewrite Z.
    eapply well_more; [cbn [prun]; fold c; rewrite E; reflexivity|]. apply Fin. exact R.
Qed.
End V.
