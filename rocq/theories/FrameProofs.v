(** Facts for C76: what a command leaves alone. *)
From Verif Require Import Base Types Clamp Entry EntryProofs Hash Map MapProofs MapInv Shard
  Spec Trace ShardProofs ScanProofs LoopProofs Cache Refine Reach Observe PropCache PropItems CursorProofs PropCursor
  Text IntText IntTextProofs Glob GlobProofs CmdTable CmdTableProofs PropText Prog CmdSpec CmdSpec2 CmdSpec3 Cmds
  CmdsProofs CmdsProofs2 CmdsProofs3 PropCmds PropCmds2 CmdsProofs4 CmdsProofs5 PropCmds3 PropCmds4 SafeSpec SafeProofs FrameSpec.
From Coq Require Import String Permutation.
Local Open Scope N_scope.
Notation length := List.length.

Section V.
Variable o : opts.
Let c := ctx_of o.
Variable orc : nat -> input.
Hypothesis F : fine orc.
Hypothesis A : ample orc.
Variable T : Z.
Hypothesis U : until orc T.
Variable P : bytes -> Prop.
(** From [T] on, the keys of [P] show the same. *)
Definition kept_as (ch ch' : cache) : Prop := forall k, P k -> same_from o T ch ch' k.
Definition framed (n : nat) (ch : cache) (p : prog) : Prop :=
  exists ch' es evs, prun c orc n ch p = Ok (ch', es, evs) /\ reachable c ch' /\ kept_as ch ch'.

Lemma kept_refl : forall ch, kept_as ch ch.
Proof. intros ch k _ t v _. reflexivity. Qed.
Lemma kept_trans : forall a b d, kept_as a b -> kept_as b d -> kept_as a d.
Proof. intros a b d H1 H2 k Pk. eapply same_from_trans; [apply H1|apply H2]; exact Pk. Qed.
Lemma kept_all : forall n ch ch', all_same o (in_now (orc n)) ch ch' -> kept_as ch ch'.
Proof. intros n ch ch' H k _ t v Ht. apply H. specialize (U n). lia. Qed.
Lemma kept_at : forall ch ch', (forall k, P k -> same_at c ch ch' k) -> kept_as ch ch'.
Proof. intros ch ch' H k Pk t v _. exact (H k Pk t v). Qed.

Lemma fr_puts : forall ws n ch k, framed n ch k -> framed n ch (puts ws k).
Proof.
  intros ws n ch k (ch' & es & evs & E & R & K). exists ch', (List.map Out ws ++ es), evs.
  rewrite prun_puts, E. auto.
Qed.
Lemma fr_done : forall n ch, reachable c ch -> framed n ch Done.
Proof. intros n ch R. exists ch, [], []. split; [reflexivity|]. split; [exact R|apply kept_refl]. Qed.
Lemma fr_answer : forall ws n ch, reachable c ch -> framed n ch (answer ws).
Proof. intros. apply fr_puts. apply fr_done. assumption. Qed.
Lemma fr_error : forall m n ch, reachable c ch -> framed n ch (error m).
Proof. intros. apply fr_answer. assumption. Qed.
Lemma fr_ask : forall k n ch, framed (S n) ch (k (orc n)) -> framed n ch (Ask k).
Proof. intros k n ch H. exact H. Qed.
Lemma fr_fork : forall d q k n ch, framed n ch k -> framed n ch (Fork d q k).
Proof. intros d q k n ch (ch' & es & evs & E & R & K). exists ch', (Forked d q :: es), evs. cbn [prun]. rewrite E. auto. Qed.
Lemma fr_close : forall k n ch, framed n ch k -> framed n ch (CloseConn k).
Proof. intros k n ch (ch' & es & evs & E & R & K). exists ch', (Closed :: es), evs. cbn [prun]. rewrite E. auto. Qed.
Lemma fr_auth : forall k n ch, framed n ch k -> framed n ch (SetAuth k).
Proof. intros k n ch (ch' & es & evs & E & R & K). exists ch', (Authed :: es), evs. cbn [prun]. rewrite E. auto. Qed.
Lemma fr_more : forall p q n n' ch ch' ev, prun c orc n ch p =
    match prun c orc n' ch' q with Bad t => Bad t | Ok (ch2, es, ev2) => Ok (ch2, es, ev ++ ev2) end ->
  kept_as ch ch' -> framed n' ch' q -> framed n ch p.
Proof.
  intros p q n n' ch ch' ev E K (ch2 & es & evs & E2 & R & K2). rewrite E2 in E.
  exists ch2, es, (ev ++ evs). split; [exact E|]. split; [exact R|]. eapply kept_trans; eassumption.
Qed.
Lemma fr_eq : forall p q n n' ch, prun c orc n ch p = prun c orc n' ch q -> framed n' ch q -> framed n ch p.
Proof. intros p q n n' ch E (ch2 & es & evs & E2 & H). exists ch2, es, evs. split; [|exact H]. rewrite E. exact E2. Qed.
Lemma fr_same : forall p ch' es evs n ch, prun c orc n ch p = Ok (ch', es, evs) -> reachable c ch' -> kept_as ch ch' -> framed n ch p.
Proof. intros p ch' es evs n ch E R K. exists ch', es, evs. auto. Qed.
Lemma now_pos : forall n, (0 < in_now (orc n) <= INT64_MAX)%Z.
Proof. intro n. destruct (F n) as [[H _] _]. exact H. Qed.
(** A call whose effect on the map is at most that expired items go. *)
Lemma fr_call : forall n ch x k m, reachable c ch -> call_ok c (in_env (orc n)) (cabs c ch) x ->
  (forall w' r, spec_step (c_usecas c) (c_noevict c) (route c) (in_env (orc n)) (world_of c ch) x w' r ->
     forall key, w_map w' key = cabs c ch key \/ (live_item (cabs c ch) key (in_now (orc m)) = None /\ w_map w' key = None)) ->
  (forall ch' r, reachable c ch' -> spec_step (c_usecas c) (c_noevict c) (route c) (in_env (orc n)) (world_of c ch) x (world_of c ch') r -> framed (S n) ch' (k r)) -> framed n ch (Do x k).
Proof.
  intros n ch x k m R K Q H.
  destruct (reachable_step c (opts_load o) (opts_shards o) ch (in_env (orc n)) x R K) as (ch' & r & ev & E & R' & _ & Sp).
  apply (fr_more _ (k r) n (S n) ch ch' ev); [cbn [prun]; rewrite E; reflexivity| |apply H; assumption].
  apply (kept_all m). intro key. apply same_from_abs; [exact R|exact R'|]. intros t Ht.
  destruct (Q _ _ Sp key) as [Z|[L Z]]; cbn [w_map world_of] in Z; change (ctx_of o) with c.
  - unfold live_item. rewrite Z. reflexivity.
  - rewrite (dead_later _ _ _ _ L Ht). unfold live_item. rewrite Z. reflexivity.
Qed.

(** *** The commands *)
Lemma kept_others : forall key ch ch' l, (forall k, P k -> k <> key) -> l = false -> others o l ch ch' key -> kept_as ch ch'.
Proof.
  intros key ch ch' l N -> [H|[H _]]; [|discriminate]. apply kept_at. intros k Pk. apply H. apply N. exact Pk.
Qed.
Lemma refused_dec : forall uc os old, refused uc os old \/ ~ refused uc os old.
Proof.
  intros uc os old.
  assert (D : forall x, (x = Nx \/ x = Xx) -> In x os \/ ~ In x os).
  { intros x Hx. clear - Hx. induction os as [|y os IH]; [right; intros []|]. destruct IH as [IH|IH]; [left; right; exact IH|].
    destruct Hx as [-> | ->]; destruct y; try (left; left; reflexivity); right; (intros [H|H]; [discriminate|contradiction]). }
  unfold refused. destruct old as [v|], (last_cas os) as [x|].
  - destruct uc; [|left; left; reflexivity]. destruct (N.eq_dec x (v_cas v)); [right; intros [H|H]; congruence|left; right; assumption].
  - apply D. left. reflexivity.
  - left. exact I.
  - apply D. right. reflexivity.
Qed.
Lemma kept_set : forall pr name i now key val os e ch ch' old reply, (forall k, P k -> k <> key) -> in_lowmem i = false ->
  set_done o pr name i now key val os e ch ch' old reply -> kept_as ch ch'.
Proof.
  intros pr name i now key val os e ch ch' old reply N L (_ & D2 & D3). rewrite L in *. cbn [andb] in *.
  destruct (refused_dec (op_usecas o) os old) as [H|H].
  - destruct (D2 eq_refl H) as (_ & _ & _ & S). apply kept_at. intros k Pk. apply S. apply N. exact Pk.
  - destruct (D3 eq_refl H) as (_ & _ & _ & S). exact (kept_others key ch ch' false N eq_refl S).
Qed.
Lemma kept_unchanged : forall m ch ch' key, unchanged o (in_now (orc m)) ch ch' key -> kept_as ch ch'.
Proof. intros m ch ch' key H. apply (kept_all m). exact (unchanged_all _ _ _ _ _ H). Qed.

Lemma set_framed : forall n ch pr args, reachable c ch -> (pr = MEMCACHE -> steady orc) ->
  (forall key, roomy c (cabs c ch) key) -> args_fit args -> (forall k, P k -> forall a0 key r, args = a0 :: key :: r -> k <> key) -> framed n ch (cmdSET pr args).
Proof.
  intros n ch pr args R St Rm Ba N. unfold cmdSET.
  destruct args as [|a0 [|key [|val rest]]]; try (apply fr_error; exact R).
  assert (Ft : fits o ch key val).
  { inversion Ba as [|? ? _ B1]; subst. inversion B1 as [|? ? B2 B3]; subst. inversion B3 as [|? ? B4 _]; subst.
    destruct B2 as [B2 L2], B4 as [B4 L4]. apply fits_of; try assumption.
    change (2 ^ 61) with 2305843009213693952 in L2, L4. change (2 ^ 62) with 4611686018427387904. lia. }
  apply fr_ask. cbv zeta. pose proof (now_pos n) as Hn. set (now := in_now (orc n)) in *.
  match goal with |- context [set_loop pr now rest set0 ?kk] => set (K := kk) end.
  destruct (set_loop_spec o orc F pr now Hn (length rest) rest (le_n _) set0 K (S n) ch)
    as [(os & n' & s & S1 & S2 & S3 & S4)|(_ & msg & E)].
  2:{ apply (fr_same _ ch [Out (WError msg)] []); [exact E|exact R|apply kept_refl]. }
  eapply fr_eq; [exact S4|]. unfold K. clear S4 K.
  destruct (applied_sum orc pr now Hn os set0 s S3) as (A1 & A2 & A3 & A4 & A5 & A6 & A7).
  cbn [set0 ss_nx ss_xx ss_get ss_keepttl ss_hasex ss_exp ss_flags ss_withcas ss_cas] in *.
  assert (Hx : (0 <= ss_exp s <= INT64_MAX)%Z).
  { destruct (last_expire os) as [[u z]|] eqn:L.
    - destruct A5 as [_ A5].
      assert (0 < ss_exp s <= INT64_MAX)%Z; [|lia].
      apply (expires_at_range pr orc now u z); try assumption.
      + intros Q. exact (S2 Q u z (last_expire_in _ _ _ L)).
      + intros Q a b. exact (St Q a b n).
    - destruct A5 as [_ ->]. unfold INT64_MAX. lia. }
  replace (ss_exp s <? 0)%Z with false by lia.
  destruct (ss_keepttl s && ss_hasex s); [apply fr_error; exact R|].
  destruct (ss_xx s && ss_nx s); [apply fr_error; exact R|].
  assert (Z : forall b (Q : Prop), (b = true <-> false = true \/ Q) -> (b = true <-> Q)) by (intros b Q [X Y]; intuition congruence).
  destruct (sees_some o ch key now R) as [old So].
  assert (A8 : match last_cas os with Some x => ss_withcas s = true /\ ss_cas s = x | None => ss_withcas s = false end) by (destruct (last_cas os); [exact A7|apply A7]).
  destruct (execSET_spec o orc n' ch pr "SET" now key val (ss_exp s) (ss_nx s) (ss_xx s) (ss_get s) (ss_keepttl s)
    (ss_flags s) (ss_cas s) (ss_withcas s) os old R F Ft Hn Hx A6 (Z _ _ A1) (Z _ _ A2) (Z _ _ A3) A8 So)
    as (ch' & reply & evs & R' & E & D).
  eapply fr_same; [exact E|exact R'|]. eapply kept_set; [|apply A|exact D]. intros k Pk. exact (N k Pk _ _ _ eq_refl).
Qed.
Lemma setex_framed : forall n ch pr args, reachable c ch ->
  (forall key, roomy c (cabs c ch) key) -> args_fit args -> (forall k, P k -> forall a0 key r, args = a0 :: key :: r -> k <> key) -> framed n ch (cmdSETEX pr args).
Proof.
  intros n ch pr args R Rm Ba N. unfold cmdSETEX.
  destruct args as [|a0 [|key [|ex [|val [|x r]]]]]; try (apply fr_error; exact R).
  assert (Ft : fits o ch key val).
  { inversion Ba as [|? ? _ B1]; subst. inversion B1 as [|? ? B2 B3]; subst. inversion B3 as [|? ? _ B4]; subst.
    inversion B4 as [|? ? B5 _]; subst.
    destruct B2 as [B2 L2], B5 as [B5 L5]. apply fits_of; try assumption.
    change (2 ^ 61) with 2305843009213693952 in L2, L5. change (2 ^ 62) with 4611686018427387904. lia. }
  apply fr_ask. destruct (parse_i64 ex) as [z|] eqn:E; [|apply fr_error; exact R].
  destruct (Z.leb_spec z 0) as [L|L]; [apply fr_error; exact R|]. apply int_text_parse in E.
  destruct (sees_some o ch key (in_now (orc n)) R) as [old So].
  destruct (C28_setex o orc n ch pr a0 key ex val z old R F Ft E L So) as (ch' & reply & evs & i & R' & E1 & (j & ->) & D).
  assert (W : framed n ch (cmdSETEX pr [a0; key; ex; val])).
  { eapply fr_same; [exact E1|exact R'|]. eapply kept_set; [|apply A|exact D]. intros k Pk. exact (N k Pk _ _ _ eq_refl). }
  unfold cmdSETEX in W. unfold framed in W. setoid_rewrite prun_ask in W.
  apply int_text_parse in E. cbv beta in W. rewrite E in W. replace (z <=? 0)%Z with false in W by lia. exact W.
Qed.
Lemma get_framed : forall n ch pr args, reachable c ch -> framed n ch (cmdGET pr args).
Proof.
  intros n ch pr args R. destruct args as [|a0 [|key [|x r]]]; try (apply fr_error; exact R).
  destruct (sees_some o ch key (in_now (orc n)) R) as [old So].
  destruct (C32_get o orc n ch pr a0 key old R F So) as (ch' & evs & dec & R' & _ & E & K).
  eapply fr_same; [exact E|exact R'|exact (kept_all n _ _ K)].
Qed.
Lemma ttl_framed : forall n ch pr args, reachable c ch -> framed n ch (cmdTTL pr args).
Proof.
  intros n ch pr args R. destruct args as [|a0 [|key [|x r]]]; try (apply fr_error; exact R).
  destruct (sees_some o ch key (in_now (orc n)) R) as [old So].
  destruct (C31_ttl o orc n ch pr a0 key (is_word a0 "pttl") old (is_word_iff a0 "pttl") R F So) as (ch' & evs & dg & R' & E & _ & K).
  eapply fr_same; [exact E|exact R'|exact (kept_unchanged n _ _ _ K)].
Qed.
Lemma mget_framed : forall n ch pr args, reachable c ch -> framed n ch (cmdMGET pr args).
Proof.
  intros n ch pr args R. destruct args as [|a0 [|key r]]; try (apply fr_error; exact R).
  destruct (C32_mget o orc n ch pr a0 (key :: r) (is_word a0 "mgets") R F ltac:(discriminate) (is_word_iff a0 "mgets")) as (ch' & evs & olds & dec & R' & _ & _ & E & K).
  eapply fr_same; [exact E|exact R'|exact (kept_all n _ _ K)].
Qed.
Lemma exists_framed : forall n ch pr args, reachable c ch -> framed n ch (cmdEXISTS pr args).
Proof.
  intros n ch pr args R. destruct args as [|a0 [|key r]]; try (apply fr_error; exact R).
  destruct (C32_exists o orc n ch pr a0 (key :: r) R F ltac:(discriminate)) as (ch' & evs & l & dec & R' & _ & _ & E & K).
  eapply fr_same; [exact E|exact R'|exact (kept_all n _ _ K)].
Qed.
Lemma touch_framed : forall n ch pr args, reachable c ch -> framed n ch (cmdTOUCH pr args).
Proof.
  intros n ch pr args R. destruct args as [|a0 [|key r]]; try (apply fr_error; exact R).
  destruct (C32_touch o orc n ch pr a0 (key :: r) R F ltac:(discriminate)) as (ch' & evs & l & dec & R' & _ & _ & E & K).
  eapply fr_same; [exact E|exact R'|exact (kept_all n _ _ K)].
Qed.
Lemma del_framed : forall n ch pr args, reachable c ch -> (forall k, P k -> ~ In k (List.tl args)) -> framed n ch (cmdDEL pr args).
Proof.
  intros n ch pr args R N. destruct args as [|a0 [|key r]]; try (apply fr_error; exact R).
  destruct (C32_del o orc n ch pr a0 (key :: r) R F ltac:(discriminate)) as (ch' & evs & ks & dec & R' & _ & _ & _ & E & _ & K).
  eapply fr_same; [exact E|exact R'|]. apply kept_at. intros k Pk. apply K. exact (N k Pk).
Qed.
Lemma expire_framed : forall n ch pr args, reachable c ch -> (forall k, P k -> forall a0 key r, args = a0 :: key :: r -> k <> key) -> framed n ch (cmdEXPIRE pr args).
Proof.
  intros n ch pr args R N. destruct args as [|a0 [|key [|secs r]]]; try (apply fr_error; exact R).
  destruct (parse_i64 secs) as [z|] eqn:E.
  - apply int_text_parse in E. destruct (sees_some o ch key (in_now (orc n)) R) as [old So].
    destruct (C31_expire o orc n ch pr a0 key secs r z old R F E So) as (ch' & evs & R' & Er & D).
    eapply fr_same; [exact Er|exact R'|]. destruct old as [v|].
    + destruct D as [_ D]. apply kept_at. intros k Pk. apply D. exact (N k Pk _ _ _ eq_refl).
    + exact (kept_unchanged n _ _ _ D).
  - unfold cmdEXPIRE. apply fr_ask. rewrite E. apply fr_error. exact R.
Qed.
Lemma count_framed : forall n ch pr key uns decr d name, reachable c ch -> (forall key, roomy c (cabs c ch) key) ->
  bytes_ok key -> N.of_nat (length key) < 2 ^ 61 -> in_range uns d -> (forall k, P k -> k <> key) ->
  framed n ch (execINCRDECR pr key (delta_of uns d) decr uns name).
Proof.
  intros n ch pr key uns decr d name R Rm Bk Lk Hd N.
  destruct (sees_some o ch key (in_now (orc n)) R) as [old So].
  destruct (exec_count o orc n ch pr key uns decr d name old R F) as (ch' & reply & evs & R' & E & D); try assumption.
  { intros s Bs Ls. apply fits_of; try assumption. change (2 ^ 61) with 2305843009213693952 in Lk.
    change (2 ^ 62) with 4611686018427387904. lia. }
  eapply fr_same; [exact E|exact R'|]. inversion D; subst; try (eapply (kept_unchanged n); eassumption).
  apply kept_at. intros k Pk. match goal with H : forall k, k <> key -> _ |- _ => apply H end. exact (N k Pk).
Qed.
Lemma by_framed : forall n ch pr args decr name, reachable c ch -> (forall key, roomy c (cabs c ch) key) ->
  args_fit args -> (forall k, P k -> forall a0 key r, args = a0 :: key :: r -> k <> key) -> framed n ch (cmdINCRDECRBY pr args decr name).
Proof.
  intros n ch pr args decr name R Rm Af N. unfold cmdINCRDECRBY.
  destruct args as [|a0 [|key [|dl [|x r]]]]; try (apply fr_error; exact R). cbv zeta.
  destruct (read_delta (starts_u a0) dl) as [d|] eqn:E.
  - destruct (read_number _ _ _ E) as (z & -> & Hz & _). destruct (key_fit _ _ _ Af). apply count_framed; try assumption.
    intros k Pk. exact (N k Pk _ _ _ eq_refl).
  - destruct (is_mc pr); apply fr_answer; exact R.
Qed.
Lemma one_framed : forall n ch pr args decr name, reachable c ch -> (forall key, roomy c (cabs c ch) key) ->
  args_fit args -> (forall k, P k -> forall a0 key r, args = a0 :: key :: r -> k <> key) -> framed n ch (cmdINCRDECR pr args decr name).
Proof.
  intros n ch pr args decr name R Rm Af N. unfold cmdINCRDECR.
  destruct args as [|a0 [|key [|x r]]]; try (apply fr_error; exact R). cbv zeta. set (uns := starts_u a0).
  replace (if uns then Unsigned 1 else Signed 1) with (delta_of uns 1%Z) by (destruct uns; reflexivity).
  destruct (key_fit _ _ _ Af). apply count_framed; try assumption; [destruct uns; unfold in_range; lia|].
  intros k Pk. exact (N k Pk _ _ _ eq_refl).
Qed.
Lemma append_framed : forall n ch pr args, reachable c ch -> (forall key, roomy c (cabs c ch) key) ->
  args_fit args -> (forall k, P k -> forall a0 key r, args = a0 :: key :: r -> k <> key) -> framed n ch (cmdAPPEND pr args).
Proof.
  intros n ch pr args R Rm Af N.
  destruct args as [|a0 [|key [|val [|x r]]]]; try (apply fr_ask; apply fr_error; exact R).
  destruct (key_fit _ _ _ Af) as [K1 K2].
  inversion Af as [|? ? _ B1]; subst. inversion B1 as [|? ? _ B2]; subst. inversion B2 as [|? ? [B3 Lv] _]; subst.
  assert (Ft : fits o ch key val).
  { apply fits_of; try assumption. change (2 ^ 61) with 2305843009213693952 in K2, Lv. change (2 ^ 62) with 4611686018427387904. lia. }
  destruct (sees_some o ch key (in_now (orc n)) R) as [old So].
  destruct (C30_append o orc n ch pr a0 key val (is_word a0 "prepend") old (is_word_iff a0 "prepend") R F Ft K2 Lv So)
    as (ch' & reply & evs & R' & E & D).
  eapply fr_same; [exact E|exact R'|]. inversion D; subst; try (eapply (kept_unchanged n); eassumption);
    apply kept_at; intros k Pk; match goal with H : forall k, k <> key -> _ |- _ => apply H end; exact (N k Pk _ _ _ eq_refl).
Qed.
Lemma keys_framed : forall n ch pr args, reachable c ch -> framed n ch (cmdKEYS pr args).
Proof.
  intros n ch pr args R. unfold cmdKEYS. destruct args as [|a0 [|pat [|x r]]]; try (apply fr_error; exact R).
  apply fr_ask. destruct (in_work (orc n)); [|apply fr_error; exact R].
  apply (fr_call _ _ _ _ n); [exact R|exact I| |].
  - intros w' r Sp key. inversion Sp; subst.
    match goal with H : sp_iter _ _ _ _ _ _ _ _ _ _ |- _ => rename H into Si end.
    rewrite (resolve_pos _ _ (proj1 (now_pos n))) in Si.
    destruct (it_run _ _ _ _ _ _ _ _ _ _ Si) as (stopped & Ru & Sto).
    assert (Z : deleted = []).
    { clear - Ru. induction Ru as [st0|st0 k w st1 del H|st0 k w st1 del r st2 ds stop H Ru IH]; [reflexivity|injection H as _ _ H; discriminate|].
      injection H as _ <-. rewrite IH. reflexivity. }
    subst deleted. destruct (it_kept _ _ _ _ _ _ _ _ _ _ Si key (fun x => x)) as [Q|(_ & L & Q)]; [left; exact Q|right; split; [exact L|exact Q]].
  - intros ch' r R' Sp. inversion Sp; subst. destruct (is_pg pr); apply fr_answer; exact R'.
Qed.
Lemma dbsize_framed : forall n ch pr args, reachable c ch -> framed n ch (cmdDBSIZE pr args).
Proof.
  intros n ch pr args R. unfold cmdDBSIZE. destruct args as [|a0 [|x r]]; try (apply fr_error; exact R).
  apply (fr_call _ _ _ _ n); [exact R|exact I| |].
  - intros w' r Sp key. inversion Sp; subst. left. match goal with H : forall k, w_map w' k = _ |- _ => exact (H key) end.
  - intros ch' r R' Sp. inversion Sp; subst. destruct (is_pg pr); apply fr_answer; exact R'.
Qed.
(** FLUSHALL in the foreground leaves nothing alone. *)
Lemma flush_loop_framed : forall n ch k, reachable c ch -> (forall async fast delay, framed n ch (k async fast delay)) ->
  forall len rest async fast delay, (length rest <= len)%nat -> framed n ch (flush_loop rest async fast delay k).
Proof.
  intros n ch k R H. induction len as [|len IH]; intros rest async fast delay L.
  - destruct rest; [apply H|cbn in L; lia].
  - destruct rest as [|w r]; [apply H|]. cbn in L. cbn [flush_loop].
    destruct (is_word w "async"); [apply IH; lia|]. destruct (is_word w "sync"); [apply IH; lia|].
    destruct (is_word w "fast"); [apply IH; lia|]. destruct (is_word w "delay"); [|apply fr_error; exact R].
    destruct r as [|v r]; [apply fr_error; exact R|]. destruct (parse_i64 v) as [z|]; [|apply fr_error; exact R].
    destruct ((z <? 0) || (31536000 <? z))%Z; [apply fr_error; exact R|]. cbn in L. destruct (0 <? z)%Z; apply IH; lia.
Qed.
Lemma flush_framed : forall n ch pr args, reachable c ch -> manned orc -> (forall k, ~ P k) -> framed n ch (cmdFLUSHALL (shards_of o) pr args).
Proof.
  intros n ch pr args R M N. unfold cmdFLUSHALL. apply (flush_loop_framed n ch _ R) with (len := length (List.tl args)); [|lia].
  intros async fast delay. destruct async.
  - apply fr_fork. apply fr_answer. exact R.
  - apply fr_ask. destruct (in_work (orc n)); [|apply fr_error; exact R].
    match goal with |- framed _ _ (flush_work _ _ ?kk) => destruct (flush_work_spec o orc (S n) ch fast kk R F M) as (ch' & n' & ev & R' & _ & E) end.
    eapply fr_more; [exact E| |]; [intros k Pk; destruct (N k Pk)|]. apply fr_answer. exact R'.
Qed.
Lemma sweep_loop_framed : forall n ch k, reachable c ch -> (forall async fast, framed n ch (k async fast)) ->
  forall rest async fast, framed n ch (sweep_loop rest async fast k).
Proof.
  intros n ch k R H. induction rest as [|w r IH]; intros async fast; cbn [sweep_loop]; [apply H|].
  destruct (is_word w "async"); [apply IH|]. destruct (is_word w "fast"); [apply IH|apply fr_error; exact R].
Qed.
Lemma sweep_framed : forall n ch pr args, reachable c ch -> manned orc -> framed n ch (cmdSWEEP (shards_of o) pr args).
Proof.
  intros n ch pr args R M. unfold cmdSWEEP. destruct (2 <? length args)%nat; [apply fr_error; exact R|].
  apply (sweep_loop_framed n ch _ R). intros async fast. cbv zeta. destruct async.
  - apply fr_fork. apply fr_answer. exact R.
  - apply fr_ask. destruct (in_work (orc n)); [|apply fr_error; exact R].
    match goal with |- framed _ _ (sweep_work _ _ ?kk) => destruct (sweep_work_spec o orc (S n) ch fast kk R F M) as (ch' & n' & ev & R' & Sw & E) end.
    eapply fr_more; [exact E|exact (kept_all (S n) _ _ (proj1 Sw))|]. apply fr_answer. exact R'.
Qed.
Lemma purge_framed : forall n ch pr args, reachable c ch -> framed n ch (cmdPURGE pr args).
Proof.
  intros n ch pr args R. unfold cmdPURGE. cbv zeta.
  assert (W : forall how, framed n ch (Ask (fun i => if in_work i then answer (if is_pg pr then complete (bs how) else [WString (bs "OK")]) else error (bs "ERR failed to do work")))).
  { intro how. apply fr_ask. destruct (in_work (orc n)); [apply fr_answer|apply fr_error]; exact R. }
  destruct args as [|a0 [|w [|x r]]]; try apply W; [|apply fr_error; exact R].
  destruct (is_word w "async"); [|apply fr_error; exact R].
  apply fr_fork. apply fr_answer. exact R.
Qed.
(** *** SCAN *)
Lemma scan_framed : forall m pat now count k, now = in_now (orc m) -> (0 < now)%Z -> c_nshards c < 2 ^ 31 ->
  (forall n ch keys cur, reachable c ch -> framed n ch (k keys cur)) ->
  forall nl p ch idx j acc n fuel, reachable c ch ->
  (forall n, In n (List.map (@m_nb entry) (maps ch)) -> N.of_nat n < 2 ^ 31) ->
  (idx < N.to_nat (c_nshards c))%nat -> N.of_nat j < 2 ^ 31 ->
  (length (allents (maps ch)) <= nl)%nat -> (length (ahead (maps ch) idx j) <= p)%nat ->
  (steps_for nl p <= fuel)%nat ->
  framed n ch (scan_work fuel pat now count (cursor_at idx j) acc k).
Proof.
  intros m pat now count k Hm Hnow Hs Hk nl. induction nl as [nl IHn] using lt_wf_ind.
  intro p. induction p as [p IHp] using lt_wf_ind. intros ch idx j acc n fuel R Hn Hi Hj Ln Lp Lf.
  unfold steps_for in Lf. destruct fuel as [|fuel]; [lia|]. cbn [scan_work].
  destruct (count <=? length acc)%nat; [apply Hk; exact R|].
  destruct (step_entry o (in_env (orc n)) ch idx j now R Hnow Hs Hn Hi Hj)
    as (ch1 & r & cur & evs & E & R1 & Nb & Le & Al & Sub & Eq & Rr).
  assert (Kp : kept_as ch ch1).
  { assert (Ko : call_ok c (in_env (orc n)) (cabs c ch) (EntryIter (cursor_at idx j) now)).
    { cbn [call_ok]. assert (Hi32 : N.of_nat idx < 2 ^ 31) by (change (2 ^ 31) with 2147483648 in *; lia). rewrite (proj1 (cursor_fields idx j Hi32 Hj)). lia. }
    destruct (made o ch (in_env (orc n)) _ ch1 _ evs R Ko E) as (_ & _ & Sp).
    apply (kept_all m). intro key. apply same_from_abs; [exact R|exact R1|]. intros t Ht. rewrite <- Hm in Ht. inversion Sp; subst.
    match goal with H : forall k, w_map _ k = _ \/ _ |- _ => destruct (H key) as [Z|[L Z]]; cbn [w_map world_of] in Z; rewrite (resolve_pos _ _ Hnow) in * end.
    - unfold live_item. rewrite Z. reflexivity.
    - cbn [w_map world_of] in L. rewrite (dead_later _ _ _ _ L Ht). unfold live_item. rewrite Z. reflexivity. }
  destruct r as [[[id key] v]|].
  - destruct Rr as (e & idx' & j' & -> & -> & Hin & Ha & -> & Nz & Hi' & Hj' & Cov & St).
    assert (Hn1 : forall q, In q (List.map (@m_nb entry) (maps ch1)) -> N.of_nat q < 2 ^ 31) by (rewrite Nb; assumption).
    eapply fr_more; [cbn [prun]; unfold c; rewrite E; reflexivity|exact Kp|].
    destruct (Nat.eq_dec (length (allents (maps ch1))) (length (allents (maps ch)))) as [Q|Q].
    + destruct (St Q) as [S1 S2]. rewrite S2 in Lp. cbn in Lp.
      apply (IHp (length (ahead (maps ch1) idx' j'))); try assumption; try lia.
      * rewrite S1. lia.
      * unfold steps_for. rewrite S1. lia.
    + pose proof (ahead_le (maps ch1) idx' j') as L1.
      apply (IHn (length (allents (maps ch1)))) with (p := length (ahead (maps ch1) idx' j')); try assumption; try lia.
      unfold steps_for. assert (S (length (allents (maps ch1))) <= nl)%nat by lia. nia.
  - eapply fr_more; [cbn [prun]; unfold c; rewrite E; reflexivity|exact Kp|]. apply Hk. exact R1.
Qed.
Lemma cmdSCAN_framed : forall n ch pr args fuel, reachable c ch -> sized o fuel ch -> word (hd [] args) "scan" -> ~ bad_cursor o args ->
  framed n ch (cmdSCAN fuel pr args).
Proof.
  intros n ch pr args fuel R [_ Ft (nk & Nk & Lf)] Hw Nb. unfold cmdSCAN.
  destruct args as [|a0 [|cur rest]]; try (apply fr_error; exact R).
  destruct (parse_u64 cur) as [x|] eqn:Px; [|apply fr_error; exact R].
  assert (Hx : N.shiftr x 32 <> c_nshards c).
  { intro Z. apply Nb. exists a0, cur, rest, x. split; [reflexivity|]. split; [exact Hw|]. split; [|exact Z].
    apply nat_text_parse. exact Px. }
  assert (Loop : forall len rest pat count k, (length rest <= len)%nat -> (forall pat count, 0 < count -> framed n ch (k pat count)) -> 0 < count ->
    framed n ch (scan_loop rest pat count k)).
  { clear - R. induction len as [|len IH]; intros rest pat count k L H Hc.
    - destruct rest; [apply H; exact Hc|cbn in L; lia].
    - destruct rest as [|w r]; [apply H; exact Hc|]. cbn in L. cbn [scan_loop].
      destruct (is_word w "match"); [destruct r as [|v r]; [apply fr_error; exact R|]; cbn in L; apply IH; [lia|assumption..]|].
      destruct (is_word w "count").
      { destruct r as [|v r]; [apply fr_error; exact R|]. destruct (parse_u64 v) as [y|]; [|apply fr_error; exact R].
        destruct ((y =? 0) || (2 ^ 31 - 1 <? y)) eqn:B; [apply fr_error; exact R|].
        apply orb_false_iff in B. destruct B as [B _]. apply N.eqb_neq in B. cbn in L. apply IH; [lia|assumption|lia]. }
      destruct (is_word w "type"); [|apply fr_error; exact R]. destruct r as [|v r]; [apply fr_error; exact R|].
      destruct (is_word v "string"); [cbn in L; apply IH; [lia|assumption..]|apply fr_error; exact R]. }
  apply (Loop (length rest)); [apply le_n| |reflexivity]. clear Loop. intros pat count Hc. apply fr_ask.
  pose proof (now_pos n) as Hnow. set (now := in_now (orc n)) in *.
  assert (Fin : forall n ch keys cur', reachable c ch -> framed n ch (if is_pg pr then
              answer ([PRowDesc [bs "key"; bs "cursor"]]
                      ++ List.map (fun key => PRow [key; u64toa cur']) keys
                      ++ complete (tag (bs "SCAN") (u64toa (N.of_nat (length keys)))))
            else answer ([WArray 2; WBulk (u64toa cur'); WArray (N.of_nat (length keys))]
                         ++ List.map WBulk keys))).
  { intros n1 ch1 keys cur' R1. destruct (is_pg pr); apply fr_answer; exact R1. }
  destruct ((N.shiftr x 32 <? c_nshards c) && (N.land x 0xFFFFFFFF <? 2 ^ 31)) eqn:In0.
  - apply andb_true_iff in In0. destruct In0 as [I1 I2]. apply N.ltb_lt in I1, I2. rewrite (cursor_parts x).
    pose proof (entries_number o ch nk R Nk) as En.
    eapply (scan_framed n pat now (N.to_nat count) _ eq_refl (proj1 Hnow) (proj1 Ft) Fin); try exact R; try (apply le_n); try lia.
    + exact (fits_maps o ch Ft).
    + unfold steps_for. pose proof (ahead_le (maps ch) (N.to_nat (N.shiftr x 32)) (N.to_nat (N.land x 0xFFFFFFFF))) as L1. nia.
  - assert (E : forall en, step c en ch (EntryIter x now) = Ok (ch, REntry None 0, [])).
    { intro en. cbn [step]. unfold cache_entry_iter. cbv zeta. apply andb_false_iff in In0.
      destruct (2 ^ 31 <=? N.shiftr x 32) eqn:B1; [reflexivity|]. cbn [orb].
      destruct (N.ltb_spec (c_nshards c) (N.shiftr x 32)); [reflexivity|].
      destruct (N.leb_spec (2 ^ 31) (N.land x 0xFFFFFFFF)); [reflexivity|]. exfalso.
      destruct In0 as [Z|Z]; [apply N.ltb_ge in Z; lia|]. apply N.ltb_ge in Z. change 0xFFFFFFFF with 4294967295 in *. lia. }
    destruct fuel as [|fuel]; [apply N.le_0_r, N.eq_mul_0 in Lf; lia|]. cbn [scan_work length].
    assert (Z : (N.to_nat count <=? 0)%nat = false) by (apply Nat.leb_gt; lia). rewrite Z.
    eapply fr_more; [cbn [prun]; fold c; rewrite E; reflexivity|apply kept_refl|]. apply Fin. exact R.
Qed.
End V.
