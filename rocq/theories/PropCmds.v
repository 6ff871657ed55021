(** C28-C32, C34: commands, stated with the vocabulary of CmdSpec.v. *)
From Verif Require Import Base Types Clamp Entry EntryProofs Hash Map MapProofs MapInv Shard
  Spec Trace ShardProofs ScanProofs LoopProofs Cache Refine Reach Observe PropCache PropItems
  Text IntText IntTextProofs CmdTable CmdTableProofs Prog CmdSpec Cmds CmdsProofs CmdsProofs2 CmdsProofs3.
From Coq Require Import String.
Local Open Scope N_scope.
Notation length := List.length.

(** *** C28: SET *)

(** SET with a spelled and valid list of options does what the options say. *)
Theorem C28_set : forall o orc n ch pr a0 key val rest os old,
  reachable (ctx_of o) ch -> fine orc -> (pr = MEMCACHE -> steady orc) -> fits o ch key val ->
  spelled rest os -> valid pr os ->
  sees (ctx_of o) ch key (in_now (orc n)) old ->
  exists ch' reply evs i e, reachable (ctx_of o) ch' /\
    prun (ctx_of o) orc n ch (cmdSET pr (a0 :: key :: val :: rest)) = Ok (ch', List.map Out reply, evs) /\
    (exists l, i = orc l) /\
    new_expiry pr orc (in_now (orc n)) os old e /\
    set_done o pr "SET" i (in_now (orc n)) key val os e ch ch' old reply.
Proof.
  intros o orc n ch pr a0 key val rest os old R F St Ft Sp (V1 & V2 & V3) So.
  unfold cmdSET. rewrite prun_ask. cbv beta zeta.
  destruct (F n) as [[Hn _] _]. set (now := in_now (orc n)) in *.
  match goal with |- context [set_loop pr now rest set0 ?kk] => set (K := kk) end.
  destruct (set_loop_spec o orc F pr now Hn (length rest) rest (le_n _) set0 K (S n) ch)
    as [(os' & n' & s & S1 & S2 & S3 & S4)|(S1 & _)].
  2:{ destruct (S1 os Sp V1). }
  assert (os' = os) by (symmetry; exact (spelled_inj _ _ Sp _ S1)). subst os'.
  rewrite S4. unfold K. clear S4 K.
  destruct (applied_sum orc pr now Hn os set0 s S3) as (A1 & A2 & A3 & A4 & A5 & A6 & A7).
  cbn [set0 ss_nx ss_xx ss_get ss_keepttl ss_hasex ss_exp ss_flags ss_withcas ss_cas] in *.
  assert (Hx : (0 <= ss_exp s <= INT64_MAX)%Z).
  { destruct (last_expire os) as [[u z]|] eqn:L.
    - destruct A5 as [_ A5].
      assert (0 < ss_exp s <= INT64_MAX)%Z; [|lia].
      apply (expires_at_range pr orc now u z); try assumption.
      + intros P. exact (V1 P u z (last_expire_in _ _ _ L)).
      + intros P a b. exact (St P a b n).
    - destruct A5 as [_ ->]. unfold INT64_MAX. lia. }
  replace (ss_exp s <? 0)%Z with false by lia.
  assert (K1 : ss_keepttl s && ss_hasex s = false).
  { destruct (ss_keepttl s) eqn:Kt; [|reflexivity]. destruct (proj1 A4 eq_refl) as [Z|Z]; [discriminate|].
    destruct (last_expire os) as [[u z]|] eqn:L; [|destruct A5 as [-> _]; reflexivity].
    destruct (V2 Z u z (last_expire_in _ _ _ L)). }
  assert (K2 : ss_xx s && ss_nx s = false).
  { destruct (ss_xx s) eqn:X1; [|reflexivity]. destruct (ss_nx s) eqn:X2; [|reflexivity].
    exfalso. apply V3. split; [destruct (proj1 A1 eq_refl) as [Z|Z]|destruct (proj1 A2 eq_refl) as [Z|Z]];
      try discriminate; exact Z. }
  rewrite K1, K2.
  assert (T : forall b (P : Prop), (b = true <-> false = true \/ P) -> (b = true <-> P)) by (intros b P [A B]; intuition congruence).
  destruct (execSET_spec o orc n' ch pr "SET" now key val (ss_exp s) (ss_nx s) (ss_xx s) (ss_get s) (ss_keepttl s)
    (ss_flags s) (ss_cas s) (ss_withcas s) os old R F Ft Hn Hx A6 (T _ _ A1) (T _ _ A2) (T _ _ A3)) as (ch' & reply & evs & E1 & E2 & E3).
  { destruct (last_cas os); [exact A7|apply A7]. }
  { exact So. }
  exists ch', reply, evs, (orc n'). eexists. split; [exact E1|]. split; [exact E2|]. split; [eexists; reflexivity|].
  split; [|exact E3]. unfold new_expiry.
  destruct (last_expire os) as [[u z]|] eqn:L.
  - destruct A5 as [A5 A5']. rewrite A5, andb_true_r in K1. rewrite K1. exact A5'.
  - destruct A5 as [_ A5]. rewrite A5. split.
    + intros Z. rewrite (proj2 A4 (or_intror Z)). reflexivity.
    + intros Z. destruct (ss_keepttl s); [|reflexivity]. destruct (proj1 A4 eq_refl) as [Q|Q]; [discriminate|contradiction].
Qed.

(** Otherwise there is an error and nothing changes. *)
Theorem C28_reject : forall o orc n ch pr args, fine orc ->
  (forall a0 key val rest os, args = a0 :: key :: val :: rest -> spelled rest os -> ~ valid pr os) ->
  (pr = MEMCACHE -> steady orc) ->
  exists msg, prun (ctx_of o) orc n ch (cmdSET pr args) = Ok (ch, [Out (WError msg)], []).
Proof.
  intros o orc n ch pr args F H St. unfold cmdSET.
  destruct args as [|a0 [|key [|val rest]]]; try (eexists; apply prun_error).
  rewrite prun_ask. cbv beta zeta.
  destruct (F n) as [[Hn _] _]. set (now := in_now (orc n)) in *.
  match goal with |- context [set_loop pr now rest set0 ?kk] => set (K := kk) end.
  destruct (set_loop_spec o orc F pr now Hn (length rest) rest (le_n _) set0 K (S n) ch)
    as [(os & n' & s & S1 & S2 & S3 & S4)|(_ & S1)]; [|exact S1].
  rewrite S4. unfold K. clear S4 K.
  destruct (applied_sum orc pr now Hn os set0 s S3) as (A1 & A2 & A3 & A4 & A5 & A6 & A7).
  cbn [set0 ss_nx ss_xx ss_get ss_keepttl ss_hasex ss_exp ss_flags ss_withcas ss_cas] in *.
  assert (Hx : (0 <= ss_exp s <= INT64_MAX)%Z).
  { destruct (last_expire os) as [[u z]|] eqn:L.
    - destruct A5 as [_ A5].
      assert (0 < ss_exp s <= INT64_MAX)%Z; [|lia].
      apply (expires_at_range pr orc now u z); try assumption.
      + intros P. exact (S2 P u z (last_expire_in _ _ _ L)).
      + intros P a b. exact (St P a b n).
    - destruct A5 as [_ ->]. unfold INT64_MAX. lia. }
  replace (ss_exp s <? 0)%Z with false by lia.
  destruct (ss_keepttl s && ss_hasex s) eqn:K1; [eexists; apply prun_error|].
  destruct (ss_xx s && ss_nx s) eqn:K2; [eexists; apply prun_error|].
  exfalso. apply (H a0 key val rest os eq_refl S1). split; [exact S2|]. split.
  - intros Ik u z Ie. rewrite (proj2 A4 (or_intror Ik)) in K1. cbn in K1.
    destruct (last_expire os) as [[u' z']|] eqn:L; [destruct A5; congruence|].
    clear - Ie L. induction os as [|x os IH]; [destruct Ie|].
    destruct x; cbn [last_expire] in L; try (destruct Ie as [Ie|Ie]; [discriminate|exact (IH L Ie)]).
    destruct (last_expire os) as [[? ?]|]; discriminate.
  - intros [I1 I2]. rewrite (proj2 A1 (or_intror I1)), (proj2 A2 (or_intror I2)) in K2. discriminate.
Qed.

(** SETEX key s val is SET key val EX s; its clock is read once more. *)
Theorem C28_setex : forall o orc n ch pr a0 key ex val z old,
  reachable (ctx_of o) ch -> fine orc -> fits o ch key val -> int_text ex z -> (0 < z)%Z ->
  sees (ctx_of o) ch key (in_now (orc n)) old ->
  exists ch' reply evs i, reachable (ctx_of o) ch' /\
    prun (ctx_of o) orc n ch (cmdSETEX pr [a0; key; ex; val]) = Ok (ch', List.map Out reply, evs) /\
    (exists l, i = orc l) /\
    set_done o pr "SETEX" i (in_now (orc n)) key val [Expire Ex z]
      (Z.min INT64_MAX (in_now (orc (S n)) + z * 1000000000)) ch ch' old reply.
Proof.
  intros o orc n ch pr a0 key ex val z old R F Ft I P So. unfold cmdSETEX. rewrite prun_ask. cbv beta.
  pose proof (proj1 (proj2 I)) as Iz. apply int_text_parse in I. rewrite I.
  replace (z <=? 0)%Z with false by lia. destruct (F n) as [[Hn _] _]. destruct (F (S n)) as [[Hn' _] _].
  unfold SECOND. rewrite mul_clamp_spec by (exact Iz || (unfold i64_ok, INT64_MIN, INT64_MAX; lia)).
  cbn [need]. rewrite prun_ask. cbv beta.
  rewrite add_clamp_spec; [|unfold i64_ok, INT64_MIN, INT64_MAX in *; lia|].
  2:{ rewrite clampZ_eq. unfold i64_ok, clamp64, INT64_MIN, INT64_MAX. lia. }
  cbn [need].
  replace (clampZ (in_now (orc (S n)) + clampZ (z * 1000000000))) with (Z.min INT64_MAX (in_now (orc (S n)) + z * 1000000000)).
  2:{ rewrite !clampZ_eq. unfold clamp64, INT64_MIN, INT64_MAX in *. lia. }
  set (e := Z.min INT64_MAX _). assert (He : (0 <= e <= INT64_MAX)%Z) by (unfold e, INT64_MAX in *; lia).
  destruct (execSET_spec o orc (S (S n)) ch pr "SETEX" (in_now (orc n)) key val e false false false false 0 0 false
    [Expire Ex z] old R F Ft Hn He eq_refl) as (ch' & reply & evs & E1 & E2 & E3);
    try exact So; try reflexivity;
    try (split; [discriminate|intros [Q|[]]; discriminate]).
  exists ch', reply, evs, (orc (S (S n))). split; [exact E1|]. split; [exact E2|]. split; [eexists; reflexivity|exact E3].
Qed.
Theorem C28_setex_reject : forall o orc n ch pr args,
  (forall a0 key ex val z, args = [a0; key; ex; val] -> int_text ex z -> (z <= 0)%Z) ->
  exists msg, prun (ctx_of o) orc n ch (cmdSETEX pr args) = Ok (ch, [Out (WError msg)], []).
Proof.
  intros o orc n ch pr args H. unfold cmdSETEX.
  destruct args as [|a0 [|key [|ex [|val [|x r]]]]]; try (eexists; apply prun_error).
  rewrite prun_ask. cbv beta. destruct (parse_i64 ex) as [z|] eqn:E; [|eexists; apply prun_error].
  apply int_text_parse in E. specialize (H a0 key ex val z eq_refl E).
  replace (z <=? 0)%Z with true by lia. eexists. apply prun_error.
Qed.

(** A case: the cache of PropCache.v at time 110, where k1 holds "w" until 123
    and k3 the empty string. *)
Definition demo_input : input := mkInput (plenty_env 110) 110 1700000000000000000 false 4 true.
Definition demo_orc : nat -> input := fun _ => demo_input.
Lemma demo_fine : fine demo_orc.
Proof. intros n. split; [split; cbn; unfold INT64_MAX; lia|intros s; split; reflexivity]. Qed.
Lemma demo_steady : steady demo_orc.
Proof. intros a b n. cbn. lia. Qed.
Lemma demo_fits : forall key val, bytes_ok key -> bytes_ok val -> (length key <= 100)%nat -> (length val <= 100)%nat ->
  fits demo_opts demo_ch key val.
Proof.
  intros key val K V LK LV. constructor; try assumption.
  - apply N.le_lt_trans with 200; [lia|reflexivity].
  - apply (roomy_small demo_c (opts_load demo_opts)). intros ks Nd H.
    assert (L : (length ks <= 3)%nat) by (apply demo_number; [assumption|intros k Hk; apply H; assumption]).
    lia.
Qed.
Definition outcome (r : out (cache * list eff * list event)) : option (list eff) :=
  match r with Ok (_, es, _) => Some es | Bad _ => None end.
Definition result_at (key : bytes) (t : Z) (r : out (cache * list eff * list event)) : option (option view) :=
  match r with Ok (ch, _, _) => Some (option_map shown_of (live_item (cabs demo_c ch) key t)) | Bad _ => None end.
Ltac yes := repeat constructor; try (cbn; lia).
Example C28_case :
  let rest := [bs "Xx"; bs "get"; bs "PX"; bs "2"; bs "flags"; bs "7"; bs "px"; bs "5"] in
  let os := [Xx; Get; Expire Px 2; Flags 7; Expire Px 5] in
  let r := prun demo_c demo_orc 0 demo_ch (cmdSET RESP (bs "SET" :: bs "k1" :: bs "new" :: rest)) in
  spelled rest os /\ valid RESP os /\ fits demo_opts demo_ch (bs "k1") (bs "new") /\
  sees demo_c demo_ch (bs "k1") 110 (Some (mkView (bs "w") 123 5 4)) /\
  outcome r = Some [Out (WBulk (bs "w"))] /\
  result_at (bs "k1") 110 r = Some (Some (mkView (bs "new") 5000110 7 5)) /\
  (* contradictory options *)
  ~ valid RESP [Nx; Xx] /\
  outcome (prun demo_c demo_orc 0 demo_ch (cmdSET RESP [bs "SET"; bs "k1"; bs "new"; bs "nx"; bs "xx"]))
    = Some [Out (WError (bs "ERR syntax error"))].
Proof.
  cbv zeta.
  assert (T : forall s z, parse_i64 s = Some z -> int_text s z) by (intros; apply int_text_parse; assumption).
  assert (T' : forall s z, parse_u64 s = Some z -> nat_text s z) by (intros; apply nat_text_parse; assumption).
  split. { repeat first [apply spell_xx; [reflexivity|] | apply spell_get; [reflexivity|]
           | apply spell_expire; [reflexivity|apply T; vm_compute; reflexivity|]
           | apply spell_flags; [reflexivity|apply T'; vm_compute; reflexivity|] | apply spell_end ]. }
  split. { split; [intros _ u z I; repeat (destruct I as [I|I]; [try discriminate I; injection I as <- <-; lia|]); destruct I|].
           split; [intros I; repeat (destruct I as [I|I]; [discriminate I|]); destruct I|].
           intros [I _]; repeat (destruct I as [I|I]; [discriminate I|]); destruct I. }
  split; [apply demo_fits; yes|].
  split; [apply demo_sees_eq; vm_compute; reflexivity|].
  split; [vm_compute; reflexivity|]. split; [vm_compute; reflexivity|].
  split; [intros (_ & _ & Q); apply Q; cbn; auto|]. vm_compute; reflexivity.
Qed.

(** "EXAT says the unix time at which the item expires" is refuted: ten seconds
    from now become decades. *)
Theorem C28_exat_refuted :
  exists orc rest,
    let r := prun demo_c orc 0 demo_ch (cmdSET RESP (bs "SET" :: bs "k1" :: bs "new" :: rest)) in
    spelled rest [Expire Exat 1700000010] /\ in_unix (orc O) = (1700000000 * 1000000000)%Z /\ in_now (orc O) = 110%Z /\
    outcome r = Some [Out (WString (bs "OK"))] /\
    (* an hour later it is still there *)
    result_at (bs "k1") (110 + 3600 * 1000000000) r = Some (Some (mkView (bs "new") 1700000010000000000 0 5)).
Proof.
  exists demo_orc, [bs "exat"; bs "1700000010"]. cbv zeta. split.
  { apply (spell_expire _ _ Exat); [reflexivity|apply int_text_parse; vm_compute; reflexivity|apply spell_end]. }
  split; [reflexivity|]. split; [reflexivity|]. split; vm_compute; reflexivity.
Qed.
(** "SET NX GET replies with the value the key holds" is refuted. *)
Theorem C28_nx_get_refuted :
  sees demo_c demo_ch (bs "k1") 110 (Some (mkView (bs "w") 123 5 4)) /\
  outcome (prun demo_c demo_orc 0 demo_ch (cmdSET RESP [bs "SET"; bs "k1"; bs "new"; bs "nx"; bs "get"]))
    = Some [Out WNull].
Proof. split; [apply demo_sees_eq; vm_compute; reflexivity|vm_compute; reflexivity]. Qed.
(** "A memcache cas on a missing key is answered NOT_FOUND" is refuted: a zero
    byte follows the line. *)
Theorem C28_not_found_refuted :
  sees demo_c demo_ch (bs "none") 110 None /\
  outcome (prun demo_c demo_orc 0 demo_ch (cmdSET MEMCACHE [bs "set"; bs "none"; bs "new"; bs "cas"; bs "1"]))
    = Some [Out (WRaw (bs "NOT_FOUND" ++ [13; 10; 0]))].
Proof. split; [apply demo_sees_eq; vm_compute; reflexivity|vm_compute; reflexivity]. Qed.

(** *** C29: counters *)
(** [a0] is the name under which the command was called: the unsigned variants
    start with "u". *)
Theorem C29_by : forall o orc n ch pr a0 key dl (decr : bool) name d old,
  let uns := starts_u a0 in
  reachable (ctx_of o) ch -> fine orc ->
  (forall s, bytes_ok s -> (length s <= 20)%nat -> fits o ch key s) -> number uns dl d ->
  sees (ctx_of o) ch key (in_now (orc n)) old ->
  exists ch' reply evs, reachable (ctx_of o) ch' /\
    prun (ctx_of o) orc n ch (cmdINCRDECRBY pr [a0; key; dl] decr name) = Ok (ch', List.map Out reply, evs) /\
    count_done o pr name uns (in_now (orc n)) key (if decr then - d else d)%Z ch ch' old reply.
Proof.
  intros o orc n ch pr a0 key dl decr name d old uns R F Ft Nd So. unfold cmdINCRDECRBY. fold uns.
  apply number_read in Nd. destruct Nd as [E B]. rewrite E. apply exec_count; assumption.
Qed.
Theorem C29_by_reject : forall o orc n ch pr args (decr : bool) name,
  (forall a0 key dl d, args = [a0; key; dl] -> ~ number (starts_u a0) dl d) ->
  exists w, prun (ctx_of o) orc n ch (cmdINCRDECRBY pr args decr name) = Ok (ch, [Out w], []) /\
    (w = WRaw (bs "CLIENT_ERROR invalid numeric delta argument" ++ crlf) \/ exists msg, w = WError msg).
Proof.
  intros o orc n ch pr args decr name H. unfold cmdINCRDECRBY.
  destruct args as [|a0 [|key [|dl [|x r]]]]; try (eexists; split; [apply prun_error|right; eexists; reflexivity]).
  cbv zeta. destruct (read_delta (starts_u a0) dl) as [d|] eqn:E.
  - destruct (read_number _ _ _ E) as (z & _ & _ & N0). destruct (H a0 key dl z eq_refl N0).
  - destruct (is_mc pr); [rewrite prun_answer; eexists; split; [reflexivity|left; reflexivity]|].
    rewrite prun_error. eexists. split; [reflexivity|right; eexists; reflexivity].
Qed.
Theorem C29_one : forall o orc n ch pr a0 key (decr : bool) name old,
  let uns := starts_u a0 in
  reachable (ctx_of o) ch -> fine orc ->
  (forall s, bytes_ok s -> (length s <= 20)%nat -> fits o ch key s) ->
  sees (ctx_of o) ch key (in_now (orc n)) old ->
  exists ch' reply evs, reachable (ctx_of o) ch' /\
    prun (ctx_of o) orc n ch (cmdINCRDECR pr [a0; key] decr name) = Ok (ch', List.map Out reply, evs) /\
    count_done o pr name uns (in_now (orc n)) key (if decr then - 1 else 1)%Z ch ch' old reply.
Proof.
  intros o orc n ch pr a0 key decr name old uns R F Ft So. unfold cmdINCRDECR. fold uns.
  replace (if uns then Unsigned 1 else Signed 1) with (delta_of uns 1%Z) by (destruct uns; reflexivity).
  apply (exec_count o orc n ch pr key uns decr 1%Z name old); try assumption.
  destruct uns; unfold in_range; lia.
Qed.
(** A case: 9223372036854775806 plus 1, plus 2, and a missing counter. *)
Definition demo_count : cache :=
  match prun demo_c demo_orc 0 demo_ch (cmdSET RESP [bs "SET"; bs "n"; bs "9223372036854775806"; bs "flags"; bs "3"]) with
  | Ok (ch, _, _) => ch | Bad _ => demo_ch end.
Example C29_case :
  let by_ d := prun demo_c demo_orc 0 demo_count (cmdINCRDECRBY RESP [bs "incrby"; bs "n"; bs d] false (bs "INCRBY")) in
  let miss := prun demo_c demo_orc 0 demo_count (cmdINCRDECR RESP [bs "decr"; bs "m"] true (bs "DECR")) in
  number false (bs "1") 1 /\ number false (bs "9223372036854775806") (2 ^ 63 - 2) /\
  outcome (by_ "1"%string) = Some [Out (WInt (2 ^ 63 - 1))] /\
  result_at (bs "n") 110 (by_ "1"%string) = Some (Some (mkView (bs "9223372036854775807") 0 3 6)) /\
  outcome (by_ "2"%string) = Some [Out (WError (bs "ERR increment or decrement would overflow"))] /\
  result_at (bs "n") 110 (by_ "2"%string) = Some (Some (mkView (bs "9223372036854775806") 0 3 5)) /\
  outcome miss = Some [Out (WInt (-1))] /\
  result_at (bs "m") 110 miss = Some (Some (mkView (bs "-1") 0 0 3)).
Proof.
  cbv zeta. split; [apply int_text_parse; vm_compute; reflexivity|]. split; [apply int_text_parse; vm_compute; reflexivity|].
  repeat match goal with |- _ /\ _ => split end; vm_compute; reflexivity.
Qed.
Lemma demo_count_fits : forall s, bytes_ok s -> (length s <= 20)%nat -> fits demo_opts demo_ch (bs "n") s.
Proof. intros s B L. apply demo_fits; [yes|exact B|cbn; lia|lia]. Qed.
(** "A memcache decr stops at zero" is refuted: it wraps around. "A counter must
    hold a number" is refuted for the empty value. *)
Theorem C29_memcache_decr_refuted :
  let r := prun demo_c demo_orc 0 demo_ch (cmdINCRDECRBY MEMCACHE [bs "udecrby"; bs "k3"; bs "1"] true (bs "DECRBY")) in
  sees demo_c demo_ch (bs "k3") 110 (Some (mkView [] 0 0 2)) /\
  outcome r = Some [Out (WUint (2 ^ 64 - 1)); Out (WRaw crlf)] /\
  result_at (bs "k3") 110 r = Some (Some (mkView (bs "18446744073709551615") 0 0 3)).
Proof. cbv zeta. split; [apply demo_sees_eq; vm_compute; reflexivity|]. split; vm_compute; reflexivity. Qed.

(** *** C30: APPEND and PREPEND *)
Theorem C30_append : forall o orc n ch pr a0 key val (prepend : bool) old,
  (prepend = true <-> word a0 "prepend") ->
  reachable (ctx_of o) ch -> fine orc -> fits o ch key val -> N.of_nat (length key) < 2 ^ 61 ->
  N.of_nat (length val) < 2 ^ 61 ->
  sees (ctx_of o) ch key (in_now (orc n)) old ->
  exists ch' reply evs, reachable (ctx_of o) ch' /\
    prun (ctx_of o) orc n ch (cmdAPPEND pr [a0; key; val]) = Ok (ch', List.map Out reply, evs) /\
    append_done o pr prepend (in_now (orc n)) key val ch ch' old reply.
Proof.
  intros o orc n ch pr a0 key val prepend old Hp R F Ft Lk Lv So.
  unfold cmdAPPEND. rewrite prun_ask. cbv beta zeta. destruct (F n) as [[Hn _] _].
  set (now := in_now (orc n)) in *.
  replace (is_word a0 "prepend") with prepend.
  2:{ destruct (is_word a0 "prepend") eqn:E.
      - apply Hp. apply is_word_iff. exact E.
      - destruct prepend; [|reflexivity]. apply is_word_no in E. destruct (E (proj1 Hp eq_refl)). }
  match goal with |- context [prun _ _ _ ch (Do (Load key (mkLoadOpts false just_look) now) ?kk)] =>
    destruct (load_look o orc (S n) ch key false just_look now kk old R (proj1 Hn) (or_intror eq_refl) So)
      as (ch1 & ev & R1 & K & E) end.
  rewrite E. clear E. unfold just_look. cbv beta iota.
  destruct (F (S (S n))) as [_ M2].
  assert (Fin : forall out e flags len, fits o ch key out -> (0 <= e <= INT64_MAX)%Z -> flags < 2 ^ 32 -> len < 2 ^ 64 ->
    exists ch' evs tok, reachable (ctx_of o) ch' /\
      match prun (ctx_of o) orc (S (S n)) ch1
        (Do (Store key out (mkStoreOpts e 0 0 flags false false false false false None) now)
         (fun r2 => match r2 with
        | RStatus NOMEM _ => error ERR_OUT_OF_MEMORY
        | RStatus INSERTED _ | RStatus REPLACED _ =>
            answer (by_proto pr
              [raw_line "STORED"]
              (complete (tag (bs (if prepend then "PREPEND" else "APPEND")) (u64toa len)))
              [WInt (Z.of_N len)] [WInt (Z.of_N len)])
        | _ => Fail AssertFail
        end)) with
      | Bad t => Bad t | Ok (ch2, es, ev2) => Ok (ch2, es, ev ++ ev2) end
      = Ok (ch', List.map Out (length_reply pr prepend (N.to_nat len) (u64toa len)), evs) /\
      holds o ch' key (mkView out e flags tok) /\
      (forall k, k <> key -> same_at (ctx_of o) ch ch' k)).
  { intros out e flags len Fo He Hf Hl.
    match goal with |- context [prun _ _ _ ch1 (Do _ ?kk)] =>
      destruct (store_plain o orc (S (S n)) ch1 key out e flags 0 now kk R1 (keeps_fits _ _ _ _ _ _ _ K Fo) M2 Hn He Hf)
        as (ch2 & st & ev2 & tok & R2 & Hs & E & Hh & Ho) end.
    rewrite E. clear E. cbv beta. exists ch2. eexists. exists tok. split; [exact R2|]. split; [|split; [exact Hh|]].
    - assert (Z : prun (ctx_of o) orc (S (S (S n))) ch2
         (answer (by_proto pr
              [raw_line "STORED"]
              (complete (tag (bs (if prepend then "PREPEND" else "APPEND")) (u64toa len)))
              [WInt (Z.of_N len)] [WInt (Z.of_N len)]))
         = Ok (ch2, List.map Out (length_reply pr prepend (N.to_nat len) (u64toa len)), [])).
      { rewrite prun_answer. unfold length_reply. rewrite N_nat_Z. destruct pr; destruct prepend; reflexivity. }
      destruct Hs as [-> | ->]; rewrite Z; reflexivity.
    - intros k Hk. eapply same_at_trans; [apply (kp_same _ _ _ _ _ K); exact Hk|apply Ho; exact Hk]. }
  destruct old as [v|].
  - pose proof (live_args o ch key now v R So) as Ao. cbv beta iota.
    assert (Lo : N.of_nat (length (if prepend then val ++ v_val v else v_val v ++ val)) = N.of_nat (length (v_val v) + length val)).
    { destruct prepend; rewrite app_length; lia. }
    rewrite Lo. destruct (N.ltb_spec MAXARGSZ (N.of_nat (length (v_val v) + length val))) as [L|L].
    + rewrite prun_error. exists ch1. eexists [_]. eexists. split; [exact R1|]. split; [reflexivity|].
      apply append_big; [exact L|apply K].
    + destruct (Fin (joined prepend (v_val v) val) (v_exp v) (v_flags v) (N.of_nat (length (v_val v) + length val))) as (ch' & evs & tok & F1 & F2 & F3 & F4).
      * constructor.
        -- apply Ft.
        -- unfold joined. destruct prepend; apply bytes_ok_app; split; try (exact (ao_val _ _ _ _ _ Ao)); apply Ft.
        -- unfold MAXARGSZ in L. destruct prepend; unfold joined; rewrite app_length; change byte with N in *; lia.
        -- apply Ft.
      * split; [eapply exp_nonneg; [exact R|exact So]|exact (ao_exp _ _ _ _ _ Ao)].
      * exact (ao_flags _ _ _ _ _ Ao).
      * unfold MAXARGSZ in L. lia.
      * rewrite Nat2N.id in F2. exists ch', (length_reply pr prepend (length (v_val v) + length val) (u64toa (N.of_nat (length (v_val v) + length val)))), evs.
        split; [exact F1|]. split; [exact F2|]. eapply append_ok; [exact L|exact F3|exact F4|].
        apply u64toa_canonical. unfold MAXARGSZ in L. lia.
  - cbv beta iota. destruct (is_mc pr) eqn:Mc.
    + rewrite prun_answer. exists ch1. eexists [_]. eexists. split; [exact R1|]. split; [reflexivity|].
      apply append_missing; [destruct pr; [reflexivity|discriminate..]|apply K].
    + destruct (Fin val 0%Z 0 (N.of_nat (length val))) as (ch' & evs & tok & F1 & F2 & F3 & F4);
        [exact Ft|unfold INT64_MAX; lia|reflexivity|lia|].
      rewrite Nat2N.id in F2. exists ch', (length_reply pr prepend (length val) (u64toa (N.of_nat (length val)))), evs.
      split; [exact F1|]. split; [exact F2|]. eapply append_new; [destruct pr; discriminate|exact F3|exact F4|].
      apply u64toa_canonical. lia.
Qed.
Theorem C30_reject : forall o orc n ch pr args, length args <> 3%nat ->
  prun (ctx_of o) orc n ch (cmdAPPEND pr args) = Ok (ch, [Out (WError (bs "ERR wrong number of arguments"))], []).
Proof.
  intros o orc n ch pr args H. unfold cmdAPPEND. rewrite prun_ask. cbv beta zeta.
  destruct args as [|a0 [|key [|val [|x r]]]]; try apply prun_error. destruct (H eq_refl).
Qed.
Example C30_case :
  let r := prun demo_c demo_orc 0 demo_ch (cmdAPPEND RESP [bs "Prepend"; bs "k1"; bs "ab"]) in
  word (bs "Prepend") "prepend" /\ fits demo_opts demo_ch (bs "k1") (bs "ab") /\
  sees demo_c demo_ch (bs "k1") 110 (Some (mkView (bs "w") 123 5 4)) /\
  outcome r = Some [Out (WInt 3)] /\
  result_at (bs "k1") 110 r = Some (Some (mkView (bs "abw") 123 5 5)).
Proof.
  cbv zeta. split; [reflexivity|]. split; [apply demo_fits; yes|].
  split; [apply demo_sees_eq; vm_compute; reflexivity|]. split; vm_compute; reflexivity.
Qed.

(** *** C31: TTL and EXPIRE *)
Theorem C31_ttl : forall o orc n ch pr a0 key (pttl : bool) old,
  (pttl = true <-> word a0 "pttl") ->
  reachable (ctx_of o) ch -> fine orc -> sees (ctx_of o) ch key (in_now (orc n)) old ->
  exists ch' evs digits, reachable (ctx_of o) ch' /\
    prun (ctx_of o) orc n ch (cmdTTL pr [a0; key])
      = Ok (ch', List.map Out (ttl_reply pr pttl (in_now (orc n)) old digits), evs) /\
    (forall v, old = Some v -> decimal_text digits (left_over pttl (in_now (orc n)) v)) /\
    unchanged o (in_now (orc n)) ch ch' key.
Proof.
  intros o orc n ch pr a0 key pttl old Hp R F So.
  unfold cmdTTL. replace (is_word a0 "pttl") with pttl.
  2:{ destruct (is_word a0 "pttl") eqn:E.
      - apply Hp. apply is_word_iff. exact E.
      - destruct pttl; [|reflexivity]. apply is_word_no in E. destruct (E (proj1 Hp eq_refl)). }
  cbv zeta. rewrite prun_ask. cbv beta. destruct (F n) as [[Hn _] _].
  set (now := in_now (orc n)) in *. rewrite prun_puts.
  match goal with |- context [prun _ _ _ ch (Do (Load key _ now) ?kk)] =>
    destruct (load_look o orc (S n) ch key true just_look now kk old R (proj1 Hn) (or_intror eq_refl) So)
      as (ch1 & ev & R1 & K & E) end.
  rewrite E. clear E. unfold just_look. cbv beta iota.
  destruct old as [v|].
  - assert (Lv : ttl_value pttl now (v_exp v) = left_over pttl now v /\ (-1 <= left_over pttl now v < 2 ^ 63)%Z).
    { pose proof (exp_nonneg o ch key now v R So) as Hv. pose proof (ao_exp _ _ _ _ _ (live_args o ch key now v R So)) as Hx.
      apply sees_item in So; [|exact R]. unfold live_item in So.
      destruct (cabs (ctx_of o) ch key) as [it|]; [|discriminate].
      destruct (alive_at (i_exp it) now) eqn:Al; [|discriminate]. injection So as So. rewrite <- So in *. cbn [shown_of v_exp] in *.
      unfold left_over, ttl_value. cbn [shown_of v_exp]. unfold alive_at in Al. unfold INT64_MAX in *.
      destruct (Z.eqb_spec (i_exp it) 0) as [E|E].
      - rewrite E. cbn. lia.
      - replace (i_exp it >? 0)%Z with true by lia. cbn [orb] in Al. apply Z.ltb_lt in Al.
        unfold MILLISECOND, SECOND. split.
        + destruct pttl; apply Z.quot_div_nonneg; lia.
        + destruct pttl.
          * pose proof (Z.div_pos (i_exp it - now) 1000000 ltac:(lia) ltac:(lia)).
            pose proof (Z.div_le_upper_bound (i_exp it - now) 1000000 (i_exp it - now) ltac:(lia) ltac:(lia)). lia.
          * pose proof (Z.div_pos (i_exp it - now) 1000000000 ltac:(lia) ltac:(lia)).
            pose proof (Z.div_le_upper_bound (i_exp it - now) 1000000000 (i_exp it - now) ltac:(lia) ltac:(lia)). lia. }
    destruct Lv as [Lv Lb].
    exists ch1. eexists. exists (i64toa (left_over pttl now v)). split; [exact R1|]. split; [|split; [|apply K]].
    + cbv beta iota. rewrite !prun_puts, prun_answer. cbn [flat_map snd app List.map]. unfold ttl_entry. rewrite Lv.
      destruct pr; cbn [is_pg is_resp by_proto]; destruct pttl; reflexivity.
    + intros w Ew. injection Ew as <-. destruct (print_delta_text false (left_over pttl now v)) as [P _]; [unfold in_range; lia|exact P].
  - exists ch1. eexists. exists []. split; [exact R1|]. split; [|split; [discriminate|apply K]].
    cbv beta iota. rewrite !prun_puts, prun_answer. cbn [flat_map app List.map].
    destruct pr; cbn [is_pg is_resp by_proto]; destruct pttl; reflexivity.
Qed.

Lemma set_look : forall o orc n ch key e now k old, reachable (ctx_of o) ch -> mem_ok (orc n) -> (0 < now)%Z ->
  (e <= INT64_MAX)%Z -> sees (ctx_of o) ch key now old ->
  exists ch' ev, reachable (ctx_of o) ch' /\
    prun (ctx_of o) orc n ch (Do (Load key (mkLoadOpts false
       (Some (fun v => Some (mkUpdate (v_val v) (v_flags v) e)))) now) k) =
      match prun (ctx_of o) orc (S n) ch'
        (k (match old with Some v => RStatus FOUND [(key, v)] | None => RStatus NOTFOUND [] end)) with
      | Bad t => Bad t | Ok (ch2, es, ev2) => Ok (ch2, es, ev ++ ev2) end /\
    match old with
    | Some v => (exists tok, holds o ch' key (mkView (v_val v) (norm e) (v_flags v) tok)) /\
                (forall x, x <> key -> same_at (ctx_of o) ch ch' x)
    | None => unchanged o now ch ch' key
    end.
Proof.
  intros o orc n ch key e now k old R M P He So.
  set (lo := mkLoadOpts false _).
  assert (U : update_ok key (lo_entry lo)).
  { intros g w u E A H. cbn [lo lo_entry] in E. injection E as <-. injection H as <-. destruct A.
    constructor; try assumption. reflexivity. }
  destruct (do_load o orc n ch key lo now k R U P) as (ch' & st & sh & ev & cas' & R' & E & m' & A & S).
  exists ch', ev. split; [exact R'|]. apply sees_item in So; [|exact R].
  unfold sp_load in S. rewrite (proj1 (M _)) in S.
  destruct (live_item (cabs (ctx_of o) ch) key now) as [it|] eqn:L; cbn [option_map] in So; subst old;
    cbn [lo lo_entry] in S; injection S as Q <- <- <-; (split; [exact E|]); rewrite <- Q in A.
  - split.
    + eexists. eapply (holds_abs o ch' key (mkItem _ _ _ _ _) R'). rewrite A, aset_key. reflexivity.
    + exact (same_others o ch ch' key _ R R' A).
  - split.
    + apply same_from_abs; [exact R|exact R'|]. intros t Ht. rewrite (dead_later _ _ _ _ L Ht).
      unfold live_item. rewrite A, aset_key. reflexivity.
    + exact (same_others o ch ch' key _ R R' A).
Qed.
(** EXPIRE key z: the item expires [z] seconds from now if that is after boot,
    and never otherwise (see the refutation below). *)
Theorem C31_expire : forall o orc n ch pr a0 key secs more z old,
  reachable (ctx_of o) ch -> fine orc -> int_text secs z -> sees (ctx_of o) ch key (in_now (orc n)) old ->
  let now := in_now (orc n) in
  exists ch' evs, reachable (ctx_of o) ch' /\
    prun (ctx_of o) orc n ch (cmdEXPIRE pr (a0 :: key :: secs :: more))
      = Ok (ch', List.map Out (expire_reply pr (match old with Some _ => true | None => false end)), evs) /\
    match old with
    | Some v =>
        (exists tok, holds o ch' key (mkView (v_val v)
           (if 0 <? now + z * 1000000000 then Z.min INT64_MAX (now + z * 1000000000) else 0)%Z (v_flags v) tok)) /\
        forall k, k <> key -> same_at (ctx_of o) ch ch' k
    | None => unchanged o now ch ch' key
    end.
Proof.
  intros o orc n ch pr a0 key secs more z old R F I So now. unfold cmdEXPIRE. rewrite prun_ask. cbv beta. fold now.
  pose proof (proj1 (proj2 I)) as Iz. apply int_text_parse in I. rewrite I.
  destruct (F n) as [[Hn _] _]. fold now in Hn. destruct (F (S n)) as [_ M].
  unfold SECOND. rewrite mul_clamp_spec by (exact Iz || (unfold i64_ok, INT64_MIN, INT64_MAX; lia)). cbn [need].
  rewrite add_clamp_spec; [|unfold i64_ok, INT64_MIN, INT64_MAX in *; lia|].
  2:{ rewrite clampZ_eq. unfold i64_ok, clamp64, INT64_MIN, INT64_MAX. lia. }
  cbn [need]. set (e := clampZ _).
  assert (He : (e <= INT64_MAX)%Z) by (unfold e; rewrite clampZ_eq; unfold clamp64, INT64_MIN, INT64_MAX; lia).
  assert (Ne : norm e = (if 0 <? now + z * 1000000000 then Z.min INT64_MAX (now + z * 1000000000) else 0)%Z).
  { unfold e, norm. rewrite !clampZ_eq. unfold clamp64, i64_ok, INT64_MIN, INT64_MAX in *.
    destruct (Z.ltb_spec 0 (now + z * 1000000000)); match goal with |- context [Z.ltb 0 ?a] => destruct (Z.ltb_spec 0 a) end; lia. }
  match goal with |- context [prun _ _ _ ch (Do _ ?kk)] =>
    destruct (set_look o orc (S n) ch key e now kk old R M (proj1 Hn) He So) as (ch' & ev & R' & E & H) end.
  rewrite E. clear E. cbv beta. exists ch'. eexists. split; [exact R'|]. split.
  - destruct old; cbv beta iota zeta; rewrite prun_answer; destruct pr; reflexivity.
  - rewrite Ne in H. exact H.
Qed.
Theorem C31_expire_reject : forall o orc n ch pr args,
  (forall a0 key secs more z, args = a0 :: key :: secs :: more -> ~ int_text secs z) ->
  exists msg, prun (ctx_of o) orc n ch (cmdEXPIRE pr args) = Ok (ch, [Out (WError msg)], []).
Proof.
  intros o orc n ch pr args H. unfold cmdEXPIRE.
  destruct args as [|a0 [|key [|secs more]]]; try (eexists; apply prun_error).
  rewrite prun_ask. cbv beta. destruct (parse_i64 secs) as [z|] eqn:E; [|eexists; apply prun_error].
  apply int_text_parse in E. destruct (H _ _ _ _ _ eq_refl E).
Qed.
(** EXPIRE key s at one time and TTL key at a later one: the whole seconds left. *)
Theorem C31_expire_then_ttl : forall o orc n ch a0 b0 key secs s v orc' n',
  reachable (ctx_of o) ch -> fine orc -> fine orc' -> int_text secs s -> (0 < s)%Z ->
  word b0 "ttl" ->
  let now := in_now (orc n) in let later := in_now (orc' n') in
  sees (ctx_of o) ch key now (Some v) -> (now + s * 1000000000 <= INT64_MAX)%Z ->
  exists ch' evs, prun (ctx_of o) orc n ch (cmdEXPIRE RESP [a0; key; secs]) = Ok (ch', [Out (WInt 1)], evs) /\
    exists ch'' evs', prun (ctx_of o) orc' n' ch' (cmdTTL RESP [b0; key]) =
      Ok (ch'', [Out (WInt (if later <? now + s * 1000000000 then (now + s * 1000000000 - later) / 1000000000 else -2))%Z], evs').
Proof.
  intros o orc n ch a0 b0 key secs s v orc' n' R F F' I Hs W now later So Hb.
  destruct (F n) as [[Hn _] _]. fold now in Hn.
  destruct (C31_expire o orc n ch RESP a0 key secs [] s (Some v) R F I So) as (ch' & evs & R' & E & (tok & H) & _).
  fold now in H. replace (0 <? now + s * 1000000000)%Z with true in H by lia. rewrite Z.min_r in H by exact Hb.
  exists ch', evs. split; [exact E|].
  set (e := (now + s * 1000000000)%Z) in *.
  assert (Np : false = true <-> word b0 "pttl") by (split; [discriminate|unfold word in *; rewrite W; discriminate]).
  specialize (H later). cbn [v_exp] in H.
  destruct (C31_ttl o orc' n' ch' RESP b0 key false _ Np R' F' H) as (ch'' & evs' & ds & _ & E2 & _).
  exists ch'', evs'. rewrite E2. fold later. unfold alive_at.
  replace (e =? 0)%Z with false by lia. cbn [orb].
  destruct (later <? e)%Z; [|reflexivity].
  cbn [ttl_reply List.map]. unfold left_over. cbn [v_exp]. replace (e =? 0)%Z with false by lia. reflexivity.
Qed.
Definition later_orc : nat -> input := fun _ => mkInput (plenty_env 2500000110) 2500000110 0 false 4 true.
Example C31_case :
  let r := prun demo_c demo_orc 0 demo_ch (cmdEXPIRE RESP [bs "EXPIRE"; bs "k3"; bs "10"]) in
  int_text (bs "10") 10 /\ sees demo_c demo_ch (bs "k3") 110 (Some (mkView [] 0 0 2)) /\ fine later_orc /\
  match r with
  | Ok (ch', es, _) => es = [Out (WInt 1)] /\
      outcome (prun demo_c later_orc 0 ch' (cmdTTL RESP [bs "TTL"; bs "k3"])) = Some [Out (WInt 7)]
  | Bad _ => False end /\
  outcome (prun demo_c demo_orc 0 demo_ch (cmdTTL RESP [bs "ttl"; bs "k3"])) = Some [Out (WInt (-1))] /\
  outcome (prun demo_c demo_orc 0 demo_ch (cmdTTL RESP [bs "ttl"; bs "none"])) = Some [Out (WInt (-2))].
Proof.
  cbv zeta. split; [apply int_text_parse; vm_compute; reflexivity|].
  split; [apply demo_sees_eq; vm_compute; reflexivity|].
  split; [intros n; split; [split; cbn; unfold INT64_MAX; lia|intros s; split; reflexivity]|].
  repeat match goal with |- _ /\ _ => split end; vm_compute; try reflexivity. split; reflexivity.
Qed.
(** "EXPIRE with a negative number of seconds removes the key" is refuted: if the
    machine has been up for a shorter time, the key never expires any more. *)
Theorem C31_expire_negative_refuted :
  let r := prun demo_c demo_orc 0 demo_ch (cmdEXPIRE RESP [bs "EXPIRE"; bs "k1"; bs "-1"]) in
  sees demo_c demo_ch (bs "k1") 110 (Some (mkView (bs "w") 123 5 4)) /\
  outcome r = Some [Out (WInt 1)] /\
  result_at (bs "k1") (2 ^ 62) r = Some (Some (mkView (bs "w") 0 5 5)).
Proof. cbv zeta. split; [apply demo_sees_eq; vm_compute; reflexivity|]. split; vm_compute; reflexivity. Qed.
