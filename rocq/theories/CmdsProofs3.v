(** Facts for the properties of commands. *)
From Verif Require Import Base Types Clamp Entry EntryProofs Hash Map MapProofs MapInv Shard
  Spec Trace ShardProofs ScanProofs LoopProofs Cache Refine Reach Observe PropCache PropItems
  Text IntText IntTextProofs CmdTable CmdTableProofs Prog CmdSpec Cmds CmdsProofs CmdsProofs2.
From Coq Require Import String.
Local Open Scope N_scope.
Notation length := List.length.

(** *** Counters *)
Definition delta_of (uns : bool) (z : Z) : delta := if uns then Unsigned (Z.to_N z) else Signed z.
Lemma number_read : forall uns s z, number uns s z <-> read_delta uns s = Some (delta_of uns z) /\ in_range uns z.
Proof.
  intros uns s z. unfold number, read_delta, delta_of, in_range. destruct uns.
  - split.
    + intros (x & H & ->). rewrite N2Z.id. pose proof (proj1 (nat_text_parse s x) H) as E. rewrite E. split; [reflexivity|].
      assert (x < 2 ^ 64); [|lia].
      destruct H as (_ & _ & [[_ ->]|(neg & v & _ & B & ->)]); [reflexivity|]. destruct neg; [unfold u64; apply N.mod_lt; discriminate|exact B].
    + intros [H B]. destruct (parse_u64 s) as [x|] eqn:E; [|discriminate]. cbn [option_map] in H. injection H as ->.
      apply nat_text_parse in E. exists (Z.to_N z). split; [exact E|]. lia.
  - split.
    + intros H. pose proof (proj1 (int_text_parse s z) H) as E. rewrite E. split; [reflexivity|].
      destruct H as (_ & B & _). unfold i64_ok, INT64_MIN, INT64_MAX in B. lia.
    + intros [H B]. destruct (parse_i64 s) as [x|] eqn:E; [|discriminate]. cbn [option_map] in H. injection H as ->.
      apply int_text_parse in E. exact E.
Qed.
Lemma read_number : forall uns s d, read_delta uns s = Some d -> exists z, d = delta_of uns z /\ in_range uns z /\ number uns s z.
Proof.
  intros uns s d H. assert (Q : exists z, d = delta_of uns z /\ in_range uns z).
  { unfold read_delta, delta_of, in_range in *. destruct uns.
    - destruct (parse_u64 s) as [x|] eqn:E; [|discriminate]. injection H as <-. exists (Z.of_N x). rewrite N2Z.id.
      split; [reflexivity|]. assert (N : number true s (Z.of_N x)) by (exists x; split; [apply nat_text_parse; exact E|reflexivity]).
      apply number_read in N. apply N.
    - destruct (parse_i64 s) as [x|] eqn:E; [|discriminate]. injection H as <-. exists x. split; [reflexivity|].
      apply int_text_parse in E. destruct E as (_ & B & _). unfold i64_ok, INT64_MIN, INT64_MAX in B. lia. }
  destruct Q as (z & -> & B). exists z. split; [reflexivity|]. split; [exact B|]. apply number_read. auto.
Qed.
Lemma wrapped_range : forall uns z, in_range uns (wrapped uns z).
Proof. intros [] z; unfold in_range, wrapped; pose proof (Z.mod_pos_bound z (2 ^ 64)); pose proof (Z.mod_pos_bound (z + 2 ^ 63) (2 ^ 64)); lia. Qed.
Lemma in_range_dec : forall uns z, in_range uns z \/ ~ in_range uns z.
Proof. intros [] z; unfold in_range; lia. Qed.
Lemma apply_delta_spec : forall uns (decr : bool) x d, in_range uns x -> in_range uns d ->
  let y := (x + if decr then - d else d)%Z in
  fst (apply_delta decr (delta_of uns x) (delta_of uns d)) = delta_of uns (wrapped uns y) /\
  (snd (apply_delta decr (delta_of uns x) (delta_of uns d)) = true <-> ~ in_range uns y).
Proof.
  intros uns decr x d Hx Hd y. unfold delta_of, wrapped, in_range in *. destruct uns; cbn [apply_delta].
  - destruct decr; cbn [fst snd]; subst y; unfold u64.
    + split.
      * f_equal. rewrite <- (Z.mod_add (x + - d) 1) by discriminate. lia.
      * rewrite N.ltb_lt. lia.
    + split; [f_equal; lia|]. rewrite N.leb_le. lia.
  - assert (W : forall z, i64_of_u64 (u64_of_i64 z) = ((z + 2 ^ 63) mod 2 ^ 64 - 2 ^ 63)%Z).
    { intros z. unfold i64_of_u64, u64_of_i64. pose proof (Z.mod_pos_bound z (2 ^ 64) ltac:(lia)) as B.
      destruct (N.ltb_spec (Z.to_N (z mod 2 ^ 64)) (2 ^ 63)) as [L|L]; rewrite Z2N.id by lia;
        Z.to_euclidean_division_equations; nia. }
    cbn [fst snd]. rewrite W. split; [destruct decr; reflexivity|].
    replace (if decr then x - d else x + d)%Z with y by (subst y; destruct decr; lia).
    unfold i64_chk, INT64_MIN, INT64_MAX. clearbody y.
    destruct (Z.leb_spec (- 2 ^ 63) y), (Z.leb_spec y (2 ^ 63 - 1)); cbn [andb]; split; intros; try discriminate; try reflexivity; lia.
Qed.
Lemma print_delta_text : forall uns z, in_range uns z ->
  decimal_text (print_delta (delta_of uns z)) z /\ bytes_ok (print_delta (delta_of uns z)) /\ (length (print_delta (delta_of uns z)) <= 20)%nat.
Proof.
  intros uns z B. unfold in_range, delta_of, decimal_text in *.
  assert (D : forall x, x < 2 ^ 63 + 1 -> canonical (u64toa x) x /\ bytes_ok (u64toa x) /\ (length (u64toa x) <= 19)%nat).
  { intros x Hx. assert (Hx' : x < 2 ^ 64) by lia. pose proof (u64toa_canonical x Hx') as C. split; [exact C|].
    destruct C as ((C1 & C2) & C3 & C4). split.
    - eapply Forall_impl; [|exact C2]. intros b Hb. cbv beta in Hb. apply is_digit_range in Hb. unfold byte_ok. change byte with N in *. lia.
    - destruct (u64toa x) as [|b ds] eqn:E; [congruence|].
      destruct ds as [|b' ds]; [cbn; lia|].
      assert (b <> 48). { intros ->. specialize (C4 eq_refl). discriminate. }
      pose proof (Forall_inv C2) as H2. cbv beta in H2. apply is_digit_range in H2. change byte with N in *. cbn [decimal] in C3.
      assert (10 ^ N.of_nat (length (b' :: ds)) <= x).
      { rewrite <- C3. nia. }
      destruct (Nat.le_gt_cases (length (b :: b' :: ds)) 19) as [L|L]; [exact L|].
      assert (10 ^ 19 <= 10 ^ N.of_nat (length (b' :: ds))) by (apply N.pow_le_mono_r; [discriminate|cbn [length] in *; lia]).
      exfalso. assert (T : 2 ^ 63 + 1 <= 10 ^ 19) by (vm_compute; discriminate). lia. }
  destruct uns; cbn [print_delta].
  - replace (z <? 0)%Z with false by lia.
    assert (Hx : Z.to_N z < 2 ^ 64) by lia. pose proof (u64toa_canonical _ Hx) as C. split; [exact C|]. split.
    + destruct C as ((_ & C2) & _). eapply Forall_impl; [|exact C2]. intros b Hb. cbv beta in Hb. apply is_digit_range in Hb. unfold byte_ok. change byte with N in *. lia.
    + exact (canonical_length _ _ C Hx).
  - unfold i64toa. destruct (Z.ltb_spec z 0) as [L|L].
    + destruct (Z.eqb_spec z INT64_MIN) as [->|_].
      * split; [eexists; split; [reflexivity|]|split; [repeat constructor|cbn; lia]].
        vm_compute. split; [|split; [reflexivity|discriminate]]. split; [discriminate|repeat constructor].
      * destruct (D (Z.to_N (- z)) ltac:(lia)) as (D1 & D2 & D3).
        split; [eexists; split; [reflexivity|exact D1]|]. split; [constructor; [reflexivity|exact D2]|cbn [length]; lia].
    + destruct (D (Z.to_N z) ltac:(lia)) as (D1 & D2 & D3). split; [exact D1|]. split; [exact D2|lia].
Qed.

Lemma exec_count : forall o orc n ch pr key (uns decr : bool) d name old,
  reachable (ctx_of o) ch -> fine orc ->
  (forall s, bytes_ok s -> (length s <= 20)%nat -> fits o ch key s) -> in_range uns d ->
  sees (ctx_of o) ch key (in_now (orc n)) old ->
  exists ch' reply evs, reachable (ctx_of o) ch' /\
    prun (ctx_of o) orc n ch (execINCRDECR pr key (delta_of uns d) decr uns name) = Ok (ch', List.map Out reply, evs) /\
    count_done o pr name uns (in_now (orc n)) key (if decr then - d else d)%Z ch ch' old reply.
Proof.
  intros o orc n ch pr key uns decr d name old R F Ft Hd So.
  unfold execINCRDECR. rewrite prun_ask. cbv beta zeta. destruct (F n) as [[Hn _] _].
  set (now := in_now (orc n)) in *.
  match goal with |- context [prun _ _ _ ch (Do (Load key (mkLoadOpts false just_look) now) ?kk)] =>
    destruct (load_look o orc (S n) ch key false just_look now kk old R (proj1 Hn) (or_intror eq_refl) So)
      as (ch1 & ev & R1 & K & E) end.
  rewrite E. clear E. unfold just_look. cbv beta iota.
  destruct (F (S (S n))) as [_ M2].
  assert (Ft1 : forall s, bytes_ok s -> (length s <= 20)%nat -> fits o ch1 key s)
    by (intros; eapply keeps_fits; [exact K|auto]).
  assert (Fin : forall x e flags cas, in_range uns x -> counter uns old x -> (pr = MEMCACHE -> old <> None) ->
    (pr <> MEMCACHE -> in_range uns (x + if decr then - d else d)%Z) ->
    (0 <= e <= INT64_MAX)%Z -> flags < 2 ^ 32 ->
    e = match old with Some v => v_exp v | None => 0%Z end -> flags = match old with Some v => v_flags v | None => 0 end ->
    exists ch' reply evs, reachable (ctx_of o) ch' /\
      match prun (ctx_of o) orc (S (S n)) ch1
        (let y := fst (apply_delta decr (delta_of uns x) (delta_of uns d)) in
           Do (Store key (print_delta y)
              (mkStoreOpts e 0 cas flags false false false false false None) now) (fun r2 =>
              match r2 with
              | RStatus NOMEM _ => error ERR_OUT_OF_MEMORY
              | RStatus INSERTED _ | RStatus REPLACED _ =>
                  if is_pg pr then answer (simple_row (bs "value") (print_delta y) name)
                  else answer (write_delta y :: if is_mc pr then [WRaw crlf] else [])
              | _ => Fail AssertFail
              end)) with
      | Bad t => Bad t | Ok (ch2, es, ev2) => Ok (ch2, es, ev ++ ev2) end = Ok (ch', List.map Out reply, evs) /\
      count_done o pr name uns now key (if decr then - d else d)%Z ch ch' old reply).
  { intros x e flags cas Hx Hc Hm1 Hm2 He Hf Ee Ef. cbv zeta.
    destruct (apply_delta_spec uns decr x d Hx Hd) as [A1 A2]. rewrite A1.
    set (y := wrapped uns _). assert (Hy : in_range uns y) by apply wrapped_range.
    destruct (print_delta_text uns y Hy) as (P1 & P2 & P3).
    match goal with |- context [prun _ _ _ ch1 (Do _ ?kk)] =>
      destruct (store_plain o orc (S (S n)) ch1 key (print_delta (delta_of uns y)) e flags cas now kk R1 (Ft1 _ P2 P3) M2 Hn He Hf)
        as (ch2 & st & ev2 & tok & R2 & Hs & E & Hh & Ho) end.
    rewrite E. clear E. cbv beta.
    exists ch2, (number_reply pr name uns y (print_delta (delta_of uns y))). eexists. split; [exact R2|]. split.
    - assert (Z : prun (ctx_of o) orc (S (S (S n))) ch2
         (if is_pg pr then answer (simple_row (bs "value") (print_delta (delta_of uns y)) name)
                  else answer (write_delta (delta_of uns y) :: if is_mc pr then [WRaw crlf] else []))
         = Ok (ch2, List.map Out (number_reply pr name uns y (print_delta (delta_of uns y))), [])).
      { destruct pr; cbn [is_pg is_mc by_proto]; rewrite prun_answer; unfold number_reply; destruct uns; reflexivity. }
      destruct Hs as [-> | ->]; rewrite Z; reflexivity.
    - eapply count_ok with (x := x) (tok := tok); try eassumption; try reflexivity.
      + subst e flags. destruct old; exact Hh.
      + intros k Hk. eapply same_at_trans; [apply (kp_same _ _ _ _ _ K); exact Hk|apply Ho; exact Hk]. }
  destruct old as [v|].
  - cbv beta iota. cbn [andb]. destruct (read_delta uns (v_val v)) as [x0|] eqn:Rd.
    + destruct (read_number _ _ _ Rd) as (x & -> & Hx & Nx).
      destruct (apply_delta_spec uns decr x d Hx Hd) as [A1 A2].
      pose proof (live_args o ch key now v R So) as Ao.
      cbn [andb negb].
      destruct (apply_delta decr (delta_of uns x) (delta_of uns d)) as [y ov] eqn:Ad. cbn [fst snd] in *.
      destruct (ov && negb (is_mc pr)) eqn:Ov.
      * rewrite prun_error. exists ch1. eexists [_]. eexists. split; [exact R1|]. split; [reflexivity|].
        apply andb_true_iff in Ov. destruct Ov as [-> Mc].
        eapply count_over with (x := x); [destruct pr; [discriminate Mc|discriminate..]|exact Nx|apply A2; reflexivity|apply K].
      * specialize (Fin x (v_exp v) (v_flags v) (v_cas v) Hx Nx ltac:(discriminate)). rewrite Ad in Fin. cbn [fst] in Fin.
        apply Fin; try reflexivity.
        -- intros Pm. destruct (in_range_dec uns (x + (if decr then - d else d))) as [I|I]; [exact I|].
           apply A2 in I. rewrite I in Ov. destruct pr; [congruence|discriminate Ov..].
        -- split; [eapply exp_nonneg; [exact R|exact So]|exact (ao_exp _ _ _ _ _ Ao)].
        -- exact (ao_flags _ _ _ _ _ Ao).
    + cbn [andb]. exists ch1, [match pr with
             | MEMCACHE => WRaw (bs "CLIENT_ERROR cannot increment or decrement non-numeric value" ++ crlf)
             | _ => WError (bs "ERR value is not an integer or out of range") end]. eexists. split; [exact R1|]. split.
      * destruct pr; cbn [is_mc by_proto]; [rewrite prun_answer|rewrite prun_error..]; reflexivity.
      * apply count_text; [|apply K]. intros x Nx. apply number_read in Nx. destruct Nx as [Nx _]. congruence.
  - cbv beta iota. cbn [andb negb].
    destruct (is_mc pr) eqn:Mc.
    + rewrite prun_answer. exists ch1. eexists [_]. eexists. split; [exact R1|]. split; [reflexivity|].
      apply count_missing; [destruct pr; [reflexivity|discriminate..]|apply K].
    + assert (H0 : in_range uns 0%Z) by (destruct uns; unfold in_range; lia).
      destruct (apply_delta_spec uns decr 0 d H0 Hd) as [A1 A2].
      replace (if uns then Unsigned 0 else Signed 0) with (delta_of uns 0%Z) by (destruct uns; reflexivity).
      destruct (apply_delta decr (delta_of uns 0%Z) (delta_of uns d)) as [y ov] eqn:Ad. cbn [fst snd] in *.
      destruct ov; cbn [andb negb].
      * rewrite prun_error. exists ch1. eexists [_]. eexists. split; [exact R1|]. split; [reflexivity|].
        eapply count_over with (x := 0%Z); [destruct pr; discriminate|reflexivity|apply A2; reflexivity|apply K].
      * specialize (Fin 0%Z 0%Z 0 0 H0 eq_refl). rewrite Ad in Fin. cbn [fst] in Fin.
        apply Fin; try reflexivity.
        -- intros ->. discriminate.
        -- intros Pm. destruct (in_range_dec uns (0 + (if decr then - d else d))) as [I|I]; [exact I|]. apply A2 in I. discriminate.
        -- unfold INT64_MAX. lia.
Qed.
