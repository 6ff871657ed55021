(** Facts for the properties of commands. *)
From Verif Require Import Base Types Clamp Entry EntryProofs Hash Map MapProofs MapInv Shard
  Spec Trace ShardProofs ScanProofs LoopProofs Cache Refine Reach Observe PropCache PropItems
  Text IntText IntTextProofs CmdTable CmdTableProofs Prog CmdSpec Cmds.
From Coq Require Import String.
Local Open Scope N_scope.
Notation length := List.length.

Lemma holds_abs : forall o ch key it, reachable (ctx_of o) ch ->
  cabs (ctx_of o) ch key = Some it -> holds o ch key (shown_of it).
Proof.
  intros o ch key it R H t. apply (sees_iff _ (opts_load o)); [apply reach_cinv; exact R|].
  unfold live_item. rewrite H. cbn [shown_of v_exp]. destruct (alive_at (i_exp it) t); reflexivity.
Qed.
Lemma gone_abs : forall o ch key, reachable (ctx_of o) ch ->
  cabs (ctx_of o) ch key = None -> gone o ch key.
Proof.
  intros o ch key R H t. apply (sees_iff _ (opts_load o)); [apply reach_cinv; exact R|].
  unfold live_item. rewrite H. reflexivity.
Qed.
Lemma sees_item : forall o ch key t old, reachable (ctx_of o) ch -> sees (ctx_of o) ch key t old ->
  option_map shown_of (live_item (cabs (ctx_of o) ch) key t) = old.
Proof. intros o ch key t old R S. symmetry. apply (sees_iff _ (opts_load o)); [apply reach_cinv; exact R|exact S]. Qed.
Lemma same_abs : forall o ch ch' key, reachable (ctx_of o) ch -> reachable (ctx_of o) ch' ->
  cabs (ctx_of o) ch' key = cabs (ctx_of o) ch key -> same_at (ctx_of o) ch ch' key.
Proof. intros. apply (same_at_abs _ (opts_load o)); [apply reach_cinv; assumption|apply reach_cinv; assumption|assumption]. Qed.

Lemma clampZ_eq : forall z, clampZ z = clamp64 z.
Proof.
  intros z. unfold clampZ, clamp64, INT64_MIN, INT64_MAX.
  repeat match goal with |- context [Z.ltb ?a ?b] => destruct (Z.ltb_spec a b) end; lia.
Qed.
Lemma clamp64_ok : forall z, i64_ok (clamp64 z).
Proof. intros z. unfold i64_ok, clamp64, INT64_MIN, INT64_MAX. lia. Qed.
Lemma resolve_pos : forall t clk, (0 < t)%Z -> resolve_now t clk = t.
Proof. intros t clk H. unfold resolve_now. destruct (Z.gtb_spec t 0); [reflexivity|lia]. Qed.

(** *** The program semantics *)
Section P.
Variable c : ctx.
Variable orc : nat -> input.
Lemma prun_puts : forall ws n ch k, prun c orc n ch (puts ws k) =
  match prun c orc n ch k with Ok (ch', es, evs) => Ok (ch', List.map Out ws ++ es, evs) | Bad t => Bad t end.
Proof.
  induction ws as [|w ws IH]; intros n ch k; cbn [puts prun List.map app].
  - destruct (prun c orc n ch k) as [[[? ?] ?]|]; reflexivity.
  - rewrite IH. destruct (prun c orc n ch k) as [[[? ?] ?]|]; reflexivity.
Qed.
Lemma prun_answer : forall ws n ch, prun c orc n ch (answer ws) = Ok (ch, List.map Out ws, []).
Proof. intros. unfold answer. rewrite prun_puts. cbn [prun]. rewrite app_nil_r. reflexivity. Qed.
Lemma prun_error : forall msg n ch, prun c orc n ch (error msg) = Ok (ch, [Out (WError msg)], []).
Proof. intros. apply (prun_answer [WError msg]). Qed.
Lemma prun_ask : forall k n ch, prun c orc n ch (Ask k) = prun c orc (S n) ch (k (orc n)).
Proof. reflexivity. Qed.
End P.

(** Fewer keys leave as much room. *)
Lemma roomy_less : forall c m m' key, roomy c m key -> (forall k, m' k <> None -> m k <> None) -> roomy c m' key.
Proof.
  intros c m m' key H L ks Nd P. apply H; [exact Nd|]. intros k I. destruct (P k I) as [A B]. split; [exact A|exact (L k B)].
Qed.

(** A load in a program. *)
Lemma do_load : forall o orc n ch key lo now k, reachable (ctx_of o) ch -> update_ok key (lo_entry lo) ->
  (0 < now)%Z ->
  exists ch' st sh ev cas', reachable (ctx_of o) ch' /\
    prun (ctx_of o) orc n ch (Do (Load key lo now) k) =
      match prun (ctx_of o) orc (S n) ch' (k (RStatus st sh)) with
      | Bad t => Bad t | Ok (ch2, es, ev2) => Ok (ch2, es, ev ++ ev2) end /\
    exists m', (forall x, cabs (ctx_of o) ch' x = m' x) /\
    sp_load (c_usecas (ctx_of o)) (al_entry (en_mem (in_env (orc n)) (route (ctx_of o) key)))
      (cabs (ctx_of o) ch) (ccas ch (route (ctx_of o) key)) key lo now = (m', cas', st, sh).
Proof.
  intros o orc n ch key lo now k R U P. cbn [prun].
  destruct (reachable_step (ctx_of o) (opts_load o) (opts_shards o) ch (in_env (orc n)) (Load key lo now) R U)
    as (ch' & r & ev & E & R' & _ & _).
  destruct (made_load o ch (in_env (orc n)) key lo now ch' r ev R U E) as (_ & st & sh & m' & cas' & -> & S & A & _).
  rewrite (resolve_pos _ _ P) in S.
  exists ch', st, sh, ev, cas'. split; [exact R'|]. split; [rewrite E; reflexivity|].
  exists m'. split; [exact A|exact S].
Qed.
Lemma do_store : forall o orc n ch key val so now k, reachable (ctx_of o) ch -> fits o ch key val ->
  mem_ok (orc n) -> (0 < now <= INT64_MAX)%Z -> (so_expires so <= INT64_MAX)%Z -> so_ttl so = 0%Z -> so_flags so < 2 ^ 32 ->
  exists ch' st sh ev cas', reachable (ctx_of o) ch' /\
    prun (ctx_of o) orc n ch (Do (Store key val so now) k) =
      match prun (ctx_of o) orc (S n) ch' (k (RStatus st sh)) with
      | Bad t => Bad t | Ok (ch2, es, ev2) => Ok (ch2, es, ev ++ ev2) end /\
    exists m', (forall x, cabs (ctx_of o) ch' x = m' x) /\
    sp_store_step (c_usecas (ctx_of o)) (c_noevict (ctx_of o)) true
      (fun k => route (ctx_of o) k = route (ctx_of o) key)
      (cabs (ctx_of o) ch) (ccas ch (route (ctx_of o) key)) key val so now m' cas' st sh.
Proof.
  intros o orc n ch key val so now k R F M P X T Fl. cbn [prun].
  assert (K : call_ok (ctx_of o) (in_env (orc n)) (cabs (ctx_of o) ch) (Store key val so now)).
  { cbn [call_ok]. rewrite resolve_pos by lia. split; [|split; [apply M|exact (ft_room _ _ _ _ F)]].
    constructor; try (apply F); try assumption; [rewrite T; unfold i64_ok, INT64_MIN, INT64_MAX; lia|].
    unfold i64_ok, INT64_MIN, INT64_MAX in *. lia. }
  destruct (reachable_step (ctx_of o) (opts_load o) (opts_shards o) ch (in_env (orc n)) (Store key val so now) R K)
    as (ch' & r & ev & E & R' & _ & _).
  destruct (made_store o ch (in_env (orc n)) key val so now ch' r ev R K E) as (_ & st & sh & m' & cas' & -> & S & A & _).
  rewrite (proj2 (M (route (ctx_of o) key))) in S. rewrite resolve_pos in S by lia.
  exists ch', st, sh, ev, cas'. split; [exact R'|]. split; [rewrite E; reflexivity|].
  exists m'. split; [exact A|exact S].
Qed.
Lemma do_delete : forall o orc n ch key now k, reachable (ctx_of o) ch -> (0 < now)%Z ->
  exists ch' st sh ev, reachable (ctx_of o) ch' /\
    prun (ctx_of o) orc n ch (Do (Delete key None now) k) =
      match prun (ctx_of o) orc (S n) ch' (k (RStatus st sh)) with
      | Bad t => Bad t | Ok (ch2, es, ev2) => Ok (ch2, es, ev ++ ev2) end /\
    exists m', (forall x, cabs (ctx_of o) ch' x = m' x) /\
    sp_delete (cabs (ctx_of o) ch) key None now = (m', st, sh).
Proof.
  intros o orc n ch key now k R P. cbn [prun].
  destruct (reachable_step (ctx_of o) (opts_load o) (opts_shards o) ch (in_env (orc n)) (Delete key None now) R Logic.I)
    as (ch' & r & ev & E & R' & _ & _).
  destruct (made_delete o ch (in_env (orc n)) key None now ch' r ev R E) as (_ & st & sh & m' & -> & S & A & _).
  rewrite (resolve_pos _ _ P) in S.
  exists ch', st, sh, ev. split; [exact R'|]. split; [rewrite E; reflexivity|].
  exists m'. split; [exact A|exact S].
Qed.
Lemma look_ok : forall key b, update_ok key (lo_entry (mkLoadOpts b just_look)).
Proof. intros key b g w u E _ H. cbn in E. unfold just_look in E. injection E as <-. discriminate H. Qed.
Lemma plain_ok : forall key b, update_ok key (lo_entry (mkLoadOpts b None)).
Proof. intros key b g w u E _ H. discriminate E. Qed.

Lemma is_word_iff : forall s w, is_word s w = true <-> lower s = bs w.
Proof. intros. apply argeq_lower. Qed.
Lemma is_word_no : forall s w, is_word s w = false <-> lower s <> bs w.
Proof.
  intros s w. rewrite <- is_word_iff. destruct (is_word s w); split; congruence.
Qed.

(** Stored items have sizes in range. *)
Lemma item_args : forall o ch key it, reachable (ctx_of o) ch -> cabs (ctx_of o) ch key = Some it ->
  args_ok key (i_val it) (i_exp it) (i_flags it) (i_cas it).
Proof.
  intros o ch key it R H. pose proof (reach_cinv o ch R) as I. unfold cabs in H.
  destruct (nth_error (ca_shards ch) (route (ctx_of o) key)) as [s|] eqn:E; [|discriminate].
  pose proof (ci_shard _ _ I _ _ E) as J. unfold sabs in H.
  destruct (lk (ekey (ctx_of o)) (sents s) key) as [e|] eqn:L; [|discriminate]. cbn [option_map] in H.
  injection H as <-. apply lk_some in L. destruct L as [L1 L2].
  assert (W : wf_entry (ctx_of o) e) by (eapply ents_wf; [apply (si_map _ _ J)|exact L1]).
  pose proof (view_args _ e W) as A. rewrite L2 in A. exact A.
Qed.
Lemma live_args : forall o ch key t v, reachable (ctx_of o) ch -> sees (ctx_of o) ch key t (Some v) ->
  args_ok key (v_val v) (v_exp v) (v_flags v) (v_cas v).
Proof.
  intros o ch key t v R S. apply sees_item in S; [|exact R]. unfold live_item in S.
  destruct (cabs (ctx_of o) ch key) as [it|] eqn:E; [|discriminate].
  destruct (alive_at (i_exp it) t); [|discriminate]. injection S as <-. exact (item_args o ch key it R E).
Qed.

Lemma same_from_abs : forall o now ch ch' key, reachable (ctx_of o) ch -> reachable (ctx_of o) ch' ->
  (forall t, (now <= t)%Z -> live_item (cabs (ctx_of o) ch') key t = live_item (cabs (ctx_of o) ch) key t) ->
  same_from o now ch ch' key.
Proof.
  intros o now ch ch' key R R' H t v Ht.
  rewrite !(sees_iff _ (opts_load o)) by (apply reach_cinv; assumption). rewrite (H t Ht). reflexivity.
Qed.
Lemma alive_later : forall e t t', alive_at e t = false -> (t <= t')%Z -> alive_at e t' = false.
Proof.
  intros e t t' H L. unfold alive_at in *. lia.
Qed.
Lemma dead_later : forall m key t t', live_item m key t = None -> (t <= t')%Z -> live_item m key t' = None.
Proof.
  intros m key t t' H L. unfold live_item in *. destruct (m key) as [it|]; [|reflexivity].
  destruct (alive_at (i_exp it) t) eqn:A; [discriminate|]. rewrite (alive_later _ _ _ A L). reflexivity.
Qed.

(** *** SET *)
Lemma words_ex : forall u w, word w (unit_name u) <->
  ex_word w = Some (match u with Ex => EX | Px => PX | Exat => EXAT | Pxat => PXAT end).
Proof.
  intros u w. unfold word, ex_word. split.
  - intros H. unfold is_word. rewrite <- !argeq_lower in *.
    destruct u; cbn [unit_name] in *;
    repeat match goal with |- context [if argeq w ?x then _ else _] => destruct (argeq w x) eqn:? end; try congruence;
    repeat match goal with H : argeq w _ = true |- _ => apply argeq_lower in H end;
    repeat match goal with H : lower w = _, H' : lower w = _ |- _ => rewrite H in H'; discriminate H' end.
  - intros H. destruct (is_word w "ex") eqn:A; [|destruct (is_word w "px") eqn:B; [|destruct (is_word w "exat") eqn:C;
      [|destruct (is_word w "pxat") eqn:D; [|discriminate]]]]; destruct u; try discriminate;
      apply is_word_iff; assumption.
Qed.

Lemma int_text_parse : forall v z, int_text v z <-> parse_i64 v = Some z.
Proof. intros. unfold int_text. rewrite parse_i64_spec. reflexivity. Qed.
Lemma nat_text_parse : forall v x, nat_text v x <-> parse_u64 v = Some x.
Proof. intros. unfold nat_text. rewrite parse_u64_spec. reflexivity. Qed.
Lemma unit_ns_ok : forall u, i64_ok (unit_ns u).
Proof. intros []; unfold i64_ok, unit_ns, INT64_MIN, INT64_MAX; lia. Qed.

Lemma unit_inj : forall w u u', word w (unit_name u) -> word w (unit_name u') -> u = u'.
Proof.
  intros w u u' A B. unfold word in *. rewrite A in B. destruct u, u'; try reflexivity; discriminate B.
Qed.
Lemma spelled_inj : forall r os, spelled r os -> forall os', spelled r os' -> os = os'.
Proof.
  induction 1 as [|w v u z r os W V S IH|w r os W S IH|w r os W S IH|w r os W S IH|w r os W S IH
    |w v x r os W V S IH|w v x r os W V S IH]; intros os' H'; inversion H'; subst; try reflexivity;
  try (f_equal; auto; fail);
  try (exfalso; unfold word in *;
       repeat match goal with u : unit_of_time |- _ => destruct u; cbn [unit_name] in * end;
       congruence || (match goal with H : lower ?w = _, H2 : lower ?w = _ |- _ => rewrite H in H2; discriminate H2 end); fail).
  - assert (u0 = u) by (eapply unit_inj; eassumption). subst.
    apply int_text_parse in V. match goal with H : int_text v _ |- _ => apply int_text_parse in H; rewrite V in H; inversion H; subst end.
    f_equal. auto.
  - apply nat_text_parse in V. match goal with H : nat_text v _ |- _ => apply nat_text_parse in H; rewrite V in H; inversion H; subst end.
    f_equal. auto.
  - apply nat_text_parse in V. match goal with H : nat_text v _ |- _ => apply nat_text_parse in H; rewrite V in H; inversion H; subst end.
    f_equal. auto.
Qed.

Section SetLoop.
Variable o : opts.
Variable orc : nat -> input.
Hypothesis F : fine orc.
Variables (pr : proto) (now : Z).
Hypothesis Now : (0 < now <= INT64_MAX)%Z.
Notation run := (prun (ctx_of o) orc).

Inductive applied : list opt -> setst -> setst -> Prop :=
| ap_end : forall s, applied [] s s
| ap_expire : forall u z e os s s', expires_at pr orc now u z e -> applied os (with_ex s e) s' ->
    applied (Expire u z :: os) s s'
| ap_nx : forall os s s', applied os (with_nx s) s' -> applied (Nx :: os) s s'
| ap_xx : forall os s s', applied os (with_xx s) s' -> applied (Xx :: os) s s'
| ap_get : forall os s s', applied os (with_get s) s' -> applied (Get :: os) s s'
| ap_keepttl : forall os s s', applied os (with_keepttl s) s' -> applied (Keepttl :: os) s s'
| ap_flags : forall x os s s', applied os (with_flags s (x mod 2 ^ 32)) s' -> applied (Flags x :: os) s s'
| ap_cas : forall x os s s', applied os (with_cas s x) s' -> applied (Cas x :: os) s s'.

Lemma applied_sum : forall os s s', applied os s s' ->
  (ss_nx s' = true <-> ss_nx s = true \/ In Nx os) /\
  (ss_xx s' = true <-> ss_xx s = true \/ In Xx os) /\
  (ss_get s' = true <-> ss_get s = true \/ In Get os) /\
  (ss_keepttl s' = true <-> ss_keepttl s = true \/ In Keepttl os) /\
  match last_expire os with
  | Some (u, z) => ss_hasex s' = true /\ expires_at pr orc now u z (ss_exp s')
  | None => ss_hasex s' = ss_hasex s /\ ss_exp s' = ss_exp s end /\
  ss_flags s' = match last_flags os with Some x => x mod 2 ^ 32 | None => ss_flags s end /\
  match last_cas os with
  | Some x => ss_withcas s' = true /\ ss_cas s' = x
  | None => ss_withcas s' = ss_withcas s /\ ss_cas s' = ss_cas s end.
Proof.
  induction 1 as [s|u z e os s s' E A IH|os s s' A IH|os s s' A IH|os s s' A IH|os s s' A IH|x os s s' A IH|x os s s' A IH];
    [cbn; repeat split; intuition congruence|..];
    destruct IH as (N1 & X1 & G1 & K1 & E1 & F1 & C1);
    cbn [ss_nx ss_xx ss_get ss_keepttl ss_hasex ss_exp ss_flags ss_withcas ss_cas with_ex with_nx with_xx with_get with_keepttl with_flags with_cas] in *;
    (split; [rewrite N1; cbn [In]; intuition congruence|]);
    (split; [rewrite X1; cbn [In]; intuition congruence|]);
    (split; [rewrite G1; cbn [In]; intuition congruence|]);
    (split; [rewrite K1; cbn [In]; intuition congruence|]);
    cbn [last_expire last_flags last_cas];
    (split; [first [exact E1 | destruct (last_expire os) as [[? ?]|]; [exact E1|destruct E1 as [E1 E2]; rewrite E1, E2; auto] ]|]);
    (split; [first [exact F1 | destruct (last_flags os); exact F1]|]);
    first [exact C1 | destruct (last_cas os); exact C1].
Qed.

Lemma expiry_time : forall d n ch k, (0 <= d <= INT64_MAX)%Z ->
  exists e n', run n ch (expiry_seconds_time pr now d k) = run n' ch (k e) /\
    match pr with
    | MEMCACHE => if (d <=? thirty_days)%Z then e = Z.min INT64_MAX (now + d)
        else exists a b, e = if (in_unix (orc a) <? d)%Z
                           then Z.min INT64_MAX (now + (d - in_unix (orc b))) else now
    | _ => e = Z.min INT64_MAX (now + d)
    end.
Proof.
  intros d n ch k D. unfold expiry_seconds_time.
  assert (AC : forall x, (- INT64_MAX <= x <= INT64_MAX)%Z -> int64_add_clamp now x = Some (Z.min INT64_MAX (now + x))).
  { intros x Hx. unfold INT64_MAX in *. rewrite add_clamp_spec by (unfold i64_ok, INT64_MIN, INT64_MAX; lia).
    f_equal. unfold clampZ, INT64_MIN, INT64_MAX.
    repeat match goal with |- context [Z.ltb ?a ?b] => destruct (Z.ltb_spec a b) end; lia. }
  change (HOUR * 24 * 30)%Z with thirty_days.
  destruct pr; cbn [is_mc by_proto andb];
    try (rewrite AC by (unfold INT64_MAX in *; lia); cbn [need]; do 2 eexists; split; reflexivity).
  destruct (Z.leb_spec d thirty_days) as [L|L].
  - replace (d >? thirty_days)%Z with false by lia. rewrite AC by (unfold INT64_MAX in *; lia). cbn [need]. do 2 eexists. split; reflexivity.
  - replace (d >? thirty_days)%Z with true by lia. cbn [prun].
    destruct (F n) as [[_ U] _].
    destruct (Z.ltb_spec (in_unix (orc n)) d) as [G|G].
    + replace (d >? in_unix (orc n))%Z with true by lia. cbn [prun]. destruct (F (S n)) as [[_ U'] _].
      unfold i64_chk. replace ((INT64_MIN <=? d - in_unix (orc (S n))) && (d - in_unix (orc (S n)) <=? INT64_MAX))%Z with true
        by (unfold INT64_MIN, INT64_MAX in *; lia).
      rewrite AC by (unfold INT64_MAX in *; lia). cbn [need]. do 2 eexists. split; [reflexivity|].
      exists n, (S n). rewrite (proj2 (Z.ltb_lt _ _) G). reflexivity.
    + replace (d >? in_unix (orc n))%Z with false by lia. rewrite AC by (unfold INT64_MAX in *; lia).
      cbn [need]. do 2 eexists. split; [reflexivity|]. exists n, n. rewrite (proj2 (Z.ltb_ge _ _) G). lia.
Qed.
Lemma set_expiry_spec : forall u z n ch k, i64_ok z ->
  let kind := match u with Ex => EX | Px => PX | Exat => EXAT | Pxat => PXAT end in
  (pr <> MEMCACHE /\ (z <= 0)%Z /\ exists msg, run n ch (set_expiry pr now kind z k) = Ok (ch, [Out (WError msg)], [])) \/
  ((pr <> MEMCACHE -> (0 < z)%Z) /\ exists e n', run n ch (set_expiry pr now kind z k) = run n' ch (k e) /\ expires_at pr orc now u z e).
Proof.
  intros u z n ch k I kind. unfold set_expiry.
  destruct (Z.leb_spec z 0) as [L|L].
  - destruct pr eqn:P; cbn [is_mc by_proto]; try (left; split; [discriminate|]; split; [exact L|]; eexists; apply prun_error).
    right. split; [congruence|]. rewrite <- P.
    destruct (expiry_time 0 n ch k) as (e & n' & E1 & E2); [unfold INT64_MAX; lia|].
    exists e, n'. split; [exact E1|]. rewrite P in E2 |- *. unfold expires_at. rewrite (proj2 (Z.leb_le _ _) L).
    rewrite E2. cbn. lia.
  - right. split; [intros _; exact L|].
    assert (M : int64_mul_clamp z (unit_ns u) = Some (Z.min INT64_MAX (z * unit_ns u))).
    { rewrite mul_clamp_spec by (exact I || apply unit_ns_ok). f_equal. unfold clampZ, INT64_MIN, INT64_MAX.
      assert (0 <= z * unit_ns u)%Z by (destruct u; unfold unit_ns; lia).
      repeat match goal with |- context [Z.ltb ?a ?b] => destruct (Z.ltb_spec a b) end; lia. }
    assert (D : (0 <= Z.min INT64_MAX (z * unit_ns u) <= INT64_MAX)%Z)
      by (unfold INT64_MAX; assert (0 <= z * unit_ns u)%Z by (destruct u; unfold unit_ns; lia); lia).
    destruct (expiry_time _ n ch k D) as (e & n' & E1 & E2).
    destruct u; cbn [unit_ns] in *; subst kind; cbv beta iota;
      unfold SECOND, MILLISECOND; rewrite M; cbn [need];
      first [ exists e, n'; split; [exact E1|]; unfold expires_at; cbn [unit_ns];
              destruct pr; try exact E2; rewrite (proj2 (Z.leb_gt _ _) L); exact E2
            | do 2 eexists; split; [reflexivity|]; unfold expires_at; cbn [unit_ns];
              destruct pr; try reflexivity; rewrite (proj2 (Z.leb_gt _ _) L); reflexivity ].
Qed.
Lemma land_mod : forall x, N.land x (2 ^ 32 - 1) = x mod 2 ^ 32.
Proof. intros x. change (2 ^ 32 - 1) with (N.ones 32). apply N.land_ones. Qed.

Lemma set_loop_spec : forall len rest, (length rest <= len)%nat -> forall s k n ch,
  (exists os n' s', spelled rest os /\ positive pr os /\ applied os s s' /\
     run n ch (set_loop pr now rest s k) = run n' ch (k s')) \/
  ((forall os, spelled rest os -> ~ positive pr os) /\
   exists msg, run n ch (set_loop pr now rest s k) = Ok (ch, [Out (WError msg)], [])).
Proof.
  induction len as [|len IH]; intros rest Hl s k n ch.
  - destruct rest; [|cbn in Hl; lia]. left. exists [], n, s. repeat split; try constructor. intros _ u z [].
  - destruct rest as [|w r].
    { left. exists [], n, s. repeat split; try constructor. intros _ u z []. }
    cbn [length] in Hl. cbn [set_loop].
    destruct (ex_word w) as [kind|] eqn:W.
    + assert (HU : exists u, word w (unit_name u) /\ kind = match u with Ex => EX | Px => PX | Exat => EXAT | Pxat => PXAT end).
      { destruct kind; [exists Ex|exists Px|exists Exat|exists Pxat]; (split; [apply words_ex; exact W|reflexivity]). }
      destruct HU as (u & Hu & ->).
      assert (NX : forall os, spelled (w :: r) os -> exists v r' z os', r = v :: r' /\ os = Expire u z :: os' /\ int_text v z /\ spelled r' os').
      { intros os S. inversion S; subst;
          try (unfold word in *; destruct u; cbn [unit_name] in *; match goal with H : lower w = _ |- _ => rewrite Hu in H; discriminate H end).
        assert (u0 = u) by (eapply unit_inj; eassumption). subst. eauto 10. }
      destruct r as [|v r'].
      { right. split; [|eexists; apply prun_error]. intros os S. destruct (NX os S) as (? & ? & ? & ? & X & _). discriminate. }
      destruct (parse_i64 v) as [z|] eqn:Pv.
      2:{ right. split; [|eexists; apply prun_error]. intros os S. destruct (NX os S) as (? & ? & ? & ? & X & _ & T & _).
          injection X as <- <-. apply int_text_parse in T. congruence. }
      assert (Iz : int_text v z) by (apply int_text_parse; exact Pv).
      assert (Oz : i64_ok z) by apply Iz.
      destruct (set_expiry_spec u z n ch (fun e => set_loop pr now r' (with_ex s e) k) Oz) as [(P1 & P2 & P3)|(P1 & e & n' & P2 & P3)].
      * right. split; [|exact P3]. intros os S. destruct (NX os S) as (? & ? & z' & os' & X & -> & T & _).
        injection X as <- <-. apply int_text_parse in T. rewrite Pv in T. injection T as <-.
        intros Po. specialize (Po P1 u z (or_introl eq_refl)). lia.
      * cbv beta in P2. rewrite P2. cbn [length] in Hl.
        destruct (IH r' ltac:(lia) (with_ex s e) k n' ch) as [(os & n2 & s' & A & B & C & D)|(A & B)].
        -- left. exists (Expire u z :: os), n2, s'. split; [constructor; assumption|]. split.
           { intros N1 u1 z1 [E|E]; [inversion E; subst; apply P1; exact N1|eapply B; eassumption]. }
           split; [econstructor; eassumption|exact D].
        -- right. split; [|exact B]. intros os S. destruct (NX os S) as (? & ? & z' & os' & X & -> & T & S').
           injection X as <- <-. intros Po. apply (A os' S'). intros N1 u1 z1 E. eapply Po; [exact N1|right; exact E].
    + assert (NU : forall u, ~ word w (unit_name u)) by (intros u Hu; apply words_ex in Hu; congruence).
      pose (bad := fun (P : list opt -> Prop) => forall os, spelled (w :: r) os -> P os).
      destruct (is_word w "nx") eqn:W1; [apply is_word_iff in W1|apply is_word_no in W1].
      { destruct (IH r ltac:(lia) (with_nx s) k n ch) as [(os & n2 & s' & A & B & C & D)|(A & B)].
        - left. exists (Nx :: os), n2, s'. split; [constructor; assumption|]. split; [|split; [constructor; exact C|exact D]].
          intros N1 u1 z1 [E|E]; [discriminate|eapply B; eassumption].
        - right. split; [|exact B]. intros os S Po. inversion S; subst; unfold word in *;
            try (rewrite W1 in *; discriminate); try (eapply NU; eassumption).
          apply (A _ ltac:(eassumption)). intros N1 u1 z1 E. eapply Po; [exact N1|right; exact E]. }
      destruct (is_word w "xx") eqn:W2; [apply is_word_iff in W2|apply is_word_no in W2].
      { destruct (IH r ltac:(lia) (with_xx s) k n ch) as [(os & n2 & s' & A & B & C & D)|(A & B)].
        - left. exists (Xx :: os), n2, s'. split; [constructor; assumption|]. split; [|split; [constructor; exact C|exact D]].
          intros N1 u1 z1 [E|E]; [discriminate|eapply B; eassumption].
        - right. split; [|exact B]. intros os S Po. inversion S; subst; unfold word in *;
            try (rewrite W2 in *; discriminate); try (eapply NU; eassumption).
          apply (A _ ltac:(eassumption)). intros N1 u1 z1 E. eapply Po; [exact N1|right; exact E]. }
      destruct (is_word w "get") eqn:W3; [apply is_word_iff in W3|apply is_word_no in W3].
      { destruct (IH r ltac:(lia) (with_get s) k n ch) as [(os & n2 & s' & A & B & C & D)|(A & B)].
        - left. exists (Get :: os), n2, s'. split; [constructor; assumption|]. split; [|split; [constructor; exact C|exact D]].
          intros N1 u1 z1 [E|E]; [discriminate|eapply B; eassumption].
        - right. split; [|exact B]. intros os S Po. inversion S; subst; unfold word in *;
            try (rewrite W3 in *; discriminate); try (eapply NU; eassumption).
          apply (A _ ltac:(eassumption)). intros N1 u1 z1 E. eapply Po; [exact N1|right; exact E]. }
      destruct (is_word w "keepttl") eqn:W4; [apply is_word_iff in W4|apply is_word_no in W4].
      { destruct (IH r ltac:(lia) (with_keepttl s) k n ch) as [(os & n2 & s' & A & B & C & D)|(A & B)].
        - left. exists (Keepttl :: os), n2, s'. split; [constructor; assumption|]. split; [|split; [constructor; exact C|exact D]].
          intros N1 u1 z1 [E|E]; [discriminate|eapply B; eassumption].
        - right. split; [|exact B]. intros os S Po. inversion S; subst; unfold word in *;
            try (rewrite W4 in *; discriminate); try (eapply NU; eassumption).
          apply (A _ ltac:(eassumption)). intros N1 u1 z1 E. eapply Po; [exact N1|right; exact E]. }
      destruct (is_word w "flags") eqn:W5; [apply is_word_iff in W5|apply is_word_no in W5].
      { assert (NF : forall os, spelled (w :: r) os -> exists v r' z os', r = v :: r' /\ os = Flags z :: os' /\ nat_text v z /\ spelled r' os').
        { intros os S. inversion S; subst; unfold word in *; try (rewrite W5 in *; discriminate); try (exfalso; eapply NU; eassumption).
          eauto 10. }
        destruct r as [|v r'].
        { right. split; [|eexists; apply prun_error]. intros os S. destruct (NF os S) as (? & ? & ? & ? & X & _). discriminate. }
        destruct (parse_u64 v) as [x|] eqn:Pv.
        2:{ right. split; [|eexists; apply prun_error]. intros os S. destruct (NF os S) as (? & ? & ? & ? & X & _ & T & _).
            injection X as <- <-. apply nat_text_parse in T. congruence. }
        rewrite land_mod. cbn [length] in Hl.
        destruct (IH r' ltac:(lia) (with_flags s (x mod 2 ^ 32)) k n ch) as [(os & n2 & s' & A & B & C & D)|(A & B)].
        - left. exists (Flags x :: os), n2, s'. split; [constructor; try assumption; apply nat_text_parse; exact Pv|]. split; [|split; [constructor; exact C|exact D]].
          intros N1 u1 z1 [E|E]; [discriminate|eapply B; eassumption].
        - right. split; [|exact B]. intros os S Po. destruct (NF os S) as (? & ? & ? & os' & X & -> & T & S').
          injection X as <- <-. apply (A os' S'). intros N1 u1 z1 E. eapply Po; [exact N1|right; exact E]. }
      destruct (is_word w "cas") eqn:W6; [apply is_word_iff in W6|apply is_word_no in W6].
      { assert (NF : forall os, spelled (w :: r) os -> exists v r' z os', r = v :: r' /\ os = Cas z :: os' /\ nat_text v z /\ spelled r' os').
        { intros os S. inversion S; subst; unfold word in *; try (rewrite W6 in *; discriminate); try (exfalso; eapply NU; eassumption).
          eauto 10. }
        destruct r as [|v r'].
        { right. split; [|eexists; apply prun_error]. intros os S. destruct (NF os S) as (? & ? & ? & ? & X & _). discriminate. }
        destruct (parse_u64 v) as [x|] eqn:Pv.
        2:{ right. split; [|eexists; apply prun_error]. intros os S. destruct (NF os S) as (? & ? & ? & ? & X & _ & T & _).
            injection X as <- <-. apply nat_text_parse in T. congruence. }
        cbn [length] in Hl.
        destruct (IH r' ltac:(lia) (with_cas s x) k n ch) as [(os & n2 & s' & A & B & C & D)|(A & B)].
        - left. exists (Cas x :: os), n2, s'. split; [constructor; try assumption; apply nat_text_parse; exact Pv|]. split; [|split; [constructor; exact C|exact D]].
          intros N1 u1 z1 [E|E]; [discriminate|eapply B; eassumption].
        - right. split; [|exact B]. intros os S Po. destruct (NF os S) as (? & ? & ? & os' & X & -> & T & S').
          injection X as <- <-. apply (A os' S'). intros N1 u1 z1 E. eapply Po; [exact N1|right; exact E]. }
      right. split; [|eexists; apply prun_error]. intros os S. inversion S; subst; unfold word in *; try contradiction.
      exfalso. eapply NU. eassumption.
Qed.
End SetLoop.

(** *** execSET *)
Lemma same_all : forall o ch ch' m', reachable (ctx_of o) ch -> reachable (ctx_of o) ch' ->
  (forall x, cabs (ctx_of o) ch' x = m' x) -> m' = cabs (ctx_of o) ch ->
  forall k, same_at (ctx_of o) ch ch' k.
Proof. intros o ch ch' m' R R' A E k. apply same_abs; [exact R|exact R'|]. rewrite A, E. reflexivity. Qed.
Lemma same_others : forall o ch ch' key it, reachable (ctx_of o) ch -> reachable (ctx_of o) ch' ->
  (forall x, cabs (ctx_of o) ch' x = aset (cabs (ctx_of o) ch) key it x) ->
  forall k, k <> key -> same_at (ctx_of o) ch ch' k.
Proof.
  intros o ch ch' key it R R' A k Hk. apply same_abs; [exact R|exact R'|]. rewrite A. unfold aset.
  rewrite (beq_neq key k) by congruence. reflexivity.
Qed.
Lemma aset_key : forall m key it, aset m key it key = it.
Proof. intros. unfold aset. rewrite beq_refl. reflexivity. Qed.
(** The conclusion about a successful store. *)
Lemma stored_at : forall o ch ch' now key val so m' cas' st sh,
  reachable (ctx_of o) ch -> reachable (ctx_of o) ch' ->
  (forall x, cabs (ctx_of o) ch' x = m' x) ->
  sp_store_step (c_usecas (ctx_of o)) (c_noevict (ctx_of o)) true
      (fun k => route (ctx_of o) k = route (ctx_of o) key)
      (cabs (ctx_of o) ch) (ccas ch (route (ctx_of o) key)) key val so now m' cas' st sh ->
  st = INSERTED \/ st = REPLACED ->
  (exists tok, holds o ch' key (mkView val (sp_expires (cabs (ctx_of o) ch) key so now) (so_flags so) tok)) /\
  others o (so_lowmem so) ch ch' key.
Proof.
  intros o ch ch' now key val so m' cas' st sh R R' A S Hs. split.
  - apply store_new_item in S; [|exact Hs]. rewrite <- A in S. eexists. exact (holds_abs o ch' key _ R' S).
  - inversion S as [? ? ? ? E L|? ? ? victim E L Ne Mk Vk Vs Vm|L Ne|X]; subst; try (destruct Hs; discriminate).
    + left. rewrite (sp_store_new _ _ _ _ _ _ _ _ _ _ _ E Hs) in A. exact (same_others o ch ch' key _ R R' A).
    + right. split; [exact L|]. exists victim. split; [exact Vk|].
      rewrite (sp_store_new _ _ _ _ _ _ _ _ _ _ _ E Hs) in A. split.
      * apply gone_abs; [exact R'|]. rewrite A. apply aset_key.
      * intros k Hk Hv. apply same_abs; [exact R|exact R'|]. rewrite A. unfold aset.
        rewrite (beq_neq victim k), (beq_neq key k) by congruence. reflexivity.
Qed.

Lemma execSET_spec : forall o orc n ch pr (name : string) now key val e nx xx get keepttl flags cas withcas os old,
  reachable (ctx_of o) ch -> fine orc -> fits o ch key val -> (0 < now <= INT64_MAX)%Z -> (0 <= e <= INT64_MAX)%Z ->
  flags = match last_flags os with Some x => x mod 2 ^ 32 | None => 0 end ->
  (nx = true <-> In Nx os) -> (xx = true <-> In Xx os) -> (get = true <-> In Get os) ->
  match last_cas os with Some x => withcas = true /\ cas = x | None => withcas = false end ->
  sees (ctx_of o) ch key now old ->
  exists ch' reply evs, reachable (ctx_of o) ch' /\
    prun (ctx_of o) orc n ch (execSET pr (bs name) now key val e nx xx get keepttl flags cas withcas)
      = Ok (ch', List.map Out reply, evs) /\
    set_done o pr name (orc n) now key val os
      (if keepttl then match old with Some v => v_exp v | None => e end else e) ch ch' old reply.
Proof.
  intros o orc n ch pr name now key val e nx xx get keepttl flags cas withcas os old
    R F Ft Hn He Hf Hnx Hxx Hget Hcas So.
  unfold execSET. rewrite prun_ask. cbv beta zeta.
  set (so := mkStoreOpts e 0 cas flags keepttl withcas nx xx (in_lowmem (orc n)) (if get then Some (fun _ => true) else None)).
  assert (Fl : so_flags so < 2 ^ 32).
  { cbn [so so_flags]. rewrite Hf. destruct (last_flags os); [apply N.mod_lt; discriminate|reflexivity]. }
  match goal with |- context [prun _ _ ?m _ (Do _ ?kk)] =>
    destruct (do_store o orc m ch key val so now kk R Ft (proj2 (F m)) Hn (proj2 He) eq_refl Fl)
      as (ch' & st & sh & ev & cas' & R' & E & m' & A & Sp) end.
  rewrite E. cbv beta. clear E. apply sees_item in So; [|exact R].
  assert (X : sp_expires (cabs (ctx_of o) ch) key so now =
    (if keepttl then match old with Some v => v_exp v | None => e end else e)).
  { unfold sp_expires. cbn [so so_expires so_ttl so_keepttl].
    replace (if (e >? 0)%Z then e else if (0 >? 0)%Z then norm (clamp64 (now + 0)) else 0%Z) with e
      by (change (0 >? 0)%Z with false; cbv iota; destruct (Z.gtb_spec e 0); lia).
    rewrite <- So. destruct (live_item (cabs (ctx_of o) ch) key now); destruct keepttl; reflexivity. }
  destruct (in_lowmem (orc n) && op_noevict o) eqn:Lm.
  - (* out of memory *)
    assert (Q : m' = cabs (ctx_of o) ch /\ st = NOMEM /\ sh = []).
    { apply andb_true_iff in Lm. destruct Lm as [L1 L2]. inversion Sp; subst; auto.
      - cbn [so so_lowmem] in *. change (c_noevict (ctx_of o)) with (op_noevict o) in *. rewrite L1, L2 in *. discriminate.
      - change (c_noevict (ctx_of o)) with (op_noevict o) in *. congruence. }
    destruct Q as (Q1 & -> & ->). cbn [flat_map puts]. rewrite prun_error.
    exists ch', out_of_memory. eexists. split; [exact R'|]. split; [reflexivity|].
    unfold set_done. rewrite Lm. split; [|split; discriminate]. intros _. split; [reflexivity|].
    exact (same_all o ch ch' m' R R' A Q1).
  - assert (D : refused (op_usecas o) os old \/ ~ refused (op_usecas o) os old).
    { unfold refused. destruct old as [v|], (last_cas os) as [x|].
      - destruct (op_usecas o); [|left; auto]. destruct (N.eq_dec x (v_cas v)); [right; intros [?|?]; congruence|left; auto].
      - destruct nx; [left; apply Hnx; reflexivity|right; intros Z; apply Hnx in Z; discriminate].
      - left. exact Logic.I.
      - destruct xx; [left; apply Hxx; reflexivity|right; intros Z; apply Hxx in Z; discriminate]. }
    assert (B : st <> NOMEM /\ (st = INSERTED \/ st = REPLACED <-> ~ refused (op_usecas o) os old) /\
      (refused (op_usecas o) os old -> sh = [] /\ (st = match old with Some _ => FOUND | None => NOTFOUND end) /\
         (m' = cabs (ctx_of o) ch \/ live_item (cabs (ctx_of o) ch) key now = None /\ m' = aset (cabs (ctx_of o) ch) key None)) /\
      (~ refused (op_usecas o) os old -> sh = if get then match old with Some v => [(key, v)] | None => [] end else [])).
    { assert (Z : exists m2, sp_store (op_usecas o) (cabs (ctx_of o) ch) (ccas ch (route (ctx_of o) key)) key val so now
        = (m2, cas', st, sh) /\ (m' = m2 \/ st = INSERTED)).
      { inversion Sp; subst; try (eexists; split; [eassumption|auto]; fail).
        - exfalso. cbn [so so_lowmem] in *. change (c_noevict (ctx_of o)) with (op_noevict o) in *.
          match goal with H1 : in_lowmem _ = true, H2 : op_noevict o = true |- _ => rewrite H1, H2 in Lm; discriminate end.
        - discriminate. }
      destruct Z as (m2 & Z & Zm). unfold sp_store in Z. cbn [so so_casop so_cas so_nx so_entry so_xx so_flags] in Z.
      unfold refused. rewrite <- So.
      destruct (live_item (cabs (ctx_of o) ch) key now) as [it|] eqn:Li; cbn [option_map].
      - destruct (last_cas os) as [x|] eqn:Lc.
        + destruct Hcas as [-> ->]. cbn [shown_of v_cas].
          destruct (op_usecas o && (x =? i_cas it)) eqn:U; cbn [negb] in Z.
          * assert (NR : ~ (op_usecas o = false \/ x <> i_cas it)).
            { apply andb_true_iff in U. destruct U as [U1 U2]. apply N.eqb_eq in U2. intros [?|?]; congruence. }
            destruct get; injection Z as <- <- <- <-; (split; [discriminate|]); (split; [tauto|]); (split; [tauto|]); reflexivity.
          * assert (NR : op_usecas o = false \/ x <> i_cas it).
            { apply andb_false_iff in U. destruct U as [U|U]; [auto|]. apply N.eqb_neq in U. auto. }
            injection Z as <- <- <- <-. split; [discriminate|]. split; [|split; [|tauto]].
            -- split; [intros [?|?]; discriminate|tauto].
            -- intros _. split; [reflexivity|]. split; [reflexivity|]. destruct Zm; [auto|discriminate].
        + subst withcas. destruct nx.
          * pose proof (proj1 Hnx eq_refl) as Nr. injection Z as <- <- <- <-. split; [discriminate|]. split; [|split; [|tauto]].
            -- split; [intros [?|?]; discriminate|tauto].
            -- intros _. split; [reflexivity|]. split; [reflexivity|]. destruct Zm; [auto|discriminate].
          * assert (NR : ~ In Nx os) by (intros Q; apply Hnx in Q; discriminate).
            destruct get; injection Z as <- <- <- <-; (split; [discriminate|]); (split; [tauto|]); (split; [tauto|]); reflexivity.
      - destruct (last_cas os) as [x|] eqn:Lc.
        + destruct Hcas as [-> ->]. rewrite orb_true_r in Z. injection Z as <- <- <- <-. split; [discriminate|]. split; [|split; [|tauto]].
          -- split; [intros [?|?]; discriminate|tauto].
          -- intros _. split; [reflexivity|]. split; [reflexivity|]. destruct Zm; [auto|discriminate].
        + subst withcas. rewrite orb_false_r in Z. destruct xx.
          * pose proof (proj1 Hxx eq_refl) as Nr. injection Z as <- <- <- <-. split; [discriminate|]. split; [|split; [|tauto]].
            -- split; [intros [?|?]; discriminate|tauto].
            -- intros _. split; [reflexivity|]. split; [reflexivity|]. destruct Zm; [auto|discriminate].
          * assert (NR : ~ In Xx os) by (intros Q; apply Hxx in Q; discriminate).
            injection Z as <- <- <- <-. split; [discriminate|]. split; [tauto|]. split; [tauto|]. destruct get; reflexivity. }
    destruct B as (B1 & B2 & B3 & B4).
    assert (G : exists reply,
       prun (ctx_of o) orc (S (S n)) ch'
         (puts (flat_map (fun p => set_entry pr (bs name) (snd p)) sh)
            match st with
            | NOMEM => error ERR_OUT_OF_MEMORY
            | _ =>
                if get then
                  match sh with
                  | _ :: _ => Done
                  | [] => if is_pg pr then answer ([PRowDesc [bs "value"]] ++ complete (tag (bs name) (bs "0")))
                          else answer [WNull]
                  end
                else
                  let stored := match st with INSERTED | REPLACED => true | _ => false end in
                  answer (by_proto pr
                    (if stored then [raw_line "STORED"]
                     else match st with
                          | FOUND => [raw_line "EXISTS"]
                          | _ => [WRaw (bs "NOT_FOUND" ++ crlf ++ [0])]
                          end)
                    (complete (tag (bs name) (bs (if stored then "1" else "0"))))
                    (if stored then http_ok "Stored" else http_404)
                    (if stored then [WString (bs "OK")] else [WNull]))
            end) = Ok (ch', List.map Out reply, []) /\
       ((In Get os -> reply = value_reply pr name (if get then match sh with (_, v) :: _ => Some v | [] => None end else None)) /\
        (~ In Get os -> reply = if match st with INSERTED | REPLACED => true | _ => false end then stored_reply pr name
                                else refused_reply pr name (match st with FOUND => Some (mkView [] 0 0 0) | _ => None end)))).
    { destruct get.
      - assert (Gi : In Get os) by (apply Hget; reflexivity).
        assert (Hsh : sh = [] \/ exists v, sh = [(key, v)]).
        { destruct D as [D|D]; [left; apply (B3 D)|]. rewrite (B4 D). destruct old as [v|]; eauto. }
        destruct Hsh as [->|[v ->]].
        + exists (value_reply pr name None). split; [|split; [reflexivity|tauto]]. cbn [flat_map puts].
          destruct st; try contradiction; destruct pr; cbn [is_pg by_proto]; rewrite prun_answer; reflexivity.
        + exists (value_reply pr name (Some v)). split; [|split; [reflexivity|tauto]].
          assert (Z : flat_map (fun p => set_entry pr (bs name) (snd p)) [(key, v)] = value_reply pr name (Some v)).
          { destruct pr; reflexivity. }
          rewrite Z. destruct st; try contradiction; apply prun_answer.
      - assert (Gi : ~ In Get os) by (intros Q; apply Hget in Q; discriminate).
        assert (Hsh : sh = []) by (destruct D as [D|D]; [apply (B3 D)|apply (B4 D)]). subst sh. cbn [flat_map puts].
        eexists. split; [|split; [intros Q; contradiction|intros _; reflexivity]].
        destruct st; try contradiction; rewrite prun_answer; destruct pr; reflexivity. }
    destruct G as (reply & G1 & G2 & G3). cbv zeta in G1. cbv zeta. rewrite G1.
    exists ch', reply. eexists. split; [exact R'|]. split; [reflexivity|].
    unfold set_done. rewrite Lm. split; [discriminate|]. split; intros _ Dr.
    + destruct (B3 Dr) as (C1 & C2 & C3). split; [|split; [|split]].
      * intros Gi. rewrite (G2 Gi), C1. destruct get; reflexivity.
      * intros Gi. rewrite (G3 Gi), C2. destruct old; destruct pr; reflexivity.
      * destruct C3 as [C3|[C3 C4]].
        -- intros t v _. apply (same_all o ch ch' m' R R' A C3).
        -- apply same_from_abs; [exact R|exact R'|]. intros t Ht. rewrite (dead_later _ _ _ _ C3 Ht).
           unfold live_item. rewrite A, C4, aset_key. reflexivity.
      * destruct C3 as [C3|[C3 C4]].
        -- intros k _. apply (same_all o ch ch' m' R R' A C3).
        -- rewrite C4 in A. exact (same_others o ch ch' key None R R' A).
    + pose proof (B4 Dr) as C1. pose proof (proj2 B2 Dr) as C2. split; [|split].
      * intros Gi. rewrite (G2 Gi), C1. apply Hget in Gi. rewrite Gi. destruct old; reflexivity.
      * intros Gi. rewrite (G3 Gi). destruct C2 as [-> | ->]; reflexivity.
      * destruct (stored_at o ch ch' now key val so m' cas' st sh R R' A Sp C2) as [[tok H1] H2].
        split; [|exact H2]. exists tok. rewrite X in H1. cbn [so so_flags] in H1. rewrite Hf in H1. exact H1.
Qed.

Lemma last_expire_in : forall os u z, last_expire os = Some (u, z) -> In (Expire u z) os.
Proof.
  induction os as [|x os IH]; intros u z H; [discriminate|].
  destruct x; cbn [last_expire] in H; try (right; apply IH; exact H).
  destruct (last_expire os) as [[u' z']|] eqn:E; [right; apply IH; exact H|]. injection H as -> ->. left. reflexivity.
Qed.
Lemma expires_at_range : forall pr orc now u z e, (0 < now <= INT64_MAX)%Z -> fine orc ->
  (pr <> MEMCACHE -> (0 < z)%Z) -> (pr = MEMCACHE -> forall a b, (in_unix (orc a) - in_unix (orc b) < now)%Z) ->
  expires_at pr orc now u z e -> (0 < e <= INT64_MAX)%Z.
Proof.
  intros pr orc now u z e Hn F P St H. unfold expires_at in H.
  assert (Pz : forall x, (0 < x -> 0 < x * unit_ns u)%Z) by (intros x Hx; destruct u; unfold unit_ns; lia).
  set (d := Z.min INT64_MAX (z * unit_ns u)) in H.
  assert (Hd : (0 < z -> 0 < d <= INT64_MAX)%Z).
  { intros Hz. specialize (Pz z Hz). subst d. unfold INT64_MAX in *. lia. }
  clearbody d. cbv zeta in H. unfold INT64_MAX in *.
  destruct pr; try (specialize (P ltac:(discriminate)); destruct u; lia).
  destruct (Z.leb_spec z 0); [lia|]. specialize (Hd ltac:(lia)).
  destruct u; try lia; (destruct (Z.leb_spec d thirty_days); [lia|]); destruct H as (a & b & ->);
    destruct (Z.ltb_spec (in_unix (orc a)) d); try lia;
    specialize (St eq_refl b a); lia.
Qed.
