(** C69: which counters of STATS a command increments. *)
From Verif Require Import Base Types Clamp Entry EntryProofs Hash Map MapProofs MapInv Shard
  Spec Trace ShardProofs ScanProofs LoopProofs Cache Refine Reach Observe PropCache PropItems
  Text IntText IntTextProofs CmdTable CmdTableProofs Prog CmdSpec CmdSpec2 Cmds CmdsProofs CmdsProofs2 CmdsProofs3
  PropCmds PropCmds2 Stats StatCmd.
From Coq Require Import String.
Local Open Scope N_scope.
Notation length := List.length.

Lemma plog_puts : forall c orc ws n ch k, plog c orc n ch (puts ws k) = plog c orc n ch k.
Proof. intros c orc ws n ch k. induction ws as [|w r IH]; cbn [puts plog]; [reflexivity|exact IH]. Qed.
Lemma plog_answer : forall c orc ws n ch, plog c orc n ch (answer ws) = [].
Proof. intros. unfold answer. rewrite plog_puts. reflexivity. Qed.
Lemma plog_do : forall c (orc : nat -> input) n ch x k ch1 r ev, Cache.step c (in_env (orc n)) ch x = Ok (ch1, r, ev) ->
  plog c orc n ch (Do x k) = (x, r) :: plog c orc (S n) ch1 (k r).
Proof. intros c orc n ch x k ch1 r ev H. cbn [plog]. rewrite H. reflexivity. Qed.

Lemma step_look : forall o (orc : nat -> input) n ch key b cb now old, reachable (ctx_of o) ch -> (0 < now)%Z ->
  cb = None \/ cb = just_look -> sees (ctx_of o) ch key now old ->
  exists ch' ev, reachable (ctx_of o) ch' /\ keeps o now ch ch' key /\
    Cache.step (ctx_of o) (in_env (orc n)) ch (Load key (mkLoadOpts b cb) now) =
      Ok (ch', match old with
            | Some v => RStatus FOUND (match cb with None => [] | Some _ => [(key, v)] end)
            | None => RStatus NOTFOUND [] end, ev).
Proof.
  intros o orc n ch key b cb now old R P C So.
  destruct (load_look o orc n ch key b cb now (fun _ => Done) old R P C So) as (ch' & ev & R' & K & E).
  assert (U : update_ok key (lo_entry (mkLoadOpts b cb))) by (destruct C as [-> | ->]; [apply plain_ok|apply look_ok]).
  destruct (reachable_step (ctx_of o) (opts_load o) (opts_shards o) ch (in_env (orc n)) (Load key (mkLoadOpts b cb) now) R U)
    as (ch1 & r & ev1 & E1 & R1 & _ & _).
  destruct (made_load o ch (in_env (orc n)) key _ now ch1 r ev1 R U E1) as (_ & st & sh & m' & cas' & -> & S & A & _).
  cbn [prun] in E. rewrite E1 in E. injection E; intros _ Ec. subst ch1.
  exists ch', ev1. split; [exact R'|]. split; [exact K|]. rewrite E1. f_equal. f_equal. f_equal.
  rewrite (resolve_pos _ _ P) in S. apply sees_item in So; [|exact R]. unfold sp_load in S.
  destruct (live_item (cabs (ctx_of o) ch) key now) as [it|]; cbn [option_map] in So; subst old.
  - destruct C as [-> | ->]; cbn [lo_entry lo_notouch just_look] in S; injection S; intros; subst; reflexivity.
  - injection S; intros; subst; reflexivity.
Qed.

(** *** Vocabulary *)
(** How often a counter is incremented. *)
Definition stat_dec : forall a b : stat, {a = b} + {a <> b}.
Proof. repeat decide equality. Defined.
Definition times (s : stat) (l : list stat) : nat := count_occ stat_dec l s.
(** Whether there is something. *)
Definition some {A} (x : option A) : bool := match x with Some _ => true | None => false end.

(** *** C69 *)
(** GET counts one get, and a hit exactly if the key holds an item; a malformed
    GET counts one get. *)
Theorem C69_get : forall o orc cf n ch pr a0 key old,
  reachable (ctx_of o) ch -> fine orc -> sees (ctx_of o) ch key (in_now (orc n)) old ->
  counted (ctx_of o) orc cf n ch 1 pr [a0; key] = [SK KGet; SK (if some old then KHit else KMiss)].
Proof.
  intros o orc cf n ch pr a0 key old R F So. unfold counted. cbn [cmd_func nth counts cmdGET plog].
  destruct (F n) as [[Hn _] _]. rewrite plog_puts.
  destruct (step_look o orc (S n) ch key false just_look _ old R (proj1 Hn) (or_intror eq_refl) So) as (ch' & ev & R' & K & E).
  rewrite (plog_do _ _ _ _ _ _ _ _ _ E). unfold count_get. cbn [List.map snd].
  destruct old as [v|]; cbn [hit_or_miss some just_look]; rewrite plog_puts, plog_answer; reflexivity.
Qed.
Theorem C69_get_malformed : forall o orc cf n ch pr args, length args <> 2%nat ->
  counted (ctx_of o) orc cf n ch 1 pr args = [SK KGet].
Proof.
  intros o orc cf n ch pr args H. unfold counted. cbn [cmd_func nth counts].
  destruct args as [|a [|b [|d r]]]; cbn [length] in H; try lia; reflexivity.
Qed.

(** MGET counts a get for each key, and a hit or a miss. *)
Lemma mget_loop_log : forall o orc pr kd now, (0 < now)%Z -> forall keys n ch cnt k l, reachable (ctx_of o) ch ->
  (forall n' ch' cnt', plog (ctx_of o) orc n' ch' (k cnt') = []) ->
  present o ch now keys l ->
  flat_map (fun x => [SK KGet; hit_or_miss (snd x)]) (plog (ctx_of o) orc n ch (mget_loop pr kd now keys cnt k)) =
  flat_map (fun b : bool => [SK KGet; SK (if b then KHit else KMiss)]) l.
Proof.
  intros o orc pr kd now P. induction keys as [|key keys IH]; intros n ch cnt k l R Hk H; cbn [mget_loop].
  - inversion H; subst. rewrite Hk. reflexivity.
  - inversion H as [|? b ? l' Hb Hl]; subst. destruct (sees_some o ch key now R) as [old So].
    destruct (step_look o orc n ch key false just_look now old R P (or_intror eq_refl) So) as (ch1 & ev & R1 & K & E).
    rewrite (plog_do _ _ _ _ _ _ _ _ _ E). cbn [flat_map snd].
    pose proof (unchanged_all _ _ _ _ _ (kp_same _ _ _ _ _ K)) as Al.
    assert (Hl' : present o ch1 now keys l').
    { eapply Forall2_imp; [|exact Hl]. intros x y Q. cbn in Q. rewrite Q. apply all_same_live. exact Al. }
    pose proof (live_of o ch now key old R So) as Lv. rewrite <- Hb in Lv.
    destruct old as [v|]; cbn [just_look].
    + rewrite plog_puts, (IH _ _ _ _ l' R1 Hk Hl'). destruct b; [reflexivity|]. pose proof (proj1 Lv eq_refl); discriminate.
    + rewrite plog_puts, plog_puts, (IH _ _ _ _ l' R1 Hk Hl'). destruct b; [|reflexivity]. pose proof (proj2 Lv eq_refl). discriminate.
Qed.
Theorem C69_mget : forall o orc cf n ch pr a0 keys l i, i = 3%nat \/ i = 4%nat ->
  reachable (ctx_of o) ch -> fine orc -> keys <> [] -> present o ch (in_now (orc n)) keys l ->
  counted (ctx_of o) orc cf n ch i pr (a0 :: keys) =
    flat_map (fun b : bool => [SK KGet; SK (if b then KHit else KMiss)]) l.
Proof.
  intros o orc cf n ch pr a0 keys l i Hi R F Ne H. destruct (F n) as [[Hn _] _].
  assert (Q : count_mget (plog (ctx_of o) orc n ch (cmdMGET pr (a0 :: keys))) =
    flat_map (fun b : bool => [SK KGet; SK (if b then KHit else KMiss)]) l).
  { unfold cmdMGET. destruct keys as [|k0 keys]; [congruence|]. cbn [plog List.tl]. rewrite plog_puts.
    unfold count_mget. apply mget_loop_log; try assumption; [lia|]. intros. apply plog_answer. }
  destruct Hi as [-> | ->]; exact Q.
Qed.

(** TTL and PTTL count a hit or a miss, but no get. *)
Theorem C69_ttl : forall o orc cf n ch pr a0 key old i, i = 5%nat \/ i = 6%nat ->
  reachable (ctx_of o) ch -> fine orc -> sees (ctx_of o) ch key (in_now (orc n)) old ->
  counted (ctx_of o) orc cf n ch i pr [a0; key] = [SK (if some old then KHit else KMiss)].
Proof.
  intros o orc cf n ch pr a0 key old i Hi R F So. destruct (F n) as [[Hn _] _].
  assert (Q : count_ttl (plog (ctx_of o) orc n ch (cmdTTL pr [a0; key])) = [SK (if some old then KHit else KMiss)]).
  { cbn [cmdTTL plog]. rewrite plog_puts.
    destruct (step_look o orc (S n) ch key true just_look _ old R (proj1 Hn) (or_intror eq_refl) So) as (ch' & ev & R' & K & E).
    rewrite (plog_do _ _ _ _ _ _ _ _ _ E). unfold count_ttl. cbn [List.map snd].
    destruct old as [v|]; cbn [hit_or_miss some just_look]; rewrite !plog_puts, plog_answer; reflexivity. }
  destruct Hi as [-> | ->]; exact Q.
Qed.

(** TOUCH counts a touch for each key, and a hit or a miss. *)
Lemma found_loop_log : forall o orc nt now, (0 < now)%Z -> forall keys n ch cnt k l, reachable (ctx_of o) ch ->
  (forall n' ch' cnt', plog (ctx_of o) orc n' ch' (k cnt') = []) ->
  present o ch now keys l ->
  count_touch (plog (ctx_of o) orc n ch (found_loop nt now keys cnt k)) =
  flat_map (fun b : bool => [STouch; if b then STouchHit else STouchMiss]) l.
Proof.
  intros o orc nt now P. induction keys as [|key keys IH]; intros n ch cnt k l R Hk H; cbn [found_loop].
  - inversion H; subst. rewrite Hk. reflexivity.
  - inversion H as [|? b ? l' Hb Hl]; subst. destruct (sees_some o ch key now R) as [old So].
    destruct (step_look o orc n ch key nt None now old R P (or_introl eq_refl) So) as (ch1 & ev & R1 & K & E).
    rewrite (plog_do _ _ _ _ _ _ _ _ _ E). unfold count_touch in *. cbn [flat_map snd].
    pose proof (unchanged_all _ _ _ _ _ (kp_same _ _ _ _ _ K)) as Al.
    assert (Hl' : present o ch1 now keys l').
    { eapply Forall2_imp; [|exact Hl]. intros x y Q. cbn in Q. rewrite Q. apply all_same_live. exact Al. }
    pose proof (live_of o ch now key old R So) as Lv. rewrite <- Hb in Lv.
    destruct old as [v|]; rewrite (IH _ _ _ _ l' R1 Hk Hl').
    + destruct b; [reflexivity|]. pose proof (proj1 Lv eq_refl); discriminate.
    + destruct b; [|reflexivity]. pose proof (proj2 Lv eq_refl). discriminate.
Qed.
Theorem C69_touch : forall o orc cf n ch pr a0 keys l,
  reachable (ctx_of o) ch -> fine orc -> keys <> [] -> present o ch (in_now (orc n)) keys l ->
  counted (ctx_of o) orc cf n ch 22 pr (a0 :: keys) =
    flat_map (fun b : bool => [STouch; if b then STouchHit else STouchMiss]) l.
Proof.
  intros o orc cf n ch pr a0 keys l R F Ne H. destruct (F n) as [[Hn _] _].
  unfold counted. cbn [cmd_func nth counts]. unfold cmdTOUCH. destruct keys as [|k0 keys]; [congruence|]. cbn [plog List.tl].
  apply found_loop_log; try assumption; [lia|]. intros. apply plog_answer.
Qed.

(** DEL counts a hit for each item it removes and a miss for each other key. *)
Lemma step_delete : forall o (orc : nat -> input) n ch key now, reachable (ctx_of o) ch -> (0 < now)%Z ->
  exists ch' ev (b : bool) sh, reachable (ctx_of o) ch' /\ (b = true <-> live o ch now key) /\
    gone o ch' key /\ (forall x, x <> key -> same_at (ctx_of o) ch ch' x) /\
    Cache.step (ctx_of o) (in_env (orc n)) ch (Delete key None now) =
      Ok (ch', RStatus (if b then DELETED else NOTFOUND) sh, ev).
Proof.
  intros o orc n ch key now R P.
  destruct (Cache.step (ctx_of o) (in_env (orc n)) ch (Delete key None now)) as [[[ch1 r] ev1]|t] eqn:E1.
  2:{ destruct (delete_spec o orc n ch key now (fun _ => Done) R P) as (ch' & ev & b & sh & _ & _ & _ & _ & E).
      cbn [prun] in E. rewrite E1 in E. discriminate. }
  destruct (delete_spec o orc n ch key now
    (fun r => match r with RStatus DELETED _ => Put (WUint 1) Done | RStatus NOTFOUND _ => Put (WUint 2) Done | _ => Done end) R P)
    as (ch' & ev & b & sh & R' & B & G & Sa & E).
  cbn [prun] in E. rewrite E1 in E.
  exists ch', ev1, b. destruct r as [st sh1| | | | |]; try (destruct b; discriminate).
  exists sh1. split; [exact R'|]. split; [exact B|]. split; [exact G|]. split; [exact Sa|].
  destruct b, st; cbn [prun andthen] in E; try discriminate; injection E; intros; subst; reflexivity.
Qed.
Lemma del_loop_log : forall o orc now, (0 < now)%Z -> forall keys n ch cnt k, reachable (ctx_of o) ch ->
  (forall n' ch' cnt', plog (ctx_of o) orc n' ch' (k cnt') = []) ->
  exists ks, NoDup ks /\ (forall x, In x ks <-> In x keys /\ live o ch now x) /\
    let l := count_del (plog (ctx_of o) orc n ch (del_loop now keys cnt k)) in
    times SDelHit l = length ks /\ (times SDelHit l + times SDelMiss l = length keys)%nat /\ length l = length keys.
Proof.
  intros o orc now P. induction keys as [|key keys IH]; intros n ch cnt k R Hk; cbn [del_loop].
  - exists []. split; [constructor|]. split; [intro x; cbn; tauto|]. rewrite Hk. cbn. auto.
  - destruct (step_delete o orc n ch key now R P) as (ch1 & ev & b & sh & R1 & B & G & Sa & E).
    rewrite (plog_do _ _ _ _ _ _ _ _ _ E). cbv beta iota.
    destruct (IH (S n) ch1 (match (if b then DELETED else NOTFOUND) with DELETED => cnt + 1 | _ => cnt end) k R1 Hk) as (ks & Nd & Ik & L1 & L2 & L3).
    assert (Nk : ~ In key ks).
    { intros H. apply Ik in H. destruct H as [_ [v V]]. specialize (G now).
      pose proof (sees_same _ _ _ _ _ _ R1 V G). discriminate. }
    assert (Lx : forall x, x <> key -> (live o ch1 now x <-> live o ch now x)).
    { intros x Hx. unfold live. split; intros [v V]; exists v; apply (Sa x Hx now (Some v)); exact V. }
    exists (if b then key :: ks else ks).
    split; [destruct b; [constructor; assumption|assumption]|]. split.
    { intros x. destruct (beq key x) eqn:Ex.
      - apply beq_eq in Ex. subst x. split.
        + intros H. split; [left; reflexivity|]. apply B. destruct b; [reflexivity|contradiction].
        + intros [_ H]. apply B in H. rewrite H. left. reflexivity.
      - assert (x <> key) by (intros ->; rewrite beq_refl in Ex; discriminate).
        transitivity (In x ks). { destruct b; cbn [In]; intuition congruence. }
        rewrite Ik, Lx by assumption. cbn [In]. intuition congruence. }
    cbv zeta. unfold count_del, times in *. cbn [List.map snd].
    destruct b; cbn [count_occ length]; repeat (destruct (stat_dec _ _); try congruence); lia.
Qed.
Theorem C69_del : forall o orc cf n ch pr a0 keys,
  reachable (ctx_of o) ch -> fine orc -> keys <> [] ->
  exists ks, NoDup ks /\ (forall k, In k ks <-> In k keys /\ live o ch (in_now (orc n)) k) /\
    let l := counted (ctx_of o) orc cf n ch 2 pr (a0 :: keys) in
    times SDelHit l = length ks /\ (times SDelHit l + times SDelMiss l = length keys)%nat /\ length l = length keys.
Proof.
  intros o orc cf n ch pr a0 keys R F Ne. destruct (F n) as [[Hn _] _].
  unfold counted. cbn [cmd_func nth counts]. unfold cmdDEL. destruct keys as [|k0 keys]; [congruence|]. cbn [plog List.tl].
  apply del_loop_log; try assumption; [lia|]. intros. apply plog_answer.
Qed.

(** INCR, DECR and their kin count a hit when the counter was changed, a miss
    when it is missing and the protocol is Memcache's, and nothing otherwise. *)
Lemma step_store : forall o (orc : nat -> input) n ch key val so now, reachable (ctx_of o) ch -> fits o ch key val ->
  mem_ok (orc n) -> (0 < now <= INT64_MAX)%Z -> (so_expires so <= INT64_MAX)%Z -> so_ttl so = 0%Z -> so_flags so < 2 ^ 32 ->
  exists ch' st sh ev cas' m', Cache.step (ctx_of o) (in_env (orc n)) ch (Store key val so now) = Ok (ch', RStatus st sh, ev) /\
    sp_store_step (c_usecas (ctx_of o)) (c_noevict (ctx_of o)) true
      (fun k => route (ctx_of o) k = route (ctx_of o) key)
      (cabs (ctx_of o) ch) (ccas ch (route (ctx_of o) key)) key val so now m' cas' st sh.
Proof.
  intros o orc n ch key val so now R F M P X T Fl.
  assert (K : call_ok (ctx_of o) (in_env (orc n)) (cabs (ctx_of o) ch) (Store key val so now)).
  { cbn [call_ok]. rewrite resolve_pos by lia. split; [|split; [apply M|exact (ft_room _ _ _ _ F)]].
    constructor; try (apply F); try assumption; [rewrite T; unfold i64_ok, INT64_MIN, INT64_MAX; lia|].
    unfold i64_ok, INT64_MIN, INT64_MAX in *. lia. }
  destruct (reachable_step (ctx_of o) (opts_load o) (opts_shards o) ch (in_env (orc n)) (Store key val so now) R K)
    as (ch' & r & ev & E & R' & _ & _).
  destruct (made_store o ch (in_env (orc n)) key val so now ch' r ev R K E) as (_ & st & sh & m' & cas' & -> & S & A & _).
  rewrite (proj2 (M (route (ctx_of o) key))) in S. rewrite resolve_pos in S by lia.
  exists ch', st, sh, ev, cas', m'. split; [exact E|exact S].
Qed.
(** What changing a counter by [d] counts, like count_done of CmdSpec.v. *)
Inductive count_stat (pr : proto) (uns decr : bool) (d : Z) : option view -> list stat -> Prop :=
| stat_missing : pr = MEMCACHE -> count_stat pr uns decr d None [if decr then SDecrMiss else SIncrMiss]
| stat_text : forall v, (forall x, ~ number uns (v_val v) x) -> count_stat pr uns decr d (Some v) []
| stat_over : forall old x, pr <> MEMCACHE -> counter uns old x -> ~ in_range uns (x + d) ->
    count_stat pr uns decr d old []
| stat_ok : forall old x, counter uns old x -> (pr = MEMCACHE -> old <> None) ->
    (pr <> MEMCACHE -> in_range uns (x + d)) ->
    count_stat pr uns decr d old [if decr then SDecrHit else SIncrHit].

Lemma plain_status : forall uc ne ok same m cas key val e cas0 flags now m' cas' st sh,
  sp_store_step uc ne ok same m cas key val (mkStoreOpts e 0 cas0 flags false false false false false None) now m' cas' st sh ->
  ok = true -> st = INSERTED \/ st = REPLACED.
Proof.
  intros uc ne ok same m cas key val e cas0 flags now m' cas' st sh S T. subst ok.
  inversion S as [? ? ? ? H1 H2|? ? ? ? ? H1 H2|H1|H1]; subst; try discriminate; auto.
  unfold sp_store in H1. cbn [so_casop so_nx so_entry so_xx orb] in H1.
  destruct (live_item m key now); injection H1 as _ _ <- <-; auto.
Qed.

Lemma exec_count_log : forall o orc n ch pr key (uns decr : bool) d name old,
  reachable (ctx_of o) ch -> fine orc ->
  (forall s, bytes_ok s -> (length s <= 20)%nat -> fits o ch key s) -> in_range uns d ->
  sees (ctx_of o) ch key (in_now (orc n)) old ->
  count_stat pr uns decr (if decr then - d else d)%Z old
    (count_incr pr decr (plog (ctx_of o) orc n ch (execINCRDECR pr key (delta_of uns d) decr uns name))).
Proof.
  intros o orc n ch pr key uns decr d name old R F Ft Hd So.
  unfold execINCRDECR. cbn [plog]. destruct (F n) as [[Hn _] _]. set (now := in_now (orc n)) in *.
  destruct (step_look o orc (S n) ch key false just_look now old R (proj1 Hn) (or_intror eq_refl) So) as (ch1 & ev & R1 & K & E).
  rewrite E. clear E. destruct (F (S (S n))) as [_ M2].
  assert (Ft1 : forall s, bytes_ok s -> (length s <= 20)%nat -> fits o ch1 key s)
    by (intros; eapply keeps_fits; [exact K|auto]).
  assert (Fin : forall x e flags cas kk a, in_range uns x -> counter uns old x -> (pr = MEMCACHE -> old <> None) ->
    (pr <> MEMCACHE -> in_range uns (x + if decr then - d else d)%Z) ->
    (0 <= e <= INT64_MAX)%Z -> flags < 2 ^ 32 ->
    (forall n ch st sh, st = INSERTED \/ st = REPLACED -> plog (ctx_of o) orc n ch (kk (RStatus st sh)) = []) ->
    count_stat pr uns decr (if decr then - d else d)%Z old
      (count_incr pr decr (a :: plog (ctx_of o) orc (S (S n)) ch1
        (Do (Store key (print_delta (fst (apply_delta decr (delta_of uns x) (delta_of uns d))))
           (mkStoreOpts e 0 cas flags false false false false false None) now) kk)))).
  { intros x e flags cas kk a Hx Hc Hm1 Hm2 He Hf Hk.
    destruct (apply_delta_spec uns decr x d Hx Hd) as [A1 A2]. rewrite A1.
    set (y := wrapped uns _). assert (Hy : in_range uns y) by apply wrapped_range.
    destruct (print_delta_text uns y Hy) as (P1 & P2 & P3).
    destruct (step_store o orc (S (S n)) ch1 key (print_delta (delta_of uns y)) (mkStoreOpts e 0 cas flags false false false false false None) now
      R1 (Ft1 _ P2 P3) M2 Hn (proj2 He) eq_refl Hf) as (ch2 & st & sh & ev2 & cas' & m' & E & Sp).
    apply plain_status in Sp; [|reflexivity].
    rewrite (plog_do _ _ _ _ _ _ _ _ _ E), Hk by exact Sp.
    replace (count_incr pr decr _) with [if decr then SDecrHit else SIncrHit].
    - eapply stat_ok; eassumption.
    - unfold count_incr. destruct a as [? [[] ?| | | | |]]; destruct Sp as [-> | ->]; reflexivity. }
  assert (Fk : forall y n ch st sh, st = INSERTED \/ st = REPLACED ->
    plog (ctx_of o) orc n ch ((fun r2 => match r2 with
              | RStatus NOMEM _ => error ERR_OUT_OF_MEMORY
              | RStatus INSERTED _ | RStatus REPLACED _ =>
                  if is_pg pr then answer (simple_row (bs "value") (print_delta y) name)
                  else answer (write_delta y :: if is_mc pr then [WRaw crlf] else [])
              | _ => Fail AssertFail
              end) (RStatus st sh)) = []).
  { intros y n0 ch0 st sh [-> | ->]; destruct (is_pg pr); apply plog_answer. }
  destruct old as [v|]; unfold just_look; cbv beta iota zeta.
  - cbn [andb]. destruct (read_delta uns (v_val v)) as [x0|] eqn:Rd.
    + destruct (read_number _ _ _ Rd) as (x & -> & Hx & Nx).
      destruct (apply_delta_spec uns decr x d Hx Hd) as [A1 A2].
      pose proof (live_args o ch key now v R So) as Ao. cbn [andb negb].
      destruct (apply_delta decr (delta_of uns x) (delta_of uns d)) as [y ov] eqn:Ad. cbn [fst snd] in *.
      destruct (ov && negb (is_mc pr)) eqn:Ov.
      * unfold error. cbn [plog count_incr]. apply andb_true_iff in Ov. destruct Ov as [-> Mc].
        apply stat_over with (x := x); [destruct pr; [discriminate Mc|discriminate..]|exact Nx|apply A2; reflexivity].
      * match goal with |- context [Do _ ?kk] => specialize (Fin x (v_exp v) (v_flags v) (v_cas v) kk
          (Load key (mkLoadOpts false (Some (fun _ => None))) now, RStatus FOUND [(key, v)]) Hx Nx ltac:(discriminate)) end. rewrite Ad in Fin. cbn [fst] in Fin.
        apply Fin; [| | |apply Fk].
        -- intros Pm. destruct (in_range_dec uns (x + (if decr then - d else d))) as [I|I]; [exact I|].
           apply A2 in I. rewrite I in Ov. destruct pr; [congruence|discriminate Ov..].
        -- split; [eapply exp_nonneg; [exact R|exact So]|exact (ao_exp _ _ _ _ _ Ao)].
        -- exact (ao_flags _ _ _ _ _ Ao).
    + cbn [andb].
      assert (T : forall n ch, plog (ctx_of o) orc n ch (if is_mc pr then answer [raw_line "CLIENT_ERROR cannot increment or decrement non-numeric value"] else error ERR_INVALID_INTEGER) = [])
        by (intros; destruct (is_mc pr); reflexivity).
      rewrite T. cbn [count_incr]. apply stat_text. intros x Nx. apply number_read in Nx. destruct Nx as [Nx _]. congruence.
  - cbn [andb negb]. destruct (is_mc pr) eqn:Mc.
    + rewrite plog_answer. cbn [count_incr]. rewrite Mc. apply stat_missing. destruct pr; [reflexivity|discriminate..].
    + assert (H0 : in_range uns 0%Z) by (destruct uns; unfold in_range; lia).
      destruct (apply_delta_spec uns decr 0 d H0 Hd) as [A1 A2].
      replace (if uns then Unsigned 0 else Signed 0) with (delta_of uns 0%Z) by (destruct uns; reflexivity).
      destruct (apply_delta decr (delta_of uns 0%Z) (delta_of uns d)) as [y ov] eqn:Ad. cbn [fst snd] in *.
      destruct ov; cbn [andb negb].
      * unfold error. cbn [plog count_incr]. rewrite Mc.
        apply stat_over with (x := 0%Z); [destruct pr; discriminate|reflexivity|apply A2; reflexivity].
      * match goal with |- context [Do _ ?kk] => specialize (Fin 0%Z 0%Z 0 0 kk
          (Load key (mkLoadOpts false (Some (fun _ => None))) now, RStatus NOTFOUND []) H0 eq_refl) end. rewrite Ad in Fin. cbn [fst] in Fin.
        apply Fin; [| | | |apply Fk].
        -- intros ->. discriminate.
        -- intros Pm. destruct (in_range_dec uns (0 + (if decr then - d else d))) as [I|I]; [exact I|]. apply A2 in I. discriminate.
        -- unfold INT64_MAX. lia.
        -- reflexivity.
Qed.
Theorem C69_incrby : forall o orc cf n ch pr a0 key dl i (decr : bool) d old,
  let uns := starts_u a0 in
  In (i, decr) [(24, false); (25, true); (28, false); (29, true)]%nat ->
  reachable (ctx_of o) ch -> fine orc ->
  (forall s, bytes_ok s -> (length s <= 20)%nat -> fits o ch key s) -> number uns dl d ->
  sees (ctx_of o) ch key (in_now (orc n)) old ->
  count_stat pr uns decr (if decr then - d else d)%Z old (counted (ctx_of o) orc cf n ch i pr [a0; key; dl]).
Proof.
  intros o orc cf n ch pr a0 key dl i decr d old uns Hi R F Ft Nd So.
  apply number_read in Nd. destruct Nd as [E B].
  assert (Q : forall name, count_stat pr uns decr (if decr then - d else d)%Z old
    (count_incr pr decr (plog (ctx_of o) orc n ch (cmdINCRDECRBY pr [a0; key; dl] decr name)))).
  { intro name. unfold cmdINCRDECRBY. fold uns. rewrite E. apply exec_count_log; assumption. }
  destruct Hi as [Hi|[Hi|[Hi|[Hi|[]]]]]; injection Hi as <- <-; apply Q.
Qed.
Theorem C69_incr : forall o orc cf n ch pr a0 key i (decr : bool) old,
  let uns := starts_u a0 in
  In (i, decr) [(26, false); (27, true); (30, false); (31, true)]%nat ->
  reachable (ctx_of o) ch -> fine orc ->
  (forall s, bytes_ok s -> (length s <= 20)%nat -> fits o ch key s) ->
  sees (ctx_of o) ch key (in_now (orc n)) old ->
  count_stat pr uns decr (if decr then - 1 else 1)%Z old (counted (ctx_of o) orc cf n ch i pr [a0; key]).
Proof.
  intros o orc cf n ch pr a0 key i decr old uns Hi R F Ft So.
  assert (Q : forall name, count_stat pr uns decr (if decr then - 1 else 1)%Z old
    (count_incr pr decr (plog (ctx_of o) orc n ch (cmdINCRDECR pr [a0; key] decr name)))).
  { intro name. unfold cmdINCRDECR. fold uns.
    replace (if uns then Unsigned 1 else Signed 1) with (delta_of uns 1%Z) by (destruct uns; reflexivity).
    apply (exec_count_log o orc n ch pr key uns decr 1%Z name old); try assumption.
    destruct uns; unfold in_range; lia. }
  destruct Hi as [Hi|[Hi|[Hi|[Hi|[]]]]]; injection Hi as <- <-; apply Q.
Qed.

(** *** SET *)
(** A piece of a command either goes on, whatever comes next, or ends. *)
Section Path.
Variable c : ctx.
Variable orc : nat -> input.
Definition goes {T} (n : nat) (f : (T -> prog) -> prog) : Prop :=
  (exists t n', forall k ch, prun c orc n ch (f k) = prun c orc n' ch (k t) /\ plog c orc n ch (f k) = plog c orc n' ch (k t)) \/
  ((forall k ch, plog c orc n ch (f k) = []) /\ forall k k' ch, prun c orc n ch (f k) = prun c orc n ch (f k')).
Lemma goes_error : forall {T} n msg, @goes T n (fun _ => error msg).
Proof. intros. right. split; reflexivity. Qed.
Lemma goes_need : forall n x, goes n (fun k => need x k).
Proof. intros n [z|]; [left; exists z, n|right]; split; reflexivity. Qed.
Lemma goes_then : forall {A B} n (f : (A -> prog) -> prog) (g : A -> (B -> prog) -> prog),
  goes n f -> (forall a m, goes m (g a)) -> goes n (fun k => f (fun a => g a k)).
Proof.
  intros A B n f g [(t & n' & H)|[H1 H2]] G.
  - destruct (G t n') as [(u & m & Q)|[Q1 Q2]].
    + left. exists u, m. intros k ch. destruct (H (fun a => g a k) ch) as [-> ->]. apply Q.
    + right. split.
      * intros k ch. destruct (H (fun a => g a k) ch) as [_ ->]. apply Q1.
      * intros k k' ch. destruct (H (fun a => g a k) ch) as [-> _]. destruct (H (fun a => g a k') ch) as [-> _]. apply Q2.
  - right. split; intros; [apply H1|apply H2].
Qed.
Lemma goes_ask : forall {T} n (f : input -> (T -> prog) -> prog), (forall i m, goes m (f i)) -> goes n (fun k => Ask (fun i => f i k)).
Proof.
  intros T n f H. destruct (H (orc n) (S n)) as [(t & m & Q)|[Q1 Q2]].
  - left. exists t, m. intros k ch. cbn [prun plog]. apply Q.
  - right. split; intros; cbn [prun plog]; [apply Q1|apply Q2].
Qed.
Lemma goes_expiry : forall n pr now d, goes n (expiry_seconds_time pr now d).
Proof.
  intros n pr now d. unfold expiry_seconds_time. destruct (is_mc pr && (d >? HOUR * 24 * 30)%Z); [|apply goes_need].
  apply goes_ask. intros i m. destruct (d >? in_unix i)%Z; [|apply goes_need].
  apply goes_ask. intros j m'. destruct (i64_chk (d - in_unix j)); [apply goes_need|right; split; reflexivity].
Qed.
Lemma goes_set_expiry : forall n pr now kind z, goes n (set_expiry pr now kind z).
Proof.
  intros n pr now kind z. unfold set_expiry. destruct (z <=? 0)%Z; [destruct (is_mc pr); [apply goes_expiry|apply goes_error]|].
  destruct kind; try apply goes_need;
    match goal with |- goes n (fun k => need ?x (fun e => expiry_seconds_time pr now e k)) =>
      apply (goes_then n (fun k => need x k) (fun e k => expiry_seconds_time pr now e k)) end;
    try apply goes_need; intros; apply goes_expiry.
Qed.
Lemma goes_set_loop : forall len pr now rest s n, (length rest <= len)%nat -> goes n (set_loop pr now rest s).
Proof.
  induction len as [|len IH]; intros pr now rest s n L.
  - destruct rest; [|cbn in L; lia]. left. exists s, n. split; reflexivity.
  - destruct rest as [|w r]; [left; exists s, n; split; reflexivity|]. cbn [length] in L. cbn [set_loop].
    destruct (ex_word w) as [kind|].
    { destruct r as [|v r']; [apply goes_error|]. cbn [length] in L. destruct (parse_i64 v) as [z|]; [|apply goes_error].
      apply (goes_then n (set_expiry pr now kind z) (fun e k => set_loop pr now r' (with_ex s e) k)); [apply goes_set_expiry|].
      intros; apply IH; lia. }
    repeat match goal with |- goes n (fun _ => if ?b then _ else _) => destruct b end;
      try apply goes_error; try (apply IH; lia).
    all: destruct r as [|v r']; [apply goes_error|]; cbn [length] in L; destruct (parse_u64 v); [apply IH; lia|apply goes_error].
Qed.
End Path.

(** The state of the options, printed. *)
Definition code_set (s : setst) : list wr :=
  let b (x : bool) := WUint (if x then 1 else 0) in
  [WInt (ss_exp s); b (ss_hasex s); b (ss_nx s); b (ss_xx s); b (ss_get s); b (ss_keepttl s);
   WUint (ss_flags s); WUint (ss_cas s); b (ss_withcas s)].
Lemma code_set_inj : forall s t, code_set s = code_set t -> s = t.
Proof.
  intros [a b c0 d e f g h i] [a' b' c' d' e' f' g' h' i'] H. unfold code_set in H.
  cbn [ss_exp ss_hasex ss_nx ss_xx ss_get ss_keepttl ss_flags ss_cas ss_withcas] in H.
  injection H; intros. subst. repeat match goal with H : (if ?x then 1 else 0) = (if ?y then 1 else 0) |- _ =>
    assert (x = y) by (destruct x, y; congruence); clear H end. congruence.
Qed.
(** What comes of the options, for the log. *)
Lemma set_loop_log : forall o orc, fine orc -> forall pr now, (0 < now <= INT64_MAX)%Z -> forall rest n ch k,
  (exists os n' s', spelled rest os /\ positive pr os /\ applied orc pr now os set0 s' /\
     plog (ctx_of o) orc n ch (set_loop pr now rest set0 k) = plog (ctx_of o) orc n' ch (k s')) \/
  ((forall os, spelled rest os -> ~ positive pr os) /\ plog (ctx_of o) orc n ch (set_loop pr now rest set0 k) = []).
Proof.
  intros o orc F pr now Hn rest n ch k.
  destruct (set_loop_spec o orc F pr now Hn (length rest) rest (le_n _) set0 (fun s => answer (code_set s)) n ch)
    as [(os & n1 & s1 & S1 & S2 & S3 & S4)|(S1 & msg & S4)].
  - destruct (goes_set_loop (ctx_of o) orc (length rest) pr now rest set0 n (le_n _)) as [(t & n' & H)|[H1 H2]].
    + left. exists os, n', t. split; [exact S1|]. split; [exact S2|].
      destruct (H (fun s => answer (code_set s)) ch) as [H1 _]. rewrite S4, !prun_answer in H1. injection H1; intro Q.
      assert (s1 = t). { apply code_set_inj. apply (f_equal (List.map (fun e => match e with Out w => w | _ => WNull end))) in H1 || idtac.
        unfold code_set. injection H1; intros. congruence. }
      subst t. split; [exact S3|]. apply (H k ch).
    + exfalso. specialize (H2 (fun s => answer (code_set s)) (fun _ => Unmodelled) ch).
      rewrite S4, prun_answer in H2.
      destruct (set_loop_spec o orc F pr now Hn (length rest) rest (le_n _) set0 (fun _ => Unmodelled) n ch)
        as [(? & ? & ? & _ & _ & _ & Q)|(Q & _)]; [|exact (Q _ S1 S2)].
      rewrite Q in H2. discriminate.
  - right. split; [exact S1|].
    destruct (goes_set_loop (ctx_of o) orc (length rest) pr now rest set0 n (le_n _)) as [(t & n' & H)|[H1 H2]]; [|apply H1].
    exfalso. destruct (H (fun s => answer (code_set s)) ch) as [H1 _]. rewrite S4, prun_answer in H1. discriminate.
Qed.
Lemma exec_set_log : forall o orc n ch pr name now key val e nx xx get keepttl flags cas withcas,
  reachable (ctx_of o) ch -> fine orc -> fits o ch key val -> (0 < now <= INT64_MAX)%Z -> (0 <= e <= INT64_MAX)%Z ->
  flags < 2 ^ 32 ->
  count_set (plog (ctx_of o) orc n ch (execSET pr name now key val e nx xx get keepttl flags cas withcas)) =
    SK KSet :: if in_lowmem (orc n) && op_noevict o then [SNoMem] else [].
Proof.
  intros o orc n ch pr name now key val e nx xx get keepttl flags cas withcas R F Ft Hn He Hf.
  unfold execSET. cbn [plog]. destruct (F (S n)) as [_ M].
  destruct (step_store o orc (S n) ch key val
    (mkStoreOpts e 0 cas flags keepttl withcas nx xx (in_lowmem (orc n)) (if get then Some (fun _ => true) else None)) now
    R Ft M Hn (proj2 He) eq_refl Hf) as (ch' & st & sh & ev & cas' & m' & E & Sp).
  rewrite E. unfold count_set. cbn [flat_map snd]. rewrite plog_puts.
  assert (T : st = NOMEM <-> in_lowmem (orc n) && op_noevict o = true).
  { split.
    - intros ->. rewrite andb_true_iff.
      inversion Sp as [? ? ? ? H1 H2|? ? ? ? ? H1 H2|H1|H1]; subst; try discriminate; [|split; assumption].
      exfalso. unfold sp_store in H1. cbn [so_casop so_nx so_entry so_xx] in H1.
      repeat match type of H1 with context [match ?x with _ => _ end] => destruct x end; discriminate.
    - intro Lm. apply andb_true_iff in Lm. destruct Lm as [L1 L2].
      inversion Sp; subst; auto; cbn [so_lowmem] in *; change (c_noevict (ctx_of o)) with (op_noevict o) in *.
      + rewrite L1, L2 in *. discriminate.
      + congruence. }
  match goal with |- _ ++ flat_map _ ?l = _ => assert (Z : l = []) end.
  { destruct st; try reflexivity; destruct get; try apply plog_answer;
      destruct sh; try reflexivity; destruct (is_pg pr); try apply plog_answer; apply plog_puts. }
  rewrite Z. cbn [flat_map app]. rewrite app_nil_r. f_equal.
  destruct (in_lowmem (orc n) && op_noevict o).
  - rewrite (proj2 T eq_refl). reflexivity.
  - destruct st; try reflexivity. pose proof (proj1 T eq_refl). discriminate.
Qed.

(** A well-formed SET or SETEX counts one set, whether or not it stores, and also
    the lack of memory; others count nothing. *)
Theorem C69_set : forall o orc cf n ch pr a0 key val rest os,
  reachable (ctx_of o) ch -> fine orc -> (pr = MEMCACHE -> steady orc) -> fits o ch key val ->
  spelled rest os -> valid pr os ->
  exists l, counted (ctx_of o) orc cf n ch 0 pr (a0 :: key :: val :: rest) =
    SK KSet :: if in_lowmem (orc l) && op_noevict o then [SNoMem] else [].
Proof.
  intros o orc cf n ch pr a0 key val rest os R F St Ft Sp (V1 & V2 & V3).
  unfold counted. cbn [cmd_func nth counts]. unfold cmdSET. cbn [plog]. cbv zeta.
  destruct (F n) as [[Hn _] _]. set (now := in_now (orc n)) in *.
  match goal with |- context [set_loop pr now rest set0 ?kk] => set (K := kk) end.
  destruct (set_loop_log o orc F pr now Hn rest (S n) ch K) as [(os' & n' & s & S1 & S2 & S3 & S4)|(S1 & _)].
  2:{ destruct (S1 os Sp V1). }
  assert (os' = os) by (symmetry; exact (spelled_inj _ _ Sp _ S1)). subst os'.
  rewrite S4. unfold K. clear S4 K.
  destruct (applied_sum orc pr now Hn os set0 s S3) as (A1 & A2 & A3 & A4 & A5 & A6 & A7).
  cbn [set0 ss_nx ss_xx ss_get ss_keepttl ss_hasex ss_exp ss_flags ss_withcas ss_cas] in *.
  assert (Hx : (0 <= ss_exp s <= INT64_MAX)%Z).
  { destruct (last_expire os) as [[u z]|] eqn:L.
    - destruct A5 as [_ A5].
      assert (0 < ss_exp s <= INT64_MAX)%Z; [|lia].
      apply (expires_at_range pr orc now u z); try assumption.
      + intros P. exact (V1 P u z (last_expire_in _ _ _ L)).
      + intros P a b. exact (St P a b n).
    - destruct A5 as [_ ->]. unfold INT64_MAX. lia. }
  replace (ss_exp s <? 0)%Z with false by lia.
  assert (K1 : ss_keepttl s && ss_hasex s = false).
  { destruct (ss_keepttl s) eqn:Kt; [|reflexivity]. destruct (proj1 A4 eq_refl) as [Z|Z]; [discriminate|].
    destruct (last_expire os) as [[u z]|] eqn:L; [|destruct A5 as [-> _]; reflexivity].
    destruct (V2 Z u z (last_expire_in _ _ _ L)). }
  assert (K2 : ss_xx s && ss_nx s = false).
  { destruct (ss_xx s) eqn:X1; [|reflexivity]. destruct (ss_nx s) eqn:X2; [|reflexivity].
    exfalso. apply V3. split; [destruct (proj1 A1 eq_refl) as [Z|Z]|destruct (proj1 A2 eq_refl) as [Z|Z]];
      try discriminate; exact Z. }
  rewrite K1, K2. exists n'. apply exec_set_log; try assumption.
  rewrite A6. destruct (last_flags os); [apply N.mod_lt; discriminate|reflexivity].
Qed.
Theorem C69_set_reject : forall o orc cf n ch pr args, fine orc ->
  (forall a0 key val rest os, args = a0 :: key :: val :: rest -> spelled rest os -> ~ valid pr os) ->
  (pr = MEMCACHE -> steady orc) -> counted (ctx_of o) orc cf n ch 0 pr args = [].
Proof.
  intros o orc cf n ch pr args F H St. unfold counted. cbn [cmd_func nth counts]. unfold cmdSET.
  destruct args as [|a0 [|key [|val rest]]]; try reflexivity. cbn [plog]. cbv zeta.
  destruct (F n) as [[Hn _] _]. set (now := in_now (orc n)) in *.
  match goal with |- context [set_loop pr now rest set0 ?kk] => set (K := kk) end.
  destruct (set_loop_log o orc F pr now Hn rest (S n) ch K) as [(os & n' & s & S1 & S2 & S3 & S4)|(_ & ->)]; [|reflexivity].
  rewrite S4. unfold K. clear S4 K.
  destruct (applied_sum orc pr now Hn os set0 s S3) as (A1 & A2 & A3 & A4 & A5 & A6 & A7).
  cbn [set0 ss_nx ss_xx ss_get ss_keepttl ss_hasex ss_exp ss_flags ss_withcas ss_cas] in *.
  destruct (ss_exp s <? 0)%Z; [reflexivity|].
  destruct (ss_keepttl s && ss_hasex s) eqn:K1; [reflexivity|].
  destruct (ss_xx s && ss_nx s) eqn:K2; [reflexivity|].
  exfalso. apply (H a0 key val rest os eq_refl S1). split; [exact S2|]. split.
  - intros Ik u z Ie. rewrite (proj2 A4 (or_intror Ik)) in K1. cbn in K1.
    destruct (last_expire os) as [[u' z']|] eqn:L; [destruct A5; congruence|].
    clear - Ie L. induction os as [|x os IH]; [destruct Ie|].
    destruct x; cbn [last_expire] in L; try (destruct Ie as [Ie|Ie]; [discriminate|exact (IH L Ie)]).
    destruct (last_expire os) as [[? ?]|]; discriminate.
  - intros [I1 I2]. rewrite (proj2 A1 (or_intror I1)), (proj2 A2 (or_intror I2)) in K2. discriminate.
Qed.
Theorem C69_setex : forall o orc cf n ch pr a0 key ex val z,
  reachable (ctx_of o) ch -> fine orc -> fits o ch key val -> int_text ex z -> (0 < z)%Z ->
  exists l, counted (ctx_of o) orc cf n ch 8 pr [a0; key; ex; val] =
    SK KSet :: if in_lowmem (orc l) && op_noevict o then [SNoMem] else [].
Proof.
  intros o orc cf n ch pr a0 key ex val z R F Ft I P. unfold counted. cbn [cmd_func nth counts cmdSETEX plog].
  pose proof (proj1 (proj2 I)) as Iz. apply int_text_parse in I. rewrite I.
  replace (z <=? 0)%Z with false by lia. destruct (F n) as [[Hn _] _]. destruct (F (S n)) as [[Hn' _] _].
  unfold SECOND. rewrite mul_clamp_spec by (exact Iz || (unfold i64_ok, INT64_MIN, INT64_MAX; lia)).
  cbn [need plog].
  rewrite add_clamp_spec; [|unfold i64_ok, INT64_MIN, INT64_MAX in *; lia|].
  2:{ rewrite clampZ_eq. unfold i64_ok, clamp64, INT64_MIN, INT64_MAX. lia. }
  cbn [need]. exists (S (S n)). apply exec_set_log; try assumption; [|reflexivity].
  rewrite !clampZ_eq. unfold clamp64, INT64_MIN, INT64_MAX in *. lia.
Qed.

(** *** A case, on the cache of PropCache.v *)
Definition demo_cf : config := mkConfig false [] 1 (bs "1") 100.
Example C69_case :
  counted demo_c demo_orc demo_cf 0 demo_ch 3 RESP [bs "MGET"; bs "k1"; bs "none"; bs "k3"]
    = [SK KGet; SK KHit; SK KGet; SK KMiss; SK KGet; SK KHit] /\
  counted demo_c demo_orc demo_cf 0 demo_ch 2 RESP [bs "DEL"; bs "k1"; bs "none"; bs "k1"] = [SDelHit; SDelMiss; SDelMiss] /\
  counted demo_c demo_orc demo_cf 0 demo_ch 22 RESP [bs "TOUCH"; bs "k1"; bs "none"] = [STouch; STouchHit; STouch; STouchMiss] /\
  counted demo_c demo_orc demo_cf 0 demo_ch 0 RESP [bs "SET"; bs "k1"; bs "v"; bs "NX"] = [SK KSet] /\
  counted demo_c demo_orc demo_cf 0 demo_ch 31 MEMCACHE [bs "udecr"; bs "none"] = [SDecrMiss].
Proof. repeat split; vm_compute; reflexivity. Qed.

(** *** Refuted *)
(** "cmd_get is get_hits and get_misses together": TTL counts a hit without a
    get, a malformed GET a get without a hit or miss. *)
Theorem C69_balance_refuted : exists l1 l2,
  counted demo_c demo_orc demo_cf 0 demo_ch 5 RESP [bs "TTL"; bs "k1"] = l1 /\
  counted demo_c demo_orc demo_cf 0 demo_ch 1 RESP [bs "GET"; bs "k1"; bs "k3"] = l2 /\
  (times (SK KGet) l1 < times (SK KHit) l1 + times (SK KMiss) l1)%nat /\
  (times (SK KHit) l2 + times (SK KMiss) l2 < times (SK KGet) l2)%nat.
Proof. do 2 eexists. split; [vm_compute; reflexivity|]. split; [vm_compute; reflexivity|]. vm_compute. split; apply le_n. Qed.
(** "incr_misses counts the increments of missing keys": not outside Memcache,
    where a missing counter counts as a hit. *)
Theorem C69_incr_miss_refuted :
  sees demo_c demo_ch (bs "none") 110 None /\
  counted demo_c demo_orc demo_cf 0 demo_ch 26 RESP [bs "INCR"; bs "none"] = [SIncrHit].
Proof. split; [apply demo_sees_eq|]; vm_compute; reflexivity. Qed.
