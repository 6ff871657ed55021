(** Facts for the properties of the commands on the whole cache. *)
From Verif Require Import Base Types Clamp Entry EntryProofs Hash Map MapProofs MapInv Shard
  Spec Trace ShardProofs ScanProofs LoopProofs Cache Refine Reach Observe PropCache PropItems
  Text IntText IntTextProofs Glob GlobProofs CmdTable CmdTableProofs PropText Prog CmdSpec CmdSpec2 CmdSpec3 Cmds
  CmdsProofs CmdsProofs2 CmdsProofs3 PropCmds PropCmds2.
From Coq Require Import String Permutation.
Local Open Scope N_scope.
Notation length := List.length.

(** *** Parallel work on the shards *)
Lemma prun_each : forall c orc mk k len a n ch,
  prun c orc n ch (each_shard mk (seq a len) k) =
    match run c ch (List.map (fun i => (in_env (orc (n + (i - a))%nat), mk i)) (seq a len)) with
    | Bad t => Bad t
    | Ok (ch1, _, ev1) =>
        match prun c orc (n + len) ch1 k with
        | Bad t => Bad t
        | Ok (ch2, es, ev2) => Ok (ch2, es, ev1 ++ ev2)
        end
    end.
Proof.
  intros c orc mk k. induction len as [|len IH]; intros a n ch; cbn [seq each_shard List.map run].
  - replace (n + 0)%nat with n by lia. destruct (prun c orc n ch k) as [[[? ?] ?]|]; reflexivity.
  - cbn [prun]. replace (n + (a - a))%nat with n by lia.
    destruct (step c (in_env (orc n)) ch (mk a)) as [[[ch1 r] ev]|]; [|reflexivity].
    rewrite IH.
    assert (M : List.map (fun i => (in_env (orc (S n + (i - S a))%nat), mk i)) (seq (S a) len)
              = List.map (fun i => (in_env (orc (n + (i - a))%nat), mk i)) (seq (S a) len)).
    { apply map_ext_in. intros i Hi. apply in_seq in Hi. do 3 f_equal. lia. }
    rewrite M. destruct (run c ch1 _) as [[[ch2 rs] ev2]|]; [|reflexivity].
    replace (n + S len)%nat with (S n + len)%nat by lia.
    destruct (prun c orc (S n + len) ch2 k) as [[[? ?] ?]|]; [|reflexivity]. rewrite app_assoc. reflexivity.
Qed.

Definition shards_of (o : opts) : nat := N.to_nat (c_nshards (ctx_of o)).
Lemma shards_pos : forall o, (0 < shards_of o)%nat.
Proof. intro o. pose proof (opts_shards o) as B. unfold shards_of. change (ctx_of o) with (opts_to_ctx o). lia. Qed.
Lemma range_all : forall o p, (0 < p)%nat -> range_shards p (shards_of o) = seq 0 (shards_of o).
Proof. intros o p P. exact (proj1 (C35_ranges p _ P (shards_pos o))). Qed.

Lemma flush_work_spec : forall o orc n ch fast k, reachable (ctx_of o) ch -> fine orc -> manned orc ->
  exists ch' n' ev, reachable (ctx_of o) ch' /\ empty o ch' /\
    prun (ctx_of o) orc n ch (flush_work (shards_of o) fast k) =
      match prun (ctx_of o) orc n' ch' k with
      | Bad t => Bad t | Ok (ch2, es, ev2) => Ok (ch2, es, ev ++ ev2) end.
Proof.
  intros o orc n ch fast k R F M. unfold flush_work. rewrite prun_ask. destruct fast.
  - rewrite (range_all o _ (M n)). rewrite prun_each.
    destruct (C35_flush o ch (in_procs (orc n)) (seq 0 (shards_of o)) (fun i => in_env (orc (S n + (i - 0))%nat)) false (in_now (orc n)) R (M n))
      as (ch' & rs & evs & E & R' & G).
    + unfold schedule. rewrite (proj1 (C35_ranges (in_procs (orc n)) (N.to_nat (c_nshards (opts_to_ctx o))) (M n) (shards_pos o))). apply Permutation_refl.
    + intros i j. apply (F _).
    + change (opts_to_ctx o) with (ctx_of o) in E, R', G.
      rewrite E. eexists ch', _, evs. split; [exact R'|]. split; [|reflexivity].
      intros key t. apply G.
  - cbn [prun].
    destruct (reachable_step (ctx_of o) (opts_load o) (opts_shards o) ch (in_env (orc (S n))) (Clear None true (in_now (orc n))) R)
      as (ch' & r & ev & E & R' & _ & Sp).
    { intro i. apply (F (S n)). }
    rewrite E. exists ch', (S (S n)), ev. split; [exact R'|]. split; [|reflexivity].
    intros key. apply gone_abs; [exact R'|]. inversion Sp; subst.
    match goal with H : sp_clear _ _ _ |- _ => destruct (H key) as [H1 _]; apply H1 end. exact Logic.I.
Qed.

Lemma sweep_work_spec : forall o orc n ch fast k, reachable (ctx_of o) ch -> fine orc -> manned orc ->
  exists ch' n' ev, reachable (ctx_of o) ch' /\ swept o (in_now (orc n)) ch ch' /\
    prun (ctx_of o) orc n ch (sweep_work (shards_of o) fast k) =
      match prun (ctx_of o) orc n' ch' k with
      | Bad t => Bad t | Ok (ch2, es, ev2) => Ok (ch2, es, ev ++ ev2) end.
Proof.
  intros o orc n ch fast k R F M. unfold sweep_work. rewrite prun_ask. destruct (F n) as [[[Hn _] _] _].
  set (now := in_now (orc n)) in *. destruct fast.
  - rewrite (range_all o _ (M n)). rewrite prun_each.
    destruct (C35_sweep o ch (in_procs (orc n)) (seq 0 (shards_of o)) (fun i => in_env (orc (S n + (i - 0))%nat)) now R (M n))
      as (ch' & rs & evs & E & R' & G1 & G2).
    + unfold schedule. rewrite (proj1 (C35_ranges (in_procs (orc n)) (N.to_nat (c_nshards (opts_to_ctx o))) (M n) (shards_pos o))). apply Permutation_refl.
    + exact Hn.
    + change (opts_to_ctx o) with (ctx_of o) in E, R', G1, G2.
      rewrite E. eexists ch', _, evs. split; [exact R'|]. split; [|reflexivity]. split.
      * intros key t v Ht. symmetry. apply G1. exact Ht.
      * intros key D t. apply G2. destruct (sees_some o ch key now R) as [[v|] S]; [|exact S].
        destruct D. exists v. exact S.
  - cbn [prun].
    destruct (reachable_step (ctx_of o) (opts_load o) (opts_shards o) ch (in_env (orc (S n))) (Sweep None now) R Logic.I)
      as (ch' & r & ev & E & R' & _ & Sp).
    rewrite E. exists ch', (S (S n)), ev. split; [exact R'|]. split; [|reflexivity].
    inversion Sp; subst.
    match goal with H : sp_sweep _ _ _ _ |- _ => rename H into Hs end.
    rewrite (resolve_pos _ _ Hn) in Hs.
    assert (A : forall key, cabs (ctx_of o) ch' key = live_item (cabs (ctx_of o) ch) key now)
      by (intro key; apply (Hs key); exact Logic.I).
    split.
    + intro key. apply same_from_abs; [exact R|exact R'|]. intros t Ht.
      destruct (live_item (cabs (ctx_of o) ch) key now) as [it|] eqn:L.
      * unfold live_item in *. rewrite A. destruct (cabs (ctx_of o) ch key) as [i0|] eqn:C; [|discriminate].
        destruct (alive_at (i_exp i0) now); [|discriminate]. injection L as ->. reflexivity.
      * rewrite (dead_later _ _ _ _ L Ht). unfold live_item at 1. rewrite A, L. reflexivity.
    + intros key D. apply gone_abs; [exact R'|]. rewrite A.
      destruct (live_item (cabs (ctx_of o) ch) key now) as [it|] eqn:L; [|reflexivity]. destruct D.
      exists (shown_of it). apply (sees_iff _ (opts_load o)); [apply reach_cinv; exact R|]. rewrite L. reflexivity.
Qed.

(** *** The options of FLUSHALL *)
Lemma flush_loop_ok : forall rest os, flush_spelled rest os -> forall async fast delay k,
  exists fast', flush_loop rest async fast delay k =
    k (match background os with Some b => b | None => async end) fast'
      (match last_delay os with Some z => z | None => delay end).
Proof.
  intros rest os S. induction S as [|w r os W S IH|w r os W S IH|w r os W S IH|w v z r os W V Z S IH];
    intros async fast delay k; cbn [flush_loop background last_delay].
  - eexists. reflexivity.
  - rewrite (proj2 (is_word_iff w "async") W).
    destruct (IH true fast delay k) as (f' & E). exists f'. rewrite E. cbn [says]. destruct (background os); reflexivity.
  - assert (N : is_word w "async" = false) by (apply is_word_no; rewrite W; discriminate).
    rewrite N, (proj2 (is_word_iff w "sync") W).
    destruct (IH false fast delay k) as (f' & E). exists f'. rewrite E. cbn [says]. destruct (background os); reflexivity.
  - assert (N : is_word w "async" = false) by (apply is_word_no; rewrite W; discriminate).
    assert (N2 : is_word w "sync" = false) by (apply is_word_no; rewrite W; discriminate).
    rewrite N, N2, (proj2 (is_word_iff w "fast") W).
    destruct (IH async true delay k) as (f' & E). exists f'. rewrite E. cbn [says]. destruct (background os); reflexivity.
  - assert (N : is_word w "async" = false) by (apply is_word_no; rewrite W; discriminate).
    assert (N2 : is_word w "sync" = false) by (apply is_word_no; rewrite W; discriminate).
    assert (N3 : is_word w "fast" = false) by (apply is_word_no; rewrite W; discriminate).
    rewrite N, N2, N3, (proj2 (is_word_iff w "delay") W).
    rewrite (proj1 (int_text_parse v z) V). unfold year in Z.
    replace ((z <? 0) || (31536000 <? z))%Z with false by (symmetry; apply orb_false_iff; lia).
    cbn [says]. destruct (Z.ltb_spec 0 z) as [P|P].
    + destruct (IH true fast z k) as (f' & E). exists f'. rewrite E. destruct (background os), (last_delay os); reflexivity.
    + replace z with 0%Z in * by lia. destruct (IH async fast 0%Z k) as (f' & E). exists f'. rewrite E.
      destruct (background os), (last_delay os); reflexivity.
Qed.
Lemma flush_loop_bad : forall len rest async fast delay k, (length rest <= len)%nat -> (forall os, ~ flush_spelled rest os) ->
  exists m, In m [bs "ERR syntax error"; bs "ERR invalid delay argument"] /\
    flush_loop rest async fast delay k = error m.
Proof.
  induction len as [|len IH]; intros rest async fast delay k L S.
  - destruct rest; [|cbn in L; lia]. destruct (S [] fs_end).
  - destruct rest as [|w r]; [destruct (S [] fs_end)|]. cbn in L. cbn [flush_loop].
    destruct (is_word w "async") eqn:W1.
    { apply IH; [lia|]. intros os X. apply is_word_iff in W1. apply (S (FAsync :: os)). constructor; assumption. }
    destruct (is_word w "sync") eqn:W2.
    { apply IH; [lia|]. intros os X. apply is_word_iff in W2. apply (S (FSync :: os)). constructor; assumption. }
    destruct (is_word w "fast") eqn:W3.
    { apply IH; [lia|]. intros os X. apply is_word_iff in W3. apply (S (FFast :: os)). constructor; assumption. }
    destruct (is_word w "delay") eqn:W4.
    2:{ eexists. split; [left; reflexivity|reflexivity]. }
    destruct r as [|v r]; [eexists; split; [left; reflexivity|reflexivity]|].
    destruct (parse_i64 v) as [z|] eqn:P; [|eexists; split; [right; left; reflexivity|reflexivity]].
    destruct ((z <? 0) || (31536000 <? z))%Z eqn:B; [eexists; split; [right; left; reflexivity|reflexivity]|].
    apply orb_false_iff in B. apply is_word_iff in W4. apply int_text_parse in P.
    assert (Q : forall os, ~ flush_spelled r os).
    { intros os X. apply (S (FDelay z :: os)). constructor; try assumption. unfold year. lia. }
    cbn in L. destruct (0 <? z)%Z; (apply IH; [lia|exact Q]).
Qed.
