(** Cases for C72, and what does not hold. *)
From Verif Require Import Base Types Clamp Entry Hash Map Shard Spec Cache Refine Reach Observe PropCache Text IntText Prog CmdSpec CmdSpec2 Cmds CmdsProofs Save SaveSpec
  SaveProofs LoadProofs LoadProofs2 LoadProofs3 SaveFs SaveFsProofs PropSave PropSaveCases Lz4 PropLz4 Proc ProcProofs PropProc PropProcCases SaveCmd SaveCmdProofs PropSaveCmd.
From Coq Require Import String Permutation.
Local Open Scope N_scope.
Notation map := List.map.
Notation length := List.length.

(** A save while nothing else happens. *)
Lemma hist_saves : forall o nprocs b ch now unix f fast p w ph j1 j2 t f' ph',
  history o nprocs b (mkServer ch now unix f (j1 ++ mkJob fast (mkSaver p w ph) :: j2) :: t) ->
  saves_steps o lz4_compress (fun _ s => s = mkShot ch now unix) nprocs fast (f, [mkSaver p w ph]) (f', [mkSaver p w ph']) ->
  exists mid, history o nprocs b (mkServer ch now unix f' (j1 ++ mkJob fast (mkSaver p w ph') :: j2) :: mid ++ t) /\
    forall z, In z mid -> se_shot z = mkShot ch now unix.
Proof.
  intros o nprocs b ch now unix f fast p w ph j1 j2 t f' ph' H R.
  remember (f, [mkSaver p w ph]) as a eqn:Ea. remember (f', [mkSaver p w ph']) as z eqn:Ez. revert f' ph' Ez.
  induction R as [a|a y z R IH Hs]; intros f' ph' Ez.
  - rewrite Ea in Ez. injection Ez as <- <-. exists []. split; [exact H|intros z []].
  - subst z. destruct (one_saver _ _ _ _ _ _ _ _ _ _ Hs) as (f1 & ph1 & -> & Hst). destruct (IH Ea f1 ph1 eq_refl) as (mid & A & B).
    eexists (_ :: mid). split.
    + cbn [app]. eapply hi_step; [exact A|].
      exact (se_step o nprocs (mkServer ch now unix f1 (j1 ++ mkJob fast (mkSaver p w ph1) :: j2)) j1 fast (mkSaver p w ph1) j2 f' ph' eq_refl Hst).
    + intros z [<-|Hz]; [reflexivity|apply B; exact Hz].
Qed.

(** The same, with the state it started in. *)
Lemma hist_saves_from : forall o nprocs b ch now unix f fast p w ph j1 j2 t f' ph',
  history o nprocs b (mkServer ch now unix f (j1 ++ mkJob fast (mkSaver p w ph) :: j2) :: t) ->
  saves_steps o lz4_compress (fun _ s => s = mkShot ch now unix) nprocs fast (f, [mkSaver p w ph]) (f', [mkSaver p w ph']) -> ph' <> ph ->
  exists mid, history o nprocs b (mkServer ch now unix f' (j1 ++ mkJob fast (mkSaver p w ph') :: j2) :: mid ++
      mkServer ch now unix f (j1 ++ mkJob fast (mkSaver p w ph) :: j2) :: t) /\
    forall z, In z mid -> se_shot z = mkShot ch now unix.
Proof.
  intros o nprocs b ch now unix f fast p w ph j1 j2 t f' ph' H R Ne.
  assert (G : ph' = ph /\ f' = f \/ exists mid, history o nprocs b (mkServer ch now unix f' (j1 ++ mkJob fast (mkSaver p w ph') :: j2) :: mid ++
      mkServer ch now unix f (j1 ++ mkJob fast (mkSaver p w ph) :: j2) :: t) /\
    forall z, In z mid -> se_shot z = mkShot ch now unix); [|destruct G as [[X _]|G]; [destruct (Ne X)|exact G]].
  clear Ne. remember (f, [mkSaver p w ph]) as a eqn:Ea. remember (f', [mkSaver p w ph']) as z eqn:Ez. revert f' ph' Ez.
  induction R as [a|a y z R IH Hs]; intros f' ph' Ez.
  - left. rewrite Ea in Ez. injection Ez as <- <-. auto.
  - right. subst z. destruct (one_saver _ _ _ _ _ _ _ _ _ _ Hs) as (f1 & ph1 & -> & Hst). destruct (IH Ea f1 ph1 eq_refl) as [[-> ->]|(mid & A & B)].
    + exists []. split; [|intros z []]. cbn [app]. eapply hi_step; [exact H|].
      exact (se_step o nprocs (mkServer ch now unix f (j1 ++ mkJob fast (mkSaver p w ph) :: j2)) j1 fast (mkSaver p w ph) j2 f' ph' eq_refl Hst).
    + eexists (_ :: mid). split.
      * cbn [app]. eapply hi_step; [exact A|].
        exact (se_step o nprocs (mkServer ch now unix f1 (j1 ++ mkJob fast (mkSaver p w ph1) :: j2)) j1 fast (mkSaver p w ph1) j2 f' ph' eq_refl Hst).
      * intros z [<-|Hz]; [reflexivity|apply B; exact Hz].
Qed.

(** The words of the commands. *)
Example C72_request_case :
  saveload [] [bs "SAVE"; bs "fast"; bs "to"; bs "a"; bs "TO"; bs "cache.pogo"] = Work false true demo_p /\
  saveload (bs "x") [bs "load"] = Work true false (bs "x") /\
  saveload [] [bs "load"; bs "from"; [97; 0; 98]] = Work true false [97] /\
  saveload [] [bs "load"] = Refuse (bs "ERR path not provided") /\
  saveload (bs "x") [bs "save"; bs "from"; bs "y"] = Refuse ERR_SYNTAX_ERROR /\
  saveload (bs "x") [bs "save"; bs "to"] = Refuse ERR_SYNTAX_ERROR.
Proof. repeat (split; [vm_compute; reflexivity|]). vm_compute; reflexivity. Qed.

(** Two clients: SAVE FAST and SAVE, both to the file of --persist. *)
Definition cmd_fast : list bytes * N := ([bs "SAVE"; bs "FAST"], 7).
Definition work_fast : bytes := work_name demo_p 7.
Definition cmd_other : list bytes * N := ([bs "save"], 8).
Definition work_other : bytes := work_name demo_p 8.
(** The numbers count modulo 2^31 - 1. *)
Example C72_work_names : work_fast = bs "cache.pogo.00000007.pogocache.work" /\ work_name demo_p 0xdeadbeef = bs "cache.pogo.5eadbef0.pogocache.work".
Proof. split; vm_compute; reflexivity. Qed.

Definition one_job (ph : phase) : list job := [mkJob true (mkSaver demo_p work_fast ph)].
Definition one_b : server := mkServer demo_ch 106 1000 no_fs (one_job POpen).
Lemma one_sent : sent demo_p [cmd_fast] one_b.
Proof. repeat constructor. Qed.
Lemma one_tidy : tidy one_b.
Proof.
  split; [|split].
  - intros sv [<-|[]]. split; [reflexivity|]. apply plain_ends. vm_compute. reflexivity.
  - repeat constructor. intros [].
  - intros n i X. discriminate.
Qed.
(** A SAVE FAST that is answered with OK, and a LOAD of another server. *)
Example C72_case : exists x mid,
  sent demo_p [cmd_fast] one_b /\ tidy one_b /\ history demo_opts 1 one_b (x :: mid ++ [one_b]) /\
  small_enough demo_opts (moment (x :: mid ++ [one_b])) /\ saveload demo_p (fst cmd_fast) = Work false true demo_p /\
  progress one_b 0 = Some POpen /\ no_save_to demo_p one_b /\ progress x 0 = Some (PDone true) /\
  content (se_fs x) demo_p = Some demo_zz /\
  reachable demo_c (se_cache one_b) /\ times_ok (se_now one_b) (se_unix one_b) /\
  room_for demo_opts demo_new (fun key => exists z v, In z (x :: mid ++ [one_b]) /\ sees demo_c (se_cache z) key (se_now z) (Some v)) /\
  (forall z, In z (x :: mid ++ [one_b]) -> sees demo_c (se_cache z) [107; 51] (se_now z) (Some (mkView [] 0 0 2))) /\
  exists ch', load_command demo_opts (lz4_decompress fill7) at_500 fine_env 1 (se_fs x) demo_new false demo_p 0 ch' /\
    exists tok, holds demo_opts ch' [107; 51] (mkView [] 0 0 tok).
Proof.
  destruct (demo_save demo_shot demo_p work_fast no_fs demo_made0 demo_made1 eq_refl) as (f' & Hs & Cf).
  destruct (hist_saves demo_opts 1 one_b demo_ch 106 1000 no_fs true demo_p work_fast POpen [] [] [] f' (PDone true) (hi_start _ _ _) Hs) as (mid & H & M).
  rewrite app_nil_r in H. cbn [app] in H.
  (* the first state is the last of the list *)
  assert (L : exists m, mid = m ++ [one_b]).
  { clear - H. remember (mkServer demo_ch 106 1000 f' [mkJob true (mkSaver demo_p work_fast (PDone true))] :: mid) as tr eqn:Et.
    assert (G : exists m, tr = m ++ [one_b]).
    { clear Et. induction H as [|t x y H IH Hs]; [exists []; reflexivity|]. destruct IH as (m & E). exists (y :: m). rewrite E. reflexivity. }
    destruct G as (m & E). rewrite Et in E. destruct m as [|a m]; [|injection E as _ E; exists m; exact E].
    exfalso. assert (P := f_equal (fun l => match l with z :: _ => progress z 0 | [] => None end) E). discriminate P. }
  destruct L as (m & ->).
  set (x := mkServer demo_ch 106 1000 f' [mkJob true (mkSaver demo_p work_fast (PDone true))]) in *.
  assert (Sh : forall z, In z (x :: m ++ [one_b]) -> se_shot z = demo_shot).
  { intros z [<-|Hz]; [reflexivity|apply M; exact Hz]. }
  assert (Sc : forall z, In z (x :: m ++ [one_b]) -> se_cache z = demo_ch /\ se_now z = 106%Z).
  { intros z Hz. split; [rewrite <- demo_shot_cache|change 106%Z with (sh_now demo_shot)]; rewrite <- (Sh z Hz); reflexivity. }
  assert (Sm : small_enough demo_opts (moment (x :: m ++ [one_b]))).
  { apply demo_all_small. intros i s (z & Hz & ->). apply Sh. exact Hz. }
  assert (Wk : saveload demo_p (fst cmd_fast) = Work false true demo_p) by (vm_compute; reflexivity).
  assert (Qu : no_save_to demo_p one_b) by (intros sv [<-|[]] _; left; reflexivity).
  assert (Cx : content (se_fs x) demo_p = Some demo_zz) by (apply Cf; vm_compute; discriminate).
  assert (Rm : room_for demo_opts demo_new (fun key => exists z v, In z (x :: m ++ [one_b]) /\ sees demo_c (se_cache z) key (se_now z) (Some v))).
  { intros mm key Hm (z & v & Hz & Hv). destruct (Sc z Hz) as [E1 E2]. rewrite E1, E2 in Hv. apply demo_room; [|exists v; exact Hv].
    intros k Hk. destruct (Hm k Hk) as [X|(z' & v' & Hz' & Hv')]; [left; exact X|right; exists v']. destruct (Sc z' Hz') as [E3 E4]. rewrite E3, E4 in Hv'. exact Hv'. }
  assert (Kp : forall z, In z (x :: m ++ [one_b]) -> sees demo_c (se_cache z) [107; 51] (se_now z) (Some (mkView [] 0 0 2))).
  { intros z Hz. destruct (Sc z Hz) as [E1 E2]. rewrite E1, E2. apply demo_sees_eq. vm_compute. reflexivity. }
  assert (J : forall n, length (fill7 n) = N.to_nat n) by (intro n; apply repeat_length).
  exists x, m. split; [exact one_sent|]. split; [exact one_tidy|]. split; [exact H|]. split; [exact Sm|]. split; [exact Wk|]. split; [reflexivity|].
  split; [exact Qu|]. split; [reflexivity|]. split; [exact Cx|]. split; [exact demo_reachable|]. split; [exact demo_times|]. split; [exact Rm|]. split; [exact Kp|].
  destruct (C72_saved demo_opts 1 demo_p [cmd_fast] one_b x m one_b [] 0 (fst cmd_fast) 7 true demo_p Nat.lt_0_1 one_sent one_tidy H Sm eq_refl Wk eq_refl Qu eq_refl)
    as (d & Cd & shots & Ts & Sv).
  rewrite Cx in Cd. injection Cd as <-.
  assert (Sk : forall i, (i < N.to_nat (c_nshards (ctx_of demo_opts)))%nat -> shot_ok demo_opts (shots i)).
  { intros i Hi. destruct (Ts i Hi) as (z & Hz & ->). rewrite (Sh z Hz). exact demo_shot_ok. }
  assert (Rs : room_for demo_opts demo_new (fun key => exists v, sees (ctx_of demo_opts) (sh_cache (shots (route (ctx_of demo_opts) key))) key (sh_now (shots (route (ctx_of demo_opts) key))) (Some v))).
  { intros mm key Hm (v & Hv). pose proof (route_small demo_opts) as Rl. apply Rm.
    - intros q Hq. destruct (Hm q Hq) as [X|(w & Hw')]; [left; exact X|right]. destruct (Ts _ (Rl q)) as (z & Hz & E). exists z, w. split; [exact Hz|]. rewrite E in Hw'. exact Hw'.
    - destruct (Ts _ (Rl key)) as (z & Hz & E). exists z, v. split; [exact Hz|]. rewrite E in Hv. exact Hv. }
  pose proof (back_load demo_opts demo_opts lz4_compress (lz4_decompress fill7) (lz4_ok fill7 J) shots Sk demo_zz Sv demo_new demo_new_reachable at_500 at_500_ok fine_env fine_env_ok Rs 1 (le_n 1)) as BL.
  destruct (load_finish demo_c (lz4_decompress fill7) at_500 fine_env (load_start demo_zz 1 demo_new) at_500_ok) as (l & Hl & He).
  { intros l Hl He. apply (proj2 (BL l Hl) He at_500_some). exists (plenty_env 1). reflexivity. }
  pose proof (lc_load demo_opts (lz4_decompress fill7) at_500 fine_env 1 (se_fs x) demo_new false demo_p demo_zz l Cx Hl He) as Lc.
  pose proof (proj1 (proj1 (BL l Hl) He)) as R0.
  rewrite R0 in Lc. exists (ld_cache l). split; [exact Lc|].
  exact (C72_kept demo_opts demo_opts 1 1 demo_p [cmd_fast] one_b x m one_b [] 0 (fst cmd_fast) 7 true demo_p (se_fs x) demo_new fill7 at_500 fine_env false _ _ _
      Nat.lt_0_1 one_sent one_tidy H Sm eq_refl Wk eq_refl Qu eq_refl demo_reachable demo_times eq_refl demo_new_reachable J at_500_ok fine_env_ok Nat.lt_0_1 Rm Lc Kp eq_refl).
Qed.

(** ** What does not hold *)
(** "When SAVE has been answered with OK, the file has what was in the cache when the SAVE was sent, or something newer." If another SAVE to the same file was
    running, that one may put its older file in the place of the newer one. *)
Definition late_d : bytes := [232; 7; 0; 2; 107; 49; 1; 118; 0; 0; 2].
Lemma late_full : exists ch evs, step demo_c (fst late_op) demo_new (snd late_op) = Ok (ch, RStatus INSERTED [], evs) /\
  (reachable demo_c ch -> sees demo_c ch [107; 49] 106 (Some (mkView [118] 0 0 2))) /\
  made_block demo_opts (mkShot ch 106 1000) 0 None /\ made_block demo_opts (mkShot ch 106 1000) 1 (Some late_d).
Proof.
  eexists _, _. split; [vm_compute; reflexivity|]. split.
  - intro R. apply (sees_iff demo_c (opts_load demo_opts)); [exact (reach_cinv demo_opts _ R)|]. vm_compute. reflexivity.
  - split; exists (plenty_env 1); eexists; vm_compute; reflexivity.
Qed.
Definition jobs_ab (a c : phase) : list job := [mkJob false (mkSaver demo_p work_other a); mkJob true (mkSaver demo_p work_fast c)].
Definition two_b : server := mkServer demo_new 106 1000 no_fs (jobs_ab POpen POpen).
Lemma two_sent : sent demo_p [cmd_other; cmd_fast] two_b.
Proof. repeat constructor. Qed.
Lemma two_tidy : tidy two_b.
Proof.
  split; [|split].
  - intros sv [<-|[<-|[]]]; (split; [reflexivity|]; apply plain_ends; vm_compute; reflexivity).
  - repeat constructor; cbn [In]; [intros [X|[]]; vm_compute in X; discriminate|intros []].
  - intros n i X. discriminate.
Qed.
Lemma empty_load : forall (ck : Z -> Z -> Prop) nprocs ch x, load_steps demo_c (lz4_decompress fill7) ck fine_env (load_start [] nprocs ch) x -> ld_cache x = ch.
Proof.
  intros ck nprocs ch x H.
  assert (G : ld_cache x = ch /\ ld_left x = [] /\ ld_queue x = [] /\ Forall (fun w => w = WIdle \/ w = WEnd) (ld_workers x)).
  { remember (load_start [] nprocs ch) as a eqn:Ea. induction H as [a|a y z H IH Hs].
    - subst a. split; [reflexivity|]. split; [reflexivity|]. split; [reflexivity|]. cbn [load_start ld_workers]. clear. induction nprocs; constructor; auto.
    - specialize (IH Ea). destruct Hs; cbn [ld_cache ld_left ld_queue ld_workers] in *; destruct IH as (A & B & C & D).
      + destruct q; discriminate.
      + rewrite Forall_forall in D. destruct (D (WRun (x :: l) fin)) as [X|X]; [apply in_or_app; right; left; reflexivity|discriminate|discriminate].
      + rewrite Forall_forall in D. destruct (D (WRun [] true)) as [X|X]; [apply in_or_app; right; left; reflexivity|discriminate|discriminate].
      + rewrite Forall_forall in D. destruct (D (WRun [] false)) as [X|X]; [apply in_or_app; right; left; reflexivity|discriminate|discriminate].
      + split; [exact A|]. split; [exact B|]. split; [exact C|]. apply Forall_app in D. destruct D as [D1 D2]. inversion D2; subst. apply Forall_app. split; [exact D1|]. constructor; auto.
      + discriminate.
      + discriminate.
      + auto. }
  apply G.
Qed.
Theorem C72_newest_refuted : exists y x1 x2 m1 m2 m3,
  sent demo_p [cmd_other; cmd_fast] two_b /\ tidy two_b /\
  history demo_opts 1 two_b (x2 :: m3 ++ x1 :: m2 ++ y :: m1) /\
  (* at [y] the second SAVE has not begun; k1 is in the cache, then and to the end *)
  progress y 1 = Some POpen /\ (forall z, In z (x2 :: m3 ++ x1 :: m2 ++ [y]) -> sees demo_c (se_cache z) [107; 49] (se_now z) (Some (mkView [118] 0 0 2))) /\
  (* at [x1] it has returned 0; at [x2] so has the first *)
  progress x1 1 = Some (PDone true) /\ progress x2 0 = Some (PDone true) /\
  (* and the file is there, but a LOAD does not find k1 *)
  (exists file, content (se_fs x2) demo_p = Some file) /\
  (forall (ck : Z -> Z -> Prop) fast st ch', load_command demo_opts (lz4_decompress fill7) ck fine_env 1 (se_fs x2) demo_new fast demo_p st ch' -> gone demo_opts ch' [107; 49]).
Proof.
  destruct late_full as (ch & evs & Es & Hv & M0 & M1).
  assert (Co : call_ok demo_c (fst late_op) (cabs demo_c demo_new) (snd late_op)) by exact (proj1 late_sensible).
  assert (R : reachable demo_c ch) by exact (proj1 (made demo_opts demo_new _ _ ch _ evs demo_new_reachable Co Es)).
  specialize (Hv R). clear R.
  eassert (H1 : saves_steps demo_opts lz4_compress (fun _ s => s = mkShot demo_new 106 1000) 1 false (no_fs, [mkSaver demo_p work_other POpen])
    (_, [mkSaver demo_p work_other (PRun 0 0 [TSave []])])).
  { eapply go; [apply ss_create; reflexivity|].
    eapply go_thread; [exact (ts_none demo_opts lz4_compress (fun _ s => s = mkShot demo_new 106 1000) _ _ [] 0 [1%nat] (mkShot demo_new 106 1000) eq_refl (empty_made 0 ltac:(lia)))|].
    eapply go_thread; [exact (ts_none demo_opts lz4_compress (fun _ s => s = mkShot demo_new 106 1000) _ _ [] 1 [] (mkShot demo_new 106 1000) eq_refl (empty_made 1 ltac:(lia)))|].
    apply sass_refl. }
  destruct (hist_saves demo_opts 1 two_b demo_new 106 1000 no_fs false demo_p work_other POpen [] [mkJob true (mkSaver demo_p work_fast POpen)] [] _ _ (hi_start _ _ _) H1)
    as (m0 & L1 & _). rewrite app_nil_r in L1. cbn [app] in L1.
  match type of L1 with history _ _ _ (?z :: _) => pose proof (hi_step _ _ _ _ _ _ L1 (se_call demo_opts 1 z (fst late_op) (snd late_op) ch _ evs Co Es)) as L2 end. cbn [se_cache se_now se_unix se_fs se_jobs] in L2.
  match type of L2 with history _ _ _ (mkServer _ _ _ ?f _ :: _) => set (f1 := f) in * end.
  eassert (H2 : saves_steps demo_opts lz4_compress (fun _ s => s = mkShot ch 106 1000) 1 true (f1, [mkSaver demo_p work_fast POpen])
    (_, [mkSaver demo_p work_fast (PDone true)])).
  { assert (T : (fun (_ : nat) s => s = mkShot ch 106 1000) 0%nat (mkShot ch 106 1000)) by reflexivity.
    eapply go; [apply ss_create; vm_compute; reflexivity|].
    eapply go_thread; [exact (ts_none demo_opts lz4_compress _ _ _ [] 0 [1%nat] (mkShot ch 106 1000) T M0)|].
    eapply go_thread; [exact (ts_block demo_opts lz4_compress _ _ _ [] 1 [] (mkShot ch 106 1000) late_d T M1)|].
    eapply go_thread; [apply ts_lock; reflexivity|].
    eapply go_thread; [rewrite <- (app_nil_r (block_text lz4_compress late_d)); apply ts_write; vm_compute; discriminate|].
    eapply go_thread; [apply ts_unlock|].
    eapply go_thread; [apply ts_end|].
    eapply go; [apply ss_joined; intros t [<-|[]]; reflexivity|].
    eapply go; [apply ss_rename; vm_compute; discriminate|].
    eapply go; [apply ss_nounlink|].
    apply sass_refl. }
  destruct (hist_saves_from demo_opts 1 two_b ch 106 1000 f1 true demo_p work_fast POpen [mkJob false (mkSaver demo_p work_other (PRun 0 0 [TSave []]))] [] _ _ _ L2 H2 ltac:(discriminate))
    as (m2 & L3 & B3). cbn [app] in L3.
  match type of L3 with history _ _ _ (mkServer _ _ _ ?f _ :: _) => set (f2 := f) in * end.
  eassert (H3 : saves_steps demo_opts lz4_compress (fun _ s => s = mkShot ch 106 1000) 1 false (f2, [mkSaver demo_p work_other (PRun 0 0 [TSave []])])
    (_, [mkSaver demo_p work_other (PDone true)])).
  { eapply go_thread; [apply ts_end|]. eapply go; [apply ss_joined; intros t [<-|[]]; reflexivity|].
    eapply go; [apply ss_rename; vm_compute; discriminate|]. eapply go; [apply ss_nounlink|]. apply sass_refl. }
  destruct (hist_saves_from demo_opts 1 two_b ch 106 1000 f2 false demo_p work_other (PRun 0 0 [TSave []]) [] [mkJob true (mkSaver demo_p work_fast (PDone true))] _ _ _ L3 H3 ltac:(discriminate))
    as (m3 & L4 & B4). cbn [app] in L4.
  match type of L4 with history _ _ _ (mkServer _ _ _ ?f _ :: _) => set (f3 := f) in * end.
  assert (Cf : content f3 demo_p = Some []) by (vm_compute; reflexivity).
  eexists _, _, _, _, m2, m3. split; [exact two_sent|]. split; [exact two_tidy|]. split; [exact L4|]. split; [reflexivity|].
  split.
  { assert (G : forall z, se_shot z = mkShot ch 106 1000 -> sees demo_c (se_cache z) [107; 49] (se_now z) (Some (mkView [118] 0 0 2))).
    { intros z E. pose proof (f_equal sh_cache E) as E1. pose proof (f_equal sh_now E) as E2. cbn [se_shot sh_cache sh_now] in E1, E2. rewrite E1, E2. exact Hv. }
    intros z [<-|Hz]; [exact Hv|]. apply in_app_or in Hz. destruct Hz as [Hz|[<-|Hz]]; [apply G, B4; exact Hz|exact Hv|].
    apply in_app_or in Hz. destruct Hz as [Hz|[<-|[]]]; [apply G, B3; exact Hz|exact Hv]. }
  split; [reflexivity|]. split; [reflexivity|]. cbn [se_fs]. split; [exists []; exact Cf|].
  intros ck fast st ch' Hl. inversion Hl; subst; [apply demo_new_gone|].
  match goal with X : content f3 demo_p = Some ?q |- _ => rewrite Cf in X; injection X as <- end.
  match goal with X : load_steps _ _ _ _ _ _ |- _ => rewrite (empty_load _ _ _ _ X) end. apply demo_new_gone.
Qed.
