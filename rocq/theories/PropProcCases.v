(** C65: cases, and what does not hold. *)
From Verif Require Import Base Types Clamp Entry Hash Map Shard Spec Cache Refine Reach Observe PropCache Text CmdSpec CmdsProofs Save SaveSpec SaveProofs LoadProofs LoadProofs2 LoadProofs3
  SaveFs SaveFsProofs PropSave PropSaveCases Lz4 PropLz4 Proc ProcProofs PropProc.
From Coq Require Import String.
Local Open Scope N_scope.
Notation map := List.map.
Notation length := List.length.

(** Calls one after the other. *)
Lemma life_calls : forall o persist work nprocs junk envs b h x t ch rs evs, life o persist work nprocs junk envs b (x :: t) ->
  pr_end x = None -> pr_stage x = SServe -> pr_save x = None -> sensible (ctx_of o) (pr_cache x) h -> run (ctx_of o) (pr_cache x) h = Ok (ch, rs, evs) ->
  exists t', life o persist work nprocs junk envs b (mkProc SServe ch (rev h ++ pr_ops x) (pr_now x) (pr_unix x) (pr_fs x) (pr_signal x) None None :: t') /\
    forall y, In y t' -> In y (x :: t) \/ pr_save y = None /\ pr_ops y <> [].
Proof.
  intros o persist work nprocs junk envs b. induction h as [|[en op] h IH]; intros x t ch rs evs H E S Sv Sn R; cbn [run] in R.
  - injection R as <- <- <-. exists t. split; [|intros y Hy; left; right; exact Hy].
    destruct x as [st ca ops nw ux f sg sv en]. cbn [pr_end pr_stage pr_save pr_cache pr_now pr_unix pr_fs pr_signal pr_ops] in *. subst. exact H.
  - destruct (step (ctx_of o) en (pr_cache x) op) as [[[ch1 r1] e1]|] eqn:E1; [|discriminate]. cbn [sensible] in Sn. destruct Sn as [Ok1 Sn].
    destruct (run (ctx_of o) ch1 h) as [[[ch2 rs2] e2]|] eqn:R2; [|discriminate]. injection R as <- <- <-.
    pose proof (li_step _ _ _ _ _ _ _ _ _ _ H (l_call _ _ _ _ _ _ x en op ch1 r1 e1 E S Ok1 E1)) as L.
    destruct (IH _ _ ch2 rs2 e2 L) as (t' & A & B); try reflexivity.
    + exact Sv.
    + exact (Sn _ _ _ E1).
    + exact R2.
    + cbn [pr_ops pr_now pr_unix pr_fs pr_signal pr_cache] in *. exists t'. split; [cbn [rev]; rewrite <- app_assoc; exact A|].
      intros y Hy. destruct (B y Hy) as [[<-|Y]|Y]; [|left; exact Y|right; exact Y]. right. split; [exact Sv|discriminate].
Qed.
Lemma one_saver : forall o z tk n fast x p w f' ph', saves_step o z tk n fast x (f', [mkSaver p w ph']) ->
  exists f ph, x = (f, [mkSaver p w ph]) /\ save_step o z tk n fast (mkSaver p w ph) f ph f' ph'.
Proof.
  intros o z tk n fast x p w f' ph' H. remember (f', [mkSaver p w ph']) as y eqn:Ey. destruct H as [f s1 sv s2 f2 ph2 H].
  destruct s1 as [|q s1]; [|destruct s1; discriminate]. cbn [app] in *. injection Ey as E1 E2 E3 E4 E5. subst.
  exists f, (sv_phase sv). destruct sv as [a b c]. cbn [sv_path sv_work sv_phase] in *. split; [reflexivity|exact H].
Qed.
(** A save while nothing else happens. *)
Lemma life_saves : forall o persist work nprocs junk envs b x t ph f' ph', life o persist work nprocs junk envs b (x :: t) ->
  pr_end x = None -> pr_save x = Some ph ->
  saves_steps o lz4_compress (fun _ s => s = picture x) nprocs true (pr_fs x, [mkSaver persist work ph]) (f', [mkSaver persist work ph']) ->
  exists t', life o persist work nprocs junk envs b (mkProc (pr_stage x) (pr_cache x) (pr_ops x) (pr_now x) (pr_unix x) f' (pr_signal x) (Some ph') None :: t') /\
    forall y, In y t' -> In y (x :: t) \/ picture y = picture x /\ pr_ops y = pr_ops x.
Proof.
  intros o persist work nprocs junk envs b x t ph f' ph' H E S R.
  remember (pr_fs x, [mkSaver persist work ph]) as a eqn:Ea. remember (f', [mkSaver persist work ph']) as z eqn:Ez. revert f' ph' Ez.
  induction R as [w|w y z R IH Hs]; intros f' ph' Ez.
  - rewrite Ea in Ez. injection Ez as <- <-. exists t. split; [|intros y Hy; left; right; exact Hy].
    destruct x as [st ca ops nw ux f sg sv en]. cbn [pr_end pr_stage pr_save pr_cache pr_now pr_unix pr_fs pr_signal pr_ops] in *. subst. exact H.
  - subst z. destruct (one_saver _ _ _ _ _ _ _ _ _ _ Hs) as (f1 & ph1 & -> & Hst). destruct (IH Ea f1 ph1 eq_refl) as (t' & A & B). eexists (_ :: t'). split.
    + eapply li_step; [exact A|]. exact (l_save o persist work nprocs junk envs
        (mkProc (pr_stage x) (pr_cache x) (pr_ops x) (pr_now x) (pr_unix x) f1 (pr_signal x) (Some ph1) None) ph1 f' ph' eq_refl eq_refl Hst).
    + intros y [<-|Hy]; [right; split; reflexivity|]. apply B. exact Hy.
Qed.

(** An empty directory. *)
Definition no_fs : fs := mkFs (fun _ => None) (fun _ => []) 0.
Lemma no_own : forall p w, w <> p -> own_work no_fs p w.
Proof. intros p w H. split; [reflexivity|]. split; [exact H|]. intros n i X. discriminate. Qed.
Lemma no_names : forall un p, fs_names (clean un no_fs) p = None.
Proof. intros un p. unfold clean. cbn [fs_names no_fs]. destruct (un p && ends_with WORK_EXT p); reflexivity. Qed.
Lemma no_content : forall un p, content (clean un no_fs) p = None.
Proof. intros un p. unfold content. rewrite no_names. reflexivity. Qed.
Definition demo_born : proc := born demo_new 106 1000 no_fs.
Lemma demo_times : times_ok 106 1000.
Proof. split; unfold INT64_MAX; lia. Qed.
Lemma later_times : times_ok 500 1005.
Proof. split; unfold INT64_MAX; lia. Qed.
(** It finds no file, serves the calls of [demo_history], gets the signal and saves. *)
Definition demo_zz : bytes := block_text lz4_compress demo_d0 ++ block_text lz4_compress demo_d1.
Lemma demo_save : forall sh p w f, made_block demo_opts sh 0 (Some demo_d0) -> made_block demo_opts sh 1 (Some demo_d1) -> fs_names f w = None ->
  exists f', saves_steps demo_opts lz4_compress (fun _ s => s = sh) 1 true (f, [mkSaver p w POpen]) (f', [mkSaver p w (PDone true)]) /\
    (w <> p -> content f' p = Some demo_zz).
Proof.
  intros sh p w f M0 M1 Ew. assert (T : (fun (_ : nat) s => s = sh) 0%nat sh) by reflexivity.
  eexists. split.
  - eapply go; [apply ss_create; exact Ew|].
    eapply go_thread; [exact (ts_block demo_opts lz4_compress _ _ _ [] 0 [1%nat] sh demo_d0 T M0)|].
    eapply go_thread; [apply ts_lock; reflexivity|].
    eapply go_thread; [rewrite <- (app_nil_r (block_text lz4_compress demo_d0)); apply ts_write; vm_compute; discriminate|].
    eapply go_thread; [apply ts_unlock|].
    eapply go_thread; [exact (ts_block demo_opts lz4_compress _ _ _ [] 1 [] sh demo_d1 T M1)|].
    eapply go_thread; [apply ts_lock; reflexivity|].
    eapply go_thread; [rewrite <- (app_nil_r (block_text lz4_compress demo_d1)); apply ts_write; vm_compute; discriminate|].
    eapply go_thread; [apply ts_unlock|].
    eapply go_thread; [apply ts_end|].
    eapply go; [apply ss_joined; intros t [<-|[]]; reflexivity|].
    eapply go; [apply ss_rename|].
    { cbn [set_data set_name fs_names sv_work]. rewrite beq_refl. discriminate. }
    eapply go; [apply ss_nounlink|].
    apply sass_refl.
  - intro Ne. unfold content. cbn [set_name set_data fs_names fs_data fs_next sv_path sv_work]. rewrite !beq_refl.
    destruct (beq w p) eqn:B; [apply beq_eq in B; contradiction|]. rewrite !Nat.eqb_refl. reflexivity.
Qed.

Lemma demo_all_small : forall takes : nat -> shot -> Prop, (forall i s, takes i s -> s = demo_shot) -> small_enough demo_opts takes.
Proof.
  intros takes Hs i s d Tk M. destruct (Nat.ltb_spec i 2) as [L|L].
  - apply (demo_small i s d); [split; [exact (Hs _ _ Tk)|exact L]|exact M].
  - rewrite (Hs _ _ Tk) in M. destruct M as (en & ch' & E). destruct i as [|[|i]]; [lia|lia|].
    apply (f_equal block_of) in E. revert E. 
    assert (G : block_of (shard_data (ctx_of demo_opts) en (sh_now demo_shot) (sh_unix demo_shot) (sh_cache demo_shot) (S (S i))) = None).
    { generalize (sh_cache demo_shot) (sh_now demo_shot) (sh_unix demo_shot). clear. intros ch now unix. unfold shard_data, step, cache_iter.
      replace (chosen (ctx_of demo_opts) (Some (Z.of_nat (S (S i))))) with (@nil nat); [reflexivity|].
      unfold chosen. change (Z.of_N (c_nshards (ctx_of demo_opts))) with 2%Z. destruct (Z.leb_spec 2 (Z.of_nat (S (S i)))); [|lia]. rewrite orb_true_r. reflexivity. }
    rewrite G. discriminate.
Qed.
Ltac live L N tac :=
  lazymatch type of L with life ?o ?p ?w ?n ?j ?e ?b ?l =>
    eassert (N : life o p w n j e b (_ :: l)); [eapply li_step; [exact L|tac]|] end.
Lemma demo_life_of : forall ch rs evs p w, run demo_c demo_new demo_history = Ok (ch, rs, evs) ->
  made_block demo_opts (mkShot ch 106 1000) 0 (Some demo_d0) -> made_block demo_opts (mkShot ch 106 1000) 1 (Some demo_d1) ->
  p <> [] -> w <> p -> exists t x, life demo_opts p w 1 fill7 fine_env demo_born (x :: t) /\ pr_end x = Some ESaved /\
  content (pr_fs x) p = Some demo_zz /\ pr_cache x = ch /\ pr_ops x = rev demo_history /\
  (forall i s, during (x :: t) i s -> s = mkShot ch 106 1000) /\ (forall z, In z (x :: t) -> pr_ops z = [] -> pr_cache z = demo_new).
Proof.
  intros ch rs evs p w Rn M0 M1 Np Nw.
  pose proof (li_step _ _ _ _ _ _ _ _ _ _ (li_born demo_opts p w 1%nat fill7 fine_env demo_born)
    (l_nofile demo_opts p w 1%nat fill7 fine_env demo_born (fun _ => true) eq_refl eq_refl Np (no_content _ p))) as L1.
  destruct (life_calls _ _ _ _ _ _ _ demo_history _ _ _ _ _ L1 eq_refl eq_refl eq_refl demo_sensible Rn) as (t2 & L2 & B2).
  unfold at_stage in L2, B2. cbn [pr_ops pr_now pr_unix pr_fs pr_signal demo_born born] in L2, B2. rewrite app_nil_r in L2.
  live L2 L3 ltac:(eapply l_signal; reflexivity).
  live L3 L4 ltac:(eapply l_begin; [reflexivity|reflexivity|reflexivity|reflexivity|exact Np]).
  destruct (demo_save (mkShot ch 106 1000) p w (clean (fun _ => true) no_fs) M0 M1) as (f' & Hs & Cf).
  { apply no_names. }
  destruct (life_saves _ _ _ _ _ _ _ _ _ _ f' (PDone true) L4 eq_refl eq_refl Hs) as (t5 & L5 & B5).
  live L5 L6 ltac:(eapply l_saved; reflexivity).
  eexists _, _. split; [exact L6|]. unfold ended in *. cbn [pr_end pr_fs pr_cache pr_ops pr_now pr_unix pr_stage pr_signal pr_save picture] in *.
  split; [reflexivity|]. split; [exact (Cf Nw)|]. split; [reflexivity|]. split; [reflexivity|].
  assert (Old : forall y, In y t2 -> pr_save y = None /\ (pr_ops y = [] -> pr_cache y = demo_new)).
  { intros y Hy. destruct (B2 y Hy) as [[<-|[<-|[]]]|[Y1 Y2]]; [split; [reflexivity|intros _; reflexivity]|split; [reflexivity|intros _; reflexivity]|].
    split; [exact Y1|intro X; contradiction]. }
  assert (Ne : rev demo_history <> []) by (intro X; apply (f_equal (@List.length _)) in X; discriminate).
  split.
  - intros i s (y & Hy & _ & Y3 & ->). unfold picture in *. cbn [pr_cache pr_now pr_unix] in B5.
    destruct Hy as [<-|[<-|Hy]]; cbn [pr_cache pr_now pr_unix]; [reflexivity|reflexivity|].
    destruct (B5 y Hy) as [[<-|[<-|[<-|Y]]]|[Y _]]; cbn [pr_cache pr_now pr_unix]; [reflexivity|reflexivity|reflexivity| |exact Y].
    destruct (Old y Y) as [X _]. rewrite X in Y3. contradiction.
  - intros y Hy Y. destruct Hy as [<-|[<-|Hy]]; [contradiction|contradiction|].
    destruct (B5 y Hy) as [[<-|[<-|[<-|Z]]]|[_ Z]]; [contradiction|contradiction|contradiction|exact (proj2 (Old y Z) Y)|].
    cbn [pr_ops] in Z. rewrite Z in Y. contradiction.
Qed.
Lemma demo_life : forall p w, p <> [] -> w <> p -> exists t x, life demo_opts p w 1 fill7 fine_env demo_born (x :: t) /\ pr_end x = Some ESaved /\
  content (pr_fs x) p = Some demo_zz /\ pr_cache x = demo_ch /\ pr_ops x = rev demo_history /\
  (forall i s, during (x :: t) i s -> s = demo_shot) /\ (forall z, In z (x :: t) -> pr_ops z = [] -> pr_cache z = demo_new).
Proof. intros p w. destruct demo_run as (rs & evs & Rn). exact (demo_life_of demo_ch rs evs p w Rn demo_made0 demo_made1). Qed.

(** A case for all of it: [demo_history] is served, the signal comes, the process saves and ends; the next one loads and serves, and k3 is there. *)
Example C65_case : exists t x t' z,
  times_ok 106 1000 /\ plain_name demo_p /\ own_work no_fs demo_p demo_w /\ small_enough demo_opts (during (x :: t)) /\
  life demo_opts demo_p demo_w 1 fill7 fine_env demo_born (x :: t) /\ pr_end x = Some ESaved /\ pr_ops x = rev demo_history /\
  (forall z, In z (x :: t) -> pr_stage z = SServe -> pr_ops z = [] -> reachable demo_c (pr_cache z)) /\
  room_for demo_opts demo_new (fun key => exists s v, during (x :: t) (route demo_c key) s /\ sees demo_c (sh_cache s) key (sh_now s) (Some v)) /\
  life demo_opts demo_p demo_w 1 fill7 fine_env (born demo_new 500 1005 (pr_fs x)) (z :: t') /\ pr_stage z = SServe /\ pr_ops z = [] /\
  exists tok, holds demo_opts (pr_cache z) [107; 51] (mkView [] 0 0 tok).
Proof.
  assert (Np : demo_p <> []) by discriminate. assert (Nw : demo_w <> demo_p) by discriminate.
  destruct (demo_life demo_p demo_w Np Nw) as (t & x & L & E & Cf & Ec & Eo & Du & Nw0).
  assert (Ex : plain_name demo_p) by (apply plain_ends; vm_compute; reflexivity).
  assert (Ow : own_work no_fs demo_p demo_w) by (apply no_own; exact Nw).
  assert (Sm : small_enough demo_opts (during (x :: t))) by (apply demo_all_small; exact Du).
  assert (Re : forall z, In z (x :: t) -> pr_stage z = SServe -> pr_ops z = [] -> reachable demo_c (pr_cache z)).
  { intros z Hz _ Oz. rewrite (Nw0 z Hz Oz). exact demo_new_reachable. }
  assert (Rm : room_for demo_opts demo_new (fun key => exists s v, during (x :: t) (route demo_c key) s /\ sees demo_c (sh_cache s) key (sh_now s) (Some v))).
  { intros m key Hm (s & v & D & Hv). rewrite (Du _ _ D), demo_shot_cache in Hv. apply demo_room; [|exists v; exact Hv].
    intros k Hk. destruct (Hm k Hk) as [X|(s' & v' & D' & Hv')]; [left; exact X|right; exists v']. rewrite (Du _ _ D'), demo_shot_cache in Hv'. exact Hv'. }
  assert (J : forall n, length (fill7 n) = N.to_nat n) by (intro n; apply repeat_length).
  pose proof later_times as T1.
  destruct (proj2 (C65_starts demo_opts demo_opts demo_p demo_w demo_w 1 1 fill7 fine_env fine_env demo_new 106 1000 no_fs x t demo_new (fun _ => true) 500 1005
    demo_times Nat.lt_0_1 Ex Np Ow Sm L E Re J fine_env_ok (ex_intro _ _ eq_refl) Nat.lt_0_1 T1 demo_is_new Rm)) as (t' & z & L' & _ & S1 & S2).
  exists t, x, t', z. split; [exact demo_times|]. split; [exact Ex|]. split; [exact Ow|]. split; [exact Sm|]. split; [exact L|]. split; [exact E|].
  split; [exact Eo|]. split; [exact Re|]. split; [exact Rm|]. split; [exact L'|]. split; [exact S1|]. split; [exact S2|].
  destruct (C65_restart demo_opts demo_opts demo_p demo_w demo_w 1 1 fill7 fine_env fine_env demo_new 106 1000 no_fs x t demo_new (fun _ => true) 500 1005
    demo_times Nat.lt_0_1 Ex Np Ow Sm L E Re J fine_env_ok Nat.lt_0_1 T1 demo_is_new Rm) as (shots & Ts & A).
  destruct (A (z :: t') z L' (or_introl eq_refl) S1 S2) as (_ & B). destruct (B [107; 51]) as [_ C]. clear A B.
  assert (D : shots (route (ctx_of demo_opts) [107; 51]) = demo_shot) by (apply (Du (route (ctx_of demo_opts) [107; 51])); apply Ts; apply route_small).
  rewrite D in C.
  assert (Hv : sees (ctx_of demo_opts) (sh_cache demo_shot) [107; 51] (sh_now demo_shot) (Some (mkView [] 0 0 2))).
  { rewrite demo_shot_cache. apply demo_sees_eq. vm_compute. reflexivity. }
  destruct (C _ Hv) as (now' & unix' & _ & Cb). destruct Cb as [tok _ K|e tok X _ _ _ _|X _ _|tok X _ _]; try (cbn in X; contradiction). exists tok. exact K.
Qed.

(** ** What does not hold *)
(** "A write that was acknowledged before the process ended with success is there again." Clients are served while the shards are saved; what
    comes after the save of its shard is lost. *)
Definition late_op : env * call := (plenty_env 106, Store [107; 49] [118] plain_store 0).
Lemma late_sensible : sensible demo_c demo_new [late_op].
Proof.
  destruct (new_ok demo_c (opts_load _) (opts_shards _) _ _ demo_is_new) as (I & _ & _ & A & _).
  apply (few_sensible demo_c (opts_load _) [late_op] demo_new []).
  - assumption.
  - intros k X. destruct (X (A k)).
  - intros i ks Nd H. change 253%nat with (253 + 0)%nat.
    assert (L : (length ks <= length (stored [late_op]))%nat) by (apply NoDup_incl_length; [assumption|intros k Hk; apply H; assumption]).
    cbn in L. lia.
  - apply Forall_cons; [|apply Forall_nil]. cbn [fst snd args_fine late_op]. split; [small_store|reflexivity].
Qed.
Lemma late_step : exists ch evs, step demo_c (fst late_op) demo_new (snd late_op) = Ok (ch, RStatus INSERTED [], evs) /\
  (reachable demo_c ch -> sees demo_c ch [107; 49] 106 (Some (mkView [118] 0 0 2))).
Proof.
  eexists _, _. split; [vm_compute; reflexivity|]. intro R. apply (sees_iff demo_c (opts_load demo_opts)); [exact (reach_cinv demo_opts _ R)|]. vm_compute. reflexivity.
Qed.
Theorem C65_late_refuted : exists t x t' z ch evs,
  life demo_opts demo_p demo_w 1 fill7 fine_env demo_born (x :: t) /\ pr_end x = Some ESaved /\
  (* k1 was stored, the store was acknowledged, the item is there at the end *)
  pr_ops x = [late_op] /\ step demo_c (fst late_op) demo_new (snd late_op) = Ok (ch, RStatus INSERTED [], evs) /\ pr_cache x = ch /\
  sees demo_c (pr_cache x) [107; 49] 106 (Some (mkView [118] 0 0 2)) /\
  (* but not in the next process *)
  life demo_opts demo_p demo_w 1 fill7 fine_env (born demo_new 500 1005 (pr_fs x)) (z :: t') /\ pr_stage z = SServe /\ pr_ops z = [] /\
  gone demo_opts (pr_cache z) [107; 49].
Proof.
  assert (Np : demo_p <> []) by discriminate.
  destruct late_step as (ch & evs & Es & Hv).
  assert (Co : call_ok demo_c (fst late_op) (cabs demo_c demo_new) (snd late_op)) by exact (proj1 late_sensible).
  assert (R : reachable demo_c ch) by exact (proj1 (made demo_opts demo_new _ _ ch _ evs demo_new_reachable Co Es)).
  specialize (Hv R). clear R.
  assert (L1 : life demo_opts demo_p demo_w 1 fill7 fine_env demo_born (at_stage demo_born SServe demo_new (clean (fun _ => true) no_fs) :: [demo_born])).
  { eapply li_step; [apply li_born|]. eapply l_nofile; [reflexivity|reflexivity|exact Np|apply no_content]. }
  live L1 L2 ltac:(eapply l_signal; reflexivity). live L2 L3 ltac:(eapply l_begin; [reflexivity|reflexivity|reflexivity|reflexivity|exact Np]).
  cbn [at_stage demo_born born pr_cache pr_ops pr_now pr_unix pr_fs] in L3.
  eassert (H1 : saves_steps demo_opts lz4_compress (fun _ s => s = mkShot demo_new 106 1000) 1 true (clean (fun _ => true) no_fs, [mkSaver demo_p demo_w POpen])
    (_, [mkSaver demo_p demo_w (PRun 0 0 [TSave []])])).
  { eapply go; [apply ss_create; apply no_names|].
    eapply go_thread; [exact (ts_none demo_opts lz4_compress (fun _ s => s = mkShot demo_new 106 1000) _ _ [] 0 [1%nat] (mkShot demo_new 106 1000) eq_refl (empty_made 0 ltac:(lia)))|].
    eapply go_thread; [exact (ts_none demo_opts lz4_compress (fun _ s => s = mkShot demo_new 106 1000) _ _ [] 1 [] (mkShot demo_new 106 1000) eq_refl (empty_made 1 ltac:(lia)))|].
    apply sass_refl. }
  destruct (life_saves _ _ _ _ _ _ _ _ _ _ _ _ L3 eq_refl eq_refl H1) as (t4 & L4 & _).
  live L4 L5 ltac:(eapply (l_call _ _ _ _ _ _ _ (fst late_op) (snd late_op) ch _ evs); [reflexivity|reflexivity|exact Co|exact Es]).
  cbn [pr_cache pr_ops pr_now pr_unix pr_fs pr_signal pr_save] in L5.
  eassert (H2 : saves_steps demo_opts lz4_compress (fun _ s => s = mkShot ch 106 1000) 1 true (_, [mkSaver demo_p demo_w (PRun 0 0 [TSave []])])
    (_, [mkSaver demo_p demo_w (PDone true)])).
  { eapply go_thread; [apply ts_end|]. eapply go; [apply ss_joined; intros t [<-|[]]; reflexivity|].
    eapply go; [apply ss_rename; shelve|]. eapply go; [apply ss_nounlink|]. apply sass_refl. }
  destruct (life_saves _ _ _ _ _ _ _ _ _ _ _ _ L5 eq_refl eq_refl H2) as (t6 & L6 & _).
  live L6 L7 ltac:(eapply l_saved; reflexivity).
  unfold ended in L7. cbn [pr_stage pr_cache pr_ops pr_now pr_unix pr_fs pr_signal pr_save] in L7.
  lazymatch type of L7 with life _ _ _ _ _ _ _ (mkProc _ _ _ _ _ ?f _ _ _ :: _) => set (ff := f) in * end.
  assert (Ef : forall un, content (clean un ff) demo_p = Some []).
  { intro un. rewrite clean_content; [|apply plain_ends; vm_compute; reflexivity]. vm_compute. reflexivity. }
  pose proof (li_born demo_opts demo_p demo_w 1%nat fill7 fine_env (born demo_new 500 1005 ff)) as K0.
  live K0 K1 ltac:(eapply (l_file _ _ _ _ _ _ _ (fun _ => true)); [reflexivity|reflexivity|exact Np|apply Ef]).
  live K1 K2 ltac:(eapply l_load; [reflexivity|reflexivity|apply ls_read]).
  live K2 K3 ltac:(eapply l_load; [reflexivity|reflexivity|apply (ls_end _ _ _ _ _ _ _ _ _ [] []); right; split; [reflexivity|discriminate]]).
  live K3 K4 ltac:(eapply l_loaded; [reflexivity|reflexivity|reflexivity|reflexivity]).
  eexists _, _, _, _, ch, evs. split; [exact L7|]. split; [reflexivity|]. split; [reflexivity|]. split; [exact Es|]. split; [reflexivity|].
  split; [exact Hv|]. split; [exact K4|]. split; [reflexivity|]. split; [reflexivity|]. exact (demo_new_gone [107; 49]).
  Unshelve. vm_compute. discriminate.
Qed.

(** "The exit status is 0 only if the data has been saved." After a second signal it is not saved. *)
Theorem C65_status_refuted : exists t x e, life demo_opts demo_p demo_w 1 fill7 fine_env demo_born (x :: t) /\ pr_end x = Some e /\ status e = 0%Z /\
  pr_stage x = SServe /\ sees demo_c (pr_cache x) [107; 51] 106 (Some (mkView [] 0 0 2)) /\ content (pr_fs x) demo_p = None.
Proof.
  assert (Np : demo_p <> []) by discriminate. destruct demo_run as (rs & evs & Rn).
  assert (Hv : sees demo_c demo_ch [107; 51] 106 (Some (mkView [] 0 0 2))) by (apply demo_sees_eq; vm_compute; reflexivity).
  revert Rn Hv. generalize demo_ch. intros ch Rn Hv.
  assert (L1 : life demo_opts demo_p demo_w 1 fill7 fine_env demo_born (at_stage demo_born SServe demo_new (clean (fun _ => true) no_fs) :: [demo_born])).
  { eapply li_step; [apply li_born|]. eapply l_nofile; [reflexivity|reflexivity|exact Np|apply no_content]. }
  destruct (life_calls _ _ _ _ _ _ _ demo_history _ _ _ _ _ L1 eq_refl eq_refl eq_refl demo_sensible Rn) as (t2 & L2 & _).
  live L2 L3 ltac:(eapply l_signal; reflexivity). live L3 L4 ltac:(eapply l_again; reflexivity).
  eexists _, _, EForced. split; [exact L4|]. split; [reflexivity|]. split; [reflexivity|]. split; [reflexivity|]. split; [exact Hv|]. apply no_content.
Qed.

(** "What was saved is loaded by the next process." If the file's name ends like that of a work file, the next process removes it first. *)
Definition odd_p : bytes := bs "data.pogocache.work".
Theorem C65_suffix_refuted : exists t x t' z,
  life demo_opts odd_p demo_w 1 fill7 fine_env demo_born (x :: t) /\ pr_end x = Some ESaved /\ content (pr_fs x) odd_p = Some demo_zz /\
  life demo_opts odd_p demo_w 1 fill7 fine_env (born demo_new 500 1005 (pr_fs x)) (z :: t') /\ pr_stage z = SServe /\ pr_ops z = [] /\
  (forall key, gone demo_opts (pr_cache z) key) /\ content (pr_fs z) odd_p = None.
Proof.
  assert (Np : odd_p <> []) by discriminate. assert (Nw : demo_w <> odd_p) by discriminate.
  destruct (demo_life odd_p demo_w Np Nw) as (t & x & L & E & Cf & _).
  assert (Cn : content (clean (fun _ => true) (pr_fs x)) odd_p = None).
  { unfold content, clean. cbn [fs_names]. change (ends_with WORK_EXT odd_p) with true. reflexivity. }
  pose proof (li_born demo_opts odd_p demo_w 1%nat fill7 fine_env (born demo_new 500 1005 (pr_fs x))) as K0.
  live K0 K1 ltac:(eapply (l_nofile _ _ _ _ _ _ _ (fun _ => true)); [reflexivity|reflexivity|exact Np|exact Cn]).
  eexists t, x, _, _. split; [exact L|]. split; [exact E|]. split; [exact Cf|]. split; [exact K1|]. split; [reflexivity|]. split; [reflexivity|].
  split; [exact demo_new_gone|exact Cn].
Qed.

(** "Processes that have different files do not hurt each other." Any process that starts removes the work files of all that have their
    file in the same directory, also of one that is saving: its save fails, however it goes on, and its data is lost. *)
Lemma lost_work : forall o z tk n p w a c i, saves_steps o z tk n true a c -> forall f ph, a = (f, [mkSaver p w ph]) -> w <> p -> fs_names f w = None ->
  fs_names f p = None -> (exists off ts, ph = PRun i off ts) ->
  exists f' ph', c = (f', [mkSaver p w ph']) /\ fs_names f' w = None /\ fs_names f' p = None /\
    match ph' with PRun _ _ _ | PRename _ | PClose false | PDone false => True | _ => False end.
Proof.
  intros o z tk n p w a c i H f ph Ea Nw E1 E2 (off & ts & Ep). induction H as [a|a b c H IH Hs].
  - exists f, ph. rewrite Ep. subst. auto.
  - destruct (IH Ea) as (f1 & ph1 & -> & A & B & C). clear IH.
    remember (f1, [mkSaver p w ph1]) as y eqn:Ey. destruct Hs as [g s1 sv s2 g' ph2 Hs].
    destruct s1 as [|q s1]; [|destruct s1; discriminate]. cbn [app] in *. injection Ey as -> -> ->. cbn [sv_path sv_work sv_phase] in *.
    exists g', ph2. split; [reflexivity|].
    assert (X : forall sv, sv_path sv = p -> sv_work sv = w -> save_step o z tk n true sv f1 ph1 g' ph2 ->
      fs_names g' w = None /\ fs_names g' p = None /\ match ph2 with PRun _ _ _ | PRename _ | PClose false | PDone false => True | _ => False end); [|exact (X (mkSaver p w ph1) eq_refl eq_refl Hs)].
    clear - A B C. intros sv P1 P2 Hs. revert A B C. destruct Hs; intros A B C; cbn [set_data set_name fs_names] in *; rewrite ?P1, ?P2 in *; try contradiction; auto.
    split; [rewrite beq_refl; reflexivity|]. split; [|destruct ok; [contradiction|exact I]]. destruct (beq w p); [reflexivity|exact B].
Qed.
Theorem C65_other_refuted : exists t x ph, life demo_opts demo_p demo_w 1 fill7 fine_env demo_born (x :: t) /\ pr_save x = Some ph /\
  sees demo_c (pr_cache x) [107; 51] 106 (Some (mkView [] 0 0 2)) /\
  forall takes f' sv, saves_steps demo_opts lz4_compress takes 1 true (clean (fun _ => true) (pr_fs x), [mkSaver demo_p demo_w ph]) (f', [sv]) ->
    sv_phase sv <> PDone true /\ content f' demo_p = None.
Proof.
  assert (Np : demo_p <> []) by discriminate. destruct demo_run as (rs & evs & Rn).
  assert (Hv : sees demo_c demo_ch [107; 51] 106 (Some (mkView [] 0 0 2))) by (apply demo_sees_eq; vm_compute; reflexivity).
  revert Rn Hv. generalize demo_ch. intros ch Rn Hv.
  assert (L1 : life demo_opts demo_p demo_w 1 fill7 fine_env demo_born (at_stage demo_born SServe demo_new (clean (fun _ => true) no_fs) :: [demo_born])).
  { eapply li_step; [apply li_born|]. eapply l_nofile; [reflexivity|reflexivity|exact Np|apply no_content]. }
  destruct (life_calls _ _ _ _ _ _ _ demo_history _ _ _ _ _ L1 eq_refl eq_refl eq_refl demo_sensible Rn) as (t2 & L2 & _).
  live L2 L3 ltac:(eapply l_signal; reflexivity). live L3 L4 ltac:(eapply l_begin; [reflexivity|reflexivity|reflexivity|reflexivity|exact Np]).
  live L4 L5 ltac:(eapply l_save; [reflexivity|reflexivity|apply ss_create; apply no_names]).
  eexists _, _, _. split; [exact L5|]. split; [reflexivity|]. split; [exact Hv|]. intros takes f' sv Hs.
  cbn [pr_fs] in Hs.
  lazymatch type of Hs with saves_steps _ _ _ _ _ (clean _ ?f, [mkSaver _ _ (PRun ?i ?off ?ts)]) _ => set (fb := f) in *;
    destruct (lost_work _ _ _ _ demo_p demo_w _ _ i Hs (clean (fun _ => true) fb) (PRun i off ts) eq_refl) as (f1 & ph1 & Eq & A & B & C) end.
  - discriminate.
  - unfold clean at 1. cbn [fs_names]. change (ends_with WORK_EXT demo_w) with true. reflexivity.
  - unfold clean at 1. cbn [fs_names]. change (ends_with WORK_EXT demo_p) with false. vm_compute. reflexivity.
  - eexists _, _. reflexivity.
  - injection Eq as -> ->. cbn [sv_phase]. split.
    + intros ->. exact C.
    + unfold content. rewrite B. reflexivity.
Qed.
