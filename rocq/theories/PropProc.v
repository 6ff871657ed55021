(** C65: from one process to the next. *)
From Verif Require Import Base Types Clamp Entry Hash Map Shard Spec Cache Refine Reach Observe PropCache Text CmdSpec CmdsProofs Save SaveSpec SaveProofs LoadProofs LoadProofs2 LoadProofs3
  SaveFs SaveFsProofs PropSave PropSaveCases Lz4 PropLz4 Proc ProcProofs.
From Coq Require Import String.
Local Open Scope N_scope.
Notation map := List.map.
Notation length := List.length.

(** A name for the work file that is its own, in a file system that is one. *)
Definition own_work (f : fs) (persist work : bytes) : Prop :=
  fs_names f work = None /\ work <> persist /\ (forall n i, fs_names f n = Some i -> (i < fs_next f)%nat).

(** A name that is not that of a work file: it does not end like one. *)
Definition plain_name (p : bytes) : Prop := forall pre, p <> (pre ++ bs ".pogocache.work")%list.
Lemma plain_ends : forall p, plain_name p <-> ends_with WORK_EXT p = false.
Proof.
  intro p. unfold ends_with. split.
  - intro H. apply andb_false_iff. destruct (length WORK_EXT <=? length p)%nat eqn:L; [|auto]. right.
    destruct (beq (skipn (length p - length WORK_EXT) p) WORK_EXT) eqn:B; [|reflexivity]. exfalso. apply beq_eq in B.
    apply (H (firstn (length p - length WORK_EXT) p)). change (bs ".pogocache.work") with WORK_EXT.
    rewrite <- (firstn_skipn (length p - length WORK_EXT) p) at 1. f_equal. exact B.
  - intros H pre ->. change (bs ".pogocache.work") with WORK_EXT in H. rewrite app_length in H.
    replace (length pre + length WORK_EXT - length WORK_EXT)%nat with (length pre) in H by lia.
    rewrite skipn_app, skipn_all, Nat.sub_diag in H. cbn [skipn app] in H. rewrite beq_refl, andb_true_r in H. apply Nat.leb_gt in H. lia.
Qed.
Lemma clean_content : forall un f p, plain_name p -> content (clean un f) p = content f p.
Proof. intros un f p E. apply plain_ends in E. unfold content, clean. cbn [fs_names fs_data]. rewrite E, andb_false_r. reflexivity. Qed.
Lemma cleaned_content : forall f0 f p, plain_name p -> cleaned f0 f -> content f p = content f0 p.
Proof. intros f0 f p E [->|[un ->]]; [reflexivity|apply clean_content; exact E]. Qed.
Lemma cleaned_fresh : forall f0 f persist work, own_work f0 persist work -> cleaned f0 f -> fresh f [mkSaver persist work POpen].
Proof.
  intros f0 f persist work (W1 & W2 & W3) C.
  assert (F : fs_names f work = None /\ (forall n i, fs_names f n = Some i -> (i < fs_next f)%nat)).
  { destruct C as [->|[un ->]]; [auto|]. cbn [clean fs_names fs_next]. split.
    - destruct (un work && ends_with WORK_EXT work); auto.
    - intros n i. destruct (un n && ends_with WORK_EXT n); [discriminate|apply W3]. }
  destruct F as [F1 F2]. split; [|split; [|split]].
  - intros sv [<-|[]]. auto.
  - repeat constructor. intros [].
  - intros a b [<-|[]] [<-|[]]. exact W2.
  - exact F2.
Qed.

(** ** The file of a process that ends *)
(** Whenever a process is stopped, at any moment from its start on and by whatever, the file has its old contents, or it is a whole new
    one in which every shard is as it was at some moment after the signal. *)
Theorem C65_any_moment : forall o persist work nprocs junk envs ch0 now0 unix0 f0 x t,
  times_ok now0 unix0 -> (0 < nprocs)%nat -> plain_name persist -> own_work f0 persist work -> small_enough o (during (x :: t)) ->
  life o persist work nprocs junk envs (born ch0 now0 unix0 f0) (x :: t) ->
  content (pr_fs x) persist = content f0 persist \/
  exists d, content (pr_fs x) persist = Some d /\ whole_file o lz4_compress (during (x :: t)) d.
Proof.
  intros o persist work nprocs junk envs ch0 now0 unix0 f0 x t Ht Np Ex Ow Sm H.
  destruct (life_inv o persist work nprocs junk envs ch0 now0 unix0 f0 Ht x t H) as (Sv & _).
  unfold save_inv in Sv. destruct (pr_save x) as [ph|].
  - destruct Sv as (_ & fc & C & Hr).
    destruct (C43_crash o lz4_compress _ nprocs true fc _ _ _ Np Sm (cleaned_fresh _ _ _ _ Ow C) Hr persist) as [A|A].
    + cbn [map sv_work]. intros [E|[]]. exact (proj1 (proj2 Ow) E).
    + left. rewrite A. apply cleaned_content; assumption.
    + right. exact A.
  - left. apply cleaned_content; assumption.
Qed.

(** Saved: the file is new. Nothing to save, could not save, could not start: it is the old one. *)
Theorem C65_ending : forall o persist work nprocs junk envs ch0 now0 unix0 f0 x t,
  times_ok now0 unix0 -> (0 < nprocs)%nat -> plain_name persist -> own_work f0 persist work -> small_enough o (during (x :: t)) ->
  life o persist work nprocs junk envs (born ch0 now0 unix0 f0) (x :: t) ->
  (pr_end x = Some ESaved -> exists d, content (pr_fs x) persist = Some d /\ whole_file o lz4_compress (during (x :: t)) d) /\
  (forall e, pr_end x = Some e -> e <> ESaved -> e <> EForced -> content (pr_fs x) persist = content f0 persist).
Proof.
  intros o persist work nprocs junk envs ch0 now0 unix0 f0 x t Ht Np Ex Ow Sm H.
  destruct (life_inv o persist work nprocs junk envs ch0 now0 unix0 f0 Ht x t H) as (Sv & En & _).
  unfold save_inv in Sv. unfold end_inv in En. split.
  - intro E. rewrite E in En. rewrite En in Sv. destruct Sv as (_ & fc & C & Hr).
    apply (proj1 (C43_result o lz4_compress _ nprocs true fc _ _ _ Np Sm (cleaned_fresh _ _ _ _ Ow C) Hr) (mkSaver persist work (PDone true))); [left; reflexivity|reflexivity].
  - intros e E N1 N2. rewrite E in En.
    assert (K : pr_save x = None \/ pr_save x = Some (PDone false)) by (destruct e; auto; contradiction).
    destruct K as [K|K]; rewrite K in Sv.
    + apply cleaned_content; assumption.
    + destruct Sv as (_ & fc & C & Hr).
      rewrite (proj2 (C43_result o lz4_compress _ nprocs true fc _ _ _ Np Sm (cleaned_fresh _ _ _ _ Ow C) Hr) persist).
      * apply cleaned_content; assumption.
      * cbn [map sv_work]. intros [X|[]]. exact (proj1 (proj2 Ow) X).
      * intros sv [<-|[]] _. reflexivity.
Qed.
(** An exit status that is not 0 means that nothing has been saved. *)
Theorem C65_nonzero : forall o persist work nprocs junk envs ch0 now0 unix0 f0 x t e,
  times_ok now0 unix0 -> (0 < nprocs)%nat -> plain_name persist -> own_work f0 persist work -> small_enough o (during (x :: t)) ->
  life o persist work nprocs junk envs (born ch0 now0 unix0 f0) (x :: t) -> pr_end x = Some e -> status e <> 0%Z ->
  content (pr_fs x) persist = content f0 persist.
Proof.
  intros o persist work nprocs junk envs ch0 now0 unix0 f0 x t e Ht Np Ex Ow Sm H E S.
  apply (proj2 (C65_ending o persist work nprocs junk envs ch0 now0 unix0 f0 x t Ht Np Ex Ow Sm H) e E); intros ->; apply S; reflexivity.
Qed.

(** A process that has served its clients and ends with status 0, and not because of a second signal, has saved. *)
Lemma served_end : forall o persist work nprocs junk envs b x t e, pr_end b = None ->
  life o persist work nprocs junk envs b (x :: t) -> persist <> [] -> pr_stage x = SServe -> pr_end x = Some e -> e = EForced \/ e = ESaved \/ e = EFailed.
Proof.
  intros o persist work nprocs junk envs b x t e B H P. inversion H as [E|t' z x' H' Hs]; subst; [congruence|].
  destruct Hs as [z now unix En Cl Ti|z En St Pe|z En St Pe|z un En St Pe Co|z un fl En St Pe Co|z l l' En St Ls|z l En St Le Lr|z l En St Le Lr|
    z en op ch r evs En St Ca Sp|z En Sg|z En Sg|z En Sg Sn Id|z En Sg Sn St Pe|z ph f' ph' En Sv Ss|z En Sv|z En Sv];
    cbn [ended at_stage pr_stage pr_end]; intros S X; try congruence; try (injection X as <-; auto; try congruence).
  destruct Id; contradiction.
Qed.
Theorem C65_zero : forall o persist work nprocs junk envs ch0 now0 unix0 f0 x t e,
  times_ok now0 unix0 -> (0 < nprocs)%nat -> plain_name persist -> persist <> [] -> own_work f0 persist work -> small_enough o (during (x :: t)) ->
  life o persist work nprocs junk envs (born ch0 now0 unix0 f0) (x :: t) -> pr_stage x = SServe -> pr_end x = Some e -> status e = 0%Z -> e <> EForced ->
  exists d, content (pr_fs x) persist = Some d /\ whole_file o lz4_compress (during (x :: t)) d.
Proof.
  intros o persist work nprocs junk envs ch0 now0 unix0 f0 x t e Ht Np Ex Pe Ow Sm H S E St Nf.
  apply (proj1 (C65_ending o persist work nprocs junk envs ch0 now0 unix0 f0 x t Ht Np Ex Ow Sm H)). rewrite E. f_equal.
  destruct (served_end o persist work nprocs junk envs (born ch0 now0 unix0 f0) x t e eq_refl H Pe S E) as [K|[K|K]]; [contradiction|exact K|].
  rewrite K in St. discriminate.
Qed.

(** ** The next process *)
(** Everything is loaded before the first call is served. *)
Theorem C65_load_first : forall o persist work nprocs junk envs ch0 now0 unix0 f0 x t,
  times_ok now0 unix0 -> life o persist work nprocs junk envs (born ch0 now0 unix0 f0) (x :: t) -> pr_ops x <> [] ->
  exists z, In z t /\ pr_stage z = SServe /\ pr_ops z = [].
Proof.
  intros o persist work nprocs junk envs ch0 now0 unix0 f0 x t Ht H. remember (x :: t) as l eqn:El. revert x t El.
  induction H as [|t x y H IH Hs]; intros x' t' El Ne.
  - injection El as <- <-. contradiction.
  - injection El as <- <-. specialize (IH x t eq_refl).
    destruct (life_inv o persist work nprocs junk envs ch0 now0 unix0 f0 Ht x t H) as (_ & _ & St & _). unfold start_inv in St.
    assert (Up : pr_ops x <> [] -> exists z, In z (x :: t) /\ pr_stage z = SServe /\ pr_ops z = []).
    { intro N. destruct (IH N) as (z & A & B). exists z. split; [right; exact A|exact B]. }
    destruct Hs; unfold at_stage, ended in *; cbn [pr_ops] in *; try (apply Up; assumption).
    destruct (pr_ops x) eqn:E.
    + exists x. split; [left; reflexivity|]. auto.
    + apply Up. discriminate.
Qed.

Lemma next_load : forall o o' persist work nprocs nprocs' junk envs (envs' : env -> Prop) ch0 now0 unix0 f0 x t ch1,
  times_ok now0 unix0 -> (0 < nprocs)%nat -> plain_name persist -> own_work f0 persist work ->
  small_enough o (during (x :: t)) ->
  life o persist work nprocs junk envs (born ch0 now0 unix0 f0) (x :: t) -> pr_end x = Some ESaved ->
  (forall z, In z (x :: t) -> pr_stage z = SServe -> pr_ops z = [] -> reachable (ctx_of o) (pr_cache z)) ->
  (forall n, length (junk n) = N.to_nat n) -> (forall en, envs' en -> mem_fine en) -> (0 < nprocs')%nat ->
  reachable (ctx_of o') ch1 ->
  room_for o' ch1 (fun key => exists s v, during (x :: t) (route (ctx_of o) key) s /\ sees (ctx_of o) (sh_cache s) key (sh_now s) (Some v)) ->
  exists file shots, content (pr_fs x) persist = Some file /\ (forall i, (i < N.to_nat (c_nshards (ctx_of o)))%nat -> during (x :: t) i (shots i)) /\
  forall (ck : Z -> Z -> Prop) l, (forall now unix, ck now unix -> times_ok now unix) ->
    load_steps (ctx_of o') (lz4_decompress junk) ck envs' (load_start file nprocs' ch1) l ->
    (load_ended l = true -> load_result l = 0%Z /\ reachable (ctx_of o') (ld_cache l) /\ forall key, let s := shots (route (ctx_of o) key) in
       (sees (ctx_of o) (sh_cache s) key (sh_now s) None -> same_at (ctx_of o') ch1 (ld_cache l) key) /\
       (forall v, sees (ctx_of o) (sh_cache s) key (sh_now s) (Some v) -> exists now' unix', ck now' unix' /\
          came_back o' ch1 (ld_cache l) key v (sh_now s) (sh_unix s) now' unix')) /\
    (load_ended l = false -> (exists now unix, ck now unix) -> (exists en, envs' en) ->
       exists y, load_step (ctx_of o') (lz4_decompress junk) ck envs' l y).
Proof.
  intros o o' persist work nprocs nprocs' junk envs envs' ch0 now0 unix0 f0 x t ch1 Ht Np Ex Ow Sm H E Re J En Np' Rn Rm.
  destruct (proj1 (C65_ending o persist work nprocs junk envs ch0 now0 unix0 f0 x t Ht Np Ex Ow Sm H) E) as (file & Cf & shots & Ts & Sv).
  exists file, shots. split; [exact Cf|]. split; [exact Ts|]. intros ck l Ck Hs.
  assert (Re' : forall z, In z (x :: t) -> pr_stage z = SServe -> reachable (ctx_of o) (pr_cache z)).
  { exact (life_reach o persist work nprocs junk envs ch0 now0 unix0 f0 Ht (x :: t) H Re). }
  assert (Sh : forall i s, during (x :: t) i s -> shot_ok o s).
  { intros i s (y & Hy & _ & Y2 & ->). destruct (life_tail o persist work nprocs junk envs ch0 now0 unix0 f0 (x :: t) y H Hy) as (t2 & Hl2 & _). split.
    - apply Re'; [exact Hy|]. exact (save_serve o persist work nprocs junk envs ch0 now0 unix0 f0 Ht y t2 Hl2 Y2).
    - apply (life_inv o persist work nprocs junk envs ch0 now0 unix0 f0 Ht y t2 Hl2). }
  assert (Rl : forall key, (route (ctx_of o) key < N.to_nat (c_nshards (ctx_of o)))%nat) by apply route_small.
  apply (back_load o o' lz4_compress (lz4_decompress junk) (lz4_ok junk J) shots (fun i Hi => Sh i _ (Ts i Hi)) file Sv ch1 Rn ck Ck envs' En)
    with (nprocs := nprocs'); try assumption.
  intros m key Hm (v & Hv). apply Rm.
  - intros k Hk. destruct (Hm k Hk) as [X|(w & Hw)]; [left; exact X|right]. exists (shots (route (ctx_of o) k)), w. split; [apply Ts; apply Rl|exact Hw].
  - exists (shots (route (ctx_of o) key)), v. split; [apply Ts; apply Rl|exact Hv].
Qed.
Lemma new_reachable : forall o al ch, cache_new (ctx_of o) al = Ok (Some ch) -> reachable (ctx_of o) ch.
Proof. intros o al ch H. exists al, ch, [], [], []. split; [exact H|]. split; [exact I|reflexivity]. Qed.
Lemma new_gone : forall o al ch key, cache_new (ctx_of o) al = Ok (Some ch) -> gone o ch key.
Proof.
  intros o al ch key H t. destruct (new_ok (ctx_of o) (opts_load o) (opts_shards o) al ch H) as (Iv & _ & _ & Ab & _).
  apply (sees_iff (ctx_of o) (opts_load o)); [exact Iv|]. unfold live_item. rewrite Ab. reflexivity.
Qed.

(** A process that has saved, and the next one. When that begins to serve, it has every item as it was in its shard at some moment after
    the signal. *)
Theorem C65_restart : forall o o' persist work work' nprocs nprocs' junk envs (envs' : env -> Prop) ch0 now0 unix0 f0 x t ch1 al now1 unix1,
  (* the first process *)
  times_ok now0 unix0 -> (0 < nprocs)%nat -> plain_name persist -> persist <> [] -> own_work f0 persist work ->
  small_enough o (during (x :: t)) ->
  life o persist work nprocs junk envs (born ch0 now0 unix0 f0) (x :: t) -> pr_end x = Some ESaved ->
  (forall z, In z (x :: t) -> pr_stage z = SServe -> pr_ops z = [] -> reachable (ctx_of o) (pr_cache z)) ->
  (* the next *)
  (forall n, length (junk n) = N.to_nat n) -> (forall en, envs' en -> mem_fine en) -> (0 < nprocs')%nat -> times_ok now1 unix1 ->
  cache_new (ctx_of o') al = Ok (Some ch1) ->
  room_for o' ch1 (fun key => exists s v, during (x :: t) (route (ctx_of o) key) s /\ sees (ctx_of o) (sh_cache s) key (sh_now s) (Some v)) ->
  exists shots, (forall i, (i < N.to_nat (c_nshards (ctx_of o)))%nat -> during (x :: t) i (shots i)) /\
  forall t' z, life o' persist work' nprocs' junk envs' (born ch1 now1 unix1 (pr_fs x)) t' -> In z t' -> pr_stage z = SServe -> pr_ops z = [] ->
    reachable (ctx_of o') (pr_cache z) /\
    forall key, let s := shots (route (ctx_of o) key) in
      (sees (ctx_of o) (sh_cache s) key (sh_now s) None -> gone o' (pr_cache z) key) /\
      (forall v, sees (ctx_of o) (sh_cache s) key (sh_now s) (Some v) ->
         exists now' unix', reading t' now' unix' /\ came_back o' ch1 (pr_cache z) key v (sh_now s) (sh_unix s) now' unix').
Proof.
  intros o o' persist work work' nprocs nprocs' junk envs envs' ch0 now0 unix0 f0 x t ch1 al now1 unix1 Ht Np Ex Ne Ow Sm H E Re J En Np' Ht' Nw Rm.
  destruct (next_load o o' persist work nprocs nprocs' junk envs envs' ch0 now0 unix0 f0 x t ch1 Ht Np Ex Ow Sm H E Re J En Np' (new_reachable o' al ch1 Nw) Rm)
    as (file & shots & Cf & Ts & Ld).
  exists shots. split; [exact Ts|]. intros t' z H' Hz S1 S2.
  assert (Hf : forall un, content (clean un (pr_fs x)) persist = Some file) by (intro un; rewrite clean_content; assumption).
  destruct (life_tail o' persist work' nprocs' junk envs' ch1 now1 unix1 (pr_fs x) t' z H' Hz) as (t1 & Hl & Inc).
  pose proof (found o' persist work' nprocs' junk envs' ch1 now1 unix1 (pr_fs x) Ht' file Ne Hf z t1 Hl) as F.
  unfold found_inv in F. rewrite S1 in F. destruct (F S2) as (l & Hs & He & Ec). clear F.
  assert (Ck : forall now unix, reading t' now unix -> times_ok now unix).
  { intros now unix (y & l' & Hy & _ & -> & ->). destruct (life_tail o' persist work' nprocs' junk envs' ch1 now1 unix1 (pr_fs x) t' y H' Hy) as (t2 & Hl2 & _).
    apply (life_inv o' persist work' nprocs' junk envs' ch1 now1 unix1 (pr_fs x) Ht' y t2 Hl2). }
  assert (Hs' : load_steps (ctx_of o') (lz4_decompress junk) (reading t') envs' (load_start file nprocs' ch1) l).
  { eapply loads_mono; [|exact Hs]. intros now unix (y & l' & Hy & Y). exists y, l'. split; [apply Inc; exact Hy|exact Y]. }
  destruct (proj1 (Ld (reading t') l Ck Hs') He) as (_ & A2 & A3).
  rewrite Ec. split; [exact A2|]. intros key s. destruct (A3 key) as [K1 K2]. split; [|exact K2].
  intros Hn t0. apply (K1 Hn t0 None). exact (new_gone o' al ch1 key Nw t0).
Qed.

(** An item without expiry that no one touches from the signal on is there again. *)
Theorem C65_kept : forall o o' persist work work' nprocs nprocs' junk envs (envs' : env -> Prop) ch0 now0 unix0 f0 x t ch1 al now1 unix1 key v,
  times_ok now0 unix0 -> (0 < nprocs)%nat -> plain_name persist -> persist <> [] -> own_work f0 persist work ->
  small_enough o (during (x :: t)) ->
  life o persist work nprocs junk envs (born ch0 now0 unix0 f0) (x :: t) -> pr_end x = Some ESaved ->
  (forall z, In z (x :: t) -> pr_stage z = SServe -> pr_ops z = [] -> reachable (ctx_of o) (pr_cache z)) ->
  (* [key] holds [v] whenever it is looked at after the signal *)
  (forall z, In z (x :: t) -> pr_signal z = true -> sees (ctx_of o) (pr_cache z) key (pr_now z) (Some v)) -> v_exp v = 0%Z ->
  (forall n, length (junk n) = N.to_nat n) -> (forall en, envs' en -> mem_fine en) -> (0 < nprocs')%nat -> times_ok now1 unix1 ->
  cache_new (ctx_of o') al = Ok (Some ch1) ->
  room_for o' ch1 (fun key => exists s v, during (x :: t) (route (ctx_of o) key) s /\ sees (ctx_of o) (sh_cache s) key (sh_now s) (Some v)) ->
  forall t' z, life o' persist work' nprocs' junk envs' (born ch1 now1 unix1 (pr_fs x)) t' -> In z t' -> pr_stage z = SServe -> pr_ops z = [] ->
    exists tok, holds o' (pr_cache z) key (mkView (v_val v) 0 (v_flags v) tok).
Proof.
  intros o o' persist work work' nprocs nprocs' junk envs envs' ch0 now0 unix0 f0 x t ch1 al now1 unix1 key v Ht Np Ex Ne Ow Sm H E Re Kp Ev J En Np' Ht' Nw Rm t' z H' Hz S1 S2.
  destruct (C65_restart o o' persist work work' nprocs nprocs' junk envs envs' ch0 now0 unix0 f0 x t ch1 al now1 unix1 Ht Np Ex Ne Ow Sm H E Re J En Np' Ht' Nw Rm)
    as (shots & Ts & A).
  destruct (A t' z H' Hz S1 S2) as (_ & B). destruct (B key) as [_ C]. clear A B.
  assert (D : during (x :: t) (route (ctx_of o) key) (shots (route (ctx_of o) key))) by (apply Ts; apply route_small).
  destruct D as (y & Y1 & Y2 & Y3 & Y4). rewrite Y4 in C. destruct (C v (Kp y Y1 Y2)) as (now' & unix' & _ & Cb).
  destruct Cb as [tok _ K|e tok X _ _ _ _|X _ _|tok X _ _]; try contradiction. exists tok. exact K.
Qed.

(** The next process does not fail to load, and can begin to serve. *)
Lemma load_finish : forall c d (ck : Z -> Z -> Prop) envs l0, (forall now unix, ck now unix -> times_ok now unix) ->
  (forall l, load_steps c d ck envs l0 l -> load_ended l = false -> exists y, load_step c d ck envs l y) ->
  exists l, load_steps c d ck envs l0 l /\ load_ended l = true.
Proof.
  intros c d ck envs l0 Ck Pr.
  assert (G : forall n l, effort l < N.of_nat n -> load_steps c d ck envs l0 l -> exists l', load_steps c d ck envs l0 l' /\ load_ended l' = true).
  { induction n as [|n IH]; intros l Hn Hl; [lia|]. destruct (load_ended l) eqn:El; [exists l; auto|].
    destruct (Pr l Hl El) as (y & Hy). apply (IH y); [|eapply lss_step; eassumption]. pose proof (step_effort c d ck envs Ck l y Hy). lia. }
  apply (G (S (N.to_nat (effort l0))) l0); [lia|apply lss_refl].
Qed.
Lemma life_loads : forall o persist work nprocs junk envs b x t l l', life o persist work nprocs junk envs b (x :: t) -> pr_end x = None -> pr_stage x = SLoad l ->
  load_steps (ctx_of o) (lz4_decompress junk) (fun now unix => now = pr_now x /\ unix = pr_unix x) envs l l' ->
  exists y t', life o persist work nprocs junk envs b (y :: t') /\ pr_end y = None /\ pr_stage y = SLoad l' /\ pr_ops y = pr_ops x /\
    pr_now y = pr_now x /\ pr_unix y = pr_unix x.
Proof.
  intros o persist work nprocs junk envs b x t l l' H E S Hl. induction Hl as [l|l m n Hl IH Hs].
  - exists x, t. auto 6.
  - destruct (IH S) as (y & t' & A & B & C & D & F & G). eexists _, (y :: t'). split.
    + eapply li_step; [exact A|]. eapply l_load; [exact B|exact C|]. rewrite F, G. exact Hs.
    + unfold at_stage. cbn. auto 6.
Qed.
Theorem C65_starts : forall o o' persist work work' nprocs nprocs' junk envs (envs' : env -> Prop) ch0 now0 unix0 f0 x t ch1 al now1 unix1,
  times_ok now0 unix0 -> (0 < nprocs)%nat -> plain_name persist -> persist <> [] -> own_work f0 persist work ->
  small_enough o (during (x :: t)) ->
  life o persist work nprocs junk envs (born ch0 now0 unix0 f0) (x :: t) -> pr_end x = Some ESaved ->
  (forall z, In z (x :: t) -> pr_stage z = SServe -> pr_ops z = [] -> reachable (ctx_of o) (pr_cache z)) ->
  (forall n, length (junk n) = N.to_nat n) -> (forall en, envs' en -> mem_fine en) -> (exists en, envs' en) -> (0 < nprocs')%nat -> times_ok now1 unix1 ->
  cache_new (ctx_of o') al = Ok (Some ch1) ->
  room_for o' ch1 (fun key => exists s v, during (x :: t) (route (ctx_of o) key) s /\ sees (ctx_of o) (sh_cache s) key (sh_now s) (Some v)) ->
  (forall t' z, life o' persist work' nprocs' junk envs' (born ch1 now1 unix1 (pr_fs x)) (z :: t') -> pr_end z <> Some ENoLoad) /\
  exists t' z, life o' persist work' nprocs' junk envs' (born ch1 now1 unix1 (pr_fs x)) (z :: t') /\ pr_end z = None /\ pr_stage z = SServe /\ pr_ops z = [].
Proof.
  intros o o' persist work work' nprocs nprocs' junk envs envs' ch0 now0 unix0 f0 x t ch1 al now1 unix1 Ht Np Ex Ne Ow Sm H E Re J En En1 Np' Ht' Nw Rm.
  destruct (next_load o o' persist work nprocs nprocs' junk envs envs' ch0 now0 unix0 f0 x t ch1 Ht Np Ex Ow Sm H E Re J En Np' (new_reachable o' al ch1 Nw) Rm)
    as (file & shots & Cf & Ts & Ld).
  assert (Hf : forall un, content (clean un (pr_fs x)) persist = Some file) by (intro un; rewrite clean_content; assumption).
  split.
  - intros t' z H' Ez. inversion H' as [Eb|t2 y z' Hl Hs Eq]; [subst z; discriminate|]. subst z' t'.
    inversion Hs; subst; unfold at_stage, ended in Ez; cbn [pr_end] in Ez; try discriminate; try congruence.
    match goal with K : pr_stage y = SLoad _ |- _ => rename K into Ky end.
    pose proof (found o' persist work' nprocs' junk envs' ch1 now1 unix1 (pr_fs x) Ht' file Ne Hf y t2 Hl) as F. unfold found_inv in F. rewrite Ky in F.
    assert (Ck : forall now unix, reading (y :: t2) now unix -> times_ok now unix).
    { intros now unix (w & l' & Hw & _ & -> & ->).
      destruct (life_tail o' persist work' nprocs' junk envs' ch1 now1 unix1 (pr_fs x) (y :: t2) w Hl Hw) as (t3 & Hl2 & _).
      apply (life_inv o' persist work' nprocs' junk envs' ch1 now1 unix1 (pr_fs x) Ht' w t3 Hl2). }
    destruct (proj1 (Ld _ l Ck F) ltac:(assumption)) as (R0 & _). contradiction.
  - set (ck := fun now unix : Z => now = now1 /\ unix = unix1).
    assert (Ck : forall now unix, ck now unix -> times_ok now unix) by (intros now unix [-> ->]; exact Ht').
    destruct (load_finish (ctx_of o') (lz4_decompress junk) ck envs' (load_start file nprocs' ch1) Ck) as (l & Hl & He).
    { intros l Hl He. apply (Ld ck l Ck Hl); [exact He|exists now1, unix1; split; reflexivity|exact En1]. }
    assert (L1 : life o' persist work' nprocs' junk envs' (born ch1 now1 unix1 (pr_fs x))
      (at_stage (born ch1 now1 unix1 (pr_fs x)) (SLoad (load_start file nprocs' ch1)) ch1 (clean (fun _ => true) (pr_fs x)) :: [born ch1 now1 unix1 (pr_fs x)])).
    { eapply li_step; [apply li_born|]. apply (l_file o' persist work' nprocs' junk envs' (born ch1 now1 unix1 (pr_fs x)) (fun _ => true) file); auto. }
    destruct (life_loads o' persist work' nprocs' junk envs' _ _ _ _ l L1 eq_refl eq_refl Hl) as (y & t' & A & B & C & D & _).
    eexists (y :: t'), _. split; [eapply li_step; [exact A|]|].
    + eapply l_loaded; [exact B|exact C|exact He|]. apply (proj1 (Ld ck l Ck Hl) He).
    + unfold at_stage. cbn. auto.
Qed.
