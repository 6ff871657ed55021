(** Concrete cases for PropSave, and what does not hold. *)
From Verif Require Import Base Types Clamp Entry Hash Map Shard Spec Cache Refine Reach Observe PropCache Text CmdSpec CmdsProofs Save SaveSpec CrcProofs
  SaveProofs LoadProofs LoadProofs2 LoadProofs3 SaveFs SaveFsProofs PropSave.
From Coq Require Import String Permutation.
Local Open Scope N_scope.
Notation map := List.map.
Notation length := List.length.
Notation concat := List.concat.

(** A codec that does not compress. *)
Definition raw (s : bytes) : bytes := s.
Definition unraw (z : bytes) (n : N) : option bytes := Some z.
Lemma raw_ok : lz_ok raw unraw.
Proof.
  intros s Hs Hl. unfold raw, unraw. split; [exact Hs|]. split; [|reflexivity]. eapply N.le_lt_trans; [exact Hl|reflexivity].
Qed.

(** The demonstration cache (k1 until 123, k3 for ever), saved at 106, when the wall clock
    shows 1000. *)
Definition demo_shot : shot := mkShot demo_ch 106 1000.
Lemma demo_shot_cache : sh_cache demo_shot = demo_ch.
Proof. cbv delta [demo_shot] beta iota zeta. cbn [sh_cache]. reflexivity. Qed.
Lemma demo_shot_ok : shot_ok demo_opts demo_shot.
Proof. split; [exact demo_reachable|]. split; cbn [sh_now sh_unix demo_shot]; unfold INT64_MAX; lia. Qed.
(** The blocks: k3 is in shard 0, k1 in shard 1 with 17 left. *)
Definition demo_d0 : bytes := [232; 7; 0; 2; 107; 51; 0; 0; 0; 2].
Definition demo_d1 : bytes := [232; 7; 0; 2; 107; 49; 1; 119; 17; 5; 4].
Lemma demo_made0 : made_block demo_opts demo_shot 0 (Some demo_d0).
Proof. exists (plenty_env 1). eexists. vm_compute. reflexivity. Qed.
Lemma demo_made1 : made_block demo_opts demo_shot 1 (Some demo_d1).
Proof. exists (plenty_env 1). eexists. vm_compute. reflexivity. Qed.
Definition demo_b0 : bytes := block_text raw demo_d0.
Definition demo_b1 : bytes := block_text raw demo_d1.
(** The second block may come first. *)
Definition demo_file : bytes := demo_b1 ++ demo_b0.
Lemma demo_saved : saved_file demo_opts raw (fun _ => demo_shot) demo_file.
Proof.
  exists [Some demo_d0; Some demo_d1], [demo_d1; demo_d0]. split; [reflexivity|]. split; [|split].
  - intros i d H. destruct i as [|[|i]]; cbn [nth_error] in H.
    + injection H as <-. split; [exact demo_made0|]. intros s E. injection E as <-. vm_compute. discriminate.
    + injection H as <-. split; [exact demo_made1|]. intros s E. injection E as <-. vm_compute. discriminate.
    + destruct i; discriminate.
  - cbn [flat_map app]. apply perm_swap.
  - cbn [map concat]. rewrite app_nil_r. reflexivity.
Qed.

Lemma demo_new_reachable : reachable demo_c demo_new.
Proof.
  exists (fun _ => true), demo_new, [], [], []. split; [exact demo_is_new|]. split; [exact Logic.I|reflexivity].
Qed.
Lemma demo_new_gone : forall key, gone demo_opts demo_new key.
Proof.
  intros key t. apply (sees_iff _ (opts_load demo_opts)); [apply (reach_cinv demo_opts); exact demo_new_reachable|].
  destruct (new_ok demo_c (opts_load _) (opts_shards _) _ _ demo_is_new) as (_ & _ & _ & A & _). unfold live_item. rewrite A. reflexivity.
Qed.
Lemma demo_room : room_for demo_opts demo_new (fun key => exists v, sees demo_c demo_ch key 106 (Some v)).
Proof.
  intros m key Hm _. apply (roomy_small demo_c (opts_load demo_opts)). intros ks Nd H.
  assert (L : (length ks <= 3)%nat); [|lia]. apply demo_number; [exact Nd|]. intros k Hk. destruct (H k Hk) as [_ Mk].
  destruct (Hm k Mk) as [X|(v & Hv)].
  - exfalso. apply X. apply (new_ok demo_c (opts_load _) (opts_shards _) _ _ demo_is_new).
  - apply (sees_iff demo_c (opts_load demo_opts)) in Hv; [|apply (reach_cinv demo_opts); exact demo_reachable].
    intro E. unfold live_item in Hv. rewrite E in Hv. discriminate.
Qed.

(** *** A run of load *)
(** A load, written as a list of moves: push a block, the worker takes one, stores, goes on, ends,
    the reader ends. One worker. *)
Inductive move := MPush | MTake (now unix : Z) | MStore | MNext | MEnd | MRead.
Definition play1 (c : ctx) (x : loading) (m : move) : option loading :=
  match m, x with
  | MPush, mkLoading (b :: lf) rd None q false [w] ch => match q with [] => Some (mkLoading lf rd None [b] false [w] ch) | _ => None end
  | MTake now unix, mkLoading lf rd dn [b] false [WIdle] ch =>
      match load_block unraw b now unix with Ok (l, fin) => Some (mkLoading lf rd dn [] false [WRun l fin] ch) | Bad _ => None end
  | MStore, mkLoading lf rd dn q fl [WRun (x :: l) fin] ch =>
      match step c (plenty_env 1) ch x with
      | Ok (ch', RStatus INSERTED _, _) | Ok (ch', RStatus REPLACED _, _) => Some (mkLoading lf rd dn q fl [WRun l fin] ch')
      | _ => None
      end
  | MNext, mkLoading lf rd dn q fl [WRun [] true] ch => Some (mkLoading lf rd dn q fl [WIdle] ch)
  | MNext, mkLoading lf rd dn q fl [WRun [] false] ch => Some (mkLoading lf rd dn q true [WEnd] ch)
  | MEnd, mkLoading lf rd (Some d) [] fl [WIdle] ch => Some (mkLoading lf rd (Some d) [] fl [WEnd] ch)
  | MRead, mkLoading [] rd None q fl ws ch => Some (mkLoading [] rd (Some rd) q fl ws ch)
  | _, _ => None
  end.
Lemma play1_step : forall c (clocks : Z -> Z -> Prop) (envs : env -> Prop) x m y, play1 c x m = Some y ->
  match m with MTake now unix => clocks now unix | _ => True end -> envs (plenty_env 1) ->
  load_step c unraw clocks envs x y.
Proof.
  intros c clocks envs x m y H Hc He. destruct x as [lf rd dn q fl ws ch].
  destruct m; cbn [play1] in H.
  - destruct lf as [|b lf]; [discriminate|]. destruct dn; [discriminate|]. destruct fl; [discriminate|]. destruct ws as [|w [|w' ws]]; try discriminate.
    destruct q; [|discriminate]. injection H as <-. apply (ls_push c unraw clocks envs b lf rd [] [w] ch). cbn [length]. lia.
  - destruct q as [|b [|b' q]]; try discriminate. destruct fl; [discriminate|]. destruct ws as [|w [|w' ws]]; try (destruct w; discriminate); [discriminate|].
    destruct w; try discriminate. destruct (load_block unraw b now unix) as [[l fin]|] eqn:E; [|discriminate]. injection H as <-.
    apply (ls_take c unraw clocks envs lf rd dn [] b [] [] ch now unix l fin Hc E).
  - destruct ws as [|w [|w' ws]]; try (destruct w as [|[|]|]; discriminate); [discriminate|]. destruct w as [|[|x l] fin|]; try discriminate.
    destruct (step c (plenty_env 1) ch x) as [[[ch' r] evs]|] eqn:E; [|discriminate]. destruct r as [st sh| | | | |]; try discriminate.
    destruct st; try discriminate; injection H as <-; apply (ls_store c unraw clocks envs lf rd dn q fl [] [] ch (plenty_env 1) x l fin ch' _ sh evs He E); auto.
  - destruct ws as [|w [|w' ws]]; try (destruct w as [|[|] [|]|]; discriminate); [discriminate|]. destruct w as [|[|] [|]|]; try discriminate; injection H as <-.
    + apply (ls_next c unraw clocks envs lf rd dn q fl [] [] ch).
    + apply (ls_fail c unraw clocks envs lf rd dn q fl [] [] ch).
  - destruct dn as [d|]; [|discriminate]. destruct q; [|discriminate]. destruct ws as [|w [|w' ws]]; try (destruct w; discriminate); [discriminate|].
    destruct w; try discriminate. injection H as <-. apply (ls_end c unraw clocks envs lf rd (Some d) [] fl [] [] ch). right. split; [reflexivity|discriminate].
  - destruct lf; [|discriminate]. destruct dn; [discriminate|]. injection H as <-. apply ls_read.
Qed.
Fixpoint play (c : ctx) (x : loading) (ms : list move) : option loading :=
  match ms with [] => Some x | m :: r => match play1 c x m with Some y => play c y r | None => None end end.
Lemma steps_cons : forall c d clocks envs x y z, load_step c d clocks envs x y -> load_steps c d clocks envs y z -> load_steps c d clocks envs x z.
Proof.
  intros c d clocks envs x y z H K. induction K as [y|y w z K IH Hz]; [exact (lss_step _ _ _ _ _ _ _ (lss_refl _ _ _ _ x) H)|].
  exact (lss_step _ _ _ _ _ _ _ (IH H) Hz).
Qed.
Lemma play_steps : forall c (clocks : Z -> Z -> Prop) (envs : env -> Prop) ms x y, play c x ms = Some y ->
  (forall now unix, In (MTake now unix) ms -> clocks now unix) -> envs (plenty_env 1) -> load_steps c unraw clocks envs x y.
Proof.
  intros c clocks envs ms. induction ms as [|m ms IH]; intros x y H Hc He; cbn [play] in H; [injection H as <-; apply lss_refl|].
  destruct (play1 c x m) as [z|] eqn:E; [|discriminate]. eapply steps_cons.
  - apply (play1_step c clocks envs x m z E); [|exact He]. destruct m; try exact Logic.I. apply Hc. left. reflexivity.
  - apply IH; [exact H| |exact He]. intros n u Hin. apply Hc. right. exact Hin.
Qed.

(** Loaded 5 later on the wall clock, in another process whose own clock shows 500: k1
    is back for 12 more, k3 for ever. *)
Definition demo_moves : list move :=
  [MPush; MTake 500 1005; MPush; MStore; MNext; MTake 501 1006; MStore; MNext; MRead; MEnd].
Definition at_500 (now unix : Z) : Prop := (unix = now + 505 /\ 500 <= now <= 600)%Z.
Definition fine_env (en : env) : Prop := en = plenty_env 1.
Definition demo_loaded : loading := match play demo_c (load_start demo_file 1 demo_new) demo_moves with Some x => x | None => load_start [] 1 demo_new end.
Lemma at_500_ok : forall now unix, at_500 now unix -> times_ok now unix.
Proof. intros now unix [A B]. split; unfold INT64_MAX; lia. Qed.
Lemma at_500_some : exists now unix, at_500 now unix.
Proof. exists 500%Z, 1005%Z. split; lia. Qed.
Lemma fine_env_ok : forall en, fine_env en -> mem_fine en.
Proof. intros en -> s. split; reflexivity. Qed.
Lemma demo_load_run : load_steps demo_c unraw at_500 fine_env (load_start demo_file 1 demo_new) demo_loaded /\ load_ended demo_loaded = true.
Proof.
  split; [|vm_compute; reflexivity].
  apply (play_steps demo_c at_500 fine_env demo_moves).
  - vm_compute. reflexivity.
  - intros now unix Hin. unfold demo_moves in Hin. cbn [In] in Hin.
    repeat match goal with H : _ \/ _ |- _ => destruct H as [H|H] end; try discriminate; try contradiction; injection Hin as <- <-; split; lia.
  - reflexivity.
Qed.

(** The hypotheses of C42_restored, C42_exact and C42_ends are met. *)
Example C42_restored_case :
  lz_ok raw unraw /\ (forall i, (i < N.to_nat (c_nshards demo_c))%nat -> shot_ok demo_opts demo_shot) /\
  saved_file demo_opts raw (fun _ => demo_shot) demo_file /\ reachable demo_c demo_new /\ (forall key, gone demo_opts demo_new key) /\
  (forall now unix, at_500 now unix -> times_ok now unix) /\ (forall en, fine_env en -> mem_fine en) /\
  room_for demo_opts demo_new (fun key => exists v, sees demo_c demo_ch key 106 (Some v)) /\
  exists x, load_steps demo_c unraw at_500 fine_env (load_start demo_file 1 demo_new) x /\ load_ended x = true /\ load_result x = 0%Z /\
    sees demo_c (ld_cache x) [107; 49] 505 (Some (mkView [119] 512 5 2)) /\
    sees demo_c (ld_cache x) [107; 49] 513 None /\
    sees demo_c (ld_cache x) [107; 51] 1000 (Some (mkView [] 0 0 2)).
Proof.
  split; [exact raw_ok|]. split; [intros; exact demo_shot_ok|]. split; [exact demo_saved|]. split; [exact demo_new_reachable|].
  split; [exact demo_new_gone|]. split; [exact at_500_ok|]. split; [exact fine_env_ok|]. split; [exact demo_room|].
  destruct demo_load_run as [Hr He]. exists demo_loaded. split; [exact Hr|]. split; [exact He|]. split; [vm_compute; reflexivity|].
  assert (R : reachable demo_c (ld_cache demo_loaded)).
  { destruct (C42_restored demo_opts demo_opts raw unraw (fun _ => demo_shot) demo_file demo_new at_500 fine_env 1 raw_ok (fun _ _ => demo_shot_ok) demo_saved
      demo_new_reachable at_500_ok at_500_some fine_env_ok (ex_intro _ _ eq_refl) demo_room (le_n 1) demo_loaded Hr) as [A _].
    exact (proj1 (proj2 (A He))). }
  pose proof (reach_cinv demo_opts _ R) as I.
  repeat split; (apply (sees_iff demo_c (opts_load demo_opts)); [exact I|vm_compute; reflexivity]).
Qed.

Definition brink_moves : list move :=
  [MPush; MTake 500 1017; MPush; MStore; MNext; MTake 500 1017; MStore; MNext; MRead; MEnd].
Definition at_brink (now unix : Z) : Prop := (now = 500 /\ unix = 1017)%Z.
Definition demo_brink : loading := match play demo_c (load_start demo_file 1 demo_new) brink_moves with Some x => x | None => load_start [] 1 demo_new end.
Lemma demo_brink_run : load_steps demo_c unraw at_brink fine_env (load_start demo_file 1 demo_new) demo_brink /\ load_ended demo_brink = true.
Proof.
  split; [|vm_compute; reflexivity].
  apply (play_steps demo_c at_brink fine_env brink_moves).
  - vm_compute. reflexivity.
  - intros now unix Hin. unfold brink_moves in Hin. cbn [In] in Hin.
    repeat match goal with H : _ \/ _ |- _ => destruct H as [H|H] end; try discriminate; try contradiction; injection Hin as <- <-; split; lia.
  - reflexivity.
Qed.
(** At the very instant of its expiry an item is loaded for ever: "items whose expiry has
    passed are not restored" fails at one instant, and "the same expiry" too. *)
Theorem C42_brink_refuted : exists x,
  load_steps demo_c unraw at_brink fine_env (load_start demo_file 1 demo_new) x /\
  load_ended x = true /\ load_result x = 0%Z /\
  (* it would have expired at 1017 *)
  instant 106 1000 123 = 1017%Z /\
  sees demo_c (ld_cache x) [107; 49] 100000 (Some (mkView [119] 0 5 2)).
Proof.
  destruct demo_brink_run as [Hs He]. exists demo_brink. split; [exact Hs|]. split; [exact He|]. split; [vm_compute; reflexivity|]. split; [reflexivity|].
  assert (Ck : forall now unix, at_brink now unix -> times_ok now unix) by (intros now unix [-> ->]; split; unfold INT64_MAX; lia).
  assert (Ex : exists now unix, at_brink now unix) by (exists 500%Z, 1017%Z; split; reflexivity).
  assert (R : reachable demo_c (ld_cache demo_brink)).
  { destruct (C42_restored demo_opts demo_opts raw unraw (fun _ => demo_shot) demo_file demo_new at_brink fine_env 1 raw_ok (fun _ _ => demo_shot_ok) demo_saved
      demo_new_reachable Ck Ex fine_env_ok (ex_intro _ _ eq_refl) demo_room (le_n 1) demo_brink Hs) as [A _].
    exact (proj1 (proj2 (A He))). }
  apply (sees_iff demo_c (opts_load demo_opts)); [exact (reach_cinv demo_opts _ R)|]. vm_compute. reflexivity.
Qed.

(** The cas token is in the file but not restored: k1 had the token 4, and gets 2. *)
Theorem C42_cas_refuted : sees demo_c demo_ch [107; 49] 106 (Some (mkView [119] 123 5 4)) /\
  exists x, load_steps demo_c unraw at_500 fine_env (load_start demo_file 1 demo_new) x /\ load_ended x = true /\ load_result x = 0%Z /\
    sees demo_c (ld_cache x) [107; 49] 505 (Some (mkView [119] 512 5 2)).
Proof.
  split; [apply demo_sees_eq; vm_compute; reflexivity|].
  destruct C42_restored_case as (_ & _ & _ & _ & _ & _ & _ & _ & x & A & B & C & D & _). exists x. auto.
Qed.

(** *** A run of save *)
Definition demo_takes (i : nat) (s : shot) : Prop := s = demo_shot /\ (i < 2)%nat.
Definition block_of (x : out (cache * option bytes)) : option bytes := match x with Ok (_, d) => d | Bad _ => None end.
Lemma demo_block0 : forall en, block_of (shard_data (ctx_of demo_opts) en (sh_now demo_shot) (sh_unix demo_shot) (sh_cache demo_shot) 0) = Some demo_d0.
Proof. intro en. vm_compute. reflexivity. Qed.
Lemma demo_block1 : forall en, block_of (shard_data (ctx_of demo_opts) en (sh_now demo_shot) (sh_unix demo_shot) (sh_cache demo_shot) 1) = Some demo_d1.
Proof. intro en. vm_compute. reflexivity. Qed.
Lemma demo_small : small_enough demo_opts demo_takes.
Proof.
  intros i s d [-> Hi] (en & ch' & E). apply (f_equal block_of) in E. change (block_of (Ok (ch', Some d))) with (Some d) in E.
  destruct i as [|[|i]]; [| |lia].
  - rewrite (demo_block0 en) in E. injection E as <-. vm_compute. discriminate.
  - rewrite (demo_block1 en) in E. injection E as <-. vm_compute. discriminate.
Qed.
Definition demo_p : bytes := bs "cache.pogo".
Definition demo_w : bytes := bs "cache.pogo.0badcafe.pogocache.work".
(** There is an old file. *)
Definition demo_fs : fs := mkFs (fun q => if beq demo_p q then Some 0%nat else None) (fun _ => [1; 2; 3]) 1.
Definition demo_saver : saver := mkSaver demo_p demo_w POpen.
Lemma demo_fresh : fresh demo_fs [demo_saver].
Proof.
  split; [|split; [|split]].
  - intros sv [<-|[]]. split; reflexivity.
  - repeat constructor. intros [].
  - intros a b [<-|[]] [<-|[]]. discriminate.
  - intros n i H. cbn [fs_names demo_fs fs_next] in *. destruct (beq demo_p n); [injection H as <-; lia|discriminate].
Qed.
Lemma saves_cons : forall o z tk n fast x y w, saves_step o z tk n fast x y -> saves_steps o z tk n fast y w -> saves_steps o z tk n fast x w.
Proof.
  intros o z tk n fast x y w H K. induction K as [y|y v w K IH Hz]; [exact (sass_step _ _ _ _ _ _ _ _ (sass_refl _ _ _ _ _ x) H)|].
  exact (sass_step _ _ _ _ _ _ _ _ (IH H) Hz).
Qed.
Lemma go : forall o z tk n fast p w ph f f' ph' y, save_step o z tk n fast (mkSaver p w ph) f ph f' ph' ->
  saves_steps o z tk n fast (f', [mkSaver p w ph']) y -> saves_steps o z tk n fast (f, [mkSaver p w ph]) y.
Proof.
  intros o z tk n fast p w ph f f' ph' y H K. eapply saves_cons; [|exact K].
  exact (sas_step o z tk n fast f [] (mkSaver p w ph) [] f' ph' H).
Qed.
Lemma go_thread : forall o z tk n fast p w f i off t d off' t' y, thread_step o z tk (fs_data f i) off [] t d off' t' ->
  saves_steps o z tk n fast (set_data f i d, [mkSaver p w (PRun i off' [t'])]) y ->
  saves_steps o z tk n fast (f, [mkSaver p w (PRun i off [t])]) y.
Proof.
  intros o z tk n fast p w f i off t d off' t' y H K. eapply go; [|exact K].
  exact (ss_thread o z tk n fast (mkSaver p w (PRun i off [t])) f i off [] t [] d off' t' H).
Qed.
(** A save of two blocks by one thread; the second block is written in two parts. In the
    middle of it the old file is there, at the end the new one. *)
Example C43_crash_case : (0 < 4)%nat /\ small_enough demo_opts demo_takes /\ fresh demo_fs [demo_saver] /\ ~ In demo_p (map sv_work [demo_saver]) /\
  (exists f svs, saves_steps demo_opts raw demo_takes 4 false (demo_fs, [demo_saver]) (f, svs) /\
     content f demo_p = Some [1; 2; 3] /\ content f demo_w = Some (demo_b0 ++ firstn 10 demo_b1)) /\
  (exists f, saves_steps demo_opts raw demo_takes 4 false (demo_fs, [demo_saver]) (f, [mkSaver demo_p demo_w (PDone true)]) /\
     content f demo_p = Some (demo_b0 ++ demo_b1) /\ content f demo_w = None).
Proof.
  split; [lia|]. split; [exact demo_small|]. split; [exact demo_fresh|]. split; [intros [H|[]]; discriminate|].
  assert (T0 : demo_takes 0 demo_shot) by (split; [reflexivity|lia]). assert (T1 : demo_takes 1 demo_shot) by (split; [reflexivity|lia]).
  split.
  - eexists _, _. split; [|split].
    + eapply go; [apply ss_create; reflexivity|].
      eapply go_thread; [exact (ts_block demo_opts raw demo_takes _ _ [] 0 [1%nat] demo_shot demo_d0 T0 demo_made0)|].
      eapply go_thread; [apply ts_lock; reflexivity|].
      eapply go_thread; [rewrite <- (app_nil_r (block_text raw demo_d0)); apply ts_write; discriminate|].
      eapply go_thread; [apply ts_unlock|].
      eapply go_thread; [exact (ts_block demo_opts raw demo_takes _ _ [] 1 [] demo_shot demo_d1 T1 demo_made1)|].
      eapply go_thread; [apply ts_lock; reflexivity|].
      eapply go_thread; [rewrite <- (firstn_skipn 10 (block_text raw demo_d1)); apply ts_write; discriminate|].
      apply sass_refl.
    + vm_compute. reflexivity.
    + vm_compute. reflexivity.
  - eexists. split; [|split].
    + eapply go; [apply ss_create; reflexivity|].
      eapply go_thread; [exact (ts_block demo_opts raw demo_takes _ _ [] 0 [1%nat] demo_shot demo_d0 T0 demo_made0)|].
      eapply go_thread; [apply ts_lock; reflexivity|].
      eapply go_thread; [rewrite <- (app_nil_r (block_text raw demo_d0)); apply ts_write; discriminate|].
      eapply go_thread; [apply ts_unlock|].
      eapply go_thread; [exact (ts_block demo_opts raw demo_takes _ _ [] 1 [] demo_shot demo_d1 T1 demo_made1)|].
      eapply go_thread; [apply ts_lock; reflexivity|].
      eapply go_thread; [rewrite <- (firstn_skipn 10 (block_text raw demo_d1)); apply ts_write; discriminate|].
      eapply go_thread; [rewrite <- (app_nil_r (skipn 10 (block_text raw demo_d1))); apply ts_write; discriminate|].
      eapply go_thread; [apply ts_unlock|].
      eapply go_thread; [apply ts_end|].
      eapply go; [apply ss_joined; intros t [<-|[]]; reflexivity|].
      eapply go; [apply ss_rename; vm_compute; discriminate|].
      eapply go; [apply ss_unlink|].
      apply sass_refl.
    + vm_compute. reflexivity.
    + vm_compute. reflexivity.
Qed.
(** The same run meets the hypotheses of C43_result and, with C42_restored_case, of
    C42_save_load. *)
Example C42_save_load_case : exists f file, saves_steps demo_opts raw demo_takes 4 false (demo_fs, [demo_saver]) (f, [mkSaver demo_p demo_w (PDone true)]) /\
  (forall i s, demo_takes i s -> shot_ok demo_opts s) /\
  room_for demo_opts demo_new (fun key => exists s v, demo_takes (route demo_c key) s /\ sees demo_c (sh_cache s) key (sh_now s) (Some v)) /\
  content f demo_p = Some file /\
  exists x, load_steps demo_c unraw at_500 fine_env (load_start file 1 demo_new) x /\ load_ended x = true.
Proof.
  destruct C43_crash_case as (_ & _ & _ & _ & _ & f & H1 & H2 & _). exists f, (demo_b0 ++ demo_b1). split; [exact H1|].
  split; [intros i s [-> _]; exact demo_shot_ok|]. split; [|split; [exact H2|]].
  - intros m key Hm (s & v & [-> _] & Hv). rewrite demo_shot_cache in Hv. apply demo_room; [|exists v; exact Hv].
    intros k Hk. destruct (Hm k Hk) as [X|(s' & v' & [-> _] & Hv')]; [left; exact X|right; exists v']. rewrite demo_shot_cache in Hv'. exact Hv'.
  - eexists. split; [apply (play_steps demo_c at_500 fine_env demo_moves)|].
    + vm_compute. reflexivity.
    + intros now unix Hin. unfold demo_moves in Hin. cbn [In] in Hin.
      repeat match goal with H : _ \/ _ |- _ => destruct H as [H|H] end; try discriminate; try contradiction; injection Hin as <- <-; split; lia.
    + reflexivity.
    + vm_compute. reflexivity.
Qed.

(** The work file is opened without O_TRUNC. If one of that name is left from a crash (the name
    has 31 random bits), what it held beyond the new data stays, and the file that
    replaces the old one is not one that save wrote. Here the cache is empty. *)
Definition stale_fs : fs := mkFs (fun q => if beq demo_w q then Some 0%nat else None) (fun _ => [80; 79]) 1.
Definition empty_takes (i : nat) (s : shot) : Prop := s = mkShot demo_new 106 1000 /\ (i < 2)%nat.
Lemma empty_made : forall i, (i < 2)%nat -> made_block demo_opts (mkShot demo_new 106 1000) i None.
Proof. intros i Hi. exists (plenty_env 1). destruct i as [|[|i]]; [| |lia]; eexists; vm_compute; reflexivity. Qed.
Theorem C43_stale_refuted : exists f,
  saves_steps demo_opts raw empty_takes 4 false (stale_fs, [demo_saver]) (f, [mkSaver demo_p demo_w (PDone true)]) /\
  content f demo_p = Some [80; 79] /\ ~ whole_file demo_opts raw empty_takes [80; 79].
Proof.
  assert (T0 : empty_takes 0 (mkShot demo_new 106 1000)) by (split; [reflexivity|lia]).
  assert (T1 : empty_takes 1 (mkShot demo_new 106 1000)) by (split; [reflexivity|lia]).
  eexists. split; [|split].
  - eapply go; [apply ss_reopen; reflexivity|].
    eapply go_thread; [exact (ts_none demo_opts raw empty_takes _ _ [] 0 [1%nat] _ T0 (empty_made 0 ltac:(lia)))|].
    eapply go_thread; [exact (ts_none demo_opts raw empty_takes _ _ [] 1 [] _ T1 (empty_made 1 ltac:(lia)))|].
    eapply go_thread; [apply ts_end|].
    eapply go; [apply ss_joined; intros t [<-|[]]; reflexivity|].
    eapply go; [apply ss_rename; vm_compute; discriminate|].
    eapply go; [apply ss_unlink|].
    apply sass_refl.
  - vm_compute. reflexivity.
  - intros (shots & Ts & ds & order & L & _ & _ & E). destruct order as [|d order]; [discriminate|].
    apply (f_equal (@List.length N)) in E. cbn [map concat] in E. rewrite app_length, block_text_length in E. cbn [length] in E. lia.
Qed.

(** Nothing is synced to disk before the rename. If power fails, and data that was not
    synced is lost, the file may be cut anywhere although save has returned 0 and the
    old file is gone. *)
Definition power_loss (f f' : fs) : Prop :=
  (forall n, fs_names f' n = fs_names f n) /\ (forall i, exists k, fs_data f' i = firstn k (fs_data f i)).
Theorem C43_power_refuted : exists f f',
  saves_steps demo_opts raw demo_takes 4 false (demo_fs, [demo_saver]) (f, [mkSaver demo_p demo_w (PDone true)]) /\ power_loss f f' /\
  content f' demo_p <> content demo_fs demo_p /\ forall d, content f' demo_p = Some d -> ~ whole_file demo_opts raw demo_takes d.
Proof.
  destruct C43_crash_case as (_ & _ & _ & _ & _ & f & H1 & H2 & _).
  exists f, (mkFs (fs_names f) (fun i => firstn 2 (fs_data f i)) (fs_next f)). split; [exact H1|]. split; [split; [reflexivity|intro i; exists 2%nat; reflexivity]|].
  unfold content in *. cbn [fs_names fs_data]. destruct (fs_names f demo_p) as [j|]; [|discriminate].
  injection H2 as ->. split; [vm_compute; discriminate|].
  intros d E. injection E as <-. intros (shots & Ts & ds & order & L & _ & _ & E). destruct order as [|d order]; [vm_compute in E; discriminate|].
  apply (f_equal (@List.length N)) in E. cbn [map concat] in E. rewrite app_length, block_text_length in E. cbn [length] in E. lia.
Qed.

(** ** Corruption *)
(** The value of k1 is changed in the file: load fails, k3 in the block before is loaded. *)
Definition bad_d1 : bytes := [232; 7; 0; 2; 107; 49; 1; 118; 17; 5; 4].
Definition demo_bad : bytes := concat [demo_b0] ++ framed (crc32 demo_d1) 11 bad_d1 ++ [].
Definition bad_loaded : loading :=
  match play demo_c (load_start demo_bad 1 demo_new) [MPush; MTake 500 1005; MStore; MNext; MRead; MEnd] with Some x => x | None => load_start [] 1 demo_new end.
Example C44_burst_case : Forall intact [demo_b0] /\ bytes_ok demo_d1 /\ bytes_ok bad_d1 /\ N.of_nat (length demo_d1) < 2 ^ 32 /\ burst demo_d1 bad_d1 /\
  load_steps demo_c unraw at_500 fine_env (load_start demo_bad 1 demo_new) bad_loaded /\ load_ended bad_loaded = true /\ load_result bad_loaded = (-1)%Z /\
  option_map shown_of (cabs demo_c (ld_cache bad_loaded) [107; 51]) = Some (mkView [] 0 0 2) /\ cabs demo_c (ld_cache bad_loaded) [107; 49] = None.
Proof.
  split; [|split; [|split; [|split; [|split; [|split; [|split; [|split; [|split]]]]]]]].
  - constructor; [|constructor]. exists 10, demo_d0. repeat split. repeat constructor; lia.
  - repeat constructor; lia.
  - repeat constructor; lia.
  - reflexivity.
  - split; [reflexivity|]. split; [discriminate|]. exists 56. intros i H.
    destruct (N.lt_ge_cases i 56) as [A|A]; [|destruct (N.lt_ge_cases i 88) as [B|B]; [lia|]].
    + exfalso. apply H. unfold data_bit. f_equal.
      assert (Q : (N.to_nat (i / 8) < 7)%nat) by (pose proof (N.div_lt_upper_bound i 8 7 ltac:(lia) ltac:(lia)); lia).
      destruct (N.to_nat (i / 8)) as [|[|[|[|[|[|[|n]]]]]]]; try reflexivity. lia.
    + exfalso. apply H. unfold data_bit. f_equal. assert (Q : (11 <= N.to_nat (i / 8))%nat) by (pose proof (N.div_le_lower_bound i 8 11 ltac:(lia) ltac:(lia)); lia).
      rewrite !nth_overflow by exact Q. reflexivity.
  - apply (play_steps demo_c at_500 fine_env [MPush; MTake 500 1005; MStore; MNext; MRead; MEnd]).
    + vm_compute. reflexivity.
    + intros now unix Hin. cbn [In] in Hin.
      repeat match goal with H : _ \/ _ |- _ => destruct H as [H|H] end; try discriminate; try contradiction; injection Hin as <- <-; split; lia.
    + reflexivity.
  - vm_compute. reflexivity.
  - vm_compute. reflexivity.
  - vm_compute. reflexivity.
  - vm_compute. reflexivity.
Qed.

(** Changes of 33 bits can go unnoticed. *)
Theorem C44_any_refuted : exists z z', bytes_ok z /\ bytes_ok z' /\ length z = length z' /\ z <> z' /\ crc32 z = crc32 z' /\
  (forall i, data_bit z i <> data_bit z' i -> i < 33).
Proof.
  exists [0; 0; 0; 0; 0], [65; 6; 113; 219; 1].
  split; [repeat constructor; lia|]. split; [repeat constructor; lia|]. split; [reflexivity|]. split; [discriminate|]. split; [vm_compute; reflexivity|].
  intros i H. destruct (N.lt_ge_cases i 33) as [A|A]; [exact A|]. exfalso. apply H. unfold data_bit.
  destruct (N.lt_ge_cases i 40) as [B|B].
  - assert (Q : i = 33 \/ i = 34 \/ i = 35 \/ i = 36 \/ i = 37 \/ i = 38 \/ i = 39) by lia.
    repeat match goal with H : _ \/ _ |- _ => destruct H as [->|H] end; [..|subst i]; reflexivity.
  - assert (Q : (5 <= N.to_nat (i / 8))%nat) by (pose proof (N.div_le_lower_bound i 8 5 ltac:(lia) ltac:(lia)); lia).
    rewrite !nth_overflow by exact Q. reflexivity.
Qed.

(** A file that is cut between two blocks is loaded as if nothing were missing. *)
Theorem C44_cut_refuted : exists x, load_steps demo_c unraw at_500 fine_env (load_start demo_b0 1 demo_new) x /\
  load_ended x = true /\ load_result x = 0%Z /\ cabs demo_c (ld_cache x) [107; 49] = None.
Proof.
  eexists. split; [apply (play_steps demo_c at_500 fine_env [MPush; MTake 500 1005; MStore; MNext; MRead; MEnd])|].
  - vm_compute. reflexivity.
  - intros now unix Hin. cbn [In] in Hin.
    repeat match goal with H : _ \/ _ |- _ => destruct H as [H|H] end; try discriminate; try contradiction; injection Hin as <- <-; split; lia.
  - reflexivity.
  - split; [vm_compute; reflexivity|]. split; vm_compute; reflexivity.
Qed.
(** Cut within a block, it is not. *)
Example C44_cut_case : Forall intact [demo_b0; demo_b1] /\ concat [demo_b0; demo_b1] = (demo_b0 ++ firstn 20 demo_b1) ++ skipn 20 demo_b1 /\
  exists x, load_steps demo_c unraw at_500 fine_env (load_start (demo_b0 ++ firstn 20 demo_b1) 1 demo_new) x /\ load_ended x = true /\ load_result x = (-1)%Z.
Proof.
  split; [|split].
  - constructor; [exists 10, demo_d0; repeat split; repeat constructor; lia|]. constructor; [exists 11, demo_d1; repeat split; repeat constructor; lia|constructor].
  - vm_compute. reflexivity.
  - eexists. split; [apply (play_steps demo_c at_500 fine_env [MPush; MTake 500 1005; MStore; MNext; MRead; MEnd])|].
    + vm_compute. reflexivity.
    + intros now unix Hin. cbn [In] in Hin.
      repeat match goal with H : _ \/ _ |- _ => destruct H as [H|H] end; try discriminate; try contradiction; injection Hin as <- <-; split; lia.
    + reflexivity.
    + split; vm_compute; reflexivity.
Qed.

(** What a write does to the work file, also to one that an earlier save left: the bytes at the offset are replaced, all others stay, and the file only
    grows if the write reaches beyond its end. So a longer file that was left keeps its end (C43_stale_refuted). *)
Theorem C43_write : forall d off w, (off <= length d)%nat ->
  length (overwrite d off w) = Nat.max (length d) (off + length w) /\
  forall i, nth_error (overwrite d off w) i = if ((off <=? i) && (i <? off + length w))%nat then nth_error w (i - off) else nth_error d i.
Proof.
  intros d off w L. unfold overwrite. split; [rewrite !app_length, firstn_length, skipn_length; lia|]. intro i.
  assert (F : length (firstn off d) = off) by (rewrite firstn_length; lia).
  assert (S : d = firstn off d ++ skipn off d) by (symmetry; apply firstn_skipn).
  destruct (Nat.leb_spec off i) as [A|A]; cbn [andb].
  - rewrite nth_error_app2 by lia. rewrite F. destruct (Nat.ltb_spec i (off + length w)) as [B|B].
    + apply nth_error_app1. lia.
    + rewrite nth_error_app2 by lia. rewrite <- (firstn_skipn (off + length w) d) at 2.
      destruct (Nat.le_gt_cases (off + length w) (length d)) as [C|C].
      * rewrite (nth_error_app2 (firstn (off + length w) d)) by (rewrite firstn_length; lia). f_equal. rewrite firstn_length. lia.
      * rewrite skipn_all2 by lia. rewrite app_nil_r. rewrite (proj2 (nth_error_None (firstn (off + length w) d) i)) by (rewrite firstn_length; lia).
        destruct (i - off - length w)%nat; reflexivity.
  - rewrite nth_error_app1 by lia. rewrite S at 2. rewrite nth_error_app1 by lia. reflexivity.
Qed.
Example C43_case_write : overwrite [1; 2; 3; 4; 5] 1 [7; 8] = [1; 7; 8; 4; 5].
Proof. reflexivity. Qed.
