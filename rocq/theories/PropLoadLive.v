(** C73: LOAD while other clients use the cache. *)
From Verif Require Import Base Types Clamp Entry Hash Map Shard Spec Cache Refine Reach Observe PropCache Text CmdSpec Save SaveSpec CrcProofs
  SaveProofs LoadProofs LoadProofs2 LoadLive LoadLiveProofs PropSave PropSaveCases.
From Coq Require Import String Permutation.
Local Open Scope N_scope.
Notation length := List.length.

(** What a saved file has for [key]. *)
Definition saved_as (o : opts) (shots : nat -> shot) (key : bytes) (v : option view) : Prop :=
  sees (ctx_of o) (sh_cache (shots (route (ctx_of o) key))) key (sh_now (shots (route (ctx_of o) key))) v.
(** A change brings the item [v] that was saved under [key] back (or leaves it out, if its time is over). *)
Definition brings (o o' : opts) (shots : nat -> shot) (clocks : Z -> Z -> Prop) (cg : change) (key : bytes) (v : view) : Prop :=
  exists now' unix', clocks now' unix' /\
    came_back o' (cg_before cg) (cg_after cg) key v (sh_now (shots (route (ctx_of o) key))) (sh_unix (shots (route (ctx_of o) key))) now' unix'.
(** There is room for the keys of the file besides those that clients use, if all of them are among [used]. *)
Definition room_among (o o' : opts) (shots : nat -> shot) (used : bytes -> Prop) (ch0 : cache) (t : list change) : Prop :=
  (forall key v, saved_as o shots key (Some v) -> used key) /\
  (forall k, cabs (ctx_of o') ch0 k <> None -> used k) /\
  (forall cg, In cg t -> cg_load cg = false -> forall k, cabs (ctx_of o') (cg_after cg) k <> None -> used k) /\
  (forall m key, (forall k, m k <> None -> used k) -> used key -> roomy (ctx_of o') m key).

(** While LOAD runs, in any interleaving with the calls of clients: LOAD never changes a key that is not in the file, and what it does to a key of
    the file is to bring the saved item back; when it has ended it has succeeded and has brought every item back at some moment meanwhile; and it can always
    go on. *)
Theorem C73_live : forall o o' compress decompress shots file ch0 (clocks : Z -> Z -> Prop) (envs : env -> Prop) nprocs used t x,
  lz_ok compress decompress ->
  (forall i, (i < N.to_nat (c_nshards (ctx_of o)))%nat -> shot_ok o (shots i)) ->
  saved_file o compress shots file ->
  reachable (ctx_of o') ch0 ->
  (forall now unix, clocks now unix -> times_ok now unix) -> (forall en, envs en -> mem_fine en) -> (1 <= nprocs)%nat ->
  live (ctx_of o') decompress clocks envs (load_start file nprocs ch0) t x ->
  room_among o o' shots used ch0 t ->
  (forall cg, In cg t -> cg_load cg = true -> forall key,
     (saved_as o shots key None -> same_at (ctx_of o') (cg_before cg) (cg_after cg) key) /\
     (forall v, saved_as o shots key (Some v) -> same_at (ctx_of o') (cg_before cg) (cg_after cg) key \/ brings o o' shots clocks cg key v)) /\
  (load_ended x = true -> load_result x = 0%Z /\
     forall key v, saved_as o shots key (Some v) -> exists cg, In cg t /\ cg_load cg = true /\ brings o o' shots clocks cg key v) /\
  (load_ended x = false -> (exists now unix, clocks now unix) -> (exists en, envs en) -> exists y, load_step (ctx_of o') decompress clocks envs x y).
Proof.
  intros o o' compress decompress shots file ch0 clocks envs nprocs used t x Lz Sh Sv R Ck En Np H (U1 & U2 & U3 & U4).
  destruct (file_blocks o compress decompress Lz shots Sh file Sv clocks Ck nprocs Np) as (blocks & Er & Fb & Fk).
  assert (Fu : forall key, in_use o shots key -> used key) by (intros key (v & Hv); exact (U1 key v Hv)).
  assert (Ru : forall m key, (forall k, m k <> None -> used k) -> in_use o shots key -> roomy (ctx_of o') m key) by (intros m key Hm Hk; exact (U4 m key Hm (Fu key Hk))).
  pose proof (lives_run o o' decompress shots Sh file ch0 R clocks Ck envs En nprocs Np used Fu Ru U2 blocks Er Fb t x H U3) as L.
  split; [|split].
  - intros cg Hcg Hl key. destruct L as (tks & done & C & Rx & Us & A & B & D). split.
    + intro Hn. destruct (A cg key Hcg Hl) as [S|(v & Hv & _)]; [exact S|]. exfalso.
      unfold saved_as in Hn. unfold in_file in Hv. pose proof (sees_unique _ (opts_load o) (sh_cache (shot_of o shots key)) _ _ _ _ (reach_cinv o _ (proj1 (Sh _ (route_lt o shots Sh clocks Ck nprocs Np key)))) Hn Hv). discriminate.
    + intros v Hv. destruct (A cg key Hcg Hl) as [S|(w & Hw & P)]; [left; exact S|right]. rewrite (in_file_one o shots Sh clocks Ck nprocs Np key v w Hv Hw). exact P.
  - intro He. split; [exact (lives_result o o' decompress shots clocks Ck nprocs used blocks Fb t x L He)|].
    intros key v Hv. exact (lives_end o o' decompress shots Sh ch0 clocks Ck nprocs Np used Fu Ru U2 blocks Fb Fk t x key v L He Hv).
  - intros He Hc Hn. exact (lives_progress o o' decompress shots Sh clocks Ck envs En nprocs Np used Fu Ru blocks Fb t x L He Hc Hn).
Qed.

(** A key that no client changes meanwhile is after the LOAD as C42 says: back if it is in the file, as before if not. *)
Theorem C73_untouched : forall o o' compress decompress shots file ch0 (clocks : Z -> Z -> Prop) (envs : env -> Prop) nprocs used t x key,
  lz_ok compress decompress ->
  (forall i, (i < N.to_nat (c_nshards (ctx_of o)))%nat -> shot_ok o (shots i)) ->
  saved_file o compress shots file ->
  reachable (ctx_of o') ch0 ->
  (forall now unix, clocks now unix -> times_ok now unix) -> (forall en, envs en -> mem_fine en) -> (1 <= nprocs)%nat ->
  live (ctx_of o') decompress clocks envs (load_start file nprocs ch0) t x ->
  room_among o o' shots used ch0 t ->
  (forall cg, In cg t -> cg_load cg = false -> same_at (ctx_of o') (cg_before cg) (cg_after cg) key) -> load_ended x = true ->
  (saved_as o shots key None -> same_at (ctx_of o') ch0 (ld_cache x) key) /\
  (forall v, saved_as o shots key (Some v) -> brings o o' shots clocks (mkChange true ch0 (ld_cache x)) key v).
Proof.
  intros o o' compress decompress shots file ch0 clocks envs nprocs used t x key Lz Sh Sv R Ck En Np H Ra Un He.
  destruct (C73_live o o' compress decompress shots file ch0 clocks envs nprocs used t x Lz Sh Sv R Ck En Np H Ra) as (A & B & _).
  assert (Tr : forall a b d, same_at (ctx_of o') a b key -> same_at (ctx_of o') b d key -> same_at (ctx_of o') a d key).
  { intros a b d P Q n v. rewrite (P n v). apply Q. }
  assert (Sy : forall a b, same_at (ctx_of o') a b key -> same_at (ctx_of o') b a key) by (intros a b P n v; rewrite (P n v); reflexivity).
  assert (Ho : forall a b v, same_at (ctx_of o') a b key -> holds o' a key v -> holds o' b key v) by (intros a b v P Q n; apply P; apply Q).
  assert (Cb : forall a b a' b' v n u n' u', same_at (ctx_of o') a' a key -> same_at (ctx_of o') b b' key -> came_back o' a b key v n u n' u' -> came_back o' a' b' key v n u n' u').
  { intros a b a' b' v n u n' u' P Q [tok X Y|e tok X Y Z W V|X Y Z|tok X Y Z].
    - eapply cb_forever; [exact X|exact (Ho _ _ _ Q Y)].
    - eapply cb_until; [exact X|exact Y|exact Z|exact W|exact (Ho _ _ _ Q V)].
    - apply cb_past; [exact X|exact Y|]. exact (Tr _ _ _ P (Tr _ _ _ Z Q)).
    - eapply cb_brink; [exact X|exact Y|exact (Ho _ _ _ Q Z)]. }
  split.
  - intro Hn. clear B He Ra R. assert (G : forall cg, In cg t -> same_at (ctx_of o') (cg_before cg) (cg_after cg) key).
    { intros cg Hcg. destruct (cg_load cg) eqn:El; [exact (proj1 (A cg Hcg El key) Hn)|exact (Un cg Hcg El)]. }
    clear A Un. induction H as [|t y z H IH Hs|t y en op ch r evs H IH Ca Sp].
    + intros n v. reflexivity.
    + eapply Tr; [apply IH; intros cg Hcg; apply G; apply in_or_app; left; exact Hcg|]. apply (G (mkChange true (ld_cache y) (ld_cache z))). apply in_or_app. right. left. reflexivity.
    + eapply Tr; [apply IH; intros cg Hcg; apply G; apply in_or_app; left; exact Hcg|]. apply (G (mkChange false (ld_cache y) ch)). apply in_or_app. right. left. reflexivity.
  - intros v Hv. destruct (B He) as [_ B']. specialize (B' key v Hv). clear B He Ra.
    assert (G : forall cg, In cg t -> same_at (ctx_of o') (cg_before cg) (cg_after cg) key \/ brings o o' shots clocks cg key v).
    { intros cg Hcg. destruct (cg_load cg) eqn:El; [exact (proj2 (A cg Hcg El key) v Hv)|left; exact (Un cg Hcg El)]. }
    clear A Un R.
    assert (S : same_at (ctx_of o') ch0 (ld_cache x) key /\ (forall cg, In cg t -> same_at (ctx_of o') ch0 (cg_before cg) key /\ same_at (ctx_of o') (cg_before cg) (cg_after cg) key) \/
                brings o o' shots clocks (mkChange true ch0 (ld_cache x)) key v).
    { clear B'.
      assert (St : forall t y cg, (forall c0, In c0 (t ++ [cg]) -> same_at (ctx_of o') (cg_before c0) (cg_after c0) key \/ brings o o' shots clocks c0 key v) -> cg_before cg = ld_cache y ->
        (same_at (ctx_of o') ch0 (ld_cache y) key /\ (forall c0, In c0 t -> same_at (ctx_of o') ch0 (cg_before c0) key /\ same_at (ctx_of o') (cg_before c0) (cg_after c0) key) \/ brings o o' shots clocks (mkChange true ch0 (ld_cache y)) key v) ->
        same_at (ctx_of o') ch0 (cg_after cg) key /\ (forall c0, In c0 (t ++ [cg]) -> same_at (ctx_of o') ch0 (cg_before c0) key /\ same_at (ctx_of o') (cg_before c0) (cg_after c0) key) \/ brings o o' shots clocks (mkChange true ch0 (cg_after cg)) key v).
      { clear - Tr Sy Ho Cb. intros t y cg G E P. destruct (G cg) as [S|(n' & u' & C1 & C2)]; [apply in_or_app; right; left; reflexivity| |].
        - rewrite E in S. destruct P as [[P1 P2]|(n' & u' & C1 & C2)].
          + left. split; [exact (Tr _ _ _ P1 S)|]. intros c0 Hc. apply in_app_or in Hc. destruct Hc as [Hc|[<-|[]]]; [exact (P2 c0 Hc)|rewrite E; split; [exact P1|exact S]].
          + right. exists n', u'. split; [exact C1|]. exact (Cb _ _ _ _ _ _ _ _ _ (fun n w => iff_refl _) S C2).
        - right. destruct C2 as [tok X Y|e tok X Y Z W V|X Y Z|tok X Y Z].
          + exists n', u'. split; [exact C1|]. eapply cb_forever; eassumption.
          + exists n', u'. split; [exact C1|]. eapply cb_until; eassumption.
          + rewrite E in Z. destruct P as [[P1 P2]|(n2 & u2 & C3 & C4)].
            * exists n', u'. split; [exact C1|]. apply cb_past; [exact X|exact Y|exact (Tr _ _ _ P1 Z)].
            * exists n2, u2. split; [exact C3|]. exact (Cb _ _ _ _ _ _ _ _ _ (fun n w => iff_refl _) Z C4).
          + exists n', u'. split; [exact C1|]. eapply cb_brink; eassumption. }
      induction H as [|t y z H IH Hs|t y en op ch r evs H IH Ca Sp].
      - left. split; [intros n w; reflexivity|intros cg []].
      - apply (St t y (mkChange true (ld_cache y) (ld_cache z)) G eq_refl). apply IH. intros cg Hcg. apply G. apply in_or_app. left. exact Hcg.
      - apply (St t y (mkChange false (ld_cache y) ch) G eq_refl). apply IH. intros cg Hcg. apply G. apply in_or_app. left. exact Hcg. }
    destruct S as [[S1 S2]|S]; [|exact S]. destruct B' as (cg & Hcg & _ & n' & u' & C1 & C2). exists n', u'. split; [exact C1|].
    destruct (S2 cg Hcg) as [Sb Sc]. refine (Cb _ _ _ _ _ _ _ _ _ Sb _ C2). exact (Tr _ _ _ (Sy _ _ Sc) (Tr _ _ _ (Sy _ _ Sb) S1)).
Qed.

(** LOAD ends, for every file and whatever clients do: there is a bound on the steps that its threads can make. *)
Theorem C73_ends : forall o decompress (clocks : Z -> Z -> Prop) (envs : env -> Prop) file nprocs ch0,
  (forall now unix, clocks now unix -> times_ok now unix) ->
  exists bound, forall t x, live (ctx_of o) decompress clocks envs (load_start file nprocs ch0) t x -> (length (filter cg_load t) <= bound)%nat.
Proof.
  intros o decompress clocks envs file nprocs ch0 Ck. exists (N.to_nat (effort (load_start file nprocs ch0))).
  assert (G : forall t x, live (ctx_of o) decompress clocks envs (load_start file nprocs ch0) t x ->
    N.of_nat (length (filter cg_load t)) + effort x <= effort (load_start file nprocs ch0)); [|intros t x H; specialize (G t x H); lia].
  intros t x H. induction H as [|t y z H IH Hs|t y en op ch r evs H IH Ca Sp].
  - cbn [filter length]. lia.
  - rewrite filter_app, app_length. cbn [filter cg_load length]. pose proof (step_effort (ctx_of o) decompress clocks envs Ck y z Hs). lia.
  - rewrite filter_app, app_length. cbn [filter cg_load length]. change (effort (with_cache y ch)) with (effort y). lia.
Qed.

(** ** A case, and what does not hold *)
Lemma live_more : forall c d clocks envs x t y z, live c d clocks envs x t y -> load_steps c d clocks envs y z ->
  exists t', live c d clocks envs x (t ++ t') z /\ forall cg, In cg t' -> cg_load cg = true.
Proof.
  intros c d clocks envs x t y z H K. revert t H. induction K as [y|y w z K IH Hz]; intros t H.
  - exists []. rewrite app_nil_r. split; [exact H|intros cg []].
  - destruct (IH t H) as (t' & L & F). exists (t' ++ [mkChange true (ld_cache w) (ld_cache z)]). split.
    + rewrite app_assoc. apply lv_load; assumption.
    + intros cg Hcg. apply in_app_or in Hcg. destruct Hcg as [Hcg|[<-|[]]]; [exact (F cg Hcg)|reflexivity].
Qed.
(** A client sets k1 to "v" while the LOAD of the demonstration file is running. *)
Definition live_call : call := Store [107; 49] [118] (restore_opts 0 0 0) 500.
Lemma live_full : exists ch evs x, step demo_c (plenty_env 1) demo_new live_call = Ok (ch, RStatus INSERTED [], evs) /\
  play demo_c (load_start demo_file 1 ch) demo_moves = Some x /\ load_ended x = true /\ load_result x = 0%Z /\
  option_map shown_of (live_item (cabs demo_c ch) [107; 49] 500) = Some (mkView [118] 0 0 2) /\
  option_map shown_of (live_item (cabs demo_c (ld_cache x)) [107; 49] 505) = Some (mkView [119] 512 5 3) /\
  option_map shown_of (live_item (cabs demo_c (ld_cache x)) [107; 51] 505) = Some (mkView [] 0 0 2).
Proof. eexists _, _, _. split; [vm_compute; reflexivity|]. split; [vm_compute; reflexivity|]. repeat split; vm_compute; reflexivity. Qed.
Definition demo_used (k : bytes) : Prop := cabs demo_c demo_ch k <> None.
Lemma demo_used_room : forall m key, (forall k, m k <> None -> demo_used k) -> demo_used key -> roomy demo_c m key.
Proof.
  intros m key Hm _. apply (roomy_small demo_c (opts_load demo_opts)). intros ks Nd H.
  assert (L : (length ks <= 3)%nat); [|lia]. apply demo_number; [exact Nd|]. intros k Hk. destruct (H k Hk) as [_ Mk]. exact (Hm k Mk).
Qed.
Lemma live_run : exists ch evs t x, let t0 := mkChange false demo_new ch :: t in
  live demo_c unraw at_500 fine_env (load_start demo_file 1 demo_new) t0 x /\ room_among demo_opts demo_opts (fun _ => demo_shot) demo_used demo_new t0 /\
  (forall cg, In cg t -> cg_load cg = true) /\ step demo_c (plenty_env 1) demo_new live_call = Ok (ch, RStatus INSERTED [], evs) /\
  load_ended x = true /\ load_result x = 0%Z /\
  sees demo_c ch [107; 49] 500 (Some (mkView [118] 0 0 2)) /\ sees demo_c (ld_cache x) [107; 49] 505 (Some (mkView [119] 512 5 3)) /\
  sees demo_c (ld_cache x) [107; 51] 505 (Some (mkView [] 0 0 2)).
Proof.
  destruct live_full as (ch & evs & x & Es & Pl & He & Hr & V1 & V2 & V3).
  set (K := fun key : bytes => key = [107; 49]).
  assert (Uk : demo_used [107; 49]) by (unfold demo_used; vm_compute; discriminate).
  assert (N0 : forall k, cabs demo_c demo_new k = None) by (destruct (new_ok demo_c (opts_load _) (opts_shards _) _ _ demo_is_new) as (_ & _ & _ & A & _); exact A).
  assert (Rk : room_for demo_opts demo_new K).
  { intros m key Hm ->. apply demo_used_room; [|exact Uk]. intros k Mk. destruct (Hm k Mk) as [X| ->]; [destruct (X (N0 k))|exact Uk]. }
  assert (Gs : good_store K live_call).
  { exists [107; 49], [118], 0%Z, 0, 0, 500%Z. split; [reflexivity|]. split; [reflexivity|]. split; [repeat constructor; lia|]. split; [repeat constructor; lia|].
    split; [vm_compute; reflexivity|]. split; [unfold INT64_MAX; lia|]. split; [unfold INT64_MAX; lia|reflexivity]. }
  assert (Mf : mem_fine (plenty_env 1)) by (intro s; split; reflexivity).
  assert (Co : call_ok demo_c (plenty_env 1) (cabs demo_c demo_new) live_call) by exact (good_ok demo_opts demo_new K Rk demo_new _ _ demo_new_reachable (fun k Hk => or_introl Hk) Gs Mf).
  destruct (good_result demo_opts demo_new K Rk demo_new _ _ ch _ evs demo_new_reachable (fun k Hk => or_introl Hk) Gs Mf Es) as (Rc & Wc & _).
  assert (L1 : live demo_c unraw at_500 fine_env (load_start demo_file 1 demo_new) [mkChange false demo_new ch] (load_start demo_file 1 ch)).
  { exact (lv_call demo_c unraw at_500 fine_env _ [] (load_start demo_file 1 demo_new) (plenty_env 1) live_call ch _ evs (lv_start _ _ _ _ _) Co Es). }
  assert (Hs : load_steps demo_c unraw at_500 fine_env (load_start demo_file 1 ch) x).
  { apply (play_steps demo_c at_500 fine_env demo_moves); [exact Pl| |reflexivity]. intros now unix Hin. clear - Hin. unfold demo_moves in Hin. cbn [In] in Hin.
    repeat match goal with H : _ \/ _ |- _ => destruct H as [H|H] end; try discriminate; try contradiction; injection Hin as <- <-; split; lia. }
  destruct (live_more _ _ _ _ _ _ _ _ L1 Hs) as (t & L2 & Ft).
  assert (Ra : room_among demo_opts demo_opts (fun _ => demo_shot) demo_used demo_new (mkChange false demo_new ch :: t)).
  { split; [|split; [|split; [|exact demo_used_room]]].
    - intros key v Hv. unfold saved_as in Hv. rewrite demo_shot_cache in Hv. apply (sees_iff demo_c (opts_load demo_opts)) in Hv; [|apply (reach_cinv demo_opts); exact demo_reachable].
      intro E. unfold live_item in Hv. rewrite E in Hv. discriminate.
    - intros k Hk. destruct (Hk (N0 k)).
    - intros cg [<-|Hcg] Hl; [|rewrite (Ft cg Hcg) in Hl; discriminate]. cbn [cg_after]. intros k Hk. destruct (Wc k Hk) as [X| ->]; [destruct (X (N0 k))|exact Uk]. }
  exists ch, evs, t, x. cbv zeta. split; [exact L2|]. split; [exact Ra|]. split; [exact Ft|]. split; [exact Es|]. split; [exact He|]. split; [exact Hr|].
  assert (Rx : reachable demo_c (ld_cache x)).
  { destruct (file_blocks demo_opts raw unraw raw_ok (fun _ => demo_shot) (fun _ _ => demo_shot_ok) demo_file demo_saved at_500 at_500_ok 1%nat (le_n 1)) as (blocks & Er & Fb & _).
    destruct Ra as (U1 & U2 & U3 & U4).
    destruct (lives_run demo_opts demo_opts unraw (fun _ => demo_shot) (fun _ _ => demo_shot_ok) demo_file demo_new demo_new_reachable at_500 at_500_ok fine_env fine_env_ok 1%nat (le_n 1)
      demo_used (fun key X => match X with ex_intro _ v Hv => U1 key v Hv end)
      (fun m key Hm X => U4 m key Hm (match X with ex_intro _ v Hv => U1 key v Hv end)) U2 blocks Er Fb _ x L2 U3) as (_ & _ & _ & R & _). exact R. }
  split; [apply (sees_iff demo_c (opts_load demo_opts)); [exact (reach_cinv demo_opts _ Rc)|symmetry; exact V1]|].
  split; apply (sees_iff demo_c (opts_load demo_opts)); [exact (reach_cinv demo_opts _ Rx)|symmetry; exact V2|exact (reach_cinv demo_opts _ Rx)|symmetry; exact V3].
Qed.
(** The hypotheses of C73_live and C73_untouched (for k3) are met, with a client that stores k1 meanwhile. *)
Example C73_case : exists t x,
  lz_ok raw unraw /\ (forall i, (i < N.to_nat (c_nshards demo_c))%nat -> shot_ok demo_opts demo_shot) /\ saved_file demo_opts raw (fun _ => demo_shot) demo_file /\
  reachable demo_c demo_new /\ (forall now unix, at_500 now unix -> times_ok now unix) /\ (forall en, fine_env en -> mem_fine en) /\
  live demo_c unraw at_500 fine_env (load_start demo_file 1 demo_new) t x /\ room_among demo_opts demo_opts (fun _ => demo_shot) demo_used demo_new t /\
  (exists cg, In cg t /\ cg_load cg = false) /\ load_ended x = true /\
  sees demo_c (ld_cache x) [107; 51] 505 (Some (mkView [] 0 0 2)).
Proof.
  destruct live_run as (ch & evs & t & x & L & Ra & _ & _ & He & _ & _ & _ & V). eexists _, x.
  split; [exact raw_ok|]. split; [intros; exact demo_shot_ok|]. split; [exact demo_saved|]. split; [exact demo_new_reachable|].
  split; [exact at_500_ok|]. split; [exact fine_env_ok|]. split; [exact L|]. split; [exact Ra|]. split; [eexists; split; [left; reflexivity|reflexivity]|].
  split; [exact He|exact V].
Qed.
(** "What a client stores after LOAD has begun is newer than the file, and stays." It does not: LOAD puts the older item of the file in its place. *)
Theorem C73_newer_refuted : exists ch evs t x,
  live demo_c unraw at_500 fine_env (load_start demo_file 1 demo_new) (mkChange false demo_new ch :: t) x /\
  (forall cg, In cg t -> cg_load cg = true) /\ load_ended x = true /\ load_result x = 0%Z /\
  step demo_c (plenty_env 1) demo_new live_call = Ok (ch, RStatus INSERTED [], evs) /\
  sees demo_c ch [107; 49] 500 (Some (mkView [118] 0 0 2)) /\ sees demo_c (ld_cache x) [107; 49] 505 (Some (mkView [119] 512 5 3)).
Proof.
  destruct live_run as (ch & evs & t & x & L & _ & Ft & Es & He & Hr & V1 & V2 & _). exists ch, evs, t, x.
  split; [exact L|]. split; [exact Ft|]. split; [exact He|]. split; [exact Hr|]. split; [exact Es|]. split; [exact V1|exact V2].
Qed.
