(** C42 (save and load), C43 (crashes while saving), C44 (corrupted files). *)
From Verif Require Import Base Types Clamp Entry Hash Map Shard Spec Cache Refine Reach Observe PropCache Text CmdSpec Save SaveSpec CrcProofs
  SaveProofs LoadProofs LoadProofs2 LoadProofs3 SaveFs SaveFsProofs.
From Coq Require Import String Permutation.
Local Open Scope N_scope.
Notation map := List.map.
Notation length := List.length.
Notation concat := List.concat.

(** ** C42 Save then load restores the cache *)

(** A file holds the blocks of all shards of a cache, each of which was saved at a
    moment of its own. However the threads of load are scheduled, whichever
    moments the blocks are loaded at, and whatever the cache loaded into held
    before (if there is room for the keys): when load returns it returns
    success; every key that was not there when its shard was saved is as it was
    before; every item that was there is back, with the same value and flags and
    with the same instant of expiry, unless that has passed. And until it
    returns some thread can go on. *)
Theorem C42_restored : forall o o' compress decompress shots file ch0 (clocks : Z -> Z -> Prop) (envs : env -> Prop) nprocs,
  lz_ok compress decompress ->
  (forall i, (i < N.to_nat (c_nshards (ctx_of o)))%nat -> shot_ok o (shots i)) ->
  saved_file o compress shots file ->
  reachable (ctx_of o') ch0 ->
  (forall now unix, clocks now unix -> times_ok now unix) -> (exists now unix, clocks now unix) ->
  (forall en, envs en -> mem_fine en) -> (exists en, envs en) ->
  let shot_of key := shots (route (ctx_of o) key) in
  room_for o' ch0 (fun key => exists v, sees (ctx_of o) (sh_cache (shot_of key)) key (sh_now (shot_of key)) (Some v)) ->
  (1 <= nprocs)%nat ->
  forall x, load_steps (ctx_of o') decompress clocks envs (load_start file nprocs ch0) x ->
    (load_ended x = true -> load_result x = 0%Z /\ reachable (ctx_of o') (ld_cache x) /\ forall key,
       (sees (ctx_of o) (sh_cache (shot_of key)) key (sh_now (shot_of key)) None -> same_at (ctx_of o') ch0 (ld_cache x) key) /\
       (forall v, sees (ctx_of o) (sh_cache (shot_of key)) key (sh_now (shot_of key)) (Some v) ->
          exists now' unix', clocks now' unix' /\
            came_back o' ch0 (ld_cache x) key v (sh_now (shot_of key)) (sh_unix (shot_of key)) now' unix')) /\
    (load_ended x = false -> exists y, load_step (ctx_of o') decompress clocks envs x y).
Proof.
  intros o o' compress decompress shots file ch0 clocks envs nprocs Lz Sh Sv R Ck Ck1 En En1 shot_of Rm Np x Hx.
  destruct (back_load o o' compress decompress Lz shots Sh file Sv ch0 R clocks Ck envs En Rm nprocs Np x Hx) as [A B].
  split; [exact A|]. intro He. exact (B He Ck1 En1).
Qed.

(** Load returns: for every file, whatever it holds, there is a bound on the steps its
    threads can make. *)
Theorem C42_ends : forall o decompress (clocks : Z -> Z -> Prop) (envs : env -> Prop) file nprocs ch0,
  (forall now unix, clocks now unix -> times_ok now unix) ->
  exists bound, forall n x, load_many (ctx_of o) decompress clocks envs n (load_start file nprocs ch0) x -> (n <= bound)%nat.
Proof.
  intros o decompress clocks envs file nprocs ch0 Ck. exists (N.to_nat (effort (load_start file nprocs ch0))). intros n x H.
  pose proof (many_effort (ctx_of o) decompress clocks envs Ck _ _ _ H). lia.
Qed.

(** Into an empty cache: exactly the items that were there and have not
    expired since. *)
Theorem C42_exact : forall o o' compress decompress shots file ch0 (clocks : Z -> Z -> Prop) (envs : env -> Prop) nprocs,
  lz_ok compress decompress ->
  (forall i, (i < N.to_nat (c_nshards (ctx_of o)))%nat -> shot_ok o (shots i)) ->
  saved_file o compress shots file ->
  reachable (ctx_of o') ch0 -> (forall key, gone o' ch0 key) ->
  (forall now unix, clocks now unix -> times_ok now unix) ->
  (forall en, envs en -> mem_fine en) ->
  let shot_of key := shots (route (ctx_of o) key) in
  room_for o' ch0 (fun key => exists v, sees (ctx_of o) (sh_cache (shot_of key)) key (sh_now (shot_of key)) (Some v)) ->
  (1 <= nprocs)%nat ->
  forall x, load_steps (ctx_of o') decompress clocks envs (load_start file nprocs ch0) x -> load_ended x = true ->
  forall key, gone o' (ld_cache x) key \/
    exists v v', sees (ctx_of o) (sh_cache (shot_of key)) key (sh_now (shot_of key)) (Some v) /\
      holds o' (ld_cache x) key v' /\ v_val v' = v_val v /\ v_flags v' = v_flags v.
Proof.
  intros o o' compress decompress shots file ch0 clocks envs nprocs Lz Sh Sv R Em Ck En shot_of Rm Np x Hx He key.
  destruct (back_load o o' compress decompress Lz shots Sh file Sv ch0 R clocks Ck envs En Rm nprocs Np x Hx) as [A _].
  destruct (A He) as (_ & _ & A2). destruct (A2 key) as [Kn Ks]. clear A A2. fold (shot_of key) in Kn, Ks.
  assert (Em' : same_at (ctx_of o') ch0 (ld_cache x) key -> gone o' (ld_cache x) key).
  { intros Sa t. apply Sa. apply Em. }
  assert (Rs : reachable (ctx_of o) (sh_cache (shot_of key))).
  { apply Sh. apply route_small. }
  destruct (sees_some_or_none o (sh_cache (shot_of key)) key (sh_now (shot_of key)) Rs) as [(v & Hv)|Hn].
  - destruct (Ks v Hv) as (now' & unix' & _ & Cb). destruct Cb as [tok E H|e tok E U _ _ H|E U H|tok E U H].
    + right. exists v, (mkView (v_val v) 0 (v_flags v) tok). auto.
    + right. exists v, (mkView (v_val v) e (v_flags v) tok). auto.
    + left. apply Em'. exact H.
    + right. exists v, (mkView (v_val v) 0 (v_flags v) tok). auto.
  - left. apply Em'. apply Kn. exact Hn.
Qed.

(** ** C43 A crash during SAVE never damages the previous file *)

(** Savers that have not started, whose work files are their own. *)
Definition fresh (f : fs) (svs : list saver) : Prop :=
  (forall sv, In sv svs -> sv_phase sv = POpen /\ fs_names f (sv_work sv) = None) /\
  NoDup (map sv_work svs) /\ (forall a b, In a svs -> In b svs -> sv_work a <> sv_path b) /\
  (forall n i, fs_names f n = Some i -> (i < fs_next f)%nat).
(** A shard's data is not more than LZ4 takes. *)
Definition small_enough (o : opts) (takes : nat -> shot -> Prop) : Prop :=
  forall i s d, takes i s -> made_block o s i (Some d) -> N.of_nat (length d) <= 0x7E000000.
(** A file in which every shard was saved at a moment allowed. *)
Definition whole_file (o : opts) (compress : bytes -> bytes) (takes : nat -> shot -> Prop) (d : bytes) : Prop :=
  exists shots, (forall i, (i < N.to_nat (c_nshards (ctx_of o)))%nat -> takes i (shots i)) /\ saved_file o compress shots d.

Lemma fresh_winv : forall o compress takes f svs, fresh f svs -> winv o compress takes f f svs.
Proof.
  intros o compress takes f svs (F1 & F2 & F3 & F4). constructor; try assumption.
  - apply Forall_forall. intros sv Hin. destruct (F1 sv Hin) as [E1 E2]. unfold sinv. rewrite E1. exact E2.
  - intros p _. left. split; [reflexivity|]. intros sv Hin _. rewrite (proj1 (F1 sv Hin)). reflexivity.
Qed.

(** Any number of saves run at once, to the same or to other files. Whenever they are
    stopped (the process may crash between any two steps, also in the middle of
    writing a block), every file but the work files has its old contents, or
    is complete and new. *)
Theorem C43_crash : forall o compress takes nprocs fast f0 svs0 f svs,
  (0 < nprocs)%nat -> small_enough o takes -> fresh f0 svs0 ->
  saves_steps o compress takes nprocs fast (f0, svs0) (f, svs) ->
  forall p, ~ In p (map sv_work svs0) ->
    content f p = content f0 p \/ exists d, content f p = Some d /\ whole_file o compress takes d.
Proof.
  intros o compress takes nprocs fast f0 svs0 f svs Np Sm Fr H p Hp.
  pose proof (winv_steps o compress takes nprocs fast Np Sm f0 _ _ H (fresh_winv o compress takes f0 svs0 Fr)) as W. cbn [fst snd] in W.
  assert (Ew : map sv_work svs = map sv_work svs0).
  { change svs with (snd (f, svs)). change svs0 with (snd (f0, svs0)). clear - H. induction H as [|x y z H IH Hz]; [reflexivity|].
    rewrite <- IH. destruct Hz. cbn [snd]. rewrite !map_app. reflexivity. }
  rewrite <- Ew in Hp. destruct (wi_content _ _ _ _ _ _ W p Hp) as [[A _]|(d & A & B & _)]; [left; exact A|right; exists d; auto].
Qed.
(** When a save has returned 0 its file is complete and new. If no save to the file
    has returned 0 or is about to, the file is the old one. *)
Theorem C43_result : forall o compress takes nprocs fast f0 svs0 f svs,
  (0 < nprocs)%nat -> small_enough o takes -> fresh f0 svs0 ->
  saves_steps o compress takes nprocs fast (f0, svs0) (f, svs) ->
  (forall sv, In sv svs -> sv_phase sv = PDone true -> exists d, content f (sv_path sv) = Some d /\ whole_file o compress takes d) /\
  (forall p, ~ In p (map sv_work svs0) ->
     (forall sv, In sv svs -> sv_path sv = p -> sv_phase sv = PDone false) -> content f p = content f0 p).
Proof.
  intros o compress takes nprocs fast f0 svs0 f svs Np Sm Fr H.
  pose proof (winv_steps o compress takes nprocs fast Np Sm f0 _ _ H (fresh_winv o compress takes f0 svs0 Fr)) as W. cbn [fst snd] in W.
  assert (Ew : map sv_work svs = map sv_work svs0).
  { change svs with (snd (f, svs)). change svs0 with (snd (f0, svs0)). clear - H. induction H as [|x y z H IH Hz]; [reflexivity|].
    rewrite <- IH. destruct Hz. cbn [snd]. rewrite !map_app. reflexivity. }
  split.
  - intros sv Hin Hd. assert (Np' : ~ In (sv_path sv) (map sv_work svs)).
    { intro X. apply in_map_iff in X. destruct X as (a & Ea & Ha). exact (wi_paths _ _ _ _ _ _ W a sv Ha Hin Ea). }
    destruct (wi_content _ _ _ _ _ _ W _ Np') as [[_ A]|(d & A & B & _)].
    + specialize (A sv Hin eq_refl). rewrite Hd in A. discriminate.
    + exists d. auto.
  - intros p Hp Hf. rewrite <- Ew in Hp. destruct (wi_content _ _ _ _ _ _ W p Hp) as [[A _]|(d & A & B & sv & S1 & S2 & S3)]; [exact A|].
    rewrite (Hf sv S1 S2) in S3. discriminate.
Qed.

(** ** C42, from one process to the next *)

(** A save that returns 0, and any load of its file: the items are back. *)
Theorem C42_save_load : forall o o' compress decompress takes nprocs fast f0 svs0 f svs sv ch0 (clocks : Z -> Z -> Prop) (envs : env -> Prop) nprocs',
  (* saving *)
  (0 < nprocs)%nat -> small_enough o takes -> fresh f0 svs0 -> (forall i s, takes i s -> shot_ok o s) ->
  saves_steps o compress takes nprocs fast (f0, svs0) (f, svs) -> In sv svs -> sv_phase sv = PDone true ->
  (* loading *)
  lz_ok compress decompress -> reachable (ctx_of o') ch0 ->
  (forall now unix, clocks now unix -> times_ok now unix) -> (forall en, envs en -> mem_fine en) -> (1 <= nprocs')%nat ->
  room_for o' ch0 (fun key => exists s v, takes (route (ctx_of o) key) s /\ sees (ctx_of o) (sh_cache s) key (sh_now s) (Some v)) ->
  exists file shots, content f (sv_path sv) = Some file /\
    (forall i, (i < N.to_nat (c_nshards (ctx_of o)))%nat -> takes i (shots i)) /\
    forall x, load_steps (ctx_of o') decompress clocks envs (load_start file nprocs' ch0) x -> load_ended x = true ->
      load_result x = 0%Z /\ forall key, let s := shots (route (ctx_of o) key) in
        (sees (ctx_of o) (sh_cache s) key (sh_now s) None -> same_at (ctx_of o') ch0 (ld_cache x) key) /\
        (forall v, sees (ctx_of o) (sh_cache s) key (sh_now s) (Some v) ->
           exists now' unix', clocks now' unix' /\ came_back o' ch0 (ld_cache x) key v (sh_now s) (sh_unix s) now' unix').
Proof.
  intros o o' compress decompress takes nprocs fast f0 svs0 f svs sv ch0 clocks envs nprocs' Np Sm Fr Tk H Hin Hd Lz R Ck En Np' Rm.
  destruct (proj1 (C43_result _ _ _ _ _ _ _ _ _ Np Sm Fr H) sv Hin Hd) as (file & Ec & shots & Ts & Sv).
  exists file, shots. split; [exact Ec|]. split; [exact Ts|]. intros x Hx He.
  assert (Rl : forall key, (route (ctx_of o) key < N.to_nat (c_nshards (ctx_of o)))%nat).
  { apply route_small. }
  destruct (back_load o o' compress decompress Lz shots (fun i Hi => Tk i _ (Ts i Hi)) file Sv ch0 R clocks Ck envs En) with (nprocs := nprocs') (x := x) as [A _]; try assumption.
  - intros m key Hm (v & Hv). apply Rm.
    + intros k Hk. destruct (Hm k Hk) as [X|(w & Hw)]; [left; exact X|right]. exists (shots (route (ctx_of o) k)), w. split; [apply Ts; apply Rl|exact Hw].
    + exists (shots (route (ctx_of o) key)), v. split; [apply Ts; apply Rl|exact Hv].
  - destruct (A He) as (A1 & _ & A3). split; [exact A1|exact A3].
Qed.

(** ** C44 Corrupted blocks are rejected *)

(** Any file at all consists of intact blocks, and a rest that does not begin with
    one. Loading it does to the cache only what loading the intact blocks
    may do, and it succeeds only if there is no rest. *)
Theorem C44_intact : forall o decompress (clocks : Z -> Z -> Prop) (envs : env -> Prop) file nprocs ch0, bytes_ok file ->
  exists blocks rest, file = concat blocks ++ rest /\ Forall intact blocks /\ (forall b r, rest = b ++ r -> ~ intact b) /\
  forall x, load_steps (ctx_of o) decompress clocks envs (load_start file nprocs ch0) x ->
    (load_result x = 0%Z -> rest = []) /\
    exists y, load_steps (ctx_of o) decompress clocks envs (load_start (concat blocks) nprocs ch0) y /\ ld_cache y = ld_cache x.
Proof. intros. apply load_parts. assumption. Qed.

(** The payload of a block is changed, in any way that is confined to 32 bits in a row (so,
    to four bytes in a row): load fails, and nothing of this block or of what
    follows it gets into the cache. *)
Theorem C44_burst : forall o decompress (clocks : Z -> Z -> Prop) (envs : env -> Prop) before dlen z z' after nprocs ch0,
  Forall intact before -> bytes_ok z -> bytes_ok z' -> N.of_nat (length z) < 2 ^ 32 -> bytes_ok after -> burst z z' ->
  forall x, load_steps (ctx_of o) decompress clocks envs (load_start (concat before ++ framed (crc32 z) dlen z' ++ after) nprocs ch0) x ->
    load_result x <> 0%Z /\
    exists y, load_steps (ctx_of o) decompress clocks envs (load_start (concat before) nprocs ch0) y /\ ld_cache y = ld_cache x.
Proof.
  intros o decompress clocks envs before dlen z z' after nprocs ch0 Fb Bz Bz' Lz Ba Bu x Hx.
  set (bad := framed (crc32 z) dlen z' ++ after) in *.
  assert (Bb : forall bl, Forall intact bl -> bytes_ok (concat bl)).
  { intros bl F. induction F as [|b bl H F IH]; [constructor|]. cbn [concat]. apply Forall_app. split; [apply intact_bytes; exact H|exact IH]. }
  assert (Bf : bytes_ok (concat before ++ bad)).
  { apply Forall_app. split; [apply Bb; exact Fb|]. unfold bad, framed. repeat (apply Forall_app; split); try apply le_bytes_ok; try assumption. repeat constructor. }
  destruct (load_parts (ctx_of o) decompress clocks envs _ nprocs ch0 Bf) as (bl & rest & E & Fi & Nr & L). destruct (L x Hx) as (L1 & y & Ly & Ey).
  (* the intact blocks are those before *)
  assert (Eq : concat bl = concat before /\ rest = bad).
  { clear - E Fi Nr Fb Bz Bz' Lz Bu. pose proof (burst_not_intact z z' dlen after Bz Bz' Lz Bu) as Nb. fold bad in Nb. revert bl E Fi.
    induction Fb as [|b before Hb Fb IH]; intros bl E Fi.
    - cbn [concat app] in *. destruct Fi as [|a bl Ha Fi]; [cbn [concat app] in E; auto|].
      exfalso. cbn [concat] in E. rewrite <- app_assoc in E. exact (Nb a _ E Ha).
    - cbn [concat] in *. rewrite <- app_assoc in E. destruct Fi as [|a bl Ha Fi].
      + cbn [concat app] in E. exfalso. exact (Nr b _ (eq_sym E) Hb).
      + cbn [concat] in E. rewrite <- app_assoc in E. destruct (intact_split _ _ _ _ Hb Ha E) as [-> E2]. destruct (IH bl E2 Fi) as [I1 I2]. cbn [concat]. rewrite I1. auto. }
  destruct Eq as [Eq ->]. split.
  - intro Hr. specialize (L1 Hr). unfold bad, framed in L1. discriminate.
  - rewrite Eq in Ly. exists y. auto.
Qed.

(** A file that was cut short is loaded without an error only if it was cut between two
    blocks. *)
Theorem C44_cut : forall o decompress (clocks : Z -> Z -> Prop) (envs : env -> Prop) blocks p q nprocs ch0,
  Forall intact blocks -> concat blocks = p ++ q ->
  forall x, load_steps (ctx_of o) decompress clocks envs (load_start p nprocs ch0) x -> load_result x = 0%Z ->
    exists k, p = concat (firstn k blocks).
Proof.
  intros o decompress clocks envs blocks p q nprocs ch0 Fb E x Hx Hr.
  assert (Bp : bytes_ok p).
  { assert (B : bytes_ok (concat blocks)). { clear - Fb. induction Fb as [|b bl H F IH]; [constructor|]. cbn [concat]. apply Forall_app. split; [apply intact_bytes; exact H|exact IH]. }
    rewrite E in B. apply Forall_app in B. apply B. }
  destruct (load_parts (ctx_of o) decompress clocks envs p nprocs ch0 Bp) as (bl & rest & Ep & Fi & _ & L). destruct (L x Hx) as (L1 & _).
  specialize (L1 Hr). subst rest. rewrite app_nil_r in Ep. rewrite Ep. apply (intact_prefix blocks bl q Fb Fi). rewrite <- Ep. symmetry. exact E.
Qed.

(** The files of save consist of intact blocks. *)
Theorem C44_saved : forall o compress decompress shots file, lz_ok compress decompress ->
  (forall i, (i < N.to_nat (c_nshards (ctx_of o)))%nat -> shot_ok o (shots i)) ->
  saved_file o compress shots file -> exists blocks, Forall intact blocks /\ file = concat blocks.
Proof.
  intros o compress decompress shots file Lz Sh (ds & order & E1 & E2 & E3 & E4). exists (map (block_text compress) order). split; [|exact E4].
  apply Forall_forall. intros b Hb. apply in_map_iff in Hb. destruct Hb as (d & <- & Hd).
  apply (Permutation_in _ E3) in Hd. apply in_flat_map in Hd. destruct Hd as (od & Ho & Hd). destruct od as [s|]; [|destruct Hd]. destruct Hd as [->|[]].
  apply In_nth_error in Ho. destruct Ho as (i & Hi). destruct (E2 i _ Hi) as [M Sz]. specialize (Sz d eq_refl).
  assert (Li : (i < N.to_nat (c_nshards (ctx_of o)))%nat) by (rewrite <- E1; apply nth_error_Some; congruence).
  pose proof (made_bytes o (shots i) i d (Sh i Li) M) as Bd. destruct (Lz d Bd Sz) as (Z1 & Z2 & _).
  assert (Ld : N.of_nat (length d) < 2 ^ 32) by (eapply N.le_lt_trans; [exact Sz|reflexivity]).
  exists (N.of_nat (length d)), (compress d). split; [exact Ld|]. split; [exact Z2|]. split; [exact Z1|].
  unfold block_text, framed, u32. rewrite !N.mod_small by assumption. reflexivity.
Qed.
