(** A saved file brings its items back. *)
From Verif Require Import Base Types Clamp Varint VarintProofs Entry EntryProofs Hash Map MapProofs MapInv Shard
  Spec Trace ShardProofs ScanProofs LoopProofs Cache Refine Reach Observe PropCache PropItems Text CmdSpec CmdsProofs Save SaveSpec CrcProofs SaveProofs LoadProofs.
From Coq Require Import String Permutation.
Local Open Scope N_scope.
Notation length := List.length.
Notation concat := List.concat.
Notation map := List.map.

Definition good_store (K : bytes -> Prop) (x : call) : Prop :=
  exists key val ttl fl cas t, x = Store key val (restore_opts ttl fl cas) t /\ K key /\ bytes_ok key /\ bytes_ok val /\
    N.of_nat (length key) + N.of_nat (length val) < 2 ^ 62 /\ (0 <= ttl <= INT64_MAX)%Z /\ (0 < t <= INT64_MAX)%Z /\ fl < 2 ^ 32.
(** What a store of load leaves. *)
Definition left_by (val : bytes) (ttl : Z) (fl tok : N) (t : Z) : item :=
  mkItem val (if (0 <? ttl)%Z then Z.min INT64_MAX (t + ttl) else 0%Z) fl tok t.

Section S.
Variable o : opts.
Let c := ctx_of o.
Variable ch0 : cache.
Variable K : bytes -> Prop.
Hypothesis room : room_for o ch0 K.
Definition within (ch : cache) : Prop := forall k, cabs c ch k <> None -> cabs c ch0 k <> None \/ K k.

Lemma good_ok : forall ch en x, reachable c ch -> within ch -> good_store K x -> mem_fine en -> call_ok c en (cabs c ch) x.
Proof.
  intros ch en x R W (key & val & ttl & fl & cas & t & -> & G1 & G2 & G3 & G4 & G5 & G6 & G7) M. cbn [call_ok]. split; [|split].
  - unfold resolve_now. destruct (Z.gtb_spec t 0); [|lia]. constructor; cbn [restore_opts so_expires so_ttl so_flags]; unfold i64_ok, INT64_MIN, INT64_MAX in *; try assumption; try lia.
  - apply M.
  - apply room; [exact W|exact G1].
Qed.
Lemma good_result : forall ch en x ch' r evs, reachable c ch -> within ch -> good_store K x -> mem_fine en ->
  step c en ch x = Ok (ch', r, evs) ->
  reachable c ch' /\ within ch' /\
  exists key val ttl fl cas t tok s sh, x = Store key val (restore_opts ttl fl cas) t /\ r = RStatus s sh /\ (s = INSERTED \/ s = REPLACED) /\
    forall k, cabs c ch' k = if beq key k then Some (left_by val ttl fl tok t) else cabs c ch k.
Proof.
  intros ch en x ch' r evs R W G M E. pose proof (good_ok ch en x R W G M) as Ko.
  destruct G as (key & val & ttl & fl & cas & t & -> & G1 & G2 & G3 & G4 & G5 & G6 & G7).
  destruct (made_store o ch en _ _ _ _ ch' r evs R Ko E) as (R' & st & sh & m' & cas' & -> & S & A & _).
  assert (Rt : resolve_now t (en_clock en) = t) by (unfold resolve_now; destruct (Z.gtb_spec t 0); [reflexivity|lia]).
  rewrite Rt in S.
  assert (Ab : (st = INSERTED \/ st = REPLACED) /\ exists tok, forall k, cabs c ch' k = if beq key k then Some (left_by val ttl fl tok t) else cabs c ch k).
  { inversion S; subst; try discriminate.
    - match goal with H : sp_store _ _ _ _ _ _ _ = _ |- _ => rename H into Hs end.
      assert (Hst : st = INSERTED \/ st = REPLACED).
      { unfold sp_store in Hs. cbn [restore_opts so_casop so_nx so_xx so_entry orb] in Hs.
        destruct (live_item _ key t); injection Hs as _ _ <- _; auto. }
      split; [exact Hst|]. apply sp_store_new in Hs; [|exact Hst].
      eexists. intro k. rewrite A, Hs. unfold aset. destruct (beq key k); [|reflexivity]. f_equal.
      unfold left_by, sp_expires. cbn [restore_opts so_keepttl so_expires so_ttl so_flags]. f_equal.
      destruct (Z.gtb_spec 0 0); [lia|].
      destruct (Z.gtb_spec ttl 0); destruct (Z.ltb_spec 0 ttl); try lia.
      unfold norm, clamp64, INT64_MIN, INT64_MAX in *. destruct (Z.ltb_spec 0 (Z.max (- 2 ^ 63) (Z.min (2 ^ 63 - 1) (t + ttl)))); lia.
    - match goal with H : al_table _ = false |- _ => rewrite (proj2 (M _)) in H; discriminate end. }
  destruct Ab as (Hst & tok & Ab). split; [exact R'|]. split.
  - intros k Hk. rewrite Ab in Hk. destruct (beq key k) eqn:B; [|apply W; exact Hk]. apply beq_eq in B. subst k. right. exact G1.
  - exists key, val, ttl, fl, cas, t, tok, st, sh. auto.
Qed.
Lemma good_steps : forall ch en x, reachable c ch -> within ch -> good_store K x -> mem_fine en ->
  exists ch' s sh evs, step c en ch x = Ok (ch', RStatus s sh, evs) /\ (s = INSERTED \/ s = REPLACED).
Proof.
  intros ch en x R W G M. pose proof (good_ok ch en x R W G M) as Ko.
  destruct (reachable_step _ (opts_load o) (opts_shards o) ch en x R Ko) as (ch' & r & evs & E & _).
  destruct (good_result ch en x ch' r evs R W G M E) as (_ & _ & _ & _ & _ & _ & _ & _ & _ & s & sh & _ & -> & Hs & _).
  exists ch', s, sh, evs. auto.
Qed.

Lemma stores_effect : forall (envs : env -> Prop) done ch', (forall en, envs en -> mem_fine en) -> reachable c ch0 ->
  stores c envs ch0 done ch' -> Forall (good_store K) done ->
  reachable c ch' /\ within ch' /\ forall k,
    (cabs c ch' k = cabs c ch0 k /\ forall val so t, ~ In (Store k val so t) done) \/
    exists val ttl fl cas t tok, In (Store k val (restore_opts ttl fl cas) t) done /\ cabs c ch' k = Some (left_by val ttl fl tok t).
Proof.
  intros envs done ch' Me R0 H. induction H as [|l ch1 en x ch2 s sh evs H IH Hen E Hs]; intro F.
  - split; [exact R0|]. split; [intros k Hk; left; exact Hk|]. intro k. left. split; [reflexivity|]. intros val so t [].
  - apply Forall_app in F. destruct F as [F1 F2]. inversion F2 as [|? ? Gx _]; subst. destruct (IH F1) as (R1 & W1 & A1).
    destruct (good_result ch1 en x ch2 _ evs R1 W1 Gx (Me en Hen) E) as (R2 & W2 & key & val & ttl & fl & cas & t & tok & s' & sh' & -> & _ & _ & A2).
    split; [exact R2|]. split; [exact W2|]. intro k. rewrite A2. destruct (beq key k) eqn:B.
    + apply beq_eq in B. subst k. right. exists val, ttl, fl, cas, t, tok. split; [|reflexivity]. apply in_app_iff. right. left. reflexivity.
    + destruct (A1 k) as [[A3 A4]|(val' & ttl' & fl' & cas' & t' & tok' & A3 & A4)].
      * left. split; [exact A3|]. intros v so t0 Hin. apply in_app_iff in Hin. destruct Hin as [Hin|[Hin|[]]]; [exact (A4 _ _ _ Hin)|].
        injection Hin as -> _ _ _. rewrite beq_refl in B. discriminate.
      * right. exists val', ttl', fl', cas', t', tok'. split; [|exact A4]. apply in_app_iff. left. exact A3.
Qed.
End S.

Lemma holds_shown : forall o ch key it v, reachable (ctx_of o) ch -> cabs (ctx_of o) ch key = Some it -> shown_of it = v -> holds o ch key v.
Proof.
  intros o ch key it v R E <- t. apply (sees_iff _ (opts_load o)); [apply reach_cinv; exact R|]. unfold live_item. rewrite E.
  cbn [shown_of v_exp]. destruct (alive_at (i_exp it) t); reflexivity.
Qed.

(** What one block of a saved file stands for. *)
Definition block_items (o : opts) (s : shot) (i : nat) (items : list (bytes * view)) : Prop :=
  forall k v, In (k, v) items <-> route (ctx_of o) k = i /\ sees (ctx_of o) (sh_cache s) k (sh_now s) (Some v).
Lemma block_items_ok : forall o s i items, shot_ok o s -> block_items o s i items ->
  Forall (fun p => item_ok (fst p) (snd p) /\ alive_at (v_exp (snd p)) (sh_now s) = true) items.
Proof.
  intros o s i items [R T] B. apply Forall_forall. intros [k v] Hin. apply B in Hin. destruct Hin as [_ S]. exact (sees_item o _ k _ v R S).
Qed.
Lemma made_items : forall o s i d, shot_ok o s -> made_block o s i d ->
  exists items, block_items o s i items /\
    d = match items with [] => None | _ => Some (varint_write_u64 (u64_of_i64 (sh_unix s)) ++ entries_text (sh_now s) items) end.
Proof.
  intros o s i d Hs (en & ch' & E). pose proof Hs as [R T]. unfold shard_data in E.
  destruct (reachable_step _ (opts_load o) (opts_shards o) (sh_cache s) en (Iter (Some (fun _ _ _ => (false, false))) (Some (Z.of_nat i)) (sh_now s)) R Logic.I)
    as (ch1 & r & evs & E1 & R1 & _ & Sp).
  change (opts_to_ctx o) with (ctx_of o) in E1. rewrite E1 in E. clear E1. inversion Sp; subst.
  match goal with H : sp_iter _ _ _ _ _ _ _ _ _ _ |- _ => rename H into Hi end.
  assert (Rn : resolve_now (sh_now s) (en_clock en) = sh_now s) by (unfold resolve_now; destruct (Z.gtb_spec (sh_now s) 0); [reflexivity|destruct T as [T _]; lia]).
  rewrite Rn in Hi.
  assert (Fi : st = FINISHED).
  { destruct (it_run _ _ _ _ _ _ _ _ _ _ Hi) as (stopped & Ru & ->). assert (stopped = false); [|subst; reflexivity].
    remember (fun (h : list (bytes * view)) k v => (h ++ [(k, v)], (false, false))) as f eqn:Ef.
    clear - Ru Ef. induction Ru; [reflexivity| |exact IHRu]. subst f. discriminate. }
  assert (B : block_items o s i shown).
  { intros k v. split.
    - intro Hin. destruct (it_live _ _ _ _ _ _ _ _ _ _ Hi k v Hin) as (D & it & L & ->). split.
      + unfold sel in D. change (opts_to_ctx o) with (ctx_of o) in D. lia.
      + apply (sees_iff _ (opts_load o)); [apply reach_cinv; exact R|]. change (w_map (world_of (opts_to_ctx o) (sh_cache s))) with (cabs (ctx_of o) (sh_cache s)) in L.
        rewrite L. reflexivity.
    - intros [D Se]. apply (sees_iff _ (opts_load o)) in Se; [|apply reach_cinv; exact R].
      destruct (live_item (cabs (ctx_of o) (sh_cache s)) k (sh_now s)) as [it|] eqn:L; [|discriminate]. injection Se as ->.
      apply (it_all _ _ _ _ _ _ _ _ _ _ Hi); [discriminate|exact Fi| |exact L]. unfold sel. change (opts_to_ctx o) with (ctx_of o). lia. }
  exists shown. split; [exact B|]. rewrite save_entries_text in E; [|apply T|exact (block_items_ok o s i shown Hs B)].
  injection E as <- <-. reflexivity.
Qed.

(** *** All of it *)
Section Back.
Variables o o' : opts.
Variable compress : bytes -> bytes.
Variable decompress : bytes -> N -> option bytes.
Hypothesis lz : lz_ok compress decompress.
Variable shots : nat -> shot.
Hypothesis shots_ok : forall i, (i < N.to_nat (c_nshards (ctx_of o)))%nat -> shot_ok o (shots i).
Variable file : bytes.
Hypothesis saved : saved_file o compress shots file.
Variable ch0 : cache.
Hypothesis reach0 : reachable (ctx_of o') ch0.
Variable clocks : Z -> Z -> Prop.
Hypothesis clocks_ok : forall now unix, clocks now unix -> times_ok now unix.
Variable envs : env -> Prop.
Hypothesis envs_ok : forall en, envs en -> mem_fine en.
Let shot_of (key : bytes) : shot := shots (route (ctx_of o) key).
Let K (key : bytes) : Prop := exists v, sees (ctx_of o) (sh_cache (shot_of key)) key (sh_now (shot_of key)) (Some v).
Hypothesis room : room_for o' ch0 K.
Variable nprocs : nat.
Hypothesis np : (1 <= nprocs)%nat.

(** The blocks, and the items of each. *)
Definition from_shard (b : cblock) (i : nat) (items : list (bytes * view)) : Prop :=
  (i < N.to_nat (c_nshards (ctx_of o)))%nat /\ block_items o (shots i) i items /\
  forall now' unix', times_ok now' unix' -> load_block decompress b now' unix' =
    Ok (flat_map (fun p => back_store (sh_now (shots i)) (sh_unix (shots i)) now' unix' (fst p) (snd p)) items, true).

Lemma file_blocks : exists blocks, read_file file = (blocks, true) /\
  (forall b, In b blocks -> exists i items, from_shard b i items) /\
  (forall k v, sees (ctx_of o) (sh_cache (shot_of k)) k (sh_now (shot_of k)) (Some v) ->
     exists b items, In b blocks /\ from_shard b (route (ctx_of o) k) items).
Proof.
  destruct saved as (ds & order & Ln & Hd & P & ->).
  assert (Ds : forall i d, nth_error ds i = Some (Some d) -> exists items, (i < N.to_nat (c_nshards (ctx_of o)))%nat /\ block_items o (shots i) i items /\
     d = varint_write_u64 (u64_of_i64 (sh_unix (shots i))) ++ entries_text (sh_now (shots i)) items /\ bytes_ok d /\ N.of_nat (length d) <= 0x7E000000).
  { intros i d E. assert (Li : (i < N.to_nat (c_nshards (ctx_of o)))%nat) by (rewrite <- Ln; apply nth_error_Some; congruence).
    destruct (Hd i _ E) as [M Sz]. specialize (Sz d eq_refl). pose proof (shots_ok i Li) as So.
    destruct (made_items o (shots i) i _ So M) as (items & B & Ed). exists items. destruct items as [|p items]; [discriminate|].
    injection Ed as Ed. split; [exact Li|]. split; [exact B|]. split; [exact Ed|]. split; [|exact Sz].
    rewrite Ed. destruct So as [So T]. pose proof T as [T1 T2]. apply Forall_app. split.
    - apply varint_write_ok. unfold u64_of_i64. unfold INT64_MAX in T2. rewrite Z.mod_small; lia.
    - apply entries_bytes; [lia|]. apply (block_items_ok o (shots i) i); [split; assumption|exact B]. }
  assert (Or : forall d, In d order <-> exists i, nth_error ds i = Some (Some d)).
  { intro d. rewrite P. rewrite in_flat_map. split.
    - intros (x & Hx & Hin). destruct x as [s|]; [|destruct Hin]. destruct Hin as [<-|[]]. apply In_nth_error. exact Hx.
    - intros (i & E). exists (Some d). split; [exact (nth_error_In _ _ E)|left; reflexivity]. }
  exists (map (fun d => mkBlock (compress d) (N.of_nat (length d))) order).
  assert (Sd : Forall (sized compress) order).
  { apply Forall_forall. intros d Hin. apply Or in Hin. destruct Hin as (i & E). destruct (Ds i d E) as (items & _ & _ & _ & Bd & Ld).
    destruct (lz d Bd Ld) as (Z1 & Z2 & _). split; [exact Z1|]. split; [exact Z2|lia]. }
  assert (Fr : forall i d items, nth_error ds i = Some (Some d) -> (i < N.to_nat (c_nshards (ctx_of o)))%nat -> block_items o (shots i) i items ->
     d = varint_write_u64 (u64_of_i64 (sh_unix (shots i))) ++ entries_text (sh_now (shots i)) items -> N.of_nat (length d) <= 0x7E000000 ->
     from_shard (mkBlock (compress d) (N.of_nat (length d))) i items).
  { intros i d items E Li B Ed Ld. split; [exact Li|]. split; [exact B|]. intros now' unix' T'. rewrite Ed.
    apply load_block_saved; try assumption.
    - exact (proj2 (shots_ok i Li)).
    - exact (block_items_ok o (shots i) i items (shots_ok i Li) B).
    - rewrite <- Ed. exact Ld. }
  split; [exact (read_saved compress order Sd)|]. split.
  - intros b Hb. apply in_map_iff in Hb. destruct Hb as (d & <- & Hin). apply Or in Hin. destruct Hin as (i & E).
    destruct (Ds i d E) as (items & Li & B & Ed & _ & Ld). exists i, items. exact (Fr i d items E Li B Ed Ld).
  - intros k v Hs. set (i := route (ctx_of o) k) in *.
    assert (Li : (i < N.to_nat (c_nshards (ctx_of o)))%nat).
    { unfold i, route, shard_index. pose proof (opts_shards o). change (opts_to_ctx o) with (ctx_of o) in H.
      pose proof (N.mod_lt (N.shiftr (th64 k (c_seed (ctx_of o))) 32) (c_nshards (ctx_of o))). lia. }
    destruct (nth_error ds i) as [x|] eqn:E; [|apply nth_error_None in E; lia].
    pose proof (shots_ok i Li) as So. destruct (made_items o (shots i) i x So (proj1 (Hd i x E))) as (its & B & Ex).
    assert (Hin : In (k, v) its) by (apply B; split; [reflexivity|exact Hs]).
    destruct its as [|p its]; [destruct Hin|]. destruct x as [d|]; [|discriminate].
    destruct (Ds i d E) as (items & _ & B2 & Ed & _ & Ld).
    exists (mkBlock (compress d) (N.of_nat (length d))), items. split; [|exact (Fr i d items E Li B2 Ed Ld)].
    apply (in_map (fun d => mkBlock (compress d) (N.of_nat (length d)))). apply Or. exists i. exact E.
Qed.

(** A store of a saved block is the one that brings its item back. *)
Lemma shard_store : forall b i items now' unix' x, from_shard b i items -> times_ok now' unix' ->
  In x (flat_map (fun p => back_store (sh_now (shots i)) (sh_unix (shots i)) now' unix' (fst p) (snd p)) items) ->
  good_store K x /\
  exists k v, In (k, v) items /\ route (ctx_of o) k = i /\ sees (ctx_of o) (sh_cache (shots i)) k (sh_now (shots i)) (Some v) /\
    [x] = back_store (sh_now (shots i)) (sh_unix (shots i)) now' unix' k v.
Proof.
  intros b i items now' unix' x (Li & B & _) T Hin. apply in_flat_map in Hin. destruct Hin as ([k v] & Hp & Hx). cbn [fst snd] in Hx.
  pose proof Hp as Hb. apply B in Hb. destruct Hb as [Hr Hs]. pose proof (shots_ok i Li) as [So Ti].
  destruct (sees_item o _ k _ v So Hs) as [(A1 & A2 & A3 & A4 & A5 & A6) Al].
  assert (Kk : K k) by (exists v; unfold shot_of; rewrite Hr; exact Hs). destruct T as [T1 T2].
  assert (E1 : [x] = back_store (sh_now (shots i)) (sh_unix (shots i)) now' unix' k v).
  { unfold back_store in *. destruct (0 <? v_exp v)%Z; [|destruct Hx as [<-|[]]; reflexivity].
    destruct (_ <? unix')%Z; [destruct Hx|destruct Hx as [<-|[]]; reflexivity]. }
  split; [|exists k, v; auto].
  unfold back_store in E1. destruct (Z.ltb_spec 0 (v_exp v)).
  - set (e := Z.min INT64_MAX (instant (sh_now (shots i)) (sh_unix (shots i)) (v_exp v))) in *. destruct (Z.ltb_spec e unix'); [discriminate|].
    injection E1 as ->. exists k, (v_val v), (e - unix')%Z, (v_flags v), (v_cas v), now'. repeat split; try assumption; try lia.
  - injection E1 as ->. exists k, (v_val v), 0%Z, (v_flags v), (v_cas v), now'. repeat split; try assumption; unfold INT64_MAX in *; try lia.
Qed.

Lemma back_load : forall x, load_steps (ctx_of o') decompress clocks envs (load_start file nprocs ch0) x ->
  (load_ended x = true -> load_result x = 0%Z /\ reachable (ctx_of o') (ld_cache x) /\ forall key,
     let s := shot_of key in
     (sees (ctx_of o) (sh_cache s) key (sh_now s) None -> same_at (ctx_of o') ch0 (ld_cache x) key) /\
     (forall v, sees (ctx_of o) (sh_cache s) key (sh_now s) (Some v) -> exists now' unix', clocks now' unix' /\
        came_back o' ch0 (ld_cache x) key v (sh_now s) (sh_unix s) now' unix')) /\
  (load_ended x = false -> (exists now unix, clocks now unix) -> (exists en, envs en) ->
     exists y, load_step (ctx_of o') decompress clocks envs x y).
Proof.
  intros x Hx. destruct file_blocks as (blocks & Er & Fb & Fk). unfold load_start in Hx. rewrite Er in Hx. cbn [fst snd] in Hx.
  destruct (linv_steps (ctx_of o') decompress clocks envs blocks true nprocs ch0 _ x [] [] Hx (linv_start _ _ _ _ _ _ _ _ blocks eq_refl)) as (tks & done & I).
  pose proof (li_tks _ _ _ _ _ _ _ _ _ _ _ I) as Ht.
  assert (Bt : forall t, In t tks -> exists i items, from_shard (tk_block t) i items /\ tk_fin t = true /\ clocks (tk_now t) (tk_unix t) /\
     tk_stores t = flat_map (fun p => back_store (sh_now (shots i)) (sh_unix (shots i)) (tk_now t) (tk_unix t) (fst p) (snd p)) items).
  { intros t Hin. rewrite Forall_forall in Ht. destruct (Ht t Hin) as [Hc Hl].
    assert (Hb : In (tk_block t) blocks).
    { apply (Permutation_in _ (Permutation_sym (li_blocks _ _ _ _ _ _ _ _ _ _ _ I))). apply in_app_iff. left. apply in_map. exact Hin. }
    destruct (Fb _ Hb) as (i & items & Fs). exists i, items. split; [exact Fs|]. destruct Fs as (_ & _ & Fs).
    rewrite (Fs _ _ (clocks_ok _ _ Hc)) in Hl. injection Hl as H1 H2. auto. }
  assert (Gt : Forall (good_store K) (flat_map tk_stores tks)).
  { apply Forall_forall. intros y Hy. apply in_flat_map in Hy. destruct Hy as (t & Hin & Hy).
    destruct (Bt t Hin) as (i & items & Fs & _ & Hc & Es). rewrite Es in Hy. exact (proj1 (shard_store _ i items _ _ y Fs (clocks_ok _ _ Hc) Hy)). }
  assert (Gd : Forall (good_store K) (done ++ flat_map todo (ld_workers x))).
  { eapply Permutation_Forall; [exact (li_stores _ _ _ _ _ _ _ _ _ _ _ I)|exact Gt]. }
  apply Forall_app in Gd. destruct Gd as [Gd Gw].
  destruct (stores_effect o' ch0 K room envs done (ld_cache x) envs_ok reach0 (li_cache _ _ _ _ _ _ _ _ _ _ _ I) Gd) as (Rx & Wx & Ax).
  split.
  - intro He. assert (Hr : load_result x = 0%Z).
    { destruct (Z.eq_dec (load_result x) 0) as [E|N0]; [exact E|]. exfalso.
      destruct (linv_failure _ _ _ _ _ _ _ _ x tks done I He N0) as [E|(t & Hin & E)]; [discriminate|].
      destruct (Bt t Hin) as (_ & _ & _ & E2 & _). congruence. }
    split; [exact Hr|]. split; [exact Rx|].
    destruct (linv_success _ _ _ _ _ _ _ _ x tks done I np He Hr) as (_ & Pb & Ps & _).
    intros key s.
    assert (St : forall y, In y done -> exists t i items k v, In t tks /\ from_shard (tk_block t) i items /\ clocks (tk_now t) (tk_unix t) /\
       route (ctx_of o) k = i /\ sees (ctx_of o) (sh_cache (shots i)) k (sh_now (shots i)) (Some v) /\
       [y] = back_store (sh_now (shots i)) (sh_unix (shots i)) (tk_now t) (tk_unix t) k v).
    { intros y Hy. apply (Permutation_in _ (Permutation_sym Ps)) in Hy. apply in_flat_map in Hy. destruct Hy as (t & Hin & Hy).
      destruct (Bt t Hin) as (i & items & Fs & _ & Hc & Es). rewrite Es in Hy.
      destruct (shard_store _ i items _ _ y Fs (clocks_ok _ _ Hc) Hy) as (_ & k & v & _ & Q1 & Q2 & Q3). exists t, i, items, k, v. auto 10. }
    assert (Sk : forall val so t0, In (Store key val so t0) done -> exists t v, clocks (tk_now t) (tk_unix t) /\
       sees (ctx_of o) (sh_cache s) key (sh_now s) (Some v) /\ [Store key val so t0] = back_store (sh_now s) (sh_unix s) (tk_now t) (tk_unix t) key v).
    { intros val so t0 Hy. destruct (St _ Hy) as (t & i & items & k & v & Hin & Fs & Hc & Q1 & Q2 & Q3).
      assert (k = key). { unfold back_store in Q3. destruct (0 <? v_exp v)%Z; [destruct (_ <? _)%Z; [discriminate|]|]; injection Q3; congruence. }
      subst k i. exists t, v. auto. }
    split.
    + intros Hn. destruct (Ax key) as [[A1 _]|(val & ttl & fl & cas & t & tok & A1 & A2)].
      * apply (same_at_abs _ (opts_load o')); [apply reach_cinv; exact reach0|apply reach_cinv; exact Rx|exact A1].
      * exfalso. destruct (Sk _ _ _ A1) as (t1 & v & _ & Sv & _).
        assert (Li : (route (ctx_of o) key < N.to_nat (c_nshards (ctx_of o)))%nat).
        { unfold route, shard_index. pose proof (opts_shards o). change (opts_to_ctx o) with (ctx_of o) in H.
          pose proof (N.mod_lt (N.shiftr (th64 key (c_seed (ctx_of o))) 32) (c_nshards (ctx_of o))). lia. }
        pose proof (sees_unique _ (opts_load o) _ _ _ _ _ (reach_cinv o _ (proj1 (shots_ok _ Li))) Hn Sv). discriminate.
    + intros v Hv. destruct (Fk key v Hv) as (b & items & Hb & Fs).
      pose proof (shots_ok _ (proj1 Fs)) as [Sr Tr]. destruct (sees_item o _ key _ v Sr Hv) as [Iv Al].
      assert (Nz : v_exp v = 0%Z \/ (0 < v_exp v)%Z) by (destruct Iv as (_ & _ & _ & Iv & _); lia).
      fold s in Sr, Tr, Al, Hv.
      destruct (Ax key) as [[A1 A2]|(val & ttl & fl & cas & t & tok & A1 & A2)].
      * apply (Permutation_in _ Pb) in Hb. apply in_map_iff in Hb. destruct Hb as (t & <- & Hin).
        destruct (Bt t Hin) as (i2 & items2 & Fs2 & _ & Hc & _). exists (tk_now t), (tk_unix t). split; [exact Hc|].
        rewrite Forall_forall in Ht. destruct (Ht t Hin) as [_ Hl]. destruct Fs as (F1 & F2 & F3). rewrite (F3 _ _ (clocks_ok _ _ Hc)) in Hl. injection Hl as Hl _.
        assert (Nb : back_store (sh_now s) (sh_unix s) (tk_now t) (tk_unix t) key v = []).
        { destruct (back_store (sh_now s) (sh_unix s) (tk_now t) (tk_unix t) key v) as [|y l] eqn:Eb; [reflexivity|]. exfalso.
          assert (Hy : In y done). { apply (Permutation_in _ Ps). apply in_flat_map. exists t. split; [exact Hin|]. rewrite <- Hl. apply in_flat_map.
            exists (key, v). split; [apply F2; split; [reflexivity|exact Hv]|]. cbn [fst snd]. unfold s, shot_of in Eb. rewrite Eb. left. reflexivity. }
          unfold back_store in Eb. destruct (0 <? v_exp v)%Z; [destruct (_ <? _)%Z; [discriminate|]|]; injection Eb as <- _; exact (A2 _ _ _ Hy). }
        unfold back_store in Nb. destruct (Z.ltb_spec 0 (v_exp v)); [|discriminate].
        destruct (Z.ltb_spec (Z.min INT64_MAX (instant (sh_now s) (sh_unix s) (v_exp v))) (tk_unix t)); [|discriminate].
        apply cb_past; [lia| |].
        -- pose proof (clocks_ok _ _ Hc) as [_ X]. lia.
        -- apply (same_at_abs _ (opts_load o')); [apply reach_cinv; exact reach0|apply reach_cinv; exact Rx|exact A1].
      * destruct (Sk _ _ _ A1) as (t1 & w & Hc & Sw & Eb).
        pose proof (sees_unique _ (opts_load o) _ _ _ _ _ (reach_cinv o _ Sr) Hv Sw) as Evw. injection Evw as <-.
        exists (tk_now t1), (tk_unix t1). split; [exact Hc|]. pose proof (clocks_ok _ _ Hc) as [X1 X2].
        unfold back_store in Eb. destruct (Z.ltb_spec 0 (v_exp v)).
        -- set (inst := instant (sh_now s) (sh_unix s) (v_exp v)) in *.
           destruct (Z.ltb_spec (Z.min INT64_MAX inst) (tk_unix t1)); [discriminate|]. injection Eb as -> -> _ -> ->.
           destruct (Z.eq_dec (Z.min INT64_MAX inst) (tk_unix t1)) as [Eq|Nq].
           ++ apply (cb_brink _ _ _ _ _ _ _ _ _ tok); [lia|fold inst; lia|].
              eapply holds_shown; [exact Rx|exact A2|]. unfold left_by, shown_of. cbn [i_val i_exp i_flags i_cas].
              destruct (Z.ltb_spec 0 (Z.min INT64_MAX inst - tk_unix t1)); [lia|reflexivity].
           ++ apply (cb_until _ _ _ _ _ _ _ _ _ (Z.min INT64_MAX (tk_now t1 + (Z.min INT64_MAX inst - tk_unix t1))) tok); fold inst.
              ** lia.
              ** lia.
              ** intros Q1 Q2. unfold instant. lia.
              ** unfold INT64_MAX in *. lia.
              ** eapply holds_shown; [exact Rx|exact A2|]. unfold left_by, shown_of. cbn [i_val i_exp i_flags i_cas].
                 destruct (Z.ltb_spec 0 (Z.min INT64_MAX inst - tk_unix t1)); [reflexivity|lia].
        -- injection Eb as -> -> _ -> ->. apply (cb_forever _ _ _ _ _ _ _ _ _ tok); [lia|].
           eapply holds_shown; [exact Rx|exact A2|]. unfold left_by, shown_of. cbn [i_val i_exp i_flags i_cas Z.ltb Z.compare]. reflexivity.
  - intros He Hc (en & Hen).
    apply (linv_progress (ctx_of o') decompress clocks envs blocks true nprocs ch0 clocks_ok np Hc x tks done I He).
    intros y l f Hin. rewrite Forall_forall in Gw.
    assert (Gy : good_store K y). { apply Gw. apply in_flat_map. exists (WRun (y :: l) f). split; [exact Hin|left; reflexivity]. }
    destruct (good_steps o' ch0 K room (ld_cache x) en y Rx Wx Gy (envs_ok en Hen)) as (ch' & s & sh & evs & Es & Hs).
    exists en, ch', s, sh, evs. auto.
Qed.
End Back.
