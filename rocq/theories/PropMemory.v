(** C11: what a store does when memory is low. *)
From Coq Require Import Permutation.
From Verif Require Import Base Types Clamp Entry EntryProofs Hash Map MapProofs MapInv Shard
  Spec Trace ShardProofs ScanProofs LoopProofs Cache Refine Reach Observe PropCache PropItems Small EvictProofs.
Local Open Scope N_scope.

(** ** C11 A low-memory store makes room by dropping one other item *)

(** The 24 hash bits kept in a bucket, of a key. *)
Definition hash24 (o : opts) (key : bytes) : N := clip_hash (u32 (th64 key (op_seed o))).

(** The items a store of [key] may drop: those of the same shard with a
    different 24-bit hash. *)
Definition neighbour (o : opts) (ch : cache) (key k : bytes) (it : item) : Prop :=
  cabs (ctx_of o) ch k = Some it /\ route (ctx_of o) k = route (ctx_of o) key /\
  hash24 o k <> hash24 o key.

(** Every table has at most 2^31 buckets (the code counts them in an int). *)
Definition tables_fit (ch : cache) : Prop :=
  forall s, In s (ca_shards ch) -> N.of_nat (m_nb (s_map s)) <= 2 ^ 31.

Lemma tables_fit_b : forall ch,
  forallb (fun s => N.of_nat (m_nb (s_map s)) <=? 2 ^ 31) (ca_shards ch) = true -> tables_fit ch.
Proof. intros ch H s Hs. rewrite forallb_forall in H. apply N.leb_le. apply H. assumption. Qed.

Lemma hash24_eq : forall o k, hash24 o k = hk (hash32 (ctx_of o)) k.
Proof. reflexivity. Qed.

Section V.
Variable c : ctx.
Hypothesis load_ok : 55 <= c_load c <= 95.

Lemma roomy_crowd : forall ch key s, cinv c ch -> roomy c (cabs c ch) key ->
  nth_error (ca_shards ch) (route c key) = Some s ->
  crowd_ok (hk (hash32 c) key :: hashes (s_map s)).
Proof.
  intros ch key s I Ro Hs. pose proof (ci_shard c ch I _ _ Hs) as Is.
  assert (P : Permutation (hashes (s_map s)) (List.map (hk (hash32 c)) (List.map (ekey c) (sents s)))).
  { apply (crowd_keys c (s_map s)); [apply Is|reflexivity]. }
  eapply crowd_perm; [apply perm_skip; symmetry; exact P|].
  apply Ro.
  - exact (nodup_keys c _ Is).
  - intros k Hk. assert (Hne : sabs c s k <> None).
    { intro X. unfold ShardProofs.sabs in X. destruct (lk (ekey c) (sents s) k) eqn:L; [discriminate|].
      apply lk_none in L. contradiction. }
    pose proof (ci_route c ch I _ _ _ Hs Hne) as Hr. split; [assumption|].
    rewrite (cabs_at c ch (route c key) s k Hs Hr). assumption.
Qed.

Lemma sent_item : forall ch i s e, cinv c ch -> nth_error (ca_shards ch) i = Some s -> In e (sents s) ->
  cabs c ch (ekey c e) = Some (item_of c e) /\ route c (ekey c e) = i.
Proof.
  intros ch i s e I Hs He. pose proof (ci_shard c ch I _ _ Hs) as Is.
  assert (L : sabs c s (ekey c e) = Some (item_of c e)).
  { unfold sabs. rewrite (lk_in (ekey c) (sents s) e (nodup_keys c _ Is) He). reflexivity. }
  assert (Hr : route c (ekey c e) = i) by (apply (ci_route c ch I i s); [assumption|congruence]).
  split; [|assumption]. rewrite (cabs_at c ch i s _ Hs Hr). assumption.
Qed.

Lemma item_sent : forall ch k it, cinv c ch -> cabs c ch k = Some it ->
  exists s e, nth_error (ca_shards ch) (route c k) = Some s /\ In e (sents s) /\ ekey c e = k /\ item_of c e = it.
Proof.
  intros ch k it I H. unfold cabs in H. destruct (nth_error (ca_shards ch) (route c k)) as [s|] eqn:Hs; [|discriminate].
  unfold sabs in H. destruct (lk (ekey c) (sents s) k) as [e|] eqn:L; [|discriminate].
  apply lk_some in L. destruct L. injection H as <-. exists s, e. auto.
Qed.
End V.

(** A store of a new key when memory is low either drops exactly one other item,
    or - only if fewer than two could be dropped - none. The dropped one is
    expired, or was last used no later than some other live item that could have
    been dropped, or fewer than three could. Everything else stays as it is. *)
Theorem C11_lowmem_choice : forall o ch en key val so time ch' sh evs,
  reachable (ctx_of o) ch -> tables_fit ch ->
  call_ok (ctx_of o) en (cabs (ctx_of o) ch) (Store key val so time) ->
  step (ctx_of o) en ch (Store key val so time) = Ok (ch', RStatus INSERTED sh, evs) ->
  so_lowmem so = true -> cabs (ctx_of o) ch key = None ->
  let now := resolve_now time (en_clock en) in
  ((forall k, k <> key -> cabs (ctx_of o) ch' k = cabs (ctx_of o) ch k) /\
   (forall k1 k2 i1 i2, neighbour o ch key k1 i1 -> neighbour o ch key k2 i2 -> k1 = k2)) \/
  exists victim it, neighbour o ch key victim it /\ cabs (ctx_of o) ch' victim = None /\
    (forall k, k <> key -> k <> victim -> cabs (ctx_of o) ch' k = cabs (ctx_of o) ch k) /\
    (alive_at (i_exp it) now = false \/
     (exists k2 i2, neighbour o ch key k2 i2 /\ k2 <> victim /\ alive_at (i_exp i2) now = true /\
        (i_time it <= i_time i2)%Z) \/
     (forall k1 k2 i1 i2, neighbour o ch key k1 i1 -> neighbour o ch key k2 i2 ->
        k1 <> victim -> k2 <> victim -> k1 = k2)).
Proof.
  intros o ch en key val so time ch' sh evs R T K E Lm Ab now.
  pose proof (reach_cinv o ch R) as I. set (c := ctx_of o) in *.
  pose proof (opts_load o : 55 <= c_load c <= 95) as Lo.
  destruct (made_store o ch en key val so time ch' _ evs R K E) as (R' & st1 & sh1 & m' & cas' & Er & Sp & A & _).
  injection Er as <- <-. pose proof (reach_cinv o ch' R') as I'. fold c in I'.
  destruct K as (K1 & K2 & K3).
  destruct (shard_at c ch (route c key) I) as (s & Hs);
    [pose proof (route_lt c Lo ch key I); pose proof (ci_len c ch I); lia|].
  pose proof (ci_shard c ch I _ _ Hs) as Is.
  pose proof (roomy_crowd c ch key s I K3 Hs) as Cr.
  assert (Fit : N.of_nat (m_nb (s_map s)) <= 2 ^ 31) by (apply T; eapply nth_error_In; exact Hs).
  assert (Nin : ~ In key (List.map (ekey c) (sents s))).
  { intro X. apply in_map_iff in X. destruct X as (e & Ee & He).
    destruct (sent_item c ch _ s e I Hs He) as [Y _]. rewrite Ee in Y. congruence. }
  assert (Nb : forall k it, neighbour o ch key k it <->
    exists e, In e (sents s) /\ hk (hash32 c) (ekey c e) <> hk (hash32 c) key /\ ekey c e = k /\ item_of c e = it).
  { intros k it. split.
    - intros (N1 & N2 & N3). destruct (item_sent c ch k it I N1) as (s2 & e & S2 & He & Ke & Ie).
      fold c in N2. rewrite N2, Hs in S2. injection S2 as <-. exists e. split; [assumption|].
      split; [|auto]. rewrite Ke. rewrite !hash24_eq in N3. exact N3.
    - intros (e & He & Hh & <- & <-). destruct (sent_item c ch _ s e I Hs He) as [Y1 Y2].
      split; [exact Y1|]. split; [exact Y2|]. rewrite !hash24_eq. exact Hh. }
  cbn [step] in E. unfold cache_store, on_shard in E. rewrite Hs in E. fold now in E.
  set (ps := mkShard (s_cas s) (s_map s) (ca_next ch)) in E.
  destruct (storeop c (en_mem en (route c key)) ps key val so now) as [[[s' st] evs']|] eqn:Es; [|discriminate].
  injection E as Ech Est Esh Eev. subst ch' st.
  assert (Ne : forall k, route c k = route c key ->
     cabs c (mkCache (s_next s') (upd (ca_shards ch) (route c key) s')) k = sabs c s' k).
  { intros k Q.
    unfold cabs. cbn [ca_shards]. rewrite nth_error_upd; [|apply nth_error_Some; congruence].
    rewrite Q, Nat.eqb_refl. reflexivity. }
  assert (Ot : forall k, route c k <> route c key ->
     cabs c (mkCache (s_next s') (upd (ca_shards ch) (route c key) s')) k = cabs c ch k).
  { intros k Q. unfold cabs. cbn [ca_shards]. rewrite nth_error_upd; [|apply nth_error_Some; congruence].
    apply Nat.eqb_neq in Q. rewrite Q. reflexivity. }
  assert (At : forall k, route c k = route c key -> cabs c ch k = sabs c s k).
  { intros k Q. apply (cabs_at c ch (route c key) s k Hs Q). }
  change (sinv c ps) in Is.
  destruct (storeop_evicts c Lo _ ps key val so now s' INSERTED evs' Is K1 Cr Fit Lm Nin Es eq_refl)
    as [[P U]|(e & r & k0 & He & P & Hh & L & _ & Ch)].
  - left. split.
    + intros k Hk. destruct (Nat.eq_dec (route c k) (route c key)) as [Q|Q]; [|apply Ot; assumption].
      rewrite (Ne k Q), (At k Q). unfold sabs. rewrite (P k Hk). reflexivity.
    + intros k1 k2 i1 i2 N1 N2. apply Nb in N1, N2. destruct N1 as (e1 & A1 & B1 & <- & _).
      destruct N2 as (e2 & A2 & B2 & <- & _). f_equal. apply U; assumption.
  - right. exists (ekey c e), (item_of c e).
    assert (Kv : ekey c e <> key) by (intro X; apply Hh; rewrite X; reflexivity).
    destruct (sent_item c ch _ s e I Hs He) as [Y1 Y2].
    assert (We : wf_entry c e) by (eapply ents_wf; [apply Is|exact He]).
    assert (Lr : forall k, lk (ekey c) r k = if beq (ekey c e) k then None else lk (ekey c) (sents s) k)
      by (intro k; apply lk_remove; [exact (nodup_keys c _ Is)|exact P]).
    split; [apply Nb; exists e; auto|]. split; [|split].
    + rewrite (Ne _ Y2). unfold sabs. rewrite (L _ Kv), Lr, beq_refl. reflexivity.
    + intros k Hk Hv. destruct (Nat.eq_dec (route c k) (route c key)) as [Q|Q]; [|apply Ot; assumption].
      rewrite (Ne k Q), (At k Q). unfold sabs. rewrite (L k Hk), Lr, beq_neq by congruence. reflexivity.
    + rewrite item_alive by assumption.
      destruct Ch as [[_ Ch]|(_ & Al & [(x & Hx & Xe & Xh & Xa & Xt)|Ch])]; [left; assumption| |].
      * right. left. exists (ekey c x), (item_of c x). split; [apply Nb; exists x; auto|].
        split; [|split; [|exact Xt]].
        -- intro X. apply Xe. apply (same_key_same c ps); assumption.
        -- rewrite item_alive; [assumption|]. eapply ents_wf; [apply Is|exact Hx].
      * right. right. intros k1 k2 i1 i2 N1 N2 V1 V2. apply Nb in N1, N2.
        destruct N1 as (e1 & A1 & B1 & <- & _). destruct N2 as (e2 & A2 & B2 & <- & _). f_equal.
        apply Ch; try assumption; congruence.
Qed.

(** With two items that could go, one goes. *)
Theorem C11_lowmem_makes_room : forall o ch en key val so time ch' sh evs k1 k2 i1 i2,
  reachable (ctx_of o) ch -> tables_fit ch ->
  call_ok (ctx_of o) en (cabs (ctx_of o) ch) (Store key val so time) ->
  step (ctx_of o) en ch (Store key val so time) = Ok (ch', RStatus INSERTED sh, evs) ->
  so_lowmem so = true -> cabs (ctx_of o) ch key = None ->
  neighbour o ch key k1 i1 -> neighbour o ch key k2 i2 -> k1 <> k2 ->
  exists victim, victim <> key /\ cabs (ctx_of o) ch victim <> None /\
    forall now, sees (ctx_of o) ch' victim now None.
Proof.
  intros o ch en key val so time ch' sh evs k1 k2 i1 i2 R T K E Lm Ab N1 N2 Ne.
  destruct (made_store o ch en key val so time ch' _ evs R K E) as (R' & _).
  destruct (C11_lowmem_choice o ch en key val so time ch' sh evs R T K E Lm Ab) as [[_ U]|(v & it & Nv & Gone & _)].
  - destruct (Ne (U _ _ _ _ N1 N2)).
  - exists v. split; [|split].
    + intros ->. destruct Nv as (X & _). congruence.
    + destruct Nv as (X & _). congruence.
    + intro now. apply (sees_iff _ (opts_load o)); [apply reach_cinv; assumption|].
      unfold live_item. rewrite Gone. reflexivity.
Qed.

(** Overwriting an item never drops another one, nor does any store when memory
    is not low. *)
Theorem C11_overwrite : forall o ch en key val so time ch' r evs,
  reachable (ctx_of o) ch ->
  call_ok (ctx_of o) en (cabs (ctx_of o) ch) (Store key val so time) ->
  step (ctx_of o) en ch (Store key val so time) = Ok (ch', r, evs) ->
  so_lowmem so = false \/ cabs (ctx_of o) ch key <> None ->
  forall k, k <> key -> same_at (ctx_of o) ch ch' k.
Proof.
  intros o ch en key val so time ch' r evs R K E Hl k Hk.
  destruct (made_store o ch en key val so time ch' _ evs R K E) as (R' & st1 & sh1 & m' & cas' & _ & S & A & _).
  apply (same_at_abs _ (opts_load o)); [apply reach_cinv; assumption|apply reach_cinv; assumption|].
  rewrite A. assert (Hb : beq key k = false) by (apply beq_neq; congruence). inversion S; subst.
  - unfold sp_store in H.
    repeat match type of H with context [match ?x with _ => _ end] => destruct x end;
      injection H as <- _ _ _; unfold aset; rewrite ?Hb; reflexivity.
  - destruct Hl; congruence.
  - reflexivity.
  - reflexivity.
Qed.

(** With eviction switched off, a low-memory store is refused and changes nothing. *)
Theorem C11_noevict : forall o ch en key val so time,
  op_noevict o = true -> so_lowmem so = true -> reachable (ctx_of o) ch ->
  call_ok (ctx_of o) en (cabs (ctx_of o) ch) (Store key val so time) ->
  exists ch' evs, step (ctx_of o) en ch (Store key val so time) = Ok (ch', RStatus NOMEM [], evs) /\
    forall k, same_at (ctx_of o) ch ch' k.
Proof.
  intros o ch en key val so time Ne Lm R K.
  destruct (reachable_step _ (opts_load o) (opts_shards o) ch en _ R K) as (ch' & r & evs & E & R' & _ & S).
  inversion S; subst. exists ch', evs.
  assert (Q : st = NOMEM /\ shown = [] /\ m' = cabs (ctx_of o) ch).
  { match goal with Hs : sp_store_step _ _ _ _ _ _ _ _ _ _ _ _ _ _ |- _ => inversion Hs; subst end; auto;
      change (c_noevict (ctx_of o)) with (op_noevict o) in *; rewrite ?Lm, ?Ne in *; discriminate. }
  destruct Q as (-> & -> & ->). split; [assumption|].
  intro k. apply (same_at_abs _ (opts_load o)); [apply reach_cinv; assumption|apply reach_cinv; assumption|].
  match goal with Hm : forall k, w_map _ k = _ |- _ => exact (Hm k) end.
Qed.

(** *** Cases *)
Definition one_opts (noevict : bool) : opts := mkOpts true false noevict true 1 75 7.
Definition low_store : store_opts := mkStoreOpts 0 0 0 0 false false false false true None.
Definition one_new (b : bool) : cache := mkCache 1 [shard_init (ctx_of (one_opts b))].
Definition one_history : list (env * call) :=
  [ (plenty_env 100, Store [97; 97] [1] plain_store 0);
    (plenty_env 101, Store [97; 98] [2] plain_store 0);
    (plenty_env 102, Store [97; 99] [3] plain_store 0);
    (plenty_env 103, Load [97; 97] (mkLoadOpts false None) 0) ].
Definition one_ch (b : bool) : cache :=
  match run (ctx_of (one_opts b)) (one_new b) one_history with Ok (ch, _, _) => ch | Bad _ => one_new b end.
Lemma one_is_new : forall b, cache_new (ctx_of (one_opts b)) (fun _ => true) = Ok (Some (one_new b)).
Proof. intro b. reflexivity. Qed.
Lemma one_args : forall b, Forall (fun p => args_fine (ctx_of (one_opts b)) (fst p) (snd p)) one_history.
Proof. intro b. unfold one_history. fine_history. intros g w u H. discriminate. Qed.
Lemma one_run : forall b, exists rs evs, run (ctx_of (one_opts b)) (one_new b) one_history = Ok (one_ch b, rs, evs).
Proof. intros [|]; eexists _, _; vm_compute; reflexivity. Qed.
Lemma one_reachable : forall b, reachable (ctx_of (one_opts b)) (one_ch b).
Proof.
  intro b. destruct (one_run b) as (rs & evs & R).
  eapply short_reachable; [apply one_is_new|apply one_args| |exact R]. cbn. lia.
Qed.
Lemma one_store : forall b en key val so time, store_ok key val so (resolve_now time (en_clock en)) ->
  al_entry (en_mem en (route (ctx_of (one_opts b)) key)) = true ->
  call_ok (ctx_of (one_opts b)) en (cabs (ctx_of (one_opts b)) (one_ch b)) (Store key val so time).
Proof.
  intros b en key val so time K A. destruct (one_run b) as (rs & evs & R).
  eapply short_store; [apply one_is_new|apply one_args| |exact R|assumption|assumption]. cbn. lia.
Qed.

(** Three items; the one loaded last is not the one that goes. *)
Example C11_case : exists ch' evs it1 it2,
  reachable (ctx_of (one_opts false)) (one_ch false) /\ tables_fit (one_ch false) /\
  call_ok (ctx_of (one_opts false)) (plenty_env 104) (cabs (ctx_of (one_opts false)) (one_ch false))
    (Store [97; 100] [4] low_store 0) /\
  step (ctx_of (one_opts false)) (plenty_env 104) (one_ch false) (Store [97; 100] [4] low_store 0)
    = Ok (ch', RStatus INSERTED [], evs) /\
  cabs (ctx_of (one_opts false)) (one_ch false) [97; 100] = None /\
  neighbour (one_opts false) (one_ch false) [97; 100] [97; 97] it1 /\
  neighbour (one_opts false) (one_ch false) [97; 100] [97; 98] it2 /\
  cabs (ctx_of (one_opts false)) ch' [97; 97] = Some it1 /\
  cabs (ctx_of (one_opts false)) ch' [97; 98] = None.
Proof.
  eexists _, _, _, _. split; [apply one_reachable|]. split; [|split; [|split; [vm_compute; reflexivity|split; [vm_compute; reflexivity|]]]].
  - apply tables_fit_b. vm_compute. reflexivity.
  - apply one_store; [small_store|reflexivity].
  - unfold neighbour. split; [split; [vm_compute; reflexivity|split; [reflexivity|vm_compute; discriminate]]|].
    split; [split; [vm_compute; reflexivity|split; [reflexivity|vm_compute; discriminate]]|].
    split; [vm_compute; reflexivity|vm_compute; reflexivity].
Qed.

Example C11_noevict_case :
  op_noevict (one_opts true) = true /\ reachable (ctx_of (one_opts true)) (one_ch true) /\
  call_ok (ctx_of (one_opts true)) (plenty_env 104) (cabs (ctx_of (one_opts true)) (one_ch true))
    (Store [97; 100] [4] low_store 0).
Proof.
  split; [reflexivity|]. split; [apply one_reachable|]. apply one_store; [small_store|reflexivity].
Qed.

(** One item that could go is not always enough: the search of
    auto_evict_entry [src/pogocache.c:1108] starts after the new key's own
    bucket, so an item sitting there is passed over and nothing is dropped. *)
Theorem C11_lone_item_refuted : exists ch ch' evs it,
  reachable (ctx_of (one_opts false)) ch /\ tables_fit ch /\
  call_ok (ctx_of (one_opts false)) (plenty_env 101) (cabs (ctx_of (one_opts false)) ch)
    (Store [97; 102] [4] low_store 0) /\
  neighbour (one_opts false) ch [97; 102] [97; 103] it /\
  step (ctx_of (one_opts false)) (plenty_env 101) ch (Store [97; 102] [4] low_store 0)
    = Ok (ch', RStatus INSERTED [], evs) /\
  cabs (ctx_of (one_opts false)) ch' [97; 103] = Some it.
Proof.
  set (h := [ (plenty_env 100, Store [97; 103] [1] plain_store 0) ]).
  destruct (run (ctx_of (one_opts false)) (one_new false) h) as [[[ch rs] evs0]|] eqn:E; [|vm_compute in E; discriminate].
  assert (F : Forall (fun p => args_fine (ctx_of (one_opts false)) (fst p) (snd p)) h) by (unfold h; fine_history).
  assert (R : reachable (ctx_of (one_opts false)) ch).
  { eapply short_reachable; [apply one_is_new|exact F| |exact E]. cbn. lia. }
  assert (K : call_ok (ctx_of (one_opts false)) (plenty_env 101) (cabs (ctx_of (one_opts false)) ch)
    (Store [97; 102] [4] low_store 0)).
  { eapply short_store; [apply one_is_new|exact F| |exact E|small_store|reflexivity]. cbn. lia. }
  assert (Ech : ch = match run (ctx_of (one_opts false)) (one_new false) h with Ok (x, _, _) => x | Bad _ => one_new false end)
    by (rewrite E; reflexivity).
  clear E F. exists ch. eexists _, _, _. split; [assumption|]. split; [|split; [assumption|]].
  - rewrite Ech. clear. apply tables_fit_b. vm_compute. reflexivity.
  - clear R K. rewrite Ech. clear Ech. unfold neighbour.
    split; [split; [vm_compute; reflexivity|split; [reflexivity|vm_compute; discriminate]]|].
    split; [vm_compute; reflexivity|vm_compute; reflexivity].
Qed.
