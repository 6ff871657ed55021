(** The running total of entry sizes (the field entsize of struct map). Proofs only. *)
From Coq Require Import Permutation.
From Verif Require Import Base Types Clamp Entry EntryProofs Hash Map MapProofs MapInv Shard
  Spec Trace ShardProofs ScanProofs LoopProofs Cache Refine Reach CursorProofs.
Local Open Scope N_scope.

Definition esum (es : list entry) : N := fold_right (fun e a => entry_memsize e + a) 0 es.
Lemma esum_perm : forall a b, Permutation a b -> esum a = esum b.
Proof. intros a b P. unfold esum. induction P; cbn [fold_right]; lia. Qed.
Lemma esum_cons : forall e es, esum (e :: es) = entry_memsize e + esum es.
Proof. reflexivity. Qed.
Lemma esum_app : forall a b, esum (a ++ b) = esum a + esum b.
Proof. unfold esum. induction a as [|e a IH]; intro b; cbn [fold_right app]; [lia|]. rewrite IH. lia. Qed.

Definition sized (m : map entry) : Prop := m_entsize m = u64 (esum (ents m)).

Lemma u64_add : forall a b, u64 (u64 a + b) = u64 (a + b).
Proof. intros. unfold u64. apply N.add_mod_idemp_l. discriminate. Qed.
Lemma u64_sub : forall a b, b < 2 ^ 64 -> u64 (u64 (a + b) + 2 ^ 64 - b) = u64 a.
Proof.
  intros a b H. rewrite <- N.add_sub_assoc by lia. rewrite u64_add.
  replace (a + b + (2 ^ 64 - b)) with (a + 1 * 2 ^ 64) by lia. unfold u64. apply N.mod_add. discriminate.
Qed.

Section Z.
Variable c : ctx.
Hypothesis load_ok : 55 <= c_load c <= 95.
Notation ekey := (ekey c). Notation hash32 := (hash32 c). Notation wf := (wf_entry c).
Notation minv := (minv ekey (c_load c) wf hash32).
Notation sinv := (sinv c).

Lemma wf_memsize : forall e, wf e ->
  entry_memsize e = N.of_nat (length (e_data e)) + SIZEOF_ENTRY /\ entry_memsize e < 2 ^ 64.
Proof.
  intros e (k & v & x & f & s & t & Ok & E).
  pose proof (new_memsize c (e_id e) k v x f s Ok) as A.
  pose proof (new_data_len c (e_id e) k v x f s Ok) as B.
  destruct (size_fits c k v x f s Ok) as [_ L].
  rewrite E. change (entry_memsize (entry_settime ?y t)) with (entry_memsize y).
  change (e_data (entry_settime ?y t)) with (e_data y).
  split; [rewrite A, B; reflexivity|]. rewrite A. exact L.
Qed.

Lemma ents_memsize : forall m e, minv m -> In e (ents m) -> entry_memsize e < 2 ^ 64.
Proof. intros m e M H. apply wf_memsize. eapply ents_wf; eassumption. Qed.

Lemma insert_sized : forall alloc m e m' old, minv m -> wf e -> crowd_ok (hk hash32 (ekey e) :: hashes m) ->
  map_insert (ecmp c) entry_memsize (c_load c) alloc m e (hash32 (ekey e)) = ROk (m', old) ->
  sized m -> sized m'.
Proof.
  intros alloc m e m' old M W Cr E S.
  pose proof (insert_spec (ecmp c) ekey entry_memsize (c_load c) wf hash32 load_ok (ecmp_spec c)
      alloc m e M W Cr) as Q. rewrite E in Q. unfold sized in *. destruct old as [o|].
  - destruct Q as (_ & _ & Ho & P & _ & _ & Z). rewrite Z, S, u64_add.
    pose proof (esum_perm _ _ P) as X. rewrite !esum_cons in X.
    replace (esum (ents m) + entry_memsize e) with (esum (ents m') + entry_memsize o) by lia.
    apply u64_sub. eapply ents_memsize; eassumption.
  - destruct Q as (_ & _ & P & _ & Z). rewrite Z, S, u64_add.
    pose proof (esum_perm _ _ P) as X. rewrite esum_cons in X. f_equal. lia.
Qed.

Lemma delete_sized : forall m key m' old, minv m ->
  map_delete ekey entry_memsize m key (hash32 key) = Some (m', old) -> sized m -> sized m'.
Proof.
  intros m key m' old M E S.
  pose proof (delete_spec ekey entry_memsize (c_load c) wf hash32 load_ok m key M) as Q. rewrite E in Q.
  destruct old as [o|]; [|destruct Q as [-> _]; assumption].
  destruct Q as (_ & _ & P & _ & _ & Z). unfold sized in *. rewrite Z, S.
  pose proof (esum_perm _ _ P) as X. rewrite esum_cons in X.
  replace (esum (ents m)) with (esum (ents m') + entry_memsize o) by lia.
  apply u64_sub. apply (ents_memsize m); [assumption|]. rewrite <- P. left. reflexivity.
Qed.

Lemma shrink_sized : forall alloc m m', minv m -> tryshrink (c_load c) (c_allowshrink c) alloc m = Some m' ->
  sized m -> sized m'.
Proof.
  intros alloc m m' M E S.
  destruct (tryshrink_spec ekey (c_load c) wf hash32 load_ok (c_allowshrink c) alloc m M)
    as (m2 & E2 & _ & P & _ & Z & _).
  rewrite E in E2. injection E2 as <-. unfold sized in *. rewrite Z, S, (esum_perm _ _ P). reflexivity.
Qed.

(** *** The operations *)
Lemma deleteop_sized : forall mm s key cb now s' st evs, sinv s ->
  deleteop c mm s key cb now = Ok (s', st, evs) -> sized (s_map s) -> sized (s_map s').
Proof.
  intros mm s key cb now s' st evs I H S. unfold deleteop in H.
  pose proof (delete_spec ekey entry_memsize (c_load c) wf hash32 load_ok (s_map s) key (si_map c s I)) as G.
  destruct (map_delete ekey entry_memsize (s_map s) key (hash32 key)) as [[m1 [e|]]|] eqn:D; [| |discriminate].
  2:{ injection H as <- <- <-. assumption. }
  destruct G as (Hk & M1 & P & _).
  pose proof (delete_sized _ _ _ _ (si_map c s I) D S) as S1.
  assert (Hin : In e (sents s)) by (unfold sents; rewrite <- P; left; reflexivity).
  destruct (negb (entry_alive e now)).
  { destruct (tryshrink _ _ _ m1) as [m2|] eqn:T; [|discriminate]. injection H as <- <- <-.
    exact (shrink_sized _ _ _ M1 T S1). }
  match type of H with (if ?b then _ else _) = _ => destruct b end.
  - destruct (map_insert _ _ _ _ _ _ _) as [| |[m3 [x|]]] eqn:E3; try discriminate.
    injection H as <- <- <-. cbn [s_map]. rewrite <- Hk in E3.
    eapply insert_sized; [exact M1| | |exact E3|exact S1].
    + eapply ents_wf; [apply I|exact Hin].
    + eapply crowd_perm; [|exact (mi_crowd _ _ _ _ _ (si_map c s I))].
      rewrite (hashes_ents _ _ _ _ _ (si_map c s I)), (hashes_ents _ _ _ _ _ M1).
      change (hk hash32 (ekey e) :: List.map (fun e => hk hash32 (ekey e)) (ents m1))
        with (List.map (fun e => hk hash32 (ekey e)) (e :: ents m1)).
      apply Permutation_map. symmetry. assumption.
  - destruct (tryshrink _ _ _ m1) as [m2|] eqn:T; [|discriminate]. injection H as <- <- <-.
    exact (shrink_sized _ _ _ M1 T S1).
Qed.

Lemma evict_sized : forall m e k m' evs, minv m -> evict_entry c m e k = Ok (m', evs) -> sized m -> sized m'.
Proof.
  intros m e k m' evs M H S. unfold evict_entry in H. cbv zeta in H.
  destruct (map_delete ekey entry_memsize m (ekey e) (hash32 (ekey e))) as [[m1 [d|]]|] eqn:D; try discriminate.
  destruct (e_id d =? e_id e); [|discriminate]. injection H as <- _. exact (delete_sized _ _ _ _ M D S).
Qed.
Lemma auto_evict_sized : forall m hash now m' evs, minv m -> auto_evict c m hash now = Ok (m', evs) ->
  sized m -> sized m'.
Proof.
  intros m hash now m' evs M H S. unfold auto_evict in H.
  destruct (evict_search _ _ _ _ _ _) as [e|[|a [|b l]]];
    try (eapply evict_sized; eassumption). injection H as <- _. assumption.
Qed.

Lemma storeop_sized : forall mm s key val o now s' st evs, sinv s -> store_ok key val o now ->
  crowd_ok (hk hash32 key :: hashes (s_map s)) ->
  storeop c mm s key val o now = Ok (s', st, evs) -> sized (s_map s) -> sized (s_map s').
Proof.
  intros mm s key val o now s' st evs I K Cr H S. unfold storeop in H.
  destruct (store_expires_ok c load_ok s key val o now I K) as (x & Ex & Hx & _). rewrite Ex in H.
  destruct (al_entry mm); cbn [negb] in H; [|discriminate].
  pose proof (u64_lt c load_ok (s_cas s + 1)) as Hcas. set (cas := u64 (s_cas s + 1)) in *.
  assert (Ao : args_ok key val x (so_flags o) cas) by (destruct K; constructor; auto).
  set (e := entry_settime (entry_new c (s_next s) key val x (so_flags o) cas) now) in *.
  assert (We : wf e) by (apply new_wf; assumption).
  assert (Ke : ekey e = key) by (apply new_ekey; assumption).
  clearbody e. destruct (so_lowmem o && c_noevict c); [injection H as <- <- <-; exact S|].
  rewrite <- Ke in Cr.
  pose proof (insert_spec (ecmp c) ekey entry_memsize (c_load c) wf hash32 load_ok (ecmp_spec c)
      (al_table mm) (s_map s) e (si_map _ s I) We Cr) as Q.
  pose proof (fun m' old X => insert_sized (al_table mm) (s_map s) e m' old (si_map c s I) We Cr X S) as Z.
  rewrite Ke in Q, Z.
  destruct (map_insert (ecmp c) entry_memsize (c_load c) (al_table mm) (s_map s) e (hash32 key))
    as [| |[m1 old]]; [discriminate|injection H as <- <- <-; exact S|].
  specialize (Z m1 old eq_refl). cbv zeta in H.
  assert (M1 : minv m1) by (destruct old; apply Q).
  (* the rest of the function when there is no live old entry *)
  assert (Fresh : forall evs0, (if so_xx o || so_casop o
     then match map_delete ekey entry_memsize m1 key (hash32 key) with
          | Some (m2, Some d) =>
              if e_id d =? e_id e
              then Ok (mkShard cas m2 (s_next s + 1), NOTFOUND, evs0 ++ [EvFree (e_id e)])
              else Bad AssertFail
          | Some (_, None) => Bad AssertFail
          | None => Bad Hang
          end
     else if so_lowmem o && (m_count (s_map s) <? m_count m1)%nat
          then match auto_evict c m1 (hash32 key) now with
               | Ok (m2, ev2) => Ok (mkShard cas m2 (s_next s + 1), INSERTED,
                     evs0 ++ ev2 ++ [EvNotify N_INSERTED (Some e) None])
               | Bad t => Bad t
               end
          else Ok (mkShard cas m1 (s_next s + 1), INSERTED, evs0 ++ [EvNotify N_INSERTED (Some e) None]))
     = Ok (s', st, evs) -> sized (s_map s')).
  { intros evs0 X. destruct (so_xx o || so_casop o).
    - destruct (map_delete ekey entry_memsize m1 key (hash32 key)) as [[m2 [d|]]|] eqn:D; try discriminate.
      destruct (e_id d =? e_id e); [|discriminate]. injection X as <- <- <-. exact (delete_sized _ _ _ _ M1 D Z).
    - destruct (so_lowmem o && _).
      + destruct (auto_evict c m1 (hash32 key) now) as [[m2 ev2]|] eqn:A; [|discriminate].
        injection X as <- <- <-. exact (auto_evict_sized _ _ _ _ _ M1 A Z).
      + injection X as <- <- <-. exact Z. }
  destruct old as [old|]; [|exact (Fresh _ H)].
  destruct Q as (Ko & _ & Hin & P & _).
  destruct (entry_alive old now); cbn [negb] in H; [|exact (Fresh _ H)]. clear Fresh.
  assert (PB : forall st0 evs0, put_back c mm (mkShard cas (s_map s) (s_next s + 1)) m1 key e old st0 evs0
     = Ok (s', st, evs) -> sized (s_map s')).
  { intros st0 evs0 X. unfold put_back in X.
    destruct (map_insert _ _ _ _ _ _ _) as [| |[m3 [d|]]] eqn:E3; try discriminate.
    destruct (e_id d =? e_id e); [|discriminate]. injection X as <- <- <-. cbn [s_map].
    rewrite <- Ko in E3. eapply insert_sized; [exact M1| | |exact E3|exact Z].
    - eapply ents_wf; [apply I|exact Hin].
    - rewrite Ko. destruct (perm_split _ _ _ _ Hin P) as (r & P1 & P2).
      apply (hash_crowd c (s_map s)); auto; [apply I| |rewrite <- Ke; exact Cr].
      rewrite (Permutation_map ekey P1), (Permutation_map ekey P2). cbn [List.map].
      rewrite Ko, Ke. reflexivity. }
  match type of H with (if ?b then _ else _) = _ => destruct b end; [exact (PB _ _ H)|].
  match type of H with (if ?b then _ else _) = _ => destruct b end; [exact (PB _ _ H)|].
  injection H as <- <- <-. exact Z.
Qed.

(** A load that finds no expired entry and changes nothing but the access time. *)
Lemma loadop_sized : forall mm s key o now s' st evs, sinv s ->
  (forall f w, lo_entry o = Some f -> f w = None) ->
  (forall e, In e (sents s) -> ekey e = key -> entry_alive e now = true) ->
  loadop c mm s key o now = Ok (s', st, evs) -> sized (s_map s) -> sized (s_map s').
Proof.
  intros mm s key o now s' st evs I Nu Al H S. unfold loadop in H.
  pose proof (get_bucket_spec ekey (c_load c) wf hash32 load_ok (s_map s) key (si_map c s I)) as G.
  destruct (map_get_bucket ekey (s_map s) key (hash32 key)) as [[i|]|]; [|injection H as <- _ _; assumption|discriminate].
  destruct G as (b & Hb & Hk). rewrite Hb in H. cbv zeta in H.
  assert (Hin : In (b_ent b) (sents s)) by (apply nth_in_ents with i; assumption).
  assert (We : wf (b_ent b)) by (eapply ents_wf; [apply I|exact Hin]).
  pose proof (Al _ Hin Hk) as A. unfold entry_alive in A. rewrite <- (view_exp c) in A by assumption.
  rewrite A in H. cbn [negb] in H.
  set (e1 := if lo_notouch o then b_ent b else entry_settime (b_ent b) now) in *.
  assert (Z : sized (put_ent (s_map s) i b e1)).
  { destruct (set_ent_spec (ecmp c) ekey entry_memsize (c_load c) wf hash32 load_ok (ecmp_spec c)
       (s_map s) i b e1 (si_map c s I) Hb) as [_ P].
    - unfold e1. destruct (lo_notouch o); [|apply wf_entry_settime]; assumption.
    - unfold e1. destruct (lo_notouch o); reflexivity.
    - unfold sized in *. rewrite put_ent_set. cbn [set_ent m_entsize]. rewrite S.
      pose proof (esum_perm _ _ P) as X. rewrite !esum_cons in X. f_equal.
      assert (Y : entry_memsize e1 = entry_memsize (b_ent b)) by (unfold e1; destruct (lo_notouch o); reflexivity).
      lia. }
  destruct (lo_entry o) as [f|]; [|injection H as <- _ _; exact Z].
  rewrite (Nu f _ eq_refl) in H. injection H as <- _ _. exact Z.
Qed.

(** The bucket loops, when nothing is removed. *)
Lemma scan_still : forall St (judge : St -> entry -> St * list event * verdict) fuel st m i evs r,
  (forall st e, In e (ents m) -> vd_del (snd (judge st e)) = None) ->
  Shard.scan judge fuel st m i evs = Ok r -> snd (fst (fst r)) = m.
Proof.
  intros St judge. induction fuel as [|f IH]; intros st m i evs r Q H; [discriminate|]. cbn [Shard.scan] in H.
  destruct (m_nb m <=? i)%nat; [injection H as <-; reflexivity|].
  destruct (nth i (m_buckets m) None) as [b|] eqn:Hb; [|eapply IH; eassumption].
  pose proof (Q st (b_ent b) (nth_in_ents _ _ _ Hb)) as Qb.
  destruct (judge st (b_ent b)) as [[st1 ev1] v]. cbn [snd] in Qb. rewrite Qb in H.
  destruct (vd_stop v); [injection H as <-; reflexivity|]. eapply IH; eassumption.
Qed.

Lemma sweepop_sized : forall mm s now s' r evs, minv (s_map s) ->
  (forall e, In e (sents s) -> entry_alive e now = true) ->
  sweepop c mm s now = Ok (s', r, evs) -> sized (s_map s) -> sized (s_map s').
Proof.
  intros mm s now s' r evs I Al H S. unfold sweepop in H.
  destruct (Shard.scan _ _ _ _ _ _) as [[[[st m] stopped] ev]|] eqn:Sc; [|discriminate].
  apply scan_still in Sc.
  - cbn in Sc. subst m. destruct (tryshrink _ _ _ _) as [m'|] eqn:T; [|discriminate].
    injection H as <- _ _. exact (shrink_sized _ _ _ I T S).
  - intros st0 e He. unfold sweep_judge. destruct st0 as [p q].
    pose proof (Al e He) as A. unfold entry_alive in A. rewrite A. reflexivity.
Qed.

Lemma iterop_sized : forall St mm s (cb : option (St -> bytes -> view -> St * iter_action)) st now s' st' r evs,
  minv (s_map s) -> (forall e, In e (sents s) -> entry_alive e now = true) ->
  (forall f h k v, cb = Some f -> fst (snd (f h k v)) = false) ->
  iterop c mm s cb st now = Ok (s', st', r, evs) -> sized (s_map s) -> sized (s_map s').
Proof.
  intros St mm s cb st now s' st' r evs I Al Nd H S. unfold iterop in H.
  destruct (Shard.scan _ _ _ _ _ _) as [[[[st1 m] stopped] ev]|] eqn:Sc; [|discriminate].
  apply scan_still in Sc.
  - cbn in Sc. subst m. destruct (tryshrink _ _ _ _) as [m'|] eqn:T; [|discriminate].
    injection H as <- _ _ _. exact (shrink_sized _ _ _ I T S).
  - intros st0 e He. unfold iter_judge. rewrite (Al e He). cbn [negb]. destruct cb as [f|]; [|reflexivity].
    pose proof (Nd f st0 (ekey e) (eview c e) eq_refl) as X.
    destruct (f st0 (Shard.ekey c e) (eview c e)) as [st2 [dl sp]]. cbn in X. subst dl. reflexivity.
Qed.

Lemma entryiter_sized : forall s now i s' r j evs,
  (forall e, In e (sents s) -> entry_alive e now = true) ->
  entryiter s now i = Ok (s', r, j, evs) -> sized (s_map s) -> sized (s_map s').
Proof.
  intros s now i s' r j evs Al H S. unfold entryiter in H.
  destruct (m_count (s_map s) =? 0)%nat; [injection H as <- _ _ _; assumption|].
  destruct (Shard.scan _ _ _ _ _ _) as [[[[st1 m] stopped] ev]|] eqn:Sc; [|discriminate].
  apply scan_still in Sc.
  - cbn in Sc. subst m. destruct stopped; injection H as <- _ _ _; exact S.
  - intros st0 e He. unfold entryiter_judge. rewrite (Al e He). reflexivity.
Qed.

Lemma clearop_sized : forall mm s now df s' evs, clearop c mm s now df = Ok (s', evs) -> sized (s_map s').
Proof.
  intros mm s now df s' evs H. unfold clearop in H. destruct (negb (al_table mm)); [discriminate|].
  injection H as <- _. unfold sized. cbn [s_map m_entsize].
  replace (ents _) with (@nil entry); [reflexivity|]. symmetry. apply (init_ents (c_load c)).
Qed.
End Z.
