(** The shard operations: invariant, and each operation against the
    specification of Spec.v and Trace.v. *)
From Coq Require Import Permutation.
From Verif Require Import Base Types Clamp Entry EntryProofs Hash Map MapProofs MapInv Shard Spec Trace.
Local Open Scope N_scope.

(** *** Looking up a key in a list of entries *)
Section Lk.
Context {A : Type}.
Variable key : A -> bytes.
Definition lk (es : list A) (k : bytes) : option A := find (fun e => beq (key e) k) es.

Lemma lk_cons : forall e es k, lk (e :: es) k = if beq (key e) k then Some e else lk es k.
Proof. reflexivity. Qed.

Lemma lk_some : forall es k e, lk es k = Some e -> In e es /\ key e = k.
Proof.
  intros es k e H. apply List.find_some in H. destruct H as [H1 H2]. apply beq_eq in H2. auto.
Qed.

Lemma lk_none : forall es k, lk es k = None <-> ~ In k (List.map key es).
Proof.
  intros es k. split.
  - intros H Hin. apply in_map_iff in Hin. destruct Hin as (e & E1 & Hin).
    pose proof (List.find_none _ _ H e Hin) as F. cbn in F. rewrite E1, beq_refl in F. discriminate.
  - intro H. destruct (lk es k) eqn:L; [|reflexivity]. apply lk_some in L. destruct L as [L1 L2].
    exfalso. apply H. apply in_map_iff. eauto.
Qed.

Lemma lk_in : forall es e, NoDup (List.map key es) -> In e es -> lk es (key e) = Some e.
Proof.
  induction es as [|a es IH]; intros e N Hin; [destruct Hin|]. cbn [List.map] in N.
  inversion N; subst. rewrite lk_cons. destruct Hin as [->|Hin].
  - rewrite beq_refl. reflexivity.
  - destruct (beq (key a) (key e)) eqn:B.
    + apply beq_eq in B. exfalso. apply H1. rewrite B. apply in_map. assumption.
    + apply IH; assumption.
Qed.

Lemma lk_perm : forall a b k, NoDup (List.map key a) -> Permutation a b -> lk a k = lk b k.
Proof.
  intros a b k N P.
  assert (N2 : NoDup (List.map key b)).
  { eapply Permutation_NoDup; [apply Permutation_map; eassumption|assumption]. }
  destruct (lk a k) as [e|] eqn:L.
  - apply lk_some in L. destruct L as [L1 <-]. symmetry. apply lk_in; [assumption|].
    eapply Permutation_in; eassumption.
  - symmetry. apply lk_none. apply lk_none in L. intro X. apply L.
    eapply Permutation_in; [symmetry; apply Permutation_map; eassumption|assumption].
Qed.

Lemma lk_add : forall es es' e k, NoDup (List.map key es') -> Permutation es' (e :: es) ->
  lk es' k = if beq (key e) k then Some e else lk es k.
Proof. intros es es' e k N P. rewrite (lk_perm _ _ k N P). apply lk_cons. Qed.

Lemma lk_remove : forall es es' o k, NoDup (List.map key es) -> Permutation es (o :: es') ->
  lk es' k = if beq (key o) k then None else lk es k.
Proof.
  intros es es' o k N P. rewrite (lk_perm _ _ k N P), lk_cons.
  destruct (beq (key o) k) eqn:B; [|reflexivity]. apply beq_eq in B. subst k.
  apply lk_none. apply Permutation_map with (f := key) in P.
  pose proof (Permutation_NoDup P N) as N2. cbn in N2. inversion N2. assumption.
Qed.

Lemma lk_replace : forall es es' r o e k, NoDup (List.map key es) ->
  Permutation es (o :: r) -> Permutation es' (e :: r) -> key o = key e ->
  lk es' k = if beq (key e) k then Some e else lk es k.
Proof.
  intros es es' r o e k N P P' K.
  pose proof (Permutation_map key P) as Q. pose proof (Permutation_map key P') as Q'.
  pose proof (Permutation_NoDup Q N) as N2. cbn [List.map] in N2, Q'. rewrite K in N2.
  rewrite (lk_perm _ _ k (Permutation_NoDup (Permutation_sym Q') N2) P').
  rewrite (lk_perm _ _ k N P), !lk_cons, K. destruct (beq (key e) k); reflexivity.
Qed.
End Lk.

Lemma perm_split : forall (es es' : list entry) o e, In o es ->
  Permutation (o :: es') (e :: es) ->
  exists r, Permutation es (o :: r) /\ Permutation es' (e :: r).
Proof.
  intros es es' o e Hin P. apply in_split in Hin. destruct Hin as (l1 & l2 & ->).
  exists (l1 ++ l2). split.
  - symmetry. apply Permutation_middle.
  - apply Permutation_cons_inv with o. rewrite P. rewrite perm_swap. constructor.
    symmetry. apply Permutation_middle.
Qed.

(** *** The shard invariant *)
Section S.
Variable c : ctx.
Hypothesis load_ok : 55 <= c_load c <= 95.

Notation ecmp := (ecmp c). Notation ekey := (ekey c). Notation eview := (eview c).
Notation hash32 := (hash32 c).
Notation wf := (wf_entry c).
Notation minv := (minv ekey (c_load c) wf hash32).
Notation lk := (lk ekey).

Definition sents (s : shard) : list entry := ents (s_map s).
Definition ids (es : list entry) : list N := List.map e_id es.

Record sinv (s : shard) : Prop := {
  si_map : minv (s_map s);
  si_ids : NoDup (ids (sents s));
  si_next : Forall (fun i => i < s_next s) (ids (sents s));
  si_cas : s_cas s < 2 ^ 64
}.

Lemma ecmp_spec : forall a b, wf a -> wf b -> (ecmp a b = true <-> ekey a = ekey b).
Proof.
  intros a b Wa Wb. unfold ecmp, Shard.ecmp, Shard.ekey.
  destruct (wf_entry_key _ _ Wa) as (ka & Ka & _). destruct (wf_entry_key _ _ Wb) as (kb & Kb & _).
  destruct (entry_compare_keys c a b ka kb Wa Wb Ka Kb) as (r & R & Req).
  rewrite R, Ka, Kb. rewrite <- Req. destruct r; split; congruence.
Qed.

Lemma view_exp : forall e, wf e -> v_exp (eview e) = entry_expires e.
Proof.
  intros e W. unfold eview, Shard.eview. destruct (wf_entry_extract _ _ W) as (w & -> & H & _).
  assumption.
Qed.
Lemma view_cas : forall e, wf e -> v_cas (eview e) = entry_cas c e.
Proof.
  intros e W. unfold eview, Shard.eview. destruct (wf_entry_extract _ _ W) as (w & -> & _ & H).
  assumption.
Qed.
Lemma eview_settime : forall e t, eview (entry_settime e t) = eview e.
Proof. reflexivity. Qed.
Lemma ekey_settime : forall e t, ekey (entry_settime e t) = ekey e.
Proof. reflexivity. Qed.

Lemma new_wf : forall id key val x f cas t, args_ok key val x f cas ->
  wf (entry_settime (entry_new c id key val x f cas) t).
Proof.
  intros. exists key, val, x, f, cas, t. split; [assumption|]. reflexivity.
Qed.
Lemma new_ekey : forall id key val x f cas t, args_ok key val x f cas ->
  ekey (entry_settime (entry_new c id key val x f cas) t) = key.
Proof.
  intros. rewrite ekey_settime. unfold ekey, Shard.ekey. rewrite new_key by assumption.
  reflexivity.
Qed.
Lemma new_eview : forall id key val x f cas t, args_ok key val x f cas ->
  eview (entry_settime (entry_new c id key val x f cas) t)
  = mkView val (norm x) f (token (c_usecas c) cas).
Proof.
  intros. rewrite eview_settime. unfold eview, Shard.eview. rewrite new_extract by assumption.
  reflexivity.
Qed.

(** the contents of a shard as a specification map *)
Definition item_of (e : entry) : item :=
  let w := eview e in mkItem (v_val w) (v_exp w) (v_flags w) (v_cas w) (e_time e).
Definition sabs (s : shard) : amap := fun k => option_map item_of (lk (sents s) k).
Definition svw (s : shard) : vmap := fun k => option_map eview (lk (sents s) k).

Lemma shown_item : forall e, shown_of (item_of e) = eview e.
Proof. intro e. unfold shown_of, item_of. cbn. destruct (eview e). reflexivity. Qed.

Lemma nodup_keys : forall s, sinv s -> NoDup (List.map ekey (sents s)).
Proof.
  intros s H. unfold sents. rewrite <- ents_keys.
  exact (mi_nodup _ _ _ _ _ (si_map s H)).
Qed.

Lemma ents_wf : forall m e, minv m -> In e (ents m) -> wf e.
Proof.
  intros m e H Hin. unfold ents in Hin. apply in_map_iff in Hin. destruct Hin as (p & <- & Hin).
  pose proof (mi_wf _ _ _ _ _ H) as F. rewrite Forall_forall in F. apply F. assumption.
Qed.

Lemma crowd_keys : forall m ks, minv m -> Permutation (List.map ekey (ents m)) ks ->
  Permutation (hashes m) (List.map (hk hash32) ks).
Proof.
  intros m ks H P. rewrite (hashes_ents _ _ _ _ _ H).
  rewrite <- (map_map ekey (hk hash32)). apply Permutation_map. assumption.
Qed.

(** What an operation leaves behind: a good shard, a sound use of memory, and
    accurate notifications. [held] are references outside the table. *)
Record good (s : shard) (evs : list event) (s' : shard) : Prop := {
  gd_inv : sinv s';
  gd_next : s_next s <= s_next s';
  gd_heap : forall held, Forall (fun i => i < s_next s) held ->
    heap_ok (ids (sents s) ++ held) evs (ids (sents s') ++ held);
  gd_mirror : mirrored (svw s) (notes c evs) (svw s')
}.

Lemma good_same : forall s s' evs, sinv s -> minv (s_map s') -> s_next s' = s_next s ->
  s_cas s' < 2 ^ 64 -> Permutation (sents s') (sents s) -> evs = [] -> good s evs s'.
Proof.
  intros s s' evs I M Nx Cs P ->.
  assert (I' : sinv s').
  { constructor; auto.
    - eapply Permutation_NoDup; [symmetry; apply Permutation_map; eassumption|apply I].
    - rewrite Nx. eapply Permutation_Forall; [symmetry; apply Permutation_map; eassumption|apply I]. }
  constructor; [assumption|lia| |].
  - intros held _. constructor. apply Permutation_app_tail. symmetry. apply Permutation_map. assumption.
  - constructor. intro k. unfold svw. f_equal. symmetry. apply lk_perm; [apply nodup_keys|]; assumption.
Qed.

(** one entry replaced by another with the same key *)
Lemma repl_inv : forall s s' o e r, sinv s -> minv (s_map s') -> s_cas s' < 2 ^ 64 ->
  Permutation (sents s) (o :: r) -> Permutation (sents s') (e :: r) ->
  (e_id e = e_id o /\ s_next s' = s_next s) \/ (e_id e = s_next s /\ s_next s' = s_next s + 1) ->
  sinv s'.
Proof.
  intros s s' o e r I M Cs P P' Hid.
  pose proof (si_ids s I) as N1. pose proof (si_next s I) as F1. unfold ids in *.
  pose proof (Permutation_map e_id P) as Q. pose proof (Permutation_map e_id P') as Q'.
  rewrite Q in F1. pose proof (Permutation_NoDup Q N1) as N2. cbn [List.map] in *.
  inversion F1 as [|? ? F2 F3]; subst. inversion N2 as [|? ? N3 N4]; subst.
  constructor; auto; unfold ids; rewrite Q'.
  - constructor; [|assumption]. destruct Hid as [[E _]|[E _]]; rewrite E; [assumption|].
    intro X. rewrite Forall_forall in F3. apply F3 in X. lia.
  - constructor; [destruct Hid as [[E1 E2]|[E1 E2]]; rewrite E1; lia|].
    eapply Forall_impl; [|exact F3]. cbn. intros a Ha. destruct Hid as [[_ ->]|[_ ->]]; lia.
Qed.

Lemma fresh_not_in : forall s held, sinv s -> Forall (fun i => i < s_next s) held ->
  ~ In (s_next s) (ids (sents s) ++ held).
Proof.
  intros s held I F X. apply in_app_iff in X. destruct X as [X|X].
  - pose proof (si_next s I) as G. rewrite Forall_forall in G. apply G in X. lia.
  - rewrite Forall_forall in F. apply F in X. lia.
Qed.

Lemma sabs_ext : forall s s' k (x : option entry) key,
  (forall k, lk (sents s') k = if beq key k then x else lk (sents s) k) ->
  sabs s' k = aset (sabs s) key (option_map item_of x) k.
Proof.
  intros s s' k x key H. unfold sabs, aset. rewrite H. destruct (beq key k); reflexivity.
Qed.
Lemma svw_ext : forall s s' k (x : option entry) key,
  (forall k, lk (sents s') k = if beq key k then x else lk (sents s) k) ->
  svw s' k = vset (svw s) key (option_map eview x) k.
Proof.
  intros s s' k x key H. unfold svw, vset. rewrite H. destruct (beq key k); reflexivity.
Qed.

Lemma aset_same : forall m key k, m key = None -> m k = aset m key None k.
Proof.
  intros m key k H. unfold aset. destruct (beq key k) eqn:B; [|reflexivity].
  apply beq_eq in B. subst. assumption.
Qed.
Lemma aset_id : forall m key x k, m key = x -> m k = aset m key x k.
Proof.
  intros m key x k H. unfold aset. destruct (beq key k) eqn:B; [|reflexivity].
  apply beq_eq in B. subst. reflexivity.
Qed.

Lemma item_alive : forall e now, wf e ->
  alive_at (i_exp (item_of e)) now = entry_alive e now.
Proof.
  intros e now W. unfold item_of. cbn. unfold entry_alive. rewrite view_exp by assumption.
  reflexivity.
Qed.

Lemma live_item_some : forall s e now, sinv s -> In e (sents s) ->
  live_item (sabs s) (ekey e) now = if entry_alive e now then Some (item_of e) else None.
Proof.
  intros s e now I Hin. unfold live_item, sabs.
  rewrite (lk_in _ _ _ (nodup_keys s I) Hin). cbn [option_map].
  rewrite item_alive; [reflexivity|]. eapply ents_wf; [apply I|assumption].
Qed.
Lemma live_item_none : forall s k now, ~ In k (List.map ekey (sents s)) ->
  live_item (sabs s) k now = None /\ sabs s k = None.
Proof.
  intros s k now H. assert (L : lk (sents s) k = None) by (apply lk_none; assumption).
  unfold live_item, sabs. rewrite L. auto.
Qed.

(** *** Removing one entry and telling about it *)
Lemma remove_good : forall s s' o r, sinv s -> minv (s_map s') ->
  s_cas s' < 2 ^ 64 -> s_next s' = s_next s ->
  Permutation (sents s) (o :: sents s') ->
  r = N_DELETED \/ r = N_EXPIRED \/ r = N_CLEARED \/ r = N_LOWMEM ->
  good s [EvNotify r None (Some o); EvFree (e_id o)] s' /\
  (forall k, lk (sents s') k = if beq (ekey o) k then None else lk (sents s) k).
Proof.
  intros s s' o r I M Cs Nx P Hr.
  assert (L : forall k, lk (sents s') k = if beq (ekey o) k then None else lk (sents s) k).
  { intro k. apply lk_remove; [apply nodup_keys; assumption|assumption]. }
  split; [|assumption].
  pose proof (Permutation_map e_id P) as Q. cbn [List.map] in Q.
  constructor.
  - constructor; auto.
    + pose proof (Permutation_NoDup Q (si_ids s I)) as N. inversion N; subst. assumption.
    + rewrite Nx. pose proof (si_next s I) as F. unfold ids in *. rewrite Q in F.
      inversion F; subst. assumption.
  - lia.
  - intros held Hh. unfold ids. constructor; [discriminate| |].
    + intros e E. injection E as <-. apply in_app_iff. left. rewrite Q. left. reflexivity.
    + eapply hp_free.
      * rewrite Q. cbn [app]. reflexivity.
      * constructor. reflexivity.
  - cbn [notes flat_map app option_map kv_of]. eapply mr_gone; [assumption| |].
    + unfold svw. rewrite (lk_in ekey _ o (nodup_keys s I)); [reflexivity|].
      rewrite P. left. reflexivity.
    + constructor. intro k. rewrite (svw_ext s s' k None (ekey o) L). reflexivity.
Qed.

(** *** loadop *)
(** Given a view with sizes in range, the callback's update has sizes in range. *)
Definition update_ok (key : bytes) (f : option (view -> option update)) : Prop :=
  forall g w u, f = Some g -> args_ok key (v_val w) (v_exp w) (v_flags w) (v_cas w) ->
    g w = Some u -> args_ok key (u_val u) (u_exp u) (u_flags u) 0.

Lemma view_args : forall e, wf e ->
  args_ok (ekey e) (v_val (eview e)) (v_exp (eview e)) (v_flags (eview e)) (v_cas (eview e)).
Proof.
  intros e (k & v & x & f & s & t & A & E). rewrite E. rewrite new_ekey, new_eview by assumption.
  destruct A. constructor; cbn; try assumption.
  - unfold norm. destruct (0 <? x)%Z; [assumption|discriminate].
  - unfold token. destruct (c_usecas c); [assumption|reflexivity].
Qed.

Lemma args_cas : forall key val x f a b, args_ok key val x f a -> b < 2 ^ 64 ->
  args_ok key val x f b.
Proof. intros key val x f a b [] Hb. constructor; assumption. Qed.

Lemma u64_lt : forall x, u64 x < 2 ^ 64.
Proof. intro x. unfold u64. lia. Qed.

Lemma put_ent_set : forall m i b e, put_ent m i b e = set_ent m i b e.
Proof. reflexivity. Qed.

Lemma load_ok_spec : forall mm s key o now, sinv s -> update_ok key (lo_entry o) ->
  exists s' st evs, loadop c mm s key o now = Ok (s', st, evs) /\ good s evs s' /\
    exists m', sp_load (c_usecas c) (al_entry mm) (sabs s) (s_cas s) key o now
               = (m', s_cas s', st, shown evs) /\ (forall k, sabs s' k = m' k).
Proof.
  intros mm s key o now I U. unfold loadop.
  pose proof (get_bucket_spec ekey (c_load c) wf hash32 load_ok (s_map s) key (si_map s I)) as G.
  destruct (map_get_bucket ekey (s_map s) key (hash32 key)) as [[i|]|]; [| |destruct G].
  2:{ (* not there *)
    destruct (live_item_none s key now G) as [L1 L2].
    exists s, NOTFOUND, []. split; [reflexivity|]. split.
    - apply good_same; auto; apply I.
    - exists (aset (sabs s) key None). unfold sp_load. rewrite L1. split; [reflexivity|].
      intro k. apply aset_same. assumption. }
  destruct G as (b & Hb & Hk). rewrite Hb.
  set (e := b_ent b) in *.
  assert (Hin : In e (sents s)) by (apply nth_in_ents with i; assumption).
  assert (We : wf e) by (eapply ents_wf; [apply I|exact Hin]).
  pose proof (live_item_some s e now I Hin) as L. rewrite Hk in L.
  unfold entry_alive in L. rewrite <- view_exp in L by assumption.
  assert (Lk : lk (sents s) key = Some e).
  { rewrite <- Hk. apply lk_in; [apply nodup_keys; assumption|assumption]. }
  destruct (entry_alive_exp (v_exp (eview e)) now) eqn:Al; cbn [negb].
  2:{ (* expired *)
    destruct (delbkt_spec ekey (c_load c) wf hash32 load_ok (s_map s) i b (si_map s I) Hb)
      as (m' & D & M' & P & _). rewrite D.
    set (s' := mkShard (s_cas s) m' (s_next s)).
    destruct (remove_good s s' e N_EXPIRED I) as [Gd Lr]; auto.
    { apply I. } { unfold sents. cbn [s' s_map]. symmetry. exact P. }
    exists s', NOTFOUND, [EvNotify N_EXPIRED None (Some e); EvFree (e_id e)].
    split; [reflexivity|]. split; [assumption|].
    exists (aset (sabs s) key None). unfold sp_load. rewrite L. split; [reflexivity|].
    intro k. rewrite (sabs_ext s s' k None (ekey e) Lr). rewrite Hk. reflexivity. }
  set (e1 := if lo_notouch o then e else entry_settime e now).
  assert (W1 : wf e1) by (unfold e1; destruct (lo_notouch o); [|apply wf_entry_settime]; assumption).
  assert (K1 : ekey e1 = ekey e) by (unfold e1; destruct (lo_notouch o); reflexivity).
  assert (V1 : eview e1 = eview e) by (unfold e1; destruct (lo_notouch o); reflexivity).
  assert (I1 : e_id e1 = e_id e) by (unfold e1; destruct (lo_notouch o); reflexivity).
  assert (T1 : item_of e1 = if lo_notouch o then item_of e
     else mkItem (i_val (item_of e)) (i_exp (item_of e)) (i_flags (item_of e)) (i_cas (item_of e)) now).
  { unfold e1. destruct (lo_notouch o); reflexivity. }
  (* the case where the entry is only touched *)
  assert (Touch : forall cas, cas < 2 ^ 64 ->
     let s' := mkShard cas (put_ent (s_map s) i b e1) (s_next s) in
     sinv s' /\ (forall k, lk (sents s') k = if beq key k then Some e1 else lk (sents s) k)
     /\ Permutation (ids (sents s')) (ids (sents s))).
  { intros cas Hcas s'.
    destruct (set_ent_spec ecmp ekey entry_memsize (c_load c) wf hash32 load_ok ecmp_spec
       (s_map s) i b e1 (si_map s I) Hb W1 K1) as [M' P].
    destruct (perm_split _ _ _ _ Hin P) as (r & P1 & P2).
    split; [|split].
    - eapply (repl_inv s s' e e1 r I); auto.
    - intro k. rewrite (lk_replace ekey (sents s) (sents s') r e e1 k (nodup_keys s I) P1 P2).
      + rewrite K1, Hk. reflexivity.
      + symmetry. assumption.
    - unfold ids. rewrite (Permutation_map e_id P1). unfold sents at 1. cbn [s' s_map].
      rewrite put_ent_set. rewrite (Permutation_map e_id P2). cbn [List.map]. rewrite I1. reflexivity. }
  assert (Mirr : forall s', (forall k, lk (sents s') k = if beq key k then Some e1 else lk (sents s) k) ->
     forall k, svw s k = svw s' k).
  { intros s' Q k. unfold svw. rewrite Q. destruct (beq key k) eqn:B; [|reflexivity].
    apply beq_eq in B. subst k. rewrite Lk. cbn [option_map]. rewrite V1. reflexivity. }
  assert (TG : forall cas evs, cas < 2 ^ 64 ->
     (evs = [] \/ exists key w, evs = [EvShow e1 key w]) ->
     let s' := mkShard cas (put_ent (s_map s) i b e1) (s_next s) in
     good s evs s' /\ forall k, sabs s' k = aset (sabs s) key (Some (item_of e1)) k).
  { intros cas evs Hc He s'. destruct (Touch cas Hc) as (A & B & C). split.
    - constructor; [exact A|cbn; lia| |].
      + intros held Hh.
        assert (P0 : Permutation (ids (sents s) ++ held) (ids (sents s') ++ held)).
        { apply Permutation_app_tail. symmetry. exact C. }
        destruct He as [->|(k & w & ->)].
        * constructor. assumption.
        * constructor; [|constructor; assumption].
          apply in_app_iff. left. rewrite I1. apply in_map. assumption.
      + destruct He as [->|(k & w & ->)]; cbn [notes flat_map app]; constructor; apply Mirr; assumption.
    - intro k. apply (sabs_ext s s' k (Some e1) key). assumption. }
  destruct (lo_entry o) as [f|] eqn:Ef.
  2:{ eexists _, _, _. split; [reflexivity|].
    destruct (TG (s_cas s) [] (si_cas s I)) as [A B]; [auto|]. split; [exact A|].
    eexists. split; [|exact B]. unfold sp_load. rewrite L. rewrite Ef, T1. reflexivity. }
  destruct (f (eview e)) as [u|] eqn:Fu.
  2:{ eexists _, _, _. split; [reflexivity|].
    destruct (TG (s_cas s) [EvShow e1 key (eview e)] (si_cas s I)) as [A B]; [eauto|]. split; [exact A|].
    eexists. split; [|exact B]. unfold sp_load. rewrite L, Ef, shown_item, Fu, T1. reflexivity. }
  pose proof (u64_lt (s_cas s + 1)) as Hcas.
  destruct (al_entry mm) eqn:Alm; cbn [negb].
  2:{ eexists _, _, _. split; [reflexivity|].
    destruct (TG (u64 (s_cas s + 1)) [EvShow e1 key (eview e)] Hcas) as [A B]; [eauto|]. split; [exact A|].
    eexists. split; [|exact B]. unfold sp_load. rewrite L, Ef, shown_item, Fu, T1. reflexivity. }
  (* the entry is replaced *)
  assert (Ae : args_ok key (v_val (eview e)) (v_exp (eview e)) (v_flags (eview e)) (v_cas (eview e)))
    by (rewrite <- Hk; apply view_args; assumption).
  pose proof (args_cas _ _ _ _ _ (u64 (s_cas s + 1)) (U f (eview e) u eq_refl Ae Fu) Hcas) as Au.
  set (e2 := entry_settime (entry_new c (s_next s) key (u_val u) (u_exp u) (u_flags u)
               (u64 (s_cas s + 1))) now).
  assert (W2 : wf e2) by (apply new_wf; assumption).
  assert (K2 : ekey e2 = key) by (apply new_ekey; assumption).
  assert (V2 : eview e2 = mkView (u_val u) (norm (u_exp u)) (u_flags u)
     (token (c_usecas c) (u64 (s_cas s + 1)))) by (apply new_eview; assumption).
  assert (I2 : e_id e2 = s_next s) by reflexivity.
  assert (T2 : e_time e2 = now) by reflexivity.
  set (s' := mkShard (u64 (s_cas s + 1)) (put_ent (s_map s) i b e2) (s_next s + 1)).
  destruct (set_ent_spec ecmp ekey entry_memsize (c_load c) wf hash32 load_ok ecmp_spec
     (s_map s) i b e2 (si_map s I) Hb W2) as [M' P]; [rewrite K2, <- Hk; reflexivity|].
  destruct (perm_split _ _ _ _ Hin P) as (r & P1 & P2).
  assert (Lr : forall k, lk (sents s') k = if beq key k then Some e2 else lk (sents s) k).
  { intro k. rewrite (lk_replace ekey (sents s) (sents s') r e e2 k (nodup_keys s I) P1 P2);
      [rewrite K2|rewrite K2, Hk]; reflexivity. }
  exists s', FOUND. eexists. split; [reflexivity|]. split.
  - constructor.
    + eapply (repl_inv s s' e e2 r I); auto.
    + cbn. lia.
    + intros held Hh. pose proof (fresh_not_in s held I Hh) as Fr.
      pose proof (Permutation_map e_id P1) as Q1. pose proof (Permutation_map e_id P2) as Q2.
      cbn [List.map] in *. unfold ids in *.
      constructor. { rewrite I1. apply in_app_iff. left. apply in_map. assumption. }
      rewrite I2. constructor; [assumption|].
      constructor.
      { intros x [= <-]. rewrite I2. left. reflexivity. }
      { intros x [= <-]. right. rewrite I1. apply in_app_iff. left. apply in_map. assumption. }
      apply hp_free with (L0 := e_id e2 :: List.map e_id r ++ held).
      { rewrite I1, I2. rewrite perm_swap. constructor. rewrite Q1. reflexivity. }
      constructor. unfold sents at 1. cbn [s' s_map]. rewrite put_ent_set, Q2. reflexivity.
    + cbn [notes flat_map app option_map]. unfold kv_of at 1 2. rewrite K2, K1, Hk, V1.
      econstructor; [|constructor; intro k; rewrite (svw_ext s s' k (Some e2) key Lr); reflexivity].
      unfold svw. rewrite Lk. reflexivity.
  - eexists. split.
    + unfold sp_load. rewrite L, Ef, shown_item, Fu. reflexivity.
    + intro k. rewrite (sabs_ext s s' k (Some e2) key Lr). unfold item_of at 1. cbn [option_map].
      rewrite V2, T2. cbn [v_val v_exp v_flags v_cas]. reflexivity.
Qed.


(** *** deleteop *)
Lemma good_event : forall s ev evs s', good s evs s' ->
  (forall held, Forall (fun i => i < s_next s) held ->
     heap_ok (ids (sents s) ++ held) [ev] (ids (sents s) ++ held)) ->
  notes c [ev] = [] -> good s (ev :: evs) s'.
Proof.
  intros s ev evs s' [A B C D] H Hn. constructor; auto.
  - intros held Hh. change (ev :: evs) with ([ev] ++ evs). eapply heap_app; eauto.
  - change (ev :: evs) with ([ev] ++ evs). rewrite notes_app, Hn. assumption.
Qed.

Lemma good_show : forall s evs s' e k w, In e (sents s) -> good s evs s' ->
  good s (EvShow e k w :: evs) s'.
Proof.
  intros s evs s' e k w Hin G. apply good_event; auto.
  intros held _. constructor; [|constructor; reflexivity].
  apply in_app_iff. left. apply in_map. assumption.
Qed.

Lemma delete_ok_spec : forall mm s key cb now, sinv s ->
  exists s' st evs, deleteop c mm s key cb now = Ok (s', st, evs) /\ good s evs s' /\
    s_cas s' = s_cas s /\
    exists m', sp_delete (sabs s) key cb now = (m', st, shown evs) /\ (forall k, sabs s' k = m' k).
Proof.
  intros mm s key cb now I. unfold deleteop.
  pose proof (delete_spec ekey entry_memsize (c_load c) wf hash32 load_ok (s_map s) key (si_map s I)) as G.
  destruct (map_delete ekey entry_memsize (s_map s) key (hash32 key)) as [[m1 [e|]]|]; [| |destruct G].
  2:{ destruct G as [-> G]. destruct (live_item_none s key now G) as [L1 L2].
    exists s, NOTFOUND, []. split; [reflexivity|]. split; [apply good_same; auto; apply I|].
    split; [reflexivity|]. exists (aset (sabs s) key None). unfold sp_delete. rewrite L1.
    split; [reflexivity|]. intro k. apply aset_same. assumption. }
  destruct G as (Hk & M1 & P & Hroom & Ht & Hs).
  assert (Hin : In e (sents s)) by (unfold sents; rewrite <- P; left; reflexivity).
  assert (We : wf e) by (eapply ents_wf; [apply I|exact Hin]).
  pose proof (live_item_some s e now I Hin) as L. rewrite Hk in L.
  (* removed for good *)
  destruct (tryshrink_spec ekey (c_load c) wf hash32 load_ok (c_allowshrink c) (al_table mm) m1 M1)
    as (m2 & Sh & M2 & P2 & _).
  set (s' := mkShard (s_cas s) m2 (s_next s)).
  assert (Gone : forall r, r = N_DELETED \/ r = N_EXPIRED \/ r = N_CLEARED \/ r = N_LOWMEM ->
    good s [EvNotify r None (Some e); EvFree (e_id e)] s' /\
    (forall k, sabs s' k = aset (sabs s) key None k)).
  { intros r Hr. destruct (remove_good s s' e r I) as [Gd Lr]; auto.
    - apply I.
    - unfold sents. cbn [s' s_map]. rewrite P2. symmetry. exact P.
    - split; [assumption|]. intro k. rewrite (sabs_ext s s' k None (ekey e) Lr), Hk. reflexivity. }
  destruct (entry_alive e now) eqn:Al; cbn [negb].
  2:{ rewrite Sh. destruct (Gone N_EXPIRED) as [Gd Lr]; auto.
    exists s', NOTFOUND. eexists. split; [reflexivity|]. split; [exact Gd|]. split; [reflexivity|].
    eexists. split; [|exact Lr]. unfold sp_delete. rewrite L. reflexivity. }
  destruct (match cb with None => false | Some f => negb (f (eview e)) end) eqn:Kp.
  - (* the callback refuses *)
    destruct cb as [f|]; [|discriminate]. rewrite negb_true_iff in Kp.
    assert (Hcr : crowd_ok (hk hash32 (ekey e) :: hashes m1)).
    { eapply crowd_perm; [|exact (mi_crowd _ _ _ _ _ (si_map s I))].
      rewrite (hashes_ents _ _ _ _ _ (si_map s I)), (hashes_ents _ _ _ _ _ M1).
      change (hk hash32 (ekey e) :: List.map (fun e => hk hash32 (ekey e)) (ents m1))
        with (List.map (fun e => hk hash32 (ekey e)) (e :: ents m1)).
      apply Permutation_map. symmetry. assumption. }
    pose proof (insert_spec ecmp ekey entry_memsize (c_load c) wf hash32 load_ok ecmp_spec
      (al_table mm) m1 e M1 We Hcr) as Q. rewrite Hk in Q.
    destruct (map_insert ecmp entry_memsize (c_load c) (al_table mm) m1 e (hash32 key)) as [| |[m3 [x|]]].
    + destruct Q.
    + destruct Q as [_ Q]. lia.
    + destruct Q as (Kx & _ & Hx & _). exfalso.
      pose proof (nodup_keys s I) as N. unfold sents in N.
      pose proof (Permutation_NoDup (Permutation_map ekey (Permutation_sym P)) N) as N2.
      cbn [List.map] in N2. inversion N2 as [|? ? N3 _]; subst. apply N3. rewrite <- Kx.
      apply in_map. assumption.
    + destruct Q as (_ & M3 & P3 & _).
      exists (mkShard (s_cas s) m3 (s_next s)), CANCELED, [EvShow e key (eview e)].
      split; [reflexivity|]. split; [|split; [reflexivity|]].
      * apply good_show; [assumption|]. apply good_same; auto; [apply I|].
        unfold sents. cbn [s_map]. rewrite P3. assumption.
      * exists (sabs s). unfold sp_delete. rewrite L, shown_item, Kp. split; [reflexivity|].
        intro k. unfold sabs. f_equal. symmetry. apply lk_perm; [apply nodup_keys; assumption|].
        unfold sents. cbn [s_map]. rewrite P3. symmetry. assumption.
  - rewrite Sh. destruct (Gone N_DELETED) as [Gd Lr]; auto.
    destruct cb as [f|].
    + rewrite negb_false_iff in Kp. eexists s', DELETED, _. split; [reflexivity|].
      split; [apply good_show; assumption|]. split; [reflexivity|].
      eexists. split; [|exact Lr]. unfold sp_delete. rewrite L, shown_item, Kp. reflexivity.
    + eexists s', DELETED, _. split; [reflexivity|].
      split; [exact Gd|]. split; [reflexivity|].
      eexists. split; [|exact Lr]. unfold sp_delete. rewrite L. reflexivity.
Qed.

(** *** Eviction *)
Lemma same_key_same : forall s a b, sinv s -> In a (sents s) -> In b (sents s) ->
  ekey a = ekey b -> a = b.
Proof.
  intros s a b I Ha Hb K. pose proof (lk_in ekey _ a (nodup_keys s I) Ha) as A.
  pose proof (lk_in ekey _ b (nodup_keys s I) Hb) as B. rewrite K in A. congruence.
Qed.

Lemma evict_entry_ok : forall s e k, sinv s -> In e (sents s) ->
  k = N_EXPIRED \/ k = N_LOWMEM ->
  exists m', evict_entry c (s_map s) e k = Ok (m', [EvNotify k None (Some e); EvFree (e_id e)]) /\
    minv m' /\ Permutation (sents s) (e :: ents m').
Proof.
  intros s e k I Hin Hk. unfold evict_entry.
  pose proof (delete_spec ekey entry_memsize (c_load c) wf hash32 load_ok (s_map s) (ekey e) (si_map s I)) as G.
  destruct (map_delete ekey entry_memsize (s_map s) (ekey e) (hash32 (ekey e))) as [[m1 [d|]]|]; [| |destruct G].
  2:{ destruct G as [_ G]. exfalso. apply G. apply in_map. assumption. }
  destruct G as (Kd & M1 & P & _).
  assert (d = e).
  { apply (same_key_same s); auto. unfold sents. rewrite <- P. left. reflexivity. }
  subst d. rewrite N.eqb_refl. exists m1. split; [reflexivity|]. split; [assumption|].
  symmetry. assumption.
Qed.

(** what the search may return *)
Lemma evict_search_ok : forall s hash now fuel i cand, sinv s ->
  Forall (fun e => In e (sents s) /\ hk hash32 (ekey e) <> hash /\ entry_alive e now = true) cand ->
  match evict_search fuel (s_map s) i hash now cand with
  | inl e => In e (sents s) /\ hk hash32 (ekey e) <> hash /\ entry_alive e now = false
  | inr l => Forall (fun e => In e (sents s) /\ hk hash32 (ekey e) <> hash /\ entry_alive e now = true) l
  end.
Proof.
  intros s hash now. induction fuel as [|fuel IH]; intros i cand I F; cbn [evict_search]; [assumption|].
  destruct (2 <=? length cand)%nat; [assumption|].
  set (j := N.to_nat _).
  destruct (nth j (m_buckets (s_map s)) None) as [b|] eqn:Hb; [|apply IH; assumption].
  assert (Hin : In (b_ent b) (sents s)) by (apply nth_in_ents with j; assumption).
  destruct (nth_facts _ _ _ _ _ _ _ (si_map s I) Hb) as (_ & Hh & _).
  destruct (b_hash b =? hash) eqn:Eh; [apply IH; assumption|].
  assert (Ne : hk hash32 (ekey (b_ent b)) <> hash) by (rewrite <- Hh; lia).
  destruct (entry_alive (b_ent b) now) eqn:Al; cbn [negb].
  - apply IH; [assumption|]. apply Forall_app. split; [assumption|]. auto.
  - auto.
Qed.

Lemma auto_evict_ok : forall s key now, sinv s ->
  exists m' evs, auto_evict c (s_map s) (hash32 key) now = Ok (m', evs) /\
    ((m' = s_map s /\ evs = []) \/
     exists e k, (k = N_EXPIRED \/ k = N_LOWMEM) /\
       evs = [EvNotify k None (Some e); EvFree (e_id e)] /\
       minv m' /\ Permutation (sents s) (e :: ents m') /\ ekey e <> key).
Proof.
  intros s key now I. unfold auto_evict.
  pose proof (evict_search_ok s (clip_hash (hash32 key)) now (m_nb (s_map s) - 1) 1 [] I
     (Forall_nil _)) as G.
  assert (Go : forall e k, In e (sents s) -> hk hash32 (ekey e) <> clip_hash (hash32 key) ->
     (k = N_EXPIRED \/ k = N_LOWMEM) ->
     exists m' evs, evict_entry c (s_map s) e k = Ok (m', evs) /\
    ((m' = s_map s /\ evs = []) \/
     exists e k, (k = N_EXPIRED \/ k = N_LOWMEM) /\
       evs = [EvNotify k None (Some e); EvFree (e_id e)] /\
       minv m' /\ Permutation (sents s) (e :: ents m') /\ ekey e <> key)).
  { intros e k Hin Ne Hk. destruct (evict_entry_ok s e k I Hin Hk) as (m' & E & M & P).
    exists m', [EvNotify k None (Some e); EvFree (e_id e)]. split; [assumption|]. right.
    exists e, k. split; [assumption|]. split; [reflexivity|]. split; [assumption|].
    split; [assumption|]. intros <-. apply Ne. reflexivity. }
  destruct (evict_search _ _ _ _ _ _) as [e|[|a [|b l]]].
  - destruct G as (A & B & _). apply Go; auto.
  - eauto 10.
  - inversion G as [|? ? (A & B & _) _]; subst. apply Go; auto.
  - inversion G as [|? ? (A & B & _) G2]; subst. inversion G2 as [|? ? (A2 & B2 & _) _]; subst.
    destruct (e_time a <? e_time b)%Z; apply Go; auto.
Qed.

(** *** storeop *)
Lemma wf_expires : forall e, wf e -> (0 <= entry_expires e <= INT64_MAX)%Z.
Proof.
  intros e (k & v & x & f & s & t & O & E). rewrite E.
  change (entry_expires (entry_settime ?a t)) with (entry_expires a).
  rewrite new_expires by assumption. unfold norm_exp. destruct O.
  destruct (0 <? x)%Z eqn:P; unfold INT64_MAX in *; lia.
Qed.
Lemma norm_nonneg : forall x, (0 <= x)%Z -> norm x = x.
Proof. intros x H. unfold norm. destruct (0 <? x)%Z eqn:P; lia. Qed.
Lemma norm_norm : forall x, norm (norm x) = norm x.
Proof. intro x. apply norm_nonneg. unfold norm. destruct (0 <? x)%Z eqn:P; lia. Qed.
Lemma clamp64_eq : forall x, clampZ x = clamp64 x.
Proof.
  intro x. unfold clampZ, clamp64. unfold INT64_MIN, INT64_MAX.
  destruct (x <? - 2 ^ 63)%Z eqn:A; [|destruct (2 ^ 63 - 1 <? x)%Z eqn:B]; lia.
Qed.
Lemma clamp64_max : forall x, (clamp64 x <= INT64_MAX)%Z.
Proof. intro x. unfold clamp64, INT64_MIN, INT64_MAX. lia. Qed.

Record store_ok (key val : bytes) (o : store_opts) (now : Z) : Prop := {
  sk_key : bytes_ok key;
  sk_val : bytes_ok val;
  sk_len : N.of_nat (length key) + N.of_nat (length val) < 2 ^ 62;
  sk_exp : (so_expires o <= INT64_MAX)%Z;
  sk_ttl : i64_ok (so_ttl o);
  sk_now : i64_ok now;
  sk_flags : so_flags o < 2 ^ 32
}.

Lemma store_expires_ok : forall s key val o now, sinv s -> store_ok key val o now ->
  exists x, store_expires c (s_map s) key o now = Ok x /\ (x <= INT64_MAX)%Z /\
    norm x = sp_expires (sabs s) key o now.
Proof.
  intros s key val o now I K. unfold store_expires, sp_expires.
  assert (G : exists x, (if (so_expires o >? 0)%Z then Some (so_expires o)
         else if (so_ttl o >? 0)%Z then int64_add_clamp now (so_ttl o) else Some 0%Z) = Some x
     /\ (x <= INT64_MAX)%Z /\ norm x = (if (so_expires o >? 0)%Z then so_expires o
    else if (so_ttl o >? 0)%Z then norm (clamp64 (now + so_ttl o)) else 0%Z)).
  { destruct (so_expires o >? 0)%Z eqn:E1.
    - exists (so_expires o). split; [reflexivity|]. split; [apply K|]. apply norm_nonneg. lia.
    - destruct (so_ttl o >? 0)%Z eqn:E2.
      + rewrite add_clamp_spec by apply K. rewrite clamp64_eq. eexists. split; [reflexivity|].
        split; [apply clamp64_max|reflexivity].
      + exists 0%Z. split; [reflexivity|]. unfold INT64_MAX. split; [lia|reflexivity]. }
  destruct G as (x & -> & Hx & Nx).
  destruct (so_keepttl o); [|eauto].
  pose proof (get_bucket_spec ekey (c_load c) wf hash32 load_ok (s_map s) key (si_map s I)) as G.
  destruct (map_get_bucket ekey (s_map s) key (hash32 key)) as [[i|]|]; [| |destruct G].
  - destruct G as (b & Hb & Hk). rewrite Hb.
    assert (Hin : In (b_ent b) (sents s)) by (apply nth_in_ents with i; assumption).
    assert (We : wf (b_ent b)) by (eapply ents_wf; [apply I|exact Hin]).
    pose proof (live_item_some s _ now I Hin) as L. rewrite Hk in L. rewrite L.
    eexists. split; [reflexivity|]. destruct (entry_alive (b_ent b) now).
    + pose proof (wf_expires _ We). split; [lia|]. unfold item_of. cbn [i_exp].
      rewrite view_exp by assumption. apply norm_nonneg. lia.
    + auto.
  - destruct (live_item_none s key now G) as [-> _]. eauto.
Qed.

Lemma sinv_cas : forall s cas n, sinv s -> cas < 2 ^ 64 -> s_next s <= n ->
  sinv (mkShard cas (s_map s) n).
Proof.
  intros s cas n I Hc Hn. constructor; cbn; try apply I; auto.
  eapply Forall_impl; [|apply I]. cbn. intros; lia.
Qed.

Lemma hash_crowd : forall m m' k, minv m -> minv m' ->
  Permutation (List.map ekey (ents m')) (List.map ekey (ents m)) ->
  crowd_ok (hk hash32 k :: hashes m) -> crowd_ok (hk hash32 k :: hashes m').
Proof.
  intros m m' k M M' P H. eapply crowd_perm; [|exact H]. constructor.
  rewrite (crowd_keys m' _ M' P). rewrite (crowd_keys m _ M (Permutation_refl _)). reflexivity.
Qed.

Lemma count_len : forall m, minv m -> m_count m = length (ents m).
Proof. intros m H. symmetry. exact (ents_length _ _ _ _ _ H). Qed.

Lemma store_ok_spec : forall mm s key val o now, sinv s -> store_ok key val o now ->
  al_entry mm = true -> crowd_ok (hk hash32 key :: hashes (s_map s)) ->
  exists s' st evs, storeop c mm s key val o now = Ok (s', st, evs) /\ good s evs s' /\
    exists m', sp_store_step (c_usecas c) (c_noevict c) (al_table mm)
                 (fun k => In k (List.map ekey (sents s)))
                 (sabs s) (s_cas s) key val o now m' (s_cas s') st (shown evs)
               /\ (forall k, sabs s' k = m' k).
Proof.
  intros mm s key val o now I K Al Cr. unfold storeop.
  destruct (store_expires_ok s key val o now I K) as (x & -> & Hx & Nx).
  rewrite Al. cbn [negb].
  pose proof (u64_lt (s_cas s + 1)) as Hcas. set (cas := u64 (s_cas s + 1)) in *.
  assert (Ao : args_ok key val x (so_flags o) cas).
  { destruct K. constructor; auto. }
  set (e := entry_settime (entry_new c (s_next s) key val x (so_flags o) cas) now).
  assert (We : wf e) by (apply new_wf; assumption).
  assert (Ke : ekey e = key) by (apply new_ekey; assumption).
  assert (Ve : eview e = mkView val (norm x) (so_flags o) (token (c_usecas c) cas))
    by (apply new_eview; assumption).
  assert (Ie : e_id e = s_next s) by reflexivity.
  set (new := mkItem val (sp_expires (sabs s) key o now) (so_flags o) (token (c_usecas c) cas) now).
  assert (It : item_of e = new).
  { unfold item_of, new. rewrite Ve. cbn [v_val v_exp v_flags v_cas]. rewrite Nx. reflexivity. }
  clearbody e.
  assert (Sp : sp_store (c_usecas c) (sabs s) (s_cas s) key val o now =
    match live_item (sabs s) key now with
    | Some it =>
      let refuse :=
        if so_casop o then negb (c_usecas c && (so_cas o =? i_cas it)) else so_nx o in
      if refuse then (sabs s, cas, FOUND, [])
      else match so_entry o with
           | None => (aset (sabs s) key (Some new), cas, REPLACED, [])
           | Some f =>
               if f (shown_of it)
               then (aset (sabs s) key (Some new), cas, REPLACED, [(key, shown_of it)])
               else (sabs s, cas, CANCELED, [(key, shown_of it)])
           end
    | None =>
      if so_xx o || so_casop o
      then (aset (sabs s) key None, cas, NOTFOUND, [])
      else (aset (sabs s) key (Some new), cas, INSERTED, [])
    end) by reflexivity.
  clearbody new.
  (* nothing changes *)
  assert (Same : forall evs s', minv (s_map s') -> s_cas s' = cas -> s_next s' = s_next s + 1 ->
     Permutation (sents s') (sents s) -> notes c evs = [] ->
     (forall held, Forall (fun i => i < s_next s) held ->
        heap_ok (s_next s :: ids (sents s) ++ held) evs (ids (sents s) ++ held)) ->
     good s (EvAlloc (e_id e) :: evs) s' /\ forall k, sabs s' k = sabs s k).
  { intros evs s' M' Cs Nn P Hn Hh.
    assert (I' : sinv s').
    { constructor; auto.
      - eapply Permutation_NoDup; [symmetry; apply Permutation_map; eassumption|apply I].
      - rewrite Nn. eapply Permutation_Forall; [symmetry; apply Permutation_map; eassumption|].
        eapply Forall_impl; [|apply I]. cbn. intros; lia.
      - rewrite Cs. assumption. }
    assert (Lk : forall k, lk (sents s') k = lk (sents s) k).
    { intro k. apply lk_perm; [apply nodup_keys|]; assumption. }
    split; [|intro k; unfold sabs; rewrite Lk; reflexivity].
    constructor; [assumption|lia| |].
    - intros held Hl. rewrite Ie. constructor; [apply fresh_not_in; assumption|].
      eapply heap_perm_r; [apply Hh; assumption|]. apply Permutation_app_tail.
      symmetry. apply Permutation_map. assumption.
    - change (notes c (EvAlloc (e_id e) :: evs)) with (notes c evs). rewrite Hn. constructor.
      intro k. unfold svw. rewrite Lk. reflexivity. }
  (* out of memory *)
  assert (Nomem : forall m', m' = sabs s ->
     let s1 := mkShard cas (s_map s) (s_next s + 1) in
     let evs := [EvAlloc (e_id e); EvFree (e_id e)] in
     good s evs s1 /\ (forall k, sabs s1 k = m' k)).
  { intros m' -> s1 evs. apply Same; auto.
    - apply I.
    - intros held Hl. rewrite Ie. eapply hp_free; [reflexivity|]. constructor. reflexivity. }
  destruct (so_lowmem o && c_noevict c) eqn:LN.
  { destruct (Nomem _ eq_refl) as [A B]. eexists _, NOMEM, _. split; [reflexivity|].
    split; [exact A|]. exists (sabs s). split; [|exact B].
    apply andb_true_iff in LN. destruct LN. apply sps_noevict; assumption. }
  rewrite <- Ke in Cr.
  pose proof (insert_spec ecmp ekey entry_memsize (c_load c) wf hash32 load_ok ecmp_spec
      (al_table mm) (s_map s) e (si_map s I) We Cr) as Q. rewrite Ke in Q.
  destruct (map_insert ecmp entry_memsize (c_load c) (al_table mm) (s_map s) e (hash32 key))
    as [| |[m1 [old|]]]; [destruct Q| | |].
  { destruct Q as [Q _]. destruct (Nomem _ eq_refl) as [A B]. eexists _, NOMEM, _.
    split; [reflexivity|]. split; [exact A|]. exists (sabs s). split; [|exact B].
    apply sps_nomem. assumption. }
  - (* there was an entry *)
    destruct Q as (Ko & M1 & Hin & P & _ & Hroom & _).
    destruct (perm_split _ _ _ _ Hin P) as (r & P1 & P2).
    fold (sents s) in Hin, P1.
    assert (Wo : wf old) by (eapply ents_wf; [apply I|exact Hin]).
    pose proof (live_item_some s old now I Hin) as L. rewrite Ko in L. rewrite L in Sp.
    assert (Lo : lk (sents s) key = Some old).
    { rewrite <- Ko. apply lk_in; [apply nodup_keys; assumption|assumption]. }
    assert (Nc : (m_count (s_map s) <? m_count m1)%nat = false).
    { rewrite (count_len _ M1), (count_len _ (si_map s I)).
      fold (sents s). rewrite (Permutation_length P1), (Permutation_length P2). apply Nat.ltb_irrefl. }
    pose proof (Permutation_map e_id P1) as Q1. pose proof (Permutation_map e_id P2) as Q2.
    cbn [List.map] in Q1, Q2.
    set (s2 := mkShard cas m1 (s_next s + 1)).
    assert (I2 : sinv s2).
    { apply (repl_inv s s2 old e r); auto. }
    assert (Lr : forall k, lk (sents s2) k = if beq key k then Some e else lk (sents s) k).
    { intro k. rewrite (lk_replace ekey (sents s) (sents s2) r old e k (nodup_keys s I) P1 P2).
      - rewrite Ke. reflexivity.
      - rewrite Ke. assumption. }
    destruct (entry_alive old now) eqn:Alive; cbn [negb].
    + (* alive *)
      assert (PB : forall st evs, notes c evs = [] ->
        (forall held, Forall (fun i => i < s_next s) held ->
          heap_ok (s_next s :: ids (sents s) ++ held) evs (s_next s :: ids (sents s) ++ held)) ->
        exists s', put_back c mm (mkShard cas (s_map s) (s_next s + 1)) m1 key e old st
                     (EvAlloc (e_id e) :: evs)
                   = Ok (s', st, EvAlloc (e_id e) :: evs ++ [EvFree (e_id e)]) /\
          good s (EvAlloc (e_id e) :: evs ++ [EvFree (e_id e)]) s' /\ s_cas s' = cas /\
          forall k, sabs s' k = sabs s k).
      { intros st evs Hn Hh. unfold put_back.
        assert (Cr2 : crowd_ok (hk hash32 (ekey old) :: hashes m1)).
        { rewrite Ko. apply (hash_crowd (s_map s)); auto; [apply I| |rewrite <- Ke; exact Cr].
          fold (sents s). rewrite (Permutation_map ekey P1), (Permutation_map ekey P2). cbn [List.map].
          rewrite Ko, Ke. reflexivity. }
        pose proof (insert_spec ecmp ekey entry_memsize (c_load c) wf hash32 load_ok ecmp_spec
          (al_table mm) m1 old M1 Wo Cr2) as Q. rewrite Ko in Q.
        assert (He : In e (ents m1)) by (rewrite P2; left; reflexivity).
        destruct (map_insert ecmp entry_memsize (c_load c) (al_table mm) m1 old (hash32 key))
          as [| |[m3 [d|]]].
        - destruct Q.
        - destruct Q as [_ Q]. lia.
        - destruct Q as (Kd & M3 & Hd & P3 & _).
          assert (d = e).
          { apply (same_key_same s2); auto. rewrite Ke. assumption. }
          subst d. rewrite N.eqb_refl.
          destruct (perm_split _ _ _ _ Hd P3) as (r3 & P4 & P5).
          assert (Permutation r r3).
          { apply Permutation_cons_inv with e. rewrite <- P2. assumption. }
          eexists. split; [reflexivity|].
          destruct (Same (evs ++ [EvFree (e_id e)]) (mkShard cas m3 (s_next s + 1)) M3 eq_refl eq_refl)
            as [A B].
          + unfold sents at 1. cbn [s_map]. rewrite P5, P1. constructor. symmetry. assumption.
          + rewrite notes_app, Hn. reflexivity.
          + intros held Hl. eapply heap_app; [apply Hh; assumption|]. rewrite Ie.
            eapply hp_free; [reflexivity|]. constructor. reflexivity.
          + split; [exact A|]. split; [reflexivity|exact B].
        - destruct Q as (Q & _). exfalso. apply Q. rewrite <- Ke. apply in_map. assumption. }
      assert (Rf : (if so_casop o then if c_usecas c then negb (so_cas o =? entry_cas c old) else true
                   else so_nx o)
                 = (if so_casop o then negb (c_usecas c && (so_cas o =? i_cas (item_of old)))
                    else so_nx o)).
      { destruct (so_casop o); [|reflexivity]. unfold item_of. cbn [i_cas].
        rewrite view_cas by assumption. destruct (c_usecas c); reflexivity. }
      rewrite Rf. cbv zeta in Sp.
      destruct (if so_casop o then negb (c_usecas c && (so_cas o =? i_cas (item_of old))) else so_nx o) eqn:Re.
      { destruct (PB FOUND []) as (s' & E & G & Cs & B); [reflexivity| |].
        { intros held _. constructor. reflexivity. }
        exists s', FOUND. eexists. split; [exact E|]. split; [exact G|].
        exists (sabs s). split; [|exact B]. rewrite Cs. apply sps_normal; assumption. }
      assert (Rep : forall shownevs, (shownevs = [] \/ exists w, shownevs = [EvShow old key w]) ->
         good s (EvAlloc (e_id e) :: shownevs ++ [EvNotify N_REPLACED (Some e) (Some old); EvFree (e_id old)]) s2
         /\ forall k, sabs s2 k = aset (sabs s) key (Some new) k).
      { intros sh Hsh. split.
        - constructor; [assumption|cbn; lia| |].
          + intros held Hl. rewrite Ie. constructor; [apply fresh_not_in; assumption|].
            assert (Ho : In (e_id old) (s_next s :: ids (sents s) ++ held)).
            { right. apply in_app_iff. left. apply in_map. assumption. }
            apply heap_app with (L1 := s_next s :: ids (sents s) ++ held).
            { destruct Hsh as [->|(w & ->)]; [|constructor; [assumption|]]; apply hp_nil; reflexivity. }
            constructor.
            * intros y [= <-]. left. symmetry. exact Ie.
            * intros y [= <-]. assumption.
            * apply hp_free with (L0 := s_next s :: ids r ++ held).
              { unfold ids. rewrite Q1, perm_swap. reflexivity. }
              constructor. unfold ids, sents. cbn [s2 s_map]. rewrite Q2, Ie. reflexivity.
          + assert (Hn : notes c (EvAlloc (e_id e) :: sh ++ [EvNotify N_REPLACED (Some e) (Some old); EvFree (e_id old)])
              = [(N_REPLACED, Some (kv_of c e), Some (kv_of c old))]).
            { destruct Hsh as [->|(w & ->)]; reflexivity. }
            rewrite Hn. unfold kv_of. rewrite Ke, Ko. econstructor.
            * unfold svw. rewrite Lo. reflexivity.
            * constructor. intro k. rewrite (svw_ext s s2 k (Some e) key Lr). reflexivity.
        - intro k. rewrite (sabs_ext s s2 k (Some e) key Lr). cbn [option_map]. rewrite It. reflexivity. }
      rewrite shown_item in Sp. cbn [app].
      destruct (so_entry o) as [f|] eqn:Ef.
      * destruct (f (eview old)) eqn:Fo; cbn [negb].
        -- destruct (Rep [EvShow old key (eview old)]) as [A B]; [eauto|].
           exists s2, REPLACED. eexists. split; [reflexivity|]. split; [exact A|].
           eexists. split; [|exact B]. apply sps_normal; [exact Sp|assumption].
        -- destruct (PB CANCELED [EvShow old key (eview old)]) as (s' & E & G & Cs & B); [reflexivity| |].
           { intros held _. constructor; [|constructor; reflexivity]. right. apply in_app_iff. left.
             apply in_map. assumption. }
           exists s', CANCELED. eexists. split; [exact E|]. split; [exact G|].
           exists (sabs s). split; [|exact B]. rewrite Cs. apply sps_normal; assumption.
      * destruct (Rep []) as [A B]; [auto|].
        exists s2, REPLACED. eexists. split; [reflexivity|]. split; [exact A|].
        eexists. split; [|exact B]. apply sps_normal; [exact Sp|assumption].
    + (* expired *)
      assert (H0 : forall held, Forall (fun i => i < s_next s) held ->
         heap_ok (ids (sents s) ++ held)
           [EvAlloc (e_id e); EvNotify N_EXPIRED None (Some old); EvFree (e_id old)]
           (s_next s :: ids r ++ held)).
      { intros held Hl. rewrite Ie. constructor; [apply fresh_not_in; assumption|].
        constructor; [discriminate| |].
        - intros y [= <-]. right. apply in_app_iff. left. apply in_map. assumption.
        - apply hp_free with (L0 := s_next s :: ids r ++ held).
          { unfold ids. rewrite Q1, perm_swap. reflexivity. }
          constructor. reflexivity. }
      assert (Lm : svw s key = Some (eview old)) by (unfold svw; rewrite Lo; reflexivity).
      destruct (so_xx o || so_casop o) eqn:XX.
      * (* not to be inserted *)
        pose proof (delete_spec ekey entry_memsize (c_load c) wf hash32 load_ok m1 key M1) as D.
        assert (He : In e (ents m1)) by (rewrite P2; left; reflexivity).
        destruct (map_delete ekey entry_memsize m1 key (hash32 key)) as [[m3 [d|]]|]; [| |destruct D].
        2:{ destruct D as [_ D]. exfalso. apply D. rewrite <- Ke. apply in_map. assumption. }
        destruct D as (Kd & M3 & P3 & _).
        assert (d = e).
        { apply (same_key_same s2); auto.
          - unfold sents, s2. cbn [s_map]. rewrite <- P3. left. reflexivity.
          - rewrite Ke. assumption. }
        subst d. rewrite N.eqb_refl.
        set (s3 := mkShard cas m3 (s_next s + 1)).
        assert (P5 : Permutation (sents s) (old :: sents s3)).
        { rewrite P1. constructor. apply Permutation_cons_inv with e. rewrite <- P2. symmetry. exact P3. }
        pose proof (Permutation_map e_id P5) as Q5. cbn [List.map] in Q5.
        assert (Lr3 : forall k, lk (sents s3) k = if beq key k then None else lk (sents s) k).
        { intro k. rewrite <- Ko. apply lk_remove; [apply nodup_keys; assumption|assumption]. }
        exists s3, NOTFOUND. eexists. split; [reflexivity|]. split.
        -- constructor.
           ++ constructor; auto.
              ** pose proof (Permutation_NoDup Q5 (si_ids s I)) as N0. inversion N0; assumption.
              ** cbn [s3 s_next]. pose proof (si_next s I) as F. unfold ids in *. rewrite Q5 in F.
                 inversion F; subst. eapply Forall_impl; [|eassumption]. cbn. intros; lia.
           ++ cbn. lia.
           ++ intros held Hl. eapply heap_app; [apply H0; assumption|]. rewrite Ie.
              eapply hp_free; [reflexivity|]. constructor. apply Permutation_app_tail.
              unfold ids. apply Permutation_cons_inv with (e_id old). rewrite <- Q1. assumption.
           ++ cbn [app notes flat_map option_map]. unfold kv_of. rewrite Ko.
              eapply mr_gone; [auto|exact Lm|].
              constructor. intro k. rewrite (svw_ext s s3 k None key Lr3). reflexivity.
        -- eexists. split; [apply sps_normal; [exact Sp|assumption]|].
           intro k. rewrite (sabs_ext s s3 k None key Lr3). reflexivity.
      * rewrite Nc, andb_false_r.
        exists s2, INSERTED. eexists. split; [reflexivity|]. split.
        -- constructor; [assumption|cbn; lia| |].
           ++ intros held Hl. eapply heap_app; [apply H0; assumption|].
              constructor; [|discriminate|].
              ** intros y [= <-]. left. symmetry. exact Ie.
              ** constructor. unfold ids, sents. cbn [s2 s_map]. rewrite Q2, Ie. reflexivity.
           ++ cbn [app notes flat_map option_map]. unfold kv_of. rewrite Ko, Ke.
              eapply mr_gone; [auto|exact Lm|]. econstructor.
              ** unfold vset. rewrite beq_refl. reflexivity.
              ** constructor. intro k. rewrite (svw_ext s s2 k (Some e) key Lr).
                 unfold vset. destruct (beq key k); reflexivity.
        -- eexists. split; [apply sps_normal; [exact Sp|assumption]|].
           intro k. rewrite (sabs_ext s s2 k (Some e) key Lr). cbn [option_map]. rewrite It. reflexivity.
  - (* a new key *)
    destruct Q as (Hno & M1 & P & _). fold (sents s) in Hno, P.
    destruct (live_item_none s key now) as [L1 L2]; [exact Hno|]. rewrite L1 in Sp.
    assert (Lo : lk (sents s) key = None) by (apply lk_none; assumption).
    set (s2 := mkShard cas m1 (s_next s + 1)).
    pose proof (Permutation_map e_id P) as Q. cbn [List.map] in Q. change (ents m1) with (sents s2) in P, Q.
    assert (I2 : sinv s2).
    { constructor; auto; unfold ids; rewrite Q.
      - constructor; [|apply I]. rewrite Ie. intro X. pose proof (si_next s I) as F.
        rewrite Forall_forall in F. apply F in X. lia.
      - constructor; [rewrite Ie; cbn; lia|]. eapply Forall_impl; [|apply I]. cbn. intros; lia. }
    assert (Lr : forall k, lk (sents s2) k = if beq key k then Some e else lk (sents s) k).
    { intro k. rewrite <- Ke. apply lk_add; [apply nodup_keys; assumption|assumption]. }
    assert (Lm : svw s key = None) by (unfold svw; rewrite Lo; reflexivity).
    destruct (so_xx o || so_casop o) eqn:XX.
    + pose proof (delete_spec ekey entry_memsize (c_load c) wf hash32 load_ok m1 key M1) as D.
      assert (He : In e (sents s2)) by (rewrite P; left; reflexivity).
      destruct (map_delete ekey entry_memsize m1 key (hash32 key)) as [[m3 [d|]]|]; [| |destruct D].
      2:{ destruct D as [_ D]. exfalso. apply D. rewrite <- Ke. apply in_map. assumption. }
      destruct D as (Kd & M3 & P3 & _).
      assert (d = e).
      { apply (same_key_same s2); auto.
        - unfold sents, s2. cbn [s_map]. rewrite <- P3. left. reflexivity.
        - rewrite Ke. assumption. }
      subst d. rewrite N.eqb_refl.
      eexists _, NOTFOUND, _. split; [reflexivity|].
      destruct (Same [EvFree (e_id e)] (mkShard cas m3 (s_next s + 1))) as [A B]; auto.
      { unfold sents at 1. cbn [s_map]. apply Permutation_cons_inv with e. rewrite <- P. exact P3. }
      { intros held Hl. rewrite Ie. eapply hp_free; [reflexivity|]. constructor. reflexivity. }
      split; [exact A|]. eexists. split; [apply sps_normal; [exact Sp|assumption]|].
      intro k. rewrite B. apply aset_same. assumption.
    + assert (Plain : good s (EvAlloc (e_id e) :: [EvNotify N_INSERTED (Some e) None]) s2
         /\ forall k, sabs s2 k = aset (sabs s) key (Some new) k).
      { split.
        - constructor; [assumption|cbn; lia| |].
          + intros held Hl. rewrite Ie. constructor; [apply fresh_not_in; assumption|].
            constructor; [|discriminate|].
            * intros y [= <-]. left. symmetry. exact Ie.
            * constructor. unfold ids. rewrite Q, Ie. reflexivity.
          + cbn [app notes flat_map option_map]. unfold kv_of. rewrite Ke. econstructor; [assumption|].
            constructor. intro k. rewrite (svw_ext s s2 k (Some e) key Lr). reflexivity.
        - intro k. rewrite (sabs_ext s s2 k (Some e) key Lr). cbn [option_map]. rewrite It. reflexivity. }
      destruct (so_lowmem o && (m_count (s_map s) <? m_count m1)%nat) eqn:Lw.
      2:{ exists s2, INSERTED. eexists. split; [reflexivity|]. destruct Plain as [A B].
        split; [exact A|]. eexists. split; [apply sps_normal; [exact Sp|assumption]|exact B]. }
      apply andb_true_iff in Lw. destruct Lw as [Lw _]. rewrite Lw in LN. cbn [andb] in LN.
      destruct (auto_evict_ok s2 key now I2) as (m3 & ev2 & E2 & [[-> ->]|(v & kd & Hkd & -> & M3 & P3 & Kv)]).
      * cbn [s2 s_map] in E2. rewrite E2. exists s2, INSERTED. eexists. split; [reflexivity|].
        destruct Plain as [A B]. split; [exact A|].
        eexists. split; [apply sps_normal; [exact Sp|rewrite Lw, LN; reflexivity]|exact B].
      * cbn [s2 s_map] in E2. rewrite E2.
        set (s3 := mkShard cas m3 (s_next s + 1)).
        assert (Nev : v <> e) by (intros ->; contradiction).
        assert (Hv : In v (sents s)).
        { assert (X : In v (sents s2)) by (rewrite P3; left; reflexivity).
          rewrite P in X. destruct X as [X|X]; [symmetry in X; contradiction|assumption]. }
        assert (Lv : forall k, lk (sents s3) k = if beq (ekey v) k then None else lk (sents s2) k).
        { intro k. apply lk_remove; [apply nodup_keys; assumption|exact P3]. }
        destruct (remove_good s2 s3 v kd I2) as [G3 _]; auto.
        { destruct Hkd; subst; auto. }
        apply in_split in Hv. destruct Hv as (l1 & l2 & Hs).
        assert (Pv : Permutation (sents s) (v :: l1 ++ l2)).
        { rewrite Hs. symmetry. apply Permutation_middle. }
        assert (P4 : Permutation (sents s3) (e :: l1 ++ l2)).
        { apply Permutation_cons_inv with v. change (sents s3) with (ents m3). rewrite <- P3, P, perm_swap.
          constructor. assumption. }
        pose proof (Permutation_map e_id Pv) as Qv. pose proof (Permutation_map e_id P4) as Q4.
        cbn [List.map] in Qv, Q4.
        assert (Hv : In v (sents s)) by (rewrite Pv; left; reflexivity).
        exists s3, INSERTED. eexists. split; [reflexivity|]. split.
        -- constructor; [apply G3|cbn; lia| |].
           ++ intros held Hl. cbn [app]. rewrite Ie. constructor; [apply fresh_not_in; assumption|].
              constructor; [discriminate| |].
              { intros y [= <-]. right. apply in_app_iff. left. apply in_map. assumption. }
              apply hp_free with (L0 := s_next s :: ids (l1 ++ l2) ++ held).
              { unfold ids. rewrite Qv, perm_swap. reflexivity. }
              constructor; [|discriminate|].
              { intros y [= <-]. left. symmetry. exact Ie. }
              constructor. unfold ids. rewrite Q4, Ie. reflexivity.
           ++ cbn [app notes flat_map option_map]. unfold kv_of. rewrite Ke.
              assert (Lvv : lk (sents s) (ekey v) = Some v).
              { apply lk_in; [apply nodup_keys; assumption|assumption]. }
              eapply mr_gone.
              { destruct Hkd; subst; auto. }
              { unfold svw. rewrite Lvv. reflexivity. }
              econstructor.
              { unfold vset. destruct (beq (ekey v) key); [reflexivity|assumption]. }
              constructor. intro k. unfold vset, svw. rewrite Lv, Lr.
              destruct (beq key k) eqn:B1; destruct (beq (ekey v) k) eqn:B2; try reflexivity.
              apply beq_eq in B1. apply beq_eq in B2. congruence.
        -- exists (aset (aset (sabs s) key (Some new)) (ekey v) None). split.
           ++ eapply sps_evict with (victim := ekey v); eauto.
              ** apply in_map. assumption.
              ** unfold sabs. rewrite (lk_in ekey _ v (nodup_keys s I) Hv). discriminate.
           ++ intro k. destruct Plain as [_ B]. unfold aset at 1. rewrite <- B. unfold sabs.
              rewrite Lv. destruct (beq (ekey v) k); reflexivity.
Qed.
End S.
