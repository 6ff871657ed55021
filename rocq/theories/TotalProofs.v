(** The count of insertions kept by each shard: what each operation does to it. *)
From Coq Require Import Permutation.
From Verif Require Import Base Types Clamp Entry EntryProofs Hash Map MapProofs MapInv Shard
  Spec Trace ShardProofs ScanProofs LoopProofs Cache Refine.
Local Open Scope N_scope.

Section M.
Context {E : Type}.
Variable ecmp : E -> E -> bool.
Variable ekey : E -> bytes.
Variable esize : E -> N.
Variable load : N.

Lemma resize_total : forall al (m m' : map E) n, resize load al m n = ROk m' -> m_total m' = m_total m.
Proof.
  intros al m m' n H. unfold resize in H. destruct al; [|discriminate].
  destruct (rehash _ _ _); [|discriminate]. injection H as <-. reflexivity.
Qed.

Lemma insert_total : forall al (m m' : map E) e h old,
  map_insert ecmp esize load al m e h = ROk (m', old) ->
  m_total m' = match old with None => u64 (m_total m + 1) | Some _ => m_total m end.
Proof.
  intros al m m' e h old H. unfold map_insert in H. cbv zeta in H.
  destruct (if (m_growat m <=? m_count m)%nat then _ else _) as [| |m1] eqn:G; try discriminate.
  assert (T : m_total m1 = m_total m).
  { destruct (_ <=? _)%nat; [eapply resize_total; exact G|injection G as <-; reflexivity]. }
  rewrite <- T. destruct (ins_loop _ _ _ _ _ _) as [[t [o|]]|]; [| |discriminate];
    injection H as <- <-; reflexivity.
Qed.

Lemma delbkt_total : forall (m m' : map E) i, delbkt m i = Some m' -> m_total m' = m_total m.
Proof.
  intros m m' i H. unfold delbkt in H. destruct (del_loop _ _ _ _); [|discriminate].
  injection H as <-. reflexivity.
Qed.

Lemma delete_total : forall (m m' : map E) k h old,
  map_delete ekey esize m k h = Some (m', old) -> m_total m' = m_total m.
Proof.
  intros m m' k h old H. unfold map_delete in H.
  destruct (map_get_bucket _ _ _ _) as [[i|]|]; [|injection H as <- _; reflexivity|discriminate].
  destruct (nth i _ None) as [b|]; [|discriminate].
  unfold delentry_at_bkt in H. destruct (delbkt _ _) as [m1|] eqn:D; [|discriminate].
  injection H as <- _. apply delbkt_total in D. exact D.
Qed.

Lemma shrink_total : forall a al (m m' : map E), tryshrink load a al m = Some m' -> m_total m' = m_total m.
Proof.
  intros a al m m' H. unfold tryshrink in H. destruct (needsshrink _ _); [|injection H as <-; reflexivity].
  destruct (shrink_cap _ _ _ _); [|discriminate].
  destruct (resize _ _ _ _) eqn:R; [discriminate|injection H as <-; reflexivity|].
  injection H as <-. eapply resize_total; exact R.
Qed.
End M.

Section S.
Variable c : ctx.
Notation mt s := (m_total (s_map s)).

Lemma scan_total : forall St (judge : St -> entry -> St * list event * verdict) fuel st m i evs st' m' sp ev,
  Shard.scan judge fuel st m i evs = Ok (st', m', sp, ev) -> m_total m' = m_total m.
Proof.
  intros St judge. induction fuel as [|f IH]; intros st m i evs st' m' sp ev H; [discriminate|].
  cbn [Shard.scan] in H. destruct (m_nb m <=? i)%nat; [injection H as _ <- _ _; reflexivity|].
  destruct (nth i (m_buckets m) None) as [b|]; [|eapply IH; exact H].
  destruct (judge st (b_ent b)) as [[st1 ev1] v]. destruct (vd_del v) as [k|].
  - destruct (delbkt m i) as [m1|] eqn:D; [|discriminate]. apply delbkt_total in D.
    destruct (vd_stop v); [injection H as _ <- _ _; exact D|]. rewrite <- D. eapply IH; exact H.
  - destruct (vd_stop v); [injection H as _ <- _ _; reflexivity|]. eapply IH; exact H.
Qed.

Lemma evict_total : forall m e k m' evs, evict_entry c m e k = Ok (m', evs) -> m_total m' = m_total m.
Proof.
  intros m e k m' evs H. unfold evict_entry in H. cbv zeta in H.
  destruct (map_delete _ _ _ _ _) as [[m1 [d|]]|] eqn:D; try discriminate.
  destruct (e_id d =? e_id e); [|discriminate]. injection H as <- _. eapply delete_total; exact D.
Qed.

Lemma auto_evict_total : forall m h now m' evs, auto_evict c m h now = Ok (m', evs) -> m_total m' = m_total m.
Proof.
  intros m h now m' evs H. unfold auto_evict in H.
  destruct (evict_search _ _ _ _ _ _) as [e|[|a [|b l]]]; try (eapply evict_total; exact H).
  injection H as <- _. reflexivity.
Qed.

Lemma loadop_total : forall mm s key o now s' st evs,
  loadop c mm s key o now = Ok (s', st, evs) -> mt s' = mt s.
Proof.
  intros mm s key o now s' st evs H. unfold loadop in H. cbv zeta in H.
  destruct (map_get_bucket _ _ _ _) as [[i|]|]; [|injection H as <- _ _; reflexivity|discriminate].
  destruct (nth i _ None) as [b|]; [|discriminate].
  destruct (negb _).
  - destruct (delbkt _ _) as [m1|] eqn:D; [|discriminate]. injection H as <- _ _. eapply delbkt_total; exact D.
  - destruct (lo_entry o) as [f|]; [|injection H as <- _ _; reflexivity].
    destruct (f _) as [u|]; [|injection H as <- _ _; reflexivity].
    destruct (negb _); injection H as <- _ _; reflexivity.
Qed.

Lemma sweepop_total : forall mm s now s' r evs, sweepop c mm s now = Ok (s', r, evs) -> mt s' = mt s.
Proof.
  intros mm s now s' r evs H. unfold sweepop in H.
  destruct (Shard.scan _ _ _ _ _ _) as [[[[st m] sp] ev]|] eqn:S; [|discriminate]. apply scan_total in S.
  destruct (tryshrink _ _ _ _) as [m1|] eqn:T; [|discriminate]. apply shrink_total in T.
  injection H as <- _ _. cbn [s_map]. congruence.
Qed.

Lemma iterop_total : forall St mm s (cb : option (St -> bytes -> view -> St * iter_action)) st now s' st' r evs,
  iterop c mm s cb st now = Ok (s', st', r, evs) -> mt s' = mt s.
Proof.
  intros St mm s cb st now s' st' r evs H. unfold iterop in H.
  destruct (Shard.scan _ _ _ _ _ _) as [[[[st1 m] sp] ev]|] eqn:S; [|discriminate]. apply scan_total in S.
  destruct (tryshrink _ _ _ _) as [m1|] eqn:T; [|discriminate]. apply shrink_total in T.
  injection H as <- _ _ _. cbn [s_map]. congruence.
Qed.

Lemma entryiter_total : forall s now i s' r j evs, entryiter s now i = Ok (s', r, j, evs) -> mt s' = mt s.
Proof.
  intros s now i s' r j evs H. unfold entryiter in H.
  destruct (_ =? 0)%nat; [injection H as <- _ _ _; reflexivity|].
  destruct (Shard.scan _ _ _ _ _ _) as [[[[st1 m] [k|]] ev]|] eqn:S; [| |discriminate]; apply scan_total in S;
    injection H as <- _ _ _; exact S.
Qed.

Lemma clearop_total : forall mm s now df s' evs, clearop c mm s now df = Ok (s', evs) -> mt s' = mt s.
Proof.
  intros mm s now df s' evs H. unfold clearop in H. cbv zeta in H. destruct (negb _); [discriminate|].
  injection H as <- _. reflexivity.
Qed.

Lemma deleteop_total : forall mm s key cb now s' st evs,
  deleteop c mm s key cb now = Ok (s', st, evs) ->
  mt s' = match st with CANCELED => u64 (mt s + 1) | _ => mt s end.
Proof.
  intros mm s key cb now s' st evs H. unfold deleteop in H. cbv zeta in H.
  destruct (map_delete _ _ _ _ _) as [[m1 [e|]]|] eqn:D; [|injection H as <- <- _; reflexivity|discriminate].
  apply delete_total in D. destruct (negb (entry_alive e now)).
  - destruct (tryshrink _ _ _ _) as [m2|] eqn:T; [|discriminate]. apply shrink_total in T.
    injection H as <- <- _. cbn [s_map]. congruence.
  - destruct (match cb with None => false | Some f => _ end).
    + destruct (map_insert _ _ _ _ _ _ _) as [| |[m2 [o|]]] eqn:I; try discriminate.
      apply insert_total in I. injection H as <- <- _. cbn [s_map]. congruence.
    + destruct (tryshrink _ _ _ _) as [m2|] eqn:T; [|discriminate]. apply shrink_total in T.
      injection H as <- <- _. cbn [s_map]. congruence.
Qed.

Lemma put_back_total : forall mm s m key e old st evs s' st' evs',
  put_back c mm s m key e old st evs = Ok (s', st', evs') -> mt s' = m_total m /\ st' = st.
Proof.
  intros mm s m key e old st evs s' st' evs' H. unfold put_back in H.
  destruct (map_insert _ _ _ _ _ _ _) as [| |[m2 [o|]]] eqn:I; try discriminate.
  apply insert_total in I. destruct (_ =? _); [|discriminate]. injection H as <- <- _. split; [exact I|reflexivity].
Qed.
End S.

Section I.
Variable c : ctx.
Hypothesis load_ok : 55 <= c_load c <= 95.
Notation mt s := (m_total (s_map s)).
Notation ekey := (ekey c). Notation hash32 := (hash32 c). Notation wf := (wf_entry c).

(** A store adds one exactly if it answers INSERTED or NOTFOUND and the table
    had no entry of this key. *)
Lemma storeop_total : forall mm s key val o now s' st evs, sinv c s -> store_ok key val o now ->
  crowd_ok (hk hash32 key :: hashes (s_map s)) ->
  storeop c mm s key val o now = Ok (s', st, evs) ->
  mt s' = match st with
          | INSERTED | NOTFOUND => match sabs c s key with None => u64 (mt s + 1) | Some _ => mt s end
          | _ => mt s
          end.
Proof.
  intros mm s key val o now s' st evs I K Cr H. unfold storeop in H.
  destruct (store_expires_ok c load_ok s key val o now I K) as (x & Ex & Hx & _). rewrite Ex in H.
  destruct (al_entry mm); cbn [negb] in H; [|discriminate].
  pose proof (u64_lt c load_ok (s_cas s + 1)) as Hcas. set (cas := u64 (s_cas s + 1)) in *.
  assert (Ao : args_ok key val x (so_flags o) cas) by (destruct K; constructor; auto).
  set (e := entry_settime (entry_new c (s_next s) key val x (so_flags o) cas) now) in *.
  assert (We : wf e) by (apply new_wf; assumption).
  assert (Ke : ekey e = key) by (apply new_ekey; assumption).
  clearbody e. destruct (so_lowmem o && c_noevict c); [injection H as <- <- <-; reflexivity|].
  rewrite <- Ke in Cr.
  pose proof (insert_spec (ecmp c) ekey entry_memsize (c_load c) wf hash32 load_ok (ecmp_spec c)
      (al_table mm) (s_map s) e (si_map _ s I) We Cr) as Q.
  rewrite Ke in Q.
  destruct (map_insert (ecmp c) entry_memsize (c_load c) (al_table mm) (s_map s) e (hash32 key))
    as [| |[m1 old]]; [discriminate|injection H as <- <- <-; reflexivity|].
  cbv zeta in H.
  assert (T : m_total m1 = match sabs c s key with None => u64 (mt s + 1) | Some _ => mt s end).
  { unfold sabs. destruct old as [old|].
    - destruct Q as (Ko & _ & Hin & _ & T & _).
      destruct (lk ekey (sents s) key) as [y|] eqn:L; [exact T|].
      exfalso. apply (lk_none ekey) in L. apply L. apply in_map_iff. exists old. split; assumption.
    - destruct Q as (Nin & _ & _ & T & _).
      destruct (lk ekey (sents s) key) as [y|] eqn:L; [|exact T].
      exfalso. apply lk_some in L. apply Nin. apply in_map_iff. exists y. destruct L. split; assumption. }
  assert (Fresh : forall evs0, (if so_xx o || so_casop o
     then match map_delete ekey entry_memsize m1 key (hash32 key) with
          | Some (m2, Some d) =>
              if e_id d =? e_id e
              then Ok (mkShard cas m2 (s_next s + 1), NOTFOUND, evs0 ++ [EvFree (e_id e)])
              else Bad AssertFail
          | Some (_, None) => Bad AssertFail
          | None => Bad Hang
          end
     else if so_lowmem o && (m_count (s_map s) <? m_count m1)%nat
          then match auto_evict c m1 (hash32 key) now with
               | Ok (m2, ev2) => Ok (mkShard cas m2 (s_next s + 1), INSERTED,
                     evs0 ++ ev2 ++ [EvNotify N_INSERTED (Some e) None])
               | Bad t => Bad t
               end
          else Ok (mkShard cas m1 (s_next s + 1), INSERTED, evs0 ++ [EvNotify N_INSERTED (Some e) None]))
     = Ok (s', st, evs) -> mt s' = m_total m1 /\ (st = INSERTED \/ st = NOTFOUND)).
  { intros evs0 X. destruct (so_xx o || so_casop o).
    - destruct (map_delete ekey entry_memsize m1 key (hash32 key)) as [[m2 [d|]]|] eqn:D; try discriminate.
      destruct (e_id d =? e_id e); [|discriminate]. injection X as <- <- <-. split; [|right; reflexivity].
      cbn [s_map]. eapply delete_total; exact D.
    - destruct (so_lowmem o && _).
      + destruct (auto_evict c m1 (hash32 key) now) as [[m2 ev2]|] eqn:A; [|discriminate].
        injection X as <- <- <-. split; [|left; reflexivity]. cbn [s_map]. eapply auto_evict_total; exact A.
      + injection X as <- <- <-. split; [reflexivity|left; reflexivity]. }
  destruct old as [old|].
  2:{ apply Fresh in H. destruct H as [H [-> | ->]]; rewrite H; exact T. }
  destruct (entry_alive old now); cbn [negb] in H.
  2:{ apply Fresh in H. destruct H as [H [-> | ->]]; rewrite H; exact T. }
  clear Fresh. destruct Q as (_ & _ & _ & _ & T2 & _).
  match type of H with (if ?b then _ else _) = _ => destruct b end;
    [apply put_back_total in H; destruct H as [H ->]; rewrite H; exact T2|].
  match type of H with (if ?b then _ else _) = _ => destruct b end;
    [apply put_back_total in H; destruct H as [H ->]; rewrite H; exact T2|].
  injection H as <- <- <-. exact T2.
Qed.
End I.
