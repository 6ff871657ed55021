(** The cache refines the abstract cache of Spec.v. *)
From Coq Require Import Permutation.
From Verif Require Import Base Types Clamp Entry EntryProofs Hash Map MapProofs MapInv Shard
  Spec Trace ShardProofs ScanProofs LoopProofs Cache.
Local Open Scope N_scope.

(** *** Lists *)
Lemma nth_error_upd : forall A (l : list A) i j x, (i < length l)%nat ->
  nth_error (upd l i x) j = if (j =? i)%nat then Some x else nth_error l j.
Proof.
  induction l as [|y l IH]; intros i j x H; cbn in H; [lia|].
  destruct i, j; cbn [upd nth_error]; try reflexivity.
  rewrite IH by lia. reflexivity.
Qed.

Lemma upd_split : forall A (l1 l2 : list A) x y, upd (l1 ++ x :: l2) (length l1) y = l1 ++ y :: l2.
Proof. induction l1; intros; cbn; [reflexivity|]. rewrite IHl1. reflexivity. Qed.

Lemma NoDup_app_intro : forall A (a b : list A), NoDup a -> NoDup b ->
  (forall x, In x a -> In x b -> False) -> NoDup (a ++ b).
Proof.
  induction a as [|x a IH]; intros b Na Nb D; [assumption|]. inversion Na; subst. cbn [app].
  constructor.
  - intro H. apply in_app_or in H. destruct H as [H|H]; [contradiction|].
    apply (D x); [left; reflexivity|assumption].
  - apply IH; try assumption. intros y Ha Hb. apply (D y); [right|]; assumption.
Qed.

(** *** Lifting the mirror to a bigger map *)
Lemma mirror_split : forall a M b M', mirrored M (a ++ b) M' ->
  exists M1, mirrored M a M1 /\ mirrored M1 b M'.
Proof.
  induction a as [|x a IH]; intros M b M' H.
  - exists M. split; [constructor; reflexivity|assumption].
  - cbn [app] in H. inversion H; subst;
      match goal with Hm : mirrored _ (a ++ b) _ |- _ =>
        destruct (IH _ _ _ Hm) as (M1 & A & B) end;
      exists M1; (split; [econstructor; eassumption|assumption]).
Qed.

Lemma mirror_lift : forall M ns M', mirrored M ns M' -> forall (G : vmap) (P : bytes -> bool),
  (forall k, P k = true -> G k = M k) -> (forall k, M k <> None -> P k = true) ->
  (forall k w o, In (N_INSERTED, Some (k, w), o) ns -> P k = true) ->
  mirrored G ns (fun k => if P k then M' k else G k).
Proof.
  intros M ns M' H. induction H; intros G P HG HM HI.
  - constructor. intro k. destruct (P k) eqn:E; [|reflexivity]. rewrite HG by assumption. apply H.
  - assert (Pk : P k = true) by (eapply HI; left; reflexivity).
    constructor; [rewrite HG; assumption|].
    eapply mirror_ext_r; [apply (IHmirrored (vset G k (Some w)) P)|].
    + intros k' E. unfold vset. destruct (beq k k'); [reflexivity|]. apply HG. assumption.
    + intros k' E. unfold vset in E. destruct (beq k k') eqn:B; [apply beq_eq in B; congruence|].
      apply HM. assumption.
    + intros k' w' o Hin. eapply HI. right. exact Hin.
    + intro k'. cbn. destruct (P k') eqn:E; [reflexivity|]. unfold vset.
      destruct (beq k k') eqn:B; [apply beq_eq in B; congruence|reflexivity].
  - assert (Pk : P k = true) by (apply HM; congruence).
    apply mr_repl; [rewrite HG; assumption|].
    eapply mirror_ext_r; [apply (IHmirrored (vset G k (Some w)) P)|].
    + intros k' E. unfold vset. destruct (beq k k'); [reflexivity|]. apply HG. assumption.
    + intros k' E. unfold vset in E. destruct (beq k k') eqn:B; [apply beq_eq in B; congruence|].
      apply HM. assumption.
    + intros k' w' o Hin. eapply HI. right. exact Hin.
    + intro k'. cbn. destruct (P k') eqn:E; [reflexivity|]. unfold vset.
      destruct (beq k k') eqn:B; [apply beq_eq in B; congruence|reflexivity].
  - assert (Pk : P k = true) by (apply HM; congruence).
    apply mr_gone; [assumption|rewrite HG; assumption|].
    eapply mirror_ext_r; [apply (IHmirrored (vset G k None) P)|].
    + intros k' E. unfold vset. destruct (beq k k'); [reflexivity|]. apply HG. assumption.
    + intros k' E. unfold vset in E. destruct (beq k k') eqn:B; [congruence|].
      apply HM. assumption.
    + intros k' w' o Hin. eapply HI. right. exact Hin.
    + intro k'. cbn. destruct (P k') eqn:E; [reflexivity|]. unfold vset.
      destruct (beq k k') eqn:B; [apply beq_eq in B; congruence|reflexivity].
Qed.

(** *** Which traces insert keys *)
Definition noins (evs : list event) : Prop := forall k n o, In (EvNotify k n o) evs -> k <> N_INSERTED.

Lemma noins_notes : forall c evs, noins evs -> forall n o, ~ In (N_INSERTED, n, o) (notes c evs).
Proof.
  intros c evs H n o Hin. unfold notes in Hin. apply in_flat_map in Hin.
  destruct Hin as (ev & H1 & H2). destruct ev; cbn in H2; try tauto.
  destruct H2 as [E|[]]. injection E as E _ _. eapply H; eassumption.
Qed.
Lemma noins_app : forall a b, noins a -> noins b -> noins (a ++ b).
Proof. intros a b A B k n o H. apply in_app_or in H. destruct H; [eapply A|eapply B]; eassumption. Qed.
Lemma noins_nil : noins [].
Proof. intros k n o []. Qed.
Ltac noins_tac := let k := fresh in let n := fresh in let o := fresh in let h := fresh in
  intros k n o h; cbn in h;
  repeat (match type of h with _ \/ _ => destruct h as [h|h] end); try discriminate; try contradiction;
  try (injection h as <- _ _; discriminate).

Section Ins.
Variable c : ctx.
Lemma load_noins : forall mm s key o now s' st evs,
  loadop c mm s key o now = Ok (s', st, evs) -> noins evs.
Proof.
  intros mm s key o now s' st evs H. unfold loadop in H.
  destruct (map_get_bucket _ _ _ _) as [[i|]|]; [|injection H as <- <- <-; noins_tac|discriminate].
  destruct (nth i _ None) as [b|]; [|discriminate].
  destruct (negb _).
  - destruct (delbkt _ _); [|discriminate]. injection H as <- <- <-. noins_tac.
  - destruct (lo_entry o) as [f|]; [|injection H as <- <- <-; noins_tac].
    destruct (f _) as [u|]; [|injection H as <- <- <-; noins_tac].
    destruct (negb _); injection H as <- <- <-; noins_tac.
Qed.

Lemma delete_noins : forall mm s key cb now s' st evs,
  deleteop c mm s key cb now = Ok (s', st, evs) -> noins evs.
Proof.
  intros mm s key cb now s' st evs H. unfold deleteop in H.
  destruct (map_delete _ _ _ _ _) as [[m1 [e|]]|]; [|injection H as <- <- <-; noins_tac|discriminate].
  destruct (negb _).
  - destruct (tryshrink _ _ _ _); [|discriminate]. injection H as <- <- <-. noins_tac.
  - destruct cb as [f|]; [destruct (f _)|]; cbn [negb] in H.
    + destruct (tryshrink _ _ _ _); [|discriminate]. injection H as <- <- <-. noins_tac.
    + destruct (map_insert _ _ _ _ _ _ _) as [| |[m2 [x|]]]; try discriminate.
      injection H as <- <- <-. noins_tac.
    + destruct (tryshrink _ _ _ _); [|discriminate]. injection H as <- <- <-. noins_tac.
Qed.

Lemma put_back_evs : forall mm s m key e old st evs s' st' evs',
  put_back c mm s m key e old st evs = Ok (s', st', evs') ->
  evs' = evs ++ [EvFree (e_id e)].
Proof.
  intros mm s m key e old st evs s' st' evs' H. unfold put_back in H.
  destruct (map_insert _ _ _ _ _ _ _) as [| |[m2 [x|]]]; try discriminate.
  destruct (_ =? _); [|discriminate]. injection H as <- <- <-. reflexivity.
Qed.

Lemma auto_evict_noins : forall m h now m' evs, auto_evict c m h now = Ok (m', evs) -> noins evs.
Proof.
  intros m h now m' evs H. unfold auto_evict in H.
  assert (E : forall e k, evict_entry c m e k = Ok (m', evs) -> k <> N_INSERTED -> noins evs).
  { intros e k He Hk. unfold evict_entry in He.
    destruct (map_delete _ _ _ _ _) as [[m1 [d|]]|]; try discriminate.
    destruct (_ =? _); [|discriminate]. injection He as <- <-.
    intros k' n o Hin. destruct Hin as [X|[X|[]]]; [injection X as <- _ _; assumption|discriminate]. }
  destruct (evict_search _ _ _ _ _ _) as [e|[|a [|b l]]].
  - eapply E; [eassumption|discriminate].
  - injection H as <- <-. noins_tac.
  - eapply E; [eassumption|discriminate].
  - eapply E; [eassumption|discriminate].
Qed.

(** A store inserts at most once, at its end. *)
Lemma store_ins : forall mm s key val o now s' st evs,
  storeop c mm s key val o now = Ok (s', st, evs) ->
  noins evs \/ exists pre e, noins pre /\ evs = pre ++ [EvNotify N_INSERTED (Some e) None].
Proof.
  intros mm s key val o now s' st evs H. unfold storeop in H.
  destruct (store_expires _ _ _ _ _) as [x|]; [|discriminate].
  destruct (negb _); [discriminate|].
  destruct (so_lowmem o && c_noevict c).
  { left. injection H as <- <- <-. noins_tac. }
  destruct (map_insert _ _ _ _ _ _ _) as [| |[m1 old0]]; [discriminate| |].
  { left. injection H as <- <- <-. noins_tac. }
  destruct old0 as [old|]; [destruct (negb (entry_alive old now)) eqn:Al|].
  2:{ left. destruct (if so_casop o then _ else _).
      { apply put_back_evs in H. subst evs. noins_tac. }
      destruct (match so_entry o with None => false | Some f => _ end).
      { apply put_back_evs in H. subst evs. destruct (so_entry o); noins_tac. }
      injection H as <- <- <-. destruct (so_entry o); noins_tac. }
  all: destruct (so_xx o || so_casop o);
    [left; destruct (map_delete _ _ _ _ _) as [[m2 [d|]]|]; try discriminate;
     destruct (_ =? _); [|discriminate]; injection H as <- <- <-; noins_tac|];
    right;
    destruct (so_lowmem o && _);
    [destruct (auto_evict _ _ _ _) as [[m2 ev2]|] eqn:Ea; [|discriminate];
     apply (f_equal (fun x => match x with Ok (_, _, e) => e | _ => evs end)) in H;
     cbn beta iota in H; subst evs;
     apply auto_evict_noins in Ea; rewrite app_assoc; eexists _, _; split; [|reflexivity];
     apply noins_app; [noins_tac|assumption]
    |apply (f_equal (fun x => match x with Ok (_, _, e) => e | _ => evs end)) in H;
     cbn beta iota in H; subst evs; eexists _, _; split; [|reflexivity]; noins_tac].
Qed.

Lemma scan_noins : forall S (judge : S -> entry -> S * list event * verdict),
  (forall st e st1 ev1 v, judge st e = (st1, ev1, v) ->
     noins ev1 /\ vd_del v <> Some N_INSERTED) ->
  forall fuel st m i evs st' m' j evs', noins evs ->
  scan judge fuel st m i evs = Ok (st', m', j, evs') -> noins evs'.
Proof.
  intros S judge J. induction fuel as [|f IH]; intros st m i evs st' m' j evs' N H;
    cbn [scan] in H; [discriminate|].
  destruct (m_nb m <=? i)%nat; [injection H as <- <- <- <-; assumption|].
  destruct (nth i (m_buckets m) None) as [b|]; [|eapply IH; eassumption].
  destruct (judge st (b_ent b)) as [[st1 ev1] v] eqn:Ej. destruct (J _ _ _ _ _ Ej) as [J1 J2].
  destruct (vd_del v) as [k|].
  - destruct (delbkt m i) as [m1|]; [|discriminate].
    assert (N2 : noins (evs ++ ev1 ++ [EvNotify k None (Some (b_ent b)); EvFree (e_id (b_ent b))])).
    { apply noins_app; [assumption|]. apply noins_app; [assumption|].
      intros k' n o Hin. destruct Hin as [X|[X|[]]]; [injection X as <- _ _; congruence|discriminate]. }
    destruct (vd_stop v); [injection H as <- <- <- <-; assumption|]. eapply IH; eassumption.
  - assert (N2 : noins (evs ++ ev1)) by (apply noins_app; assumption).
    destruct (vd_stop v); [injection H as <- <- <- <-; assumption|]. eapply IH; eassumption.
Qed.

Lemma iter_noins : forall S mm s (cb : option (S -> bytes -> view -> S * iter_action)) st now s' st' z evs,
  iterop c mm s cb st now = Ok (s', st', z, evs) -> noins evs.
Proof.
  intros S mm s cb st now s' st' z evs H. unfold iterop in H.
  destruct (scan _ _ _ _ _ _) as [[[[st1 m] j] ev]|] eqn:E; [|discriminate].
  destruct (tryshrink _ _ _ _); [|discriminate]. injection H as <- <- <- <-.
  refine (scan_noins _ _ _ _ _ _ _ _ _ _ _ _ noins_nil E).
  intros st0 e st2 ev1 v J. unfold iter_judge in J. destruct (negb _).
  - injection J as <- <- <-. split; [apply noins_nil|discriminate].
  - destruct cb as [f|].
    + destruct (f _ _ _) as [q [d p]]. injection J as <- <- <-. cbn [vd_del].
      split; [noins_tac|]. destruct d; discriminate.
    + injection J as <- <- <-. split; [apply noins_nil|discriminate].
Qed.

Lemma sweep_noins : forall mm s now s' p evs,
  sweepop c mm s now = Ok (s', p, evs) -> noins evs.
Proof.
  intros mm s now s' p evs H. unfold sweepop in H.
  destruct (scan _ _ _ _ _ _) as [[[[st1 m] j] ev]|] eqn:E; [|discriminate].
  destruct (tryshrink _ _ _ _); [|discriminate]. injection H as <- <- <-.
  refine (scan_noins _ _ _ _ _ _ _ _ _ _ _ _ noins_nil E).
  intros [a b] e st2 ev1 v J. unfold sweep_judge in J.
  destruct (entry_alive_exp _ _); injection J as <- <- <-; (split; [apply noins_nil|discriminate]).
Qed.

Lemma entryiter_noins : forall s now i s' r j evs,
  entryiter s now i = Ok (s', r, j, evs) -> noins evs.
Proof.
  intros s now i s' r j evs H. unfold entryiter in H.
  destruct (_ =? 0)%nat; [injection H as <- <- <- <-; apply noins_nil|].
  destruct (scan _ _ _ _ _ _) as [[[[st1 m] j'] ev]|] eqn:E; [|discriminate].
  assert (N : noins ev).
  { refine (scan_noins _ _ _ _ _ _ _ _ _ _ _ _ noins_nil E).
    intros st e st2 ev1 v J. unfold entryiter_judge in J.
    destruct (negb _); injection J as <- <- <-; (split; [noins_tac|discriminate]). }
  destruct j'; injection H as <- <- <- <-; assumption.
Qed.

Lemma clear_noins : forall mm s now d s' evs, clearop c mm s now d = Ok (s', evs) -> noins evs.
Proof.
  intros mm s now d s' evs H. unfold clearop in H. destruct (negb _); [discriminate|].
  injection H as <- <-. intros k n o Hin. unfold clear_events in Hin.
  assert (Q : forall e, (if entry_alive e now then N_CLEARED else N_EXPIRED) <> N_INSERTED)
    by (intro e; destruct (entry_alive e now); discriminate).
  destruct d.
  - apply in_app_or in Hin. destruct Hin as [Hin|Hin]; apply in_map_iff in Hin.
    + destruct Hin as (e & E & _). injection E as <- _ _. apply Q.
    + destruct Hin as (e & E & _). discriminate.
  - apply in_flat_map in Hin. destruct Hin as (e & _ & [E|[E|[]]]); [|discriminate].
    injection E as <- _ _. apply Q.
Qed.
End Ins.
(** *** The cache as an abstract map *)
Section R.
Variable c : ctx.
Hypothesis load_ok : 55 <= c_load c <= 95.
Notation route := (route c).
Notation sinv := (sinv c).
Notation sabs := (sabs c).
Notation svw := (svw c).
Notation ekey := (ekey c).

Definition placed (n : N) (s : shard) : shard := mkShard (s_cas s) (s_map s) n.
Definition cabs (ch : cache) : amap := fun k =>
  match nth_error (ca_shards ch) (route k) with Some s => sabs s k | None => None end.
Definition cvw (ch : cache) : vmap := fun k =>
  match nth_error (ca_shards ch) (route k) with Some s => svw s k | None => None end.
Definition ccas (ch : cache) : nat -> N := fun i =>
  match nth_error (ca_shards ch) i with Some s => s_cas s | None => 0 end.
Definition world_of (ch : cache) : world := mkWorld (cabs ch) (ccas ch).
(** the addresses of all entries in the tables *)
Definition cids (ch : cache) : list N := flat_map (fun s => ids (sents s)) (ca_shards ch).

Record cinv (ch : cache) : Prop := {
  ci_pos : 0 < c_nshards c;
  ci_len : length (ca_shards ch) = N.to_nat (c_nshards c);
  ci_shard : forall i s, nth_error (ca_shards ch) i = Some s -> sinv (placed (ca_next ch) s);
  ci_route : forall i s k, nth_error (ca_shards ch) i = Some s -> sabs s k <> None -> route k = i
}.

(** What a call leaves behind: a good cache, a sound use of memory with the
    references [R] handed out, and an accurate notification stream. *)
Record cgood (ch : cache) (evs : list event) (R : list N) (ch' : cache) : Prop := {
  cg_inv : cinv ch';
  cg_next : ca_next ch <= ca_next ch';
  cg_heap : forall held, Forall (fun i => i < ca_next ch) held ->
      heap_ok (cids ch ++ held) evs (cids ch' ++ held ++ R);
  cg_handed : Forall (fun i => i < ca_next ch') R;
  cg_mirror : mirrored (cvw ch) (notes c evs) (cvw ch')
}.

Lemma route_lt : forall ch k, cinv ch -> (route k < length (ca_shards ch))%nat.
Proof.
  intros ch k I. rewrite (ci_len ch I). unfold Cache.route, shard_index.
  pose proof (ci_pos ch I). pose proof (N.mod_lt (N.shiftr (th64 k (c_seed c)) 32) (c_nshards c)). lia.
Qed.

Lemma placed_eq : forall n s, sents (placed n s) = sents s.
Proof. reflexivity. Qed.

Lemma shard_at : forall ch i, cinv ch -> (i < N.to_nat (c_nshards c))%nat ->
  exists s, nth_error (ca_shards ch) i = Some s.
Proof.
  intros ch i I H. rewrite <- (ci_len ch I) in H. apply nth_error_Some in H.
  destruct (nth_error (ca_shards ch) i); [eauto|congruence].
Qed.

Lemma svw_sabs : forall s k, svw s k = None <-> sabs s k = None.
Proof.
  intros s k. unfold ShardProofs.svw, ShardProofs.sabs. destruct (lk _ _ _); cbn; split; congruence.
Qed.

Lemma ids_below : forall ch, cinv ch -> Forall (fun i => i < ca_next ch) (cids ch).
Proof.
  intros ch I. unfold cids. apply Forall_forall. intros x Hx. apply in_flat_map in Hx.
  destruct Hx as (s & Hs & Hx). apply In_nth_error in Hs. destruct Hs as (i & Hi).
  pose proof (si_next _ _ (ci_shard ch I i s Hi)) as F. rewrite placed_eq in F. cbn in F.
  rewrite Forall_forall in F. apply F. assumption.
Qed.

(** Executing an operation on one shard. *)
Lemma on_shard_ok : forall A (f : shard -> out (shard * A * list event)) ch i s s' a evs R,
  cinv ch -> nth_error (ca_shards ch) i = Some s ->
  f (placed (ca_next ch) s) = Ok (s', a, evs) ->
  sinv s' -> ca_next ch <= s_next s' ->
  (forall held, Forall (fun i => i < ca_next ch) held ->
     heap_ok (ids (sents s) ++ held) evs (ids (sents s') ++ held ++ R)) ->
  Forall (fun i => i < s_next s') R ->
  mirrored (svw s) (notes c evs) (svw s') ->
  (forall k w o, In (N_INSERTED, Some (k, w), o) (notes c evs) -> route k = i) ->
  (forall k, sabs s' k <> None -> route k = i) ->
  exists ch', on_shard ch i f = Ok (ch', a, evs) /\ cgood ch evs R ch' /\
    (forall k, cabs ch' k = if (route k =? i)%nat then sabs s' k else cabs ch k) /\
    (forall j, ccas ch' j = if (j =? i)%nat then s_cas s' else ccas ch j) /\
    ca_shards ch' = upd (ca_shards ch) i s'.
Proof.
  intros A f ch i s s' a evs R I Hi Hf Is' Hn Hh HR Hm Hin Hk.
  assert (Hlt : (i < length (ca_shards ch))%nat) by (apply nth_error_Some; congruence).
  unfold on_shard. rewrite Hi. change (mkShard (s_cas s) (s_map s) (ca_next ch)) with (placed (ca_next ch) s).
  rewrite Hf. set (ch' := mkCache (s_next s') (upd (ca_shards ch) i s')).
  assert (Nth : forall j, nth_error (ca_shards ch') j = if (j =? i)%nat then Some s' else nth_error (ca_shards ch) j).
  { intro j. apply nth_error_upd. assumption. }
  assert (Cv : forall k, cvw ch' k = if (route k =? i)%nat then svw s' k else cvw ch k).
  { intro k. unfold cvw. rewrite Nth. destruct (route k =? i)%nat; reflexivity. }
  assert (I' : cinv ch').
  { constructor.
    - apply (ci_pos ch I).
    - cbn. rewrite upd_length. apply (ci_len ch I).
    - intros j t Hj. rewrite Nth in Hj. destruct (j =? i)%nat.
      + injection Hj as <-. destruct Is'. constructor; assumption.
      + pose proof (ci_shard ch I j t Hj) as T. destruct T as [T1 T2 T3 T4]. constructor; try assumption.
        change (Forall (fun x => x < s_next s') (ids (sents t))).
        change (Forall (fun x => x < ca_next ch) (ids (sents t))) in T3.
        eapply Forall_impl; [|exact T3]. cbn. intros; lia.
    - intros j t k Hj Hne. rewrite Nth in Hj. destruct (Nat.eqb_spec j i) as [->|].
      + injection Hj as <-. apply Hk. assumption.
      + apply (ci_route ch I j t k Hj Hne). }
  exists ch'. split; [reflexivity|]. split; [|split; [|split]].
  - constructor.
    + exact I'.
    + exact Hn.
    + intros held Hheld.
      destruct (nth_error_split _ _ Hi) as (l1 & l2 & El & Ei).
      pose proof (ids_below ch I) as Hb. unfold cids in *.
      assert (Eu : ca_shards ch' = l1 ++ s' :: l2).
      { unfold ch'. cbn [ca_shards]. rewrite El, <- Ei. apply upd_split. }
      rewrite Eu, El in *. rewrite !flat_map_app in *. cbn [flat_map] in *.
      set (o1 := flat_map (fun s => ids (sents s)) l1) in *.
      set (o2 := flat_map (fun s => ids (sents s)) l2) in *.
      rewrite !Forall_app in Hb. destruct Hb as (B1 & B2 & B3).
      specialize (Hh (o1 ++ o2 ++ held)).
      rewrite !Forall_app in Hh. specialize (Hh (conj B1 (conj B3 Hheld))).
      eapply heap_perm; [eapply heap_perm_r; [exact Hh|]|].
      * rewrite <- !app_assoc.
        rewrite (Permutation_app_swap_app (ids (sents s')) o1). reflexivity.
      * rewrite <- !app_assoc. rewrite (Permutation_app_swap_app o1 (ids (sents s))). reflexivity.
    + cbn. assumption.
    + eapply mirror_ext_r; [apply (mirror_lift _ _ _ Hm (cvw ch) (fun k => (route k =? i)%nat))|].
      * intros k E. apply Nat.eqb_eq in E. unfold cvw. rewrite E, Hi. reflexivity.
      * intros k Hne. apply Nat.eqb_eq. apply (ci_route ch I i s k Hi).
        rewrite <- svw_sabs. assumption.
      * intros k w o X. apply Nat.eqb_eq. eapply Hin. eassumption.
      * intro k. rewrite Cv. reflexivity.
  - intro k. unfold cabs. rewrite Nth. destruct (route k =? i)%nat; reflexivity.
  - intro j. unfold ccas. rewrite Nth. destruct (j =? i)%nat; reflexivity.
  - reflexivity.
Qed.

(** The common case: the operation is good, no references are handed out. *)
Lemma on_shard_good : forall A (f : shard -> out (shard * A * list event)) ch i s s' a evs,
  cinv ch -> nth_error (ca_shards ch) i = Some s ->
  f (placed (ca_next ch) s) = Ok (s', a, evs) -> good c (placed (ca_next ch) s) evs s' ->
  (forall k w o, In (N_INSERTED, Some (k, w), o) (notes c evs) -> route k = i) ->
  (forall k, sabs s' k <> None -> route k = i) ->
  exists ch', on_shard ch i f = Ok (ch', a, evs) /\ cgood ch evs [] ch' /\
    (forall k, cabs ch' k = if (route k =? i)%nat then sabs s' k else cabs ch k) /\
    (forall j, ccas ch' j = if (j =? i)%nat then s_cas s' else ccas ch j) /\
    ca_shards ch' = upd (ca_shards ch) i s'.
Proof.
  intros A f ch i s s' a evs I Hi Hf G Hin Hk. destruct G as [G1 G2 G3 G4].
  eapply on_shard_ok; try eassumption.
  - intros held Hh. rewrite app_nil_r. apply G3. assumption.
  - constructor.
Qed.

Lemma cgood_refl : forall ch, cinv ch -> cgood ch [] [] ch.
Proof.
  intros ch I. constructor.
  - assumption.
  - lia.
  - intros held _. rewrite app_nil_r. constructor. reflexivity.
  - constructor.
  - constructor. reflexivity.
Qed.

Lemma cgood_trans : forall ch e1 ch1 e2 R ch2,
  cgood ch e1 [] ch1 -> cgood ch1 e2 R ch2 -> cgood ch (e1 ++ e2) R ch2.
Proof.
  intros ch e1 ch1 e2 R ch2 [A1 A2 A3 A4 A5] [B1 B2 B3 B4 B5]. constructor.
  - assumption.
  - lia.
  - intros held Hh. eapply heap_app; [apply A3; assumption|]. rewrite app_nil_r. apply B3.
    eapply Forall_impl; [|exact Hh]. cbn. intros; lia.
  - assumption.
  - rewrite notes_app. eapply mirror_app; eassumption.
Qed.

Lemma noins_no : forall evs (P : bytes -> Prop), noins evs ->
  forall k w o, In (N_INSERTED, Some (k, w), o) (notes c evs) -> P k.
Proof. intros evs P N k w o H. exfalso. eapply noins_notes; eassumption. Qed.

(** The abstract map seen from one shard. *)
Lemma cabs_at : forall ch i s k, nth_error (ca_shards ch) i = Some s -> route k = i ->
  cabs ch k = sabs s k.
Proof. intros ch i s k Hi Hr. unfold cabs. rewrite Hr, Hi. reflexivity. Qed.

Lemma live_at : forall ch i s k now, nth_error (ca_shards ch) i = Some s -> route k = i ->
  live_item (cabs ch) k now = live_item (sabs s) k now.
Proof. intros. unfold live_item. erewrite cabs_at by eassumption. reflexivity. Qed.

(** *** Operations on one key *)
Lemma load_step : forall en ch key o time, cinv ch -> update_ok key (lo_entry o) ->
  exists ch' st evs, cache_load c en ch key o time = Ok (ch', st, evs) /\ cgood ch evs [] ch' /\
    spec_step (c_usecas c) (c_noevict c) route en (world_of ch) (Load key o time) (world_of ch')
      (RStatus st (shown evs)).
Proof.
  intros en ch key o time I U.
  destruct (shard_at ch (route key) I) as (s & Hs);
    [pose proof (route_lt ch key I); pose proof (ci_len ch I); lia|].
  destruct (load_ok_spec c load_ok (en_mem en (route key)) (placed (ca_next ch) s) key o
    (resolve_now time (en_clock en)) (ci_shard ch I _ _ Hs) U)
    as (s' & st & evs & E & G & m' & Sp & Ab).
  change (ShardProofs.sabs c (placed (ca_next ch) s)) with (sabs s) in Sp.
  change (s_cas (placed (ca_next ch) s)) with (s_cas s) in Sp.
  assert (Fr : forall k, beq key k = false -> sabs s' k = sabs s k).
  { intros k B. rewrite Ab. unfold sp_load in Sp.
    repeat match type of Sp with context [match ?x with _ => _ end] => destruct x end;
      injection Sp as <- _ _ _; unfold aset; rewrite B; reflexivity. }
  destruct (on_shard_good _ (fun s => loadop c (en_mem en (route key)) s key o (resolve_now time (en_clock en)))
    ch (route key) s s' st evs I Hs E G) as (ch' & E1 & G1 & Ac & Cc & _).
  - apply noins_no. eapply load_noins. eassumption.
  - intros k Hk. destruct (beq key k) eqn:B; [apply beq_eq in B; congruence|].
    rewrite Fr in Hk by assumption. apply (ci_route ch I _ s k Hs Hk).
  - exists ch', st, evs. split; [exact E1|]. split; [exact G1|].
    assert (Hl : live_item (cabs ch) key (resolve_now time (en_clock en))
                 = live_item (sabs s) key (resolve_now time (en_clock en)))
      by (eapply live_at; [exact Hs|reflexivity]).
    destruct (sp_load (c_usecas c) (al_entry (en_mem en (route key))) (cabs ch) (s_cas s) key o
       (resolve_now time (en_clock en))) as [[[m2 cas2] st2] sh2] eqn:E2.
    assert (Q : cas2 = s_cas s' /\ st2 = st /\ sh2 = shown evs /\
      forall k, m2 k = if beq key k then m' k else cabs ch k).
    { unfold sp_load in Sp, E2. rewrite Hl in E2.
      repeat match type of Sp with context [match ?x with _ => _ end] => destruct x eqn:? end;
        injection Sp as <- <- <- <-; injection E2 as <- <- <- <-;
        repeat split; intro k; unfold aset; destruct (beq key k); reflexivity. }
    destruct Q as (-> & -> & -> & Q).
    econstructor.
    + cbn [world_of w_map w_cas].
      replace (ccas ch (route key)) with (s_cas s) by (unfold ccas; rewrite Hs; reflexivity). exact E2.
    + intro k. cbn [world_of w_map]. rewrite Ac, Q, Ab.
      destruct (beq key k) eqn:B.
      * apply beq_eq in B. subst k. rewrite Nat.eqb_refl. reflexivity.
      * destruct (Nat.eqb_spec (route k) (route key)) as [Er|]; [|reflexivity].
        rewrite <- Ab, Fr by assumption. symmetry. apply cabs_at with (i := route key); assumption.
    + intro i. cbn [world_of w_cas]. rewrite Cc. destruct (i =? route key)%nat; reflexivity.
Qed.

Lemma delete_step : forall en ch key cb time, cinv ch ->
  exists ch' st evs, cache_delete c en ch key cb time = Ok (ch', st, evs) /\ cgood ch evs [] ch' /\
    spec_step (c_usecas c) (c_noevict c) route en (world_of ch) (Delete key cb time) (world_of ch')
      (RStatus st (shown evs)).
Proof.
  intros en ch key o time I.
  destruct (shard_at ch (route key) I) as (s & Hs);
    [pose proof (route_lt ch key I); pose proof (ci_len ch I); lia|].
  destruct (delete_ok_spec c load_ok (en_mem en (route key)) (placed (ca_next ch) s) key o
    (resolve_now time (en_clock en)) (ci_shard ch I _ _ Hs))
    as (s' & st & evs & E & G & Hc & m' & Sp & Ab).
  change (ShardProofs.sabs c (placed (ca_next ch) s)) with (sabs s) in Sp.
  change (s_cas (placed (ca_next ch) s)) with (s_cas s) in Hc.
  assert (Fr : forall k, beq key k = false -> sabs s' k = sabs s k).
  { intros k B. rewrite Ab. unfold sp_delete in Sp.
    repeat match type of Sp with context [match ?x with _ => _ end] => destruct x end;
      injection Sp as <- _ _; unfold aset; rewrite ?B; reflexivity. }
  destruct (on_shard_good _ (fun s => deleteop c (en_mem en (route key)) s key o (resolve_now time (en_clock en)))
    ch (route key) s s' st evs I Hs E G) as (ch' & E1 & G1 & Ac & Cc & _).
  - apply noins_no. eapply delete_noins. eassumption.
  - intros k Hk. destruct (beq key k) eqn:B; [apply beq_eq in B; congruence|].
    rewrite Fr in Hk by assumption. apply (ci_route ch I _ s k Hs Hk).
  - exists ch', st, evs. split; [exact E1|]. split; [exact G1|].
    assert (Hl : live_item (cabs ch) key (resolve_now time (en_clock en))
                 = live_item (sabs s) key (resolve_now time (en_clock en)))
      by (eapply live_at; [exact Hs|reflexivity]).
    assert (Hck : cabs ch key = sabs s key) by (eapply cabs_at; [exact Hs|reflexivity]).
    destruct (sp_delete (cabs ch) key o (resolve_now time (en_clock en))) as [[m2 st2] sh2] eqn:E2.
    assert (Q : st2 = st /\ sh2 = shown evs /\
      forall k, m2 k = if beq key k then m' k else cabs ch k).
    { unfold sp_delete in Sp, E2. rewrite Hl in E2.
      repeat match type of Sp with context [match ?x with _ => _ end] => destruct x eqn:? end;
        injection Sp as <- <- <-; injection E2 as <- <- <-;
        repeat split; intro k; unfold aset; destruct (beq key k) eqn:B; try reflexivity.
      apply beq_eq in B. subst k. assumption. }
    destruct Q as (-> & -> & Q).
    econstructor.
    + exact E2.
    + intro k. cbn [world_of w_map]. rewrite Ac, Q, Ab.
      destruct (beq key k) eqn:B.
      * apply beq_eq in B. subst k. rewrite Nat.eqb_refl. reflexivity.
      * destruct (Nat.eqb_spec (route k) (route key)) as [Er|]; [|reflexivity].
        rewrite <- Ab, Fr by assumption. symmetry. apply cabs_at with (i := route key); assumption.
    + intro i. cbn [world_of w_cas]. rewrite Cc. destruct (Nat.eqb_spec i (route key)) as [->|]; [|reflexivity].
      unfold ccas. rewrite Hs. assumption.
Qed.

(** The keys of a shard are not too crowded to take one more: of the hashes
    (24 bits, taken modulo the table size) of the keys present and of [key], at
    most [L + 253] fall into any [L] consecutive buckets, for every table size.
    Always so when the shard holds at most 253 keys. *)
Definition roomy (m : amap) (key : bytes) : Prop :=
  forall ks, NoDup ks -> (forall k, In k ks -> route k = route key /\ m k <> None) ->
    crowd_ok (hk (hash32 c) key :: List.map (hk (hash32 c)) ks).

Lemma roomy_small : forall m key,
  (forall ks, NoDup ks -> (forall k, In k ks -> route k = route key /\ m k <> None) ->
     (length ks <= 253)%nat) -> roomy m key.
Proof.
  intros m key H ks N P. apply crowd_small. cbn [length]. rewrite map_length.
  specialize (H ks N P). lia.
Qed.

Lemma store_step : forall en ch key val o time, cinv ch ->
  store_ok key val o (resolve_now time (en_clock en)) ->
  al_entry (en_mem en (route key)) = true -> roomy (cabs ch) key ->
  exists ch' st evs, cache_store c en ch key val o time = Ok (ch', st, evs) /\ cgood ch evs [] ch' /\
    spec_step (c_usecas c) (c_noevict c) route en (world_of ch) (Store key val o time) (world_of ch')
      (RStatus st (shown evs)).
Proof.
  intros en ch key val o time I K Al Ro.
  destruct (shard_at ch (route key) I) as (s & Hs);
    [pose proof (route_lt ch key I); pose proof (ci_len ch I); lia|].
  pose proof (ci_shard ch I _ _ Hs) as Is.
  assert (Cr : crowd_ok (hk (hash32 c) key :: hashes (s_map (placed (ca_next ch) s)))).
  { assert (P : Permutation (hashes (s_map s)) (List.map (hk (hash32 c)) (List.map ekey (sents s)))).
    { apply (crowd_keys c (s_map s)); [apply Is|reflexivity]. }
    eapply crowd_perm; [apply perm_skip; symmetry; exact P|].
    apply Ro.
    - exact (nodup_keys c _ Is).
    - intros k Hk. assert (Hne : sabs s k <> None).
      { intro X. unfold ShardProofs.sabs in X. destruct (lk ekey (sents s) k) eqn:L; [discriminate|].
        apply lk_none in L. contradiction. }
      pose proof (ci_route ch I _ _ _ Hs Hne) as Hr. split; [assumption|].
      rewrite (cabs_at ch (route key) s k Hs Hr). assumption. }
  destruct (store_ok_spec c load_ok (en_mem en (route key)) (placed (ca_next ch) s) key val o
    (resolve_now time (en_clock en)) Is K Al Cr)
    as (s' & st & evs & E & G & m' & Sp & Ab).
  change (ShardProofs.sabs c (placed (ca_next ch) s)) with (sabs s) in Sp.
  change (s_cas (placed (ca_next ch) s)) with (s_cas s) in Sp.
  set (now := resolve_now time (en_clock en)) in *.
  assert (Hl : live_item (cabs ch) key now = live_item (sabs s) key now)
    by (eapply live_at; [exact Hs|reflexivity]).
  assert (Hck : cabs ch key = sabs s key) by (eapply cabs_at; [exact Hs|reflexivity]).
  (* the plain store on the whole map *)
  assert (Pl : forall m1 cas1 st1 sh1, sp_store (c_usecas c) (sabs s) (s_cas s) key val o now = (m1, cas1, st1, sh1) ->
    (forall k, beq key k = false -> m1 k = sabs s k) /\
    exists m2, sp_store (c_usecas c) (cabs ch) (s_cas s) key val o now = (m2, cas1, st1, sh1) /\
      forall k, m2 k = if beq key k then m1 k else cabs ch k).
  { intros m1 cas1 st1 sh1 X. unfold sp_store, sp_expires in *. rewrite Hl.
    repeat match type of X with context [match ?x with _ => _ end] => destruct x eqn:? end;
      injection X as <- <- <- <-;
      (split; [intros k B; unfold aset; rewrite ?B; reflexivity|]);
      (eexists; split; [reflexivity|]); intro k; unfold aset; destruct (beq key k) eqn:B; try reflexivity;
      apply beq_eq in B; subst k; assumption. }
  assert (Fr : forall k, beq key k = false -> sabs s' k = sabs s k \/ sabs s' k = None).
  { intros k B. rewrite Ab. inversion Sp; subst.
    - left. destruct (Pl _ _ _ _ H) as [F _]. auto.
    - unfold aset. destruct (beq victim k); [right; reflexivity|left].
      destruct (Pl _ _ _ _ H) as [F _]. auto.
    - left. reflexivity.
    - left. reflexivity. }
  assert (Rt : forall k, sabs s' k <> None -> route k = route key).
  { intros k Hk. destruct (beq key k) eqn:B; [apply beq_eq in B; congruence|].
    destruct (Fr k B) as [X|X]; rewrite X in Hk; [|congruence]. apply (ci_route ch I _ s k Hs Hk). }
  destruct (on_shard_good _ (fun s => storeop c (en_mem en (route key)) s key val o now)
    ch (route key) s s' st evs I Hs E G) as (ch' & E1 & G1 & Ac & Cc & _).
  - intros k w x Hin. destruct (store_ins _ _ _ _ _ _ _ _ _ _ E) as [N|(pre & e & N & ->)].
    + exfalso. eapply noins_notes; eassumption.
    + rewrite notes_app in Hin. apply in_app_or in Hin. destruct Hin as [Hin|Hin].
      * exfalso. eapply noins_notes; eassumption.
      * cbn in Hin. destruct Hin as [X|[]]. injection X as Xk _ _. apply Rt. intro Z.
        pose proof (gd_mirror _ _ _ _ G) as M. rewrite notes_app in M.
        apply mirror_split in M. destruct M as (M1 & _ & M2). cbn in M2.
        inversion M2; subst.
        match goal with Hm : mirrored _ [] _ |- _ => inversion Hm as [? ? Q| | |]; subst end.
        specialize (Q (ekey e)). unfold vset in Q. rewrite beq_refl in Q.
        apply (proj2 (svw_sabs s' (ekey e))) in Z. congruence.
  - exact Rt.
  - exists ch', st, evs. split; [exact E1|]. split; [exact G1|].
    assert (Wc : ccas ch (route key) = s_cas s) by (unfold ccas; rewrite Hs; reflexivity).
    assert (Mk : forall m2, (forall k, m2 k = if (route k =? route key)%nat then m' k else cabs ch k) ->
      forall k, cabs ch' k = m2 k).
    { intros m2 Q k. rewrite Ac, Q. destruct (route k =? route key)%nat; auto. }
    assert (Cc' : forall i, ccas ch' i = if (i =? route key)%nat then s_cas s' else ccas ch i).
    { intro i. apply Cc. }
    assert (Nr : forall m1 m2, (forall k, beq key k = false -> m1 k = sabs s k) ->
       (forall k, m2 k = if beq key k then m1 k else cabs ch k) ->
       forall k, m2 k = if (route k =? route key)%nat then m1 k else cabs ch k).
    { intros m1 m2 F Q k. rewrite Q. destruct (beq key k) eqn:B.
      - apply beq_eq in B. subst k. rewrite Nat.eqb_refl. reflexivity.
      - destruct (Nat.eqb_spec (route k) (route key)) as [Er|]; [|reflexivity].
        rewrite F by assumption. apply cabs_at with (i := route key); assumption. }
    inversion Sp; subst.
    + destruct (Pl _ _ _ _ H) as (F & m2 & E2 & Q).
      econstructor; [apply sps_normal; [cbn [world_of w_map w_cas]; rewrite Wc; exact E2|assumption]| |exact Cc'].
      cbn [world_of w_map]. apply Mk. apply Nr; assumption.
    + destruct (Pl _ _ _ _ H) as (F & m2 & E2 & Q).
      assert (Hv : sabs s victim <> None) by assumption.
      pose proof (ci_route ch I _ _ _ Hs Hv) as Hvr.
      econstructor; [eapply sps_evict with (victim := victim)| |exact Cc'].
      * cbn [world_of w_map w_cas]. rewrite Wc. exact E2.
      * assumption.
      * assumption.
      * cbn [world_of w_map]. rewrite Hck. assumption.
      * assumption.
      * assumption.
      * cbn [world_of w_map]. rewrite (cabs_at ch _ s victim Hs Hvr). assumption.
      * cbn [world_of w_map]. apply Mk. intro k. unfold aset. destruct (beq victim k) eqn:Bv.
        -- apply beq_eq in Bv. subst k. rewrite Hvr, Nat.eqb_refl. reflexivity.
        -- apply Nr; assumption.
    + econstructor; [cbn [world_of w_map w_cas]; rewrite Wc; apply sps_noevict; assumption| |].
      * cbn [world_of w_map]. apply Mk. intro k.
        destruct (Nat.eqb_spec (route k) (route key)) as [Er|]; [|reflexivity].
        apply cabs_at with (i := route key); assumption.
      * cbn [world_of w_cas]. intro i. rewrite Cc'. destruct (i =? _)%nat; congruence.
    + econstructor; [cbn [world_of w_map w_cas]; rewrite Wc; apply sps_nomem; assumption| |].
      * cbn [world_of w_map]. apply Mk. intro k.
        destruct (Nat.eqb_spec (route k) (route key)) as [Er|]; [|reflexivity].
        apply cabs_at with (i := route key); assumption.
      * cbn [world_of w_cas]. intro i. rewrite Cc'. destruct (i =? _)%nat; congruence.
Qed.

(** *** Operations on several shards *)
Lemma number_unique : forall P n m, number P n -> number P m -> n = m.
Proof.
  intros P n m (a & Na & Pa & La) (b & Nb & Pb & Lb).
  assert (Permutation a b) as X.
  { apply NoDup_Permutation; try assumption. intro k. rewrite Pa, Pb. reflexivity. }
  apply Permutation_length in X. lia.
Qed.
Lemma number_ext : forall (P Q : bytes -> Prop) n, (forall k, P k <-> Q k) -> number P n -> number Q n.
Proof.
  intros P Q n E (a & Na & Pa & La). exists a. split; [assumption|]. split; [|assumption].
  intro k. rewrite Pa. apply E.
Qed.
Lemma number_or : forall (P Q : bytes -> Prop) n m, number P n -> number Q m ->
  (forall k, P k -> Q k -> False) -> number (fun k => P k \/ Q k) (n + m).
Proof.
  intros P Q n m (a & Na & Pa & La) (b & Nb & Pb & Lb) D. exists (a ++ b). split; [|split].
  - apply NoDup_app_intro; try assumption. intros k Ha Hb. apply Pa in Ha. apply Pb in Hb. eauto.
  - intro k. rewrite in_app_iff, Pa, Pb. reflexivity.
  - rewrite app_length. lia.
Qed.
Lemma number_none : forall P : bytes -> Prop, (forall k, ~ P k) -> number P 0.
Proof.
  intros P H. exists []. split; [constructor|]. split; [|reflexivity].
  intro k. split; [intros []|]. intro X. exfalso. eapply H. eassumption.
Qed.
Lemma number_split : forall (P : bytes -> Prop) n (f : bytes -> bool), number P n ->
  exists a b, number (fun k => P k /\ f k = true) a /\ number (fun k => P k /\ f k = false) b /\ n = a + b.
Proof.
  intros P n f (l & Nl & Pl & Ll). exists (N.of_nat (length (filter f l))), (N.of_nat (length (filter (fun k => negb (f k)) l))).
  split; [|split].
  - exists (filter f l). split; [apply NoDup_filter; assumption|]. split; [|reflexivity].
    intro k. rewrite filter_In, Pl. reflexivity.
  - exists (filter (fun k => negb (f k)) l). split; [apply NoDup_filter; assumption|]. split; [|reflexivity].
    intro k. rewrite filter_In, Pl, negb_true_iff. reflexivity.
  - rewrite <- Ll. clear. induction l as [|x l IH]; cbn [filter length]; [reflexivity|].
    destruct (f x); cbn [negb length]; lia.
Qed.

Lemma number_count : forall s, sinv s -> number (fun k => sabs s k <> None) (countop s).
Proof.
  intros s I. exists (List.map ekey (sents s)). split; [exact (nodup_keys c s I)|]. split.
  - intro k. unfold ShardProofs.sabs. pose proof (lk_none ekey (sents s) k) as L.
    destruct (lk ekey (sents s) k) as [e|] eqn:E; cbn.
    + split; [discriminate|]. intros _. apply lk_some in E. destruct E as [E1 E2].
      apply in_map_iff. eauto.
    + split; [|congruence]. intro X. exfalso. apply (proj1 L eq_refl X).
  - rewrite map_length. unfold countop. f_equal. symmetry. apply (count_len c). apply I.
Qed.

Lemma in_chosen : forall ch one k, cinv ch -> (In (route k) (chosen c one) <-> sel route one k).
Proof.
  intros ch one k I. pose proof (route_lt ch k I) as H. rewrite (ci_len ch I) in H.
  unfold chosen, sel. destruct one as [z|].
  - destruct (((z <? 0) || (Z.of_N (c_nshards c) <=? z))%Z) eqn:E.
    + split; [intros []|]. intro X. lia.
    + cbn [In]. split; [intros [X|[]]; lia|]. intro X. left. lia.
  - split; [auto|]. intros _. apply in_seq. lia.
Qed.
Lemma chosen_nodup : forall one, NoDup (chosen c one).
Proof.
  intros [z|]; cbn [chosen]; [|apply seq_NoDup].
  destruct (_ || _); constructor; [intros []|constructor].
Qed.
Lemma chosen_lt : forall one, Forall (fun i => (i < N.to_nat (c_nshards c))%nat) (chosen c one).
Proof.
  intros [z|]; cbn [chosen].
  - destruct (((z <? 0) || (Z.of_N (c_nshards c) <=? z))%Z) eqn:E; constructor; [|constructor]. lia.
  - apply Forall_forall. intros i Hi. apply in_seq in Hi. lia.
Qed.

Lemma good_refl : forall s, sinv s -> good c s [] s.
Proof.
  intros s I. constructor.
  - assumption.
  - lia.
  - intros held _. constructor. reflexivity.
  - constructor. reflexivity.
Qed.

Lemma u64_add_l : forall x y, u64 (u64 x + y) = u64 (x + y).
Proof. intros. unfold u64. apply N.add_mod_idemp_l. discriminate. Qed.

(** count, total and size change nothing. *)
Lemma sum_step : forall (f : shard -> N), (forall n s, f (placed n s) = f s) ->
  forall is x ch, cinv ch -> NoDup is -> Forall (fun i => (i < N.to_nat (c_nshards c))%nat) is ->
  exists ch' n, each (add_body f) is (u64 x) ch = Ok (ch', u64 (x + n), []) /\ cgood ch [] [] ch' /\
    (forall k, cabs ch' k = cabs ch k) /\ (forall i, ccas ch' i = ccas ch i) /\
    (forall num, (forall i s, nth_error (ca_shards ch) i = Some s ->
         number (fun k => route k = i /\ num k) (f s)) ->
       number (fun k => In (route k) is /\ num k) n).
Proof.
  intros f Hf. induction is as [|i r IH]; intros x ch I Nd Fa.
  - exists ch, 0. cbn [each]. rewrite N.add_0_r. split; [reflexivity|]. split; [apply cgood_refl; assumption|].
    split; [reflexivity|]. split; [reflexivity|]. intros num _. apply number_none. intros k [[] _].
  - inversion Nd; subst. inversion Fa; subst. destruct (shard_at ch i I) as (s & Hs); [assumption|].
    destruct (on_shard_good _ (add_body f i (u64 x)) ch i s (placed (ca_next ch) s) (u64 (x + f s), false) [] I Hs)
      as (ch1 & E1 & G1 & A1 & C1 & S1).
    + unfold add_body. rewrite Hf, u64_add_l. reflexivity.
    + apply good_refl. apply (ci_shard ch I _ _ Hs).
    + intros k w o [].
    + intros k Hk. apply (ci_route ch I _ _ _ Hs Hk).
    + assert (A1' : forall k, cabs ch1 k = cabs ch k).
      { intro k. rewrite A1. destruct (Nat.eqb_spec (route k) i) as [E|]; [|reflexivity].
        exact (eq_sym (cabs_at ch i s k Hs E)). }
      assert (C1' : forall j, ccas ch1 j = ccas ch j).
      { intro j. rewrite C1. destruct (Nat.eqb_spec j i) as [->|]; [|reflexivity]. unfold ccas. rewrite Hs. reflexivity. }
      destruct (IH (x + f s) ch1 (cg_inv _ _ _ _ G1)) as (ch2 & n & E2 & G2 & A2 & C2 & N2); try assumption.
      exists ch2, (f s + n). cbn [each]. rewrite E1, E2. rewrite N.add_assoc. split; [reflexivity|].
      split; [change (@nil event) with (@nil event ++ []); eapply cgood_trans; eassumption|].
      split; [intro k; rewrite A2; apply A1'|]. split; [intro j; rewrite C2; apply C1'|].
      intros num Hn.
      apply number_ext with (P := fun k => (route k = i /\ num k) \/ (In (route k) r /\ num k)).
      { intro k. cbn [In]. intuition congruence. }
      apply number_or.
      * apply Hn. assumption.
      * apply N2. intros j t Hj. rewrite S1 in Hj. rewrite nth_error_upd in Hj by (apply nth_error_Some; congruence).
        destruct (Nat.eqb_spec j i) as [->|].
        -- injection Hj as <-. rewrite Hf. apply Hn. assumption.
        -- apply Hn. assumption.
      * intros k [-> _] [X _]. contradiction.
Qed.

Lemma sp_sweep_or : forall (d1 d2 : bytes -> Prop) m now m1 m2,
  (forall k, d1 k \/ ~ d1 k) -> (forall k, d2 k \/ ~ d2 k) ->
  sp_sweep d1 m now m1 -> sp_sweep d2 m1 now m2 -> sp_sweep (fun k => d1 k \/ d2 k) m now m2.
Proof.
  intros d1 d2 m now m1 m2 D1 D2 A B k.
  assert (Id : forall k, live_item (fun k => live_item m k now) k now = live_item m k now).
  { intro x. unfold live_item. destruct (m x) as [it|]; [|reflexivity].
    destruct (alive_at (i_exp it) now) eqn:E; [|reflexivity]. rewrite E. reflexivity. }
  destruct (A k) as [A1 A2], (B k) as [B1 B2].
  assert (L1 : m1 k = live_item m k now -> live_item m1 k now = live_item m k now).
  { intro X. unfold live_item at 1. rewrite X. apply Id. }
  assert (L2 : m1 k = m k -> live_item m1 k now = live_item m k now).
  { intro X. unfold live_item. rewrite X. reflexivity. }
  split.
  - intro H. destruct (D2 k) as [Y|Y].
    + rewrite B1 by assumption. destruct (D1 k) as [Z|Z]; auto.
    + rewrite B2 by assumption. apply A1. tauto.
  - intro H. rewrite B2, A2; tauto.
Qed.

Lemma in_dec_route : forall is k, In (route k) is \/ ~ In (route k) is.
Proof. intros is k. destruct (in_dec Nat.eq_dec (route k) is); auto. Qed.

Lemma sweep_each : forall en now is x y ch, cinv ch -> NoDup is ->
  Forall (fun i => (i < N.to_nat (c_nshards c))%nat) is ->
  exists ch' sw kp lv evs, each (sweep_body c en now) is (u64 x, u64 y) ch
      = Ok (ch', (u64 (x + sw), u64 (y + kp)), evs) /\ cgood ch evs [] ch' /\
    shown evs = [] /\ sp_sweep (fun k => In (route k) is) (cabs ch) now (cabs ch') /\
    (forall i, ccas ch' i = ccas ch i) /\
    number (fun k => In (route k) is /\ cabs ch k <> None /\ live_item (cabs ch) k now = None) sw /\
    number (fun k => In (route k) is /\ live_item (cabs ch) k now <> None) lv /\
    lv <= kp <= lv + sw.
Proof.
  intros en now. induction is as [|i r IH]; intros x y ch I Nd Fa.
  - exists ch, 0, 0, 0, []. cbn [each]. rewrite !N.add_0_r. split; [reflexivity|].
    split; [apply cgood_refl; assumption|]. split; [reflexivity|].
    split; [intro k; split; [intros []|reflexivity]|]. split; [reflexivity|].
    split; [apply number_none; intros k [[] _]|]. split; [apply number_none; intros k [[] _]|]. lia.
  - inversion Nd; subst. inversion Fa; subst. destruct (shard_at ch i I) as (s & Hs); [assumption|].
    pose proof (ci_shard ch I _ _ Hs) as Is.
    destruct (sweep_ok_spec c load_ok (en_mem en i) (placed (ca_next ch) s) now Is)
      as (s' & sw1 & kp1 & ev1 & E & G & Hc & Sh & Ab & Cn & Kb).
    change (ShardProofs.sabs c (placed (ca_next ch) s)) with (sabs s) in Ab.
    change (s_cas (placed (ca_next ch) s)) with (s_cas s) in Hc.
    destruct (on_shard_good _ (sweep_body c en now i (u64 x, u64 y)) ch i s s'
      ((u64 (x + sw1), u64 (y + kp1)), false) ev1 I Hs) as (ch1 & E1 & G1 & A1 & C1 & S1).
    + unfold sweep_body. rewrite E. cbn [fst snd]. rewrite !u64_add_l. reflexivity.
    + assumption.
    + apply noins_no. eapply sweep_noins. eassumption.
    + intros k Hk. rewrite Ab in Hk. apply (ci_route ch I _ _ k Hs). unfold live_item in Hk.
      destruct (sabs s k); congruence.
    + destruct (IH (x + sw1) (y + kp1) ch1 (cg_inv _ _ _ _ G1)) as
        (ch2 & sw2 & kp2 & lv2 & ev2 & E2 & G2 & Sh2 & Sp2 & C2 & Ns2 & Nl2 & B2); try assumption.
      assert (A1' : forall k, cabs ch1 k = if (route k =? i)%nat then live_item (cabs ch) k now else cabs ch k).
      { intro k. rewrite A1. destruct (Nat.eqb_spec (route k) i) as [Er|]; [|reflexivity].
        rewrite Ab. symmetry. apply live_at with (i := i); assumption. }
      (* the numbers of this shard *)
      assert (Nl1 : number (fun k => route k = i /\ live_item (cabs ch) k now <> None) (countop s')).
      { eapply number_ext; [|apply number_count; apply (gd_inv _ _ _ _ G)].
        intro k. cbn beta. rewrite Ab. split.
        - intro X. assert (Hr : route k = i).
          { apply (ci_route ch I _ _ k Hs). unfold live_item in X. destruct (sabs s k); congruence. }
          split; [assumption|]. rewrite (live_at ch i s k now Hs Hr). assumption.
        - intros [Hr X]. rewrite (live_at ch i s k now Hs Hr) in X. assumption. }
      assert (Ns1 : number (fun k => route k = i /\ cabs ch k <> None /\ live_item (cabs ch) k now = None) sw1).
      { pose proof (number_count _ Is) as Na.
        destruct (number_split _ _ (fun k => match live_item (cabs ch) k now with Some _ => true | None => false end) Na)
          as (a & b & Na1 & Nb1 & Eab).
        assert (a = countop s').
        { eapply number_unique; [|exact Nl1]. eapply number_ext; [|exact Na1]. intro k. cbn beta.
          change (ShardProofs.sabs c (placed (ca_next ch) s) k) with (sabs s k). split.
          - intros [X Y]. split; [apply (ci_route ch I _ _ k Hs X)|]. destruct (live_item _ k now); congruence.
          - intros [Hr X]. split.
            + rewrite (live_at ch i s k now Hs Hr) in X. unfold live_item in X. destruct (sabs s k); congruence.
            + destruct (live_item (cabs ch) k now); congruence. }
        replace sw1 with b by lia. eapply number_ext; [|exact Nb1]. intro k. cbn beta.
        change (ShardProofs.sabs c (placed (ca_next ch) s) k) with (sabs s k). split.
        - intros [X Y]. pose proof (ci_route ch I _ _ k Hs X) as Hr. split; [assumption|].
          rewrite (cabs_at ch i s k Hs Hr). split; [assumption|]. destruct (live_item _ k now); congruence.
        - intros (Hr & X & Y). rewrite (cabs_at ch i s k Hs Hr) in X. rewrite Y. auto. }
      exists ch2, (sw1 + sw2), (kp1 + kp2), (countop s' + lv2), (ev1 ++ ev2).
      cbn [each]. rewrite E1, E2. rewrite !N.add_assoc. split; [reflexivity|].
      split; [eapply cgood_trans; eassumption|].
      split; [rewrite shown_app, Sh, Sh2; reflexivity|].
      split; [|split; [|split; [|split; [|lia]]]].
      * assert (Sp1 : sp_sweep (fun k => route k = i) (cabs ch) now (cabs ch1)).
        { intro k. rewrite A1'. destruct (Nat.eqb_spec (route k) i); split; intros; tauto. }
        pose proof (sp_sweep_or (fun k => route k = i) (fun k => In (route k) r) _ _ _ _
           (fun k => match Nat.eq_dec (route k) i with left e => or_introl e | right e => or_intror e end)
           (in_dec_route r) Sp1 Sp2) as Q.
        intro k. destruct (Q k) as [Q1 Q2]. split; intro X; [apply Q1|apply Q2]; cbn [In] in X; intuition congruence.
      * intro j. rewrite C2, C1. destruct (Nat.eqb_spec j i) as [->|]; [|reflexivity].
        unfold ccas. rewrite Hs. assumption.
      * apply number_ext with (P := fun k =>
          (route k = i /\ cabs ch k <> None /\ live_item (cabs ch) k now = None) \/
          (In (route k) r /\ cabs ch k <> None /\ live_item (cabs ch) k now = None)).
        { intro k. cbn [In]. intuition congruence. }
        apply number_or; [assumption| |intros k [-> _] [X _]; contradiction].
        eapply number_ext; [|exact Ns2]. intro k. cbn beta.
        assert (forall k, In (route k) r -> cabs ch1 k = cabs ch k) as Q.
        { intros k0 X. rewrite A1'. destruct (Nat.eqb_spec (route k0) i) as [Er|]; [|reflexivity].
          exfalso. congruence. }
        split; intros (X & Y & Z); (split; [assumption|]); unfold live_item in *;
          rewrite Q in * by assumption; auto.
      * apply number_ext with (P := fun k =>
          (route k = i /\ live_item (cabs ch) k now <> None) \/
          (In (route k) r /\ live_item (cabs ch) k now <> None)).
        { intro k. cbn [In]. intuition congruence. }
        apply number_or; [assumption| |intros k [-> _] [X _]; contradiction].
        eapply number_ext; [|exact Nl2]. intro k. cbn beta.
        assert (forall k, In (route k) r -> cabs ch1 k = cabs ch k) as Q.
        { intros k0 X. rewrite A1'. destruct (Nat.eqb_spec (route k0) i) as [Er|]; [|reflexivity].
          exfalso. congruence. }
        split; intros (X & Y); (split; [assumption|]); unfold live_item in *;
          rewrite Q in * by assumption; auto.
Qed.

Lemma clear_each : forall en now df is ch, cinv ch -> NoDup is ->
  Forall (fun i => (i < N.to_nat (c_nshards c))%nat) is ->
  (forall i, In i is -> al_table (en_mem en i) = true) ->
  exists ch' evs, each (clear_body c en now df) is tt ch = Ok (ch', tt, evs) /\ cgood ch evs [] ch' /\
    shown evs = [] /\ sp_clear (fun k => In (route k) is) (cabs ch) (cabs ch') /\
    (forall i, ccas ch' i = ccas ch i).
Proof.
  intros en now df. induction is as [|i r IH]; intros ch I Nd Fa Al.
  - exists ch, []. cbn [each]. split; [reflexivity|]. split; [apply cgood_refl; assumption|].
    split; [reflexivity|]. split; [intro k; split; [intros []|reflexivity]|reflexivity].
  - inversion Nd; subst. inversion Fa; subst. destruct (shard_at ch i I) as (s & Hs); [assumption|].
    destruct (clear_ok_spec c load_ok (en_mem en i) (placed (ca_next ch) s) now df (ci_shard ch I _ _ Hs))
      as (s' & ev1 & E & G & Hc & Sh & Cn & Ab); [apply Al; left; reflexivity|].
    change (s_cas (placed (ca_next ch) s)) with (s_cas s) in Hc.
    destruct (on_shard_good _ (clear_body c en now df i tt) ch i s s' (tt, false) ev1 I Hs)
      as (ch1 & E1 & G1 & A1 & C1 & S1).
    + unfold clear_body. rewrite E. reflexivity.
    + assumption.
    + apply noins_no. eapply clear_noins. eassumption.
    + intros k Hk. rewrite Ab in Hk. congruence.
    + destruct (IH ch1 (cg_inv _ _ _ _ G1)) as (ch2 & ev2 & E2 & G2 & Sh2 & Sp2 & C2); try assumption.
      { intros j Hj. apply Al. right. assumption. }
      exists ch2, (ev1 ++ ev2). cbn [each]. rewrite E1, E2. split; [reflexivity|].
      split; [eapply cgood_trans; eassumption|]. split; [rewrite shown_app, Sh, Sh2; reflexivity|]. split.
      * intro k. destruct (Sp2 k) as [Q1 Q2]. rewrite A1 in Q2.
        destruct (in_dec_route r k) as [X|X].
        -- split; [auto|]. cbn [In]. tauto.
        -- rewrite (Q2 X). cbn [In]. destruct (Nat.eqb_spec (route k) i) as [->|].
           ++ split; [auto|]. tauto.
           ++ split; [|reflexivity]. intros [Y|Y]; [congruence|contradiction].
      * intro j. rewrite C2, C1. destruct (Nat.eqb_spec j i) as [->|]; [|reflexivity].
        unfold ccas. rewrite Hs. assumption.
Qed.

(** *** Iteration *)
Lemma iter_run_del : forall S (f : S -> bytes -> view -> S * iter_action) st sh st' del stop,
  iter_run f st sh st' del stop -> forall k, In k del -> exists w, In (k, w) sh.
Proof.
  intros S f st0 sh st' dl stop0 H. induction H; intros x Hx.
  - destruct Hx.
  - destruct del; [destruct Hx as [<-|[]]|destruct Hx]. exists w. left. reflexivity.
  - apply in_app_or in Hx. destruct Hx as [Hx|Hx].
    + destruct del; [destruct Hx as [<-|[]]|destruct Hx]. exists w. left. reflexivity.
    + destruct (IHiter_run _ Hx) as (w' & Hw). exists w'. right. assumption.
Qed.
Lemma iter_run_app : forall S (f : S -> bytes -> view -> S * iter_action) st a st1 d1 b st2 d2 stop,
  iter_run f st a st1 d1 false -> iter_run f st1 b st2 d2 stop ->
  iter_run f st (a ++ b) st2 (d1 ++ d2) stop.
Proof.
  intros S f st a st1 d1 b st2 d2 stop H. remember false as z eqn:Ez. revert Ez.
  induction H; intros Ez Hb; cbn [app].
  - assumption.
  - discriminate.
  - rewrite <- app_assoc. econstructor; [eassumption|]. apply IHiter_run; assumption.
Qed.

Lemma sp_iter_del : forall (d : bytes -> Prop) S (cb : option (S -> bytes -> view -> S * iter_action))
  m st now m' st' z sh del, sp_iter d cb m st now m' st' z sh del -> forall k, In k del -> d k.
Proof.
  intros d S cb m st now m' st' z sh del H k Hk. pose proof (it_run _ _ _ _ _ _ _ _ _ _ H) as R.
  destruct cb as [f|].
  - destruct R as (stop & R & _). destruct (iter_run_del _ _ _ _ _ _ _ R k Hk) as (w & Hw).
    apply (it_live _ _ _ _ _ _ _ _ _ _ H k w Hw).
  - destruct R as (_ & -> & _). destruct Hk.
Qed.

Lemma sp_iter_dom : forall (d e : bytes -> Prop) S (cb : option (S -> bytes -> view -> S * iter_action))
  m st now m' st' z sh del, (forall k, d k <-> e k) ->
  sp_iter d cb m st now m' st' z sh del -> sp_iter e cb m st now m' st' z sh del.
Proof.
  intros d e S cb m st now m' st' z sh del E H. destruct H as [H1 H2 H3 H4 H5 H6 H7]. constructor.
  - assumption.
  - intros k w X. rewrite <- E. auto.
  - intros X Y k it Hk. rewrite <- E in Hk. auto.
  - assumption.
  - intros k X. rewrite <- E. auto.
  - intros X k Hk. rewrite <- E in Hk. auto.
  - intros X Y. apply H7; [assumption|]. intros k Hk. apply Y. apply E. assumption.
Qed.

Lemma sp_iter_app : forall (d1 d2 : bytes -> Prop) S (cb : option (S -> bytes -> view -> S * iter_action))
  m st now m1 st1 sh1 del1 m2 st2 z sh2 del2,
  (forall k, d1 k -> d2 k -> False) ->
  sp_iter d1 cb m st now m1 st1 FINISHED sh1 del1 -> sp_iter d2 cb m1 st1 now m2 st2 z sh2 del2 ->
  sp_iter (fun k => d1 k \/ d2 k) cb m st now m2 st2 z (sh1 ++ sh2) (del1 ++ del2).
Proof.
  intros d1 d2 S cb m st now m1 st1 sh1 del1 m2 st2 z sh2 del2 D A B.
  pose proof (sp_iter_del _ _ _ _ _ _ _ _ _ _ _ A) as DA.
  pose proof (sp_iter_del _ _ _ _ _ _ _ _ _ _ _ B) as DB.
  destruct A as [A1 A2 A3 A4 A5 A6 A7]. destruct B as [B1 B2 B3 B4 B5 B6 B7].
  assert (M1 : forall k, d2 k -> m1 k = m k).
  { intros k Hk. destruct (A5 k) as [X|(X & _)]; [|assumption|].
    - intro X. apply (D k); [apply DA; assumption|assumption].
    - exfalso. eapply D; eassumption. }
  assert (L1 : forall k, d2 k -> live_item m1 k now = live_item m k now).
  { intros k Hk. unfold live_item. rewrite M1 by assumption. reflexivity. }
  assert (M2 : forall k, d1 k -> m2 k = m1 k).
  { intros k Hk. destruct (B5 k) as [X|(X & _)]; [|assumption|].
    - intro X. apply (D k); [assumption|apply DB; assumption].
    - exfalso. eapply D; eassumption. }
  constructor.
  - destruct cb as [f|].
    + destruct A1 as (s1 & R1 & Z1). destruct s1; [discriminate|].
      destruct B1 as (s2 & R2 & Z2). exists s2. split; [|assumption]. eapply iter_run_app; eassumption.
    + destruct A1 as (-> & -> & -> & _). destruct B1 as (-> & -> & -> & ->). auto.
  - intros k w Hin. apply in_app_or in Hin. destruct Hin as [Hin|Hin].
    + destruct (A2 k w Hin) as [X Y]. auto.
    + destruct (B2 k w Hin) as [X Y]. split; [right; assumption|]. rewrite <- L1 by assumption. assumption.
  - intros Hcb Hz k it [Hk|Hk] L; apply in_or_app.
    + left. apply A3; auto.
    + right. apply B3; auto. rewrite L1 by assumption. assumption.
  - intros k Hin. apply in_app_or in Hin. destruct Hin as [Hin|Hin].
    + rewrite M2 by (apply DA; assumption). auto.
    + auto.
  - intros k Hn. rewrite in_app_iff in Hn.
    destruct (A5 k) as [X|(X1 & X2 & X3)]; [tauto| |].
    + destruct (B5 k) as [Y|(Y1 & Y2 & Y3)]; [tauto| |].
      * left. congruence.
      * right. split; [right; assumption|]. split; [|assumption]. rewrite <- L1 by assumption. assumption.
    + right. split; [left; assumption|]. split; [assumption|]. rewrite M2 by assumption. assumption.
  - intros Hz k [Hk|Hk] Hn; rewrite in_app_iff in Hn.
    + rewrite M2 by assumption. apply A6; tauto.
    + rewrite B6 by tauto. apply L1. assumption.
  - intros Hd Hl. apply app_eq_nil in Hd. destruct Hd as [-> ->]. rewrite map_app.
    apply NoDup_app_intro.
    + apply A7; [reflexivity|]. intros k Hk. apply Hl. auto.
    + apply B7; [reflexivity|]. intros k Hk. rewrite M1, L1 by assumption. apply Hl. auto.
    + intros k Ha Hb. apply in_map_iff in Ha. destruct Ha as ([k1 w1] & E1 & Ha).
      apply in_map_iff in Hb. destruct Hb as ([k2 w2] & E2 & Hb). cbn in E1, E2. subst k1 k2.
      apply (D k); [apply (A2 k w1 Ha)|apply (B2 k w2 Hb)].
Qed.

Lemma sp_iter_nil : forall (d : bytes -> Prop) S (cb : option (S -> bytes -> view -> S * iter_action))
  m st now, (forall k, ~ d k) -> sp_iter d cb m st now m st FINISHED [] [].
Proof.
  intros d S cb m st now D. constructor.
  - destruct cb; [|auto]. exists false. split; [constructor|reflexivity].
  - intros k w [].
  - intros _ _ k it Hk. exfalso. eapply D; eassumption.
  - intros k [].
  - auto.
  - intros _ k Hk. exfalso. eapply D; eassumption.
  - intros _ _. constructor.
Qed.

Lemma iter_each : forall S (cb : option (S -> bytes -> view -> S * iter_action)) en now is st ch,
  cinv ch -> NoDup is -> Forall (fun i => (i < N.to_nat (c_nshards c))%nat) is ->
  exists ch' st' z evs del, each (iter_body c en cb now) is (st, FINISHED) ch = Ok (ch', (st', z), evs) /\
    cgood ch evs [] ch' /\
    sp_iter (fun k => In (route k) is) cb (cabs ch) st now (cabs ch') st' z (shown evs) del /\
    (forall i, ccas ch' i = ccas ch i).
Proof.
  intros S cb en now. induction is as [|i r IH]; intros st ch I Nd Fa.
  - exists ch, st, FINISHED, [], []. cbn [each]. split; [reflexivity|]. split; [apply cgood_refl; assumption|].
    split; [apply sp_iter_nil; intros k []|reflexivity].
  - inversion Nd; subst. inversion Fa; subst. destruct (shard_at ch i I) as (s & Hs); [assumption|].
    destruct (iter_ok_spec c load_ok cb now (en_mem en i) (placed (ca_next ch) s) st (ci_shard ch I _ _ Hs))
      as (s' & st1 & z1 & ev1 & del1 & E & G & Hc & Sp).
    change (ShardProofs.sabs c (placed (ca_next ch) s)) with (sabs s) in Sp.
    change (s_cas (placed (ca_next ch) s)) with (s_cas s) in Hc.
    assert (Ks : forall k, sabs s' k <> None -> sabs s k <> None).
    { intros k Hk. destruct (in_dec (list_eq_dec N.eq_dec) k del1) as [X|X].
      - rewrite (it_gone _ _ _ _ _ _ _ _ _ _ Sp k X) in Hk. congruence.
      - destruct (it_kept _ _ _ _ _ _ _ _ _ _ Sp k X) as [Y|(_ & _ & Y)]; congruence. }
    destruct (on_shard_good _ (iter_body c en cb now i (st, FINISHED)) ch i s s'
      ((st1, z1), match z1 with FINISHED => false | _ => true end) ev1 I Hs)
      as (ch1 & E1 & G1 & A1 & C1 & S1).
    + unfold iter_body. cbn [fst]. rewrite E. reflexivity.
    + assumption.
    + apply noins_no. eapply iter_noins. eassumption.
    + intros k Hk. apply (ci_route ch I _ _ k Hs). auto.
    + assert (C1' : forall j, ccas ch1 j = ccas ch j).
      { intro j. rewrite C1. destruct (Nat.eqb_spec j i) as [->|]; [|reflexivity].
        unfold ccas. rewrite Hs. assumption. }
      assert (Sp1 : sp_iter (fun k => route k = i) cb (cabs ch) st now (cabs ch1) st1 z1 (shown ev1) del1).
      { assert (Rt : forall k it, live_item (sabs s) k now = Some it -> route k = i).
        { intros k it L. apply (ci_route ch I _ _ k Hs). unfold live_item in L. destruct (sabs s k); congruence. }
        assert (Dl : forall k, In k del1 -> route k = i).
        { intros k Hk. pose proof (it_run _ _ _ _ _ _ _ _ _ _ Sp) as R. destruct cb as [f|].
          - destruct R as (stop & R & _). destruct (iter_run_del _ _ _ _ _ _ _ R k Hk) as (w & Hw).
            destruct (it_live _ _ _ _ _ _ _ _ _ _ Sp k w Hw) as (_ & it & L & _). eapply Rt. eassumption.
          - destruct R as (_ & -> & _). destruct Hk. }
        destruct Sp as [P1 P2 P3 P4 P5 P6 P7]. constructor.
        - assumption.
        - intros k w Hin. destruct (P2 k w Hin) as (_ & it & L & Ew). pose proof (Rt k it L) as Hr.
          split; [assumption|]. exists it. split; [|assumption].
          rewrite (live_at ch i s k now Hs Hr). assumption.
        - intros X Y k it Hr L. rewrite (live_at ch i s k now Hs Hr) in L. apply P3; auto.
        - intros k Hk. rewrite A1. rewrite (proj2 (Nat.eqb_eq _ _) (Dl k Hk)). auto.
        - intros k Hk. rewrite A1. destruct (Nat.eqb_spec (route k) i) as [Hr|]; [|auto].
          rewrite (live_at ch i s k now Hs Hr), (cabs_at ch i s k Hs Hr).
          destruct (P5 k Hk) as [X|(X & Y & Z)]; auto.
        - intros Hz k Hr Hk. rewrite A1, (live_at ch i s k now Hs Hr).
          rewrite (proj2 (Nat.eqb_eq _ _) Hr). apply P6; auto.
        - intros Hd Hl. apply P7; [assumption|]. intros k _.
          destruct (sabs s k) as [it|] eqn:Es.
          + assert (Hr : route k = i) by (apply (ci_route ch I _ _ k Hs); congruence).
            specialize (Hl k Hr). rewrite (live_at ch i s k now Hs Hr), (cabs_at ch i s k Hs Hr) in Hl.
            congruence.
          + unfold live_item. rewrite Es. reflexivity. }
      assert (z1 = FINISHED \/ z1 = CANCELED) as [->| ->].
      { pose proof (it_run _ _ _ _ _ _ _ _ _ _ Sp) as R. destruct cb as [f|].
        - destruct R as (stop & _ & ->). destruct stop; auto.
        - destruct R as (_ & _ & _ & ->). auto. }
      * destruct (IH st1 ch1 (cg_inv _ _ _ _ G1)) as (ch2 & st2 & z2 & ev2 & del2 & E2 & G2 & Sp2 & C2); try assumption.
        exists ch2, st2, z2, (ev1 ++ ev2), (del1 ++ del2). cbn [each]. rewrite E1, E2.
        split; [reflexivity|]. split; [eapply cgood_trans; eassumption|]. split.
        -- rewrite shown_app. eapply sp_iter_dom; [|eapply sp_iter_app; [|exact Sp1|exact Sp2]].
           ++ intro k. cbn [In]. intuition congruence.
           ++ cbn beta. intros k Y X. congruence.
        -- intro j. rewrite C2. apply C1'.
      * exists ch1, st1, CANCELED, ev1, del1. cbn [each]. rewrite E1.
        split; [reflexivity|]. split; [assumption|]. split; [|assumption].
        destruct Sp1 as [P1 P2 P3 P4 P5 P6 P7]. constructor; try assumption.
        -- intros k w Hin. destruct (P2 k w Hin) as [X Y]. split; [left; congruence|assumption].
        -- intros _ X. discriminate.
        -- intros k Hk. destruct (P5 k Hk) as [X|(X & Y)]; [auto|]. right. split; [left; congruence|assumption].
        -- intro X. discriminate.
        -- intros Hd Hl. apply P7; [assumption|]. intros k Hr. apply Hl. left. congruence.
Qed.

(** *** The cursor scan *)
Definition handed (r : option (N * bytes * view)) : list N :=
  match r with Some (id, _, _) => [id] | None => [] end.

Lemma entry_iter_loop_ok : forall now fuel ch idx iter evs, cinv ch ->
  (idx < N.to_nat (c_nshards c))%nat -> (N.to_nat (c_nshards c) - idx <= fuel)%nat ->
  exists ch' r cur ev, entry_iter_loop c fuel ch now idx iter evs = Ok (ch', (r, cur), evs ++ ev) /\
    cgood ch ev (handed r) ch' /\
    (forall id k v, r = Some (id, k, v) ->
       exists it, live_item (cabs ch) k now = Some it /\ v = shown_of it) /\
    (r = None -> cur = 0) /\
    (forall k, cabs ch' k = cabs ch k \/ (live_item (cabs ch) k now = None /\ cabs ch' k = None)) /\
    (forall i, ccas ch' i = ccas ch i).
Proof.
  intros now. induction fuel as [|f IH]; intros ch idx iter evs I Hi Hf; [lia|]. cbn [entry_iter_loop].
  destruct (shard_at ch idx I Hi) as (s & Hs).
  destruct (entryiter_ok c load_ok (placed (ca_next ch) s) now iter (ci_shard ch I _ _ Hs))
    as (s' & r & j & ev1 & E & G & Hc & Sh & Fr & Rt & Rs & _).
  change (ShardProofs.sabs c (placed (ca_next ch) s)) with (sabs s) in Fr.
  change (s_cas (placed (ca_next ch) s)) with (s_cas s) in Hc.
  destruct (on_shard_ok _ (fun s => match entryiter s now iter with
              | Bad t => Bad t | Ok (s', r, j, ev) => Ok (s', (r, j), ev) end)
     ch idx s s' (r, j) ev1 (rets ev1) I Hs) as (ch1 & E1 & G1 & A1 & C1 & S1).
  - rewrite E. reflexivity.
  - apply G.
  - rewrite (g2_next _ _ _ _ G). cbn. lia.
  - intros held _. apply (g2_heap _ _ _ _ G).
  - rewrite Rt. destruct r as [e|]; [|constructor]. constructor; [|constructor].
    destruct Rs as (_ & Hin & _). pose proof (si_next _ _ (g2_inv _ _ _ _ G)) as F.
    rewrite Forall_forall in F. apply F. apply in_map. assumption.
  - apply (g2_mirror _ _ _ _ G).
  - apply noins_no. eapply entryiter_noins. eassumption.
  - intros k Hk. apply (ci_route ch I _ _ k Hs). destruct (Fr k) as [X|[_ X]]; congruence.
  - rewrite E1. clear E1. assert (C1' : forall j, ccas ch1 j = ccas ch j).
    { intro i. rewrite C1. destruct (Nat.eqb_spec i idx) as [->|]; [|reflexivity].
      unfold ccas. rewrite Hs. assumption. }
    assert (Fr1 : forall k, cabs ch1 k = cabs ch k \/ (live_item (cabs ch) k now = None /\ cabs ch1 k = None)).
    { intro k. rewrite A1. destruct (Nat.eqb_spec (route k) idx) as [Hr|]; [|auto].
      rewrite (live_at ch idx s k now Hs Hr), (cabs_at ch idx s k Hs Hr). apply Fr. }
    destruct r as [e|].
    + exists ch1, (Some (e_id e, ekey e, eview c e)).
      eexists. exists ev1. split; [reflexivity|]. split; [rewrite Rt in G1; exact G1|].
      split; [|split; [discriminate|split; assumption]].
      intros id k v X. injection X as <- <- <-. destruct Rs as (Hin & _ & Al & _).
      exists (item_of c e). split; [|symmetry; destruct (eview c e) eqn:W; unfold shown_of, item_of; rewrite W; reflexivity].
      assert (Hl : live_item (sabs s) (ekey e) now = Some (item_of c e)).
      { pose proof (live_item_some c (placed (ca_next ch) s) e now (ci_shard ch I _ _ Hs) Hin) as L.
        rewrite Al in L. exact L. }
      rewrite (live_at ch idx s (ekey e) now Hs); [assumption|].
      apply (ci_route ch I _ _ _ Hs). unfold live_item in Hl. destruct (sabs s (ekey e)); congruence.
    + rewrite Rt in G1. destruct (N.eqb_spec (N.of_nat (idx + 1)) (c_nshards c)) as [Ed|Ed].
      * exists ch1, None, 0, ev1. split; [reflexivity|]. split; [exact G1|].
        split; [discriminate|]. split; [reflexivity|]. split; assumption.
      * destruct (IH ch1 (idx + 1)%nat 0%nat (evs ++ ev1) (cg_inv _ _ _ _ G1))
          as (ch2 & r2 & cur & ev2 & E2 & G2 & L2 & Z2 & F2 & C2); [lia|lia|].
        exists ch2, r2, cur, (ev1 ++ ev2). split; [rewrite E2, app_assoc; reflexivity|].
        split; [eapply cgood_trans; eassumption|]. split; [|split; [assumption|split]].
        -- intros id k v X. destruct (L2 id k v X) as (it & L & W). exists it. split; [|assumption].
           destruct (Fr1 k) as [Y|[_ Y]]; unfold live_item in *; rewrite Y in L; [assumption|discriminate].
        -- intro k. destruct (Fr1 k) as [X|[X1 X2]].
           ++ unfold live_item in *. rewrite <- X. apply F2.
           ++ right. split; [assumption|]. destruct (F2 k) as [Y|[_ Y]]; congruence.
        -- intro i. rewrite C2. apply C1'.
Qed.

Lemma poll_le : forall fuel m start i size now count dead, (dead <= count)%nat ->
  let '(d, n) := poll_loop fuel m start i size now count dead in (d <= n)%nat.
Proof.
  induction fuel as [|f IH]; intros m start i size now count dead H; cbn [poll_loop]; [assumption|].
  destruct (size <=? count)%nat; [assumption|].
  destruct (nth _ _ None); apply IH; [|assumption]. destruct (entry_alive _ _); lia.
Qed.

(** *** All calls *)

(** The calls the specification covers: arguments in the range of their C types;
    memory for a new entry and for a cleared table can be had; a cursor does not
    name the shard just after the last one. Each restriction is needed: see the
    refutations in PropCache.v. *)
Definition call_ok (en : env) (m : amap) (x : call) : Prop :=
  match x with
  | Store key val o time =>
      store_ok key val o (resolve_now time (en_clock en)) /\
      al_entry (en_mem en (route key)) = true /\ roomy m key
  | Load key o _ => update_ok key (lo_entry o)
  | EntryIter cursor _ => N.shiftr cursor 32 <> c_nshards c
  | Clear _ _ _ => forall i, al_table (en_mem en i) = true
  | _ => True
  end.

Definition handed_of (r : result) : list N :=
  match r with REntry e _ => handed e | _ => [] end.

Theorem step_refines : forall en ch x, cinv ch -> call_ok en (cabs ch) x ->
  exists ch' r evs, step c en ch x = Ok (ch', r, evs) /\ cgood ch evs (handed_of r) ch' /\
    spec_step (c_usecas c) (c_noevict c) route en (world_of ch) x (world_of ch') r.
Proof.
  intros en ch x I K. destruct x as [key val o time|key o time|key cb time|cb one time|cursor time
    |one time|psz time|one df time|one|one|one eo]; cbn [step call_ok] in *.
  - destruct K as (K1 & K2 & K3). destruct (store_step en ch key val o time I K1 K2 K3) as (ch' & st & evs & E & G & Sp).
    rewrite E. eexists _, _, _. split; [reflexivity|]. split; [exact G|exact Sp].
  - destruct (load_step en ch key o time I K) as (ch' & st & evs & E & G & Sp).
    rewrite E. eexists _, _, _. split; [reflexivity|]. split; [exact G|exact Sp].
  - destruct (delete_step en ch key cb time I) as (ch' & st & evs & E & G & Sp).
    rewrite E. eexists _, _, _. split; [reflexivity|]. split; [exact G|exact Sp].
  - destruct (iter_each _ (match cb with None => None | Some f => Some (fun h k w => (h ++ [(k, w)], f h k w)) end)
      en (resolve_now time (en_clock en)) (chosen c one) [] ch I (chosen_nodup one) (chosen_lt one))
      as (ch' & st' & z & evs & del & E & G & Sp & C).
    unfold cache_iter. rewrite E. eexists _, _, _. split; [reflexivity|]. split; [exact G|].
    econstructor; [|exact C]. eapply sp_iter_dom; [|exact Sp]. intro k. exact (in_chosen ch one k I).
  - unfold cache_entry_iter. cbv zeta.
    assert (Z0 : exists ch' r cur evs, Ok (ch, (None, 0), []) = Ok (ch', (r, cur), evs) /\ cgood ch evs (handed r) ch' /\
      spec_step (c_usecas c) (c_noevict c) route en (world_of ch) (EntryIter cursor time) (world_of ch') (REntry r cur)).
    { exists ch, None, 0, []. split; [reflexivity|]. split; [apply cgood_refl; assumption|].
      constructor; [discriminate|reflexivity|left; reflexivity|reflexivity]. }
    match goal with |- context [match ?X with Ok _ => _ | Bad _ => _ end] =>
      assert (Z : exists ch' r cur evs, X = Ok (ch', (r, cur), evs) /\ cgood ch evs (handed r) ch' /\
        spec_step (c_usecas c) (c_noevict c) route en (world_of ch) (EntryIter cursor time) (world_of ch') (REntry r cur)) end.
    { destruct ((2 ^ 31 <=? N.shiftr cursor 32) || (c_nshards c <? N.shiftr cursor 32)) eqn:B1; [exact Z0|].
      destruct (2 ^ 31 <=? N.land cursor 4294967295) eqn:B2; [exact Z0|]. clear Z0.
      destruct (N.lt_trichotomy (N.shiftr cursor 32) (c_nshards c)) as [X|[X|X]];
        [|contradiction|apply N.ltb_lt in X; rewrite X, orb_true_r in B1; discriminate].
      clear B1 B2. generalize dependent (N.shiftr cursor 32). intros q K X.
      generalize (N.land cursor 4294967295). intro q2.
      destruct (entry_iter_loop_ok (resolve_now time (en_clock en)) (S (N.to_nat (c_nshards c) - N.to_nat q))
        ch (N.to_nat q) (N.to_nat q2) [] I)
        as (ch' & r & cur & ev & E & G & L & Zr & Fr & C); [lia|lia|].
      exists ch', r, cur, ev. split; [exact E|]. split; [exact G|]. constructor; assumption. }
    destruct Z as (ch' & r & cur & evs & E & G & Sp). rewrite E.
    eexists _, _, _. split; [reflexivity|]. split; [exact G|exact Sp].
  - destruct (sweep_each en (resolve_now time (en_clock en)) (chosen c one) 0 0 ch I (chosen_nodup one) (chosen_lt one))
      as (ch' & sw & kp & lv & evs & E & G & Sh & Sp & C & Ns & Nl & B).
    unfold cache_sweep. change (0, 0) with (u64 0, u64 0). rewrite E. rewrite !N.add_0_l.
    eexists _, _, _. split; [reflexivity|]. split; [exact G|].
    econstructor; [|exact C| | |reflexivity|reflexivity|exact B].
    + intro k. destruct (Sp k) as [Q1 Q2]. rewrite <- (in_chosen ch one k I). auto.
    + eapply number_ext; [|exact Ns]. intro k. cbn beta. rewrite (in_chosen ch one k I). reflexivity.
    + eapply number_ext; [|exact Nl]. intro k. cbn beta. rewrite (in_chosen ch one k I). reflexivity.
  - unfold cache_sweep_poll. cbv zeta.
    set (idx := N.to_nat (mix13 (u64_of_i64 (resolve_now time (en_clock en))) mod c_nshards c)).
    destruct (shard_at ch idx I) as (s & Hs).
    { unfold idx. pose proof (ci_pos ch I). pose proof (N.mod_lt (mix13 (u64_of_i64 (resolve_now time (en_clock en)))) (c_nshards c)). lia. }
    set (size := if (psz =? 0)%Z then 20%nat else Z.to_nat psz).
    destruct (on_shard_good _ (fun s => Ok (s, sweeppollop s (N.of_nat idx) (resolve_now time (en_clock en)) size, []))
      ch idx s (placed (ca_next ch) s) (sweeppollop s (N.of_nat idx) (resolve_now time (en_clock en)) size) [] I Hs)
      as (ch1 & E1 & G1 & A1 & C1 & S1).
    + reflexivity.
    + apply good_refl. apply (ci_shard ch I _ _ Hs).
    + intros k w o [].
    + intros k Hk. apply (ci_route ch I _ _ _ Hs Hk).
    + rewrite E1. destruct (sweeppollop s _ _ _) as [d n] eqn:Ep.
      eexists _, _, _. split; [reflexivity|]. split; [exact G1|]. constructor.
      * intro k. cbn [world_of w_map]. rewrite A1. destruct (Nat.eqb_spec (route k) idx) as [Er|]; [|reflexivity].
        exact (eq_sym (cabs_at ch idx s k Hs Er)).
      * intro j. cbn [world_of w_cas]. rewrite C1. destruct (Nat.eqb_spec j idx) as [->|]; [|reflexivity].
        unfold ccas. rewrite Hs. reflexivity.
      * unfold sweeppollop in Ep. cbv zeta in Ep.
        match type of Ep with poll_loop ?a ?b ?c ?d ?e ?f ?g ?h = _ =>
          pose proof (poll_le a b c d e f g h (le_n _)) as Q end.
        rewrite Ep in Q. lia.
  - destruct (clear_each en (resolve_now time (en_clock en)) df (chosen c one) ch I (chosen_nodup one) (chosen_lt one))
      as (ch' & evs & E & G & Sh & Sp & C); [intros; apply K|].
    unfold cache_clear. rewrite E. eexists _, _, _. split; [reflexivity|]. split; [exact G|].
    constructor; [|exact C]. intro k. destruct (Sp k) as [Q1 Q2]. rewrite <- (in_chosen ch one k I). auto.
  - destruct (sum_step countop (fun n s => eq_refl) (chosen c one) 0 ch I (chosen_nodup one) (chosen_lt one))
      as (ch' & n & E & G & A & C & Nn).
    unfold cache_sum. change 0 with (u64 0) at 1. rewrite E, N.add_0_l.
    eexists _, _, _. split; [reflexivity|]. split; [exact G|]. constructor; [exact A|exact C|].
    eapply number_ext; [|apply (Nn (fun k => cabs ch k <> None))].
    + intro k. cbn beta. rewrite (in_chosen ch one k I). reflexivity.
    + intros i s Hs. eapply number_ext; [|exact (number_count _ (ci_shard ch I _ _ Hs))].
      intro k. cbn beta. change (ShardProofs.sabs c (placed (ca_next ch) s) k) with (sabs s k). split.
      * intro X. pose proof (ci_route ch I _ _ k Hs X) as Hr. split; [assumption|].
        rewrite (cabs_at ch i s k Hs Hr). assumption.
      * intros [Hr X]. rewrite (cabs_at ch i s k Hs Hr) in X. assumption.
  - destruct (sum_step totalop (fun n s => eq_refl) (chosen c one) 0 ch I (chosen_nodup one) (chosen_lt one))
      as (ch' & n & E & G & A & C & _).
    unfold cache_sum. change 0 with (u64 0) at 1. rewrite E.
    eexists _, _, _. split; [reflexivity|]. split; [exact G|]. constructor; [exact A|exact C].
  - destruct (sum_step (fun s => sizeop s eo) (fun n s => eq_refl) (chosen c one) 0 ch I (chosen_nodup one) (chosen_lt one))
      as (ch' & n & E & G & A & C & _).
    unfold cache_sum. change 0 with (u64 0) at 1. rewrite E.
    eexists _, _, _. split; [reflexivity|]. split; [exact G|]. constructor; [exact A|exact C].
Qed.

End R.
