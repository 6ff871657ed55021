(** sweepop, iterop, entryiter and clearop against the specification. *)
From Coq Require Import Permutation.
From Verif Require Import Base Types Entry EntryProofs Hash Map MapProofs MapInv Shard Spec Trace
  ShardProofs ScanProofs.
Local Open Scope nat_scope.

Lemma lk_del : forall A (key : A -> bytes) es del es' k, NoDup (List.map key es) ->
  Permutation es (del ++ es') ->
  lk key es' k = match lk key del k with Some _ => None | None => lk key es k end.
Proof.
  intros A key es del es' k N P. rewrite (lk_perm key es _ k N P).
  pose proof (Permutation_NoDup (Permutation_map key P) N) as N2. rewrite map_app in N2.
  assert (F : forall d, lk key (d ++ es') k = match lk key d k with Some x => Some x | None => lk key es' k end).
  { induction d as [|x d IH]; [reflexivity|]. cbn [app]. rewrite !lk_cons. destruct (beq (key x) k); auto. }
  rewrite F. destruct (lk key del k) as [x|] eqn:L; [|reflexivity].
  apply lk_some in L. destruct L as [L1 <-]. apply lk_none. intro X.
  revert L1 N2. clear -X. induction del as [|y d IH]; intros L1 N2; [destruct L1|].
  cbn in N2. inversion N2; subst. destruct L1 as [->|L1]; [|auto].
  apply H1. apply in_app_iff. auto.
Qed.

Section L.
Variable c : ctx.
Hypothesis load_ok : (55 <= c_load c <= 95)%N.
Notation ekey := (ekey c). Notation eview := (eview c).
Notation wf := (wf_entry c).
Notation minv := (minv ekey (c_load c) wf (hash32 c)).
Notation sinv := (sinv c).
Notation sabs := (sabs c).
Notation lk := (lk ekey).

Lemma before_0 : forall m, before m 0 = [].
Proof. reflexivity. Qed.

(** *** sweepop *)
Lemma sweep_quiet : forall now, quiet (sweep_judge now).
Proof.
  intros now [a b] e st1 ev1 v J. unfold sweep_judge in J.
  destruct (entry_alive_exp (entry_expires e) now); injection J as <- <- <-; cbn;
    (split; [auto|]); intros k E; [discriminate|injection E as <-; auto].
Qed.

Lemma sweep_replay : forall now vis a b,
  let q := replay (sweep_judge now) (a, b) vis in
  rp_state q = (a + N.of_nat (length (rp_del q)), b + N.of_nat (length (rp_kept q)))%N /\
  Forall (fun e => entry_alive e now = false) (rp_del q) /\
  Forall (fun e => entry_alive e now = true) (rp_kept q) /\ rp_stop q = false /\
  shown (rp_events q) = [] /\ rets (rp_events q) = [].
Proof.
  intros now. induction vis as [|e r IH]; intros a b; cbn [replay].
  - cbn. repeat split; auto. f_equal; lia.
  - destruct (sweep_judge now (a, b) e) as [[st1 ev1] v] eqn:J.
    unfold sweep_judge in J. fold (entry_alive e now) in J.
    destruct (entry_alive e now) eqn:Al; injection J as <- <- <-;
      cbn [vd_del vd_stop rp_state rp_del rp_kept rp_stop rp_events app].
    + specialize (IH a (b + 1)%N). cbv zeta in IH. destruct IH as (A & B & C & D & E & F).
      rewrite A. cbn [length]. repeat split; auto. f_equal. lia.
    + specialize (IH (a + 1)%N b). cbv zeta in IH. destruct IH as (A & B & C & D & E & F).
      rewrite A. cbn [length]. repeat split; auto. f_equal. lia.
Qed.

Lemma live_of_del : forall s del es' now, sinv s ->
  Permutation (sents s) (del ++ es') ->
  Forall (fun e => entry_alive e now = false) del ->
  Forall (fun e => entry_alive e now = true) es' ->
  forall k, option_map (item_of c) (lk es' k) = live_item (sabs s) k now.
Proof.
  intros s del es' now I P Fd Fk k. pose proof (nodup_keys c s I) as Nd.
  rewrite (lk_del _ ekey (sents s) del es' k Nd P).
  unfold live_item, ShardProofs.sabs.
  destruct (lk (sents s) k) as [e|] eqn:L; cbn [option_map].
  2:{ destruct (lk del k); reflexivity. }
  apply lk_some in L. destruct L as [Hin <-].
  assert (We : wf e) by (eapply ents_wf; [apply I|exact Hin]).
  rewrite item_alive by assumption. rewrite P in Hin. apply in_app_iff in Hin.
  rewrite Forall_forall in Fd, Fk.
  destruct (lk del (ekey e)) as [e2|] eqn:L2.
  - apply lk_some in L2. destruct L2 as [L2 K2].
    assert (e2 = e).
    { apply (same_key_same c s); auto; rewrite P; apply in_app_iff; auto. }
    subst e2. rewrite (Fd e L2). reflexivity.
  - destruct Hin as [Hin|Hin].
    + exfalso. apply lk_none in L2. apply L2. apply in_map. assumption.
    + rewrite (Fk e Hin). reflexivity.
Qed.

Lemma sweep_ok_spec : forall mm s now, sinv s ->
  exists s' swept kept evs, sweepop c mm s now = Ok (s', (swept, kept), evs) /\
    good c s evs s' /\ s_cas s' = s_cas s /\ shown evs = [] /\
    (forall k, sabs s' k = live_item (sabs s) k now) /\
    (countop s = swept + countop s')%N /\
    (countop s' <= kept <= countop s' + swept)%N.
Proof.
  intros mm s now I. unfold sweepop.
  destruct (scan_spec c load_ok (sweep_judge now) (scan_fuel (s_map s)) (0, 0)%N (s_map s) 0 []
     [] 0 (si_map c s I)) as (st' & m' & stopped & vis & Q).
  { unfold scan_fuel. lia. } { rewrite before_0. auto. } { cbn; lia. }
  cbv zeta in Q. set (q := replay (sweep_judge now) (0, 0)%N vis) in *.
  destruct Q as (Q1 & Q2 & Q3 & Q4 & Q5 & Q6 & Q7 & Q8 & Q9 & Q10 & Q11 & Q12).
  rewrite Q1.
  destruct (sweep_replay now vis 0%N 0%N) as (R1 & R2 & R3 & R4 & R5 & R6). fold q in R1, R2, R3, R4, R5, R6.
  destruct (tryshrink_spec ekey (c_load c) wf (hash32 c) load_ok (c_allowshrink c) (al_table mm) m' Q3)
    as (m2 & Sh & M2 & P2 & _).
  rewrite Sh.
  assert (stopped = None).
  { destruct stopped as [j|]; [|reflexivity]. destruct (Q11 j eq_refl) as [X _]. congruence. }
  subst stopped. destruct (Q10 eq_refl) as (_ & B & C). cbn [app] in *.
  set (s' := mkShard (s_cas s) m2 (s_next s)).
  assert (G2 : good2 c s (rp_events q) s').
  { apply (loop_good c (sweep_judge now) (sweep_quiet now) s (0, 0)%N vis m'); auto. }
  rewrite R1 in Q2. rewrite <- Q2.
  exists s', (0 + N.of_nat (length (rp_del q)))%N, (0 + N.of_nat (length (rp_kept q)))%N, (rp_events q).
  split; [reflexivity|]. split; [apply good2_good; assumption|]. split; [reflexivity|].
  split; [assumption|].
  assert (Hc : m_count m2 = length (ents m')).
  { rewrite (count_len c _ M2). apply Permutation_length. assumption. }
  split; [|split].
  - intro k. unfold ShardProofs.sabs at 1.
    rewrite (lk_perm ekey (sents s') (ents m') k).
    + apply live_of_del with (rp_del q); auto. apply Forall_forall. intros e He.
      rewrite Forall_forall in R3. apply R3. apply B. assumption.
    + apply nodup_keys. apply G2.
    + exact P2.
  - unfold countop. cbn [s' s_map]. rewrite Hc.
    pose proof (Permutation_length Q4) as X. rewrite app_length in X.
    rewrite (count_len c _ (si_map c s I)). lia.
  - unfold countop. cbn [s' s_map]. rewrite Hc. split; [|lia].
    assert (length (ents m') <= length (rp_kept q)); [|lia].
    apply NoDup_incl_length; [|exact B]. apply nodup_ents with c. assumption.
Qed.

(** *** iterop *)
Section Iter.
Context {St : Type}.
Variable cb : option (St -> bytes -> view -> St * iter_action).
Variable now : Z.

Lemma iter_quiet : quiet (iter_judge c cb now).
Proof.
  intros st e st1 ev1 v J. unfold iter_judge in J.
  destruct (entry_alive e now); cbn [negb] in J.
  - destruct cb as [f|].
    + destruct (f st (ekey e) (eview e)) as [st2 [del stop]]. injection J as <- <- <-. cbn. split.
      * right. left. eauto.
      * intros k E. destruct del; [injection E as <-; auto|discriminate].
    + injection J as <- <- <-. cbn. split; [auto|discriminate].
  - injection J as <- <- <-. cbn. split; [auto|]. intros k [= <-]. auto.
Qed.

Lemma iter_replay : forall vis st,
  let q := replay (iter_judge c cb now) st vis in
  exists ds : list entry,
    match cb with
    | None => shown (rp_events q) = [] /\ ds = [] /\ rp_state q = st /\ rp_stop q = false
    | Some f => iter_run f st (shown (rp_events q)) (rp_state q) (List.map ekey ds) (rp_stop q)
    end /\
    Forall (fun e => entry_alive e now = true) ds /\
    (forall e, In e (rp_del q) -> entry_alive e now = false \/ In e ds) /\
    (forall e, In e ds -> In e (rp_del q)) /\
    Forall (fun e => entry_alive e now = true) (rp_kept q) /\
    (forall kw, In kw (shown (rp_events q)) ->
       exists e, In e vis /\ entry_alive e now = true /\ kw = (ekey e, eview e)) /\
    (cb <> None -> forall e, In e (rp_kept q) \/ In e ds -> In (ekey e, eview e) (shown (rp_events q))) /\
    (cb <> None -> ds = [] -> List.map fst (shown (rp_events q)) = List.map ekey (rp_kept q)) /\
    rets (rp_events q) = [].
Proof.
  induction vis as [|e r IH]; intro st; cbn [replay].
  - exists []. cbn. split.
    { destruct cb; [constructor|auto]. }
    split; [constructor|]. split; [tauto|]. split; [tauto|]. split; [constructor|].
    split; [tauto|]. split; [tauto|]. auto.
  - destruct (iter_judge c cb now st e) as [[st1 ev1] v] eqn:J. unfold iter_judge in J.
    cbn [rp_state rp_del rp_kept rp_stop rp_events].
    destruct (entry_alive e now) eqn:Al; cbn [negb] in J.
    + destruct cb as [f|] eqn:Ecb.
      * destruct (f st (ekey e) (eview e)) as [st2 [del stop]] eqn:F. injection J as <- <- <-.
        cbn [vd_del vd_stop].
        set (tail := if del then [EvNotify N_DELETED None (Some e); EvFree (e_id e)] else []).
        assert (Et : match (if del then Some N_DELETED else None) with
              | Some k => [EvNotify k None (Some e); EvFree (e_id e)] | None => [] end = tail)
          by (unfold tail; destruct del; reflexivity).
        rewrite Et. clear Et.
        assert (Est : shown tail = []) by (unfold tail; destruct del; reflexivity).
        assert (Ert : rets tail = []) by (unfold tail; destruct del; reflexivity).
        destruct stop.
        -- cbn [rp_state rp_del rp_kept rp_stop rp_events]. rewrite app_nil_r.
           assert (Es : shown ([EvShow e (ekey e) (eview e)] ++ tail) = [(ekey e, eview e)]).
           { rewrite shown_app, Est. reflexivity. }
           exists (if del then [e] else []). rewrite Es, rets_app, Ert.
           split. { destruct del; cbn [List.map];
             [apply (ir_stop f _ _ _ _ true)|apply (ir_stop f _ _ _ _ false)]; assumption. }
           split. { destruct del; auto. }
           split. { destruct del; cbn; tauto. }
           split. { destruct del; cbn; tauto. }
           split. { destruct del; auto. }
           split. { intros kw [<-|[]]. exists e. cbn. auto. }
           split. { intros _ x. destruct del; cbn; intros [[]|[]]; subst; auto; tauto. }
           split; [|reflexivity]. intros _ Hd. destruct del; [discriminate|]. reflexivity.
        -- specialize (IH st2). cbv zeta in IH. set (q := replay _ st2 r) in *.
           destruct IH as (ds & A & B & C & D & E & G & H & K & L).
           exists ((if del then [e] else []) ++ ds).
           rewrite shown_app, rets_app, L. rewrite (shown_app [_] tail), Est, (rets_app [_] tail), Ert.
           cbn [shown rets flat_map app].
           split. { replace (List.map ekey ((if del then [e] else []) ++ ds))
                with ((if del then [ekey e] else []) ++ List.map ekey ds)
                by (destruct del; reflexivity).
              eapply ir_next; eassumption. }
           split. { destruct del; cbn; auto. }
           split. { intros x Hx. destruct del; cbn in Hx |- *; [destruct Hx as [->|Hx]; [auto|]|];
                 destruct (C x Hx); auto. }
           split. { intros x Hx. destruct del; cbn in Hx |- *; [destruct Hx as [->|Hx]; auto|]; auto. }
           split. { destruct del; auto. }
           split. { intros kw [<-|Hk]; [exists e; cbn; auto|].
             destruct (G kw Hk) as (x & X1 & X2 & X3). exists x. cbn. auto. }
           split. { intros Hc x Hx. destruct del; cbn in Hx.
             - destruct Hx as [Hx|[->|Hx]]; [right; auto|left; reflexivity|right; auto].
             - destruct Hx as [[->|Hx]|Hx]; [left; reflexivity|right; auto|right; auto]. }
           split; [|reflexivity]. intros Hc Hd. destruct del; [discriminate|]. cbn in Hd |- *.
           f_equal. auto.
      * injection J as <- <- <-. cbn [vd_del vd_stop app rp_state rp_del rp_kept rp_stop rp_events].
        specialize (IH st). cbv zeta in IH. set (q := replay _ st r) in *.
        destruct IH as (ds & A & B & C & D & E & G & H & K & L).
        destruct A as (A1 & A2 & A3 & A4). exists []. subst ds.
        do 4 (split; [auto|]). split; [auto|]. split; [|split; [congruence|split; [congruence|assumption]]].
        intros kw Hk. rewrite A1 in Hk. destruct Hk.
    + injection J as <- <- <-. cbn [vd_del vd_stop app rp_state rp_del rp_kept rp_stop rp_events].
      specialize (IH st). cbv zeta in IH. set (q := replay _ st r) in *.
      destruct IH as (ds & A & B & C & D & E & G & H & K & L). exists ds.
      change (shown (EvNotify N_EXPIRED None (Some e) :: EvFree (e_id e) :: rp_events q))
        with (shown (rp_events q)).
      split; [exact A|]. split; [assumption|].
      split. { intros x [<-|Hx]; auto. }
      split. { intros x Hx. right. auto. }
      split; [assumption|].
      split. { intros kw Hk. destruct (G kw Hk) as (x & X1 & X2 & X3). exists x. cbn. auto. }
      split; [assumption|]. split; [assumption|]. exact L.
Qed.

(** the entries visited up to a stop are in the table *)
Lemma shown_in : forall vis st es, vis_in (iter_judge c cb now) st es vis ->
  forall kw, In kw (shown (rp_events (replay (iter_judge c cb now) st vis))) ->
  exists e, In e es /\ entry_alive e now = true /\ kw = (ekey e, eview e).
Proof.
  induction vis as [|e r IH]; intros st es V kw Hk; [destruct Hk|].
  cbn [vis_in] in V. destruct V as [Hin V]. cbn [replay] in Hk.
  destruct (iter_judge c cb now st e) as [[st1 ev1] v] eqn:J. destruct V as (es1 & P & V).
  cbn [rp_events] in Hk. rewrite !shown_app in Hk. apply in_app_iff in Hk. destruct Hk as [Hk|Hk].
  - apply in_app_iff in Hk. destruct Hk as [Hk|Hk].
    + unfold iter_judge in J. destruct (entry_alive e now) eqn:Al; cbn [negb] in J.
      * destruct cb as [f|].
        -- destruct (f st (ekey e) (eview e)) as [st2 [del stop]]. injection J as <- <- <-.
           destruct Hk as [<-|[]]. eauto.
        -- injection J as <- <- <-. destruct Hk.
      * injection J as <- <- <-. destruct Hk.
    + destruct (vd_del v); destruct Hk.
  - destruct (vd_stop v) eqn:Vs; [destruct Hk|].
    destruct (IH st1 es1 (V eq_refl) kw Hk) as (x & X1 & X2 & X3). exists x. split; [|auto].
    rewrite P. destruct (vd_del v); [right|]; assumption.
Qed.

Lemma iter_ok_spec : forall mm s st, sinv s ->
  exists s' st' status evs deleted, iterop c mm s cb st now = Ok (s', st', status, evs) /\
    good c s evs s' /\ s_cas s' = s_cas s /\
    sp_iter (fun _ => True) cb (sabs s) st now (sabs s') st' status (shown evs) deleted.
Proof.
  intros mm s st I. unfold iterop.
  destruct (scan_spec c load_ok (iter_judge c cb now) (scan_fuel (s_map s)) st (s_map s) 0 []
     [] 0 (si_map c s I)) as (st' & m' & stopped & vis & Q).
  { unfold scan_fuel. lia. } { rewrite before_0. auto. } { cbn; lia. }
  cbv zeta in Q. set (q := replay (iter_judge c cb now) st vis) in *.
  destruct Q as (Q1 & Q2 & Q3 & Q4 & Q5 & Q6 & Q7 & Q8 & Q9 & Q10 & Q11 & Q12).
  rewrite Q1.
  destruct (iter_replay vis st) as (ds & R1 & R2 & R3 & R4 & R5 & R6 & R7 & R8 & R9).
  pose proof (shown_in vis st (sents s) Q5) as R6'.
  fold q in R1, R2, R3, R4, R5, R6', R7, R8, R9. clear R6.
  destruct (tryshrink_spec ekey (c_load c) wf (hash32 c) load_ok (c_allowshrink c) (al_table mm) m' Q3)
    as (m2 & Sh & M2 & P2 & _).
  rewrite Sh. cbn [app] in *.
  set (s' := mkShard (s_cas s) m2 (s_next s)).
  assert (G2 : good2 c s (rp_events q) s').
  { apply (loop_good c (iter_judge c cb now) iter_quiet s st vis m'); auto. }
  set (status := match stopped with None => FINISHED | Some _ => CANCELED end).
  assert (Hst : status = if rp_stop q then CANCELED else FINISHED).
  { unfold status. destruct stopped as [j|].
    - destruct (Q11 j eq_refl) as [-> _]. reflexivity.
    - destruct (Q10 eq_refl) as [-> _]. reflexivity. }
  exists s', st', status, (rp_events q), (List.map ekey ds).
  split; [reflexivity|]. split; [apply good2_good; assumption|]. split; [reflexivity|].
  pose proof (nodup_keys c s I) as Nd.
  assert (Hlk : forall k, lk (sents s') k = match lk (rp_del q) k with Some _ => None | None => lk (sents s) k end).
  { intro k. rewrite (lk_perm ekey (sents s') (ents m') k).
    - apply lk_del; assumption.
    - apply nodup_keys. apply G2.
    - exact P2. }
  assert (Hdel_in : forall e, In e (rp_del q) -> In e (sents s)).
  { intros e He. unfold sents. rewrite Q4. apply in_app_iff. auto. }
  assert (Hlive : forall e, In e (sents s) -> entry_alive e now = true ->
            live_item (sabs s) (ekey e) now = Some (item_of c e)).
  { intros e He Ha. rewrite live_item_some by assumption. rewrite Ha. reflexivity. }
  constructor.
  - destruct cb as [f|].
    + exists (rp_stop q). rewrite <- Q2. auto.
    + destruct R1 as (A1 & A2 & A3 & A4). subst ds. rewrite A4 in Hst.
      repeat split; auto. congruence.
  - intros k w Hk. split; [trivial|]. destruct (R6' _ Hk) as (e & E1 & E2 & E3).
    injection E3 as -> ->. exists (item_of c e). split; [auto|]. symmetry. apply shown_item.
  - intros Hc Hf k it _ L. unfold live_item, ShardProofs.sabs in L.
    destruct (lk (sents s) k) as [e|] eqn:Lk; [|discriminate]. cbn [option_map] in L.
    apply lk_some in Lk. destruct Lk as [Hin <-].
    assert (We : wf e) by (eapply ents_wf; [apply I|exact Hin]).
    rewrite item_alive in L by assumption. destruct (entry_alive e now) eqn:Al; [|discriminate].
    injection L as <-. rewrite shown_item. apply R7; [assumption|].
    assert (stopped = None) by (unfold status in Hf; destruct stopped; [discriminate|reflexivity]).
    destruct (Q10 H) as (_ & B & _).
    unfold sents in Hin. rewrite Q4 in Hin. apply in_app_iff in Hin. destruct Hin as [Hin|Hin].
    + destruct (R3 e Hin) as [X|X]; [congruence|auto].
    + left. apply B. assumption.
  - intros k Hk. apply in_map_iff in Hk. destruct Hk as (e & <- & He).
    unfold ShardProofs.sabs. rewrite Hlk.
    destruct (lk (rp_del q) (ekey e)) eqn:L; [reflexivity|]. exfalso. apply lk_none in L.
    apply L. apply in_map. apply R4. assumption.
  - intros k Hk. unfold ShardProofs.sabs at 1 4. rewrite Hlk.
    destruct (lk (rp_del q) k) as [e|] eqn:L; [|left; reflexivity].
    apply lk_some in L. destruct L as [L <-]. right. split; [trivial|]. split; [|reflexivity].
    rewrite live_item_some; auto. destruct (R3 e L) as [->|X]; [reflexivity|].
    exfalso. apply Hk. apply in_map. assumption.
  - intros Hf k _ Hk.
    assert (stopped = None) by (unfold status in Hf; destruct stopped; [discriminate|reflexivity]).
    destruct (Q10 H) as (_ & B & _).
    unfold ShardProofs.sabs at 1. rewrite Hlk.
    destruct (lk (rp_del q) k) as [e|] eqn:L.
    + apply lk_some in L. destruct L as [L <-]. cbn [option_map].
      rewrite live_item_some; auto. destruct (R3 e L) as [->|X]; [reflexivity|].
      exfalso. apply Hk. apply in_map. assumption.
    + unfold live_item, ShardProofs.sabs. destruct (lk (sents s) k) as [e|] eqn:L2; [|reflexivity].
      cbn [option_map]. pose proof L2 as L3. apply lk_some in L3. destruct L3 as [Hin <-].
      assert (We : wf e) by (eapply ents_wf; [apply I|exact Hin]).
      rewrite item_alive by assumption.
      unfold sents in Hin. rewrite Q4 in Hin. apply in_app_iff in Hin. destruct Hin as [Hin|Hin].
      * exfalso. apply lk_none in L. apply L. apply in_map. assumption.
      * rewrite Forall_forall in R5. rewrite (R5 e (B e Hin)). reflexivity.
  - intros Hd Hm. destruct ds; [|discriminate].
    assert (Dn : rp_del q = []).
    { destruct (rp_del q) as [|e l] eqn:Dl; [reflexivity|]. exfalso.
      pose proof (Hdel_in e ltac:(left; reflexivity)) as Hin.
      destruct (R3 e ltac:(left; reflexivity)) as [X|[]].
      specialize (Hm (ekey e) Logic.I). rewrite live_item_some in Hm by assumption. rewrite X in Hm.
      unfold ShardProofs.sabs in Hm. rewrite (lk_in ekey (sents s) e Nd Hin) in Hm. discriminate. }
    destruct cb as [f|] eqn:Ecb.
    2:{ destruct R1 as (-> & _). constructor. }
    rewrite R8 by (congruence || reflexivity). destruct (Q12 Dn) as (_ & A & B).
    assert (Nda : NoDup (List.map ekey (after (s_map s) 0))).
    { exact Nd. }
    destruct stopped as [j|].
    + specialize (B j eq_refl). rewrite B, map_app in Nda.
      revert Nda. generalize (List.map ekey (rp_kept q)). intros l X.
      induction l as [|z l IH]; [constructor|]. cbn in X. inversion X; subst. constructor.
      * intro Y. apply H1. apply in_app_iff. auto.
      * auto.
    + rewrite (A eq_refl). assumption.
Qed.
End Iter.

(** *** entryiter *)
Lemma entryiter_quiet : forall now, quiet (entryiter_judge now).
Proof.
  intros now st e st1 ev1 v J. unfold entryiter_judge in J.
  destruct (entry_alive e now); cbn [negb] in J; injection J as <- <- <-; cbn.
  - split; [auto|discriminate].
  - split; [auto|]. intros k [= <-]. auto.
Qed.

Lemma entryiter_replay : forall now vis st,
  let q := replay (entryiter_judge now) st vis in
  Forall (fun e => entry_alive e now = false) (rp_del q) /\
  shown (rp_events q) = [] /\
  ((rp_stop q = false /\ rp_kept q = [] /\ rets (rp_events q) = []) \/
   (exists e, rp_stop q = true /\ rp_kept q = [e] /\ rp_state q = Some e /\
      entry_alive e now = true /\ rets (rp_events q) = [e_id e])).
Proof.
  intros now. induction vis as [|e r IH]; intro st; cbn [replay].
  - cbn. split; [constructor|]. split; [reflexivity|]. left. auto.
  - destruct (entryiter_judge now st e) as [[st1 ev1] v] eqn:J. unfold entryiter_judge in J.
    destruct (entry_alive e now) eqn:Al; cbn [negb] in J; injection J as <- <- <-;
      cbn [vd_del vd_stop rp_state rp_del rp_kept rp_stop rp_events app].
    + split; [constructor|]. split; [reflexivity|]. right. exists e. auto.
    + specialize (IH None). cbv zeta in IH. destruct IH as (A & B & C).
      split; [auto|]. split; [exact B|]. exact C.
Qed.

Lemma vis_kept_in : forall now vis st es e, vis_in (entryiter_judge now) st es vis ->
  In e (rp_kept (replay (entryiter_judge now) st vis)) -> In e es.
Proof.
  intros now. induction vis as [|x r IH]; intros st es e V H; [destruct H|].
  cbn [vis_in] in V. destruct V as [Hin V]. cbn [replay] in H.
  destruct (entryiter_judge now st x) as [[st1 ev1] v] eqn:J. destruct V as (es1 & P & V).
  cbn [rp_kept] in H. destruct (vd_del v) as [k|].
  - destruct (vd_stop v) eqn:Vs; [destruct H|]. rewrite P. right. eapply IH; eauto.
  - destruct H as [<-|H]; [assumption|]. destruct (vd_stop v) eqn:Vs; [destruct H|].
    rewrite P. eapply IH; eauto.
Qed.

(** One cursor step from bucket [i]: the entry found is live and still in the
    shard; every entry now before the next bucket [j] was before [i] or is the
    one returned; when nothing is found all entries left were before [i]. *)
Lemma entryiter_ok : forall s now i, sinv s ->
  exists s' r j evs, entryiter s now i = Ok (s', r, j, evs) /\
    good2 c s evs s' /\ s_cas s' = s_cas s /\ shown evs = [] /\
    (forall k, sabs s' k = sabs s k \/ (live_item (sabs s) k now = None /\ sabs s' k = None)) /\
    rets evs = match r with Some e => [e_id e] | None => [] end /\
    match r with
    | Some e => In e (sents s) /\ In e (sents s') /\ entry_alive e now = true /\ j <= m_nb (s_map s) /\
        (forall x, In x (before (s_map s') j) -> In x (before (s_map s) i) \/ x = e) /\
        (length (sents s') = length (sents s) ->
          s_map s' = s_map s /\ after (s_map s) i = e :: after (s_map s) j)
    | None => j = 0 /\ (forall x, In x (sents s') -> In x (before (s_map s) i)) /\
        (length (sents s') = length (sents s) ->
          s_map s' = s_map s /\ after (s_map s) i = [])
    end /\
    m_nb (s_map s') = m_nb (s_map s) /\ length (sents s') <= length (sents s) /\
    (forall x, In x (sents s) -> entry_alive x now = true -> In x (sents s')) /\
    (forall x, In x (sents s') -> In x (sents s)) /\
    ((forall x, In x (sents s) -> entry_alive x now = true) -> length (sents s') = length (sents s)).
Proof.
  intros s now i I. unfold entryiter.
  destruct (Nat.eqb_spec (m_count (s_map s)) 0) as [Hz|Hz].
  { assert (Em : ents (s_map s) = []).
    { rewrite (count_len c _ (si_map c s I)) in Hz. destruct (ents (s_map s)); [reflexivity|discriminate]. }
    exists s, None, 0, []. split; [reflexivity|]. split.
    { constructor; auto.
      - intro held. cbn. rewrite app_nil_r. constructor. reflexivity.
      - constructor. reflexivity. }
    split; [reflexivity|]. split; [reflexivity|]. split; [auto|]. split; [reflexivity|].
    split; [split; [reflexivity|split]|auto 10].
    - unfold sents. rewrite Em. intros x [].
    - intros _. split; [reflexivity|]. pose proof (before_after (s_map s) i) as X. rewrite Em in X.
      apply app_eq_nil in X. apply X. }
  destruct (scan_spec c load_ok (entryiter_judge now) (scan_fuel (s_map s)) None (s_map s) i []
     (before (s_map s) i) 0 (si_map c s I)) as (st' & m' & stopped & vis & Q).
  { unfold scan_fuel. lia. } { auto. } { lia. }
  cbv zeta in Q. set (q := replay (entryiter_judge now) None vis) in *.
  destruct Q as (Q1 & Q2 & Q3 & Q4 & Q5 & Q6 & Q7 & Q8 & Q9 & Q10 & Q11 & Q12).
  rewrite Q1.
  destruct (entryiter_replay now vis None) as (R1 & R2 & R3). fold q in R1, R2, R3.
  cbn [app] in *.
  set (s' := mkShard (s_cas s) m' (s_next s)).
  assert (G2 : good2 c s (rp_events q) s').
  { apply (loop_good c (entryiter_judge now) (entryiter_quiet now) s None vis m'); auto. }
  pose proof (nodup_keys c s I) as Nd.
  assert (Hlk : forall k, lk (sents s') k = match lk (rp_del q) k with Some _ => None | None => lk (sents s) k end).
  { intro k. apply lk_del; assumption. }
  assert (Hs : forall k, sabs s' k = sabs s k \/ (live_item (sabs s) k now = None /\ sabs s' k = None)).
  { intro k. unfold ShardProofs.sabs at 1 4. rewrite Hlk.
    destruct (lk (rp_del q) k) as [e|] eqn:L; [|left; reflexivity]. right. split; [|reflexivity].
    apply lk_some in L. destruct L as [L <-].
    rewrite live_item_some.
    - rewrite Forall_forall in R1. rewrite (R1 e L). reflexivity.
    - assumption.
    - unfold sents. rewrite Q4. apply in_app_iff. auto. }
  pose proof (Permutation_length Q4) as Hlen. rewrite app_length in Hlen.
  assert (Hdel : length (sents s') = length (sents s) -> rp_del q = []).
  { intro Ha. change (sents s') with (ents m') in Ha. change (sents s) with (ents (s_map s)) in Ha.
    destruct (rp_del q) as [|x l]; [reflexivity|]. cbn [length] in Hlen. lia. }
  assert (Htail : m_nb (s_map s') = m_nb (s_map s) /\ length (sents s') <= length (sents s) /\
    (forall x, In x (sents s) -> entry_alive x now = true -> In x (sents s')) /\
    (forall x, In x (sents s') -> In x (sents s)) /\
    ((forall x, In x (sents s) -> entry_alive x now = true) -> length (sents s') = length (sents s))).
  { change (sents s') with (ents m'). change (sents s) with (ents (s_map s)).
    split; [exact Q6|]. split; [lia|]. split; [|split].
    - intros x Hx Ha. rewrite Q4 in Hx. apply in_app_iff in Hx. destruct Hx as [Hx|Hx]; [|assumption].
      exfalso. rewrite Forall_forall in R1. rewrite (R1 x Hx) in Ha. discriminate.
    - intros x Hx. rewrite Q4. apply in_app_iff. auto.
    - intro Ha. destruct (rp_del q) as [|x l]; [cbn in Hlen; lia|]. exfalso.
      inversion R1; subst. rewrite Ha in H1; [discriminate|]. rewrite Q4. left. reflexivity. }
  destruct stopped as [j|].
  - destruct (Q11 j eq_refl) as (S1 & S2 & S3).
    destruct R3 as [(X & _)|(e & E1 & E2 & E3 & E4 & E5)]; [congruence|].
    rewrite E3 in Q2. subst st'. exists s', (Some e), j, (rp_events q).
    split; [reflexivity|]. split; [assumption|]. split; [reflexivity|]. split; [assumption|].
    split; [assumption|]. split; [assumption|]. split; [|exact Htail].
    assert (Hin : In e (sents s)).
    { eapply vis_kept_in; [exact Q5|]. fold q. rewrite E2. left. reflexivity. }
    split; [assumption|].
    split.
    { unfold sents in Hin. rewrite Q4 in Hin. apply in_app_iff in Hin. destruct Hin as [Hin|Hin]; [|exact Hin].
      exfalso. rewrite Forall_forall in R1. rewrite (R1 e Hin) in E4. discriminate. }
    split; [assumption|]. split; [assumption|]. split.
    + intros x Hx. apply S3 in Hx. rewrite E2 in Hx. apply in_app_iff in Hx.
      destruct Hx as [Hx|[<-|[]]]; auto.
    + intro Ha. destruct (Q12 (Hdel Ha)) as (A & _ & B). split; [exact A|].
      rewrite (B j eq_refl), E2. reflexivity.
  - destruct (Q10 eq_refl) as (S1 & S2 & _).
    destruct R3 as [(X & Y & Z)|(e & E1 & _)]; [|congruence].
    exists s', None, 0, (rp_events q).
    split; [reflexivity|]. split; [assumption|]. split; [reflexivity|]. split; [assumption|].
    split; [assumption|]. split; [assumption|]. split; [|exact Htail]. split; [reflexivity|]. split.
    + intros x Hx. apply S2 in Hx. rewrite Y, app_nil_r in Hx. assumption.
    + intro Ha. destruct (Q12 (Hdel Ha)) as (A & B & _). split; [exact A|].
      rewrite <- (B eq_refl). assumption.
Qed.

(** *** clearop *)
Lemma clear_heap : forall now deferfree es held,
  heap_ok (ids es ++ held) (clear_events now deferfree es) held.
Proof.
  intros now deferfree es held. unfold clear_events. cbv zeta.
  set (nt := fun e => EvNotify (if entry_alive e now then N_CLEARED else N_EXPIRED) None (Some e)).
  destruct deferfree.
  - apply heap_app with (ids es ++ held).
    + assert (G : forall es1, incl es1 es -> heap_ok (ids es ++ held) (List.map nt es1) (ids es ++ held)).
      { induction es1 as [|e es1 IH]; intro Hi; cbn [List.map]; [constructor; reflexivity|].
        constructor; [discriminate| |apply IH; intros x Hx; apply Hi; right; assumption].
        intros x [= <-]. apply in_app_iff. left. apply in_map. apply Hi. left. reflexivity. }
      apply G. apply incl_refl.
    + induction es as [|e es IH]; cbn [List.map ids app]; [constructor; reflexivity|].
      eapply hp_free; [reflexivity|]. apply IH.
  - induction es as [|e es IH]; cbn [flat_map ids List.map app]; [constructor; reflexivity|].
    constructor; [discriminate| |].
    + intros x [= <-]. left. reflexivity.
    + eapply hp_free; [reflexivity|]. apply IH.
Qed.

Lemma clear_mirror : forall now deferfree es, NoDup (List.map ekey es) ->
  mirrored (vw c es) (notes c (clear_events now deferfree es)) (fun _ => None).
Proof.
  intros now deferfree es Nd.
  set (nt := fun e => EvNotify (if entry_alive e now then N_CLEARED else N_EXPIRED) None (Some e)).
  assert (E : notes c (clear_events now deferfree es) = notes c (List.map nt es)).
  { unfold clear_events. destruct deferfree.
    - rewrite notes_app. replace (notes c (List.map (fun e => EvFree (e_id e)) es)) with (@nil note).
      + apply app_nil_r.
      + clear. induction es; [reflexivity|assumption].
    - clear. induction es as [|e es IH]; [reflexivity|]. cbn. f_equal. exact IH. }
  rewrite E. clear E deferfree. induction es as [|e es IH].
  - constructor. reflexivity.
  - cbn [List.map] in *. inversion Nd; subst. eapply mr_gone.
    + destruct (entry_alive e now); auto.
    + unfold vw. rewrite lk_cons, beq_refl. reflexivity.
    + eapply mirror_ext; [apply IH; assumption|]. intro k. unfold vset, vw. rewrite lk_cons.
      destruct (beq (ekey e) k) eqn:B; [|reflexivity]. apply beq_eq in B. subst k.
      destruct (lk es (ekey e)) eqn:L; [|reflexivity]. exfalso. apply lk_some in L. destruct L as [L1 L2].
      apply H1. rewrite <- L2. apply in_map. assumption.
Qed.

Lemma clear_ok_spec : forall mm s now deferfree, sinv s -> al_table mm = true ->
  exists s' evs, clearop c mm s now deferfree = Ok (s', evs) /\
    good c s evs s' /\ s_cas s' = s_cas s /\ shown evs = [] /\ countop s' = 0%N /\
    (forall k, sabs s' k = None).
Proof.
  intros mm s now deferfree I Al. unfold clearop. rewrite Al. cbn [negb].
  pose proof (init_inv ekey (c_load c) wf (hash32 c) load_ok) as M0.
  apply minv_stats with (total := m_total (s_map s)) (entsize := m_entsize (map_init entry (c_load c) 64)) in M0.
  set (m2 := mkMap _ _ _ _ _ _ _ _) in *.
  set (s' := mkShard (s_cas s) m2 (s_next s)).
  assert (Em : sents s' = []) by (unfold sents; cbn [s' s_map m2]; apply (init_ents (c_load c))).
  exists s', (clear_events now deferfree (sents s)). split; [reflexivity|]. split; [|split; [|split; [|split]]].
  - constructor.
    + constructor; auto; try (unfold ids; rewrite Em; constructor). apply I.
    + cbn. lia.
    + intros held _. rewrite Em. cbn [ids List.map app]. apply clear_heap.
    + eapply mirror_ext_r; [apply clear_mirror; apply nodup_keys; assumption|].
      intro k. unfold svw. rewrite Em. reflexivity.
  - reflexivity.
  - unfold clear_events. destruct deferfree.
    + rewrite shown_app. replace (shown _) with (@nil kv) at 1.
      * clear. induction (sents s); [reflexivity|assumption].
      * clear. induction (sents s); [reflexivity|assumption].
    + clear. induction (sents s); [reflexivity|assumption].
  - reflexivity.
  - intro k. unfold ShardProofs.sabs. rewrite Em. reflexivity.
Qed.
End L.
