(** Facts for the properties of commands. *)
From Verif Require Import Base Types Clamp Entry EntryProofs Hash Map MapProofs MapInv Shard
  Spec Trace ShardProofs ScanProofs LoopProofs Cache Refine Reach Observe PropCache PropItems
  Text IntText IntTextProofs CmdTable CmdTableProofs Prog CmdSpec Cmds CmdsProofs.
From Coq Require Import String.
Local Open Scope N_scope.
Notation length := List.length.

(** *** Loads that only look *)
Record keeps (o : opts) (now : Z) (ch ch' : cache) (key : bytes) : Prop := {
  kp_same : unchanged o now ch ch' key;
  kp_keys : forall k, cabs (ctx_of o) ch' k <> None -> cabs (ctx_of o) ch k <> None;
  kp_abs : forall k t, (now <= t)%Z -> option_map shown_of (live_item (cabs (ctx_of o) ch') k t)
             = option_map shown_of (live_item (cabs (ctx_of o) ch) k t)
}.
Lemma load_look : forall o orc n ch key b cb now k old, reachable (ctx_of o) ch -> (0 < now)%Z ->
  cb = None \/ cb = just_look ->
  sees (ctx_of o) ch key now old ->
  exists ch' ev, reachable (ctx_of o) ch' /\ keeps o now ch ch' key /\
    prun (ctx_of o) orc n ch (Do (Load key (mkLoadOpts b cb) now) k) =
      match prun (ctx_of o) orc (S n) ch'
        (k (match old with
            | Some v => RStatus FOUND (match cb with None => [] | Some _ => [(key, v)] end)
            | None => RStatus NOTFOUND [] end)) with
      | Bad t => Bad t | Ok (ch2, es, ev2) => Ok (ch2, es, ev ++ ev2) end.
Proof.
  intros o orc n ch key b cb now k old R P C So.
  assert (U : update_ok key (lo_entry (mkLoadOpts b cb))) by (destruct C as [-> | ->]; [apply plain_ok|apply look_ok]).
  destruct (do_load o orc n ch key _ now k R U P) as (ch' & st & sh & ev & cas' & R' & E & m' & A & S).
  exists ch', ev. split; [exact R'|]. apply sees_item in So; [|exact R].
  unfold sp_load in S. destruct (live_item (cabs (ctx_of o) ch) key now) as [it|] eqn:L; cbn [option_map] in So; subst old.
  - pose (it' := if b then it else mkItem (i_val it) (i_exp it) (i_flags it) (i_cas it) now).
    assert (Q : m' = aset (cabs (ctx_of o) ch) key (Some it') /\ st = FOUND /\
              sh = match cb with None => [] | Some _ => [(key, shown_of it)] end).
    { destruct C as [-> | ->]; cbn [lo_entry lo_notouch just_look] in S; injection S as <- _ <- <-;
        (split; [reflexivity|split; reflexivity]). }
    destruct Q as (-> & -> & ->). split; [|exact E].
    assert (Ck : exists it0, cabs (ctx_of o) ch key = Some it0 /\ it0 = it).
    { unfold live_item in L. destruct (cabs (ctx_of o) ch key) as [i0|]; [|discriminate].
      destruct (alive_at (i_exp i0) now); [|discriminate]. injection L as ->. eauto. }
    destruct Ck as (? & Ck & ->).
    assert (Ab : forall x t, option_map shown_of (live_item (cabs (ctx_of o) ch') x t)
             = option_map shown_of (live_item (cabs (ctx_of o) ch) x t)).
    { intros x t. unfold live_item. rewrite A. unfold aset. destruct (beq key x) eqn:B; [|reflexivity].
      apply beq_eq in B. subst x. rewrite Ck. unfold it'. destruct b; [reflexivity|]. cbn [i_exp].
      destruct (alive_at (i_exp it) t); reflexivity. }
    assert (Sa : forall x, same_at (ctx_of o) ch ch' x).
    { intros x t v. rewrite !(sees_iff _ (opts_load o)) by (apply reach_cinv; assumption). rewrite Ab. reflexivity. }
    constructor.
    + split; [intros t v _; apply Sa|intros x _; apply Sa].
    + intros x. rewrite A. unfold aset. destruct (beq key x) eqn:B; [|auto]. apply beq_eq in B. subst x.
      intros _. rewrite Ck. discriminate.
    + intros x t _. apply Ab.
  - injection S as <- _ <- <-. split; [|exact E]. constructor.
    + split.
      * apply same_from_abs; [exact R|exact R'|]. intros t Ht. rewrite (dead_later _ _ _ _ L Ht).
        unfold live_item. rewrite A, aset_key. reflexivity.
      * exact (same_others o ch ch' key None R R' A).
    + intros x. rewrite A. unfold aset. destruct (beq key x); [congruence|auto].
    + intros x t Ht. unfold live_item at 1. rewrite A. unfold aset. destruct (beq key x) eqn:B.
      * apply beq_eq in B. subst x. rewrite (dead_later _ _ _ _ L Ht). reflexivity.
      * reflexivity.
Qed.
Lemma keeps_fits : forall o now ch ch' key k v, keeps o now ch ch' key -> fits o ch k v -> fits o ch' k v.
Proof.
  intros o now ch ch' key k v K [F1 F2 F3 F4]. constructor; try assumption.
  eapply roomy_less; [exact F4|]. apply K.
Qed.
Lemma keeps_sees : forall o now ch ch' key k t v, keeps o now ch ch' key -> (now <= t)%Z ->
  sees (ctx_of o) ch k t v -> sees (ctx_of o) ch' k t v.
Proof.
  intros o now ch ch' key k t v [[K1 K2] _ _] Ht H.
  destruct (beq key k) eqn:B; [apply beq_eq in B; subst k; apply K1; assumption|].
  apply K2; [intros ->; rewrite beq_refl in B; discriminate|exact H].
Qed.
Lemma same_at_trans : forall c a b d k, same_at c a b k -> same_at c b d k -> same_at c a d k.
Proof. intros c a b d k H1 H2 t v. rewrite (H1 t v). apply H2. Qed.
Lemma same_from_trans : forall o now a b d k, same_from o now a b k -> same_from o now b d k -> same_from o now a d k.
Proof. intros o now a b d k H1 H2 t v Ht. rewrite (H1 t v Ht). exact (H2 t v Ht). Qed.
Lemma unchanged_trans : forall o now a b d k, unchanged o now a b k -> unchanged o now b d k -> unchanged o now a d k.
Proof.
  intros o now a b d k [A1 A2] [B1 B2]. split; [eapply same_from_trans; eassumption|].
  intros x Hx. eapply same_at_trans; [apply A2|apply B2]; exact Hx.
Qed.

(** A store without conditions or low memory always succeeds. *)
Lemma store_plain : forall o orc n ch key val e flags cas now k,
  reachable (ctx_of o) ch -> fits o ch key val -> mem_ok (orc n) -> (0 < now <= INT64_MAX)%Z ->
  (0 <= e <= INT64_MAX)%Z -> flags < 2 ^ 32 ->
  exists ch' st ev tok, reachable (ctx_of o) ch' /\ (st = INSERTED \/ st = REPLACED) /\
    prun (ctx_of o) orc n ch (Do (Store key val (mkStoreOpts e 0 cas flags false false false false false None) now) k) =
      match prun (ctx_of o) orc (S n) ch' (k (RStatus st [])) with
      | Bad t => Bad t | Ok (ch2, es, ev2) => Ok (ch2, es, ev ++ ev2) end /\
    holds o ch' key (mkView val e flags tok) /\ (forall x, x <> key -> same_at (ctx_of o) ch ch' x).
Proof.
  intros o orc n ch key val e flags cas now k R Ft M Hn He Hf.
  destruct (do_store o orc n ch key val (mkStoreOpts e 0 cas flags false false false false false None) now k R Ft M Hn (proj2 He) eq_refl Hf)
    as (ch' & st & sh & ev & cas' & R' & E & m' & A & S).
  assert (Q : (st = INSERTED \/ st = REPLACED) /\ sh = []).
  { inversion S as [? ? ? ? H1 H2|? ? ? ? ? H1 H2|H1|H1]; subst; try discriminate.
    unfold sp_store in H1. cbn [so_casop so_nx so_entry so_xx orb] in H1.
    destruct (live_item (cabs (ctx_of o) ch) key now); injection H1 as _ _ <- <-; auto. }
  destruct Q as [Q ->].
  destruct (stored_at o ch ch' now key val _ m' cas' st [] R R' A S Q) as [[tok H] [Ho|[Ho _]]]; [|discriminate].
  exists ch', st, ev, tok. split; [exact R'|]. split; [exact Q|]. split; [exact E|]. split; [|exact Ho].
  unfold sp_expires in H. cbn [so_expires so_ttl so_keepttl so_flags] in H.
  replace (if (e >? 0)%Z then e else if (0 >? 0)%Z then norm (clamp64 (now + 0)) else 0%Z) with e in H
    by (change (0 >? 0)%Z with false; cbv iota; destruct (Z.gtb_spec e 0); lia).
  exact H.
Qed.
Lemma exp_nonneg : forall o ch key t v, reachable (ctx_of o) ch -> sees (ctx_of o) ch key t (Some v) -> (0 <= v_exp v)%Z.
Proof.
  intros o ch key t v R S. apply sees_item in S; [|exact R]. unfold live_item in S.
  destruct (cabs (ctx_of o) ch key) as [it|] eqn:E; [|discriminate].
  destruct (alive_at (i_exp it) t); [|discriminate]. injection S as <-. cbn [shown_of v_exp].
  pose proof (reach_cinv o ch R) as I. unfold cabs in E.
  destruct (nth_error (ca_shards ch) (route (ctx_of o) key)) as [s|] eqn:En; [|discriminate].
  pose proof (ci_shard _ _ I _ _ En) as J. unfold sabs in E.
  destruct (lk (ekey (ctx_of o)) (sents s) key) as [e|] eqn:L; [|discriminate]. cbn [option_map] in E.
  injection E as <-. apply lk_some in L. destruct L as [L1 L2].
  assert (W : wf_entry (ctx_of o) e) by (eapply ents_wf; [apply (si_map _ _ J)|exact L1]).
  unfold item_of. cbn [i_exp]. destruct W as (k & w & x & f & c & t0 & Ao & ->).
  rewrite (new_eview (ctx_of o)) by exact Ao. cbn [v_exp]. unfold norm. destruct (Z.ltb_spec 0 x); lia.
Qed.
