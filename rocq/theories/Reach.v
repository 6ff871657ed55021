(** Histories and reachable caches. *)
From Coq Require Import Permutation.
From Verif Require Import Base Types Clamp Entry EntryProofs Hash Map MapProofs MapInv Shard
  Spec Trace ShardProofs ScanProofs LoopProofs Cache Refine.
Local Open Scope N_scope.

(** The options give a load factor and a number of shards in range. *)
Lemma opts_load : forall o, 55 <= c_load (opts_to_ctx o) <= 95.
Proof.
  intro o. unfold opts_to_ctx. cbn [c_load].
  destruct (Z.eqb_spec (op_loadfactor o) 0); [lia|].
  destruct (Z.ltb_spec (op_loadfactor o) 55); [lia|].
  destruct (Z.gtb_spec (op_loadfactor o) 95); lia.
Qed.
Lemma opts_shards : forall o, 0 < c_nshards (opts_to_ctx o).
Proof.
  intro o. unfold opts_to_ctx. cbn [c_nshards]. destruct (Z.leb_spec (op_nshards o) 0); lia.
Qed.

Section H.
Variable c : ctx.
Hypothesis load_ok : 55 <= c_load c <= 95.
Hypothesis shards_ok : 0 < c_nshards c.
Notation route := (route c).
Notation cinv := (cinv c).
Notation cabs := (cabs c).

(** A fresh cache is empty. *)
Definition empty_world : world := mkWorld (fun _ => None)
  (fun i => if (i <? N.to_nat (c_nshards c))%nat then 1 else 0).

Lemma new_loop_ok : forall al n j acc l, new_loop c al n j acc = Ok (Some l) ->
  l = acc ++ repeat (shard_init c) n.
Proof.
  intros al. induction n as [|n IH]; intros j acc l H; cbn [new_loop] in H.
  - injection H as <-. rewrite app_nil_r. reflexivity.
  - destruct (al j).
    + apply IH in H. rewrite H, <- app_assoc. reflexivity.
    + destruct (n =? 0)%nat; discriminate.
Qed.

Lemma init_sents : sents (shard_init c) = [].
Proof. unfold sents, shard_init. apply init_ents. Qed.

Lemma new_ok : forall al ch, cache_new c al = Ok (Some ch) ->
  cinv ch /\ cids ch = [] /\ (forall k, cvw c ch k = None) /\
  (forall k, cabs ch k = None) /\ (forall i, ccas ch i = w_cas empty_world i).
Proof.
  intros al ch H. unfold cache_new in H.
  destruct (new_loop c al _ 0 []) as [[l|]|] eqn:E; try discriminate. injection H as <-.
  apply new_loop_ok in E. cbn [app] in E. subst l.
  assert (Nt : forall i s, nth_error (repeat (shard_init c) (N.to_nat (c_nshards c))) i = Some s -> s = shard_init c).
  { intros i s X. apply nth_error_In in X. apply repeat_spec in X. assumption. }
  split; [|split; [|split; [|split]]].
  - constructor; cbn [ca_shards ca_next].
    + assumption.
    + apply repeat_length.
    + intros i s Hs. rewrite (Nt i s Hs). constructor.
      * apply init_inv. assumption.
      * rewrite placed_eq, init_sents. constructor.
      * rewrite placed_eq, init_sents. constructor.
      * cbn. lia.
    + intros i s k Hs X. rewrite (Nt i s Hs) in X. exfalso. apply X. unfold sabs. rewrite init_sents. reflexivity.
  - unfold cids. cbn [ca_shards]. generalize (N.to_nat (c_nshards c)). clear Nt. intro n. induction n; [reflexivity|].
    cbn [repeat flat_map]. rewrite init_sents. exact IHn.
  - intro k. unfold cvw. cbn [ca_shards]. destruct (nth_error _ _) as [s|] eqn:Hs; [|reflexivity].
    rewrite (Nt _ s Hs). unfold svw. rewrite init_sents. reflexivity.
  - intro k. unfold Refine.cabs. cbn [ca_shards]. destruct (nth_error _ _) as [s|] eqn:Hs; [|reflexivity].
    rewrite (Nt _ s Hs). unfold sabs. rewrite init_sents. reflexivity.
  - intro i. unfold ccas, empty_world. cbn [ca_shards w_cas].
    destruct (Nat.ltb_spec i (N.to_nat (c_nshards c))) as [L|L].
    + destruct (nth_error _ i) as [s|] eqn:Hs; [rewrite (Nt i s Hs); reflexivity|].
      apply nth_error_None in Hs. rewrite repeat_length in Hs. lia.
    + rewrite (proj2 (nth_error_None _ _)); [reflexivity|]. rewrite repeat_length. assumption.
Qed.

(** Every call of the history is one the specification covers. *)
Fixpoint sensible (ch : cache) (h : list (env * call)) : Prop :=
  match h with
  | [] => True
  | (en, x) :: r => call_ok c en (cabs ch) x /\
      forall ch' res evs, step c en ch x = Ok (ch', res, evs) -> sensible ch' r
  end.

(** The references handed out by a history. *)
Definition handed_all (rs : list result) : list N := flat_map handed_of rs.

Lemma cgood_trans2 : forall ch e1 R1 ch1 e2 R2 ch2,
  cgood c ch e1 R1 ch1 -> cgood c ch1 e2 R2 ch2 -> cgood c ch (e1 ++ e2) (R1 ++ R2) ch2.
Proof.
  intros ch e1 R1 ch1 e2 R2 ch2 [A1 A2 A3 A4 A5] [B1 B2 B3 B4 B5]. constructor.
  - assumption.
  - lia.
  - intros held Hh. eapply heap_app; [apply A3; assumption|].
    assert (Hb : Forall (fun i => i < ca_next ch1) (held ++ R1)).
    { apply Forall_app. split; [|assumption]. eapply Forall_impl; [|exact Hh]. cbn. intros; lia. }
    specialize (B3 _ Hb). rewrite <- !app_assoc in B3. exact B3.
  - apply Forall_app. split; [|assumption]. eapply Forall_impl; [|exact A4]. cbn. intros; lia.
  - rewrite notes_app. eapply mirror_app; eassumption.
Qed.

Lemma run_refines : forall h ch, cinv ch -> sensible ch h ->
  exists ch' rs evs, run c ch h = Ok (ch', rs, evs) /\ cgood c ch evs (handed_all rs) ch' /\
    spec_run (c_usecas c) (c_noevict c) route (world_of c ch) h (world_of c ch') rs.
Proof.
  induction h as [|[en x] h IH]; intros ch I S; cbn [run].
  - exists ch, [], []. split; [reflexivity|]. split; [apply cgood_refl; assumption|constructor].
  - cbn [sensible] in S. destruct S as [S1 S2].
    destruct (step_refines c load_ok en ch x I S1) as (ch1 & r & ev1 & E & G & Sp).
    destruct (IH ch1 (cg_inv _ _ _ _ _ G) (S2 _ _ _ E)) as (ch2 & rs & ev2 & E2 & G2 & Sp2).
    exists ch2, (r :: rs), (ev1 ++ ev2). rewrite E, E2. split; [reflexivity|].
    split; [exact (cgood_trans2 _ _ _ _ _ _ _ G G2)|]. econstructor; eassumption.
Qed.

(** A cache some sensible history leads to. *)
Definition reachable (ch : cache) : Prop :=
  exists al ch0 h rs evs, cache_new c al = Ok (Some ch0) /\ sensible ch0 h /\
    run c ch0 h = Ok (ch, rs, evs).

Lemma reachable_inv : forall ch, reachable ch -> cinv ch.
Proof.
  intros ch (al & ch0 & h & rs & evs & N & S & R).
  destruct (new_ok al ch0 N) as (I & _).
  destruct (run_refines h ch0 I S) as (ch' & rs' & evs' & E & G & _).
  rewrite R in E. injection E as -> -> ->. apply G.
Qed.

Lemma run_app : forall h1 ch h2 ch1 rs1 ev1, run c ch h1 = Ok (ch1, rs1, ev1) ->
  run c ch (h1 ++ h2) = match run c ch1 h2 with
    | Ok (ch2, rs2, ev2) => Ok (ch2, rs1 ++ rs2, ev1 ++ ev2) | Bad t => Bad t end.
Proof.
  induction h1 as [|[en x] h1 IH]; intros ch h2 ch1 rs1 ev1 H; cbn [run app] in *.
  - injection H as <- <- <-. destruct (run c ch h2) as [[[? ?] ?]|]; reflexivity.
  - destruct (step c en ch x) as [[[cha r] eva]|]; [|discriminate].
    destruct (run c cha h1) as [[[chb rsb] evb]|] eqn:E; [|discriminate]. injection H as <- <- <-.
    rewrite (IH _ h2 _ _ _ E). destruct (run c chb h2) as [[[? ?] ?]|]; [|reflexivity].
    cbn [app]. rewrite app_assoc. reflexivity.
Qed.

Lemma sensible_app : forall h1 ch h2 ch1 rs1 ev1, run c ch h1 = Ok (ch1, rs1, ev1) ->
  sensible ch h1 -> sensible ch1 h2 -> sensible ch (h1 ++ h2).
Proof.
  induction h1 as [|[en x] h1 IH]; intros ch h2 ch1 rs1 ev1 H S1 S2; cbn [run app sensible] in *.
  - injection H as <- <- <-. assumption.
  - destruct S1 as [S0 S1]. split; [assumption|]. intros ch' res evs E. rewrite E in H.
    destruct (run c ch' h1) as [[[chb rsb] evb]|] eqn:E2; [|discriminate]. injection H as <- <- <-.
    eapply IH; eauto.
Qed.

Lemma reachable_run : forall ch h ch' rs evs, reachable ch -> sensible ch h ->
  run c ch h = Ok (ch', rs, evs) -> reachable ch'.
Proof.
  intros ch h ch' rs evs (al & ch0 & h0 & rs0 & ev0 & N & S & R) Sh Rh.
  exists al, ch0, (h0 ++ h), (rs0 ++ rs), (ev0 ++ evs). split; [assumption|]. split.
  - eapply sensible_app; eassumption.
  - rewrite (run_app _ _ h _ _ _ R), Rh. reflexivity.
Qed.

Lemma reachable_step : forall ch en x, reachable ch -> call_ok c en (cabs ch) x ->
  exists ch' r evs, step c en ch x = Ok (ch', r, evs) /\ reachable ch' /\
    cgood c ch evs (handed_of r) ch' /\
    spec_step (c_usecas c) (c_noevict c) route en (world_of c ch) x (world_of c ch') r.
Proof.
  intros ch en x Rc K.
  destruct (step_refines c load_ok en ch x (reachable_inv ch Rc) K) as (ch' & r & evs & E & G & Sp).
  exists ch', r, evs. split; [assumption|]. split; [|split; assumption].
  apply (reachable_run ch [(en, x)] ch' [r] evs Rc).
  - split; [assumption|]. intros; exact Logic.I.
  - cbn [run]. rewrite E, app_nil_r. reflexivity.
Qed.

(** *** A condition on the history alone *)

(** The keys stored by a history. *)
Definition stored (h : list (env * call)) : list bytes :=
  flat_map (fun p => match snd p with Store key _ _ _ => [key] | _ => [] end) h.

(** The arguments of a call are in the range of their C types and memory
    is available. *)
Definition args_fine (en : env) (x : call) : Prop :=
  match x with
  | Store key val o time =>
      store_ok key val o (resolve_now time (en_clock en)) /\
      al_entry (en_mem en (route key)) = true
  | Load key o _ => update_ok key (lo_entry o)
  | EntryIter cursor _ => N.shiftr cursor 32 <> c_nshards c
  | Clear _ _ _ => forall i, al_table (en_mem en i) = true
  | _ => True
  end.

(** No shard ever sees more than 253 different keys. *)
Definition few_keys (keys : list bytes) : Prop :=
  forall i ks, NoDup ks -> (forall k, In k ks -> In k keys /\ route k = i) -> (length ks <= 253)%nat.

Lemma step_keys : forall en w x w' r, spec_step (c_usecas c) (c_noevict c) route en w x w' r ->
  forall k, w_map w' k <> None -> w_map w k <> None \/ In k (stored [(en, x)]).
Proof.
  intros en w x w' r H k Hk. unfold stored. cbn [flat_map snd app].
  assert (Ls : forall m k now, live_item m k now <> None -> m k <> None).
  { intros m k0 now X. unfold live_item in X. destruct (m k0); congruence. }
  inversion H; subst; cbn [app].
  - rewrite H1 in Hk.
    destruct (beq key k) eqn:B; [apply beq_eq in B; right; left; assumption|]. left.
    assert (Q : forall m cas m' cas' st sh, sp_store (c_usecas c) m cas key val o (resolve_now time (en_clock en)) = (m', cas', st, sh) ->
       m' k <> None -> m k <> None).
    { intros m cas0 m1 cas1 st1 sh1 E. unfold sp_store in E.
      repeat match type of E with context [match ?x with _ => _ end] => destruct x end;
        injection E as <- _ _ _; unfold aset; rewrite ?B; auto. }
    inversion H0; subst.
    + eapply Q; eassumption.
    + unfold aset in Hk. destruct (beq victim k); [congruence|]. eapply Q; eassumption.
    + assumption.
    + assumption.
  - left. rewrite H1 in Hk. unfold sp_load in H0.
    destruct (live_item (w_map w) key (resolve_now time (en_clock en))) as [it|] eqn:L.
    + assert (Lk : w_map w key <> None) by (apply (Ls _ key (resolve_now time (en_clock en))); congruence).
      assert (Q : m' k <> None -> beq key k = false -> w_map w k <> None).
      { intros X B. repeat match type of H0 with context [match ?x with _ => _ end] => destruct x end;
        injection H0 as <- _ _ _; unfold aset in X; rewrite ?B in X; assumption. }
      destruct (beq key k) eqn:B; [apply beq_eq in B; subst k; assumption|auto].
    + injection H0 as <- _ _ _. unfold aset in Hk. destruct (beq key k); [congruence|assumption].
  - left. rewrite H1 in Hk. unfold sp_delete in H0.
    repeat match type of H0 with context [match ?x with _ => _ end] => destruct x end;
        injection H0 as <- _ _; unfold aset in Hk; try destruct (beq key k); congruence.
  - left. destruct (in_dec (list_eq_dec N.eq_dec) k deleted) as [X|X].
    + rewrite (it_gone _ _ _ _ _ _ _ _ _ _ H0 k X) in Hk. congruence.
    + destruct (it_kept _ _ _ _ _ _ _ _ _ _ H0 k X) as [Y|(_ & _ & Y)]; congruence.
  - left. destruct (H2 k) as [X|[_ X]]; congruence.
  - left. destruct (H0 k) as [Q1 Q2].
    assert (sel route one k \/ ~ sel route one k) as [X|X].
    { unfold sel. destruct one as [z|]; [|auto]. destruct (Z.eq_dec (Z.of_nat (route k)) z); auto. }
    + rewrite (Q1 X) in Hk. eauto.
    + rewrite (Q2 X) in Hk. assumption.
  - left. destruct (H0 k) as [Q1 Q2].
    assert (sel route one k \/ ~ sel route one k) as [X|X].
    { unfold sel. destruct one as [z|]; [|auto]. destruct (Z.eq_dec (Z.of_nat (route k)) z); auto. }
    + rewrite (Q1 X) in Hk. congruence.
    + rewrite (Q2 X) in Hk. assumption.
  - left. rewrite H0 in Hk. assumption.
  - left. rewrite H0 in Hk. assumption.
  - left. rewrite H0 in Hk. assumption.
  - left. rewrite H0 in Hk. assumption.
Qed.

Lemma run_keys : forall h w w' rs, spec_run (c_usecas c) (c_noevict c) route w h w' rs ->
  forall k, w_map w' k <> None -> w_map w k <> None \/ In k (stored h).
Proof.
  intros h w w' rs H. induction H as [|w en x w1 r h w2 rs St _ IH]; intros k Hk; [left; assumption|].
  unfold stored. cbn [flat_map]. rewrite in_app_iff.
  destruct (IH k Hk) as [X|X]; [|right; right; exact X].
  destruct (step_keys _ _ _ _ _ St k X) as [Y|Y]; [left; assumption|right; left].
  unfold stored in Y. cbn [flat_map] in Y. rewrite app_nil_r in Y. exact Y.
Qed.

Lemma few_sensible : forall h ch keys, cinv ch ->
  (forall k, cabs ch k <> None -> In k keys) -> few_keys (keys ++ stored h) ->
  Forall (fun p => args_fine (fst p) (snd p)) h -> sensible ch h.
Proof.
  induction h as [|[en x] h IH]; intros ch keys I Hk Fk Fa; cbn [sensible]; [exact Logic.I|].
  inversion Fa as [|? ? Fx Fr]; subst. cbn [fst snd] in Fx.
  assert (K : call_ok c en (cabs ch) x).
  { destruct x; cbn [call_ok args_fine] in *; try assumption.
    destruct Fx as [F1 F2]. split; [assumption|]. split; [assumption|].
    apply (roomy_small c load_ok). intros ks Nd Hks. apply (Fk (route key)); [assumption|].
    intros k Hin. destruct (Hks k Hin) as [R1 R2]. split; [|assumption]. apply in_or_app. left. auto. }
  split; [assumption|]. intros ch' res evs E.
  destruct (step_refines c load_ok en ch x I K) as (ch1 & r & ev1 & E1 & G & Sp).
  rewrite E in E1. injection E1 as <- <- <-.
  apply (IH ch' (keys ++ stored [(en, x)])).
  - apply G.
  - intros k X. apply in_or_app. destruct (step_keys _ _ _ _ _ Sp k X) as [Y|Y]; [left; auto|right; assumption].
  - rewrite <- app_assoc. replace (stored [(en, x)] ++ stored h) with (stored ((en, x) :: h)); [exact Fk|]. unfold stored. cbn [flat_map]. rewrite app_nil_r. reflexivity.
  - assumption.
Qed.

End H.
