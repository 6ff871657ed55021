(** The threads of load while clients use the cache: what the threads have done at any time does not depend on what is in the cache. *)
From Verif Require Import Base Types Clamp Varint VarintProofs Entry EntryProofs Hash Map MapProofs MapInv Shard
  Spec Trace ShardProofs ScanProofs LoopProofs Cache Refine Reach Observe PropCache PropItems Text CmdSpec CmdsProofs Save SaveSpec CrcProofs SaveProofs
  LoadProofs LoadProofs2 LoadLive.
From Coq Require Import String Permutation.
Local Open Scope N_scope.
Notation length := List.length.
Notation concat := List.concat.
Notation map := List.map.

Section L.
Variable c : ctx.
Variable decompress : bytes -> N -> option bytes.
Variable clocks : Z -> Z -> Prop.
Variable envs : env -> Prop.
Variable blocks : list cblock.
Variable rd : bool.
Variable nprocs : nat.

(** As [linv] of LoadProofs, but for the cache. *)
Record core (x : loading) (tks : list taken) (done : list call) : Prop := {
  co_blocks : Permutation blocks (map tk_block tks ++ ld_queue x ++ ld_left x);
  co_prefix : exists pre, blocks = pre ++ ld_left x;
  co_tks : Forall (fun t => clocks (tk_now t) (tk_unix t) /\
      load_block decompress (tk_block t) (tk_now t) (tk_unix t) = Ok (tk_stores t, tk_fin t)) tks;
  co_stores : Permutation (flat_map tk_stores tks) (done ++ flat_map todo (ld_workers x));
  co_fin : ld_failure x = false -> forall t, In t tks -> tk_fin t = false -> exists l, In (WRun l false) (ld_workers x);
  co_end : ld_failure x = false -> In WEnd (ld_workers x) -> ld_queue x = [] /\ ld_done x <> None;
  co_rd : ld_read x = rd;
  co_done : forall d, ld_done x = Some d -> (d = true -> ld_left x = [] /\ rd = true) /\ (d = false -> rd = false \/ ld_failure x = true) /\ (ld_failure x = false -> ld_left x = []);
  co_np : length (ld_workers x) = nprocs;
  co_fail : ld_failure x = true -> exists t, In t tks /\ tk_fin t = false;
  co_runs : forall l f, In (WRun l f) (ld_workers x) -> exists t pre, In t tks /\ tk_fin t = f /\ tk_stores t = pre ++ l
}.

Lemma core_start : forall ch left, left = blocks -> core (mkLoading left rd None [] false (repeat WIdle nprocs) ch) [] [].
Proof.
  intros ch left ->. assert (E : forall w, In w (repeat WIdle nprocs) -> w = WIdle) by (intros w Hw; exact (repeat_spec _ _ _ Hw)).
  constructor; cbn [ld_left ld_queue ld_workers ld_cache ld_failure ld_done ld_read].
  - reflexivity.
  - exists []. reflexivity.
  - constructor.
  - assert (Z : flat_map todo (repeat WIdle nprocs) = []) by (induction nprocs as [|n IH]; [reflexivity|]; cbn [repeat flat_map todo app]; apply IH; intros w Hw; exact (repeat_spec _ _ _ Hw)).
    rewrite Z. constructor.
  - intros _ t [].
  - intros _ H. apply E in H. discriminate.
  - reflexivity.
  - discriminate.
  - apply repeat_length.
  - discriminate.
  - intros l f H. apply E in H. discriminate.
Qed.

Ltac lproj := cbn [ld_left ld_queue ld_workers ld_cache ld_failure ld_done ld_read] in *.
Lemma core_step : forall x y tks done, core x tks done -> load_step c decompress clocks envs x y ->
  exists tks' done', core y tks' done' /\
    (done' = done /\ ld_cache y = ld_cache x \/
     exists z en st sh evs, done' = done ++ [z] /\ In z (flat_map todo (ld_workers x)) /\ envs en /\
       step c en (ld_cache x) z = Ok (ld_cache y, RStatus st sh, evs) /\ (st = INSERTED \/ st = REPLACED)).
Proof.
  intros x y tks done [L1 L1b L2 L3 L5 L6 L7 L8 L9 L10 L11] H. inversion H; subst; lproj.
  - (* take *)
    exists (mkTaken b now unixnow l fin :: tks), done. split; [|left; split; reflexivity]. constructor; lproj; try assumption.
    + cbn [map tk_block]. rewrite L1. rewrite <- !app_assoc. cbn [app].
      rewrite app_assoc. rewrite <- Permutation_middle. rewrite <- app_assoc. reflexivity.
    + constructor; [split; assumption|assumption].
    + cbn [flat_map tk_stores]. rewrite L3. rewrite !flat_map_app. cbn [flat_map todo app].
      rewrite (app_assoc done). rewrite (Permutation_app_comm l). rewrite <- !app_assoc. apply Permutation_app_head.
      apply Permutation_app_head. apply Permutation_app_comm.
    + intros _ t [<-|Ht] Hf.
      * cbn [tk_fin] in Hf. subst fin. exists l. apply in_mid. left. reflexivity.
      * destruct (L5 eq_refl t Ht Hf) as (l0 & Hl). exists l0. apply in_mid. apply in_mid in Hl. destruct Hl as [E|Hl]; [discriminate|right; exact Hl].
    + intros _ He. apply in_mid in He. destruct He as [E|He]; [discriminate|].
      assert (X : In WEnd (ws1 ++ WIdle :: ws2)) by (apply in_mid; right; exact He).
      destruct (L6 eq_refl X) as [Eq _]. destruct q; discriminate.
    + rewrite app_length in *. cbn [length] in *. exact L9.
    + discriminate.
    + intros l0 f Hl. apply in_mid in Hl. destruct Hl as [E|Hl].
      * injection E as -> ->. eexists _, []. split; [left; reflexivity|]. split; reflexivity.
      * destruct (L11 l0 f) as (t & pre & Ht & R); [apply in_mid; right; exact Hl|]. exists t, pre. split; [right; exact Ht|exact R].
  - (* store *)
    exists tks, (done ++ [x0]). split; [|right; exists x0, en, st, sh, evs; repeat (split; [first [assumption|reflexivity|rewrite flat_map_app; apply in_or_app; right; left; reflexivity]|]); assumption]. constructor; lproj; try assumption.
    + rewrite L3. rewrite !flat_map_app. cbn [flat_map todo app]. rewrite <- !app_assoc. apply Permutation_app_head. cbn [app].
      symmetry. apply Permutation_middle.
    + intros Hfl t Ht Hf. destruct (L5 Hfl t Ht Hf) as (l0 & Hl). apply in_mid in Hl. destruct Hl as [E|Hl].
      * injection E as -> <-. exists l. apply in_mid. left. reflexivity.
      * exists l0. apply in_mid. right. exact Hl.
    + intros Hfl He. apply in_mid in He. destruct He as [E|He]; [discriminate|]. apply (L6 Hfl). apply in_mid. right. exact He.
    + rewrite app_length in *. exact L9.
    + intros l0 f Hl. apply in_mid in Hl. destruct Hl as [E|Hl].
      * injection E as -> ->. destruct (L11 (x0 :: l) fin) as (t & pre & Ht & F & S0); [apply in_mid; left; reflexivity|].
        exists t, (pre ++ [x0]). split; [exact Ht|]. split; [exact F|]. rewrite <- app_assoc. exact S0.
      * apply L11. apply in_mid. right. exact Hl.
  - (* next *)
    exists tks, done. split; [|left; split; reflexivity]. constructor; lproj; try assumption.
    + rewrite L3. rewrite !flat_map_app. cbn [flat_map todo app]. reflexivity.
    + intros Hfl t Ht Hf. destruct (L5 Hfl t Ht Hf) as (l0 & Hl). apply in_mid in Hl. destruct Hl as [E|Hl]; [discriminate|].
      exists l0. apply in_mid. right. exact Hl.
    + intros Hfl He. apply in_mid in He. destruct He as [E|He]; [discriminate|]. apply (L6 Hfl). apply in_mid. right. exact He.
    + rewrite app_length in *. exact L9.
    + intros l0 f Hl. apply in_mid in Hl. destruct Hl as [E|Hl]; [discriminate|]. apply L11. apply in_mid. right. exact Hl.
  - (* fail *)
    exists tks, done. split; [|left; split; reflexivity]. constructor; lproj; try assumption; try discriminate.
    + rewrite L3. rewrite !flat_map_app. cbn [flat_map todo app]. reflexivity.
    + intros d Hd. destruct (L8 d Hd) as (A & B & C). split; [exact A|]. split; [intros _; right; reflexivity|discriminate].
    + rewrite app_length in *. exact L9.
    + intros _. destruct (L11 [] false) as (t & pre & Ht & F & _); [apply in_mid; left; reflexivity|]. exists t. auto.
    + intros l0 f Hl. apply in_mid in Hl. destruct Hl as [E|Hl]; [discriminate|]. apply L11. apply in_mid. right. exact Hl.
  - (* end *)
    exists tks, done. split; [|left; split; reflexivity]. constructor; lproj; try assumption.
    + rewrite L3. rewrite !flat_map_app. cbn [flat_map todo app]. reflexivity.
    + intros Hfl t Ht Hf. destruct (L5 Hfl t Ht Hf) as (l0 & Hl). apply in_mid in Hl. destruct Hl as [E|Hl]; [discriminate|].
      exists l0. apply in_mid. right. exact Hl.
    + intros Hfl He. destruct H0 as [E|E]; [congruence|exact E].
    + rewrite app_length in *. exact L9.
    + intros l0 f Hl. apply in_mid in Hl. destruct Hl as [E|Hl]; [discriminate|]. apply L11. apply in_mid. right. exact Hl.
  - (* push *)
    exists tks, done. split; [|left; split; reflexivity]. constructor; lproj; try assumption; try discriminate.
    + rewrite <- app_assoc. exact L1.
    + destruct L1b as (pre & Hp). exists (pre ++ [b]). rewrite <- app_assoc. exact Hp.
    + intros _ He. destruct (L6 eq_refl He) as [_ X]. congruence.
  - (* stop *)
    exists tks, done. split; [|left; split; reflexivity]. constructor; lproj; try assumption; try discriminate.
    intros d E. injection E as <-. split; [discriminate|]. split; [intros _; right; reflexivity|discriminate].
  - (* read *)
    exists tks, done. split; [|left; split; reflexivity]. constructor; lproj; try assumption.
    + intros Hfl He. destruct (L6 Hfl He) as [X _]. split; [exact X|discriminate].
    + intros d E. injection E as <-. split; [intro R; split; [reflexivity|congruence]|]. split; [intro R; left; congruence|reflexivity].
Qed.
Lemma core_cache : forall x ch tks done, core x tks done -> core (with_cache x ch) tks done.
Proof. intros x ch tks done [L1 L1b L2 L3 L5 L6 L7 L8 L9 L10 L11]. constructor; cbn [with_cache ld_left ld_queue ld_workers ld_cache ld_failure ld_done ld_read]; assumption. Qed.

(** At the end: success means that every block was loaded to its end. *)
Lemma core_success : forall x tks done, core x tks done -> (1 <= nprocs)%nat -> load_ended x = true -> load_result x = 0%Z ->
  rd = true /\ Permutation blocks (map tk_block tks) /\ Permutation (flat_map tk_stores tks) done /\ Forall (fun t => tk_fin t = true) tks.
Proof.
  intros x tks done [L1 L1b L2 L3 L5 L6 L7 L8 L9 L10 L11] Np He Hr.
  pose proof (ended_todo x He) as Ht. unfold load_result in Hr. unfold load_ended in He.
  destruct (ld_done x) as [d|] eqn:Ed; [|discriminate]. destruct d; [|discriminate]. destruct (ld_failure x) eqn:Ef; [discriminate|].
  destruct (L8 true eq_refl) as (A & _ & _). destruct (A eq_refl) as [A1 A2].
  rewrite forallb_forall in He.
  assert (We : forall w, In w (ld_workers x) -> w = WEnd) by (intros w Hw; specialize (He w Hw); destruct w; congruence).
  assert (Ie : In WEnd (ld_workers x)).
  { destruct (ld_workers x) as [|w ws]; [cbn [length] in L9; lia|]. left. apply We. left. reflexivity. }
  destruct (L6 eq_refl Ie) as [Q _]. rewrite Q, A1, !app_nil_r in L1. rewrite Ht, app_nil_r in L3.
  split; [exact A2|]. split; [exact L1|]. split; [exact L3|].
  apply Forall_forall. intros t Hin. destruct (tk_fin t) eqn:Ft; [reflexivity|]. destruct (L5 eq_refl t Hin Ft) as (l & Hl).
  apply We in Hl. discriminate.
Qed.
(** Failure has a cause. *)
Lemma core_failure : forall x tks done, core x tks done -> load_ended x = true -> load_result x <> 0%Z ->
  rd = false \/ exists t, In t tks /\ tk_fin t = false.
Proof.
  intros x tks done [L1 L1b L2 L3 L5 L6 L7 L8 L9 L10 L11] He Hr.
  unfold load_result in Hr. unfold load_ended in He. destruct (ld_done x) as [d|] eqn:Ed; [|discriminate].
  destruct (ld_failure x) eqn:Ef; [right; exact (L10 eq_refl)|]. destruct d; [contradiction|].
  destruct (L8 false eq_refl) as (_ & B & _). destruct (B eq_refl) as [X|X]; [left; exact X|discriminate].
Qed.

(** ** It can always go on *)
Hypothesis clocks_ok : forall now unix, clocks now unix -> times_ok now unix.
Hypothesis np : (1 <= nprocs)%nat.
Hypothesis some_clock : exists now unix, clocks now unix.
Lemma core_progress : forall x tks done, core x tks done -> load_ended x = false ->
  (forall y l f, In (WRun (y :: l) f) (ld_workers x) -> exists en ch' s sh evs, envs en /\ step c en (ld_cache x) y = Ok (ch', RStatus s sh, evs) /\ (s = INSERTED \/ s = REPLACED)) ->
  exists y, load_step c decompress clocks envs x y.
Proof.
  intros x tks done [L1 L1b L2 L3 L5 L6 L7 L8 L9 L10 L11] He Hst.
  destruct x as [left rd' dn q fl ws ch]. lproj.
  assert (Run : (exists l f, In (WRun l f) ws) \/ (forall w, In w ws -> w = WIdle \/ w = WEnd)).
  { clear. induction ws as [|w ws IH]; [right; intros w []|]. destruct w as [|l f|].
    - destruct IH as [(l & f & H)|H]; [left; exists l, f; right; exact H|]. right. intros w [<-|Hw]; [left; reflexivity|exact (H w Hw)].
    - left. exists l, f. left. reflexivity.
    - destruct IH as [(l & f & H)|H]; [left; exists l, f; right; exact H|]. right. intros w [<-|Hw]; [right; reflexivity|exact (H w Hw)]. }
  destruct Run as [(l & f & Hr)|Hr].
  { destruct l as [|y l].
    - apply in_split in Hr. destruct Hr as (w1 & w2 & ->). destruct f; eexists; [apply ls_next|apply ls_fail].
    - destruct (Hst y l f Hr) as (en & ch' & s & sh & evs & Hen & Es & Hs). apply in_split in Hr. destruct Hr as (w1 & w2 & ->).
      eexists. eapply ls_store; eassumption. }
  destruct some_clock as (now & unix & Hc). pose proof (clocks_ok _ _ Hc) as [_ T].
  destruct dn as [d|].
  - assert (Id : exists w1 w2, ws = w1 ++ WIdle :: w2).
    { unfold load_ended in He. lproj. destruct (in_dec (fun a b : bool => Bool.bool_dec a b) false (map (fun w => match w with WEnd => true | _ => false end) ws)) as [Hf|Hf].
      - apply in_map_iff in Hf. destruct Hf as (w & Ew & Hw). destruct (Hr w Hw) as [->| ->]; [|discriminate]. apply in_split. exact Hw.
      - exfalso. assert (X : forallb (fun w => match w with WEnd => true | _ => false end) ws = true).
        { apply forallb_forall. intros w Hw. destruct (match w with WEnd => true | _ => false end) eqn:E; [reflexivity|].
          exfalso. apply Hf. apply in_map_iff. exists w. split; [exact E|exact Hw]. }
        congruence. }
    destruct Id as (w1 & w2 & ->). destruct fl.
    + eexists. apply ls_end. left. reflexivity.
    + destruct q as [|b0 q0] eqn:Eq using rev_ind; [eexists; apply ls_end; right; split; [reflexivity|discriminate]|].
      destruct (load_block_total decompress clocks b0 now unix) as (l & fin & El & _); [lia|]. eexists. eapply ls_take; eassumption.
  - destruct left as [|b left]; [eexists; apply ls_read|]. destruct fl; [eexists; apply ls_stop|].
    destruct (Nat.lt_ge_cases (length q) (length ws)) as [Lq|Lq]; [eexists; apply ls_push; exact Lq|].
    assert (Id : exists w1 w2, ws = w1 ++ WIdle :: w2).
    { destruct ws as [|w ws]; [cbn [length] in L9; lia|]. exists [], ws. destruct (Hr w (or_introl eq_refl)) as [->| ->]; [reflexivity|].
      destruct (L6 eq_refl (or_introl eq_refl)) as [_ X]. congruence. }
    destruct Id as (w1 & w2 & ->).
    destruct q as [|b0 q0] using rev_ind; [rewrite app_length in *; cbn [length] in *; lia|].
    destruct (load_block_total decompress clocks b0 now unix) as (l & fin & El & _); [lia|]. eexists. eapply ls_take; eassumption.
Qed.
End L.

Section Back.
Variables o o' : opts.
Variable compress : bytes -> bytes.
Variable decompress : bytes -> N -> option bytes.
Hypothesis lz : lz_ok compress decompress.
Variable shots : nat -> shot.
Hypothesis shots_ok : forall i, (i < N.to_nat (c_nshards (ctx_of o)))%nat -> shot_ok o (shots i).
Variable file : bytes.
Hypothesis saved : saved_file o compress shots file.
Variable ch0 : cache.
Hypothesis reach0 : reachable (ctx_of o') ch0.
Variable clocks : Z -> Z -> Prop.
Hypothesis clocks_ok : forall now unix, clocks now unix -> times_ok now unix.
Variable envs : env -> Prop.
Hypothesis envs_ok : forall en, envs en -> mem_fine en.
Variable nprocs : nat.
Hypothesis np : (1 <= nprocs)%nat.
Definition shot_of (key : bytes) : shot := shots (route (ctx_of o) key).
Definition in_file (key : bytes) (v : view) : Prop := sees (ctx_of o) (sh_cache (shot_of key)) key (sh_now (shot_of key)) (Some v).
Definition in_use (key : bytes) : Prop := exists v, in_file key v.
Definition put (cg : change) (key : bytes) (v : view) : Prop :=
  exists now' unix', clocks now' unix' /\ came_back o' (cg_before cg) (cg_after cg) key v (sh_now (shot_of key)) (sh_unix (shot_of key)) now' unix'.

Lemma route_lt : forall key, (route (ctx_of o) key < N.to_nat (c_nshards (ctx_of o)))%nat.
Proof.
  intro key. unfold route, shard_index. pose proof (opts_shards o). change (opts_to_ctx o) with (ctx_of o) in H.
  pose proof (N.mod_lt (N.shiftr (th64 key (c_seed (ctx_of o))) 32) (c_nshards (ctx_of o))). lia.
Qed.
Lemma in_file_one : forall key v w, in_file key v -> in_file key w -> v = w.
Proof.
  intros key v w A B. unfold in_file in A, B. pose proof (sees_unique _ (opts_load o) (sh_cache (shot_of key)) _ _ _ _ (reach_cinv o _ (proj1 (shots_ok _ (route_lt key)))) A B) as E. injection E as ->. reflexivity.
Qed.
Lemma same_refl : forall ch key, same_at (ctx_of o') ch ch key.
Proof. intros ch key now v. reflexivity. Qed.

(** What a store of load does. *)
Lemma store_put : forall ch en x ch' st sh evs key v now' unix', reachable (ctx_of o') ch -> room_for o' ch in_use -> good_store in_use x -> envs en ->
  step (ctx_of o') en ch x = Ok (ch', RStatus st sh, evs) -> in_file key v -> clocks now' unix' ->
  [x] = back_store (sh_now (shot_of key)) (sh_unix (shot_of key)) now' unix' key v ->
  reachable (ctx_of o') ch' /\ put (mkChange true ch ch') key v /\ (forall k, k <> key -> same_at (ctx_of o') ch ch' k) /\
    forall k, cabs (ctx_of o') ch' k <> None -> k = key \/ cabs (ctx_of o') ch k <> None.
Proof.
  intros ch en x ch' st sh evs key v now' unix' R Rm G Me E Hv Hc Eb.
  destruct (good_result o' ch in_use Rm ch en x ch' _ evs R (fun k Hk => or_introl Hk) G (envs_ok en Me) E)
    as (Rx & _ & key' & val & ttl & fl & cas & t & tok & s' & sh' & -> & _ & _ & Ab).
  pose proof (shots_ok _ (route_lt key)) as [Sr Tr]. destruct (sees_item o _ key _ v Sr Hv) as [Iv Al].
  assert (Nz : v_exp v = 0%Z \/ (0 < v_exp v)%Z) by (destruct Iv as (_ & _ & _ & Iv & _); lia).
  assert (Ek : key' = key).
  { unfold back_store in Eb. destruct (0 <? v_exp v)%Z; [destruct (_ <? _)%Z; [discriminate|]|]; injection Eb; congruence. }
  subst key'. split; [exact Rx|]. split.
  - assert (A2 : cabs (ctx_of o') ch' key = Some (left_by val ttl fl tok t)) by (rewrite Ab, beq_refl; reflexivity).
    exists now', unix'. split; [exact Hc|]. cbn [cg_before cg_after]. pose proof (clocks_ok _ _ Hc) as [X1 X2].
    unfold back_store in Eb. destruct (Z.ltb_spec 0 (v_exp v)).
    + set (inst := instant (sh_now (shot_of key)) (sh_unix (shot_of key)) (v_exp v)) in *.
      destruct (Z.ltb_spec (Z.min INT64_MAX inst) unix'); [discriminate|]. injection Eb as -> -> _ -> ->.
      destruct (Z.eq_dec (Z.min INT64_MAX inst) unix') as [Eq|Nq].
      * apply (cb_brink _ _ _ _ _ _ _ _ _ tok); [lia|fold inst; lia|].
        eapply holds_shown; [exact Rx|exact A2|]. unfold left_by, shown_of. cbn [i_val i_exp i_flags i_cas].
        destruct (Z.ltb_spec 0 (Z.min INT64_MAX inst - unix')); [lia|reflexivity].
      * apply (cb_until _ _ _ _ _ _ _ _ _ (Z.min INT64_MAX (now' + (Z.min INT64_MAX inst - unix'))) tok); fold inst.
        -- lia.
        -- lia.
        -- intros Q1 Q2. unfold instant. lia.
        -- unfold INT64_MAX in *. lia.
        -- eapply holds_shown; [exact Rx|exact A2|]. unfold left_by, shown_of. cbn [i_val i_exp i_flags i_cas].
           destruct (Z.ltb_spec 0 (Z.min INT64_MAX inst - unix')); [reflexivity|lia].
    + injection Eb as -> -> _ -> ->. apply (cb_forever _ _ _ _ _ _ _ _ _ tok); [lia|].
      eapply holds_shown; [exact Rx|exact A2|]. unfold left_by, shown_of. cbn [i_val i_exp i_flags i_cas Z.ltb Z.compare]. reflexivity.
  - split.
    + intros k Hk. apply (same_at_abs _ (opts_load o')); [apply reach_cinv; exact R|apply reach_cinv; exact Rx|].
      rewrite Ab. destruct (beq key k) eqn:B; [apply beq_eq in B; congruence|reflexivity].
    + intros k Hk. rewrite Ab in Hk. destruct (beq key k) eqn:B; [apply beq_eq in B; left; congruence|right; exact Hk].
Qed.

(** The keys that are ever used, for which there is room. *)
Variable used : bytes -> Prop.
Hypothesis file_used : forall key, in_use key -> used key.
Hypothesis room_used : forall m key, (forall k, m k <> None -> used k) -> in_use key -> roomy (ctx_of o') m key.
Hypothesis used0 : forall k, cabs (ctx_of o') ch0 k <> None -> used k.
Lemma used_room : forall ch, (forall k, cabs (ctx_of o') ch k <> None -> used k) -> room_for o' ch in_use.
Proof. intros ch H m key Hm Hk. apply room_used; [|exact Hk]. intros k Mk. destruct (Hm k Mk) as [X|X]; [exact (H k X)|exact (file_used k X)]. Qed.

(** What holds at any moment. *)
Definition key_of (x : call) : option bytes := match x with Store k _ _ _ => Some k | _ => None end.
Definition lives (blocks : list cblock) (t : list change) (y : loading) : Prop :=
  exists tks done, core decompress clocks blocks true nprocs y tks done /\ reachable (ctx_of o') (ld_cache y) /\
    (forall k, cabs (ctx_of o') (ld_cache y) k <> None -> used k) /\
    (forall cg key, In cg t -> cg_load cg = true -> same_at (ctx_of o') (cg_before cg) (cg_after cg) key \/ exists v, in_file key v /\ put cg key v) /\
    (forall x, In x done -> exists k v cg, key_of x = Some k /\ In cg t /\ cg_load cg = true /\ in_file k v /\ put cg k v) /\
    (ld_done y <> None -> exists cg, In cg t /\ cg_load cg = true).

Section Run.
Variable blocks : list cblock.
Hypothesis read : read_file file = (blocks, true).
Hypothesis from : forall b, In b blocks -> exists i items, from_shard o decompress shots b i items.

Lemma lives_start : lives blocks [] (load_start file nprocs ch0).
Proof.
  exists [], []. split; [|split; [exact reach0|split; [exact used0|split; [intros cg key []|split; [intros x []|]]]]].
  - unfold load_start. rewrite read. cbn [fst snd]. apply core_start. reflexivity.
  - intro H. exfalso. apply H. reflexivity.
Qed.
Lemma taken_from : forall y tks done t, core decompress clocks blocks true nprocs y tks done -> In t tks ->
  exists i items, from_shard o decompress shots (tk_block t) i items /\ tk_fin t = true /\ clocks (tk_now t) (tk_unix t) /\
     tk_stores t = flat_map (fun p => back_store (sh_now (shots i)) (sh_unix (shots i)) (tk_now t) (tk_unix t) (fst p) (snd p)) items.
Proof.
  intros y tks done t C Hin. pose proof (co_tks _ _ _ _ _ _ _ _ C) as Ht. rewrite Forall_forall in Ht. destruct (Ht t Hin) as [Hc Hl].
  assert (Hb : In (tk_block t) blocks).
  { apply (Permutation_in _ (Permutation_sym (co_blocks _ _ _ _ _ _ _ _ C))). apply in_app_iff. left. apply in_map. exact Hin. }
  destruct (from _ Hb) as (i & items & Fs). exists i, items. split; [exact Fs|]. destruct Fs as (_ & _ & Fs).
  rewrite (Fs _ _ (clocks_ok _ _ Hc)) in Hl. injection Hl as H1 H2. auto.
Qed.
(** A store that a thread has made or is about to make. *)
Lemma store_from : forall y tks done x, core decompress clocks blocks true nprocs y tks done -> In x (done ++ flat_map todo (ld_workers y)) ->
  good_store in_use x /\ exists key v now' unix', in_file key v /\ clocks now' unix' /\
    [x] = back_store (sh_now (shot_of key)) (sh_unix (shot_of key)) now' unix' key v.
Proof.
  intros y tks done x C Hx. apply (Permutation_in _ (Permutation_sym (co_stores _ _ _ _ _ _ _ _ C))) in Hx.
  apply in_flat_map in Hx. destruct Hx as (t & Hin & Hx). destruct (taken_from y tks done t C Hin) as (i & items & Fs & _ & Hc & Es). rewrite Es in Hx.
  destruct (shard_store o decompress shots shots_ok clocks clocks_ok nprocs np _ i items _ _ x Fs (clocks_ok _ _ Hc) Hx) as (G & k & v & _ & Q1 & Q2 & Q3).
  split; [exact G|]. subst i. exists k, v, (tk_now t), (tk_unix t). auto.
Qed.
Lemma lives_load : forall t y z, lives blocks t y -> load_step (ctx_of o') decompress clocks envs y z ->
  lives blocks (t ++ [mkChange true (ld_cache y) (ld_cache z)]) z.
Proof.
  intros t y z (tks & done & C & R & Us & A & B & D) Hs. pose proof (used_room _ Us) as Rm.
  destruct (core_step _ _ _ _ _ _ _ _ _ _ _ C Hs) as (tks' & done' & C' & X).
  assert (Last : exists cg, In cg (t ++ [mkChange true (ld_cache y) (ld_cache z)]) /\ cg_load cg = true).
  { eexists. split; [apply in_or_app; right; left; reflexivity|reflexivity]. }
  exists tks', done'. split; [exact C'|]. destruct X as [[-> E]|(x & en & st & sh & evs & -> & Hx & He & Es & _)].
  - rewrite E. split; [exact R|]. split; [exact Us|]. split; [|split; [|intros _; rewrite E in Last; exact Last]].
    + intros cg key Hcg Hl. apply in_app_or in Hcg. destruct Hcg as [Hcg|[<-|[]]]; [exact (A cg key Hcg Hl)|left; apply same_refl].
    + intros x Hx. destruct (B x Hx) as (k & v & cg & B1 & B2 & B3). exists k, v, cg. split; [exact B1|]. split; [apply in_or_app; left; exact B2|exact B3].
  - destruct (store_from y tks done x C) as (G & key & v & now' & unix' & Hv & Hc & Eb); [apply in_or_app; right; exact Hx|].
    destruct (store_put _ en x _ st sh evs key v now' unix' R Rm G He Es Hv Hc Eb) as (R' & P & Sm & Un).
    split; [exact R'|]. split; [intros k Hk; destruct (Un k Hk) as [-> |X]; [apply file_used; exists v; exact Hv|exact (Us k X)]|]. split; [|split; [|intros _; exact Last]].
    + intros cg k Hcg Hl. apply in_app_or in Hcg. destruct Hcg as [Hcg|[<-|[]]]; [exact (A cg k Hcg Hl)|].
      destruct (beq k key) eqn:Bk; [apply beq_eq in Bk; subst k; right; exists v; auto|].
      left. apply Sm. intros ->. rewrite beq_refl in Bk. discriminate.
    + intros x' Hx'. apply in_app_or in Hx'. destruct Hx' as [Hx'|[<-|[]]].
      * destruct (B x' Hx') as (k & w & cg & B1 & B2 & B3). exists k, w, cg. split; [exact B1|]. split; [apply in_or_app; left; exact B2|exact B3].
      * exists key, v, (mkChange true (ld_cache y) (ld_cache z)). split; [|split; [apply in_or_app; right; left; reflexivity|auto]].
        unfold back_store in Eb. destruct (0 <? v_exp v)%Z; [destruct (_ <? _)%Z; [discriminate|]|]; injection Eb as ->; reflexivity.
Qed.
Lemma lives_call : forall t y en op ch r evs, lives blocks t y -> call_ok (ctx_of o') en (cabs (ctx_of o') (ld_cache y)) op ->
  step (ctx_of o') en (ld_cache y) op = Ok (ch, r, evs) -> (forall k, cabs (ctx_of o') ch k <> None -> used k) -> lives blocks (t ++ [mkChange false (ld_cache y) ch]) (with_cache y ch).
Proof.
  intros t y en op ch r evs (tks & done & C & R & Us & A & B & D) Ca Sp Un. exists tks, done. split; [apply core_cache; exact C|].
  split; [exact (proj1 (made o' _ en op ch r evs R Ca Sp))|]. split; [exact Un|]. split; [|split].
  - intros cg key Hcg Hl. apply in_app_or in Hcg. destruct Hcg as [Hcg|[<-|[]]]; [exact (A cg key Hcg Hl)|discriminate].
  - intros x Hx. destruct (B x Hx) as (k & v & cg & B1 & B2 & B3). exists k, v, cg. split; [exact B1|]. split; [apply in_or_app; left; exact B2|exact B3].
  - intro H. destruct (D H) as (cg & D1 & D2). exists cg. split; [apply in_or_app; left; exact D1|exact D2].
Qed.
Lemma lives_run : forall t y, live (ctx_of o') decompress clocks envs (load_start file nprocs ch0) t y ->
  (forall cg, In cg t -> cg_load cg = false -> forall k, cabs (ctx_of o') (cg_after cg) k <> None -> used k) -> lives blocks t y.
Proof.
  intros t y H. induction H as [|t y z H IH Hs|t y en op ch r evs H IH Ca Sp]; intro Un.
  - exact lives_start.
  - apply lives_load; [|exact Hs]. apply IH. intros cg Hcg. apply Un. apply in_or_app. left. exact Hcg.
  - eapply lives_call; [|exact Ca|exact Sp|].
    + apply IH. intros cg Hcg. apply Un. apply in_or_app. left. exact Hcg.
    + exact (Un (mkChange false (ld_cache y) ch) ltac:(apply in_or_app; right; left; reflexivity) eq_refl).
Qed.
Lemma lives_result : forall t y, lives blocks t y -> load_ended y = true -> load_result y = 0%Z.
Proof.
  intros t y (tks & done & C & _) He. destruct (Z.eq_dec (load_result y) 0) as [E|N0]; [exact E|]. exfalso.
  destruct (core_failure _ _ _ _ _ y tks done C He N0) as [E|(t0 & Hin & E)]; [discriminate|].
  destruct (taken_from y tks done t0 C Hin) as (_ & _ & _ & E2 & _). congruence.
Qed.
Hypothesis found : forall k v, in_file k v -> exists b items, In b blocks /\ from_shard o decompress shots b (route (ctx_of o) k) items.
Lemma lives_end : forall t y key v, lives blocks t y -> load_ended y = true -> in_file key v ->
  exists cg, In cg t /\ cg_load cg = true /\ put cg key v.
Proof.
  intros t y key v L He Hv. pose proof (lives_result t y L He) as Hr. destruct L as (tks & done & C & R & Us & A & B & D).
  destruct (core_success _ _ _ _ _ y tks done C np He Hr) as (_ & Pb & Ps & _).
  destruct (found key v Hv) as (b & items & Hb & F1 & F2 & F3). apply (Permutation_in _ Pb) in Hb. apply in_map_iff in Hb. destruct Hb as (t0 & <- & Hin).
  pose proof (co_tks _ _ _ _ _ _ _ _ C) as Ht. rewrite Forall_forall in Ht. destruct (Ht t0 Hin) as [Hc Hl]. rewrite (F3 _ _ (clocks_ok _ _ Hc)) in Hl. injection Hl as Hl _.
  destruct (back_store (sh_now (shot_of key)) (sh_unix (shot_of key)) (tk_now t0) (tk_unix t0) key v) as [|x l] eqn:Eb.
  - (* it had expired *)
    destruct D as (cg & D1 & D2). { unfold load_ended in He. destruct (ld_done y); [discriminate|discriminate]. }
    exists cg. split; [exact D1|]. split; [exact D2|]. destruct (A cg key D1 D2) as [S|(w & Hw & P)].
    + exists (tk_now t0), (tk_unix t0). split; [exact Hc|]. unfold back_store in Eb. destruct (Z.ltb_spec 0 (v_exp v)); [|discriminate].
      destruct (Z.ltb_spec (Z.min INT64_MAX (instant (sh_now (shot_of key)) (sh_unix (shot_of key)) (v_exp v))) (tk_unix t0)); [|discriminate].
      apply cb_past; [lia| |exact S]. pose proof (clocks_ok _ _ Hc) as [_ X]. lia.
    + rewrite (in_file_one key v w Hv Hw). exact P.
  - assert (Hx : In x done).
    { apply (Permutation_in _ Ps). apply in_flat_map. exists t0. split; [exact Hin|]. rewrite <- Hl. apply in_flat_map. exists (key, v).
      split; [apply F2; split; [reflexivity|exact Hv]|]. cbn [fst snd]. unfold shot_of in Eb. rewrite Eb. left. reflexivity. }
    destruct (B x Hx) as (k & w & cg & B1 & B2 & B3 & B4 & B5).
    assert (k = key). { unfold back_store in Eb. destruct (0 <? v_exp v)%Z; [destruct (_ <? _)%Z; [discriminate|]|]; injection Eb as <- _; cbn [key_of] in B1; congruence. }
    subst k. exists cg. split; [exact B2|]. split; [exact B3|]. rewrite (in_file_one key v w Hv B4). exact B5.
Qed.
Lemma lives_progress : forall t y, lives blocks t y -> load_ended y = false ->
  (exists now unix, clocks now unix) -> (exists en, envs en) -> exists z, load_step (ctx_of o') decompress clocks envs y z.
Proof.
  intros t y (tks & done & C & R & Us & _) He Hc (en & Hen). pose proof (used_room _ Us) as Rm.
  apply (core_progress (ctx_of o') decompress clocks envs blocks true nprocs clocks_ok np Hc y tks done C He).
  intros x l f Hin. destruct (store_from y tks done x C) as (G & _).
  { apply in_or_app. right. apply in_flat_map. exists (WRun (x :: l) f). split; [exact Hin|left; reflexivity]. }
  destruct (good_steps o' (ld_cache y) in_use Rm (ld_cache y) en x R (fun k Hk => or_introl Hk) G (envs_ok en Hen)) as (ch' & s & sh & evs & Es & Hs).
  exists en, ch', s, sh, evs. auto.
Qed.
End Run.
End Back.
