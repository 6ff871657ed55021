(** The threads of load: what they have stored at any time, that they end, and with
    what result. *)
From Verif Require Import Base Types Clamp Varint VarintProofs Entry EntryProofs Hash Map MapProofs MapInv Shard
  Spec Trace ShardProofs ScanProofs LoopProofs Cache Refine Reach Observe PropCache PropItems Text CmdSpec CmdsProofs Save SaveSpec CrcProofs SaveProofs.
From Coq Require Import String Permutation.
Local Open Scope N_scope.
Notation length := List.length.
Notation concat := List.concat.
Notation map := List.map.

(** Stores made one after the other. *)
Inductive stores (c : ctx) (envs : env -> Prop) (ch : cache) : list call -> cache -> Prop :=
| st_nil : stores c envs ch [] ch
| st_snoc : forall l ch1 en x ch2 s sh evs, stores c envs ch l ch1 -> envs en ->
    step c en ch1 x = Ok (ch2, RStatus s sh, evs) -> s = INSERTED \/ s = REPLACED ->
    stores c envs ch (l ++ [x]) ch2.

(** A block that was taken, with the stores and the end that it led to. *)
Record taken := mkTaken { tk_block : cblock; tk_now : Z; tk_unix : Z; tk_stores : list call; tk_fin : bool }.
Definition todo (w : worker) : list call := match w with WRun l _ => l | _ => [] end.

Section L.
Variable c : ctx.
Variable decompress : bytes -> N -> option bytes.
Variable clocks : Z -> Z -> Prop.
Variable envs : env -> Prop.
Variable blocks : list cblock.
Variable rd : bool.
Variable nprocs : nat.
Variable ch0 : cache.

Record linv (x : loading) (tks : list taken) (done : list call) : Prop := {
  li_blocks : Permutation blocks (map tk_block tks ++ ld_queue x ++ ld_left x);
  li_prefix : exists pre, blocks = pre ++ ld_left x;
  li_tks : Forall (fun t => clocks (tk_now t) (tk_unix t) /\
      load_block decompress (tk_block t) (tk_now t) (tk_unix t) = Ok (tk_stores t, tk_fin t)) tks;
  li_stores : Permutation (flat_map tk_stores tks) (done ++ flat_map todo (ld_workers x));
  li_cache : stores c envs ch0 done (ld_cache x);
  li_fin : ld_failure x = false -> forall t, In t tks -> tk_fin t = false -> exists l, In (WRun l false) (ld_workers x);
  li_end : ld_failure x = false -> In WEnd (ld_workers x) -> ld_queue x = [] /\ ld_done x <> None;
  li_rd : ld_read x = rd;
  li_done : forall d, ld_done x = Some d -> (d = true -> ld_left x = [] /\ rd = true) /\ (d = false -> rd = false \/ ld_failure x = true) /\ (ld_failure x = false -> ld_left x = []);
  li_np : length (ld_workers x) = nprocs;
  li_fail : ld_failure x = true -> exists t, In t tks /\ tk_fin t = false;
  li_runs : forall l f, In (WRun l f) (ld_workers x) -> exists t pre, In t tks /\ tk_fin t = f /\ tk_stores t = pre ++ l
}.

Lemma in_mid : forall A (x y : A) a b, In x (a ++ y :: b) <-> x = y \/ In x (a ++ b).
Proof. intros A x y a b. rewrite !in_app_iff. cbn [In]. split; intros [H|H]; intuition congruence. Qed.

Lemma linv_start : forall left, left = blocks -> linv (mkLoading left rd None [] false (repeat WIdle nprocs) ch0) [] [].
Proof.
  intros left ->. assert (E : forall w, In w (repeat WIdle nprocs) -> w = WIdle) by (intros w Hw; exact (repeat_spec _ _ _ Hw)).
  constructor; cbn [ld_left ld_queue ld_workers ld_cache ld_failure ld_done ld_read].
  - reflexivity.
  - exists []. reflexivity.
  - constructor.
  - assert (Z : flat_map todo (repeat WIdle nprocs) = []) by (induction nprocs as [|n IH]; [reflexivity|]; cbn [repeat flat_map todo app]; apply IH; intros w Hw; exact (repeat_spec _ _ _ Hw)).
    rewrite Z. constructor.
  - constructor.
  - intros _ t [].
  - intros _ H. apply E in H. discriminate.
  - reflexivity.
  - discriminate.
  - apply repeat_length.
  - discriminate.
  - intros l f H. apply E in H. discriminate.
Qed.

Ltac lproj := cbn [ld_left ld_queue ld_workers ld_cache ld_failure ld_done ld_read] in *.
Lemma linv_step : forall x y tks done, linv x tks done -> load_step c decompress clocks envs x y ->
  exists tks' done', linv y tks' done'.
Proof.
  intros x y tks done [L1 L1b L2 L3 L4 L5 L6 L7 L8 L9 L10 L11] H. inversion H; subst; lproj.
  - (* take *)
    exists (mkTaken b now unixnow l fin :: tks), done. constructor; lproj; try assumption.
    + cbn [map tk_block]. rewrite L1. rewrite <- !app_assoc. cbn [app].
      rewrite app_assoc. rewrite <- Permutation_middle. rewrite <- app_assoc. reflexivity.
    + constructor; [split; assumption|assumption].
    + cbn [flat_map tk_stores]. rewrite L3. rewrite !flat_map_app. cbn [flat_map todo app].
      rewrite (app_assoc done). rewrite (Permutation_app_comm l). rewrite <- !app_assoc. apply Permutation_app_head.
      apply Permutation_app_head. apply Permutation_app_comm.
    + intros _ t [<-|Ht] Hf.
      * cbn [tk_fin] in Hf. subst fin. exists l. apply in_mid. left. reflexivity.
      * destruct (L5 eq_refl t Ht Hf) as (l0 & Hl). exists l0. apply in_mid. apply in_mid in Hl. destruct Hl as [E|Hl]; [discriminate|right; exact Hl].
    + intros _ He. apply in_mid in He. destruct He as [E|He]; [discriminate|].
      assert (X : In WEnd (ws1 ++ WIdle :: ws2)) by (apply in_mid; right; exact He).
      destruct (L6 eq_refl X) as [Eq _]. destruct q; discriminate.
    + rewrite app_length in *. cbn [length] in *. exact L9.
    + discriminate.
    + intros l0 f Hl. apply in_mid in Hl. destruct Hl as [E|Hl].
      * injection E as -> ->. eexists _, []. split; [left; reflexivity|]. split; reflexivity.
      * destruct (L11 l0 f) as (t & pre & Ht & R); [apply in_mid; right; exact Hl|]. exists t, pre. split; [right; exact Ht|exact R].
  - (* store *)
    exists tks, (done ++ [x0]). constructor; lproj; try assumption.
    + rewrite L3. rewrite !flat_map_app. cbn [flat_map todo app]. rewrite <- !app_assoc. apply Permutation_app_head. cbn [app].
      symmetry. apply Permutation_middle.
    + econstructor; eassumption.
    + intros Hfl t Ht Hf. destruct (L5 Hfl t Ht Hf) as (l0 & Hl). apply in_mid in Hl. destruct Hl as [E|Hl].
      * injection E as -> <-. exists l. apply in_mid. left. reflexivity.
      * exists l0. apply in_mid. right. exact Hl.
    + intros Hfl He. apply in_mid in He. destruct He as [E|He]; [discriminate|]. apply (L6 Hfl). apply in_mid. right. exact He.
    + rewrite app_length in *. exact L9.
    + intros l0 f Hl. apply in_mid in Hl. destruct Hl as [E|Hl].
      * injection E as -> ->. destruct (L11 (x0 :: l) fin) as (t & pre & Ht & F & S0); [apply in_mid; left; reflexivity|].
        exists t, (pre ++ [x0]). split; [exact Ht|]. split; [exact F|]. rewrite <- app_assoc. exact S0.
      * apply L11. apply in_mid. right. exact Hl.
  - (* next *)
    exists tks, done. constructor; lproj; try assumption.
    + rewrite L3. rewrite !flat_map_app. cbn [flat_map todo app]. reflexivity.
    + intros Hfl t Ht Hf. destruct (L5 Hfl t Ht Hf) as (l0 & Hl). apply in_mid in Hl. destruct Hl as [E|Hl]; [discriminate|].
      exists l0. apply in_mid. right. exact Hl.
    + intros Hfl He. apply in_mid in He. destruct He as [E|He]; [discriminate|]. apply (L6 Hfl). apply in_mid. right. exact He.
    + rewrite app_length in *. exact L9.
    + intros l0 f Hl. apply in_mid in Hl. destruct Hl as [E|Hl]; [discriminate|]. apply L11. apply in_mid. right. exact Hl.
  - (* fail *)
    exists tks, done. constructor; lproj; try assumption; try discriminate.
    + rewrite L3. rewrite !flat_map_app. cbn [flat_map todo app]. reflexivity.
    + intros d Hd. destruct (L8 d Hd) as (A & B & C). split; [exact A|]. split; [intros _; right; reflexivity|discriminate].
    + rewrite app_length in *. exact L9.
    + intros _. destruct (L11 [] false) as (t & pre & Ht & F & _); [apply in_mid; left; reflexivity|]. exists t. auto.
    + intros l0 f Hl. apply in_mid in Hl. destruct Hl as [E|Hl]; [discriminate|]. apply L11. apply in_mid. right. exact Hl.
  - (* end *)
    exists tks, done. constructor; lproj; try assumption.
    + rewrite L3. rewrite !flat_map_app. cbn [flat_map todo app]. reflexivity.
    + intros Hfl t Ht Hf. destruct (L5 Hfl t Ht Hf) as (l0 & Hl). apply in_mid in Hl. destruct Hl as [E|Hl]; [discriminate|].
      exists l0. apply in_mid. right. exact Hl.
    + intros Hfl He. destruct H0 as [E|E]; [congruence|exact E].
    + rewrite app_length in *. exact L9.
    + intros l0 f Hl. apply in_mid in Hl. destruct Hl as [E|Hl]; [discriminate|]. apply L11. apply in_mid. right. exact Hl.
  - (* push *)
    exists tks, done. constructor; lproj; try assumption; try discriminate.
    + rewrite <- app_assoc. exact L1.
    + destruct L1b as (pre & Hp). exists (pre ++ [b]). rewrite <- app_assoc. exact Hp.
    + intros _ He. destruct (L6 eq_refl He) as [_ X]. congruence.
  - (* stop *)
    exists tks, done. constructor; lproj; try assumption; try discriminate.
    intros d E. injection E as <-. split; [discriminate|]. split; [intros _; right; reflexivity|discriminate].
  - (* read *)
    exists tks, done. constructor; lproj; try assumption.
    + intros Hfl He. destruct (L6 Hfl He) as [X _]. split; [exact X|discriminate].
    + intros d E. injection E as <-. split; [intro R; split; [reflexivity|congruence]|]. split; [intro R; left; congruence|reflexivity].
Qed.
Lemma linv_steps : forall x y tks done, load_steps c decompress clocks envs x y -> linv x tks done -> exists tks' done', linv y tks' done'.
Proof.
  intros x y tks done H. induction H as [|x y z H IH Hz]; intro I; [eauto|].
  destruct (IH I) as (t1 & d1 & I1). exact (linv_step _ _ _ _ I1 Hz).
Qed.

Lemma ended_todo : forall x, load_ended x = true -> flat_map todo (ld_workers x) = [].
Proof.
  intros x H. unfold load_ended in H. destruct (ld_done x); [|discriminate]. rewrite forallb_forall in H.
  induction (ld_workers x) as [|w ws IH]; [reflexivity|]. cbn [flat_map].
  rewrite IH by (intros y Hy; apply H; right; exact Hy). specialize (H w (or_introl eq_refl)). destruct w; try discriminate. reflexivity.
Qed.
(** At the end: success means that every block was loaded to its end. *)
Lemma linv_success : forall x tks done, linv x tks done -> (1 <= nprocs)%nat -> load_ended x = true -> load_result x = 0%Z ->
  rd = true /\ Permutation blocks (map tk_block tks) /\ Permutation (flat_map tk_stores tks) done /\ Forall (fun t => tk_fin t = true) tks.
Proof.
  intros x tks done [L1 L1b L2 L3 L4 L5 L6 L7 L8 L9 L10 L11] Np He Hr.
  pose proof (ended_todo x He) as Ht. unfold load_result in Hr. unfold load_ended in He.
  destruct (ld_done x) as [d|] eqn:Ed; [|discriminate]. destruct d; [|discriminate]. destruct (ld_failure x) eqn:Ef; [discriminate|].
  destruct (L8 true eq_refl) as (A & _ & _). destruct (A eq_refl) as [A1 A2].
  rewrite forallb_forall in He.
  assert (We : forall w, In w (ld_workers x) -> w = WEnd) by (intros w Hw; specialize (He w Hw); destruct w; congruence).
  assert (Ie : In WEnd (ld_workers x)).
  { destruct (ld_workers x) as [|w ws]; [cbn [length] in L9; lia|]. left. apply We. left. reflexivity. }
  destruct (L6 eq_refl Ie) as [Q _]. rewrite Q, A1, !app_nil_r in L1. rewrite Ht, app_nil_r in L3.
  split; [exact A2|]. split; [exact L1|]. split; [exact L3|].
  apply Forall_forall. intros t Hin. destruct (tk_fin t) eqn:Ft; [reflexivity|]. destruct (L5 eq_refl t Hin Ft) as (l & Hl).
  apply We in Hl. discriminate.
Qed.
(** Failure has a cause. *)
Lemma linv_failure : forall x tks done, linv x tks done -> load_ended x = true -> load_result x <> 0%Z ->
  rd = false \/ exists t, In t tks /\ tk_fin t = false.
Proof.
  intros x tks done [L1 L1b L2 L3 L4 L5 L6 L7 L8 L9 L10 L11] He Hr.
  unfold load_result in Hr. unfold load_ended in He. destruct (ld_done x) as [d|] eqn:Ed; [|discriminate].
  destruct (ld_failure x) eqn:Ef; [right; exact (L10 eq_refl)|]. destruct d; [contradiction|].
  destruct (L8 false eq_refl) as (_ & B & _). destruct (B eq_refl) as [X|X]; [left; exact X|discriminate].
Qed.

(** ** It ends *)
Definition weigh (b : cblock) : N := cb_dlen b + 2.
Definition heavy (w : worker) : N := match w with WIdle => 1 | WRun l _ => N.of_nat (length l) + 2 | WEnd => 0 end.
Definition total (f : cblock -> N) (l : list cblock) : N := fold_right (fun b s => f b + s) 0 l.
Definition total_w (l : list worker) : N := fold_right (fun w s => heavy w + s) 0 l.
Definition effort (x : loading) : N :=
  total (fun b => weigh b + 1) (ld_left x) + total weigh (ld_queue x) + total_w (ld_workers x) + match ld_done x with None => 1 | _ => 0 end.
Lemma total_app : forall f a b, total f (a ++ b) = total f a + total f b.
Proof. intros f a b. unfold total. induction a as [|x a IH]; [reflexivity|]. cbn [app fold_right]. rewrite IH. lia. Qed.
Lemma total_w_app : forall a b, total_w (a ++ b) = total_w a + total_w b.
Proof. intros a b. unfold total_w. induction a as [|x a IH]; [reflexivity|]. cbn [app fold_right]. rewrite IH. lia. Qed.

Lemma get_varint_length : forall s x r, get_varint s = Some (x, r) -> (length r <= length s)%nat.
Proof.
  intros s x r H. unfold get_varint in H. destruct (varint_read_u64 s); try discriminate. injection H as _ <-. rewrite skipn_length. lia.
Qed.
Lemma get_bytes_length : forall s x r, get_bytes s = Some (x, r) -> (length r <= length s)%nat.
Proof.
  intros s x r H. unfold get_bytes in H. destruct (get_varint s) as [[y r0]|] eqn:E; [|discriminate].
  apply get_varint_length in E. destruct (N.of_nat (length r0) <? y); [discriminate|]. injection H as _ <-. rewrite skipn_length. lia.
Qed.
Lemma get_entry_length : forall s key val ttl fl cas r, get_entry s = Some (key, val, ttl, fl, cas, r) ->
  (length r < length s)%nat /\ (0 <= ttl < 2 ^ 63)%Z /\ fl < 2 ^ 32.
Proof.
  intros s key val ttl fl cas r H. unfold get_entry in H. destruct s as [|kind s0]; [discriminate|].
  destruct (negb (kind =? 0)); [discriminate|].
  destruct (get_bytes s0) as [[k s1]|] eqn:E1; [|discriminate]. destruct (get_bytes s1) as [[v s2]|] eqn:E2; [|discriminate].
  destruct (get_varint s2) as [[t s3]|] eqn:E3; [|discriminate]. destruct (N.leb_spec (2 ^ 63) t); [discriminate|].
  destruct (get_varint s3) as [[f s4]|] eqn:E4; [|discriminate]. destruct (N.leb_spec (2 ^ 32) f); [discriminate|].
  destruct (get_varint s4) as [[cc s5]|] eqn:E5; [|discriminate]. injection H as <- <- <- <- <- <-.
  apply get_bytes_length in E1, E2. apply get_varint_length in E3, E4, E5. cbn [length]. split; [lia|]. split; [lia|assumption].
Qed.
Lemma restore_total : forall unix unix' now' key val ttl fl cas, (0 <= unix < 2 ^ 63)%Z -> (0 <= unix' <= INT64_MAX)%Z -> (0 <= ttl < 2 ^ 63)%Z ->
  exists x, restore unix unix' now' key val ttl fl cas = Ok x /\ (length x <= 1)%nat.
Proof.
  intros unix unix' now' key val ttl fl cas U U' T. unfold restore. destruct (Z.ltb_spec 0 ttl); [|eexists; split; [reflexivity|cbn [length]; lia]].
  rewrite add_clamp_spec by (unfold i64_ok, INT64_MIN, INT64_MAX; lia).
  set (e := clampZ (unix + ttl)). destruct (Z.ltb_spec e unix'); [eexists; split; [reflexivity|cbn [length]; lia]|].
  assert (B : (0 <= e <= INT64_MAX)%Z).
  { unfold e, clampZ, INT64_MIN, INT64_MAX. repeat match goal with |- context [Z.ltb ?a ?b] => destruct (Z.ltb_spec a b) end; lia. }
  unfold i64_chk. replace ((INT64_MIN <=? e - unix')%Z && (e - unix' <=? INT64_MAX)%Z) with true.
  - eexists; split; [reflexivity|cbn [length]; lia].
  - symmetry. apply andb_true_iff. unfold INT64_MIN, INT64_MAX in *. lia.
Qed.
Lemma load_entries_total : forall f unix unix' now' s, (0 <= unix < 2 ^ 63)%Z -> (0 <= unix' <= INT64_MAX)%Z -> (length s < f)%nat ->
  exists l fin, load_entries f unix unix' now' s = Ok (l, fin) /\ (length l <= length s)%nat.
Proof.
  induction f as [|f IH]; intros unix unix' now' s U U' Hf; [lia|]. cbn [load_entries]. destruct s as [|b s]; [eexists _, _; split; [reflexivity|reflexivity]|].
  destruct (get_entry (b :: s)) as [[[[[[key val] ttl] fl] cas] r]|] eqn:E; [|eexists _, _; split; [reflexivity|cbn [length]; lia]].
  apply get_entry_length in E. destruct E as (Lr & Lt & _).
  destruct (restore_total unix unix' now' key val ttl fl cas U U' Lt) as (x & -> & Lx).
  destruct (IH unix unix' now' r U U') as (l & fin & -> & Ll); [lia|]. eexists _, _. split; [reflexivity|]. rewrite app_length. lia.
Qed.
Lemma load_block_total : forall b now' unix', (0 <= unix' <= INT64_MAX)%Z ->
  exists l fin, load_block decompress b now' unix' = Ok (l, fin) /\ N.of_nat (length l) <= cb_dlen b.
Proof.
  intros b now' unix' U. unfold load_block. destruct (decompress (cb_data b) (cb_dlen b)) as [d|]; [|eexists _, _; split; [reflexivity|cbn [length]; lia]].
  destruct (N.eqb_spec (N.of_nat (length d)) (cb_dlen b)) as [E|E]; cbn [negb]; [|eexists _, _; split; [reflexivity|cbn [length]; lia]].
  destruct (get_varint d) as [[x r]|] eqn:Ev; [|eexists _, _; split; [reflexivity|cbn [length]; lia]].
  destruct (N.leb_spec (2 ^ 63) x); [eexists _, _; split; [reflexivity|cbn [length]; lia]|].
  apply get_varint_length in Ev.
  destruct (load_entries_total (S (length r)) (Z.of_N x) unix' now' r) as (l & fin & -> & Ll); [lia|exact U|lia|].
  eexists _, _. split; [reflexivity|lia].
Qed.

Hypothesis clocks_ok : forall now unix, clocks now unix -> times_ok now unix.
Lemma step_effort : forall x y, load_step c decompress clocks envs x y -> effort y < effort x.
Proof.
  intros x y H. inversion H; subst; unfold effort; lproj; rewrite ?total_app, ?total_w_app; cbn [total total_w fold_right heavy length];
    change (fold_right (fun w s => heavy w + s) 0) with total_w; change (fold_right (fun b s => weigh b + 1 + s) 0) with (total (fun b => weigh b + 1)); try lia.
  pose proof (clocks_ok _ _ H0) as [_ T]. destruct (load_block_total b now unixnow) as (l' & fin' & E & Ll); [lia|].
  rewrite E in H1. injection H1 as <- <-. unfold weigh. lia.
Qed.
(** At most [effort] steps can be made. *)
Lemma many_effort : forall n x y, load_many c decompress clocks envs n x y -> N.of_nat n + effort y <= effort x.
Proof.
  intros n x y H. induction H as [|n x y z H IH Hz]; [lia|]. apply step_effort in Hz. lia.
Qed.

(** ** It can always go on *)
Hypothesis np : (1 <= nprocs)%nat.
Hypothesis some_clock : exists now unix, clocks now unix.
Lemma linv_progress : forall x tks done, linv x tks done -> load_ended x = false ->
  (forall y l f, In (WRun (y :: l) f) (ld_workers x) -> exists en ch' s sh evs, envs en /\ step c en (ld_cache x) y = Ok (ch', RStatus s sh, evs) /\ (s = INSERTED \/ s = REPLACED)) ->
  exists y, load_step c decompress clocks envs x y.
Proof.
  intros x tks done [L1 L1b L2 L3 L4 L5 L6 L7 L8 L9 L10 L11] He Hst.
  destruct x as [left rd' dn q fl ws ch]. lproj.
  assert (Run : (exists l f, In (WRun l f) ws) \/ (forall w, In w ws -> w = WIdle \/ w = WEnd)).
  { clear. induction ws as [|w ws IH]; [right; intros w []|]. destruct w as [|l f|].
    - destruct IH as [(l & f & H)|H]; [left; exists l, f; right; exact H|]. right. intros w [<-|Hw]; [left; reflexivity|exact (H w Hw)].
    - left. exists l, f. left. reflexivity.
    - destruct IH as [(l & f & H)|H]; [left; exists l, f; right; exact H|]. right. intros w [<-|Hw]; [right; reflexivity|exact (H w Hw)]. }
  destruct Run as [(l & f & Hr)|Hr].
  { destruct l as [|y l].
    - apply in_split in Hr. destruct Hr as (w1 & w2 & ->). destruct f; eexists; [apply ls_next|apply ls_fail].
    - destruct (Hst y l f Hr) as (en & ch' & s & sh & evs & Hen & Es & Hs). apply in_split in Hr. destruct Hr as (w1 & w2 & ->).
      eexists. eapply ls_store; eassumption. }
  destruct some_clock as (now & unix & Hc). pose proof (clocks_ok _ _ Hc) as [_ T].
  destruct dn as [d|].
  - assert (Id : exists w1 w2, ws = w1 ++ WIdle :: w2).
    { unfold load_ended in He. lproj. destruct (in_dec (fun a b : bool => Bool.bool_dec a b) false (map (fun w => match w with WEnd => true | _ => false end) ws)) as [Hf|Hf].
      - apply in_map_iff in Hf. destruct Hf as (w & Ew & Hw). destruct (Hr w Hw) as [->| ->]; [|discriminate]. apply in_split. exact Hw.
      - exfalso. assert (X : forallb (fun w => match w with WEnd => true | _ => false end) ws = true).
        { apply forallb_forall. intros w Hw. destruct (match w with WEnd => true | _ => false end) eqn:E; [reflexivity|].
          exfalso. apply Hf. apply in_map_iff. exists w. split; [exact E|exact Hw]. }
        congruence. }
    destruct Id as (w1 & w2 & ->). destruct fl.
    + eexists. apply ls_end. left. reflexivity.
    + destruct q as [|b0 q0] eqn:Eq using rev_ind; [eexists; apply ls_end; right; split; [reflexivity|discriminate]|].
      destruct (load_block_total b0 now unix) as (l & fin & El & _); [lia|]. eexists. eapply ls_take; eassumption.
  - destruct left as [|b left]; [eexists; apply ls_read|]. destruct fl; [eexists; apply ls_stop|].
    destruct (Nat.lt_ge_cases (length q) (length ws)) as [Lq|Lq]; [eexists; apply ls_push; exact Lq|].
    assert (Id : exists w1 w2, ws = w1 ++ WIdle :: w2).
    { destruct ws as [|w ws]; [cbn [length] in L9; lia|]. exists [], ws. destruct (Hr w (or_introl eq_refl)) as [->| ->]; [reflexivity|].
      destruct (L6 eq_refl (or_introl eq_refl)) as [_ X]. congruence. }
    destruct Id as (w1 & w2 & ->).
    destruct q as [|b0 q0] using rev_ind; [rewrite app_length in *; cbn [length] in *; lia|].
    destruct (load_block_total b0 now unix) as (l & fin & El & _); [lia|]. eexists. eapply ls_take; eassumption.
Qed.
End L.
