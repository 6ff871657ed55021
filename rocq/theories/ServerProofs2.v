(** Proofs about the server: every step of the event loop. *)
From Verif Require Import Base Types Clamp Entry Hash Map Shard Cache Text IntText Prog Cmds Reply Postgres Conn ConnSpec ConnProofs ConnProofs2 ConnProofs3 ConnProofs4 ConnProofs5 Net NetSpec Server ServerSpec ServerProofs.
From Coq Require Import String Lia Permutation.
Local Open Scope N_scope.
Notation length := List.length.
Notation concat := List.concat.
Notation map := List.map.

Section Steps.
Variables (c : ctx) (cf : config) (orc : nat -> nat -> input) (pg : pages).
Notation more := (runs_more c cf orc).
Notation sconn := (sconn cdata job).
Notation sact := (sact cdata shared job (serve c cf orc pg) (job_work c cf orc) (job_done pg)).
Notation s_fd := (s_fd cdata job). Notation s_ins := (s_ins cdata job). Notation s_outs := (s_outs cdata job). Notation s_data := (s_data cdata job). Notation s_job := (s_job cdata job).
Notation s_closed := (s_closed cdata job). Notation s_over := (s_over cdata job). Notation s_due := (s_due cdata job).

Definition sdeeds (x : sconn) : list deed := a_did (s_data x) ++ job_deeds (option_map fst (s_job x)).
Definition ssays (x : sconn) : list (proto * pgout * wr) := flat_map says (a_did (s_data x)) ++ match s_job x with Some (j, _) => job_says j | None => [] end.
Definition cinv (x : sconn) : Prop :=
  (exists groups, concat groups = ssays x /\ s_outs x = concat (map (emit_all pg 0) groups)) /\
  match s_job x with
  | Some (j, fin) => job_at cf (s_ins x) (a_did (s_data x)) (s_data x) j /\ (if fin : bool then j_effs j <> None else j_effs j = None)
  | None => (exists b, open_at cf (s_ins x) (a_did (s_data x)) (s_data x) b /\ (b = true -> a_did (s_data x) <> []) /\ (s_due x = false -> b = false)) \/
      (shut_at cf (s_ins x) (a_did (s_data x)) (s_data x) /\ s_closed x = true)
  end.
Lemma says_job : forall j es, says (job_deed j es) = job_says j ++ job_outs j es.
Proof. intros j es. unfold says, job_deed, job_says, job_outs. cbn. apply says_app. Qed.
(** After trouble it stays as it is, and nothing that was noted is lost. *)
Definition keeps (t : trouble) (ds ds' : list deed) (g g' : shared) : Prop := g_bad g' = Some t /\ (exists l, g_log g' = g_log g ++ l) /\ exists l, ds' = ds ++ l.
Lemma keeps_trans : forall t ds ds1 ds2 g g1 g2, keeps t ds ds1 g g1 -> keeps t ds1 ds2 g1 g2 -> keeps t ds ds2 g g2.
Proof. intros t ds ds1 ds2 g g1 g2 (_ & (l & E) & (d & D)) (B & (l2 & E2) & (d2 & D2)). split; [exact B|]. split; [exists (l ++ l2)|exists (d ++ d2)]; rewrite app_assoc; congruence. Qed.
Lemma serve_keeps : forall fuel data k ds g out t, g_bad g = Some t ->
  match serve_loop c cf orc pg fuel data k ds g out with
  | HDone a g' _ _ => keeps t ds (a_did a) g g'
  | HBack a g' _ j (a2, g2, _) => keeps t ds (a_did a) g g' /\ j_effs j = None /\ keeps t ds (a_did a2) g g2
  end.
Proof.
  assert (K0 : forall ds g t, g_bad g = Some t -> keeps t ds ds g g) by (intros ds g t B; split; [exact B|split; exists []; rewrite app_nil_r; reflexivity]).
  assert (K1 : forall ds g t t', g_bad g = Some t -> keeps t ds ds g (failed t' g)) by (intros ds g t t' B; split; [cbn; rewrite B; reflexivity|split; exists []; rewrite app_nil_r; reflexivity]).
  assert (K2 : forall ds e g t g', g_bad g = Some t -> g_bad g' = g_bad g -> g_log g' = g_log g ++ [e] -> keeps t ds (ds ++ [e]) g g') by (intros ds e g t g' B B' L; split; [congruence|split; eauto]).
  induction fuel as [|f IH]; intros data k ds g out t B; cbn [serve_loop]; [apply K1; exact B|].
  destruct data as [|x data]; [apply K0; exact B|]. destruct (conn_turn cf (x :: data) k) as [[k1|k1 ws|n k1 ws cmd]|t']; [apply K0; exact B|apply K2; auto| |apply K1; exact B].
  cbv zeta.
  assert (Next : forall e k3 g2 out2, g_bad g2 = g_bad g -> g_log g2 = g_log g ++ [e] ->
    match (if k_closed k3 then HDone (mkCdata (conn_shut k3) (ds ++ [e])) g2 out2 true else serve_loop c cf orc pg f (skipn n (x :: data)) k3 (ds ++ [e]) g2 out2) with
    | HDone a g' _ _ => keeps t ds (a_did a) g g'
    | HBack a g' _ j (a2, g2, _) => keeps t ds (a_did a) g g' /\ j_effs j = None /\ keeps t ds (a_did a2) g g2
    end).
  { intros e k3 g2 out2 Eb El. assert (B2 : g_bad g2 = Some t) by congruence. pose proof (K2 ds e g t g2 B Eb El) as K. destruct (k_closed k3); [exact K|].
    specialize (IH (skipn n (x :: data)) k3 (ds ++ [e]) g2 out2 t B2). destruct (serve_loop _ _ _ _ _ _ _ _ _ _) as [a g' o cl|a g' o j [[a2 g3] o2]].
    - eapply keeps_trans; eassumption.
    - destruct IH as (I1 & I2 & I3). split; [eapply keeps_trans; eassumption|]. split; [exact I2|]. eapply keeps_trans; eassumption. }
  destruct cmd as [args|].
  - destruct (goes_back _ _).
    + destruct (prun _ _ _ _ _) as [[[ch2 es] evs]|t']; (split; [apply K0; exact B|]); (split; [reflexivity|]); [apply K2; auto|apply K1; exact B].
    + destruct (prun _ _ _ _ _) as [[[ch2 es] evs]|t']; [|apply K1; exact B]. apply Next; reflexivity.
  - apply Next; reflexivity.
Qed.
Lemma loop_job : forall fuel data k ds g out a g' out' j no, serve_loop c cf orc pg fuel data k ds g out = HBack a g' out' j no -> j_effs j = None.
Proof.
  induction fuel as [|f IH]; intros data k ds g out a g' out' j no H; cbn [serve_loop] in H; [discriminate|]. destruct data as [|x data]; [discriminate|].
  destruct (conn_turn cf (x :: data) k) as [[k1|k1 ws|n k1 ws cmd]|t']; try discriminate. cbv zeta in H. destruct cmd as [args|].
  - destruct (goes_back _ _); [injection H as <- <- <- <- <-; reflexivity|]. destruct (prun _ _ _ _ _) as [[[ch2 es] evs]|t']; [|discriminate].
    match goal with H : context [if k_closed ?k then _ else _] |- _ => destruct (k_closed k) end; [discriminate|]. eapply IH. exact H.
  - match goal with H : context [if k_closed ?k then _ else _] |- _ => destruct (k_closed k) end; [discriminate|]. eapply IH. exact H.
Qed.
(** Jobs that have not worked have no effects yet. *)
Definition sane (x : sconn) : Prop := match s_job x with Some (j, false) => j_effs j = None | _ => True end.
Lemma act_keeps : forall fl en x g x' g' t, sact fl en x g x' g' -> sane x -> g_bad g = Some t -> keeps t (sdeeds x) (sdeeds x') g g' /\ (exists m, s_ins x' = s_ins x ++ m) /\ sane x'.
Proof.
  intros fl en x g x' g' t H Sn B.
  assert (K0 : forall ds g t, g_bad g = Some t -> keeps t ds ds g g) by (intros ds0 g0 t0 B0; split; [exact B0|split; exists []; rewrite app_nil_r; reflexivity]).
  assert (K : forall s a, match serve c cf orc pg s a g with HDone a' g' _ _ => keeps t (a_did a) (a_did a') g g' | HBack a' g' _ j (a2, g2, _) => keeps t (a_did a) (a_did a') g g' /\ j_effs j = None /\ keeps t (a_did a) (a_did a2) g g2 end).
  { intros s a. unfold serve. destruct (k_closed (a_conn a)); [apply K0; exact B|]. apply serve_keeps. exact B. }
  destruct H as [fd ins os a g du s a' g' out cl E|fd ins os a g du s a' g' out j [[a2 g2] o2] E|fd ins os a g du s a1 g1 out j a2 g2 out2 Fl E
    |fd ins os a g j j' g' E|fd ins os a g j a' out cl E|fd ins os a g du cl Fl|fd ins os a g du En]; unfold sdeeds, sane in *; cbn [NetSpec.s_job NetSpec.s_data NetSpec.s_ins option_map fst job_deeds] in *.
  - specialize (K s a). rewrite E in K. rewrite !app_nil_r. split; [exact K|eauto].
  - specialize (K s a). rewrite E in K. destruct K as (K & Je & _). rewrite Je, !app_nil_r. split; [exact K|eauto].
  - specialize (K s a). rewrite E in K. rewrite !app_nil_r. split; [exact (proj2 (proj2 K))|eauto].
  - split; [|split; [exists []; rewrite app_nil_r; reflexivity|exact I]]. unfold job_work in E. rewrite Sn, app_nil_r. destruct (prun _ _ _ _ _) as [[[ch2 es] evs]|t']; injection E as <- <-; cbn [j_effs].
    + split; [cbn; exact B|]. split; [cbn; eauto|]. eauto.
    + rewrite Sn, app_nil_r. split; [cbn; rewrite B; reflexivity|split; exists []; rewrite app_nil_r; reflexivity].
  - split; [|split; [exists []; rewrite app_nil_r; reflexivity|exact I]]. unfold job_done in E. destruct (j_effs j) as [es|]; injection E as <- <- <-; cbn [a_did]; rewrite !app_nil_r; apply K0; exact B.
  - split; [apply K0; exact B|split; [exists []; rewrite app_nil_r; reflexivity|exact I]].
  - split; [apply K0; exact B|split; [exists []; rewrite app_nil_r; reflexivity|exact I]].
Qed.
Lemma loop_log : forall fuel data k ds g out, match serve_loop c cf orc pg fuel data k ds g out with
  | HDone _ g' _ _ => exists l, g_log g' = g_log g ++ l
  | HBack _ g' _ _ (_, g2, _) => (exists l, g_log g' = g_log g ++ l) /\ exists l, g_log g2 = g_log g ++ l
  end.
Proof.
  assert (K0 : forall g, exists l, g_log g = g_log g ++ l) by (intro g; exists []; rewrite app_nil_r; reflexivity).
  induction fuel as [|f IH]; intros data k ds g out; cbn [serve_loop]; [exact (K0 _)|]. destruct data as [|x data]; [exact (K0 _)|].
  destruct (conn_turn cf (x :: data) k) as [[k1|k1 ws|n k1 ws cmd]|t']; [exact (K0 _)|cbn; eauto| |exact (K0 _)]. cbv zeta.
  assert (Next : forall e k3 g2 out2, g_log g2 = g_log g ++ [e] ->
    match (if k_closed k3 then HDone (mkCdata (conn_shut k3) (ds ++ [e])) g2 out2 true else serve_loop c cf orc pg f (skipn n (x :: data)) k3 (ds ++ [e]) g2 out2) with
    | HDone _ g' _ _ => exists l, g_log g' = g_log g ++ l
    | HBack _ g' _ _ (_, g2, _) => (exists l, g_log g' = g_log g ++ l) /\ exists l, g_log g2 = g_log g ++ l
    end).
  { intros e k3 g2 out2 El. assert (Z : forall g', (exists l, g_log g' = g_log g2 ++ l) -> exists l, g_log g' = g_log g ++ l) by (intros g' [l Q]; exists ([e] ++ l); rewrite Q, El, app_assoc; reflexivity).
    destruct (k_closed k3); [eauto|]. specialize (IH (skipn n (x :: data)) k3 (ds ++ [e]) g2 out2). destruct (serve_loop _ _ _ _ _ _ _ _ _ _) as [a g' o cl|a g' o j [[a2 g3] o2]]; [exact (Z _ IH)|].
    destruct IH; split; apply Z; assumption. }
  destruct cmd as [args|].
  - destruct (goes_back _ _).
    + destruct (prun _ _ _ _ _) as [[[ch2 es] evs]|t']; (split; [exact (K0 _)|]); [cbn; eauto|exact (K0 _)].
    + destruct (prun _ _ _ _ _) as [[[ch2 es] evs]|t']; [|exact (K0 _)]. apply Next; reflexivity.
  - apply Next; reflexivity.
Qed.
Lemma act_log : forall fl en x g x' g', sact fl en x g x' g' -> exists l, g_log g' = g_log g ++ l.
Proof.
  intros fl en x g x' g' H.
  assert (K0 : forall g, exists l, g_log g = g_log g ++ l) by (intro g0; exists []; rewrite app_nil_r; reflexivity).
  assert (K : forall s a, match serve c cf orc pg s a g with HDone _ g' _ _ => exists l, g_log g' = g_log g ++ l | HBack _ g' _ _ (_, g2, _) => (exists l, g_log g' = g_log g ++ l) /\ exists l, g_log g2 = g_log g ++ l end).
  { intros s a. unfold serve. destruct (k_closed (a_conn a)); [exact (K0 _)|]. apply loop_log. }
  destruct H as [fd ins os a g du s a' g' out cl E|fd ins os a g du s a' g' out j [[a2 g2] o2] E|fd ins os a g du s a1 g1 out j a2 g2 out2 Fl E
    |fd ins os a g j j' g' E|fd ins os a g j a' out cl E|fd ins os a g du cl Fl|fd ins os a g du En]; try exact (K0 _).
  - specialize (K s a). rewrite E in K. exact K.
  - specialize (K s a). rewrite E in K. exact (proj1 K).
  - specialize (K s a). rewrite E in K. exact (proj2 K).
  - unfold job_work in E. destruct (prun _ _ _ _ _) as [[[ch2 es] evs]|t']; injection E as <- <-; [cbn; eauto|exact (K0 _)].
Qed.
Lemma plays_nopacket : forall ins ds k s b, plays cf ins ds k s b -> with_packet [] (with_packet s k) = k.
Proof. intros ins ds k s b P. change (with_packet [] (with_packet s k)) with (with_packet [] k). apply with_packet_nil. eapply plays_packet. exact P. Qed.
(** The handler on a packet for an open connection. *)
Lemma serve_ok : forall ins a b x g, open_at cf ins (a_did a) a b -> (b = true -> a_did a <> []) ->
  serves c cf orc pg (ins ++ [x]) (a_did a) g [] (serve c cf orc pg x a g).
Proof.
  intros ins a b x g (_ & k & s & P & C & E) Nb. unfold serve. rewrite E. change (k_closed (with_packet s k)) with (k_closed k). rewrite C.
  rewrite (plays_nopacket _ _ _ _ _ P). change (k_packet (with_packet s k)) with s. cbv zeta. apply loop_serves; [|exact C|lia].
  eapply pl_packet; eassumption.
Qed.
Lemma groups_add : forall ls l groups outs g1 out, concat groups = ls -> outs = concat (map (emit_all pg 0) groups) -> l = ls ++ g1 -> out = emit_all pg 0 g1 ->
  exists groups', concat groups' = l /\ outs ++ out = concat (map (emit_all pg 0) groups').
Proof.
  intros ls l groups os g1 out E1 E2 E3 E4. exists (groups ++ [g1]). split.
  - rewrite concat_app. cbn. rewrite app_nil_r, E1, E3. reflexivity.
  - rewrite map_app, concat_app. cbn. rewrite app_nil_r, E2, E4. reflexivity.
Qed.
Lemma after_open : forall es s k, k_closed (after es (with_packet s k)) = false -> after es (with_packet s k) = with_packet s (after es k).
Proof. intros es s k H. unfold after in *. destruct (existsb (fun e => match e with Closed => true | _ => false end) es); [discriminate H|]. destruct (existsb _ es); reflexivity. Qed.
Lemma after_shut : forall es s k, k_closed k = false -> k_closed (after es (with_packet s k)) = true -> after es (with_packet s k) = after es k.
Proof.
  intros es s k C H. unfold after in *. destruct (existsb (fun e => match e with Closed => true | _ => false end) es); [destruct (existsb _ es); reflexivity|].
  exfalso. destruct (existsb _ es); cbn in H; congruence.
Qed.
Lemma act_ok : forall fl en x g x' g', sact fl en x g x' g' -> cinv x -> g_bad g = None ->
  (exists m, s_ins x' = s_ins x ++ m) /\
  ((exists t, g_bad g' = Some t /\ (text_trouble cf (s_ins x') (sdeeds x') t \/ cmd_trouble c cf orc (s_ins x') (sdeeds x') g g' t)) \/
   (exists new, more new g g' /\ sdeeds x' = sdeeds x ++ new /\ cinv x')).
Proof.
  intros fl en x g x' g' H I B.
  assert (TR : forall ins ds g2, troubled_at c cf orc ins ds g g2 -> exists t, g_bad g2 = Some t /\ (text_trouble cf ins ds t \/ cmd_trouble c cf orc ins ds g g2 t)).
  { intros ins ds g2 (t & E & K). rewrite B in E. exists t. auto. }
  assert (S0 : forall a b, with_packet a b = with_packet a b) by reflexivity. clear S0.
  destruct H as [fd ins os a g du s a' g' out cl E|fd ins os a g du s a' g' out j [[a2 g2] o2] E|fd ins os a g du s a1 g1 out j a2 g2 out2 Fl E
    |fd ins os a g j j' g' E|fd ins os a g j a' out cl E|fd ins os a g du cl Fl|fd ins os a g du En];
    destruct I as [(groups & G1 & G2) I]; cbn [NetSpec.s_job NetSpec.s_data NetSpec.s_ins NetSpec.s_outs NetSpec.s_closed NetSpec.s_due] in *; (split; [first [eauto; fail | exists []; rewrite app_nil_r; reflexivity]|]).
  - destruct I as [(b & O & Nb & _)|[_ Q]]; [|discriminate Q]. pose proof (serve_ok ins a b s g O Nb) as S. rewrite E in S. cbn [serves] in S.
    destruct S as [S|(new & M & Eo & K)]; [left; unfold sdeeds; cbn; rewrite app_nil_r; exact (TR _ _ _ S)|right]. exists new.
    assert (Ed : a_did a' = a_did a ++ new) by (destruct cl; exact (proj1 K)).
    split; [exact M|]. split; [unfold sdeeds; cbn; rewrite !app_nil_r; exact Ed|]. split.
    + eapply groups_add; [exact G1|exact G2| |exact Eo]. unfold ssays. cbn. rewrite Ed, flat_map_app, !app_nil_r. reflexivity.
    + cbn. rewrite Ed. destruct cl; [right; split; [exact K|reflexivity]|left]. exists false. split; [exact K|]. split; [discriminate|reflexivity].
  - destruct I as [(b & O & Nb & _)|[_ Q]]; [|discriminate Q]. pose proof (serve_ok ins a b s g O Nb) as S. rewrite E in S. cbn [serves] in S.
    destruct S as (new & M & Eo & K & Je & _). right. exists new. pose proof (proj1 K) as Ed.
    split; [exact M|]. split; [unfold sdeeds, job_deeds; cbn; rewrite Je, !app_nil_r; exact Ed|]. split.
    + eapply groups_add; [exact G1|exact G2| |exact Eo]. unfold ssays. cbn. rewrite Ed, flat_map_app, app_nil_r, app_assoc. reflexivity.
    + cbn. rewrite Ed. split; [exact K|exact Je].
  - destruct I as [(b & O & Nb & _)|[_ Q]]; [|discriminate Q]. pose proof (serve_ok ins a b s g O Nb) as S. rewrite E in S. cbn [serves] in S.
    destruct S as (new & M & Eo & K & Je & [S|(es & M2 & Eo2 & K2)]); [left; unfold sdeeds; cbn; rewrite app_nil_r; exact (TR _ _ _ S)|right]. exists (new ++ [job_deed j es]). pose proof (proj1 K2) as Ed.
    split; [exact M2|]. split; [unfold sdeeds; cbn; rewrite !app_nil_r; exact Ed|]. split.
    + destruct (groups_add _ (ssays (mkSconn cdata job fd ins os a None false false du) ++ flat_map says new ++ job_says j) _ _ _ _ G1 G2 eq_refl Eo) as (gr & G3 & G4).
      cbn [NetSpec.s_outs]. rewrite app_assoc. eapply groups_add; [exact G3|exact G4| |exact Eo2]. unfold ssays. cbn. rewrite Ed, !flat_map_app. cbn [flat_map]. rewrite !app_nil_r, says_job, !app_assoc. reflexivity.
    + cbn. rewrite Ed. right. split; [exact K2|reflexivity].
  - destruct I as [K Je]. unfold job_work in E. destruct K as (K0 & k & s & n & k1 & P & C & Ns & T & Ea & J1 & J2 & J3 & J4).
    assert (A := turn_auth _ _ _ _ T). cbn in A.
    destruct (prun c (working true (orc (g_num g))) 0 (g_cache g) _) as [[[ch2 es] evs]|t] eqn:R; injection E as <- <-.
    + right. exists [job_deed j es]. split; [eapply more_ran; [reflexivity|exact R]|]. split.
      * unfold sdeeds, job_deeds. cbn. rewrite Je, app_nil_r. reflexivity.
      * split; [exists groups; auto|]. cbn. split; [|discriminate]. split; [exact K0|]. exists k, s, n, k1. cbn. auto 10.
    + left. unfold sdeeds, job_deeds. cbn [NetSpec.s_job NetSpec.s_data option_map fst]. rewrite Je, app_nil_r. apply TR. apply failed_at. right. exists [], (g_num g), (g_cache g). do 7 eexists. split; [cbn; rewrite app_nil_r; reflexivity|]. split; [constructor|]. split; [exact P|]. split; [exact Ns|]. split; [exact T|]. rewrite <- J1, <- J3. exact R.
  - destruct I as [K Je]. unfold job_done in E. destruct (j_effs j) as [es|] eqn:Je'; [|destruct (Je eq_refl)]. injection E as <- <- <-.
    destruct K as (K0 & k & s & n & k1 & P & C & Ns & T & Ea & J1 & J2 & J3 & J4).
    right. exists []. split; [apply more_nil|]. split; [unfold sdeeds, job_deeds; cbn; rewrite Je', !app_nil_r; reflexivity|].
    assert (C1 : k_closed k1 = false) by (destruct (turn_like _ _ _ _ T) as (_ & Q & _); cbn [turn_conn] in Q; congruence).
    assert (P2 : forall k2, k2 = after es k1 \/ k2 = conn_shut (after es k1) -> plays cf ins (a_did a ++ [job_deed j es]) k2 (skipn n s) true).
    { intros k2 K2. unfold job_deed. rewrite J1, J2, J3, J4. refine (pl_turn cf ins (a_did a) k s n k1 (j_ws j) (Some (j_args j)) (Some (j_args j, es)) k2 P C Ns T _). exists es. auto. }
    split.
    + cbn [NetSpec.s_outs]. eapply groups_add; [exact G1|exact G2| |rewrite emits_all; reflexivity]. unfold ssays. cbn. rewrite flat_map_app. cbn [flat_map]. rewrite !app_nil_r, says_job, app_assoc. reflexivity.
    + cbn. rewrite Ea. destruct (k_closed (after es (with_packet (skipn n s) k1))) eqn:C2.
      * right. split; [|reflexivity]. split; [reflexivity|]. split; [exact C2|]. exists (after es k1), (skipn n s), true. apply P2. auto.
      * left. exists true. split; [|split; [intros _ Q; destruct (a_did a); discriminate Q|discriminate]]. split; [reflexivity|].
        exists (after es k1), (skipn n s). split; [apply P2; auto|]. pose proof (after_open _ _ _ C2) as Eo. rewrite Eo in C2. cbn [a_conn]. rewrite Eo. split; [exact C2|reflexivity].
  - right. exists []. split; [apply more_nil|]. split; [rewrite app_nil_r; reflexivity|]. split; [exists groups; auto|]. cbn.
    destruct I as [(b & O & Nb & D)|[O Q]]; [left; exists b; auto|right; auto].
  - right. exists []. split; [apply more_nil|]. split; [rewrite app_nil_r; reflexivity|]. split; [exists groups; auto|]. cbn.
    destruct I as [(b & O & Nb & D)|[O Q]]; [left; exists b; auto|discriminate Q].
Qed.

(** *** The server *)
Notation server := (server cdata shared job).
Notation ssteps := (ssteps cdata shared job cdata_new (serve c cf orc pg) (job_work c cf orc) (job_done pg)).
Notation sstep := (sstep cdata shared job cdata_new (serve c cf orc pg) (job_work c cf orc) (job_done pg)).
Notation s_shared := (s_shared cdata shared job). Notation s_conns := (s_conns cdata shared job). Notation s_gone := (s_gone cdata shared job).
Notation mkServer := (mkServer cdata shared job).
Definition others_ok (f : shared -> shared) : Prop := forall g, exists l, more l g (f g).
Variable ch0 : cache.
Definition all (s : server) : list sconn := s_conns s ++ s_gone s.
Definition fine_srv (s : server) : Prop :=
  g_bad (s_shared s) = None /\ Forall cinv (all s) /\ ran c cf orc 0 ch0 (g_log (s_shared s)) (g_num (s_shared s)) (g_cache (s_shared s)) /\
  exists others, shuffle (others :: map sdeeds (all s)) (g_log (s_shared s)).
Definition bad_srv (s : server) : Prop := exists t, g_bad (s_shared s) = Some t /\ Forall sane (all s) /\ exists x ins m ds l,
  In x (all s) /\ s_ins x = ins ++ m /\ sdeeds x = ds ++ l /\
  (text_trouble cf ins ds t \/ exists g1 l2, g_log (s_shared s) = g_log g1 ++ l2 /\ cmd_trouble c cf orc ins ds (shared_new ch0) g1 t).
Lemma cinv_sane : forall x, cinv x -> sane x.
Proof. intros x (_ & I). unfold sane. destruct (s_job x) as [[j []]|]; auto. exact (proj2 I). Qed.
Definition sinv (s : server) : Prop := fine_srv s \/ bad_srv s.

Lemma step_inv : forall fl en s s', sstep fl en others_ok s s' -> sinv s -> sinv s'.
Proof.
  intros fl en s s' H I. destruct H as [g l gone fd N|g l1 x l2 gone x' g' A|g l1 x l2 gone Q|g l gone f F].
  - destruct I as [(B & Fc & R & others & S)|(t & B & Sn & x & ins & m & ds & r & Ix & E & D & T)].
    + left. split; [exact B|]. split; [|split; [exact R|]].
      * constructor; [|exact Fc]. split; [exists []; split; reflexivity|]. cbn. left. exists false. split; [|split; [discriminate|reflexivity]]. split; [reflexivity|].
        exists (Conn.conn_new false), []. split; [constructor|]. split; reflexivity.
      * exists others. cbn. eapply shuffle_perm; [apply shuffle_more; exact S|]. apply perm_swap.
    + right. exists t. split; [exact B|]. split; [constructor; [exact I|exact Sn]|]. exists x, ins, m, ds, r. split; [right; exact Ix|auto].
  - assert (Map : forall y, In y (all (mkServer g (l1 ++ x :: l2) gone)) -> y = x \/ In y (all (mkServer g' (l1 ++ x' :: l2) gone))).
    { intros y Y. unfold all in *. cbn in *. rewrite !in_app_iff in *. cbn in *. intuition. }
    assert (Ix' : In x' (all (mkServer g' (l1 ++ x' :: l2) gone))) by (unfold all; cbn; rewrite !in_app_iff; cbn; auto).
    assert (Ex : all (mkServer g (l1 ++ x :: l2) gone) = l1 ++ x :: (l2 ++ gone)) by (unfold all; cbn; rewrite <- app_assoc; reflexivity).
    assert (Ex' : all (mkServer g' (l1 ++ x' :: l2) gone) = l1 ++ x' :: (l2 ++ gone)) by (unfold all; cbn; rewrite <- app_assoc; reflexivity).
    assert (Swap : forall P : sconn -> Prop, Forall P (all (mkServer g (l1 ++ x :: l2) gone)) -> P x' -> Forall P (all (mkServer g' (l1 ++ x' :: l2) gone))).
    { intros P F1 F2. rewrite Ex'. rewrite Ex in F1. apply Forall_app in F1. destruct F1 as [F0 F1]. inversion F1; subst. apply Forall_app. split; [exact F0|]. constructor; assumption. }
    destruct I as [(B & Fc & R & others & S)|(t & B & Sn & y & ins & m & ds & r & Iy & E & D & T)].
    + cbn in B. assert (Ci : cinv x) by (rewrite Forall_forall in Fc; apply Fc; rewrite Ex; apply in_app_iff; right; left; reflexivity).
      assert (Sn : Forall sane (all (mkServer g (l1 ++ x :: l2) gone))) by (eapply Forall_impl; [intros y Y; apply cinv_sane; exact Y|exact Fc]).
      destruct (act_ok _ _ _ _ _ _ A Ci B) as (_ & [(t & B' & T)|(new & M & D & Ci')]).
      * right. exists t. split; [exact B'|]. split.
        { apply Swap; [exact Sn|]. assert (Sx : sane x) by (apply cinv_sane; exact Ci). clear -A Sx. destruct A as [fd ins os a g du s a' g' out cl E|fd ins os a g du s a' g' out j [[a2 g2] o2] E|fd ins os a g du s a1 g1 out j a2 g2 out2 Fl E
            |fd ins os a g j j' g' E|fd ins os a g j a' out cl E|fd ins os a g du cl Fl|fd ins os a g du En]; cbn; auto. unfold sane. cbn. unfold serve in E. destruct (k_closed (a_conn a)); [discriminate|]. eapply loop_job. exact E. }
        exists x', (s_ins x'), [], (sdeeds x'), []. split; [exact Ix'|]. split; [rewrite app_nil_r; reflexivity|]. split; [rewrite app_nil_r; reflexivity|].
        destruct T as [T|(l & i & ch & w & k & s & n & k1 & ws & args & Lg & R2 & P)]; [left; exact T|right]. exists g', []. split; [rewrite app_nil_r; reflexivity|].
        exists (g_log g ++ l), i, ch, w, k, s, n, k1, ws, args. split; [exact Lg|]. split; [|exact P]. cbn. eapply ran_app; [exact R|exact R2].
      * left. destruct M as (M1 & M2 & M3). split; [cbn; congruence|]. split; [apply Swap; assumption|]. split.
        -- cbn. rewrite M2. eapply ran_app; [exact R|exact M3].
        -- exists others. rewrite Ex'. cbn [NetSpec.s_shared]. rewrite M2. rewrite Ex in S. rewrite map_app in *. cbn [List.map] in *. rewrite D. cbn [NetSpec.s_shared] in S. apply (shuffle_adds _ new (others :: map sdeeds l1)). exact S.
    + right. cbn in B. assert (Sx : sane x) by (rewrite Forall_forall in Sn; apply Sn; rewrite Ex; apply in_app_iff; right; left; reflexivity).
      destruct (act_keeps _ _ _ _ _ _ _ A Sx B) as ((B' & (lg & Lg) & (dd & Dd)) & [m' Em] & Sx'). exists t. split; [exact B'|]. split; [apply Swap; assumption|].
      assert (T' : text_trouble cf ins ds t \/ exists g1 l2, g_log g' = g_log g1 ++ l2 /\ cmd_trouble c cf orc ins ds (shared_new ch0) g1 t).
      { destruct T as [T|(g1 & r2 & Lg1 & T)]; [left; exact T|right]. exists g1, (r2 ++ lg). split; [|exact T]. cbn in Lg1. rewrite Lg, Lg1, app_assoc. reflexivity. }
      destruct (Map y Iy) as [-> |Iy'].
      * exists x', ins, (m ++ m'), ds, (r ++ dd). split; [exact Ix'|]. split; [rewrite Em, E, app_assoc; reflexivity|]. split; [rewrite Dd, D, app_assoc; reflexivity|exact T'].
      * exists y, ins, m, ds, r. auto.
  - assert (P : Permutation (all (mkServer g (l1 ++ x :: l2) gone)) (all (mkServer g (l1 ++ l2) (x :: gone)))).
    { unfold all. cbn. rewrite <- !app_assoc. cbn. apply Permutation_app_head. apply Permutation_middle. }
    destruct I as [(B & Fc & R & others & S)|(t & B & Sn & y & ins & m & ds & r & Iy & E & D & T)].
    + left. split; [exact B|]. split; [eapply Permutation_Forall; eassumption|]. split; [exact R|]. exists others. eapply shuffle_perm; [exact S|]. constructor. apply Permutation_map. exact P.
    + right. exists t. split; [exact B|]. split; [eapply Permutation_Forall; eassumption|]. exists y, ins, m, ds, r. split; [eapply Permutation_in; eassumption|auto].
  - destruct (F g) as (new & M1 & M2 & M3). destruct I as [(B & Fc & R & others & S)|(t & B & Sn & y & ins & m & ds & r & Iy & E & D & T)].
    + left. split; [cbn in *; congruence|]. split; [exact Fc|]. split; [cbn in *; rewrite M2; eapply ran_app; [exact R|exact M3]|].
      exists (others ++ new). cbn in *. rewrite M2. exact (shuffle_adds _ new [] others _ _ S).
    + right. exists t. split; [cbn in *; congruence|]. split; [exact Sn|]. exists y, ins, m, ds, r. split; [exact Iy|]. split; [exact E|]. split; [exact D|].
      destruct T as [T|(g1 & r2 & Lg1 & T)]; [left; exact T|right]. exists g1, (r2 ++ new). split; [|exact T]. cbn in *. rewrite M2, Lg1, app_assoc. reflexivity.
Qed.
Lemma steps_inv : forall fl en s s', ssteps fl en others_ok s s' -> sinv s -> sinv s'.
Proof. intros fl en s s' H. induction H as [|x y z A H IH]; intro I; [exact I|]. apply IH. eapply step_inv; eassumption. Qed.
Lemma sinv_new : sinv (mkServer (shared_new ch0) [] []).
Proof. left. split; [reflexivity|]. split; [constructor|]. split; [constructor|]. exists []. apply shuffle_nil. constructor; [reflexivity|constructor]. Qed.
(** The log only grows. *)
Lemma step_log : forall fl en s s', sstep fl en others_ok s s' -> exists l, g_log (s_shared s') = g_log (s_shared s) ++ l.
Proof.
  intros fl en s s' H. destruct H as [g l gone fd N|g l1 x l2 gone x' g' A|g l1 x l2 gone Q|g l gone f F]; cbn in *; try (exists []; rewrite app_nil_r; reflexivity).
  - exact (act_log _ _ _ _ _ _ A).
  - destruct (F g) as (new & _ & M & _). eauto.
Qed.
Lemma steps_log : forall fl en s s', ssteps fl en others_ok s s' -> exists l, g_log (s_shared s') = g_log (s_shared s) ++ l.
Proof.
  intros fl en s s' H. induction H as [|x y z A H [l E]]; [exists []; rewrite app_nil_r; reflexivity|].
  destruct (step_log _ _ _ _ A) as [l0 E0]. exists (l0 ++ l). rewrite E, E0, app_assoc. reflexivity.
Qed.
End Steps.
