(** C76: a command changes only the keys it names, so what one client stores every client reads. *)
From Verif Require Import Base Types Clamp Entry Hash Map Shard Cache Reach Text IntText CmdTable CmdSpec CmdSpec3 CmdsProofs CmdsProofs4 Prog Cmds Conn ConnSpec ConnProofs7 PropCache SafeSpec SafeProofs2 PropSafe PropSafe2 PropConn Net NetSpec NetProofs PropNet Server ServerSpec ServerProofs ServerProofs2 ServerProofs3 PropReply Base PropCmds PropCursor PropCmds3  PropSafe2 SafeProofs2  PropServer.
From Verif Require Import Observe CmdSpec2 PropCmds2 CmdTableProofs PropText SafeProofs PropServerSafe FrameSpec FrameProofs.
From Coq Require Import String Lia.
Local Open Scope N_scope.
Notation length := List.length.
Notation concat := List.concat.
Notation map := List.map.

Lemma frame_any : forall o cf authed pr args orc n ch t ch' es evs,
  reachable (ctx_of o) ch -> SafeSpec.sized o (cf_fuel cf) ch -> cf_nshards cf = shards_of o ->
  fine orc -> manned orc -> steady orc -> ample orc \/ (~ word (hd [] args) "set" /\ ~ word (hd [] args) "setex") -> until orc t -> ordinary o args ->
  prun (ctx_of o) orc n ch (evcommand cf authed pr args) = Ok (ch', es, evs) ->
  forall key, ~ writes args key -> same_from o t ch ch' key.
Proof.
  intros o cf authed pr args orc n ch t ch' es evs R Sz Ns F M St Am U [Af Nb] E.
  pose proof (sz_room _ _ _ Sz) as Rm. set (P := fun k => ~ writes args k).
  enough (W : framed o orc t P n ch (evcommand cf authed pr args)).
  { destruct W as (ch2 & es2 & ev2 & E2 & _ & K). rewrite E in E2. injection E2 as <- _ _. intros key Pk. exact (K key Pk). }
  clear E ch' es evs.
  assert (Auth : framed o orc t P n ch (cmdAUTH (cf_password cf) pr args)).
  { unfold cmdAUTH. cbv zeta. destruct (negb (is_word (hd [] args) "auth")).
    { destruct (is_mc pr); apply fr_answer; exact R. }
    destruct args as [|a0 [|p [|q [|x r]]]]; try (apply fr_error; exact R).
    destruct (beq p (cf_password cf)); [|apply fr_error; exact R].
    apply fr_auth. destruct (is_pg pr); apply fr_answer; exact R. }
  destruct (outside_dec (hd [] args)) as [Out|Out].
  { destruct (outside_runs o cf orc n ch authed pr args Out) as (es & E). exists ch, es, []. split; [exact E|]. split; [exact R|apply kept_refl]. }
  unfold evcommand. destruct (cf_useauth cf && negb authed && negb (is_http pr)); [exact Auth|].
  destruct (C33_lookup (hd [] args)) as ((g & G) & L & _). rewrite G.
  destruct g as [i|]; [|apply fr_error; exact R].
  apply L in G. clear L. unfold outside, word in Out.
  assert (Hi : (i < 40)%nat).
  { rewrite <- (proj1 (proj2 C33_names)). apply nth_error_Some. congruence. }
  assert (First : In (lower (hd [] args)) first_key -> forall k, P k -> forall a0 key r, args = a0 :: key :: r -> k <> key).
  { intros H k Pk a0 key r -> ->. apply Pk. apply writes_first. exact H. }
  assert (Any : In (lower (hd [] args)) every_key -> args <> [] -> forall k, ~ P k).
  { intros H Ne k Pk. apply Pk. destruct args as [|a r]; [contradiction|]. apply writes_every. exact H. }
  assert (Ne : args <> [] \/ args = []) by (destruct args; [right; reflexivity|left; discriminate]).
  unfold cmd_func. rewrite Ns.
  do 40 (try (destruct i as [|i]; [cbn [nth_error cmd_names List.map] in G; injection G as G; cbn [nth]|])); [..|lia].
  all: try (exfalso; rewrite <- G in Out; tauto).
  all: try (match type of G with ?w = _ => assert (Fk : In w first_key) by (cbv [first_key List.map In]; tauto) end; rewrite G in Fk; specialize (First Fk)).
  all: try (match type of G with ?w = _ => assert (Ek : In w every_key) by (cbv [every_key List.map In]; tauto) end; rewrite G in Ek;
    destruct Ne as [Ne|Ne]; [specialize (Any Ek Ne)|rewrite Ne in G; discriminate G]).
  1: { destruct Am as [Am|[Am _]]; [|destruct Am; symmetry; exact G]. apply (set_framed o orc F Am); try assumption; intros; exact St. }
  all: try (first
    [ apply (get_framed o orc F) | apply (ttl_framed o orc F) | apply (mget_framed o orc F) | apply (exists_framed o orc F) | apply (touch_framed o orc F)
    | apply (expire_framed o orc F) | apply (dbsize_framed o orc) | apply (flush_framed o orc F)
    | apply purge_framed | apply (sweep_framed o orc F) | apply (keys_framed o orc F) | apply (by_framed o orc F) | apply (one_framed o orc F) | apply (append_framed o orc F) ]; assumption).
  - (* DEL *) apply (del_framed o orc F); [exact R|]. intros k Pk In_. apply Pk. destruct args as [|a r]; [destruct In_|]. apply writes_del; [|exact In_].
    unfold word. cbn [hd] in G. symmetry. exact G.
  - (* SETEX *) destruct Am as [Am|[_ Am]]; [|destruct Am; symmetry; exact G]. apply (setex_framed o orc F Am); assumption.
  - (* QUIT *) unfold cmdQUIT. apply fr_puts. apply fr_close. apply fr_done. exact R.
  - (* ECHO *) unfold cmdECHO. destruct args as [|a0 [|m [|x r]]]; try (apply fr_error; exact R).
    destruct (is_pg pr); apply fr_answer; exact R.
  - (* SELECT *) unfold cmdSELECT. destruct (negb (is_resp pr)); [apply fr_error; exact R|].
    destruct args as [|a0 [|d [|x r]]]; try (apply fr_error; exact R). destruct (parse_i64 d) as [db|]; [|apply fr_error; exact R].
    destruct (db >? 0)%Z; [apply fr_error|apply fr_answer]; exact R.
  - (* PING *) unfold cmdPING. destruct args as [|a0 [|m [|x r]]]; try (apply fr_error; exact R); destruct (is_pg pr); apply fr_answer; exact R.
  - exact Auth.
  - (* VERSION *) unfold cmdVERSION. apply fr_answer. exact R.
  - (* SCAN *) apply (cmdSCAN_framed o orc F); try assumption. symmetry. exact G.
Qed.

(** *** Over the network *)
(** A command leaves every key alone that it may not change: from the end of the command on, the key shows the same. (Expired items may
    be removed, which nobody can see.) *)
Theorem C76_frame : forall o cf authed pr args orc n ch t ch' es evs,
  reachable (ctx_of o) ch -> SafeSpec.sized o (cf_fuel cf) ch -> cf_nshards cf = shards_of o ->
  fine orc -> manned orc -> steady orc -> ample orc -> until orc t -> ordinary o args ->
  prun (ctx_of o) orc n ch (evcommand cf authed pr args) = Ok (ch', es, evs) ->
  forall key, ~ writes args key -> same_from o t ch ch' key.
Proof.
  intros o cf authed pr args orc n ch t ch' es evs R Sz Ns F M St Am U Oa E. exact (frame_any o cf authed pr args orc n ch t ch' es evs R Sz Ns F M St (or_introl Am) U Oa E).
Qed.

Lemma ran_split : forall c cf orc a b i ch i' ch', ran c cf orc i ch (a ++ b) i' ch' ->
  exists i1 ch1, ran c cf orc i ch a i1 ch1 /\ ran c cf orc i1 ch1 b i' ch'.
Proof.
  intros c cf orc a b. induction a as [|e a IH]; intros i ch i' ch' R; cbn [app] in R.
  - exists i, ch. split; [constructor|exact R].
  - inversion R; subst.
    + match goal with H : ran _ _ _ _ _ (a ++ b) _ _ |- _ => destruct (IH _ _ _ _ H) as (i1 & ch1 & A & B) end. exists i1, ch1. split; [apply ran_reply; assumption|exact B].
    + match goal with H : ran _ _ _ _ _ (a ++ b) _ _ |- _ => destruct (IH _ _ _ _ H) as (i1 & ch2 & A & B) end. exists i1, ch2. split; [eapply ran_command; eassumption|exact B].
Qed.
Lemma ran_join : forall c cf orc a b i ch i1 ch1 i' ch', ran c cf orc i ch a i1 ch1 -> ran c cf orc i1 ch1 b i' ch' -> ran c cf orc i ch (a ++ b) i' ch'.
Proof. intros c cf orc a b i ch i1 ch1 i' ch' A B. induction A; cbn [app]; [exact B|apply ran_reply; auto|eapply ran_command; eauto]. Qed.
Lemma ran_grows : forall c cf orc l i ch i' ch', ran c cf orc i ch l i' ch' -> (i <= i')%nat.
Proof. intros c cf orc l i ch i' ch' R. induction R; lia. Qed.

(** The command is done and not turned down for want of a password. *)
Definition allowed (cf : config) (e : deed) : Prop := cf_useauth cf = false \/ e_auth e = true \/ d_proto (e_did e) = HTTP.
Lemma allowed_runs : forall cf e args i, allowed cf e -> get_cmd (hd [] args) = Some (Some i) ->
  evcommand cf (e_auth e) (d_proto (e_did e)) args = cmd_func cf i (d_proto (e_did e)) args.
Proof.
  intros cf e args i A G. unfold evcommand. rewrite G. destruct A as [-> |[-> | ->]]; [reflexivity| |]; rewrite ?andb_false_r; reflexivity.
Qed.
Lemma get_at : forall name w i, word name w -> nth_error cmd_names i = Some (bs w) -> get_cmd name = Some (Some i).
Proof. intros name w i W N. destruct (C33_lookup name) as (_ & L & _). apply L. rewrite N. unfold word in W. rewrite W. reflexivity. Qed.

Section Log.
Variables (o : opts) (cf : config) (orc : nat -> nat -> input).
Hypothesis Ns : cf_nshards cf = shards_of o.
Hypothesis H : forall j, fine (orc j) /\ manned (orc j) /\ steady (orc j) /\ ample (orc j).
Lemma mid_kept : forall l i ch i' ch' t key, ran (ctx_of o) cf orc i ch l i' ch' -> reachable (ctx_of o) ch ->
  (forall l1 l2 i1 ch1, l = l1 ++ l2 -> ran (ctx_of o) cf orc i ch l1 i1 ch1 -> SafeSpec.sized o (cf_fuel cf) ch1) ->
  (forall e args es, In e l -> snd (d_what (e_did e)) = Some (args, es) -> ordinary o args /\ ~ writes args key) ->
  (forall j, (j < i')%nat -> until (orc j) t) -> same_from o t ch ch' key /\ reachable (ctx_of o) ch'.
Proof.
  intros l i ch i' ch' t key Rn. induction Rn as [i ch|i ch e l i' ch' E Rn IH|i ch e l i' ch' args es w ch1 evs E P Rn IH]; intros R Sz Od Ut.
  - split; [intros t' v _; reflexivity|exact R].
  - apply IH; [exact R| |intros e0 a0 s0 I0; apply Od; right; exact I0|exact Ut].
    intros l1 l2 i1 ch1 -> Q. apply (Sz (e :: l1) l2 i1 ch1 eq_refl). apply ran_reply; assumption.
  - destruct (H i) as (F & M & St & Am). destruct (Od e args es (or_introl eq_refl) E) as [Oa Nw].
    pose proof (Sz [] (e :: l) i ch eq_refl (ran_end _ _ _ _ _)) as Sz0.
    destruct (ordinary_ends o cf (orc i) w ch (e_auth e) (d_proto (e_did e)) args Ns F M St R Sz0 Oa) as (ch2 & es2 & ev2 & P2 & R2).
    rewrite P in P2. injection P2 as <- <- <-.
    assert (Hi : (i < i')%nat) by (apply ran_grows in Rn; lia).
    pose proof (C76_frame o cf (e_auth e) (d_proto (e_did e)) args (working w (orc i)) 0 ch t ch1 es evs R Sz0 Ns (working_fine w _ F) M St Am (Ut i Hi) Oa P key Nw) as K1.
    destruct IH as [K2 R3]; [exact R2| |intros e0 a0 s0 I0; apply Od; right; exact I0|exact Ut|].
    + intros l1 l2 i1 ch3 -> Q. apply (Sz (e :: l1) l2 i1 ch3 eq_refl). eapply ran_command; eassumption.
    + split; [|exact R3]. intros t' v Ht. rewrite (K1 t' v Ht). exact (K2 t' v Ht).
Qed.
End Log.

(** In a server with any number of clients: after SET key val by one of them, GET key by any of them, if nothing in between may change
    the key, replies with val. Both were done, in this order; what other threads do (FLUSHALL ASYNC at its time, for one) is in the log as well. *)
Theorem C76_read_back : forall o cf orc pg size ss ch t l1 e1 mid e2 l2 a0 g key val es1 es2,
  server_possible (ctx_of o) cf orc pg size ss (thread_new (shared_new ch)) -> Forall (polite (ctx_of o) cf orc) ss ->
  server_run (ctx_of o) cf orc pg size ss (thread_new (shared_new ch)) = NOk t -> g_bad (t_shared t) = None ->
  reachable (ctx_of o) ch -> cf_nshards cf = shards_of o -> (forall j, fine (orc j) /\ manned (orc j) /\ steady (orc j) /\ ample (orc j)) ->
  (forall i j a b, (i < j)%nat -> (in_now (orc i a) <= in_now (orc j b))%Z) ->
  (forall l1 l2 i ch1, g_log (t_shared t) = l1 ++ l2 -> ran (ctx_of o) cf orc 0 ch l1 i ch1 -> SafeSpec.sized o (cf_fuel cf) ch1) ->
  (forall e args es, In e (g_log (t_shared t)) -> snd (d_what (e_did e)) = Some (args, es) -> ordinary o args) ->
  g_log (t_shared t) = l1 ++ e1 :: mid ++ e2 :: l2 -> allowed cf e1 -> allowed cf e2 ->
  word a0 "set" -> snd (d_what (e_did e1)) = Some ([a0; key; val], es1) ->
  word g "get" -> snd (d_what (e_did e2)) = Some ([g; key], es2) ->
  (forall e args es, In e mid -> snd (d_what (e_did e)) = Some (args, es) -> ~ writes args key) ->
  es1 = map Out (stored_reply (d_proto (e_did e1)) "SET") /\
  exists dec tok, prints dec /\ es2 = map Out (get_reply dec (d_proto (e_did e2)) key (Some (mkView val 0 0 tok))).
Proof.
  intros o cf orc pg size ss ch t l1 e1 mid e2 l2 a0 g key val es1 es2 Ps Po Er B R Ns H Mono Sz Od El A1 A2 W1 Q1 W2 Q2 Mid.
  destruct (C59_server _ _ _ _ _ _ _ _ Ps Po Er B) as (Rn & _). rewrite El in Rn, Sz, Od.
  assert (H' : forall j, fine (orc j) /\ manned (orc j) /\ steady (orc j)) by (intro j; destruct (H j) as (x & y & z & _); auto).
  destruct (ran_split _ _ _ _ _ _ _ _ _ Rn) as (i1 & ch1 & Ra & Rb).
  assert (R1 : reachable (ctx_of o) ch1).
  { apply (ran_reachable o cf orc l1 0 ch i1 ch1 Ns H' Ra R).
    - intros a b i ch2 -> Q. apply (Sz a (b ++ e1 :: mid ++ e2 :: l2) i ch2); [rewrite <- app_assoc; reflexivity|exact Q].
    - intros e a s Ie. apply Od. apply in_or_app. left. exact Ie. }
  destruct (ran_first _ _ _ _ _ _ _ _ _ _ _ Rb Q1) as (w1 & ch2 & ev1 & P1 & Rc).
  pose proof (Sz l1 (e1 :: mid ++ e2 :: l2) i1 ch1 eq_refl Ra) as Sz1.
  assert (O1 : ordinary o [a0; key; val]) by (apply (Od e1 _ es1); [apply in_or_app; right; left; reflexivity|exact Q1]).
  destruct (H i1) as (F1 & M1 & St1 & Am1).
  destruct (ordinary_ends o cf (orc i1) w1 ch1 (e_auth e1) (d_proto (e_did e1)) _ Ns F1 M1 St1 R1 Sz1 O1) as (ch2' & es2' & ev2' & P1' & R2).
  rewrite P1 in P1'. injection P1' as <- _ _.
  assert (S1 : es1 = map Out (stored_reply (d_proto (e_did e1)) "SET") /\ exists tok, CmdSpec.holds o ch2 key (mkView val 0 0 tok)).
  { rewrite (allowed_runs cf e1 [a0; key; val] 0 A1 (get_at _ "set" 0%nat W1 eq_refl)) in P1. cbn [cmd_func nth] in P1.
    destruct O1 as [O1 _]. inversion O1 as [|? ? _ B1]; subst. inversion B1 as [|? ? B2 B3]; subst. inversion B3 as [|? ? B4 _]; subst.
    destruct B2 as [B2 L2], B4 as [B4 L4].
    assert (Ft : CmdSpec.fits o ch1 key val).
    { apply fits_of; try assumption; [exact (sz_room _ _ _ Sz1)|]. change (2 ^ 61) with 2305843009213693952 in L2, L4. change (2 ^ 62) with 4611686018427387904. lia. }
    destruct (sees_some o ch1 key (in_now (working w1 (orc i1) 0%nat)) R1) as [old So].
    destruct (PropCmds.C28_set o (working w1 (orc i1)) 0 ch1 (d_proto (e_did e1)) a0 key val [] [] old R1 (working_fine w1 _ F1) (fun _ => St1) Ft spell_end) as (c' & reply & evs & i & e & _ & P & (l & ->) & Ne & D).
    { split; [intros _ u z []|]. split; [intros []|intros [[] _]]. }
    { exact So. }
    rewrite P1 in P. injection P as <- -> _. destruct Ne as [_ Ne]. specialize (Ne (fun x => x)). subst e.
    destruct D as (_ & _ & D). rewrite (Am1 l : in_lowmem (working w1 (orc i1) l) = false) in D.
    destruct (D eq_refl) as (_ & Rp & (tok & Hd) & _). { unfold CmdSpec.refused. cbn [last_cas]. destruct old; intros []. }
    split; [rewrite (Rp (fun x => x)); reflexivity|]. exists tok. exact Hd. }
  destruct S1 as (S1 & tok & Hd). split; [exact S1|].
  destruct (ran_split _ _ _ _ _ _ _ _ _ Rc) as (i3 & ch3 & Rd & Re).
  destruct (ran_first _ _ _ _ _ _ _ _ _ _ _ Re Q2) as (w2 & ch4 & ev2 & P2 & Rf).
  assert (Rp : ran (ctx_of o) cf orc 0 ch (l1 ++ [e1]) (S i1) ch2) by (eapply ran_join; [exact Ra|eapply ran_command; [exact Q1|exact P1|constructor]]).
  destruct (mid_kept o cf orc Ns H mid (S i1) ch2 i3 ch3 (in_now (orc i3 0%nat)) key Rd R2) as [K R3].
  { intros a b i c' -> Q. apply (Sz ((l1 ++ [e1]) ++ a) (b ++ e2 :: l2) i c'); [rewrite <- !app_assoc; reflexivity|].
    eapply ran_join; [exact Rp|exact Q]. }
  { intros e args es Ie Qe. split; [|exact (Mid e args es Ie Qe)]. apply (Od e args es); [|exact Qe]. apply in_or_app. right. right. apply in_or_app. left. exact Ie. }
  { intros j Hj n. apply Mono. exact Hj. }
  destruct (H i3) as (F3 & M3 & St3 & Am3).
  rewrite (allowed_runs cf e2 [g; key] 1 A2 (get_at _ "get" 1%nat W2 eq_refl)) in P2. cbn [cmd_func nth] in P2.
  assert (So : sees (ctx_of o) ch3 key (in_now (working w2 (orc i3) 0%nat)) (Some (mkView val 0 0 tok))).
  { apply K; [cbn; lia|]. exact (Hd (in_now (orc i3 0%nat))). }
  destruct (C32_get o (working w2 (orc i3)) 0 ch3 (d_proto (e_did e2)) g key _ R3 (working_fine w2 _ F3) So) as (c' & evs & dec & _ & Pd & P & _).
  rewrite P2 in P. injection P as _ -> _. exists dec, tok. split; [exact Pd|reflexivity].
Qed.

(** *** A case: one client sets k9 and deletes k3, another reads k9 *)
Definition back_steps : list (nstep shared) :=
  [SRound (server_answers (demo_read [(5%nat, RData (text_set ++ bs "DEL k3" ++ crlf)); (6%nat, RData (bs "GET k9" ++ crlf))])) [mkEvent 5 true; mkEvent 6 true]].
Definition back_end : thread cdata shared job := Eval vm_compute in end_of (case_run back_steps (thread_new (shared_new demo_ch))).
Definition back_get : cache := Eval vm_compute in g_cache (t_shared back_end).
Definition del_args : list bytes := [bs "DEL"; bs "k3"].
Definition get_args : list bytes := [bs "GET"; bs "k9"].
Definition back_del : cache := Eval vm_compute in match prun demo_c demo_orc 0 case_ch (evcommand case_cf false RESP del_args) with Ok (ch, _, _) => ch | Bad _ => case_ch end.
Lemma back_ran : case_run back_steps (thread_new (shared_new demo_ch)) = NOk back_end.
Proof. vm_compute. reflexivity. Qed.
Lemma back_can : server_possible demo_c case_cf server_orc no_pages 8 back_steps (thread_new (shared_new demo_ch)) /\ Forall (polite demo_c case_cf server_orc) back_steps.
Proof. split; [unfold back_steps; next_round; exact I|]. constructor; [intros fd g; apply no_others|constructor]. Qed.
Lemma back_dels : forall w, exists es evs, prun demo_c (working w demo_orc) 0 case_ch (evcommand case_cf false RESP del_args) = Ok (back_del, es, evs).
Proof. intros []; eexists _, _; vm_compute; reflexivity. Qed.
Lemma back_gets : forall w, exists es evs, prun demo_c (working w demo_orc) 0 back_del (evcommand case_cf false RESP get_args) = Ok (back_get, es, evs).
Proof. intros []; eexists _, _; vm_compute; reflexivity. Qed.
Lemma next_reachable : forall args ch ch' es evs, prun demo_c (working true demo_orc) 0 ch (evcommand case_cf false RESP args) = Ok (ch', es, evs) ->
  reachable demo_c ch -> SafeSpec.sized demo_opts 40 ch -> ordinary demo_opts args -> reachable demo_c ch'.
Proof.
  intros args ch ch' es evs E R Sz Oa.
  destruct (ordinary_ends demo_opts case_cf demo_orc true ch false RESP args eq_refl demo_fine demo_manned demo_steady R Sz Oa) as (c2 & e2 & v2 & E2 & R2).
  change (ctx_of demo_opts) with demo_c in E2. rewrite E in E2. injection E2 as <- _ _. exact R2.
Qed.
Lemma back_del_ok : reachable demo_c back_del /\ SafeSpec.sized demo_opts 40 back_del.
Proof.
  assert (R : reachable demo_c back_del).
  { destruct (back_dels true) as (es & evs & E). exact (next_reachable _ _ _ _ _ E case_reachable case_sized (ordinary_short demo_opts del_args eq_refl eq_refl)). }
  split; [exact R|]. apply small_sized; [exact R|apply cursor_fits_b|apply Nat.leb_le|apply N.leb_le]; vm_compute; reflexivity.
Qed.
Lemma back_get_ok : reachable demo_c back_get /\ SafeSpec.sized demo_opts 40 back_get.
Proof.
  assert (R : reachable demo_c back_get).
  { destruct (back_gets true) as (es & evs & E). destruct back_del_ok as [R1 S1]. exact (next_reachable _ _ _ _ _ E R1 S1 (ordinary_short demo_opts get_args eq_refl eq_refl)). }
  split; [exact R|]. apply small_sized; [exact R|apply cursor_fits_b|apply Nat.leb_le|apply N.leb_le]; vm_compute; reflexivity.
Qed.
Lemma del_spares : ~ writes del_args (bs "k9").
Proof.
  intro W. remember del_args as l eqn:El. remember (bs "k9") as k eqn:Ek. unfold del_args in El.
  destruct W as [name key rest Hn|name keys key Hn Hi|name rest key Hn].
  - injection El as _ E _. rewrite E in Ek. discriminate Ek.
  - injection El as _ E. rewrite E in Hi. destruct Hi as [Hi|[]]. rewrite <- Hi in Ek. discriminate Ek.
  - injection El as E _. rewrite E in Hn. repeat (destruct Hn as [Hn|Hn]; [discriminate Hn|]). exact Hn.
Qed.
Example C76_read_back_case :
  server_possible (ctx_of demo_opts) case_cf server_orc no_pages 8 back_steps (thread_new (shared_new demo_ch)) /\
  Forall (polite (ctx_of demo_opts) case_cf server_orc) back_steps /\
  server_run (ctx_of demo_opts) case_cf server_orc no_pages 8 back_steps (thread_new (shared_new demo_ch)) = NOk back_end /\ g_bad (t_shared back_end) = None /\
  reachable (ctx_of demo_opts) demo_ch /\ cf_nshards case_cf = shards_of demo_opts /\
  (forall j, fine (server_orc j) /\ manned (server_orc j) /\ steady (server_orc j) /\ ample (server_orc j)) /\
  (forall i j a b, (i < j)%nat -> (in_now (server_orc i a) <= in_now (server_orc j b))%Z) /\
  (forall l1 l2 i ch1, g_log (t_shared back_end) = l1 ++ l2 -> ran (ctx_of demo_opts) case_cf server_orc 0 demo_ch l1 i ch1 -> SafeSpec.sized demo_opts (cf_fuel case_cf) ch1) /\
  (forall e args es, In e (g_log (t_shared back_end)) -> snd (d_what (e_did e)) = Some (args, es) -> ordinary demo_opts args) /\
  exists e1 em e2 es1 esm es2, g_log (t_shared back_end) = [] ++ e1 :: [em] ++ e2 :: [] /\ allowed case_cf e1 /\ allowed case_cf e2 /\
    word (bs "SET") "set" /\ snd (d_what (e_did e1)) = Some ([bs "SET"; bs "k9"; bs "v"], es1) /\
    word (bs "GET") "get" /\ snd (d_what (e_did e2)) = Some ([bs "GET"; bs "k9"], es2) /\
    snd (d_what (e_did em)) = Some (del_args, esm) /\ ~ writes del_args (bs "k9").
Proof.
  change (ctx_of demo_opts) with demo_c.
  assert (G : exists e1 e2 e3 s1 s2 s3, g_log (t_shared back_end) = [e1; e2; e3] /\ e_auth e1 = false /\ d_proto (e_did e1) = RESP /\ snd (d_what (e_did e1)) = Some (case_args, s1) /\
      e_auth e2 = false /\ d_proto (e_did e2) = RESP /\ snd (d_what (e_did e2)) = Some (del_args, s2) /\
      e_auth e3 = false /\ d_proto (e_did e3) = RESP /\ snd (d_what (e_did e3)) = Some (get_args, s3)).
  { eexists _, _, _, _, _, _. split; [vm_compute; reflexivity|]. repeat split; vm_compute; reflexivity. }
  destruct G as (e1 & e2 & e3 & s1 & s2 & s3 & G & A1 & P1 & W1 & A2 & P2 & W2 & A3 & P3 & W3). rewrite G.
  split; [exact (proj1 back_can)|]. split; [exact (proj2 back_can)|]. split; [exact back_ran|]. split; [vm_compute; reflexivity|].
  split; [exact demo_reachable|]. split; [reflexivity|]. split; [intro j; split; [exact demo_fine|split; [exact demo_manned|split; [exact demo_steady|intro n; reflexivity]]]|].
  split; [intros; cbn; lia|]. split; [|split].
  - intros l1 l2 i ch1 E R.
    assert (S1 : forall ch2 es evs w, prun demo_c (working w (server_orc 0)) 0 demo_ch (evcommand case_cf false RESP case_args) = Ok (ch2, es, evs) -> ch2 = case_ch).
    { intros ch2 es evs w Q. destruct (pair_set w false) as (es' & evs' & Q'). change (server_orc 0%nat) with demo_orc in Q. rewrite Q in Q'. clear - Q'.
      generalize dependent case_ch. intros d Q'. injection Q'; intros; assumption. }
    assert (S2 : forall ch2 es evs w, prun demo_c (working w (server_orc 1)) 0 case_ch (evcommand case_cf false RESP del_args) = Ok (ch2, es, evs) -> ch2 = back_del).
    { intros ch2 es evs w Q. destruct (back_dels w) as (es' & evs' & Q'). change (server_orc 1%nat) with demo_orc in Q. rewrite Q in Q'. clear - Q'.
      generalize dependent back_del. intros d Q'. injection Q'; intros; assumption. }
    assert (S3 : forall ch2 es evs w, prun demo_c (working w (server_orc 2)) 0 back_del (evcommand case_cf false RESP get_args) = Ok (ch2, es, evs) -> ch2 = back_get).
    { intros ch2 es evs w Q. destruct (back_gets w) as (es' & evs' & Q'). change (server_orc 2%nat) with demo_orc in Q. rewrite Q in Q'. clear - Q'.
      generalize dependent back_get. intros d Q'. injection Q'; intros; assumption. }
    destruct l1 as [|x1 [|x2 [|x3 [|x4 l1]]]]; cbn [app] in E; try discriminate E.
    + apply ran_none in R. rewrite R. exact demo_sized.
    + injection E as <- _. destruct (ran_first _ _ _ _ _ _ _ _ _ _ _ R W1) as (w & c2 & evs & Q & R2). rewrite A1, P1 in Q.
      apply S1 in Q. apply ran_none in R2. rewrite R2, Q. exact case_sized.
    + injection E as <- <- _. destruct (ran_first _ _ _ _ _ _ _ _ _ _ _ R W1) as (w & c2 & evs & Q & R2). rewrite A1, P1 in Q.
      apply S1 in Q. rewrite Q in R2. destruct (ran_first _ _ _ _ _ _ _ _ _ _ _ R2 W2) as (w' & c3 & evs' & Q' & R3). rewrite A2, P2 in Q'.
      apply S2 in Q'. apply ran_none in R3. rewrite R3, Q'. exact (proj2 back_del_ok).
    + injection E as <- <- <- _. destruct (ran_first _ _ _ _ _ _ _ _ _ _ _ R W1) as (w & c2 & evs & Q & R2). rewrite A1, P1 in Q.
      apply S1 in Q. rewrite Q in R2. destruct (ran_first _ _ _ _ _ _ _ _ _ _ _ R2 W2) as (w' & c3 & evs' & Q' & R3). rewrite A2, P2 in Q'.
      apply S2 in Q'. rewrite Q' in R3. destruct (ran_first _ _ _ _ _ _ _ _ _ _ _ R3 W3) as (w'' & c4 & evs'' & Q'' & R4). rewrite A3, P3 in Q''.
      apply S3 in Q''. apply ran_none in R4. rewrite R4, Q''. exact (proj2 back_get_ok).
  - intros e args es I W. destruct I as [<-|[<-|[<-|[]]]]; [rewrite W1 in W|rewrite W2 in W|rewrite W3 in W]; injection W as <- _; apply ordinary_short; reflexivity.
  - exists e1, e2, e3, s1, s2, s3. split; [reflexivity|]. split; [left; reflexivity|]. split; [left; reflexivity|]. split; [reflexivity|].
    split; [exact W1|]. split; [reflexivity|]. split; [exact W3|]. split; [exact W2|exact del_spares].
Qed.
(** And for C76_frame: DEL k3 leaves k9 as SET k9 v made it. *)
Example C76_frame_case : exists es evs, prun demo_c demo_orc 0 case_ch (evcommand case_cf false RESP del_args) = Ok (back_del, es, evs) /\
  reachable demo_c case_ch /\ SafeSpec.sized demo_opts (cf_fuel case_cf) case_ch /\ ample demo_orc /\ until demo_orc 110 /\ ordinary demo_opts del_args /\
  ~ writes del_args (bs "k9") /\ writes del_args (bs "k3").
Proof.
  eexists _, _. split; [vm_compute; reflexivity|]. split; [exact case_reachable|]. split; [exact case_sized|]. split; [intro n; reflexivity|].
  split; [intro n; cbn; lia|]. split; [apply ordinary_short; reflexivity|]. split; [exact del_spares|]. apply writes_del; [reflexivity|left; reflexivity].
Qed.
