(** C79: SET NX is a lock: of all clients that try, one gets it, and it keeps it until its time ends or it is given back. *)
From Verif Require Import Base Types Clamp Entry Hash Map Shard Cache Reach Text IntText IntTextProofs CmdTable CmdSpec CmdSpec3 CmdsProofs CmdsProofs3 CmdsProofs4 Prog Cmds Conn ConnSpec ConnProofs7 PropCache SafeSpec SafeProofs2 PropSafe PropSafe2 PropConn Net NetSpec NetProofs PropNet Server ServerSpec ServerProofs ServerProofs2 ServerProofs3 PropReply Base PropCmds PropCursor PropCmds3  PropSafe2 SafeProofs2  PropServer.
From Verif Require Import Spec Observe CmdSpec2 PropCmds2 CmdTableProofs PropText SafeProofs PropServerSafe FrameSpec FrameProofs PropFrame PropTally PropSpan.
From Coq Require Import String Lia.
Local Open Scope N_scope.
Notation length := List.length.
Notation concat := List.concat.
Notation map := List.map.


(** The command tries to take the lock [key]: SET key val NX, with any options besides but CAS and GET. *)
Definition attempt (pr : proto) (key val : bytes) (os : list opt) (args : list bytes) : Prop :=
  exists a0 rest, word a0 "set" /\ spelled rest os /\ valid pr os /\ In Nx os /\ ~ In Get os /\ last_cas os = None /\ args = a0 :: key :: val :: rest.
(** It was told that it got the lock. *)
Definition won (e : deed) (es : list eff) : Prop := es = map Out (stored_reply (d_proto (e_did e)) "SET").
(** It was told that it did not get it. *)
Definition lost (e : deed) (es : list eff) : Prop := exists v, es = map Out (refused_reply (d_proto (e_did e)) "SET" (Some v)).
(** No command but a try touches the lock. *)
Definition contended (key : bytes) (mid : list deed) : Prop := forall e args es, In e mid -> snd (d_what (e_did e)) = Some (args, es) ->
  ~ writes args key \/ exists val os, attempt (d_proto (e_did e)) key val os args.

(** No command but a try that lost touches the lock. *)
Definition idle (key : bytes) (mid : list deed) : Prop := forall e args es, In e mid -> snd (d_what (e_did e)) = Some (args, es) ->
  ~ writes args key \/ exists val os, attempt (d_proto (e_did e)) key val os args /\ lost e es.

Lemma won_not_lost : forall e es, won e es -> ~ lost e es.
Proof.
  intros e es W (v & L). unfold won in W. rewrite W in L. unfold stored_reply, refused_reply, done_pg in L. destruct (d_proto (e_did e)); cbn in L; discriminate L.
Qed.

Section Log.
Variables (o : opts) (cf : config) (orc : nat -> nat -> input).
Hypothesis Ns : cf_nshards cf = shards_of o.
Hypothesis H : forall j, fine (orc j) /\ manned (orc j) /\ steady (orc j) /\ ample (orc j).
Hypothesis Mono : forall i j a b, (i < j)%nat -> (in_now (orc i a) <= in_now (orc j b))%Z.
(** What a try does. *)
Lemma tries : forall i ch w e key val os args ch' es evs old, reachable (ctx_of o) ch -> SafeSpec.sized o (cf_fuel cf) ch -> ordinary o args -> allowed cf e ->
  attempt (d_proto (e_did e)) key val os args -> sees (ctx_of o) ch key (in_now (orc i 0%nat)) old ->
  prun (ctx_of o) (working w (orc i)) 0 ch (evcommand cf (e_auth e) (d_proto (e_did e)) args) = Ok (ch', es, evs) ->
  match old with
  | Some v => lost e es /\ same_from o (in_now (orc i 0%nat)) ch ch' key
  | None => won e es /\ exists x tok, new_expiry (d_proto (e_did e)) (orc i) (in_now (orc i 0%nat)) os None x /\
      CmdSpec.holds o ch' key (mkView val x (match last_flags os with Some y => y mod 2 ^ 32 | None => 0 end) tok)
  end.
Proof.
  intros i ch w e key val os args ch' es evs old R Sz [Oa _] A (a0 & rest & W & Sp & V & Nn & Ng & Nc & ->) So P.
  destruct (H i) as (F & _ & St & Am).
  assert (Ft : CmdSpec.fits o ch key val).
  { destruct (proj1 (Forall_forall _ _) Oa key ltac:(cbn; tauto)) as [B2 L2]. destruct (proj1 (Forall_forall _ _) Oa val ltac:(cbn; tauto)) as [B4 L4].
    apply fits_of; try assumption; [exact (sz_room _ _ _ Sz)|]. change (2 ^ 61) with 2305843009213693952 in L2, L4. change (2 ^ 62) with 4611686018427387904. lia. }
  rewrite (allowed_runs cf e (a0 :: key :: val :: rest) 0 A (get_at _ "set" 0%nat W eq_refl)) in P. cbn [cmd_func nth] in P.
  destruct (PropCmds.C28_set o (working w (orc i)) 0 ch (d_proto (e_did e)) a0 key val rest os old R (working_fine w _ F) (fun _ => St) Ft Sp V So) as (c' & reply & evs' & i' & x & _ & P' & (l & ->) & Ne & D).
  rewrite P in P'. injection P' as <- -> _.
  destruct D as (_ & D1 & D2). rewrite (Am l : in_lowmem (working w (orc i) l) = false) in D1, D2.
  destruct old as [v|].
  - destruct (D1 eq_refl) as (_ & Rp & Sm & _). { unfold CmdSpec.refused. rewrite Nc. exact Nn. }
    split; [exists v; rewrite (Rp Ng); reflexivity|exact Sm].
  - destruct (D2 eq_refl) as (_ & Rp & (tok & Hd) & _). { unfold CmdSpec.refused. rewrite Nc. intro X. destruct V as (_ & _ & V). apply V. split; assumption. }
    split; [unfold won; rewrite (Rp Ng); reflexivity|]. exists x, tok. split; [exact Ne|exact Hd].
Qed.
(** What stands under the key now and until it ends. *)
Definition stands (i : nat) (ch : cache) (key : bytes) (v : Types.view) : Prop :=
  forall t, later orc i t -> alive_at (v_exp v) t = true -> sees (ctx_of o) ch key t (Some v).
Lemma alive_before : forall x t t', alive_at x t = true -> (t' <= t)%Z -> alive_at x t' = true.
Proof. intros x t t' A L. unfold alive_at in *. destruct (Z.eqb_spec x 0); [reflexivity|]. cbn [orb] in *. lia. Qed.
Lemma mid_stands : forall l i ch i' ch' key (v : Types.view) T, ran (ctx_of o) cf orc i ch l i' ch' -> reachable (ctx_of o) ch ->
  (forall l1 l2 i1 ch1, l = l1 ++ l2 -> ran (ctx_of o) cf orc i ch l1 i1 ch1 -> SafeSpec.sized o (cf_fuel cf) ch1) ->
  (forall e args es, In e l -> snd (d_what (e_did e)) = Some (args, es) -> ordinary o args) ->
  contended key l -> later orc i' T -> alive_at (v_exp v) T = true -> stands i ch key v ->
  stands i' ch' key v /\ reachable (ctx_of o) ch'.
Proof.
  intros l i ch i' ch' key v T Rn. induction Rn as [i ch|i ch e l i' ch' E Rn IH|i ch e l i' ch' args es w ch1 evs E P Rn IH]; intros R Sz Od Co Lt Al Sh.
  - split; assumption.
  - apply IH; try assumption.
    + intros l1 l2 i1 ch1 -> Q. apply (Sz (e :: l1) l2 i1 ch1 eq_refl). apply ran_reply; assumption.
    + intros e0 a0 s0 I0. apply Od. right. exact I0.
    + intros e0 a0 s0 I0. apply Co. right. exact I0.
  - pose proof (Od e args es (or_introl eq_refl) E) as Oa.
    pose proof (Sz [] (e :: l) i ch eq_refl (ran_end _ _ _ _ _)) as Sz0.
    destruct (H i) as (F & M & St & Am).
    destruct (ordinary_ends o cf (orc i) w ch (e_auth e) (d_proto (e_did e)) args Ns F M St R Sz0 Oa) as (ch2 & es2 & ev2 & P2 & R2).
    rewrite P in P2. injection P2 as <- <- <-.
    assert (Lo : (S i <= i')%nat) by (exact (ran_grows _ _ _ _ _ _ _ _ Rn)).
    apply IH; try assumption.
    + intros l1 l2 i1 ch3 -> Q. apply (Sz (e :: l1) l2 i1 ch3 eq_refl). eapply ran_command; eassumption.
    + intros e0 a0 s0 I0. apply Od. right. exact I0.
    + intros e0 a0 s0 I0. apply Co. right. exact I0.
    + intros t L Av. assert (Li : later orc i t) by (intros j a Hj; apply L; lia).
      destruct (Co e args es (or_introl eq_refl) E) as [Nw|(val & os & At)].
      * apply (C76_frame o cf (e_auth e) (d_proto (e_did e)) args (working w (orc i)) 0 ch t ch1 es evs R Sz0 Ns (working_fine w _ F) M St Am); try assumption; [|lia|exact (Sh t Li Av)].
        intro n. exact (L i n (Nat.lt_succ_diag_r i)).
      * destruct (allowed_dec cf e) as [A|[_ A]]; [|rewrite A in P; apply refused_keeps in P; subst ch1; exact (Sh t Li Av)].
        assert (So : sees (ctx_of o) ch key (in_now (orc i 0%nat)) (Some v)).
        { apply Sh; [intros j a Hj; apply Mono; exact Hj|]. apply (alive_before _ T); [exact Al|]. apply Lt. lia. }
        destruct (tries i ch w e key val os args ch1 es evs (Some v) R Sz0 Oa A At So P) as [_ Sm].
        apply Sm; [exact (L i 0%nat (Nat.lt_succ_diag_r i))|exact (Sh t Li Av)].
Qed.
(** A try that lost changed nothing. *)
Lemma mid_idle : forall l i ch i' ch' key T, ran (ctx_of o) cf orc i ch l i' ch' -> reachable (ctx_of o) ch ->
  (forall l1 l2 i1 ch1, l = l1 ++ l2 -> ran (ctx_of o) cf orc i ch l1 i1 ch1 -> SafeSpec.sized o (cf_fuel cf) ch1) ->
  (forall e args es, In e l -> snd (d_what (e_did e)) = Some (args, es) -> ordinary o args) ->
  idle key l -> later orc i' T -> same_from o T ch ch' key.
Proof.
  intros l i ch i' ch' key T Rn. induction Rn as [i ch|i ch e l i' ch' E Rn IH|i ch e l i' ch' args es w ch1 evs E P Rn IH]; intros R Sz Od Co Lt.
  - intros t v _. reflexivity.
  - apply IH; try assumption.
    + intros l1 l2 i1 ch1 -> Q. apply (Sz (e :: l1) l2 i1 ch1 eq_refl). apply ran_reply; assumption.
    + intros e0 a0 s0 I0. apply Od. right. exact I0.
    + intros e0 a0 s0 I0. apply Co. right. exact I0.
  - pose proof (Od e args es (or_introl eq_refl) E) as Oa.
    pose proof (Sz [] (e :: l) i ch eq_refl (ran_end _ _ _ _ _)) as Sz0.
    destruct (H i) as (F & M & St & Am).
    destruct (ordinary_ends o cf (orc i) w ch (e_auth e) (d_proto (e_did e)) args Ns F M St R Sz0 Oa) as (ch2 & es2 & ev2 & P2 & R2).
    rewrite P in P2. injection P2 as <- <- <-.
    assert (Lo : (S i <= i')%nat) by (exact (ran_grows _ _ _ _ _ _ _ _ Rn)).
    assert (One : same_from o T ch ch1 key).
    { destruct (Co e args es (or_introl eq_refl) E) as [Nw|(val & os & At & Ls)].
      - apply (C76_frame o cf (e_auth e) (d_proto (e_did e)) args (working w (orc i)) 0 ch T ch1 es evs R Sz0 Ns (working_fine w _ F) M St Am); try assumption.
        intro n. apply (Lt i n). lia.
      - destruct (allowed_dec cf e) as [A|[_ A]]; [|rewrite A in P; apply refused_keeps in P; subst ch1; intros t v _; reflexivity].
        destruct (sees_some o ch key (in_now (orc i 0%nat)) R) as [old So].
        pose proof (tries i ch w e key val os args ch1 es evs old R Sz0 Oa A At So P) as Tr.
        destruct old as [v|]; [|destruct (won_not_lost _ _ (proj1 Tr) Ls)].
        intros t v0 Ht. apply (proj2 Tr). assert (X : (in_now (orc i 0%nat) <= T)%Z) by (apply Lt; lia). lia. }
    assert (Two : same_from o T ch1 ch' key).
    { apply IH; try assumption.
      - intros l1 l2 i1 ch3 -> Q. apply (Sz (e :: l1) l2 i1 ch3 eq_refl). eapply ran_command; eassumption.
      - intros e0 a0 s0 I0. apply Od. right. exact I0.
      - intros e0 a0 s0 I0. apply Co. right. exact I0. }
    intros t v Ht. rewrite (One t v Ht). exact (Two t v Ht).
Qed.
End Log.

(** Two commands of the log. *)
Lemma between : forall o cf orc pg size ss ch t l1 e1 mid e2 l2 args1 es1 args2 es2, served o cf orc pg size ss ch t ->
  g_log (t_shared t) = l1 ++ e1 :: mid ++ e2 :: l2 -> snd (d_what (e_did e1)) = Some (args1, es1) -> snd (d_what (e_did e2)) = Some (args2, es2) ->
  let i1 := commands l1 in let i2 := commands (l1 ++ e1 :: mid) in
  exists w1 w2 ch1 ch2 ch3 ch4 ev1 ev2, reachable (ctx_of o) ch1 /\ SafeSpec.sized o (cf_fuel cf) ch1 /\ ordinary o args1 /\
    prun (ctx_of o) (working w1 (orc i1)) 0 ch1 (evcommand cf (e_auth e1) (d_proto (e_did e1)) args1) = Ok (ch2, es1, ev1) /\
    reachable (ctx_of o) ch2 /\ reachable (ctx_of o) ch3 /\ SafeSpec.sized o (cf_fuel cf) ch3 /\ ordinary o args2 /\
    prun (ctx_of o) (working w2 (orc i2)) 0 ch3 (evcommand cf (e_auth e2) (d_proto (e_did e2)) args2) = Ok (ch4, es2, ev2) /\
    ran (ctx_of o) cf orc (S i1) ch2 mid i2 ch3 /\
    (forall a b i c', mid = a ++ b -> ran (ctx_of o) cf orc (S i1) ch2 a i c' -> SafeSpec.sized o (cf_fuel cf) c') /\
    (forall e args es, In e mid -> snd (d_what (e_did e)) = Some (args, es) -> ordinary o args).
Proof.
  intros o cf orc pg size ss ch t l1 e1 mid e2 l2 args1 es1 args2 es2 [Ps Po Er B R Ns H Mono Sz Od] El Q1 Q2 i1' i2.
  destruct (C59_server _ _ _ _ _ _ _ _ Ps Po Er B) as (Rn & _). rewrite El in Rn, Sz, Od.
  assert (H' : forall j, fine (orc j) /\ manned (orc j) /\ steady (orc j)) by (intro j; destruct (H j) as (x & y & z & _); auto).
  destruct (ran_split _ _ _ _ _ _ _ _ _ Rn) as (i1 & ch1 & Ra & Rb).
  assert (R1 : reachable (ctx_of o) ch1).
  { apply (ran_reachable o cf orc l1 0 ch i1 ch1 Ns H' Ra R).
    - intros a b i ch2 -> Q. apply (Sz a (b ++ e1 :: mid ++ e2 :: l2) i ch2); [rewrite <- app_assoc; reflexivity|exact Q].
    - intros e a s Ie. apply Od. apply in_or_app. left. exact Ie. }
  destruct (ran_first _ _ _ _ _ _ _ _ _ _ _ Rb Q1) as (w1 & ch2 & ev1 & P1 & Rc).
  pose proof (Sz l1 (e1 :: mid ++ e2 :: l2) i1 ch1 eq_refl Ra) as Sz1.
  assert (O1 : ordinary o args1) by (apply (Od e1 _ es1); [apply in_or_app; right; left; reflexivity|exact Q1]).
  assert (O2 : ordinary o args2) by (apply (Od e2 _ es2); [apply in_or_app; right; right; apply in_or_app; right; left; reflexivity|exact Q2]).
  destruct (H i1) as (F1 & M1 & St1 & Am1).
  destruct (ordinary_ends o cf (orc i1) w1 ch1 (e_auth e1) (d_proto (e_did e1)) _ Ns F1 M1 St1 R1 Sz1 O1) as (ch2' & es2' & ev2' & P1' & R2).
  rewrite P1 in P1'. injection P1' as <- _ _.
  assert (E1 : i1 = i1') by (rewrite (ran_commands _ _ _ _ _ _ _ _ Ra); reflexivity).
  destruct (ran_split _ _ _ _ _ _ _ _ _ Rc) as (i3 & ch3 & Rd & Re).
  destruct (ran_first _ _ _ _ _ _ _ _ _ _ _ Re Q2) as (w2 & ch4 & ev2 & P2 & Rf).
  assert (Rp : ran (ctx_of o) cf orc 0 ch (l1 ++ [e1]) (S i1) ch2) by (eapply ran_join; [exact Ra|eapply ran_command; [exact Q1|exact P1|constructor]]).
  assert (Rq : ran (ctx_of o) cf orc 0 ch ((l1 ++ [e1]) ++ mid) i3 ch3) by (eapply ran_join; eassumption).
  assert (E3 : i3 = i2).
  { pose proof Rq as Rq'. rewrite <- app_assoc in Rq'. rewrite (ran_commands _ _ _ _ _ _ _ _ Rq'). reflexivity. }
  assert (Sz3 : SafeSpec.sized o (cf_fuel cf) ch3) by (apply (Sz ((l1 ++ [e1]) ++ mid) (e2 :: l2) i3 ch3); [rewrite <- !app_assoc; reflexivity|exact Rq]).
  assert (Rest : forall a b i c', mid = a ++ b -> ran (ctx_of o) cf orc (S i1) ch2 a i c' -> SafeSpec.sized o (cf_fuel cf) c').
  { intros a b i c' -> Q. apply (Sz ((l1 ++ [e1]) ++ a) (b ++ e2 :: l2) i c'); [rewrite <- !app_assoc; reflexivity|]. eapply ran_join; [exact Rp|exact Q]. }
  assert (Ords : forall e args es, In e mid -> snd (d_what (e_did e)) = Some (args, es) -> ordinary o args).
  { intros e args es Ie Qe. apply (Od e args es); [|exact Qe]. apply in_or_app. right. right. apply in_or_app. left. exact Ie. }
  assert (R3 : reachable (ctx_of o) ch3).
  { apply (ran_reachable o cf orc mid (S i1) ch2 i3 ch3 Ns H' Rd R2); [intros a b i c' Em Q; exact (Rest a b i c' Em Q)|exact Ords]. }
  rewrite E1 in *. rewrite E3 in *. clear E1 E3. exists w1, w2, ch1, ch2, ch3, ch4, ev1, ev2.
  split; [exact R1|]. split; [exact Sz1|]. split; [exact O1|]. split; [exact P1|]. split; [exact R2|]. split; [exact R3|]. split; [exact Sz3|]. split; [exact O2|].
  split; [exact P2|]. split; [exact Rd|]. split; [exact Rest|exact Ords].
Qed.
(** The lock between the winner and a later command: its value stands, as long as its time has not ended. *)
Lemma locked : forall o cf orc pg size ss ch t l1 e1 mid e2 l2 key val os args1 es1 args2 es2, served o cf orc pg size ss ch t ->
  g_log (t_shared t) = l1 ++ e1 :: mid ++ e2 :: l2 -> allowed cf e1 ->
  snd (d_what (e_did e1)) = Some (args1, es1) -> attempt (d_proto (e_did e1)) key val os args1 -> won e1 es1 ->
  snd (d_what (e_did e2)) = Some (args2, es2) -> contended key mid ->
  let now1 := in_now (orc (commands l1) 0%nat) in let i2 := commands (l1 ++ e1 :: mid) in let now2 := in_now (orc i2 0%nat) in
  exists x tok w ch3 ch4 ev, new_expiry (d_proto (e_did e1)) (orc (commands l1)) now1 os None x /\ reachable (ctx_of o) ch3 /\ SafeSpec.sized o (cf_fuel cf) ch3 /\ ordinary o args2 /\
    (alive_at x now2 = true -> sees (ctx_of o) ch3 key now2 (Some (mkView val x (match last_flags os with Some y => y mod 2 ^ 32 | None => 0 end) tok))) /\
    prun (ctx_of o) (working w (orc i2)) 0 ch3 (evcommand cf (e_auth e2) (d_proto (e_did e2)) args2) = Ok (ch4, es2, ev).
Proof.
  intros o cf orc pg size ss ch t l1 e1 mid e2 l2 key val os args1 es1 args2 es2 Sv El A1 Q1 At Wn Q2 Co now1 i2 now2.
  destruct (between o cf orc pg size ss ch t l1 e1 mid e2 l2 _ es1 _ es2 Sv El Q1 Q2) as (w1 & w2 & ch1 & ch2 & ch3 & ch4 & ev1 & ev2 & R1 & Sz1 & O1 & P1 & R2 & R3 & Sz3 & O2 & P2 & Rd & Rest & Ords).
  destruct Sv as [_ _ _ _ _ Ns H Mono _ _].
  destruct (sees_some o ch1 key now1 R1) as [old So].
  pose proof (tries o cf orc Ns H Mono (commands l1) ch1 w1 e1 key val os args1 ch2 es1 ev1 old R1 Sz1 O1 A1 At So P1) as Tr.
  destruct old as [v|]; [destruct Tr as [Ls _]; destruct (won_not_lost _ _ Wn Ls)|]. destruct Tr as (_ & x & tok & Ne & Hd).
  exists x, tok, w2, ch3, ch4, ev2. split; [exact Ne|]. split; [exact R3|]. split; [exact Sz3|]. split; [exact O2|].
  split; [|exact P2]. intro Al.
  set (v := mkView val x (match last_flags os with Some y => y mod 2 ^ 32 | None => 0 end) tok) in *.
  assert (Lt : later orc i2 now2) by (intros j a Hj; apply Mono; exact Hj).
  destruct (mid_stands o cf orc Ns H Mono mid _ ch2 _ ch3 key v now2 Rd R2 Rest Ords Co Lt Al) as [K _].
  { intros t0 _ A0. specialize (Hd t0). rewrite A0 in Hd. exact Hd. }
  exact (K now2 Lt Al).
Qed.

(** One client got the lock; since then all clients only tried to get it. Until the time of the lock ends, nobody else gets it. *)
Theorem C79_exclusive : forall o cf orc pg size ss ch t l1 e1 mid e2 l2 key val os args1 es1 val2 os2 args2 es2, served o cf orc pg size ss ch t ->
  g_log (t_shared t) = l1 ++ e1 :: mid ++ e2 :: l2 -> allowed cf e1 -> allowed cf e2 ->
  snd (d_what (e_did e1)) = Some (args1, es1) -> attempt (d_proto (e_did e1)) key val os args1 -> won e1 es1 ->
  snd (d_what (e_did e2)) = Some (args2, es2) -> attempt (d_proto (e_did e2)) key val2 os2 args2 -> contended key mid ->
  let now1 := in_now (orc (commands l1) 0%nat) in let now2 := in_now (orc (commands (l1 ++ e1 :: mid)) 0%nat) in
  exists x, new_expiry (d_proto (e_did e1)) (orc (commands l1)) now1 os None x /\ (x = 0%Z \/ (now2 < x)%Z -> lost e2 es2 /\ ~ won e2 es2).
Proof.
  intros o cf orc pg size ss ch t l1 e1 mid e2 l2 key val os args1 es1 val2 os2 args2 es2 Sv El A1 A2 Q1 At1 Wn Q2 At2 Co now1 now2.
  destruct (locked o cf orc pg size ss ch t l1 e1 mid e2 l2 key val os args1 es1 args2 es2 Sv El A1 Q1 At1 Wn Q2 Co) as (x & tok & w & ch3 & ch4 & ev & Ne & R3 & Sz3 & O2 & So & P).
  exists x. split; [exact Ne|]. intro Hx.
  assert (Al : alive_at x now2 = true) by (unfold alive_at; destruct (Z.eqb_spec x 0); [reflexivity|]; cbn [orb]; lia).
  destruct (tries o cf orc (sv_shards _ _ _ _ _ _ _ _ Sv) (sv_input _ _ _ _ _ _ _ _ Sv) (sv_clock _ _ _ _ _ _ _ _ Sv) (commands (l1 ++ e1 :: mid)) ch3 w e2 key val2 os2 args2 ch4 es2 ev _ R3 Sz3 O2 A2 At2 (So Al) P) as [Ls _].
  split; [exact Ls|]. intro W2. exact (won_not_lost _ _ W2 Ls).
Qed.
(** Everybody who reads the lock in that time sees who has it. *)
Theorem C79_holder : forall o cf orc pg size ss ch t l1 e1 mid e2 l2 key val os args1 es1 g es2, served o cf orc pg size ss ch t ->
  g_log (t_shared t) = l1 ++ e1 :: mid ++ e2 :: l2 -> allowed cf e1 -> allowed cf e2 ->
  snd (d_what (e_did e1)) = Some (args1, es1) -> attempt (d_proto (e_did e1)) key val os args1 -> won e1 es1 ->
  word g "get" -> snd (d_what (e_did e2)) = Some ([g; key], es2) -> contended key mid ->
  let now1 := in_now (orc (commands l1) 0%nat) in let now2 := in_now (orc (commands (l1 ++ e1 :: mid)) 0%nat) in
  exists x, new_expiry (d_proto (e_did e1)) (orc (commands l1)) now1 os None x /\
    (x = 0%Z \/ (now2 < x)%Z -> exists dec v, prints dec /\ v_val v = val /\ es2 = map Out (get_reply dec (d_proto (e_did e2)) key (Some v))).
Proof.
  intros o cf orc pg size ss ch t l1 e1 mid e2 l2 key val os args1 es1 g es2 Sv El A1 A2 Q1 At1 Wn W2 Q2 Co now1 now2.
  destruct (locked o cf orc pg size ss ch t l1 e1 mid e2 l2 key val os args1 es1 _ es2 Sv El A1 Q1 At1 Wn Q2 Co) as (x & tok & w & ch3 & ch4 & ev & Ne & R3 & _ & _ & So & P2).
  exists x. split; [exact Ne|]. intro Hx.
  assert (Al : alive_at x now2 = true) by (unfold alive_at; destruct (Z.eqb_spec x 0); [reflexivity|]; cbn [orb]; lia).
  destruct (sv_input _ _ _ _ _ _ _ _ Sv (commands (l1 ++ e1 :: mid))) as (F & _).
  rewrite (allowed_runs cf e2 [g; key] 1 A2 (get_at _ "get" 1%nat W2 eq_refl)) in P2. cbn [cmd_func nth] in P2.
  destruct (C32_get o (working w (orc (commands (l1 ++ e1 :: mid)))) 0 ch3 (d_proto (e_did e2)) g key _ R3 (working_fine w _ F) (So Al)) as (c' & evs & dec & _ & Pd & P & _).
  rewrite P2 in P. injection P as _ -> _. eexists dec, _. split; [exact Pd|]. split; [|reflexivity]. reflexivity.
Qed.
(** Once the lock was deleted, or its time has ended, the first client that tries gets it. *)
Theorem C79_released : forall o cf orc pg size ss ch t l1 e1 mid e2 l2 key args1 es1 val2 os2 args2 es2, served o cf orc pg size ss ch t ->
  g_log (t_shared t) = l1 ++ e1 :: mid ++ e2 :: l2 -> allowed cf e1 -> allowed cf e2 ->
  snd (d_what (e_did e1)) = Some (args1, es1) ->
  snd (d_what (e_did e2)) = Some (args2, es2) -> attempt (d_proto (e_did e2)) key val2 os2 args2 ->
  idle key mid ->
  let now1 := in_now (orc (commands l1) 0%nat) in let now2 := in_now (orc (commands (l1 ++ e1 :: mid)) 0%nat) in
  ((exists d keys, word d "del" /\ In key keys /\ args1 = d :: keys) -> won e2 es2) /\
  (forall val os, attempt (d_proto (e_did e1)) key val os args1 -> won e1 es1 ->
     exists x, new_expiry (d_proto (e_did e1)) (orc (commands l1)) now1 os None x /\ (x <> 0%Z -> (x <= now2)%Z -> won e2 es2)).
Proof.
  intros o cf orc pg size ss ch t l1 e1 mid e2 l2 key args1 es1 val2 os2 args2 es2 Sv El A1 A2 Q1 Q2 At2 Mid now1 now2.
  destruct (between o cf orc pg size ss ch t l1 e1 mid e2 l2 _ es1 _ es2 Sv El Q1 Q2) as (w1 & w2 & ch1 & ch2 & ch3 & ch4 & ev1 & ev2 & R1 & Sz1 & O1 & P1 & R2 & R3 & Sz3 & O2 & P2 & Rd & Rest & Ords).
  pose proof (sv_input _ _ _ _ _ _ _ _ Sv) as H. pose proof (sv_shards _ _ _ _ _ _ _ _ Sv) as Ns. pose proof (sv_clock _ _ _ _ _ _ _ _ Sv) as Mono. destruct (H (commands l1)) as (F & _).
  assert (K : same_from o now2 ch2 ch3 key).
  { apply (mid_idle o cf orc Ns H Mono mid _ ch2 _ ch3 key now2 Rd R2 Rest Ords Mid). intros j a Hj. apply Mono. exact Hj. }
  assert (Got : sees (ctx_of o) ch3 key now2 None -> won e2 es2).
  { intro So. exact (proj1 (tries o cf orc Ns H Mono (commands (l1 ++ e1 :: mid)) ch3 w2 e2 key val2 os2 args2 ch4 es2 ev2 None R3 Sz3 O2 A2 At2 So P2)). }
  split.
  - intros (d & keys & W1 & Ik & ->). apply Got. apply K; [unfold now2; lia|].
    rewrite (allowed_runs cf e1 (d :: keys) 2 A1 (get_at _ "del" 2%nat W1 eq_refl)) in P1. cbn [cmd_func nth] in P1.
    assert (Ne : keys <> []) by (intros ->; destruct Ik).
    destruct (C32_del o (working w1 (orc (commands l1))) 0 ch1 (d_proto (e_did e1)) d keys R1 (working_fine w1 _ F) Ne) as (c' & evs & ks & dec & _ & _ & _ & _ & P & G & _).
    rewrite P1 in P. injection P as <- _ _. exact (G key Ik now2).
  - intros val os At1 Wn. destruct (sees_some o ch1 key now1 R1) as [old So].
    pose proof (tries o cf orc Ns H Mono (commands l1) ch1 w1 e1 key val os args1 ch2 es1 ev1 old R1 Sz1 O1 A1 At1 So P1) as Tr.
    destruct old as [v|]; [destruct Tr as [Ls _]; destruct (won_not_lost _ _ Wn Ls)|]. destruct Tr as (_ & x & tok & Ne & Hd).
    exists x. split; [exact Ne|]. intros Nz Le. apply Got. apply K; [unfold now2; lia|]. specialize (Hd now2). cbn [v_exp] in Hd.
    replace (alive_at x now2) with false in Hd; [exact Hd|]. unfold alive_at. symmetry. apply orb_false_iff. lia.
Qed.

(** *** A case: two clients try for the lock L; the first has it for one second *)
Definition lock_a : list bytes := [bs "SET"; bs "L"; bs "a"; bs "NX"; bs "EX"; bs "1"].
Definition lock_b : list bytes := [bs "SET"; bs "L"; bs "b"; bs "NX"].
Definition lock_c : list bytes := [bs "SET"; bs "L"; bs "c"; bs "NX"].
Definition lock_del : list bytes := [bs "DEL"; bs "L"].
Definition lock_steps : list (nstep shared) :=
  [SRound (server_answers (demo_read [(5%nat, RData (line "SET L a NX EX 1")); (6%nat, RData (line "SET L b NX" ++ line "SET L c NX"))])) [mkEvent 5 true; mkEvent 6 true];
   SRound (server_answers (demo_read [(5%nat, RData (line "DEL L")); (6%nat, RData (line "SET L b NX"))])) [mkEvent 5 true; mkEvent 6 true]].
Definition lock_end : thread cdata shared job := Eval vm_compute in end_of (span_run lock_steps (thread_new (shared_new demo_ch))).
Lemma lock_can : server_possible demo_c case_cf span_orc no_pages 8 lock_steps (thread_new (shared_new demo_ch)) /\ Forall (polite demo_c case_cf span_orc) lock_steps.
Proof. split; [unfold lock_steps; next_round; next_round; exact I|]. constructor; [intros fd g; apply no_others|constructor; [intros fd g; apply no_others|constructor]]. Qed.
Lemma lock_ran : span_run lock_steps (thread_new (shared_new demo_ch)) = NOk lock_end.
Proof. vm_compute. reflexivity. Qed.
Definition lock1 : cache := Eval vm_compute in then_ 0 lock_a demo_ch.
Definition lock2 : cache := Eval vm_compute in then_ 1 lock_b lock1.
Definition lock3 : cache := Eval vm_compute in then_ 2 lock_c lock2.
Definition lock4 : cache := Eval vm_compute in then_ 3 lock_del lock3.
Definition lock5 : cache := Eval vm_compute in then_ 4 lock_b lock4.
Lemma lock1_ok : reachable demo_c lock1 /\ SafeSpec.sized demo_opts 40 lock1.
Proof. span_next 0%nat (conj demo_reachable demo_sized) lock_a. Qed.
Lemma lock2_ok : reachable demo_c lock2 /\ SafeSpec.sized demo_opts 40 lock2.
Proof. span_next 1%nat lock1_ok lock_b. Qed.
Lemma lock3_ok : reachable demo_c lock3 /\ SafeSpec.sized demo_opts 40 lock3.
Proof. span_next 2%nat lock2_ok lock_c. Qed.
Lemma lock4_ok : reachable demo_c lock4 /\ SafeSpec.sized demo_opts 40 lock4.
Proof. span_next 3%nat lock3_ok lock_del. Qed.
Lemma lock5_ok : reachable demo_c lock5 /\ SafeSpec.sized demo_opts 40 lock5.
Proof. span_next 4%nat lock4_ok lock_b. Qed.
Lemma lock_log : exists e1 e2 e3 e4 e5, g_log (t_shared lock_end) = [e1; e2; e3; e4; e5] /\
  (forall e, In e [e1; e2; e3; e4; e5] -> e_auth e = false /\ d_proto (e_did e) = RESP) /\
  snd (d_what (e_did e1)) = Some (lock_a, [Out (WString (bs "OK"))]) /\
  snd (d_what (e_did e2)) = Some (lock_b, [Out WNull]) /\ snd (d_what (e_did e3)) = Some (lock_c, [Out (WString (bs "OK"))]) /\
  snd (d_what (e_did e4)) = Some (lock_del, [Out (WInt 1)]) /\ snd (d_what (e_did e5)) = Some (lock_b, [Out (WString (bs "OK"))]).
Proof.
  eexists _, _, _, _, _. split; [vm_compute; reflexivity|]. split; [intros e I; repeat (destruct I as [<-|I]; [split; vm_compute; reflexivity|]); destruct I|].
  repeat split; vm_compute; reflexivity.
Qed.
Lemma lock_served : served demo_opts case_cf span_orc no_pages 8 lock_steps demo_ch lock_end.
Proof.
  destruct lock_log as (e1 & e2 & e3 & e4 & e5 & G & Al & W1 & W2 & W3 & W4 & W5).
  split; change (ctx_of demo_opts) with demo_c; [exact (proj1 lock_can)|exact (proj2 lock_can)|exact lock_ran|vm_compute; reflexivity|exact demo_reachable|reflexivity|exact span_input| | |].
  - exact (sv_clock _ _ _ _ _ _ _ _ span_served).
  - rewrite G. intros l1 l2 i ch1 E R.
    assert (Fo : passes 0 demo_ch [e1; e2; e3; e4; e5] [lock1; lock2; lock3; lock4; lock5]).
    { cbn [passes].
      destruct (Al e1 ltac:(cbn; tauto)) as [A1 P1]. destruct (Al e2 ltac:(cbn; tauto)) as [A2 P2]. destruct (Al e3 ltac:(cbn; tauto)) as [A3 P3].
      destruct (Al e4 ltac:(cbn; tauto)) as [A4 P4]. destruct (Al e5 ltac:(cbn; tauto)) as [A5 P5]. rewrite A1, A2, A3, A4, A5, P1, P2, P3, P4, P5.
      split; [eexists _, _; split; [exact W1|]; intros []; eexists _, _; vm_compute; reflexivity|].
      split; [eexists _, _; split; [exact W2|]; intros []; eexists _, _; vm_compute; reflexivity|].
      split; [eexists _, _; split; [exact W3|]; intros []; eexists _, _; vm_compute; reflexivity|].
      split; [eexists _, _; split; [exact W4|]; intros []; eexists _, _; vm_compute; reflexivity|].
      split; [eexists _, _; split; [exact W5|]; intros []; eexists _, _; vm_compute; reflexivity|exact I]. }
    destruct (passes_ran _ _ _ _ Fo l1 l2 i ch1 E R) as [Q|[Q|[Q|[Q|[Q|[Q|[]]]]]]]; [rewrite Q|rewrite <- Q..].
    + exact demo_sized.
    + exact (proj2 lock1_ok).
    + exact (proj2 lock2_ok).
    + exact (proj2 lock3_ok).
    + exact (proj2 lock4_ok).
    + exact (proj2 lock5_ok).
  - rewrite G. intros e args es I W. destruct I as [<-|[<-|[<-|[<-|[<-|[]]]]]]; [rewrite W1 in W|rewrite W2 in W|rewrite W3 in W|rewrite W4 in W|rewrite W5 in W]; injection W as <- _; apply ordinary_short; reflexivity.
Qed.
Lemma plain_try : forall v, attempt RESP (bs "L") v [Nx] [bs "SET"; bs "L"; v; bs "NX"].
Proof.
  intro v. exists (bs "SET"), [bs "NX"]. split; [reflexivity|]. split; [apply spell_nx; [reflexivity|constructor]|].
  split; [split; [intros _ u z [E|[]]; discriminate E|]; split; [intros [E|[]]; discriminate E|]; intros [_ [E|[]]]; discriminate E|].
  split; [left; reflexivity|]. split; [intros [E|[]]; discriminate E|]. split; reflexivity.
Qed.
Lemma timed_try : attempt RESP (bs "L") (bs "a") [Nx; Expire Ex 1] lock_a.
Proof.
  exists (bs "SET"), [bs "NX"; bs "EX"; bs "1"]. split; [reflexivity|]. split.
  { apply spell_nx; [reflexivity|]. apply spell_expire; [reflexivity| |constructor]. split; [cbn; lia|]. split; [unfold i64_ok, INT64_MIN, INT64_MAX; lia|]. right. exists false, 1.
    split; [|reflexivity]. exists [], [], (bs "1"). split; [reflexivity|]. split; [constructor|]. split; [left; reflexivity|]. split; [split; [discriminate|repeat constructor]|reflexivity]. }
  split; [split; [intros _ u z [E|[E|[]]]; [discriminate E|injection E as <- <-; lia]|]; split; [intros [E|[E|[]]]; discriminate E|]; intros [_ [E|[E|[]]]]; discriminate E|].
  split; [left; reflexivity|]. split; [intros [E|[E|[]]]; discriminate E|]. split; reflexivity.
Qed.
(** The hypotheses of C79_exclusive for the first two commands; of C79_released for the first and the third, with a try that lost in
    between (time ended), and for the last two (deleted). *)
Example C79_case : exists e1 e2 e3 e4 e5,
  served demo_opts case_cf span_orc no_pages 8 lock_steps demo_ch lock_end /\
  g_log (t_shared lock_end) = [] ++ e1 :: [] ++ e2 :: [e3; e4; e5] /\
  g_log (t_shared lock_end) = [] ++ e1 :: [e2] ++ e3 :: [e4; e5] /\
  g_log (t_shared lock_end) = [e1; e2; e3] ++ e4 :: [] ++ e5 :: [] /\
  (forall e, In e [e1; e2; e3; e4; e5] -> allowed case_cf e) /\
  attempt (d_proto (e_did e1)) (bs "L") (bs "a") [Nx; Expire Ex 1] lock_a /\
  attempt (d_proto (e_did e2)) (bs "L") (bs "b") [Nx] lock_b /\ attempt (d_proto (e_did e3)) (bs "L") (bs "c") [Nx] lock_c /\
  (exists es1, snd (d_what (e_did e1)) = Some (lock_a, es1) /\ won e1 es1) /\
  (exists es2, snd (d_what (e_did e2)) = Some (lock_b, es2) /\ lost e2 es2) /\
  (exists es3, snd (d_what (e_did e3)) = Some (lock_c, es3) /\ won e3 es3) /\
  snd (d_what (e_did e4)) = Some (lock_del, [Out (WInt 1)]) /\
  (exists es5, snd (d_what (e_did e5)) = Some (lock_b, es5) /\ won e5 es5) /\
  contended (bs "L") [e2] /\ idle (bs "L") [e2] /\
  new_expiry RESP (span_orc 0) 110 [Nx; Expire Ex 1] None 1000000110 /\
  in_now (span_orc (commands [e1]) 0%nat) = 600000110%Z /\ in_now (span_orc (commands [e1; e2]) 0%nat) = 1200000110%Z.
Proof.
  destruct lock_log as (e1 & e2 & e3 & e4 & e5 & G & Al & W1 & W2 & W3 & W4 & W5). exists e1, e2, e3, e4, e5.
  assert (Pr : forall e, In e [e1; e2; e3; e4; e5] -> d_proto (e_did e) = RESP) by (intros e I; exact (proj2 (Al e I))).
  assert (Ls : lost e2 [Out WNull]) by (exists (mkView [] 0 0 0); rewrite (Pr e2 ltac:(cbn; tauto)); reflexivity).
  split; [exact lock_served|]. split; [exact G|]. split; [exact G|]. split; [exact G|]. split; [intros e _; left; reflexivity|].
  split; [rewrite (Pr e1 ltac:(cbn; tauto)); exact timed_try|]. split; [rewrite (Pr e2 ltac:(cbn; tauto)); apply plain_try|]. split; [rewrite (Pr e3 ltac:(cbn; tauto)); apply plain_try|].
  split; [eexists; split; [exact W1|unfold won; rewrite (Pr e1 ltac:(cbn; tauto)); reflexivity]|].
  split; [eexists; split; [exact W2|exact Ls]|].
  split; [eexists; split; [exact W3|unfold won; rewrite (Pr e3 ltac:(cbn; tauto)); reflexivity]|].
  split; [exact W4|]. split; [eexists; split; [exact W5|unfold won; rewrite (Pr e5 ltac:(cbn; tauto)); reflexivity]|].
  split; [intros e args es [<-|[]] Q; rewrite W2 in Q; injection Q as <- <-; right; exists (bs "b"), [Nx]; rewrite (Pr e2 ltac:(cbn; tauto)); apply plain_try|].
  split; [intros e args es [<-|[]] Q; rewrite W2 in Q; injection Q as <- <-; right; exists (bs "b"), [Nx]; split; [rewrite (Pr e2 ltac:(cbn; tauto)); apply plain_try|exact Ls]|].
  split; [reflexivity|]. split; [cbn [commands]; rewrite W1; reflexivity|]. cbn [commands]; rewrite W1, W2; reflexivity.
Qed.
