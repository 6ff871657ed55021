(** C80: the server is a table of registers: every reply of every client is what the commands before it in the log say. *)
From Verif Require Import Base Types Clamp Entry Hash Map Shard Cache Reach Text IntText IntTextProofs CmdTable CmdSpec CmdSpec3 CmdsProofs CmdsProofs3 CmdsProofs4 Prog Cmds Conn ConnSpec ConnProofs7 PropCache SafeSpec SafeProofs2 PropSafe PropSafe2 PropConn Net NetSpec NetProofs PropNet Server ServerSpec ServerProofs ServerProofs2 ServerProofs3 PropReply Base PropCmds PropCursor PropCmds3  PropSafe2 SafeProofs2  PropServer.
From Verif Require Import Spec Observe CmdSpec2 PropCmds2 CmdTableProofs PropText SafeProofs PropServerSafe FrameSpec FrameProofs PropFrame PropTally PropSpan PropLock RegSpec.
From Verif Require Import Refine.
From Coq Require Import String Lia.
Local Open Scope N_scope.
Notation length := List.length.
Notation concat := List.concat.
Notation map := List.map.


(** *** What is well formed can be decided *)
Lemma set_form : forall pr rest, (exists os, spelled rest os /\ valid pr os) \/ (forall os, spelled rest os -> ~ valid pr os).
Proof.
  intros pr rest.
  assert (Hn : (0 < 110 <= INT64_MAX)%Z) by (unfold INT64_MAX; lia).
  destruct (set_loop_spec demo_opts demo_orc demo_fine pr 110%Z Hn (length rest) rest (le_n _) set0 (fun _ => Done) 0%nat demo_ch) as [(os & n' & s & S1 & S2 & _ & _)|(S1 & _)].
  2:{ right. intros os Sp (V & _). exact (S1 os Sp V). }
  set (keep := existsb (fun x => match x with Keepttl => true | _ => false end) os).
  set (ex := existsb (fun x => match x with Expire _ _ => true | _ => false end) os).
  set (nx := existsb (fun x => match x with Nx => true | _ => false end) os).
  set (xx := existsb (fun x => match x with Xx => true | _ => false end) os).
  assert (Ik : keep = true <-> In Keepttl os).
  { unfold keep. rewrite existsb_exists. split; [intros ([]&I&E); try discriminate E; exact I|intro I; exists Keepttl; auto]. }
  assert (Ie : ex = true <-> exists u z, In (Expire u z) os).
  { unfold ex. rewrite existsb_exists. split; [intros ([]&I&E); try discriminate E; eauto|intros (u & z & I); exists (Expire u z); auto]. }
  assert (In_ : nx = true <-> In Nx os).
  { unfold nx. rewrite existsb_exists. split; [intros ([]&I&E); try discriminate E; exact I|intro I; exists Nx; auto]. }
  assert (Ix : xx = true <-> In Xx os).
  { unfold xx. rewrite existsb_exists. split; [intros ([]&I&E); try discriminate E; exact I|intro I; exists Xx; auto]. }
  destruct (keep && ex)%bool eqn:A.
  { right. intros os' Sp (_ & V & _). rewrite <- (spelled_inj _ _ S1 _ Sp) in V. apply andb_true_iff in A. destruct A as [A1 A2].
    apply Ik in A1. apply Ie in A2. destruct A2 as (u & z & A2). exact (V A1 u z A2). }
  destruct (nx && xx)%bool eqn:B.
  { right. intros os' Sp (_ & _ & V). rewrite <- (spelled_inj _ _ S1 _ Sp) in V. apply andb_true_iff in B. destruct B as [B1 B2]. apply V. split; [apply In_|apply Ix]; assumption. }
  left. exists os. split; [exact S1|]. split; [exact S2|]. split.
  - intros K u z I. apply Ik in K. rewrite K in A. cbn in A. assert (ex = true) by (apply Ie; eauto). congruence.
  - intros [I1 I2]. apply In_ in I1. apply Ix in I2. rewrite I1, I2 in B. discriminate B.
Qed.
Lemma word_dec : forall a w, word a w \/ ~ word a w.
Proof. intros a w. unfold word. destruct (list_eq_dec N.eq_dec (lower a) (bs w)); auto. Qed.
Lemma word_clash : forall (w : bytes) a b, word w a -> word w b -> bs a <> bs b -> False.
Proof. unfold word. intros w a b A B E. apply E. congruence. Qed.
Ltac clash := match goal with H1 : word ?w ?a, H2 : word ?w ?b |- _ => exfalso; apply (word_clash w a b H1 H2); let X := fresh in intro X; vm_compute in X; discriminate X end.
Lemma flush_form : forall n rest, (length rest <= n)%nat -> (exists os, flush_spelled rest os) \/ (forall os, ~ flush_spelled rest os).
Proof.
  intro n. induction n as [|n IH]; intros rest Hl; (destruct rest as [|w r]; [left; exists []; constructor|]); cbn [length] in Hl; [lia|].
  destruct (word_dec w "async") as [W1|W1]; [destruct (IH r ltac:(lia)) as [[os S]|N]; [left; eexists; apply fs_async; eassumption|]|].
  { right. intros os S. inversion S; subst; try (eapply N; eassumption); clash. }
  destruct (word_dec w "sync") as [W2|W2]; [destruct (IH r ltac:(lia)) as [[os S]|N]; [left; eexists; apply fs_sync; eassumption|]|].
  { right. intros os S. inversion S; subst; try (eapply N; eassumption); clash. }
  destruct (word_dec w "fast") as [W3|W3]; [destruct (IH r ltac:(lia)) as [[os S]|N]; [left; eexists; apply fs_fast; eassumption|]|].
  { right. intros os S. inversion S; subst; try (eapply N; eassumption); clash. }
  destruct (word_dec w "delay") as [W4|W4].
  2:{ right. intros os S. inversion S; subst; contradiction. }
  destruct r as [|v r]; [right; intros os S; inversion S; subst; contradiction|]. cbn [length] in Hl.
  destruct (parse_i64 v) as [z|] eqn:E.
  2:{ right. intros os S. inversion S; subst; try contradiction. match goal with H : int_text v _ |- _ => apply int_text_parse in H; congruence end. }
  destruct (Z_le_dec 0 z) as [Z1|Z1]; [destruct (Z_le_dec z year) as [Z2|Z2]|].
  - destruct (IH r ltac:(lia)) as [[os S]|N]; [left; eexists; apply fs_delay with (z := z); [exact W4|apply int_text_parse; exact E|lia|exact S]|].
    right. intros os S. inversion S; subst; try contradiction. eapply N; eassumption.
  - right. intros os S. inversion S; subst; try contradiction. match goal with H : int_text v _ |- _ => apply int_text_parse in H; rewrite E in H; injection H as -> end. lia.
  - right. intros os S. inversion S; subst; try contradiction. match goal with H : int_text v _ |- _ => apply int_text_parse in H; rewrite E in H; injection H as -> end. lia.
Qed.
Lemma number_form : forall u dl, (exists z, CmdSpec.number u dl z) \/ (forall z, ~ CmdSpec.number u dl z).
Proof.
  intros u dl. destruct (read_delta u dl) as [d|] eqn:E.
  - destruct (read_number _ _ _ E) as (z & _ & _ & N0). left. exists z. exact N0.
  - right. intros z N0. apply number_read in N0. destruct N0 as [N0 _]. congruence.
Qed.
Lemma in_bytes_dec : forall (x : bytes) l, In x l \/ ~ In x l.
Proof. intros x l. destruct (in_dec (list_eq_dec N.eq_dec) x l); auto. Qed.
Lemma writes_dec : forall args key, writes args key \/ ~ writes args key.
Proof.
  intros args key. destruct args as [|name rest]; [right; intro W; inversion W|].
  destruct (in_bytes_dec (lower name) every_key) as [E|E]; [left; apply writes_every; exact E|].
  destruct (word_dec name "del") as [D|D].
  - destruct (in_bytes_dec key rest) as [I|I]; [left; apply writes_del; assumption|]. right. intro W. inversion W as [n0 k0 r0 H0|n0 ks k0 H0 H1|n0 r0 k0 H0]; subst; try contradiction.
    unfold word in D. rewrite D in H0. vm_compute in H0. repeat (destruct H0 as [H0|H0]; [discriminate H0|]). exact H0.
  - destruct (in_bytes_dec (lower name) first_key) as [F|F].
    + destruct rest as [|k r]; [right; intro W; inversion W; subst; contradiction|].
      destruct (list_eq_dec N.eq_dec k key) as [->|Ne]; [left; apply writes_first; exact F|]. right. intro W. inversion W; subst; contradiction.
    + right. intro W. inversion W; subst; contradiction.
Qed.
Lemma asks_dec : forall args key, asks args key \/ ~ asks args key.
Proof.
  intros args key. destruct args as [|a0 [|k [|x r]]]; try (right; intros (b & E & _); discriminate E).
  destruct (list_eq_dec N.eq_dec k key) as [->|Ne]; [|right; intros (b & E & _); injection E; intros; contradiction].
  destruct (word_dec a0 "get") as [W1|W1]; [left; exists a0; tauto|]. destruct (word_dec a0 "ttl") as [W2|W2]; [left; exists a0; tauto|].
  destruct (word_dec a0 "pttl") as [W3|W3]; [left; exists a0; tauto|]. right. intros (b & E & H). injection E as <-. tauto.
Qed.

(** *** One command *)
Lemma shows_now : forall s now t, (now <= t)%Z -> shows (shows s now) t = shows s t.
Proof.
  intros [v|] now t L; [|reflexivity]. cbn [shows]. destruct ((v_exp v =? 0) || (now <? v_exp v))%Z eqn:E; [reflexivity|]. cbn [shows].
  destruct (Z.eqb_spec (v_exp v) 0); [discriminate E|]. cbn [orb] in *. destruct (Z.ltb_spec now (v_exp v)); [discriminate E|]. destruct (Z.ltb_spec t (v_exp v)); [lia|reflexivity].
Qed.
Section Step.
Variables (o : opts) (cf : config) (orc : nat -> input) (w : bool) (ch ch1 : cache) (e : deed) (key : bytes) (old : reg) (args : list bytes) (es : list eff).
Hypothesis Ns : cf_nshards cf = shards_of o.
Hypothesis F : fine orc.
Hypothesis M : manned orc.
Hypothesis St : steady orc.
Hypothesis Am : ample orc.
Hypothesis R : reachable (ctx_of o) ch.
Hypothesis Sz : SafeSpec.sized o (cf_fuel cf) ch.
Hypothesis Oa : ordinary o args.
Hypothesis A : allowed cf e.
Variable evs : list Shard.event.
Hypothesis P : prun (ctx_of o) (working w orc) 0 ch (evcommand cf (e_auth e) (d_proto (e_did e)) args) = Ok (ch1, es, evs).
Let now := in_now (orc O).
Hypothesis Ho : shows old now = old.
Hypothesis So : forall t, (now <= t)%Z -> sees (ctx_of o) ch key t (shows old t).
Definition from_now (ch : cache) (s : reg) : Prop := forall t, (now <= t)%Z -> sees (ctx_of o) ch key t (shows s t).
Definition outcome : Prop := exists reply new, acts (op_usecas o) (d_proto (e_did e)) orc key args old reply new /\ es = map Out reply /\ from_now ch1 new.
Lemma seen : sees (ctx_of o) ch key (in_now (working w orc 0%nat)) old.
Proof. rewrite <- Ho at 1. apply So. reflexivity. Qed.
Lemma kept : same_from o now ch ch1 key -> from_now ch1 old.
Proof. intros Sm t L. apply (Sm t _ L). apply So. exact L. Qed.
Lemma held : forall v, CmdSpec.holds o ch1 key v -> from_now ch1 (Some v).
Proof. intros v Hd t _. exact (Hd t). Qed.
Lemma fits1 : forall k v, In k args -> bytes_ok v -> (length v <= 20)%nat -> CmdSpec.fits o ch k v.
Proof.
  intros k v Ik Bv Lv. destruct Oa as [Ob _]. destruct (proj1 (Forall_forall _ _) Ob k Ik) as [B2 L2].
  apply fits_of; try assumption; [exact (sz_room _ _ _ Sz)|]. change (2 ^ 61) with 2305843009213693952 in L2. change (2 ^ 62) with 4611686018427387904. lia.
Qed.
Lemma fits2 : forall k v, In k args -> In v args -> CmdSpec.fits o ch k v /\ N.of_nat (length k) < 2 ^ 61 /\ N.of_nat (length v) < 2 ^ 61.
Proof.
  intros k v Ik Iv. destruct Oa as [Ob _]. destruct (proj1 (Forall_forall _ _) Ob k Ik) as [B2 L2]. destruct (proj1 (Forall_forall _ _) Ob v Iv) as [B4 L4].
  split; [|split; assumption]. apply fits_of; try assumption; [exact (sz_room _ _ _ Sz)|]. change (2 ^ 61) with 2305843009213693952 in L2, L4. change (2 ^ 62) with 4611686018427387904. lia.
Qed.
(** A command that complains does nothing else. *)
Lemma complains : forall a0 rest x, args = a0 :: key :: rest -> malformed (d_proto (e_did e)) args -> complaint x -> Ok (ch1, es, evs) = Ok (ch, [Out x], []) -> outcome.
Proof.
  intros a0 rest x E Ml C Q. unfold outcome. injection Q as E1 E2 _. rewrite E1, E2. exists [x], old. split; [rewrite E in *; apply act_malformed; assumption|]. split; [reflexivity|]. exact So.
Qed.
Lemma do_get : forall a0, args = [a0; key] -> word a0 "get" -> outcome.
Proof.
  intros a0 E W. pose proof P as Q. rewrite E in Q. rewrite (allowed_runs cf e [a0; key] 1 A (get_at _ "get" 1%nat W eq_refl)) in Q. cbn [cmd_func nth] in Q.
  destruct (C32_get o (working w orc) 0 ch (d_proto (e_did e)) a0 key old R (working_fine w _ F) seen) as (c2 & ev2 & dec & _ & Pd & Q2 & Sm).
  rewrite Q in Q2. injection Q2 as E1 E2 _. rewrite <- E1 in Sm. eexists _, old. split; [rewrite E; apply act_get; eassumption|]. split; [exact E2|]. apply kept. exact (Sm key).
Qed.
Lemma do_ttl : forall a0 (p : bool), args = [a0; key] -> word a0 (if p then "pttl" else "ttl") -> outcome.
Proof.
  intros a0 p E W. pose proof P as Q. rewrite E in Q.
  assert (Q' : prun (ctx_of o) (working w orc) 0 ch (cmdTTL (d_proto (e_did e)) [a0; key]) = Ok (ch1, es, evs)).
  { destruct p; [rewrite (allowed_runs cf e [a0; key] 6 A (get_at _ "pttl" 6%nat W eq_refl)) in Q|rewrite (allowed_runs cf e [a0; key] 5 A (get_at _ "ttl" 5%nat W eq_refl)) in Q]; exact Q. }
  destruct (C31_ttl o (working w orc) 0 ch (d_proto (e_did e)) a0 key p old) as (c2 & ev2 & digits & _ & Q2 & Dg & [Sm _]); [|exact R|exact (working_fine w _ F)|exact seen|].
  { destruct p; split; intro X; try reflexivity; try exact W; try discriminate X. clash. }
  rewrite Q' in Q2. injection Q2 as E1 E2 _. rewrite <- E1 in Sm. eexists _, old. split; [rewrite E; apply (act_ttl _ _ _ _ a0 p); [exact W|exact Dg]|]. split; [exact E2|]. apply kept. exact Sm.
Qed.
Lemma do_set : forall a0 rest, args = a0 :: key :: rest -> word a0 "set" -> outcome.
Proof.
  intros a0 rest E W. pose proof P as Q. rewrite (allowed_runs cf e args 0 A) in Q by (rewrite E; exact (get_at _ "set" 0%nat W eq_refl)). cbn [cmd_func nth] in Q.
  assert (Bad_ : (forall k val r os, key :: rest = k :: val :: r -> spelled r os -> ~ valid (d_proto (e_did e)) os) -> outcome).
  { intro N0. destruct (C28_reject o (working w orc) 0 ch (d_proto (e_did e)) args (working_fine w _ F)) as [msg Q2].
    - intros a k val r os E2. rewrite E in E2. apply (N0 k val r os). congruence.
    - intros _. exact St.
    - rewrite Q in Q2. apply (complains a0 rest (WError msg) E); [rewrite E; apply bad_set; assumption|right; eauto|exact Q2]. }
  destruct rest as [|val r]; [apply Bad_; intros k val r os X; discriminate X|].
  destruct (set_form (d_proto (e_did e)) r) as [(os & Sp & V)|Nv].
  2:{ apply Bad_. intros k v0 r0 os X. injection X as _ _ <-. apply Nv. }
  destruct (fits2 key val) as [Ft _]; [rewrite E; cbn; tauto|rewrite E; cbn; tauto|].
  destruct (PropCmds.C28_set o (working w orc) 0 ch (d_proto (e_did e)) a0 key val r os old R (working_fine w _ F) (fun _ => St) Ft Sp V seen) as (c' & reply & evs' & i' & x & _ & P' & (l & ->) & Ne & D).
  rewrite E, P' in Q. injection Q as E1 E2 _. rewrite E1 in D. 
  destruct D as (_ & D1 & D2). rewrite (Am l : in_lowmem (working w orc l) = false) in D1, D2.
  destruct (refused_dec (op_usecas o) os old) as [Rf|Nr].
  - destruct (D1 eq_refl Rf) as (Rg & Rp & Sm & _). exists reply, old. split; [rewrite E; eapply act_set_refused; eassumption|]. split; [symmetry; exact E2|]. apply kept. exact Sm.
  - destruct (D2 eq_refl Nr) as (Rg & Rp & (tok & Hd) & _). eexists reply, _. split; [rewrite E; eapply act_set; eassumption|]. split; [symmetry; exact E2|]. apply held. exact Hd.
Qed.
Lemma do_setex : forall a0 rest, args = a0 :: key :: rest -> word a0 "setex" -> outcome.
Proof.
  intros a0 rest E W. pose proof P as Q. rewrite (allowed_runs cf e args 8 A) in Q by (rewrite E; exact (get_at _ "setex" 8%nat W eq_refl)). cbn [cmd_func nth] in Q.
  assert (Bad_ : (forall k ex val z, key :: rest = [k; ex; val] -> int_text ex z -> (z <= 0)%Z) -> outcome).
  { intro N0. destruct (C28_setex_reject o (working w orc) 0 ch (d_proto (e_did e)) args) as [msg Q2].
    - intros a k ex val z E2. rewrite E in E2. apply (N0 k ex val z). congruence.
    - rewrite Q in Q2. apply (complains a0 rest (WError msg) E); [rewrite E; apply bad_setex; assumption|right; eauto|exact Q2]. }
  destruct rest as [|ex [|val [|x r]]]; try (apply Bad_; intros k ex0 val0 z X; discriminate X).
  destruct (parse_i64 ex) as [z|] eqn:Ez.
  2:{ apply Bad_. intros k ex0 val0 z X I. injection X as _ <- _. apply int_text_parse in I. congruence. }
  apply int_text_parse in Ez. destruct (Z_lt_dec 0 z) as [Hz|Hz].
  2:{ apply Bad_. intros k ex0 val0 z' X I. injection X as _ <- _. apply int_text_parse in I. apply int_text_parse in Ez. rewrite Ez in I. injection I as <-. lia. }
  destruct (fits2 key val) as [Ft _]; [rewrite E; cbn; tauto|rewrite E; cbn; tauto|].
  destruct (C28_setex o (working w orc) 0 ch (d_proto (e_did e)) a0 key ex val z old R (working_fine w _ F) Ft Ez Hz seen) as (c' & reply & evs' & i' & _ & P' & (l & ->) & D).
  rewrite E, P' in Q. injection Q as E1 E2 _. rewrite E1 in D.
  destruct D as (_ & _ & D2). rewrite (Am l : in_lowmem (working w orc l) = false) in D2.
  destruct (D2 eq_refl) as (_ & Rp & (tok & Hd) & _).
  { unfold CmdSpec.refused. cbn [last_cas]. destruct old; cbn; intuition discriminate. }
  eexists _, _. split; [rewrite E; eapply act_setex; eassumption|]. split; [rewrite <- E2, Rp; [reflexivity|cbn; intuition discriminate]|]. apply held. exact Hd.
Qed.
Lemma counted : forall u name d reply, count_done o (d_proto (e_did e)) (bs name) u now key d ch ch1 old reply ->
  exists new, RegSpec.counts u name d (d_proto (e_did e)) old reply new /\ from_now ch1 new.
Proof.
  intros u name d reply C. pose proof kept as K. destruct C as [Em [Sm _]|v Nn [Sm _]|old x Np Cx Nr [Sm _]|old x y s tok Cx Hm Hr -> Ds Hd _].
  - exists None. split; [apply cn_missing; assumption|exact (K Sm)].
  - eexists. split; [apply cn_text; assumption|exact (K Sm)].
  - eexists. split; [eapply cn_over; eassumption|exact (K Sm)].
  - eexists. split; [eapply cn_ok; eassumption|]. apply held. destruct old; exact Hd.
Qed.
Lemma do_one : forall a0 rest u d, args = a0 :: key :: rest -> word a0 (one_name u d) -> outcome.
Proof.
  intros a0 rest u d E W. pose proof P as Q.
  assert (Q' : prun (ctx_of o) (working w orc) 0 ch (cmdINCRDECR (d_proto (e_did e)) args d (bs (if d then "DECR" else "INCR"))) = Ok (ch1, es, evs)).
  { destruct u, d; [rewrite (allowed_runs cf e args 31 A) in Q by (rewrite E; exact (get_at _ "udecr" 31%nat W eq_refl))|rewrite (allowed_runs cf e args 30 A) in Q by (rewrite E; exact (get_at _ "uincr" 30%nat W eq_refl))
    |rewrite (allowed_runs cf e args 27 A) in Q by (rewrite E; exact (get_at _ "decr" 27%nat W eq_refl))|rewrite (allowed_runs cf e args 26 A) in Q by (rewrite E; exact (get_at _ "incr" 26%nat W eq_refl))]; exact Q. }
  assert (Us : starts_u a0 = u) by (rewrite (starts_word _ _ W); destruct u, d; reflexivity).
  destruct rest as [|x r].
  2:{ apply (complains a0 (x :: r) (WError ERR_WRONG_NUM_ARGS) E); [rewrite E; apply (bad_one _ a0 u d); [exact W|discriminate]|right; eauto|]. rewrite <- Q', E. reflexivity. }
  rewrite E in Q'.
  destruct (C29_one o (working w orc) 0 ch (d_proto (e_did e)) a0 key d (bs (if d then "DECR" else "INCR")) old R (working_fine w _ F)) as (c2 & reply & ev2 & _ & Q2 & Cd); [|exact seen|].
  { intros v Bv Lv. apply fits1; try assumption. rewrite E. cbn. tauto. }
  rewrite Q' in Q2. injection Q2 as E1 E2 _. rewrite Us, <- E1 in Cd.
  destruct (counted u (if d then "DECR" else "INCR") (signed d 1) reply) as (new & Cn & Fn); [destruct d; exact Cd|].
  exists reply, new. split; [rewrite E; eapply act_one; eassumption|]. split; [exact E2|exact Fn].
Qed.
Lemma do_by : forall a0 rest u d, args = a0 :: key :: rest -> word a0 (by_name u d) -> outcome.
Proof.
  intros a0 rest u d E W. pose proof P as Q.
  assert (Q' : prun (ctx_of o) (working w orc) 0 ch (cmdINCRDECRBY (d_proto (e_did e)) args d (bs (if d then "DECRBY" else "INCRBY"))) = Ok (ch1, es, evs)).
  { destruct u, d; [rewrite (allowed_runs cf e args 29 A) in Q by (rewrite E; exact (get_at _ "udecrby" 29%nat W eq_refl))|rewrite (allowed_runs cf e args 28 A) in Q by (rewrite E; exact (get_at _ "uincrby" 28%nat W eq_refl))
    |rewrite (allowed_runs cf e args 25 A) in Q by (rewrite E; exact (get_at _ "decrby" 25%nat W eq_refl))|rewrite (allowed_runs cf e args 24 A) in Q by (rewrite E; exact (get_at _ "incrby" 24%nat W eq_refl))]; exact Q. }
  assert (Us : starts_u a0 = u) by (rewrite (starts_word _ _ W); destruct u, d; reflexivity).
  assert (Bad_ : (forall k dl z, key :: rest = [k; dl] -> ~ CmdSpec.number u dl z) -> outcome).
  { intro N0. destruct (C29_by_reject o (working w orc) 0 ch (d_proto (e_did e)) args d (bs (if d then "DECRBY" else "INCRBY"))) as (x & Q2 & Cx).
    - intros a k dl z E2. rewrite E in E2. replace (starts_u a) with u by (injection E2 as <- _; symmetry; exact Us). apply (N0 k dl z). congruence.
    - rewrite Q' in Q2. apply (complains a0 rest x E); [rewrite E; apply (bad_by _ a0 u d); assumption|exact Cx|exact Q2]. }
  destruct rest as [|dl [|x r]]; try (apply Bad_; intros k dl0 z X; discriminate X).
  destruct (number_form u dl) as [[z Nz]|Nn].
  2:{ apply Bad_. intros k dl0 z X. injection X as _ <-. apply Nn. }
  rewrite E in Q'. rewrite <- Us in Nz.
  destruct (C29_by o (working w orc) 0 ch (d_proto (e_did e)) a0 key dl d (bs (if d then "DECRBY" else "INCRBY")) z old R (working_fine w _ F)) as (c2 & reply & ev2 & _ & Q2 & Cd); [|exact Nz|exact seen|].
  { intros v Bv Lv. apply fits1; try assumption. rewrite E. cbn. tauto. }
  rewrite Q' in Q2. injection Q2 as E1 E2 _. rewrite Us, <- E1 in Cd. rewrite Us in Nz.
  destruct (counted u (if d then "DECRBY" else "INCRBY") (signed d z) reply) as (new & Cn & Fn); [destruct d; exact Cd|].
  exists reply, new. split; [rewrite E; eapply act_by; eassumption|]. split; [exact E2|exact Fn].
Qed.
Lemma do_append : forall a0 rest (p : bool), args = a0 :: key :: rest -> word a0 (if p then "prepend" else "append") -> outcome.
Proof.
  intros a0 rest p E W. pose proof P as Q.
  assert (Q' : prun (ctx_of o) (working w orc) 0 ch (cmdAPPEND (d_proto (e_did e)) args) = Ok (ch1, es, evs)).
  { destruct p; [rewrite (allowed_runs cf e args 33 A) in Q by (rewrite E; exact (get_at _ "prepend" 33%nat W eq_refl))|rewrite (allowed_runs cf e args 32 A) in Q by (rewrite E; exact (get_at _ "append" 32%nat W eq_refl))]; exact Q. }
  destruct (Nat.eq_dec (length rest) 1) as [L|L].
  2:{ pose proof (C30_reject o (working w orc) 0 ch (d_proto (e_did e)) args) as Q2. rewrite Q' in Q2.
    apply (complains a0 rest (WError (bs "ERR wrong number of arguments")) E); [rewrite E; apply bad_append; [destruct p; tauto|cbn; lia]|right; eexists; reflexivity|apply Q2; rewrite E; cbn; lia]. }
  destruct rest as [|val [|x r]]; try discriminate L.
  destruct (fits2 key val) as (Ft & L1 & L2); [rewrite E; cbn; tauto|rewrite E; cbn; tauto|].
  rewrite E in Q'.
  destruct (C30_append o (working w orc) 0 ch (d_proto (e_did e)) a0 key val p old) as (c2 & reply & ev2 & _ & Q2 & Cd); [|exact R|exact (working_fine w _ F)|exact Ft|exact L1|exact L2|exact seen|].
  { destruct p; split; intro X; try reflexivity; try exact W; try discriminate X. clash. }
  rewrite Q' in Q2. injection Q2 as E1 E2 _. rewrite <- E1 in Cd. pose proof kept as K. unfold outcome. rewrite E. exists reply.
  destruct Cd as [Em [Sm _]|tok dg Np Hd _ Cn|v Bg [Sm _]|v tok dg Bg Hd _ Cn].
  - exists None. split; [eapply act_append_missing; eassumption|]. split; [exact E2|exact (K Sm)].
  - eexists. split; [eapply act_append_new; eassumption|]. split; [exact E2|]. apply held. exact Hd.
  - eexists. split; [eapply act_append_big; eassumption|]. split; [exact E2|exact (K Sm)].
  - eexists. split; [eapply act_append; eassumption|]. split; [exact E2|]. apply held. exact Hd.
Qed.
Lemma do_expire : forall a0 rest, args = a0 :: key :: rest -> word a0 "expire" -> outcome.
Proof.
  intros a0 rest E W. pose proof P as Q. rewrite (allowed_runs cf e args 7 A) in Q by (rewrite E; exact (get_at _ "expire" 7%nat W eq_refl)). cbn [cmd_func nth] in Q.
  assert (Bad_ : (forall k secs more z, key :: rest = k :: secs :: more -> ~ int_text secs z) -> outcome).
  { intro N0. destruct (C31_expire_reject o (working w orc) 0 ch (d_proto (e_did e)) args) as [msg Q2].
    - intros a k secs more z E2. rewrite E in E2. apply (N0 k secs more z). congruence.
    - rewrite Q in Q2. apply (complains a0 rest (WError msg) E); [rewrite E; apply bad_expire; assumption|right; eauto|exact Q2]. }
  destruct rest as [|secs more]; [apply Bad_; intros k secs more z X; discriminate X|].
  destruct (parse_i64 secs) as [z|] eqn:Ez.
  2:{ apply Bad_. intros k s0 m0 z X I. injection X as _ <- _. apply int_text_parse in I. congruence. }
  apply int_text_parse in Ez.
  destruct (C31_expire o (working w orc) 0 ch (d_proto (e_did e)) a0 key secs more z old R (working_fine w _ F) Ez seen) as (c' & evs' & _ & P' & D).
  rewrite E, P' in Q. injection Q as E1 E2 _. rewrite E1 in D. pose proof kept as K. unfold outcome. rewrite E.
  destruct old as [v|].
  - destruct D as [(tok & Hd) _]. eexists _, _. split; [eapply act_expire; eassumption|]. split; [symmetry; exact E2|]. apply held. exact Hd.
  - destruct D as [Sm _]. eexists _, None. split; [eapply act_expire_missing; eassumption|]. split; [symmetry; exact E2|exact (K Sm)].
Qed.
Lemma do_del : forall a0 keys, args = a0 :: keys -> word a0 "del" -> In key keys -> outcome.
Proof.
  intros a0 keys E W I. pose proof P as Q. rewrite (allowed_runs cf e args 2 A) in Q by (rewrite E; exact (get_at _ "del" 2%nat W eq_refl)). cbn [cmd_func nth] in Q.
  destruct (C32_del o (working w orc) 0 ch (d_proto (e_did e)) a0 keys R (working_fine w _ F)) as (c' & evs' & ks & dec & _ & Pd & Nd & Ks & P' & Gn & _); [intros ->; exact I|].
  rewrite E, P' in Q. injection Q as E1 E2 _. rewrite E1 in Gn.
  eexists _, None. split; [rewrite E; eapply act_del; [exact W|exact I|exact Pd|]|].
  2:{ split; [symmetry; exact E2|]. intros t _. exact (Gn key I t). }
  intros ->. f_equal. pose proof seen as Sn.
  destruct old as [v|].
  - assert (Ik : In key ks) by (apply Ks; split; [left; reflexivity|exists v; exact Sn]).
    destruct ks as [|k1 [|k2 r]]; [destruct Ik|reflexivity|]. exfalso.
    assert (J1 : In k1 [key]) by (apply Ks; left; reflexivity). assert (J2 : In k2 [key]) by (apply Ks; right; left; reflexivity).
    destruct J1 as [<-|[]], J2 as [<-|[]]. inversion Nd as [|? ? X _]; subst. apply X. left. reflexivity.
  - destruct ks as [|k1 r]; [reflexivity|]. exfalso. destruct (proj1 (Ks k1) (or_introl eq_refl)) as [[<-|[]] [v Hv]].
    pose proof (sees_same o ch key _ _ _ R Sn Hv) as X. discriminate X.
Qed.
Lemma do_flush : forall a0 rest name, args = a0 :: rest -> flush_named a0 name -> outcome \/ exists os, flush_spelled rest os /\ in_background os = true /\ from_now ch1 old.
Proof.
  intros a0 rest name E W. pose proof P as Q.
  assert (Q' : prun (ctx_of o) (working w orc) 0 ch (cmdFLUSHALL (shards_of o) (d_proto (e_did e)) args) = Ok (ch1, es, evs)).
  { rewrite <- Ns. destruct W as [[W _]|[[W _]|[W _]]]; [rewrite (allowed_runs cf e args 15 A) in Q by (rewrite E; exact (get_at _ "flush" 15%nat W eq_refl))|rewrite (allowed_runs cf e args 13 A) in Q by (rewrite E; exact (get_at _ "flushdb" 13%nat W eq_refl))
    |rewrite (allowed_runs cf e args 14 A) in Q by (rewrite E; exact (get_at _ "flushall" 14%nat W eq_refl))]; exact Q. }
  rewrite E in Q'. destruct (flush_form (length rest) rest (le_n _)) as [[os Sp]|Nf].
  - pose proof (C51_flush o (working w orc) 0 ch (d_proto (e_did e)) a0 rest os name R (working_fine w _ F) M W Sp) as D. cbv zeta in D. rewrite Q' in D.
    destruct (in_background os) eqn:Bg.
    + destruct D as (q & D & _). injection D as E1 _ _. right. exists os. split; [exact Sp|]. split; [exact Bg|]. rewrite E1. exact So.
    + left. unfold outcome. rewrite E. destruct (in_work (working w orc 0%nat)).
      * destruct D as (c' & ev2 & D & _ & Em). injection D as E1 E2 _. rewrite <- E1 in Em. eexists _, None. split; [eapply act_flush; eassumption|]. split; [exact E2|]. intros t _. exact (Em key t).
      * injection D as E1 E2 _. rewrite E1. eexists _, _. split; [eapply act_flush_busy; eassumption|]. split; [exact E2|exact So].
  - left. destruct (C51_flush_reject o (working w orc) 0 ch (d_proto (e_did e)) (shards_of o) a0 rest Nf) as (m & _ & D). rewrite Q' in D. injection D as E1 E2 _.
    unfold outcome. rewrite E, E1. eexists [WError m], _. split; [eapply act_flush_malformed; [eassumption|exact Nf|right; eauto]|]. split; [exact E2|exact So].
Qed.
End Step.

(** *** The log *)
(** Under every key of every cache stands a register. *)
Lemma register : forall o ch key, reachable (ctx_of o) ch -> exists s, forall t, sees (ctx_of o) ch key t (shows s t).
Proof.
  intros o ch key R. exists (option_map shown_of (cabs (ctx_of o) ch key)). intro t. apply (sees_iff _ (opts_load o) ch key t _ (reach_cinv o ch R)).
  unfold live_item, alive_at. destruct (cabs (ctx_of o) ch key) as [it|]; [|reflexivity]. cbn [option_map shows].
  change (v_exp (shown_of it)) with (i_exp it). destruct ((i_exp it =? 0) || (t <? i_exp it))%Z; reflexivity.
Qed.
Lemma one_turn : forall o cf orc i ch w e args es evs ch1 key s, cf_nshards cf = shards_of o ->
  (forall j, fine (orc j) /\ manned (orc j) /\ steady (orc j) /\ ample (orc j)) ->
  (forall i j a b, (i < j)%nat -> (in_now (orc i a) <= in_now (orc j b))%Z) ->
  reachable (ctx_of o) ch -> reachable (ctx_of o) ch1 -> SafeSpec.sized o (cf_fuel cf) ch -> ordinary o args ->
  prun (ctx_of o) (working w (orc i)) 0 ch (evcommand cf (e_auth e) (d_proto (e_did e)) args) = Ok (ch1, es, evs) ->
  (forall t, later orc i t -> sees (ctx_of o) ch key t (shows s t)) ->
  exists s1, turn (op_usecas o) cf orc key i e args es s s1 /\ forall t, later orc (S i) t -> sees (ctx_of o) ch1 key t (shows s1 t).
Proof.
  intros o cf orc i ch w e args es evs ch1 key s Ns H Mono R R1 Sz Oa P Sh. destruct (H i) as (F & M & St & Am).
  set (now := in_now (orc i 0%nat)).
  assert (Lt : forall t, (now <= t)%Z -> later orc i t) by (intros t L j a Hj; specialize (Mono j i a 0%nat Hj); fold now in Mono; lia).
  assert (Le : forall t, later orc (S i) t -> (now <= t)%Z) by (intros t L; apply L; apply Nat.lt_succ_diag_r).
  assert (So : forall t, (now <= t)%Z -> sees (ctx_of o) ch key t (shows (shows s now) t)) by (intros t L; rewrite shows_now by exact L; apply Sh; apply Lt; exact L).
  assert (Ho : shows (shows s now) now = shows s now) by (apply shows_now; lia).
  destruct (allowed_dec cf e) as [A|[Na Ea]].
  2:{ exists s. split.
    - apply turn_refused; unfold allowed in Na; [destruct (cf_useauth cf); tauto|destruct (e_auth e); tauto|tauto].
    - intros t L. rewrite Ea in P. apply refused_keeps in P. rewrite P. apply Sh. apply Lt. apply Le. exact L. }
  assert (Out_ : outcome o (orc i) ch1 e key (shows s now) args es -> exists s1, turn (op_usecas o) cf orc key i e args es s s1 /\ forall t, later orc (S i) t -> sees (ctx_of o) ch1 key t (shows s1 t)).
  { intros (reply & new & Ac & Ee & Fn). exists new. split; [eapply turn_acts; [exact A|exact Ac|exact Ee]|]. intros t L. apply Fn. exact (Le t L). }
  destruct (writes_dec args key) as [W|Nw].
  - destruct W as [name k rest I|name keys k D I|name rest k I].
    + cbn [first_key List.map] in I.
      destruct I as [I|[I|[I|[I|[I|[I|[I|[I|[I|[I|[I|[I|[I|[]]]]]]]]]]]]]]; symmetry in I; apply Out_.
      * eapply (do_set o cf (orc i) w ch ch1 e); try eassumption; reflexivity.
      * eapply (do_setex o cf (orc i) w ch ch1 e); try eassumption; reflexivity.
      * eapply (do_expire o cf (orc i) w ch ch1 e); try eassumption; reflexivity.
      * eapply (do_append o cf (orc i) w ch ch1 e k _ _ _) with (p := false); try eassumption; reflexivity.
      * eapply (do_append o cf (orc i) w ch ch1 e k _ _ _) with (p := true); try eassumption; reflexivity.
      * eapply (do_one o cf (orc i) w ch ch1 e k _ _ _) with (u := false) (d := false); try eassumption; reflexivity.
      * eapply (do_one o cf (orc i) w ch ch1 e k _ _ _) with (u := false) (d := true); try eassumption; reflexivity.
      * eapply (do_by o cf (orc i) w ch ch1 e k _ _ _) with (u := false) (d := false); try eassumption; reflexivity.
      * eapply (do_by o cf (orc i) w ch ch1 e k _ _ _) with (u := false) (d := true); try eassumption; reflexivity.
      * eapply (do_one o cf (orc i) w ch ch1 e k _ _ _) with (u := true) (d := false); try eassumption; reflexivity.
      * eapply (do_one o cf (orc i) w ch ch1 e k _ _ _) with (u := true) (d := true); try eassumption; reflexivity.
      * eapply (do_by o cf (orc i) w ch ch1 e k _ _ _) with (u := true) (d := false); try eassumption; reflexivity.
      * eapply (do_by o cf (orc i) w ch ch1 e k _ _ _) with (u := true) (d := true); try eassumption; reflexivity.
    + apply Out_. eapply (do_del o cf (orc i) w ch ch1 e); try eassumption; reflexivity.
    + cbn [every_key List.map] in I.
      assert (Fl : forall nm, flush_named name nm -> exists s1, turn (op_usecas o) cf orc k i e (name :: rest) es s s1 /\ forall t, later orc (S i) t -> sees (ctx_of o) ch1 k t (shows s1 t)).
      { intros nm Fn. destruct (do_flush o cf (orc i) w ch ch1 e k (shows s now) (name :: rest) es Ns F M R A evs P So name rest nm eq_refl Fn) as [Oc|(os & Sp & Bg & Fw)]; [exact (Out_ Oc)|].
        exists s. split; [eapply turn_later; [reflexivity|eassumption..]|]. intros t L. rewrite <- (shows_now s now t (Le t L)). apply Fw. exact (Le t L). }
      destruct I as [I|[I|[I|I]]]; [symmetry in I; eapply Fl; unfold flush_named, word; eauto 6..|].
      destruct (register o ch1 k R1) as [s1 S1]. exists s1. split; [apply turn_any; unfold word; cbn [hd]; destruct I as [I|[I|[]]]; symmetry in I; tauto|]. intros t _. apply S1.
  - destruct (asks_dec args key) as [(a0 & E & W)|Na].
    + apply Out_. destruct W as [W|[W|W]]; [eapply (do_get o cf (orc i) w ch ch1 e); eassumption|eapply (do_ttl o cf (orc i) w ch ch1 e key _ _ _) with (p := false); eassumption|eapply (do_ttl o cf (orc i) w ch ch1 e key _ _ _) with (p := true); eassumption].
    + exists s. split; [apply turn_other; assumption|]. intros t L.
      apply (C76_frame o cf (e_auth e) (d_proto (e_did e)) args (working w (orc i)) 0 ch t ch1 es evs R Sz Ns (working_fine w _ F) M St Am); try assumption; [|lia|apply Sh; apply Lt; exact (Le t L)].
      intro n. exact (L i n (Nat.lt_succ_diag_r i)).
Qed.
Lemma plays_on : forall o cf orc l i ch i' ch' key s, cf_nshards cf = shards_of o ->
  (forall j, fine (orc j) /\ manned (orc j) /\ steady (orc j) /\ ample (orc j)) ->
  (forall i j a b, (i < j)%nat -> (in_now (orc i a) <= in_now (orc j b))%Z) ->
  ran (ctx_of o) cf orc i ch l i' ch' -> reachable (ctx_of o) ch ->
  (forall l1 l2 i1 ch1, l = l1 ++ l2 -> ran (ctx_of o) cf orc i ch l1 i1 ch1 -> SafeSpec.sized o (cf_fuel cf) ch1) ->
  (forall e args es, In e l -> snd (d_what (e_did e)) = Some (args, es) -> ordinary o args) ->
  (forall t, later orc i t -> sees (ctx_of o) ch key t (shows s t)) ->
  exists s', plays (op_usecas o) cf orc key i s l i' s' /\ forall t, later orc i' t -> sees (ctx_of o) ch' key t (shows s' t).
Proof.
  intros o cf orc l i ch i' ch' key s Ns H Mono Rn. revert s. induction Rn as [i ch|i ch e l i' ch' E Rn IH|i ch e l i' ch' args es w ch1 evs E P Rn IH]; intros s R Sz Od Sh.
  - exists s. split; [constructor|exact Sh].
  - destruct (IH s R) as (s' & Pl & Sh'); [| |exact Sh|].
    + intros l1 l2 i1 ch1 -> Q. apply (Sz (e :: l1) l2 i1 ch1 eq_refl). apply ran_reply; assumption.
    + intros e0 a0 s0 I0. apply Od. right. exact I0.
    + exists s'. split; [apply plays_reply; assumption|exact Sh'].
  - pose proof (Od e args es (or_introl eq_refl) E) as Oa. pose proof (Sz [] (e :: l) i ch eq_refl (ran_end _ _ _ _ _)) as Sz0.
    destruct (H i) as (F & M & St & _).
    destruct (ordinary_ends o cf (orc i) w ch (e_auth e) (d_proto (e_did e)) args Ns F M St R Sz0 Oa) as (ch2 & es2 & ev2 & P2 & R2).
    rewrite P in P2. injection P2 as <- _ _.
    destruct (one_turn o cf orc i ch w e args es evs ch1 key s Ns H Mono R R2 Sz0 Oa P Sh) as (s1 & Tn & Sh1).
    destruct (IH s1 R2) as (s' & Pl & Sh'); [| |exact Sh1|].
    + intros l1 l2 i1 ch3 -> Q. apply (Sz (e :: l1) l2 i1 ch3 eq_refl). eapply ran_command; eassumption.
    + intros e0 a0 s0 I0. apply Od. right. exact I0.
    + exists s'. split; [eapply plays_command; eassumption|exact Sh'].
Qed.
(** Of a server with any number of clients: whatever the key, there is a register that starts with what the cache showed at first, of which every
    command of the log in turn tells and changes what [acts] says, and that ends with what the cache shows in the end. *)
Theorem C80_registers : forall o cf orc pg size ss ch t key, served o cf orc pg size ss ch t ->
  exists s0 s', (forall t', sees (ctx_of o) ch key t' (shows s0 t')) /\
    plays (op_usecas o) cf orc key 0 s0 (g_log (t_shared t)) (g_num (t_shared t)) s' /\
    forall t', (forall j a, (j < g_num (t_shared t))%nat -> (in_now (orc j a) <= t')%Z) -> sees (ctx_of o) (g_cache (t_shared t)) key t' (shows s' t').
Proof.
  intros o cf orc pg size ss ch t key [Ps Po Er B R Ns H Mono Sz Od].
  destruct (C59_server _ _ _ _ _ _ _ _ Ps Po Er B) as (Rn & _). destruct (register o ch key R) as [s0 S0].
  destruct (plays_on o cf orc _ _ _ _ _ key s0 Ns H Mono Rn R Sz Od (fun t' _ => S0 t')) as (s' & Pl & Sh). exists s0, s'. split; [exact S0|]. split; [exact Pl|exact Sh].
Qed.
(** The hypotheses for a server with two clients that try for a lock, with five commands in its log. *)
Example C80_case : served demo_opts case_cf span_orc no_pages 8 lock_steps demo_ch lock_end /\ exists e1 e2 e3 e4 e5, g_log (t_shared lock_end) = [e1; e2; e3; e4; e5] /\
  snd (d_what (e_did e1)) = Some (lock_a, [Out (WString (bs "OK"))]) /\
  snd (d_what (e_did e2)) = Some (lock_b, [Out WNull]) /\ snd (d_what (e_did e4)) = Some (lock_del, [Out (WInt 1)]).
Proof. split; [exact lock_served|]. destruct lock_log as (e1 & e2 & e3 & e4 & e5 & G & _ & W1 & W2 & _ & W4 & _). exists e1, e2, e3, e4, e5. repeat split; assumption. Qed.
(** The first turn of it, for the lock: nothing stood there, and now the value stands there for a second. *)
Example C80_turn : forall e, cf_useauth case_cf = false -> d_proto (e_did e) = RESP ->
  turn true case_cf span_orc (bs "L") 0 e lock_a [Out (WString (bs "OK"))] None (Some (mkView (bs "a") 1000000110 0 7)).
Proof.
  intros e U Pr. destruct timed_try as (a0 & rest & W & Sp & V & _ & Ng & Nc & E). eapply turn_acts; [left; exact U| |instantiate (1 := [WString (bs "OK")]); reflexivity].
  rewrite Pr, E. change (Some (mkView (bs "a") 1000000110 0 7)) with (Some (mkView (bs "a") 1000000110 (match last_flags [Nx; Expire Ex 1] with Some x => x mod 2 ^ 32 | None => 0 end) 7)).
  eapply act_set; [exact W|exact Sp|exact V| | |intro G; destruct (Ng G)|reflexivity].
  - unfold CmdSpec.refused. rewrite Nc. cbn. intros [X|[X|[]]]; discriminate X.
  - unfold new_expiry. cbn [last_expire rev app find]. vm_compute. auto.
Qed.
