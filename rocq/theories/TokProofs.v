(** What commands do to the tokens: proofs for C81. *)
From Verif Require Import Base Types Clamp Entry Hash Map Shard Cache Reach EntryProofs MapProofs MapInv Spec Trace ShardProofs Refine Observe PropCache PropItems Text IntText IntTextProofs CmdTable CmdSpec CmdSpec2 CmdSpec3 CmdsProofs CmdsProofs2 CmdsProofs3 CmdsProofs4 CmdsProofs5 Prog Cmds SafeSpec SafeProofs SafeProofs2 PropSafe PropCmds PropCmds2 PropCmds3 PropCmds4 CmdTableProofs PropText.
From Coq Require Import String Lia.
Local Open Scope N_scope.
Notation length := List.length.

(** *** Calls that store nothing *)
Definition quiet_call (x : call) : Prop :=
  match x with
  | Store _ _ _ _ => False
  | Load _ lo _ => forall f w, lo_entry lo = Some f -> f w = None
  | _ => True
  end.
Fixpoint quiet (p : prog) : Prop :=
  match p with
  | Done | Fail _ | Unmodelled => True
  | Put _ k | CloseConn k | SetAuth k | Fork _ _ k => quiet k
  | Ask k => forall i, quiet (k i)
  | Do x k => quiet_call x /\ forall r, quiet (k r)
  end.
Section Tok.
Variable o : opts.
Hypothesis uc : op_usecas o = true.
Notation c := (ctx_of o).
Notation rt := (route (ctx_of o)).
(** What is there was there, and no token was given. *)
Definition carries (ch ch' : cache) : Prop :=
  (forall k it', cabs c ch' k = Some it' -> exists it, cabs c ch k = Some it /\ shown_of it' = shown_of it) /\ (forall i, ccas ch' i = ccas ch i).
Lemma carries_refl : forall ch, carries ch ch.
Proof. intro ch. split; [intros k it H; exists it; auto|reflexivity]. Qed.
Lemma carries_trans : forall a b d, carries a b -> carries b d -> carries a d.
Proof.
  intros a b d [A1 A2] [B1 B2]. split; [|intro i; rewrite B2; apply A2].
  intros k it H. destruct (B1 k it H) as (i1 & H1 & E1). destruct (A1 k i1 H1) as (i2 & H2 & E2). exists i2. split; [exact H2|congruence].
Qed.
Lemma quiet_step : forall b e en w x w' r, spec_step b e rt en w x w' r -> quiet_call x ->
  (forall k it', w_map w' k = Some it' -> exists it, w_map w k = Some it /\ shown_of it' = shown_of it) /\ (forall i, w_cas w' i = w_cas w i).
Proof.
  intros b e en w x w' r S Q. inversion S; subst; cbn [quiet_call] in Q.
  - destruct Q.
  - assert (Y : cas' = w_cas w (rt key) /\ forall k it', m' k = Some it' -> exists it, w_map w k = Some it /\ shown_of it' = shown_of it).
    { unfold sp_load in H. unfold live_item in H. destruct (w_map w key) as [it|] eqn:M.
      - destruct (alive_at (i_exp it) (resolve_now time (en_clock en))).
        + assert (Tc : forall nt now, shown_of (if nt : bool then it else mkItem (i_val it) (i_exp it) (i_flags it) (i_cas it) now) = shown_of it) by (intros [|] now; reflexivity).
          assert (Same : forall k it1, aset (w_map w) key (Some (if lo_notouch o0 then it else mkItem (i_val it) (i_exp it) (i_flags it) (i_cas it) (resolve_now time (en_clock en)))) k = Some it1 ->
            exists it0, w_map w k = Some it0 /\ shown_of it1 = shown_of it0).
          { intros k it1 X. unfold aset in X. destruct (beq key k) eqn:Bq; [|eauto]. injection X as <-. exists it. apply beq_eq in Bq. subst k. rewrite Tc. auto. }
          destruct (lo_entry o0) as [f|] eqn:Lo.
          * rewrite (Q f (shown_of it) eq_refl) in H. injection H as <- <- <- <-. split; [reflexivity|exact Same].
          * injection H as <- <- <- <-. split; [reflexivity|exact Same].
        + injection H as <- <- <- <-. split; [reflexivity|]. intros k it1 X. unfold aset in X. destruct (beq key k); [discriminate X|eauto].
      - injection H as <- <- <- <-. split; [reflexivity|]. intros k it1 X. unfold aset in X. destruct (beq key k); [discriminate X|eauto]. }
    destruct Y as [-> Y]. split; [intros k it1 X; rewrite H0 in X; exact (Y k it1 X)|]. intro i. rewrite H1. destruct (Nat.eqb_spec i (rt key)) as [->|]; reflexivity.
  - split; [|assumption]. intros k it X. rewrite H0 in X. exists it. split; [|reflexivity]. unfold sp_delete in H.
    repeat match type of H with context [match ?y with _ => _ end] => destruct y end; injection H as <- _ _; unfold aset in X; try destruct (beq key k); congruence.
  - split; [|assumption]. intros k it X. exists it. split; [|reflexivity]. destruct (in_dec (list_eq_dec N.eq_dec) k deleted) as [D|D].
    + rewrite (it_gone _ _ _ _ _ _ _ _ _ _ H k D) in X. discriminate X.
    + destruct (it_kept _ _ _ _ _ _ _ _ _ _ H k D) as [Y|(_ & _ & Y)]; congruence.
  - split; [|assumption]. intros k it X. exists it. split; [|reflexivity]. destruct (H1 k) as [Y|[_ Y]]; congruence.
  - split; [|assumption]. intros k it X. exists it. split; [|reflexivity]. destruct (H k) as [Y1 Y2].
    assert (sel rt one k \/ ~ sel rt one k) as [Z|Z] by (unfold sel; destruct one as [z|]; [|auto]; destruct (Z.eq_dec (Z.of_nat (rt k)) z); auto).
    + rewrite (Y1 Z) in X. unfold live_item in X. destruct (w_map w k) as [i|]; [|discriminate]. destruct (alive_at _ _); congruence.
    + rewrite (Y2 Z) in X. assumption.
  - split; [|assumption]. intros k it X. exists it. split; [|reflexivity]. destruct (H k) as [Y1 Y2].
    assert (sel rt one k \/ ~ sel rt one k) as [Z|Z] by (unfold sel; destruct one as [z|]; [|auto]; destruct (Z.eq_dec (Z.of_nat (rt k)) z); auto).
    + rewrite (Y1 Z) in X. discriminate X.
    + rewrite (Y2 Z) in X. assumption.
  - split; [|assumption]. intros k it X. rewrite H in X. eauto.
  - split; [|assumption]. intros k it X. rewrite H in X. eauto.
  - split; [|assumption]. intros k it X. rewrite H in X. eauto.
  - split; [|assumption]. intros k it X. rewrite H in X. eauto.
Qed.
Lemma off_end : forall en ch cur time ch' r evs, cinv c ch -> N.shiftr cur 32 = c_nshards c -> step c en ch (EntryIter cur time) = Ok (ch', r, evs) -> ch' = ch.
Proof.
  intros en ch cur time ch' r evs I E. cbn [step]. unfold cache_entry_iter. cbv zeta. rewrite E.
  destruct (_ || _); [intro H; injection H; congruence|]. destruct (2 ^ 31 <=? _); [intro H; injection H; congruence|].
  cbn [entry_iter_loop]. unfold on_shard.
  assert (Nn : nth_error (ca_shards ch) (N.to_nat (c_nshards c)) = None) by (apply nth_error_None; rewrite (ci_len _ _ I); lia).
  rewrite Nn. discriminate.
Qed.
Lemma quiet_run : forall orc, fine orc -> forall p n ch ch' es evs, quiet p -> cinv c ch -> prun c orc n ch p = Ok (ch', es, evs) -> carries ch ch' /\ cinv c ch'.
Proof.
  intros orc F p. induction p as [|w k IH|k IH|k IH|k IH|x k IH|d q _ k IH|t|]; intros n ch ch' es evs Q I E; cbn [prun quiet] in *.
  - injection E as <- _ _. split; [apply carries_refl|exact I].
  - destruct (prun c orc n ch k) as [[[c1 e1] v1]|] eqn:E1; [|discriminate E]. injection E as <- _ _. exact (IH _ _ _ _ _ Q I E1).
  - destruct (prun c orc n ch k) as [[[c1 e1] v1]|] eqn:E1; [|discriminate E]. injection E as <- _ _. exact (IH _ _ _ _ _ Q I E1).
  - destruct (prun c orc n ch k) as [[[c1 e1] v1]|] eqn:E1; [|discriminate E]. injection E as <- _ _. exact (IH _ _ _ _ _ Q I E1).
  - exact (IH (orc n) _ _ _ _ _ (Q (orc n)) I E).
  - destruct Q as [Qx Qk]. destruct (step c (in_env (orc n)) ch x) as [[[c1 r] v1]|] eqn:E1; [|discriminate E].
    destruct (prun c orc (S n) c1 (k r)) as [[[c2 e2] v2]|] eqn:E2; [|discriminate E]. injection E as <- _ _.
    assert (A : carries ch c1 /\ cinv c c1).
    { assert (K : call_ok c (in_env (orc n)) (cabs c ch) x \/ exists cur time, x = EntryIter cur time /\ N.shiftr cur 32 = c_nshards c).
      { destruct x as [| key lo time | | | cur time | | | | | | ]; cbn [call_ok quiet_call] in *; try (left; exact Logic.I); try destruct Qx.
        - left. intros f w u H1 H2 H3. rewrite (Qx f w H1) in H3. discriminate H3.
        - destruct (N.eq_dec (N.shiftr cur 32) (c_nshards c)); [right; eauto|left; assumption].
        - left. intro i. apply (proj2 (F n)). }
      destruct K as [K|(cur & time & -> & K)].
      - destruct (step_refines c (opts_load o) (in_env (orc n)) ch x I K) as (c1' & r' & v1' & E1' & G & Sp). rewrite E1 in E1'. injection E1' as <- <- <-.
        split; [|exact (cg_inv _ _ _ _ _ G)]. exact (quiet_step _ _ _ _ _ _ _ Sp Qx).
      - apply (off_end _ _ _ _ _ _ _ I K) in E1. subst c1. split; [apply carries_refl|exact I]. }
    destruct A as [A1 A2]. destruct (IH r _ _ _ _ _ (Qk r) A2 E2) as [B1 B2]. split; [eapply carries_trans; eassumption|exact B2].
  - destruct (prun c orc n ch k) as [[[c1 e1] v1]|] eqn:E1; [|discriminate E]. injection E as <- _ _. exact (IH _ _ _ _ _ Q I E1).
  - discriminate E.
  - injection E as <- _ _. split; [apply carries_refl|exact I].
Qed.
(** *** Calls that may store *)
(** What is there was there, or has a token that was not given before. At most one token of each shard was given. *)
Definition fresh (ch ch' : cache) : Prop :=
  (forall k it', cabs c ch' k = Some it' -> (exists it, cabs c ch k = Some it /\ shown_of it' = shown_of it) \/ ccas ch (rt k) < i_cas it' <= ccas ch' (rt k)) /\
  (forall i, ccas ch i <= ccas ch' i <= ccas ch i + 1).
Definition small (ch : cache) : Prop := forall i, ccas ch i + 1 < 2 ^ 64.
Lemma carries_fresh : forall a b, carries a b -> fresh a b.
Proof. intros a b [A1 A2]. split; [intros k it H; left; exact (A1 k it H)|intro i; rewrite A2; lia]. Qed.
Lemma fresh_carries : forall a b d, fresh a b -> carries b d -> fresh a d.
Proof.
  intros a b d [A1 A2] [B1 B2]. split; [|intro i; rewrite B2; apply A2]. intros k it H. destruct (B1 k it H) as (i1 & H1 & E1). rewrite B2.
  destruct (A1 k i1 H1) as [(i2 & H2 & E2)|L]; [left; exists i2; split; [exact H2|congruence]|right]. change (i_cas it) with (v_cas (shown_of it)). rewrite E1. exact L.
Qed.
Lemma carries_then : forall a b d, carries a b -> fresh b d -> fresh a d.
Proof.
  intros a b d [A1 A2] [B1 B2]. split; [|intro i; rewrite <- A2; apply B2]. intros k it H. rewrite <- A2.
  destruct (B1 k it H) as [(i1 & H1 & E1)|L]; [left|right; exact L]. destruct (A1 k i1 H1) as (i2 & H2 & E2). exists i2. split; [exact H2|congruence].
Qed.
Lemma fresh_step : forall en w x w' r, spec_step true (op_noevict o) rt en w x w' r -> (forall i, w_cas w i + 1 < 2 ^ 64) -> ~ quiet_call x ->
  forall k it', w_map w' k = Some it' -> (exists it, w_map w k = Some it /\ shown_of it' = shown_of it) \/ w_cas w (rt k) < i_cas it' <= w_cas w' (rt k).
Proof.
  intros en w x w' r S B Nq.
  assert (U : forall i, u64 (w_cas w i + 1) = w_cas w i + 1) by (intro i; unfold u64; apply N.mod_small; apply B).
  inversion S; subst; cbn [quiet_call] in Nq; try (destruct (Nq Logic.I)).
  - assert (Q : forall m1 cas1 st1 sh1, sp_store true (w_map w) (w_cas w (rt key)) key val o0 (resolve_now time (en_clock en))
       = (m1, cas1, st1, sh1) -> cas1 = w_cas w (rt key) + 1 /\
         (forall k it, m1 k = Some it -> w_map w k = Some it \/ (k = key /\ i_cas it = w_cas w (rt key) + 1))).
    { intros m1 cas1 st1 sh1 X. unfold sp_store, token in X. rewrite U in X.
      repeat match type of X with context [match ?y with _ => _ end] => destruct y end;
        injection X as <- <- <- <-; (split; [reflexivity|]);
        (intros k it Y; unfold aset in Y; try (destruct (beq key k) eqn:Bq);
         first [left; assumption | discriminate Y | apply beq_eq in Bq; injection Y as <-; right; split; [congruence|reflexivity]]). }
    assert (Up : cas' = w_cas w (rt key) + 1 -> (forall k it, m' k = Some it -> w_map w k = Some it \/ (k = key /\ i_cas it = w_cas w (rt key) + 1)) ->
      forall k it', w_map w' k = Some it' -> (exists it, w_map w k = Some it /\ shown_of it' = shown_of it) \/ w_cas w (rt k) < i_cas it' <= w_cas w' (rt k)).
    { intros Ec X k it Hk. rewrite H0 in Hk. destruct (X k it Hk) as [Y|[-> Y]]; [left; eauto|right]. rewrite H1, Nat.eqb_refl, Ec. lia. }
    inversion H; subst.
    + destruct (Q _ _ _ _ H2) as (Q1 & Q2). exact (Up Q1 Q2).
    + destruct (Q _ _ _ _ H2) as (Q1 & Q2). apply (Up Q1). intros k it X. unfold aset in X. destruct (beq victim k); [discriminate|]. auto.
    + apply (Up (U _)). intros; left; assumption.
    + apply (Up (U _)). intros; left; assumption.
  - assert (Q : forall k it, m' k = Some it -> (exists it0, w_map w k = Some it0 /\ shown_of it = shown_of it0) \/
         (k = key /\ cas' = w_cas w (rt key) + 1 /\ i_cas it = cas')).
    { unfold sp_load, token in H. rewrite U in H. unfold live_item in H. destruct (w_map w key) as [it|] eqn:M.
      - destruct (alive_at (i_exp it) (resolve_now time (en_clock en))).
        + assert (Tc : forall nt now, shown_of (if nt : bool then it else mkItem (i_val it) (i_exp it) (i_flags it) (i_cas it) now) = shown_of it) by (intros [|] now; reflexivity).
          destruct (lo_entry o0) as [f|] eqn:Lo; [destruct (f (shown_of it)) as [u|] eqn:Fu|].
          * destruct (al_entry (en_mem en (rt key))); injection H as <- <- <- <-; intros k it1 X; unfold aset in X; (destruct (beq key k) eqn:Bq; [|left; eauto]); injection X as <-; apply beq_eq in Bq; subst k.
            -- right. auto.
            -- left. exists it. rewrite Tc. auto.
          * injection H as <- <- <- <-. intros k it1 X; unfold aset in X; (destruct (beq key k) eqn:Bq; [|left; eauto]); injection X as <-; apply beq_eq in Bq; subst k. left. exists it. rewrite Tc. auto.
          * injection H as <- <- <- <-. intros k it1 X; unfold aset in X; (destruct (beq key k) eqn:Bq; [|left; eauto]); injection X as <-; apply beq_eq in Bq; subst k. left. exists it. rewrite Tc. auto.
        + injection H as <- <- <- <-. intros k it1 X. unfold aset in X. destruct (beq key k); [discriminate X|left; eauto].
      - injection H as <- <- <- <-. intros k it1 X. unfold aset in X. destruct (beq key k); [discriminate X|left; eauto]. }
    intros k it Hk. rewrite H0 in Hk. destruct (Q k it Hk) as [Y|(-> & E1 & ->)]; [left; exact Y|right]. rewrite H1, Nat.eqb_refl. lia.
Qed.
Definition tokens_ok (ch : cache) : Prop := forall k it, cabs c ch k = Some it -> i_cas it <= ccas ch (rt k).
Lemma fresh_ok : forall a b, fresh a b -> tokens_ok a -> tokens_ok b.
Proof.
  intros a b [A1 A2] T k it H. destruct (A1 k it H) as [(i1 & H1 & E1)|L]; [|lia]. specialize (T k i1 H1). specialize (A2 (rt k)).
  change (i_cas it) with (v_cas (shown_of it)). rewrite E1. cbn [shown_of v_cas]. lia.
Qed.
Lemma step_fresh : forall en ch x ch' r evs, cinv c ch -> call_ok c en (cabs c ch) x -> small ch -> tokens_ok ch -> ~ quiet_call x -> step c en ch x = Ok (ch', r, evs) ->
  fresh ch ch' /\ cinv c ch' /\ forall key, wrote x r key -> exists it, cabs c ch' key = Some it /\ i_cas it = ccas ch (rt key) + 1.
Proof.
  intros en ch x ch' r evs I K Sm T Nq E. destruct (step_refines c (opts_load o) en ch x I K) as (c1 & r1 & v1 & E1 & G & Sp). rewrite E in E1. injection E1 as <- <- <-.
  change (c_usecas c) with (op_usecas o) in Sp. rewrite uc in Sp. change (c_noevict c) with (op_noevict o) in Sp.
  destruct (tok_step o en _ _ _ _ Sp T Sm) as (_ & M & Wr). split; [|split; [exact (cg_inv _ _ _ _ _ G)|exact Wr]].
  split; [|exact M]. exact (fresh_step _ _ _ _ _ Sp Sm Nq).
Qed.
Lemma do_fresh : forall orc n ch x k ch' es evs, fine orc -> cinv c ch -> call_ok c (in_env (orc n)) (cabs c ch) x -> small ch -> tokens_ok ch -> ~ quiet_call x ->
  (forall r, quiet (k r)) -> prun c orc n ch (Do x k) = Ok (ch', es, evs) -> fresh ch ch'.
Proof.
  intros orc n ch x k ch' es evs F I K Sm T Nq Qk E. cbn [prun] in E. destruct (step c (in_env (orc n)) ch x) as [[[c1 r] v1]|] eqn:E1; [|discriminate E].
  destruct (prun c orc (S n) c1 (k r)) as [[[c2 e2] v2]|] eqn:E2; [|discriminate E]. injection E as <- _ _.
  destruct (step_fresh _ _ _ _ _ _ I K Sm T Nq E1) as (Fr & I1 & _). destruct (quiet_run orc F _ _ _ _ _ _ (Qk r) I1 E2) as [Ca _]. eapply fresh_carries; eassumption.
Qed.
Lemma store_call : forall i ch key val so now, fits o ch key val -> mem_ok i -> (0 < now <= INT64_MAX)%Z -> (so_expires so <= INT64_MAX)%Z -> so_ttl so = 0%Z -> so_flags so < 2 ^ 32 ->
  (0 <= so_expires so)%Z -> call_ok c (in_env i) (cabs c ch) (Store key val so now).
Proof.
  intros i ch key val so now F M P X T Fl Z0. cbn [call_ok]. rewrite resolve_pos by lia. split; [|split; [apply M|exact (ft_room _ _ _ _ F)]].
  constructor; try (apply F); try assumption; [rewrite T; unfold i64_ok, INT64_MIN, INT64_MAX; lia|]. unfold i64_ok, INT64_MIN, INT64_MAX in *. lia.
Qed.
Lemma quiet_puts : forall ws k, quiet k -> quiet (puts ws k).
Proof. intro ws. induction ws as [|w r IH]; intros k Q; [exact Q|]. cbn. apply IH. exact Q. Qed.
Lemma quiet_answer : forall ws, quiet (answer ws).
Proof. intro ws. apply quiet_puts. exact Logic.I. Qed.
End Tok.
