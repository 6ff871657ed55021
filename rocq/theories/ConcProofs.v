(** Mutual exclusion and linearization of the threads of Conc.v. *)
From Verif Require Import Base Map Conc.

Lemma nth_error_update : forall A (l : list A) i j x,
  nth_error (upd l i x) j =
  if (i =? j)%nat then match nth_error l j with Some _ => Some x | None => None end else nth_error l j.
Proof.
  induction l as [|y l IH]; intros i j x; cbn [upd].
  - destruct j, i; cbn; try reflexivity; destruct (i =? j)%nat; reflexivity.
  - destruct i as [|i]; destruct j as [|j]; cbn [nth_error Nat.eqb upd]; try reflexivity. apply IH.
Qed.
Lemma update_length : forall A (l : list A) i x, length (upd l i x) = length l.
Proof. induction l; intros [|i] x; cbn; congruence. Qed.

Section Conc.
Variables (G S R Op : Type) (sem : Op -> G -> S -> G * S * R).
Notation prog := (prog R Op).
Notation thread := (thread S R Op).
Notation cst := (cst G S R Op).
Notation event := (tevent R Op).
Notation pc := (pc S R Op).
Notation phase := (phase R Op).

(** The steps that change something, one by one. *)
Inductive move (t : nat) : thread -> G -> list S -> list lockval ->
    thread -> G -> list S -> list lockval -> option event -> Prop :=
| mv_begin : forall k hd g l lk,
    move t (mkThread (At (Begin k)) hd) g l lk (mkThread (At k) []) g l lk (Some (EBegin t))
| mv_end : forall k hd g l lk,
    move t (mkThread (At (End k)) hd) g l lk (mkThread (Ending k) hd) g l lk (Some (EEnd t))
| mv_ended : forall k g l lk, move t (mkThread (Ending k) []) g l lk (mkThread (At k) []) g l lk None
| mv_unlock : forall k i r g l lk,
    move t (mkThread (Ending k) (i :: r)) g l lk (mkThread (Ending k) r) g l (upd lk i Free) None
| mv_call : forall h i f k hd g l lk,
    move t (mkThread (At (Do h i f k)) hd) g l lk (mkThread (Want h i f k) hd) g l lk (Some (EInv t i f))
| mv_take : forall i f k hd g l lk, nth_error lk i = Some Free ->
    move t (mkThread (Want true i f k) hd) g l lk (mkThread (Locked true i f k) (i :: hd)) g l (upd lk i (Batch t)) None
| mv_plain : forall i f k hd g l lk, nth_error lk i = Some Free ->
    move t (mkThread (Want false i f k) hd) g l lk (mkThread (Locked false i f k) hd) g l (upd lk i Plain) None
| mv_mine : forall i f k hd g l lk, nth_error lk i = Some (Batch t) ->
    move t (mkThread (Want true i f k) hd) g l lk (mkThread (Locked true i f k) hd) g l lk None
| mv_read : forall h i f k hd g l lk s g' s' r, nth_error l i = Some s -> sem f g s = (g', s', r) ->
    move t (mkThread (Locked h i f k) hd) g l lk (mkThread (Busy h i s' r k) hd) g' l lk (Some (ELin t h i f r))
| mv_write : forall h i s r k hd g l lk,
    move t (mkThread (Busy h i s r k) hd) g l lk (mkThread (Out h i r k) hd) g (upd l i s) lk None
| mv_ret : forall i r k hd g l lk,
    move t (mkThread (Out true i r k) hd) g l lk (mkThread (At (k r)) hd) g l lk (Some (ERet t r))
| mv_release : forall i r k hd g l lk,
    move t (mkThread (Out false i r k) hd) g l lk (mkThread (At (k r)) hd) g l (upd lk i Free) (Some (ERet t r)).

Lemma tstep_move : forall sp t (c c' : cst) e, tstep sem sp t c = (c', e) ->
  (c' = c /\ e = None) \/
  exists th th' g' l' lk', nth_error (st_threads c) t = Some th /\
    move t th (st_g c) (st_shards c) (st_locks c) th' g' l' lk' e /\
    c' = mkCst g' l' lk' (upd (st_threads c) t th').
Proof.
  intros sp t c c' e. unfold tstep.
  destruct (nth_error (st_threads c) t) as [[p hd]|] eqn:ET; [|intros E; inversion E; auto].
  cbn [th_pc th_held]. unfold set_thread, set_lock, set_shard, set_g. cbn [Conc.st_g Conc.st_shards Conc.st_locks Conc.st_threads].
  assert (K : forall th' g' l' lk' e', move t (mkThread p hd) (st_g c) (st_shards c) (st_locks c) th' g' l' lk' e' ->
    (mkCst g' l' lk' (upd (st_threads c) t th'), e') = (c', e) ->
    exists th th' g' l' lk', Some (mkThread p hd) = Some th /\
    move t th (st_g c) (st_shards c) (st_locks c) th' g' l' lk' e /\
    c' = mkCst g' l' lk' (upd (st_threads c) t th')).
  { intros th' g' l' lk' e' M E. inversion E; subst. eexists _, _, _, _, _. split; [reflexivity|]. split; [exact M|reflexivity]. }
  destruct p as [q|h i f k|h i f k|h i s r k|h i r k|k].
  - destruct q as [|h i f k|k|k]; intros E.
    + inversion E; auto.
    + right. eapply K; [|exact E]. constructor.
    + right. eapply K; [|exact E]. constructor.
    + right. eapply K; [|exact E]. constructor.
  - destruct (nth_error (st_locks c) i) as [[| |t']|] eqn:EL; intros E.
    + destruct sp; [inversion E; auto|]. right.
      destruct h; (eapply K; [|exact E]); constructor; exact EL.
    + inversion E; auto.
    + destruct h; cbn [andb] in E; [|inversion E; auto].
      destruct (Nat.eqb_spec t' t) as [->|]; [|inversion E; auto].
      right. eapply K; [|exact E]. constructor. exact EL.
    + inversion E; auto.
  - destruct (nth_error (st_shards c) i) as [s|] eqn:ES; intros E; [|inversion E; auto].
    destruct (sem f (st_g c) s) as [[g' s'] r] eqn:EF. right. eapply K; [|exact E]. econstructor; eassumption.
  - intros E. right. eapply K; [|exact E]. constructor.
  - intros E. right. destruct h; (eapply K; [|exact E]); constructor.
  - destruct hd as [|i hd]; intros E; right; (eapply K; [|exact E]); constructor.
Qed.

(** *** Mutual exclusion *)
Definition inside (p : pc) : option (bool * nat) :=
  match p with
  | Locked h i _ _ | Busy h i _ _ _ | Out h i _ _ => Some (h, i)
  | _ => None
  end.

Record excl (c : cst) : Prop := {
  ex_plain : forall t th i, nth_error (st_threads c) t = Some th -> inside (th_pc th) = Some (false, i) ->
    nth_error (st_locks c) i = Some Plain;
  ex_mine : forall t th i, nth_error (st_threads c) t = Some th -> inside (th_pc th) = Some (true, i) ->
    nth_error (st_locks c) i = Some (Batch t);
  ex_one : forall t t' th th' h h' i, nth_error (st_threads c) t = Some th -> nth_error (st_threads c) t' = Some th' ->
    inside (th_pc th) = Some (h, i) -> inside (th_pc th') = Some (h', i) -> t = t';
  ex_held : forall t th i, nth_error (st_threads c) t = Some th -> In i (th_held th) ->
    nth_error (st_locks c) i = Some (Batch t);
  ex_nodup : forall t th, nth_error (st_threads c) t = Some th -> NoDup (th_held th);
  ex_len : length (st_locks c) = length (st_shards c)
}.

Ltac thread_cases :=
  repeat match goal with
  | H : nth_error (upd ?ts ?t _) ?u = Some ?x |- _ =>
      rewrite nth_error_update in H; destruct (Nat.eqb_spec t u);
      [subst u; match goal with NT : nth_error ts t = Some _ |- _ => rewrite NT in H end;
       injection H as H; subst x|]
  end.

Lemma inside_held : forall (c : cst) t th h i, excl c -> nth_error (st_threads c) t = Some th ->
  inside (th_pc th) = Some (h, i) -> nth_error (st_locks c) i = Some (if h then Batch t else Plain).
Proof. intros c t th [|] i X N I; [eapply ex_mine|eapply ex_plain]; eassumption. Qed.

Lemma step_excl : forall sp t (c c' : cst) e, excl c -> tstep sem sp t c = (c', e) -> excl c'.
Proof.
  intros sp t c c' e X E. destruct (tstep_move _ _ _ _ _ E) as [[-> ->]|(th & th' & g' & l' & lk' & NT & M & ->)]; [exact X|].
  destruct c as [g l lk ts]. cbn [Conc.st_g Conc.st_shards Conc.st_locks Conc.st_threads] in *.
  (* where each lock is held by whom, before *)
  assert (P : forall u tu h i, nth_error ts u = Some tu -> inside (th_pc tu) = Some (h, i) ->
            nth_error lk i = Some (if h then Batch u else Plain)).
  { intros. eapply (inside_held (mkCst g l lk ts)); eassumption. }
  destruct X as [X1 X2 X3 X4 X5 X6]. cbn [Conc.st_g Conc.st_shards Conc.st_locks Conc.st_threads] in *.
  assert (LEN : length lk' = length l').
  { inversion M; subst; rewrite ?update_length; exact X6. }
  (* what the move does to the mover *)
  assert (KIND :
    (lk' = lk /\ (inside (th_pc th') = inside (th_pc th) \/ inside (th_pc th') = None \/
                  exists i, inside (th_pc th') = Some (true, i) /\ nth_error lk i = Some (Batch t))
       /\ (th_held th' = th_held th \/ th_held th' = [])) \/
    (exists i, lk' = upd lk i (Batch t) /\ nth_error lk i = Some Free /\ inside (th_pc th') = Some (true, i) /\ th_held th' = i :: th_held th) \/
    (exists i, lk' = upd lk i Plain /\ nth_error lk i = Some Free /\ inside (th_pc th') = Some (false, i) /\ th_held th' = th_held th) \/
    (exists i, lk' = upd lk i Free /\ th_held th = i :: th_held th' /\ inside (th_pc th') = None /\ inside (th_pc th) = None) \/
    (exists i, lk' = upd lk i Free /\ th_held th = th_held th' /\ inside (th_pc th') = None /\ inside (th_pc th) = Some (false, i))).
  { inversion M; subst; cbn [Conc.th_pc Conc.th_held inside] in *;
      try (left; split; [reflexivity|]; split; [tauto|tauto]).
    - right; right; right; left. eexists; repeat split; reflexivity.
    - right; left. eexists; repeat split; try reflexivity; assumption.
    - right; right; left. eexists; repeat split; try reflexivity; assumption.
    - left. split; [reflexivity|]. split; [|tauto]. right. right. eexists; split; [reflexivity|assumption].
    - right; right; right; right. eexists; repeat split; reflexivity. }
  clear M E.
  destruct KIND as [(-> & I & HD)|[(j & -> & FR & I & HD)|[(j & -> & FR & I & HD)|[(j & -> & HD & I & I0)|(j & -> & HD & I & I0)]]]].
  - (* locks unchanged *)
    assert (Q : forall u tu h i, nth_error (upd ts t th') u = Some tu -> inside (th_pc tu) = Some (h, i) ->
              nth_error lk i = Some (if h then Batch u else Plain)).
    { intros u tu h i N J. thread_cases.
      - destruct I as [I|[I|(i' & I & B)]].
        + rewrite I in J. eapply P; eassumption.
        + congruence.
        + rewrite I in J. inversion J; subst. exact B.
      - eapply P; eassumption. }
    assert (H : forall u tu i, nth_error (upd ts t th') u = Some tu -> In i (th_held tu) -> nth_error lk i = Some (Batch u)).
    { intros u tu i N J. thread_cases; [|eapply X4; eassumption].
      destruct HD as [HD|HD]; rewrite HD in J; [eapply X4; eassumption|destruct J]. }
    constructor; cbn [Conc.st_g Conc.st_shards Conc.st_locks Conc.st_threads].
    + intros u tu i N J. exact (Q _ _ _ _ N J).
    + intros u tu i N J. exact (Q _ _ _ _ N J).
    + intros u u' tu tu' h h' i N N' J J'.
      pose proof (Q _ _ _ _ N J) as A. pose proof (Q _ _ _ _ N' J') as B.
      destruct h, h'; rewrite A in B; try discriminate B; [congruence|].
      assert (old : forall v tv, nth_error (upd ts t th') v = Some tv -> inside (th_pc tv) = Some (false, i) ->
                exists tv0, nth_error ts v = Some tv0 /\ inside (th_pc tv0) = Some (false, i)).
      { clear N N' J J' A B. intros v tv NV JV. thread_cases; [|eauto]. destruct I as [I|[I|(i' & I & _)]]; [|congruence|congruence].
        rewrite I in JV. eauto. }
      destruct (old _ _ N J) as (a & NA & JA). destruct (old _ _ N' J') as (b & NB & JB).
      eapply (X3 u u' a b); eassumption.
    + exact H.
    + intros u tu N. thread_cases; [|eapply X5; eassumption].
      destruct HD as [HD|HD]; rewrite HD; [eapply X5; eassumption|constructor].
    + exact LEN.
  - (* lock taken for the batch *)
    assert (NO : forall u tu h i, nth_error ts u = Some tu -> inside (th_pc tu) = Some (h, i) -> j <> i).
    { intros u tu h i N J EQ; subst. pose proof (P _ _ _ _ N J) as B. rewrite FR in B. destruct h; discriminate. }
    assert (Q : forall u tu h i, nth_error (upd ts t th') u = Some tu -> inside (th_pc tu) = Some (h, i) ->
              nth_error (upd lk j (Batch t)) i = Some (if h then Batch u else Plain)).
    { intros u tu h i N J. rewrite nth_error_update. thread_cases.
      - rewrite I in J. inversion J; subst. rewrite Nat.eqb_refl, FR. reflexivity.
      - destruct (Nat.eqb_spec j i) as [EQ|_]; [exfalso; eapply NO; eassumption|]. eapply P; eassumption. }
    constructor; cbn [Conc.st_g Conc.st_shards Conc.st_locks Conc.st_threads].
    + intros u tu i N J. exact (Q _ _ _ _ N J).
    + intros u tu i N J. exact (Q _ _ _ _ N J).
    + intros u u' tu tu' h h' i N N' J J'. thread_cases; try reflexivity.
      * rewrite I in J'. inversion J'; subst. exfalso; eapply NO; eauto.
      * rewrite I in J. inversion J; subst. exfalso; eapply NO; eauto.
      * eapply (X3 u u' tu tu'); eassumption.
    + intros u tu i N J. rewrite nth_error_update. thread_cases.
      * rewrite HD in J. destruct J as [<-|J]; [rewrite Nat.eqb_refl, FR; reflexivity|].
        pose proof (X4 _ _ _ NT J) as B. destruct (Nat.eqb_spec j i) as [->|]; [congruence|exact B].
      * pose proof (X4 _ _ _ N J) as B. destruct (Nat.eqb_spec j i) as [->|]; [congruence|exact B].
    + intros u tu N. thread_cases; [|eapply X5; eassumption]. rewrite HD. constructor; [|eapply X5; eassumption].
      intros J. pose proof (X4 _ _ _ NT J). congruence.
    + exact LEN.
  - (* lock taken without a batch *)
    assert (NO : forall u tu h i, nth_error ts u = Some tu -> inside (th_pc tu) = Some (h, i) -> j <> i).
    { intros u tu h i N J EQ; subst. pose proof (P _ _ _ _ N J) as B. rewrite FR in B. destruct h; discriminate. }
    assert (Q : forall u tu h i, nth_error (upd ts t th') u = Some tu -> inside (th_pc tu) = Some (h, i) ->
              nth_error (upd lk j Plain) i = Some (if h then Batch u else Plain)).
    { intros u tu h i N J. rewrite nth_error_update. thread_cases.
      - rewrite I in J. inversion J; subst. rewrite Nat.eqb_refl, FR. reflexivity.
      - destruct (Nat.eqb_spec j i) as [EQ|_]; [exfalso; eapply NO; eassumption|]. eapply P; eassumption. }
    constructor; cbn [Conc.st_g Conc.st_shards Conc.st_locks Conc.st_threads].
    + intros u tu i N J. exact (Q _ _ _ _ N J).
    + intros u tu i N J. exact (Q _ _ _ _ N J).
    + intros u u' tu tu' h h' i N N' J J'. thread_cases; try reflexivity.
      * rewrite I in J'. inversion J'; subst. exfalso; eapply NO; eauto.
      * rewrite I in J. inversion J; subst. exfalso; eapply NO; eauto.
      * eapply (X3 u u' tu tu'); eassumption.
    + intros u tu i N J. rewrite nth_error_update.
      assert (B : nth_error lk i = Some (Batch u)).
      { thread_cases; [rewrite HD in J|]; eapply X4; eassumption. }
      destruct (Nat.eqb_spec j i) as [->|]; [congruence|exact B].
    + intros u tu N. thread_cases; [rewrite HD|]; eapply X5; eassumption.
    + exact LEN.
  - (* one shard of an ending batch released *)
    assert (BJ : nth_error lk j = Some (Batch t)) by (eapply X4; [exact NT|rewrite HD; left; reflexivity]).
    assert (NO : forall u tu h i, nth_error (upd ts t th') u = Some tu -> inside (th_pc tu) = Some (h, i) ->
              j <> i /\ nth_error ts u = Some tu /\ u <> t).
    { intros u tu h i N J. thread_cases; [congruence|]. split; [|auto]. intros ->.
      pose proof (P _ _ _ _ N J) as B. rewrite BJ in B. destruct h; inversion B; auto. }
    assert (Q : forall u tu h i, nth_error (upd ts t th') u = Some tu -> inside (th_pc tu) = Some (h, i) ->
              nth_error (upd lk j Free) i = Some (if h then Batch u else Plain)).
    { intros u tu h i N J. destruct (NO _ _ _ _ N J) as (A & B & _). rewrite nth_error_update.
      destruct (Nat.eqb_spec j i); [contradiction|]. eapply P; eassumption. }
    constructor; cbn [Conc.st_g Conc.st_shards Conc.st_locks Conc.st_threads].
    + intros u tu i N J. exact (Q _ _ _ _ N J).
    + intros u tu i N J. exact (Q _ _ _ _ N J).
    + intros u u' tu tu' h h' i N N' J J'.
      destruct (NO _ _ _ _ N J) as (_ & B & _). destruct (NO _ _ _ _ N' J') as (_ & B' & _). eapply (X3 u u' tu tu'); eassumption.
    + intros u tu i N J. rewrite nth_error_update. thread_cases.
      * pose proof (X5 _ _ NT) as ND. rewrite HD in ND. apply NoDup_cons_iff in ND. destruct ND as [ND _].
        destruct (Nat.eqb_spec j i) as [->|]; [contradiction|]. eapply X4; [exact NT|rewrite HD; right; exact J].
      * pose proof (X4 _ _ _ N J) as B. destruct (Nat.eqb_spec j i) as [->|]; [congruence|exact B].
    + intros u tu N. thread_cases; [|eapply X5; eassumption].
      pose proof (X5 _ _ NT) as ND. rewrite HD in ND. apply NoDup_cons_iff in ND. tauto.
    + exact LEN.
  - (* plain lock released *)
    pose proof (P _ _ _ _ NT I0) as BJ. cbn in BJ.
    assert (NO : forall u tu h i, nth_error (upd ts t th') u = Some tu -> inside (th_pc tu) = Some (h, i) ->
              j <> i /\ nth_error ts u = Some tu /\ u <> t).
    { intros u tu h i N J. thread_cases; [congruence|]. split; [|auto]. intros ->.
      assert (t = u) by (eapply (X3 t u th tu); eassumption). auto. }
    assert (Q : forall u tu h i, nth_error (upd ts t th') u = Some tu -> inside (th_pc tu) = Some (h, i) ->
              nth_error (upd lk j Free) i = Some (if h then Batch u else Plain)).
    { intros u tu h i N J. destruct (NO _ _ _ _ N J) as (A & B & _). rewrite nth_error_update.
      destruct (Nat.eqb_spec j i); [contradiction|]. eapply P; eassumption. }
    constructor; cbn [Conc.st_g Conc.st_shards Conc.st_locks Conc.st_threads].
    + intros u tu i N J. exact (Q _ _ _ _ N J).
    + intros u tu i N J. exact (Q _ _ _ _ N J).
    + intros u u' tu tu' h h' i N N' J J'.
      destruct (NO _ _ _ _ N J) as (_ & B & _). destruct (NO _ _ _ _ N' J') as (_ & B' & _). eapply (X3 u u' tu tu'); eassumption.
    + intros u tu i N J. rewrite nth_error_update.
      assert (B : nth_error lk i = Some (Batch u)).
      { thread_cases; [rewrite <- HD in J|]; eapply X4; eassumption. }
      destruct (Nat.eqb_spec j i) as [->|]; [congruence|exact B].
    + intros u tu N. thread_cases; [rewrite <- HD|]; eapply X5; eassumption.
    + exact LEN.
Qed.

(** *** Linearization *)
Definition at_phase (p : pc) : phase :=
  match p with
  | At _ | Ending _ => Idle
  | Want _ i f _ | Locked _ i f _ => Called i f
  | Busy _ _ _ r _ | Out _ _ r _ => Took r
  end.

(** What the shards hold, counting the bodies that have read but not yet
    written. *)
Record now (c : cst) (ll : list S) : Prop := {
  no_len : length ll = length (st_shards c);
  no_busy : forall t th h i s r k, nth_error (st_threads c) t = Some th -> th_pc th = Busy h i s r k ->
    nth_error ll i = Some s;
  no_rest : forall i, (forall t th h s r k, nth_error (st_threads c) t = Some th -> th_pc th <> Busy h i s r k) ->
       nth_error ll i = nth_error (st_shards c) i
}.

Lemma now_move : forall t g l lk ts th th' g' l' lk' e ll, excl (mkCst g l lk ts) -> nth_error ts t = Some th ->
  move t th g l lk th' g' l' lk' e -> now (mkCst g l lk ts) ll ->
  exists ll', now (mkCst g' l' lk' (upd ts t th')) ll' /\
    (((forall h i f r, e <> Some (ELin t h i f r)) /\ ll' = ll /\ g' = g) \/
     exists h i f r s s', e = Some (ELin t h i f r) /\ nth_error ll i = Some s /\
       sem f g s = (g', s', r) /\ ll' = upd ll i s').
Proof.
  intros t g l lk ts th th' g' l' lk' e ll X NT M [LN B NB].
  cbn [Conc.st_g Conc.st_shards Conc.st_locks Conc.st_threads] in *.
  assert (REST : forall u tu, nth_error (upd ts t th') u = Some tu -> u <> t -> nth_error ts u = Some tu).
  { intros u tu N D. rewrite nth_error_update in N. destruct (Nat.eqb_spec t u); [congruence|exact N]. }
  assert (MINE : nth_error (upd ts t th') t = Some th').
  { rewrite nth_error_update, Nat.eqb_refl, NT. reflexivity. }
  assert (BACK : forall i, (forall h s r k, th_pc th <> Busy h i s r k) ->
    (forall u tu h s r k, nth_error (upd ts t th') u = Some tu -> th_pc tu <> Busy h i s r k) ->
    forall u tu h s r k, nth_error ts u = Some tu -> th_pc tu <> Busy h i s r k).
  { intros i H0 H u tu h s r k N. destruct (Nat.eq_dec u t) as [->|D].
    - rewrite NT in N. inversion N; subst. apply H0.
    - apply (H u). rewrite nth_error_update. destruct (Nat.eqb_spec t u); [congruence|exact N]. }
  (* moves that neither start nor finish a body *)
  assert (SAME : g' = g -> l' = l -> (forall h i f r, e <> Some (ELin t h i f r)) ->
     (forall h i s r k, th_pc th' <> Busy h i s r k) -> (forall h i s r k, th_pc th <> Busy h i s r k) ->
     exists ll', now (mkCst g' l' lk' (upd ts t th')) ll' /\
    (((forall h i f r, e <> Some (ELin t h i f r)) /\ ll' = ll /\ g' = g) \/
     exists h i f r s s', e = Some (ELin t h i f r) /\ nth_error ll i = Some s /\
       sem f g s = (g', s', r) /\ ll' = upd ll i s')).
  { intros -> -> NL N' N0. exists ll. split; [|left; auto]. constructor; cbn [Conc.st_g Conc.st_shards Conc.st_locks Conc.st_threads].
    - exact LN.
    - intros u tu h i s r k N J. destruct (Nat.eq_dec u t) as [->|D].
      + rewrite MINE in N. inversion N; subst. exfalso. eapply N'; eassumption.
      + eapply B; [eapply REST; eassumption|eassumption].
    - intros i H. apply NB. eapply BACK; [intros; apply N0|exact H]. }
  inversion M; subst; try (apply SAME; cbn [Conc.th_pc]; try reflexivity; intros; discriminate).
  - (* the body reads *)
    clear SAME.
    match goal with H : nth_error l' i = Some s |- _ => rename H into NS end.
    match goal with H : sem f g s = _ |- _ => rename H into EF end.
    assert (NOB : forall u tu h' s0 r0 k0, nth_error ts u = Some tu -> u <> t -> th_pc tu <> Busy h' i s0 r0 k0).
    { intros u tu h' s0 r0 k0 N D J. apply D. symmetry.
      refine (ex_one _ X t u _ _ h h' i NT N _ _); cbn; [reflexivity|rewrite J; reflexivity]. }
    assert (NL : nth_error ll i = Some s).
    { rewrite NB; [exact NS|]. intros u tu h' s0 r0 k0 N. destruct (Nat.eq_dec u t) as [->|D].
      - rewrite NT in N. inversion N; subst. discriminate.
      - eapply NOB; eassumption. }
    exists (upd ll i s'). split; [|right; eexists _, _, _, _, _, _; repeat split; eassumption].
    constructor; cbn [Conc.st_g Conc.st_shards Conc.st_locks Conc.st_threads]; [rewrite update_length; exact LN| |].
    + intros u tu h' i' s0 r0 k0 N J. destruct (Nat.eq_dec u t) as [->|D].
      * rewrite MINE in N. inversion N; subst. cbn in J. inversion J; subst.
        rewrite nth_error_update, Nat.eqb_refl, NL. reflexivity.
      * pose proof (REST _ _ N D) as N1. rewrite nth_error_update. destruct (Nat.eqb_spec i i') as [<-|NE].
        -- exfalso. eapply NOB; eassumption.
        -- eapply B; eassumption.
    + intros i' H. rewrite nth_error_update. destruct (Nat.eqb_spec i i') as [<-|NE].
      * exfalso. eapply H; [exact MINE|reflexivity].
      * apply NB. eapply BACK; [cbn; intros; discriminate|exact H].
  - (* the body writes *)
    clear SAME.
    pose proof (B _ _ _ _ _ _ _ NT eq_refl) as NL.
    exists ll. split; [|left; split; [intros; discriminate|auto]].
    constructor; cbn [Conc.st_g Conc.st_shards Conc.st_locks Conc.st_threads]; [rewrite update_length; exact LN| |].
    + intros u tu h' i' s0 r0 k0 N J. destruct (Nat.eq_dec u t) as [->|D].
      * rewrite MINE in N. inversion N; subst. discriminate J.
      * eapply B; [eapply REST; eassumption|eassumption].
    + intros i' H. rewrite nth_error_update. destruct (Nat.eqb_spec i i') as [<-|NE].
      * rewrite NL. destruct (nth_error l i) eqn:EN; [reflexivity|].
        apply nth_error_None in EN. assert (i < length ll)%nat by (apply nth_error_Some; congruence). lia.
      * apply NB. eapply BACK; [|exact H]. cbn. intros. congruence.
Qed.

Record sim (g0 : G) (l0 : list S) (c : cst) (evs : list event) : Prop := {
  si_excl : excl c;
  si_seq : exists ll, one_by_one sem g0 l0 (order evs) (st_g c) ll /\ now c ll;
  si_phase : forall t th, nth_error (st_threads c) t = Some th ->
    follows t (of_thread t evs) (at_phase (th_pc th));
  si_none : forall t, nth_error (st_threads c) t = None -> of_thread t evs = []
}.

Lemma obo_snoc : forall g l ops g1 l1 i f s g2 s2 r, one_by_one sem g l ops g1 l1 ->
  nth_error l1 i = Some s -> sem f g1 s = (g2, s2, r) ->
  one_by_one sem g l (ops ++ [(i, f, r)]) g2 (upd l1 i s2).
Proof.
  intros g l ops g1 l1 i f s g2 s2 r O N F. induction O; cbn [app].
  - econstructor; try eassumption. constructor.
  - econstructor; try eassumption. apply IHO; assumption.
Qed.

Lemma order_app : forall (a b : list event), order (a ++ b) = order a ++ order b.
Proof. intros. unfold order. apply flat_map_app. Qed.
Lemma of_thread_app : forall t (a b : list event), of_thread t (a ++ b) = of_thread t a ++ of_thread t b.
Proof. intros. unfold of_thread. apply filter_app. Qed.

Definition opt_list {A} (o : option A) : list A := match o with Some a => [a] | None => [] end.

Lemma step_sim : forall g0 l0 sp t (c c' : cst) e evs, sim g0 l0 c evs -> tstep sem sp t c = (c', e) ->
  sim g0 l0 c' (evs ++ opt_list e).
Proof.
  intros g0 l0 sp t c c' e evs [X (ll & O & NW) PH NO] E.
  pose proof (step_excl _ _ _ _ _ X E) as X'.
  destruct (tstep_move _ _ _ _ _ E) as [[-> ->]|(th & th' & g' & l' & lk' & NT & M & ->)].
  { cbn [opt_list]. rewrite app_nil_r. constructor; eauto. }
  destruct c as [g l lk ts]. cbn [Conc.st_g Conc.st_shards Conc.st_locks Conc.st_threads] in *.
  constructor; cbn [Conc.st_g Conc.st_shards Conc.st_locks Conc.st_threads].
  - exact X'.
  - (* sequential execution *)
    destruct (now_move _ _ _ _ _ _ _ _ _ _ _ _ X NT M NW) as (ll' & NW' & [(NL & -> & ->)|(h & i & f & r & s & s' & -> & NS & EF & ->)]).
    + exists ll. split; [|exact NW']. rewrite order_app.
      replace (order (opt_list e)) with (@nil (nat * Op * R)); [rewrite app_nil_r; exact O|].
      destruct e as [[]|]; try reflexivity. exfalso. inversion M; subst. eapply NL; reflexivity.
    + exists (upd ll i s'). split; [|exact NW']. rewrite order_app. cbn [opt_list order flat_map app].
      eapply obo_snoc; eassumption.
  - (* what each thread saw *)
    intros u tu N. rewrite of_thread_app.
    destruct (Nat.eq_dec u t) as [->|D].
    + rewrite nth_error_update, Nat.eqb_refl, NT in N. inversion N; subst tu. pose proof (PH _ _ NT) as F.
      inversion M; subst; cbn [opt_list of_thread filter at_phase Conc.th_pc] in *; rewrite ?Nat.eqb_refl, ?app_nil_r;
        try exact F; try (econstructor; exact F).
    + rewrite nth_error_update in N. destruct (Nat.eqb_spec t u); [congruence|]. pose proof (PH _ _ N) as F.
      replace (of_thread u (opt_list e)) with (@nil event); [rewrite app_nil_r; exact F|].
      assert (EQ : (t =? u)%nat = false) by (apply Nat.eqb_neq; congruence).
      inversion M; subst; cbn [opt_list of_thread filter]; rewrite ?EQ; reflexivity.
  - intros u N. rewrite nth_error_update in N. destruct (Nat.eqb_spec t u) as [->|D]; [rewrite NT in N; discriminate|].
    rewrite of_thread_app, (NO _ N). cbn [app].
    assert (EQ : (t =? u)%nat = false) by (apply Nat.eqb_neq; congruence).
    inversion M; subst; cbn [opt_list of_thread filter]; rewrite ?EQ; reflexivity.
Qed.

Lemma exec_snoc : forall sched (c c' : cst) evs, exec sem c sched = (c', evs) -> forall (P : cst -> list event -> Prop),
  (forall sp t c c' e evs, P c evs -> tstep sem sp t c = (c', e) -> P c' (evs ++ opt_list e)) ->
  forall pre, P c pre -> P c' (pre ++ evs).
Proof.
  induction sched as [|[t sp] rest IH]; cbn [exec]; intros c c' evs E P ST pre H.
  - inversion E; subst. rewrite app_nil_r. exact H.
  - destruct (tstep sem sp t c) as [c1 e] eqn:E1. destruct (exec sem c1 rest) as [c2 evs2] eqn:E2.
    inversion E; subst. pose proof (IH _ _ _ E2 P ST _ (ST _ _ _ _ _ _ H E1)) as K.
    rewrite <- app_assoc in K. destruct e; exact K.
Qed.

Lemma initial_threads : forall (g : G) (l : list S) (ps : list prog) t th, nth_error (st_threads (initial g l ps)) t = Some th ->
  exists p, nth_error ps t = Some p /\ th = mkThread (At p) [].
Proof.
  intros g l ps t th. cbn [initial Conc.st_threads]. rewrite nth_error_map.
  destruct (nth_error ps t) as [p|]; cbn [option_map]; [|discriminate]. intros E. inversion E; subst. eauto.
Qed.

Lemma initial_excl : forall (g : G) (l : list S) (ps : list prog), excl (initial g l ps).
Proof.
  intros g l ps. constructor.
  - intros t th i N J. apply initial_threads in N. destruct N as (p & _ & ->). discriminate J.
  - intros t th i N J. apply initial_threads in N. destruct N as (p & _ & ->). discriminate J.
  - intros t t' th th' h h' i N _ J _. apply initial_threads in N. destruct N as (p & _ & ->). discriminate J.
  - intros t th i N J. apply initial_threads in N. destruct N as (p & _ & ->). destruct J.
  - intros t th N. apply initial_threads in N. destruct N as (p & _ & ->). constructor.
  - cbn. apply repeat_length.
Qed.

Lemma initial_now : forall (g : G) (l : list S) (ps : list prog), now (initial g l ps) l.
Proof.
  intros g l ps. constructor; try reflexivity.
  intros t th h i s r k N J. apply initial_threads in N. destruct N as (p & _ & ->). discriminate J.
Qed.

Lemma initial_sim : forall (g : G) (l : list S) (ps : list prog), sim g l (initial g l ps) [].
Proof.
  intros g l ps. constructor.
  - apply initial_excl.
  - exists l. split; [constructor|]. apply initial_now.
  - intros t th N. apply initial_threads in N. destruct N as (p & _ & ->). constructor.
  - reflexivity.
Qed.

Theorem exec_sim : forall g l (ps : list prog) sched c' evs, exec sem (initial g l ps) sched = (c', evs) -> sim g l c' evs.
Proof.
  intros g l ps sched c' evs E. refine (exec_snoc _ _ _ _ E (sim g l) _ [] (initial_sim g l ps)).
  intros. eapply step_sim; eassumption.
Qed.

(** *** Batches keep their shards to themselves *)
Record kept (c : cst) (evs : list event) : Prop := {
  ke_excl : excl c;
  ke_lock : forall t i f r F1 F2, evs = F1 ++ ELin t true i f r :: F2 -> ~ In (EEnd t) F2 ->
    nth_error (st_locks c) i = Some (Batch t) /\
    exists th, nth_error (st_threads c) t = Some th /\ forall k, th_pc th <> Ending k;
  ke_alone : forall t i f r F1 F2 t' h f' r' F3,
    evs = F1 ++ ELin t true i f r :: F2 ++ ELin t' h i f' r' :: F3 -> t' <> t -> In (EEnd t) F2
}.

Lemma app_snoc_cases : forall A (l : list A) e F1 x F2, l ++ [e] = F1 ++ x :: F2 ->
  (F2 = [] /\ x = e /\ l = F1) \/ exists F2', F2 = F2' ++ [e] /\ l = F1 ++ x :: F2'.
Proof.
  intros A l e F1 x F2 E. destruct F2 as [|y F2 _] using rev_ind.
  - apply app_inj_tail in E. destruct E as [-> ->]. auto.
  - right. exists F2. replace (F1 ++ x :: F2 ++ [y]) with ((F1 ++ x :: F2) ++ [y]) in E
      by (rewrite <- app_assoc; reflexivity).
    apply app_inj_tail in E. destruct E as [-> ->]. auto.
Qed.

Lemma step_kept : forall sp t (c c' : cst) e evs, kept c evs -> tstep sem sp t c = (c', e) ->
  kept c' (evs ++ opt_list e).
Proof.
  intros sp t c c' e evs [X LK AL] E.
  pose proof (step_excl _ _ _ _ _ X E) as X'.
  destruct (tstep_move _ _ _ _ _ E) as [[-> ->]|(th & th' & g' & l' & lk' & NT & M & ->)].
  { cbn [opt_list]. rewrite app_nil_r. constructor; eauto. }
  destruct c as [g l lk ts]. cbn [Conc.st_g Conc.st_shards Conc.st_locks Conc.st_threads] in *.
  (* a lock that was kept before the move is kept after it *)
  assert (OLD : forall u i f r F1 F2, evs = F1 ++ ELin u true i f r :: F2 -> ~ In (EEnd u) (F2 ++ opt_list e) ->
    nth_error lk' i = Some (Batch u) /\
    exists tu, nth_error (upd ts t th') u = Some tu /\ forall k, th_pc tu <> Ending k).
  { intros u i f r F1 F2 EV NI.
    destruct (LK u i f r F1 F2 EV) as [B (tu & NU & NE)]; [intros J; apply NI, in_or_app; left; exact J|].
    split.
    - inversion M; subst; try exact B; rewrite nth_error_update; cbn [opt_list] in *.
      + destruct (Nat.eqb_spec i0 i) as [->|]; [|exact B]. exfalso.
        pose proof (ex_held _ X t _ i NT (or_introl eq_refl)) as B'. cbn in B'. rewrite B in B'. inversion B'; subst.
        rewrite NT in NU. inversion NU; subst. eapply NE; reflexivity.
      + destruct (Nat.eqb_spec i0 i) as [->|]; [congruence|exact B].
      + destruct (Nat.eqb_spec i0 i) as [->|]; [congruence|exact B].
      + destruct (Nat.eqb_spec i0 i) as [->|]; [|exact B].
        pose proof (ex_plain _ X t _ i NT eq_refl) as B'. cbn in B'. congruence.
    - rewrite nth_error_update. destruct (Nat.eqb_spec t u) as [->|]; [|eauto].
      rewrite NT in *. inversion NU; subst. exists th'. split; [reflexivity|]. intros k' J.
      inversion M; subst; cbn [Conc.th_pc] in *; try discriminate J.
      + apply NI. cbn. apply in_or_app. right. left. reflexivity.
      + eapply NE; reflexivity. }
  constructor; cbn [Conc.st_g Conc.st_shards Conc.st_locks Conc.st_threads].
  - exact X'.
  - intros u i f r F1 F2 EV NI. destruct e as [e|]; cbn [opt_list] in EV.
    + destruct (app_snoc_cases _ _ _ _ _ _ EV) as [(-> & EE & ->)|(F2' & -> & ->)].
      * clear OLD. subst e. inversion M; subst.
        split; [exact (ex_mine _ X u _ i NT eq_refl)|].
        exists (mkThread (Busy true i s' r k) hd). rewrite nth_error_update, Nat.eqb_refl, NT.
        split; [reflexivity|]. cbn. intros; discriminate.
      * eapply OLD; [reflexivity|exact NI].
    + rewrite app_nil_r in EV. subst evs. eapply OLD; [reflexivity|]. cbn. rewrite app_nil_r. exact NI.
  - intros u i f r F1 F2 u' h f' r' F3 EV D. destruct e as [e|]; cbn [opt_list] in EV.
    + replace (F1 ++ ELin u true i f r :: F2 ++ ELin u' h i f' r' :: F3)
        with ((F1 ++ ELin u true i f r :: F2) ++ ELin u' h i f' r' :: F3) in EV by (rewrite <- app_assoc; reflexivity).
      destruct (app_snoc_cases _ _ _ _ _ _ EV) as [(-> & EE & ->)|(F2' & -> & ->)].
      * assert (DEC : In (EEnd u) F2 \/ ~ In (EEnd u) F2).
        { clear. induction F2 as [|x F2 [IH|IH]]; [right; intros []|left; right; exact IH|].
          destruct x; try (right; intros [J|J]; [discriminate|exact (IH J)]).
          destruct (Nat.eq_dec t u) as [->|NE]; [left; left; reflexivity|].
          right; intros [J|J]; [inversion J; congruence|exact (IH J)]. }
        destruct DEC as [J|J]; [exact J|exfalso]. destruct (LK _ _ _ _ _ _ eq_refl J) as [B _].
        subst e. inversion M; subst.
        pose proof (inside_held _ _ _ _ _ X NT eq_refl) as B'. cbn in B'. rewrite B in B'. destruct h; congruence.
      * eapply AL; [|exact D]. rewrite <- app_assoc. reflexivity.
    + rewrite app_nil_r in EV. eapply AL; eassumption.
Qed.

Theorem exec_kept : forall g l (ps : list prog) sched c' evs, exec sem (initial g l ps) sched = (c', evs) -> kept c' evs.
Proof.
  intros g l ps sched c' evs E. refine (exec_snoc _ _ _ _ E kept _ [] _).
  - intros. eapply step_kept; eassumption.
  - constructor; [apply initial_excl| |]; intros; exfalso;
      match goal with H : [] = _ |- _ => symmetry in H; destruct (app_eq_nil _ _ H); discriminate end.
Qed.

(** *** Every thread finishes *)
Definition placed_call (strict : bool) (n : nat) (th : thread) (h : bool) (i : nat) (k : R -> prog) : Prop :=
  (i < n)%nat /\
  ((h = false /\ th_held th = [] /\ forall r, orderly strict n None (k r)) \/
   (h = true /\ (strict = true -> Forall (fun j => j <= i)%nat (th_held th)) /\
    forall r, orderly strict n (Some i) (k r))).

Definition placed_thread (strict : bool) (n : nat) (th : thread) : Prop :=
  match th_pc th with
  | At p => (th_held th = [] /\ orderly strict n None p) \/
            exists m, orderly strict n (Some m) p /\ (strict = true -> Forall (fun j => j <= m)%nat (th_held th))
  | Want h i _ k | Locked h i _ k | Busy h i _ _ k | Out h i _ k => placed_call strict n th h i k
  | Ending k => orderly strict n None k
  end.

Record orderly_state (strict : bool) (n : nat) (c : cst) : Prop := {
  os_excl : excl c;
  os_len : length (st_shards c) = n;
  os_th : forall t th, nth_error (st_threads c) t = Some th -> placed_thread strict n th;
  os_plain : forall i, nth_error (st_locks c) i = Some Plain ->
    exists t th, nth_error (st_threads c) t = Some th /\ inside (th_pc th) = Some (false, i);
  os_batch : forall i t, nth_error (st_locks c) i = Some (Batch t) ->
    exists th, nth_error (st_threads c) t = Some th /\ In i (th_held th)
}.

Lemma placed_move : forall strict n t th g l lk th' g' l' lk' e, placed_thread strict n th ->
  move t th g l lk th' g' l' lk' e -> placed_thread strict n th'.
Proof.
  intros strict n t th g l lk th' g' l' lk' e P M.
  inversion M; subst; unfold placed_thread in *; cbn [Conc.th_pc Conc.th_held] in *; try exact P;
    unfold placed_call in *; cbn [Conc.th_held] in *.
  - destruct P as [[_ P]|(m & P & _)]; [|destruct P]. right. exists 0%nat. split; [exact P|intros; constructor].
  - destruct P as [[_ P]|(m & P & _)]; [destruct P|exact P].
  - left. split; [reflexivity|exact P].
  - destruct P as [[-> P]|(m & P & F)].
    + destruct h; [destruct P|]. destruct P as [P Q]. split; [exact P|]. left. auto.
    + destruct h; [|destruct P]. destruct P as (P & P' & Q). split; [exact P'|]. right. split; [reflexivity|]. split; [|exact Q].
      intros ST. specialize (F ST). specialize (P ST). eapply Forall_impl; [|exact F]. cbn. intros; lia.
  - destruct P as [P [(D & _)|(_ & F & Q)]]; [discriminate D|]. split; [exact P|]. right. repeat split; try assumption. intros ST. constructor; [lia|exact (F ST)].
  - destruct P as [P [(D & _)|(_ & F & Q)]]; [discriminate D|]. right. exists i. auto.
  - destruct P as [P [(_ & F & Q)|(D & _)]]; [|discriminate D]. left. auto.
Qed.

Lemma step_orderly : forall strict n sp t (c c' : cst) e, orderly_state strict n c -> tstep sem sp t c = (c', e) -> orderly_state strict n c'.
Proof.
  intros strict n sp t c c' e [X LN TH PL BA] E. pose proof (step_excl _ _ _ _ _ X E) as X'.
  destruct (tstep_move _ _ _ _ _ E) as [[-> ->]|(th & th' & g' & l' & lk' & NT & M & ->)]; [constructor; assumption|].
  destruct c as [g l lk ts]. cbn [Conc.st_g Conc.st_shards Conc.st_locks Conc.st_threads] in *.
  pose proof (TH _ _ NT) as PT.
  assert (MINE : nth_error (upd ts t th') t = Some th') by (rewrite nth_error_update, Nat.eqb_refl, NT; reflexivity).
  assert (REST : forall u tu, u <> t -> nth_error ts u = Some tu -> nth_error (upd ts t th') u = Some tu).
  { intros u tu D N. rewrite nth_error_update. destruct (Nat.eqb_spec t u); [congruence|exact N]. }
  constructor; cbn [Conc.st_g Conc.st_shards Conc.st_locks Conc.st_threads].
  - exact X'.
  - inversion M; subst; rewrite ?update_length; assumption || reflexivity.
  - intros u tu N. thread_cases; [eapply placed_move; eassumption|eapply TH; eassumption].
  - intros i B.
    assert (OLD : nth_error lk i = Some Plain -> inside (th_pc th) = Some (false, i) -> inside (th_pc th') = Some (false, i) ->
              exists u tu, nth_error (upd ts t th') u = Some tu /\ inside (th_pc tu) = Some (false, i)) by eauto.
    assert (GEN : nth_error lk i = Some Plain -> (inside (th_pc th) = Some (false, i) -> inside (th_pc th') = Some (false, i)) ->
              exists u tu, nth_error (upd ts t th') u = Some tu /\ inside (th_pc tu) = Some (false, i)).
    { intros B0 K. destruct (PL _ B0) as (u & tu & N & J). destruct (Nat.eq_dec u t) as [->|D]; [|eauto].
      rewrite NT in N. inversion N; subst. eauto. }
    clear OLD.
    inversion M; subst; cbn [Conc.th_pc inside] in *; try (apply GEN; [exact B|intros J; first [discriminate J|exact J]]).
    + rewrite nth_error_update in B. destruct (Nat.eqb_spec i0 i) as [->|]; [destruct (nth_error lk i); discriminate B|].
      apply GEN; [exact B|discriminate].
    + rewrite nth_error_update in B. destruct (Nat.eqb_spec i0 i) as [->|]; [destruct (nth_error lk i); discriminate B|].
      apply GEN; [exact B|discriminate].
    + rewrite nth_error_update in B. destruct (Nat.eqb_spec i0 i) as [->|].
      * eexists _, _. split; [exact MINE|reflexivity].
      * apply GEN; [exact B|discriminate].
    + rewrite nth_error_update in B. destruct (Nat.eqb_spec i0 i) as [->|]; [destruct (nth_error lk i); discriminate B|].
      apply GEN; [exact B|]. intros J. inversion J; congruence.
  - intros i u B.
    assert (GEN : nth_error lk i = Some (Batch u) -> (u = t -> In i (th_held th) -> In i (th_held th')) ->
              exists tu, nth_error (upd ts t th') u = Some tu /\ In i (th_held tu)).
    { intros B0 K. destruct (BA _ _ B0) as (tu & N & J). destruct (Nat.eq_dec u t) as [->|D]; [|eauto].
      rewrite NT in N. inversion N; subst. eauto. }
    inversion M; subst; cbn [Conc.th_pc Conc.th_held inside] in *; try (apply GEN; [exact B|intros _ J; exact J]).
    + apply GEN; [exact B|]. intros _ J. unfold placed_thread in PT. cbn in PT.
      destruct PT as [[-> _]|(m & P & _)]; [exact J|destruct P].
    + rewrite nth_error_update in B. destruct (Nat.eqb_spec i0 i) as [->|D]; [destruct (nth_error lk i); discriminate B|].
      apply GEN; [exact B|]. intros _ [J|J]; [congruence|exact J].
    + rewrite nth_error_update in B. destruct (Nat.eqb_spec i0 i) as [->|D].
      * destruct (nth_error lk i); inversion B; subst. eexists. split; [exact MINE|]. left. reflexivity.
      * apply GEN; [exact B|]. intros _ J. right. exact J.
    + rewrite nth_error_update in B. destruct (Nat.eqb_spec i0 i) as [->|D]; [destruct (nth_error lk i); discriminate B|].
      apply GEN; [exact B|]. intros _ J. exact J.
    + rewrite nth_error_update in B. destruct (Nat.eqb_spec i0 i) as [->|D]; [destruct (nth_error lk i); discriminate B|].
      apply GEN; [exact B|]. intros _ J. exact J.
Qed.

Definition done (th : thread) : Prop := th_pc th = At Stop.

(** A thread can move when its step changes it. *)
Definition can_move (c : cst) (t : nat) : Prop :=
  exists th th' g' l' lk' e, nth_error (st_threads c) t = Some th /\
    move t th (st_g c) (st_shards c) (st_locks c) th' g' l' lk' e /\
    tstep sem false t c = (mkCst g' l' lk' (upd (st_threads c) t th'), e).

(** A step that is not the retry of a failed compare-and-swap. *)
Lemma step_enabled : forall (c : cst) t th th' g' l' lk' e, nth_error (st_threads c) t = Some th ->
  move t th (st_g c) (st_shards c) (st_locks c) th' g' l' lk' e ->
  tstep sem false t c = (mkCst g' l' lk' (upd (st_threads c) t th'), e).
Proof.
  intros c t th th' g' l' lk' e N M. destruct c as [g l lk ts].
  cbn [Conc.st_g Conc.st_shards Conc.st_locks Conc.st_threads] in *.
  unfold tstep. cbn [Conc.st_g Conc.st_shards Conc.st_locks Conc.st_threads]. rewrite N.
  inversion M; subst; cbn [Conc.th_pc Conc.th_held];
    repeat match goal with H : nth_error ?a ?b = Some _ |- context [nth_error ?a ?b] => rewrite H
           | H : sem ?f ?a ?b = (_, _, _) |- _ => rewrite H end;
    cbn [andb]; rewrite ?Nat.eqb_refl; reflexivity.
Qed.

Lemma some_move : forall n (c : cst), orderly_state true n c ->
  forall t th, nth_error (st_threads c) t = Some th -> ~ done th -> exists u, can_move c u.
Proof.
  intros n c OS.
  assert (CM : forall t th th' g' l' lk' e, nth_error (st_threads c) t = Some th ->
    move t th (st_g c) (st_shards c) (st_locks c) th' g' l' lk' e -> exists u, can_move c u).
  { intros t th th' g' l' lk' e N M. exists t. eexists _, _, _, _, _, _. split; [exact N|]. split; [exact M|].
    eapply step_enabled; eassumption. }
  assert (EASY : forall t th, nth_error (st_threads c) t = Some th -> ~ done th ->
    (forall h i f k, th_pc th <> Want h i f k) -> exists u, can_move c u).
  { intros t [p hd] N D W. unfold done in D. cbn in *. destruct p as [q|h i f k|h i f k|h i s r k|h i r k|k].
    - destruct q as [|h i f k|k|k]; [congruence| | |]; (eapply CM; [exact N|]); econstructor.
    - exfalso. eapply W; reflexivity.
    - pose proof (os_th _ _ _ OS _ _ N) as P. unfold placed_thread in P. cbn in P. destruct P as [P _].
      destruct (nth_error (st_shards c) i) as [s|] eqn:ES.
      + destruct (sem f (st_g c) s) as [[g' s'] r] eqn:EF. eapply CM; [exact N|]. econstructor; eassumption.
      + apply nth_error_None in ES. rewrite (os_len _ _ _ OS) in ES. lia.
    - eapply CM; [exact N|]. econstructor.
    - destruct h; (eapply CM; [exact N|]); econstructor.
    - destruct hd; (eapply CM; [exact N|]); econstructor. }
  assert (WAIT : forall d t th h i f k, nth_error (st_threads c) t = Some th -> th_pc th = Want h i f k ->
    (n - i <= d)%nat -> exists u, can_move c u).
  { induction d as [|d IH]; intros t [p hd] h i f k N W LE; cbn in W; subst p;
      pose proof (os_th _ _ _ OS _ _ N) as P; unfold placed_thread in P; cbn in P; destruct P as [P Q].
    - lia.
    - assert (LT : (i < length (st_locks c))%nat) by (rewrite (ex_len _ (os_excl _ _ _ OS)), (os_len _ _ _ OS); exact P).
      destruct (nth_error (st_locks c) i) as [[| |u]|] eqn:EL.
      + destruct h; (eapply CM; [exact N|]); econstructor; exact EL.
      + destruct (os_plain _ _ _ OS _ EL) as (u & tu & NU & J). apply (EASY u tu NU).
        * unfold done. intros K. rewrite K in J. discriminate J.
        * intros h' i' f' k' K. rewrite K in J. discriminate J.
      + destruct (os_batch _ _ _ OS _ _ EL) as ([pu hu] & NU & J). cbn in J.
        pose proof (os_th _ _ _ OS _ _ NU) as PU. unfold placed_thread in PU. cbn in PU.
        destruct pu as [q|h' i' f' k'|h' i' f' k'|h' i' s' r' k'|h' i' r' k'|k'];
          try (apply (EASY u _ NU); [unfold done; cbn; discriminate|cbn; intros; discriminate]).
        * apply (EASY u _ NU); [|cbn; intros; discriminate]. unfold done. cbn. intros K. inversion K; subst.
          destruct PU as [[-> _]|(m & PU & _)]; [destruct J|destruct PU].
        * destruct PU as [PI [(-> & HN & _)|(-> & F & _)]]; [cbn in HN; subst; destruct J|]. cbn in F.
          specialize (F eq_refl). rewrite Forall_forall in F. specialize (F _ J).
          destruct (Nat.eq_dec i i') as [<-|NE].
          -- eapply CM; [exact NU|]. eapply mv_mine. exact EL.
          -- eapply IH; [exact NU|reflexivity|]. lia.
      + apply nth_error_None in EL. lia. }
  intros t th N D. destruct (th_pc th) as [q|h i f k|h i f k|h i s r k|h i r k|k] eqn:EP;
    try (apply (EASY t th N D); rewrite EP; intros; discriminate).
  eapply WAIT; [exact N|exact EP|apply le_n].
Qed.

(** Moves go down a well-founded order. *)
Definition next (th' th : thread) : Prop :=
  exists t g l lk g' l' lk' e, move t th g l lk th' g' l' lk' e.

Lemma ending_acc : forall k, (forall hd, Acc next (mkThread (At k) hd)) -> forall hd, Acc next (mkThread (Ending k) hd).
Proof.
  intros k A. induction hd as [|i hd IH]; constructor; intros y (t & g & l & lk & g' & l' & lk' & e & M); inversion M; subst; auto.
Qed.

Lemma prog_acc : forall p hd, Acc next (mkThread (At p) hd).
Proof.
  induction p as [|h i f k IH|k IH|k IH]; intros hd.
  - constructor. intros y (t & g & l & lk & g' & l' & lk' & e & M). inversion M.
  - assert (O : forall r hd, Acc next (mkThread (Out h i r k) hd)).
    { intros r hd'. constructor. intros y (t & g & l & lk & g' & l' & lk' & e & M). inversion M; subst; apply IH. }
    assert (B : forall s r hd, Acc next (mkThread (Busy h i s r k) hd)).
    { intros s r hd'. constructor. intros y (t & g & l & lk & g' & l' & lk' & e & M). inversion M; subst; apply O. }
    assert (L : forall hd, Acc next (mkThread (Locked h i f k) hd)).
    { intros hd'. constructor. intros y (t & g & l & lk & g' & l' & lk' & e & M). inversion M; subst; apply B. }
    assert (W : forall hd, Acc next (mkThread (Want h i f k) hd)).
    { intros hd'. constructor. intros y (t & g & l & lk & g' & l' & lk' & e & M). inversion M; subst; apply L. }
    constructor. intros y (t & g & l & lk & g' & l' & lk' & e & M). inversion M; subst; apply W.
  - constructor. intros y (t & g & l & lk & g' & l' & lk' & e & M). inversion M; subst; apply IH.
  - constructor. intros y (t & g & l & lk & g' & l' & lk' & e & M). inversion M; subst. apply ending_acc. exact IH.
Qed.

Lemma thread_acc : forall th, Acc next th.
Proof.
  assert (O : forall h i r k hd, Acc next (mkThread (Out h i r k) hd)).
  { intros. constructor. intros y (t & g & l & lk & g' & l' & lk' & e & M). inversion M; subst; apply prog_acc. }
  assert (B : forall h i s r k hd, Acc next (mkThread (Busy h i s r k) hd)).
  { intros. constructor. intros y (t & g & l & lk & g' & l' & lk' & e & M). inversion M; subst; apply O. }
  assert (L : forall h i f k hd, Acc next (mkThread (Locked h i f k) hd)).
  { intros. constructor. intros y (t & g & l & lk & g' & l' & lk' & e & M). inversion M; subst; apply B. }
  intros [[p|h i f k|h i f k|h i s r k|h i r k|k] hd]; auto.
  - apply prog_acc.
  - constructor. intros y (t & g & l & lk & g' & l' & lk' & e & M). inversion M; subst; apply L.
  - apply ending_acc. apply prog_acc.
Qed.

(** One component of a list goes down. *)
Definition below (l' l : list thread) : Prop :=
  exists t th th', nth_error l t = Some th /\ next th' th /\ l' = upd l t th'.

Lemma below_acc : forall l, Acc below l.
Proof.
  induction l as [|x l IH].
  - constructor. intros y (t & th & th' & N & _). destruct t; discriminate N.
  - revert x. induction IH as [l _ IHl]. intros x. pose proof (thread_acc x) as AX. induction AX as [x AX IHx].
    constructor. intros y (t & th & th' & N & D & ->). destruct t as [|t]; cbn in N.
    + inversion N; subst. cbn. apply IHx. exact D.
    + cbn. apply IHl. exists t, th, th'. auto.
Qed.

Lemma exec_cons : forall t sp (c c1 c2 : cst) e rest evs, tstep sem sp t c = (c1, e) -> exec sem c1 rest = (c2, evs) ->
  exec sem c ((t, sp) :: rest) = (c2, opt_list e ++ evs).
Proof. intros t sp c c1 c2 e rest evs E1 E2. cbn [exec]. rewrite E1, E2. destruct e; reflexivity. Qed.

Lemma finish : forall n (c : cst), orderly_state true n c ->
  exists sched c' evs, exec sem c sched = (c', evs) /\ Forall done (st_threads c') /\ orderly_state true n c'.
Proof.
  intros n c. remember (st_threads c) as ts eqn:ET. revert c ET.
  induction (below_acc ts) as [ts _ IH]. intros c -> OS.
  assert (DEC : Forall done (st_threads c) \/ exists t th, nth_error (st_threads c) t = Some th /\ ~ done th).
  { clear. induction (st_threads c) as [|th l [IH|(t & th' & N & D)]].
    - left. constructor.
    - destruct th as [p hd].
      assert (C : done (mkThread p hd) \/ ~ done (mkThread p hd)).
      { unfold done. cbn. destruct p as [[]| | | | |]; (left; reflexivity) || (right; discriminate). }
      destruct C as [C|C]; [left; constructor; assumption|right; exists 0%nat, (mkThread p hd); split; [reflexivity|exact C]].
    - right. exists (Datatypes.S t), th'. split; [exact N|exact D]. }
  destruct DEC as [D|(t & th & N & D)].
  - exists [], c, []. auto.
  - destruct (some_move n c OS t th N D) as (u & tu & tu' & g' & l' & lk' & e & NU & M & E).
    destruct (IH (upd (st_threads c) u tu')) with (c := mkCst g' l' lk' (upd (st_threads c) u tu')) as (sched & c' & evs & EX & DN & OS').
    + exists u, tu, tu'. split; [exact NU|]. split; [|reflexivity]. repeat eexists. exact M.
    + reflexivity.
    + eapply step_orderly; eassumption.
    + exists ((u, false) :: sched), c'. eexists. split; [eapply exec_cons; eassumption|auto].
Qed.

Lemma initial_orderly : forall strict (g : G) (l : list S) (ps : list prog), Forall (orderly strict (length l) None) ps -> orderly_state strict (length l) (initial g l ps).
Proof.
  intros strict g l ps F. constructor.
  - apply initial_excl.
  - reflexivity.
  - intros t th N. apply initial_threads in N. destruct N as (p & NP & ->). left. split; [reflexivity|].
    rewrite Forall_forall in F. apply F. eapply nth_error_In; eassumption.
  - intros i J. cbn in J. apply nth_error_In in J. apply repeat_spec in J. discriminate J.
  - intros i t J. cbn in J. apply nth_error_In in J. apply repeat_spec in J. discriminate J.
Qed.

Lemma exec_orderly : forall strict g l (ps : list prog) sched c' evs, Forall (orderly strict (length l) None) ps ->
  exec sem (initial g l ps) sched = (c', evs) -> orderly_state strict (length l) c'.
Proof.
  intros strict g l ps sched c' evs F E.
  refine (exec_snoc _ _ _ _ E (fun c _ => orderly_state strict (length l) c) _ [] (initial_orderly strict g l ps F)).
  intros. eapply step_orderly; eassumption.
Qed.

(** *** Batches can be put one after the other *)
Lemma aby_snoc : forall l ops l1 i f s g g1 s1 r, any_by_one sem l ops l1 -> nth_error l1 i = Some s ->
  sem f g s = (g1, s1, r) -> any_by_one sem l (ops ++ [(i, f, r)]) (upd l1 i s1).
Proof.
  intros l ops l1 i f s g g1 s1 r A N F. induction A; cbn [app].
  - econstructor; try eassumption. constructor.
  - econstructor; try eassumption. apply IHA; assumption.
Qed.
Lemma aby_app : forall l a l1 b l2, any_by_one sem l a l1 -> any_by_one sem l1 b l2 -> any_by_one sem l (a ++ b) l2.
Proof. intros l a l1 b l2 A B. induction A; cbn [app]; [exact B|]. econstructor; try eassumption. auto. Qed.
Lemma aby_length : forall l a l1, any_by_one sem l a l1 -> length l1 = length l.
Proof. intros l a l1 A. induction A; [reflexivity|]. rewrite IHA, update_length. reflexivity. Qed.

(** Only the shards an execution touches matter. *)
Lemma aby_frame : forall (own : nat -> Prop) l a l1, any_by_one sem l a l1 ->
  Forall (fun x => own (fst (fst x))) a ->
  forall l', (forall i, own i -> nth_error l' i = nth_error l i) ->
  exists l1', any_by_one sem l' a l1' /\ (forall i, own i -> nth_error l1' i = nth_error l1 i) /\
              (forall i, ~ own i -> nth_error l1' i = nth_error l' i).
Proof.
  intros own l a l1 A. induction A as [l|l i f s g g1 s1 r rest l2 N F A IH]; intros FO l' EQ.
  - exists l'. split; [constructor|]. split; [exact EQ|reflexivity].
  - inversion FO as [|x y O FO']; subst. cbn in O.
    destruct (IH FO' (upd l' i s1)) as (l1' & B & E1 & E2).
    { intros j J. rewrite !nth_error_update. destruct (i =? j)%nat; [|apply EQ; exact J]. rewrite (EQ j J). reflexivity. }
    exists l1'. split; [econstructor; [rewrite EQ by exact O; exact N|exact F|exact B]|]. split; [exact E1|].
    intros j J. rewrite E2 by exact J. rewrite nth_error_update. destruct (Nat.eqb_spec i j); [subst; contradiction|reflexivity].
Qed.

Lemma aby_other : forall (own : nat -> Prop) l a l1, any_by_one sem l a l1 ->
  Forall (fun x => own (fst (fst x))) a -> forall i, ~ own i -> nth_error l1 i = nth_error l i.
Proof.
  intros own l a l1 A F i NO. induction A as [|l j f s g g1 s1 r rest l2 N E A IH]; [reflexivity|].
  inversion F; subst. rewrite IH by assumption. rewrite nth_error_update.
  destruct (Nat.eqb_spec j i); [subst; contradiction|reflexivity].
Qed.

Lemma batch_order_snoc : forall (evs : list event) e, collected (evs ++ [e]) = collect (collected evs) e.
Proof. intros. unfold collected. rewrite fold_left_app. reflexivity. Qed.

Record serial (n : nat) (l0 : list S) (c : cst) (evs : list event) : Prop := {
  se_state : orderly_state false n c;
  se_run : exists cs ll,
    now c ll /\ length ll = n /\
    (* the complete batches give [cs] *)
    any_by_one sem l0 (batch_order evs) cs /\
    (* the open ones continue from there, each on its own shards *)
    (forall t th, nth_error (st_threads c) t = Some th ->
       Forall (fun x => In (fst (fst x)) (th_held th)) (open_batch evs t) /\
       exists ct, any_by_one sem cs (open_batch evs t) ct /\
         forall i, In i (th_held th) -> nth_error ct i = nth_error ll i) /\
    (forall i, (forall t th, nth_error (st_threads c) t = Some th -> ~ In i (th_held th)) ->
       nth_error ll i = nth_error cs i);
  se_closed : forall t th, nth_error (st_threads c) t = Some th ->
    match th_pc th with
    | At p => (exists strict, orderly strict n None p) -> open_batch evs t = []
    | Ending _ => open_batch evs t = []
    | Want false _ _ _ | Locked false _ _ _ | Busy false _ _ _ _ | Out false _ _ _ => open_batch evs t = []
    | _ => True
    end
}.

Lemma orderly_one : forall (p : prog) st n st' n' m, orderly st n None p -> orderly st' n' (Some m) p -> False.
Proof. destruct p as [|[|] i f k|k|k]; cbn; tauto. Qed.

Lemma open_snoc : forall (evs : list event) e u, open_batch (evs ++ [e]) u =
  match e with
  | EBegin t | EEnd t => if (u =? t)%nat then [] else open_batch evs u
  | ELin t true i f r => if (u =? t)%nat then open_batch evs t ++ [(i, f, r)] else open_batch evs u
  | _ => open_batch evs u
  end.
Proof.
  intros evs e u. unfold open_batch. rewrite batch_order_snoc. unfold collect.
  destruct (collected evs) as [o b]. destruct e as [| ? [|] | | |]; reflexivity.
Qed.
Lemma out_snoc : forall (evs : list event) e, batch_order (evs ++ [e]) =
  batch_order evs ++ match e with
  | EEnd t => open_batch evs t
  | ELin t false i f r => [(i, f, r)]
  | _ => []
  end.
Proof.
  intros evs e. unfold batch_order, batches, open_batch. rewrite batch_order_snoc. unfold collect.
  destruct (collected evs) as [o b].
  destruct e as [| ? [|] | | |]; cbn [fst snd]; rewrite ?map_app, ?concat_app; cbn [List.map concat snd]; rewrite ?app_nil_r; reflexivity.
Qed.

Lemma aby_nil : forall l l', any_by_one sem l [] l' -> l' = l.
Proof. intros l l' A. inversion A. reflexivity. Qed.

Lemma step_serial : forall n l0 sp t (c c' : cst) e evs, serial n l0 c evs -> tstep sem sp t c = (c', e) ->
  serial n l0 c' (evs ++ opt_list e).
Proof.
  intros n l0 sp t c c' e evs [OS (cs & ll & NW & LN & A & TB & FREE) CL] E.
  pose proof (step_orderly _ _ _ _ _ _ _ OS E) as OS'.
  destruct (tstep_move _ _ _ _ _ E) as [[-> ->]|(th & th' & g' & l' & lk' & NT & M & ->)].
  { cbn [opt_list]. rewrite app_nil_r. constructor; [exact OS|exists cs, ll; auto|exact CL]. }
  destruct c as [g l lk ts]. cbn [Conc.st_g Conc.st_shards Conc.st_locks Conc.st_threads] in *.
  pose proof (os_excl _ _ _ OS) as X. pose proof (os_th _ _ _ OS _ _ NT) as PT.
  destruct (now_move _ _ _ _ _ _ _ _ _ _ _ _ X NT M NW) as (ll' & NW' & LL).
  assert (LN' : length ll' = n).
  { destruct LL as [(_ & -> & _)|(h & i & f & r & s & s' & _ & _ & _ & ->)]; rewrite ?update_length; exact LN. }
  assert (DISJ : forall u v tu tv i, nth_error ts u = Some tu -> nth_error ts v = Some tv ->
            In i (th_held tu) -> In i (th_held tv) -> u = v).
  { intros u v tu tv i NU NV IU IV.
    pose proof (ex_held _ X u tu i NU IU) as B1. pose proof (ex_held _ X v tv i NV IV) as B2. cbn in *. congruence. }
  assert (MINE : nth_error (upd ts t th') t = Some th') by (rewrite nth_error_update, Nat.eqb_refl, NT; reflexivity).
  assert (REST : forall u tu, u <> t -> nth_error (upd ts t th') u = Some tu -> nth_error ts u = Some tu).
  { intros u tu D N. rewrite nth_error_update in N. destruct (Nat.eqb_spec t u); [congruence|exact N]. }
  assert (TSER : forall u tu, u <> t -> nth_error ts u = Some tu -> nth_error (upd ts t th') u = Some tu).
  { intros u tu D N. rewrite nth_error_update. destruct (Nat.eqb_spec t u); [congruence|exact N]. }
  assert (NEQ : forall u, u <> t -> (u =? t)%nat = false) by (intros; apply Nat.eqb_neq; assumption).
  pose proof (TB _ _ NT) as (TO & ct & TA & TE). pose proof (CL _ _ NT) as CT.
  constructor; [exact OS'| |]; cbn [Conc.st_g Conc.st_shards Conc.st_locks Conc.st_threads].
  - (* moves that are no event of a batch *)
    assert (PLAIN : ll' = ll -> batch_order (evs ++ opt_list e) = batch_order evs ->
      (forall u, open_batch (evs ++ opt_list e) u = open_batch evs u) ->
      (th_held th' = th_held th \/
       (exists i, th_held th = i :: th_held th' /\ open_batch evs t = []) \/
       (exists i, th_held th' = i :: th_held th /\ nth_error lk i = Some Free)) ->
      exists cs0 ll0, now (mkCst g' l' lk' (upd ts t th')) ll0 /\ length ll0 = n /\
        any_by_one sem l0 (batch_order (evs ++ opt_list e)) cs0 /\
        (forall u tu, nth_error (upd ts t th') u = Some tu ->
          Forall (fun x => In (fst (fst x)) (th_held tu)) (open_batch (evs ++ opt_list e) u) /\
          exists cu, any_by_one sem cs0 (open_batch (evs ++ opt_list e) u) cu /\
            forall i, In i (th_held tu) -> nth_error cu i = nth_error ll0 i) /\
        (forall i, (forall u tu, nth_error (upd ts t th') u = Some tu -> ~ In i (th_held tu)) ->
          nth_error ll0 i = nth_error cs0 i)).
    { intros -> EB EO HD. exists cs, ll. split; [exact NW'|]. split; [exact LN|]. rewrite EB. split; [exact A|]. split.
      - intros u tu N. rewrite EO. destruct (Nat.eq_dec u t) as [->|D]; [|apply (TB u tu); apply REST; assumption].
        rewrite MINE in N. inversion N; subst tu.
        destruct HD as [->|[(i & HD & EMP)|(i & HD & FR)]].
        + split; [exact TO|]. exists ct. auto.
        + rewrite EMP in *. split; [constructor|]. exists ct. split; [exact TA|]. intros j J. apply TE. rewrite HD. right. exact J.
        + split; [eapply Forall_impl; [|exact TO]; intros x J; rewrite HD; right; exact J|].
          exists ct. split; [exact TA|]. intros j J. rewrite HD in J. destruct J as [<-|J]; [|apply TE; exact J].
          rewrite (aby_other (fun j => In j (th_held th)) _ _ _ TA TO).
          * symmetry. apply FREE. intros v tv NV J. pose proof (ex_held _ X v tv i NV J) as K. cbn in K. congruence.
          * intros J. pose proof (ex_held _ X t th i NT J) as K. cbn in K. congruence.
      - intros i H.
        assert (GEN : ~ In i (th_held th) -> nth_error ll i = nth_error cs i).
        { intros NI. apply FREE. intros u tu N. destruct (Nat.eq_dec u t) as [->|D].
          - rewrite NT in N. inversion N; subst. exact NI.
          - apply (H u). apply TSER; assumption. }
        pose proof (H _ _ MINE) as HM. destruct HD as [HD|[(j & HD & EMP)|(j & HD & FR)]].
        + rewrite HD in HM. auto.
        + rewrite EMP in TA. apply aby_nil in TA. subst ct.
          destruct (in_dec Nat.eq_dec i (th_held th)) as [J|J]; [symmetry; apply TE; exact J|auto].
        + apply GEN. intros J. apply HM. rewrite HD. right. exact J. }
    assert (KEEP : forall u tu i s', u <> t -> nth_error ts u = Some tu -> In i (th_held tu) ->
       forall cu, (forall j, In j (th_held tu) -> nth_error cu j = nth_error ll j) ->
       (forall v tv, nth_error ts v = Some tv -> In i (th_held tv) -> v <> u) ->
       (forall j, In j (th_held tu) -> nth_error cu j = nth_error (upd ll i s') j)).
    { intros u tu i s' D N I cu EQ NO. exfalso. eapply NO; [exact N|exact I|reflexivity]. }
    clear KEEP.
    assert (NLL : (forall h i f r, e <> Some (ELin t h i f r)) -> ll' = ll).
    { intros NL. destruct LL as [(_ & -> & _)|(h & i & f & r & s & s' & -> & _)]; [reflexivity|].
      exfalso. eapply NL; reflexivity. }
    clear LN. inversion M; subst th th' g' l' lk' e; cbn [opt_list Conc.th_pc Conc.th_held] in *; rewrite ?app_nil_r in *;
      try (apply PLAIN; clear PLAIN;
           [apply NLL; intros; discriminate
           |rewrite ?out_snoc, ?app_nil_r; reflexivity
           |intros; rewrite ?open_snoc; reflexivity
           |first [left; reflexivity
                  |right; left; eexists; split; [reflexivity|exact CT]
                  |right; right; eexists; split; [reflexivity|eassumption]]]; fail).
    + (* begin *)
      clear PLAIN. rewrite (NLL ltac:(intros; discriminate)) in *.
      assert (HN : hd = []).
      { unfold placed_thread in PT. cbn in PT. destruct PT as [[HN _]|(m & P0 & _)]; [exact HN|destruct P0]. }
      subst hd. exists cs, ll. split; [exact NW'|]. split; [exact LN'|]. rewrite out_snoc, app_nil_r. split; [exact A|]. split.
      * intros u tu N. rewrite open_snoc. destruct (Nat.eq_dec u t) as [->|D].
        -- rewrite MINE in N. inversion N; subst tu. rewrite Nat.eqb_refl. split; [constructor|]. exists cs. split; [constructor|]. intros i [].
        -- rewrite (NEQ _ D). apply TB. apply REST; assumption.
      * intros i H. apply FREE. intros u tu N. destruct (Nat.eq_dec u t) as [->|D].
        -- rewrite NT in N. inversion N; subst. intros [].
        -- apply (H u). apply TSER; assumption.
    + (* end *)
      clear PLAIN. rewrite (NLL ltac:(intros; discriminate)) in *.
      exists ct, ll. split; [exact NW'|]. split; [exact LN'|]. rewrite out_snoc.
      split; [eapply aby_app; eassumption|]. split.
      * intros u tu N. rewrite open_snoc. destruct (Nat.eq_dec u t) as [->|D].
        -- rewrite MINE in N. inversion N; subst tu. rewrite Nat.eqb_refl. split; [constructor|]. exists ct. split; [constructor|]. exact TE.
        -- rewrite (NEQ _ D). pose proof (REST _ _ D N) as N0. destruct (TB _ _ N0) as (UO & cu & UA & UE).
           split; [exact UO|].
           destruct (aby_frame (fun i => In i (th_held tu)) _ _ _ UA UO ct) as (cu' & UA' & E1 & E2).
           { intros i I. apply (aby_other (fun i => In i hd) _ _ _ TA TO). intros J. apply D. eapply (DISJ u t); eassumption. }
           exists cu'. split; [exact UA'|]. intros i I. rewrite E1 by exact I. apply UE. exact I.
      * intros i H. destruct (in_dec Nat.eq_dec i hd) as [J|J].
        -- exfalso. apply (H _ _ MINE). exact J.
        -- rewrite (aby_other (fun i => In i hd) _ _ _ TA TO i J). apply FREE.
           intros u tu N. destruct (Nat.eq_dec u t) as [->|D].
           ++ rewrite NT in N. inversion N; subst. exact J.
           ++ apply (H u). apply TSER; assumption.
    + (* the body reads *)
      clear PLAIN NLL. destruct LL as [(NL & _)|(h1 & i1 & f1 & r1 & s1 & s1' & EE & NS & EF & ->)];
        [exfalso; eapply NL; reflexivity|]. inversion EE; subst h1 i1 f1 r1. clear EE.
      destruct h.
      * (* in the batch *)
        assert (IH : In i hd).
        { pose proof (ex_mine _ X t _ i NT eq_refl) as B. destruct (os_batch _ _ _ OS _ _ B) as (tt0 & N0 & J).
          cbn in N0. rewrite NT in N0. inversion N0; subst. exact J. }
        exists cs, (upd ll i s1'). split; [exact NW'|]. split; [exact LN'|]. rewrite out_snoc, app_nil_r. split; [exact A|]. split.
        -- intros u tu N. rewrite open_snoc. destruct (Nat.eq_dec u t) as [->|D].
           ++ rewrite MINE in N. inversion N; subst tu. rewrite Nat.eqb_refl. split.
              ** apply Forall_app. split; [exact TO|]. constructor; [exact IH|constructor].
              ** exists (upd ct i s1'). split; [eapply aby_snoc; [exact TA|rewrite TE by exact IH; exact NS|exact EF]|].
                 intros j J. rewrite !nth_error_update. destruct (i =? j)%nat; rewrite TE by exact J; reflexivity.
           ++ rewrite (NEQ _ D). pose proof (REST _ _ D N) as N0. destruct (TB _ _ N0) as (UO & cu & UA & UE).
              split; [exact UO|]. exists cu. split; [exact UA|]. intros j J. rewrite nth_error_update.
              destruct (Nat.eqb_spec i j) as [<-|]; [|apply UE; exact J].
              exfalso. apply D. eapply (DISJ u t); eassumption.
        -- intros j HH. rewrite nth_error_update. destruct (Nat.eqb_spec i j) as [<-|].
           ++ exfalso. apply (HH _ _ MINE). exact IH.
           ++ apply FREE. intros u tu N. destruct (Nat.eq_dec u t) as [->|D].
              ** rewrite NT in N. inversion N; subst. exact (HH _ _ MINE).
              ** apply (HH u). apply TSER; assumption.
      * (* on its own *)
        assert (NI : forall u tu, nth_error ts u = Some tu -> ~ In i (th_held tu)).
        { intros u tu N J. pose proof (ex_plain _ X t _ i NT eq_refl) as B.
          pose proof (ex_held _ X u tu i N J) as B'. cbn in *. congruence. }
        assert (NC : nth_error cs i = Some s1) by (rewrite <- FREE by exact NI; exact NS).
        exists (upd cs i s1'), (upd ll i s1'). split; [exact NW'|]. split; [exact LN'|]. rewrite out_snoc.
        split; [eapply aby_snoc; eassumption|]. split.
        -- intros u tu N. rewrite open_snoc.
           assert (K : forall v tv, nth_error ts v = Some tv ->
             Forall (fun x => In (fst (fst x)) (th_held tv)) (open_batch evs v) /\
             exists cu, any_by_one sem (upd cs i s1') (open_batch evs v) cu /\
              forall j, In j (th_held tv) -> nth_error cu j = nth_error (upd ll i s1') j).
           { intros v tv NV. destruct (TB _ _ NV) as (UO & cu & UA & UE). split; [exact UO|].
             destruct (aby_frame (fun j => In j (th_held tv)) _ _ _ UA UO (upd cs i s1')) as (cu' & UA' & E1 & E2).
             { intros j J. rewrite nth_error_update. destruct (Nat.eqb_spec i j) as [<-|]; [|reflexivity].
               exfalso. exact (NI _ _ NV J). }
             exists cu'. split; [exact UA'|]. intros j J. rewrite E1 by exact J. rewrite nth_error_update.
             destruct (Nat.eqb_spec i j) as [<-|]; [exfalso; exact (NI _ _ NV J)|]. apply UE. exact J. }
           destruct (Nat.eq_dec u t) as [->|D].
           ++ rewrite MINE in N. inversion N; subst tu. exact (K t _ NT).
           ++ apply K. apply REST; assumption.
        -- intros j HH. rewrite !nth_error_update. destruct (Nat.eqb_spec i j) as [<-|].
           ++ rewrite NS, NC. reflexivity.
           ++ apply FREE. intros u tu N. destruct (Nat.eq_dec u t) as [->|D].
              ** rewrite NT in N. inversion N; subst. exact (HH _ _ MINE).
              ** apply (HH u). apply TSER; assumption.
  - intros u tu N. destruct (Nat.eq_dec u t) as [->|D].
    + rewrite MINE in N. inversion N; subst tu. unfold placed_thread in PT.
      inversion M; subst; cbn [opt_list Conc.th_pc Conc.th_held] in *; rewrite ?app_nil_r, ?open_snoc, ?Nat.eqb_refl in *;
        try reflexivity; try exact CT; try exact I.
      * intros _. exact CT.
      * destruct h; [exact I|]. apply CT. exists false. destruct PT as [[_ P]|(m & P0 & _)]; [exact P|destruct P0].
      * destruct h; [exact I|exact CT].
      * intros (strict & P). exfalso. destruct PT as [_ [(D & _)|(_ & _ & Q)]]; [discriminate D|]. eapply orderly_one; [exact P|apply Q].
      * intros _. exact CT.
    + pose proof (REST _ _ D N) as N0. pose proof (CL _ _ N0) as CU.
      replace (open_batch (evs ++ opt_list e) u) with (open_batch evs u); [exact CU|].
      pose proof (NEQ _ D) as EQ. clear - M EQ.
      inversion M; subst; cbn [opt_list]; rewrite ?app_nil_r, ?open_snoc, ?EQ; try reflexivity.
      destruct h; reflexivity.
Qed.

Lemma initial_serial : forall (g : G) (l : list S) (ps : list prog), Forall (orderly false (length l) None) ps ->
  serial (length l) l (initial g l ps) [].
Proof.
  intros g l ps F. constructor.
  - apply initial_orderly. exact F.
  - exists l, l. split; [apply initial_now|]. split; [reflexivity|]. split; [constructor|]. split; [|reflexivity].
    intros t th N. apply initial_threads in N. destruct N as (p & _ & ->). split; [constructor|].
    exists l. split; [constructor|reflexivity].
  - intros t th N. apply initial_threads in N. destruct N as (p & _ & ->). intros _. reflexivity.
Qed.

Theorem exec_serial : forall g l (ps : list prog) sched c' evs, Forall (orderly false (length l) None) ps ->
  exec sem (initial g l ps) sched = (c', evs) -> serial (length l) l c' evs.
Proof.
  intros g l ps sched c' evs F E.
  refine (exec_snoc _ _ _ _ E (serial (length l) l) _ [] (initial_serial g l ps F)).
  intros. eapply step_serial; eassumption.
Qed.

(** *** Threads execute their programs *)
Definition left_to_do (p : pc) : prog :=
  match p with
  | At p => p
  | Want h i f k | Locked h i f k => Do h i f k
  | Busy _ _ _ r k | Out _ _ r k => k r
  | Ending k => k
  end.

Lemma acts_app : forall t (a b : list event), acts t (a ++ b) = acts t a ++ acts t b.
Proof. intros. unfold acts. apply filter_app. Qed.

Record obeys (ps : list prog) (c : cst) (evs : list event) : Prop := {
  ob_len : length (st_threads c) = length ps;
  ob_does : forall t p th, nth_error ps t = Some p -> nth_error (st_threads c) t = Some th ->
    executes t p (acts t evs) (left_to_do (th_pc th));
  ob_none : forall t, nth_error ps t = None -> acts t evs = []
}.

Lemma step_obeys : forall ps sp t (c c' : cst) e evs, obeys ps c evs -> tstep sem sp t c = (c', e) ->
  obeys ps c' (evs ++ opt_list e).
Proof.
  intros ps sp t c c' e evs [LN EX NO] E.
  destruct (tstep_move _ _ _ _ _ E) as [[-> ->]|(th & th' & g' & l' & lk' & NT & M & ->)].
  { cbn [opt_list]. rewrite app_nil_r. constructor; auto. }
  constructor; cbn [Conc.st_threads].
  - rewrite update_length. exact LN.
  - intros u p tu NP NU. rewrite acts_app. destruct (Nat.eq_dec u t) as [->|D].
    + rewrite nth_error_update, Nat.eqb_refl, NT in NU. inversion NU; subst tu. pose proof (EX _ _ _ NP NT) as H.
      inversion M; subst; cbn [opt_list acts filter left_to_do Conc.th_pc] in *; rewrite ?Nat.eqb_refl, ?app_nil_r;
        try exact H; econstructor; exact H.
    + rewrite nth_error_update in NU. destruct (Nat.eqb_spec t u); [congruence|]. pose proof (EX _ _ _ NP NU) as H.
      replace (acts u (opt_list e)) with (@nil event); [rewrite app_nil_r; exact H|].
      assert (EQ : (t =? u)%nat = false) by (apply Nat.eqb_neq; congruence).
      inversion M; subst; cbn [opt_list acts filter]; rewrite ?EQ; reflexivity.
  - intros u NP. rewrite acts_app, (NO _ NP). cbn [app].
    assert (EQ : (t =? u)%nat = false).
    { apply Nat.eqb_neq. intros ->. apply nth_error_None in NP.
      assert (u < length (st_threads c))%nat by (apply nth_error_Some; congruence). lia. }
    inversion M; subst; cbn [opt_list acts filter]; rewrite ?EQ; reflexivity.
Qed.

Theorem exec_obeys : forall g l (ps : list prog) sched c' evs,
  exec sem (initial g l ps) sched = (c', evs) -> obeys ps c' evs.
Proof.
  intros g l ps sched c' evs E. refine (exec_snoc _ _ _ _ E (obeys ps) _ [] _).
  - intros. eapply step_obeys; eassumption.
  - constructor.
    + cbn. apply map_length.
    + intros t p th NP NT. apply initial_threads in NT. destruct NT as (p' & NP' & ->).
      rewrite NP in NP'. inversion NP'; subst. constructor.
    + reflexivity.
Qed.

(** Everything executed comes from the programs. *)
Fixpoint only (P : nat -> Op -> Prop) (p : prog) : Prop :=
  match p with
  | Stop => True
  | Do _ i f k => P i f /\ forall r, only P (k r)
  | Begin k | End k => only P k
  end.

Lemma executes_only : forall P t p l p', executes t p l p' -> only P p ->
  only P p' /\ forall u h i f r, In (ELin u h i f r) l -> P i f.
Proof.
  intros P t p l p' X O. induction X as [p|p l h i f k r X IH|p l k X IH|p l k X IH].
  - split; [exact O|intros u h i f r []].
  - destruct (IH O) as [[A B] C]. split; [apply B|]. intros u h' i' f' r' J. apply in_app_or in J.
    destruct J as [J|[J|[]]]; [eapply C; exact J|]. inversion J; subst. exact A.
  - destruct (IH O) as [A C]. split; [exact A|]. intros u h' i' f' r' J. apply in_app_or in J.
    destruct J as [J|[J|[]]]; [eapply C; exact J|discriminate J].
  - destruct (IH O) as [A C]. split; [exact A|]. intros u h' i' f' r' J. apply in_app_or in J.
    destruct J as [J|[J|[]]]; [eapply C; exact J|discriminate J].
Qed.

Lemma exec_only : forall P g l (ps : list prog) sched c' evs, Forall (only P) ps ->
  exec sem (initial g l ps) sched = (c', evs) -> forall u h i f r, In (ELin u h i f r) evs -> P i f.
Proof.
  intros P g l ps sched c' evs F E u h i f r J. destruct (exec_obeys _ _ _ _ _ _ E) as [LN EX NO].
  assert (JA : In (ELin u h i f r) (acts u evs)) by (unfold acts; apply filter_In; split; [exact J|apply Nat.eqb_refl]).
  destruct (nth_error ps u) as [p|] eqn:NP.
  - assert (NT : exists th, nth_error (st_threads c') u = Some th).
    { destruct (nth_error (st_threads c') u) eqn:NT; [eauto|]. apply nth_error_None in NT.
      assert (u < length ps)%nat by (apply nth_error_Some; congruence). lia. }
    destruct NT as (th & NT). rewrite Forall_forall in F.
    destruct (executes_only P _ _ _ _ (EX _ _ _ NP NT)) as [_ C]; [apply F; eapply nth_error_In; exact NP|].
    eapply C; exact JA.
  - rewrite (NO _ NP) in JA. destruct JA.
Qed.

(** The batches of one thread depend on that thread alone. *)
Lemma own_batches : forall t (evs : list event),
  filter (fun b => (fst b =? t)%nat) (batches evs) = batches (acts t evs) /\
  open_batch evs t = open_batch (acts t evs) t.
Proof.
  intros t evs. induction evs as [|e evs [IH1 IH2]] using rev_ind; [split; reflexivity|].
  rewrite acts_app. unfold batches, open_batch in *.
  assert (K : acts t [e] = [] \/ acts t [e] = [e]) by (unfold acts; cbn [filter]; destruct e; cbn; try destruct (_ =? _)%nat; auto).
  rewrite batch_order_snoc.
  destruct e as [u i f|u h i f r|u r|u|u]; cbn [acts filter] in *.
  - rewrite app_nil_r. cbn [collect]. destruct (collected evs). auto.
  - destruct (Nat.eqb_spec u t) as [->|D].
    + rewrite batch_order_snoc. destruct (collected evs) as [o b], (collected (acts t evs)) as [o' b']. cbn [fst snd] in *.
      unfold collect. destruct h; cbn [fst snd].
      * rewrite Nat.eqb_refl, IH2. auto.
      * rewrite filter_app, IH1. cbn [filter fst]. rewrite Nat.eqb_refl. auto.
    + rewrite app_nil_r. destruct (collected evs) as [o b], (collected (acts t evs)) as [o' b']. cbn [fst snd] in *.
      unfold collect. assert (EQ : (u =? t)%nat = false) by (apply Nat.eqb_neq; assumption).
      assert (EQ' : (t =? u)%nat = false) by (apply Nat.eqb_neq; congruence).
      destruct h; cbn [fst snd].
      * rewrite EQ'. auto.
      * rewrite filter_app, IH1. cbn [filter fst]. rewrite EQ, app_nil_r. auto.
  - rewrite app_nil_r. cbn [collect]. destruct (collected evs). auto.
  - destruct (Nat.eqb_spec u t) as [->|D].
    + rewrite batch_order_snoc. destruct (collected evs) as [o b], (collected (acts t evs)) as [o' b']. cbn [fst snd] in *.
      cbn [collect fst snd]. rewrite Nat.eqb_refl. auto.
    + rewrite app_nil_r. destruct (collected evs) as [o b], (collected (acts t evs)) as [o' b']. cbn [fst snd] in *.
      cbn [collect fst snd]. assert (EQ' : (t =? u)%nat = false) by (apply Nat.eqb_neq; congruence). rewrite EQ'. auto.
  - destruct (Nat.eqb_spec u t) as [->|D].
    + rewrite batch_order_snoc. destruct (collected evs) as [o b], (collected (acts t evs)) as [o' b']. cbn [fst snd] in *.
      cbn [collect fst snd]. rewrite Nat.eqb_refl, filter_app, IH1. cbn [filter fst]. rewrite Nat.eqb_refl, IH2. auto.
    + rewrite app_nil_r. destruct (collected evs) as [o b], (collected (acts t evs)) as [o' b']. cbn [fst snd] in *.
      cbn [collect fst snd]. assert (EQ' : (t =? u)%nat = false) by (apply Nat.eqb_neq; congruence).
      assert (EQ : (u =? t)%nat = false) by (apply Nat.eqb_neq; assumption).
      rewrite EQ', filter_app. cbn [filter fst]. rewrite EQ, app_nil_r. auto.
Qed.
End Conc.
