(** Interleaved commands can be put in order: proofs for C83. *)
From Verif Require Import Base Types Clamp Entry Hash Map Shard Cache Text CmdTable CmdSpec Prog Cmds CmdsProofs Weave WeaveSpec.
From Coq Require Import String Lia Permutation.
Notation length := List.length.
Notation map := List.map.

Fixpoint no_call (p : prog) : Prop :=
  match p with
  | Done | Fail _ | Unmodelled => True
  | Put _ k | CloseConn k | SetAuth k | Fork _ _ k => no_call k
  | Ask k => forall i, no_call (k i)
  | Do _ _ => False
  end.
Fixpoint one_call (p : prog) : Prop :=
  match p with
  | Done | Fail _ | Unmodelled => True
  | Put _ k | CloseConn k | SetAuth k | Fork _ _ k => one_call k
  | Ask k => forall i, one_call (k i)
  | Do _ k => forall r, no_call (k r)
  end.
Section P.
Variables (c : ctx) (cf : config) (cs : list cmd).
Definition ends (orc : nat -> input) (n : nat) (ch : cache) (p : prog) (ch' : cache) (es : list eff) : Prop := exists evs, prun c orc n ch p = Ok (ch', es, evs).
Notation P x := (evcommand cf (cm_auth x) (cm_proto x) (cm_args x)).
Definition past (x : cmd) (w : worker) (a b : cache) : Prop :=
  wk_batch w = false /\ no_call (wk_prog w) /\ wk_orc w = cm_orc x /\ forall ch ch' es, ends (wk_orc w) (wk_n w) ch (wk_prog w) ch' es -> ends (cm_orc x) 0 a (P x) b (wk_did w ++ es).
Definition pending (x : cmd) (w : worker) : Prop :=
  (wk_batch w = true \/ one_call (wk_prog w)) /\ wk_orc w = cm_orc x /\ forall ch ch' es, ends (wk_orc w) (wk_n w) ch (wk_prog w) ch' es -> ends (cm_orc x) 0 ch (P x) ch' (wk_did w ++ es).
Lemma ends_also : forall orc n ch p q e ch' es, (forall evs ch1 es1, prun c orc n ch p = Ok (ch1, es1, evs) -> prun c orc n ch q = Ok (ch1, e :: es1, evs)) ->
  ends orc n ch p ch' es -> ends orc n ch q ch' (e :: es).
Proof. intros orc n ch p q e ch' es H [evs E]. exists evs. apply H. exact E. Qed.
Ltac also := let Q := fresh in intros ? ? ? Q; cbn [prun]; rewrite Q; reflexivity.
Lemma past_step : forall x w a b ch ch1 w1, past x w a b -> wstep c ch w = Ok (ch1, w1) -> ch1 = ch /\ past x w1 a b.
Proof.
  intros x w a b ch ch1 w1 (Hb & Nc & Ho & H) E. unfold wstep in E. rewrite Hb in E.
  destruct (wk_prog w) as [|y k|k|k|k|y k|d q k|t|] eqn:Ep; cbn [no_call] in Nc.
  - injection E as <- <-. split; [reflexivity|]. unfold past. rewrite Ep. auto.
  - injection E as <- <-. split; [reflexivity|]. unfold past. cbn. split; [reflexivity|]. split; [exact Nc|]. split; [exact Ho|]. intros ch0 ch' es X. rewrite <- app_assoc. apply (H ch0 ch'). revert X. apply ends_also. also.
  - injection E as <- <-. split; [reflexivity|]. unfold past. cbn. split; [reflexivity|]. split; [exact Nc|]. split; [exact Ho|]. intros ch0 ch' es X. rewrite <- app_assoc. apply (H ch0 ch'). revert X. apply ends_also. also.
  - injection E as <- <-. split; [reflexivity|]. unfold past. cbn. split; [reflexivity|]. split; [exact Nc|]. split; [exact Ho|]. intros ch0 ch' es X. rewrite <- app_assoc. apply (H ch0 ch'). revert X. apply ends_also. also.
  - injection E as <- <-. split; [reflexivity|]. unfold past. cbn. split; [reflexivity|]. split; [apply Nc|]. split; [exact Ho|]. intros ch0 ch' es [evs X]. apply (H ch0 ch'). exists evs. exact X.
  - destruct Nc.
  - injection E as <- <-. split; [reflexivity|]. unfold past. cbn. split; [reflexivity|]. split; [exact Nc|]. split; [exact Ho|]. intros ch0 ch' es X. rewrite <- app_assoc. apply (H ch0 ch'). revert X. apply ends_also. also.
  - discriminate E.
  - injection E as <- <-. split; [reflexivity|]. unfold past. cbn. split; [reflexivity|]. split; [exact Logic.I|]. split; [exact Ho|]. intros ch0 ch' es [evs X]. injection X as <- <- _. rewrite <- app_assoc. apply (H ch0 ch0). exists []. reflexivity.
Qed.
Lemma done_dec : forall p, p = Done \/ p <> Done.
Proof. intros []; [left; reflexivity|right; discriminate..]. Qed.
Lemma pending_done : forall x w ch, pending x w -> wk_batch w = false -> wk_prog w = Done -> past x w ch ch.
Proof.
  intros x w ch (_ & Ho & H) Hb E. split; [exact Hb|]. split; [rewrite E; exact Logic.I|]. split; [exact Ho|]. intros ch0 ch' es [evs X]. rewrite E in *. injection X as <- <- _.
  apply (H ch ch). exists []. reflexivity.
Qed.
Lemma pending_step : forall x w ch ch1 w1, pending x w -> wstep c ch w = Ok (ch1, w1) ->
  (ch1 = ch /\ pending x w1 /\ wk_prog w1 <> Done) \/ past x w1 ch ch1.
Proof.
  intros x w ch ch1 w1 (Hb & Ho & H) E. unfold wstep in E. destruct (wk_batch w) eqn:Bw.
  { destruct (prun c (wk_orc w) (wk_n w) ch (wk_prog w)) as [[[ch2 es] evs]|t] eqn:Ep; [|discriminate E]. injection E as <- <-. right.
    split; [reflexivity|]. split; [exact Logic.I|]. split; [exact Ho|]. cbn. intros ch0 ch' es0 [ev X]. injection X as _ <- _. rewrite app_nil_r. apply H. exists evs. exact Ep. }
  destruct Hb as [Hb|Oc]; [discriminate Hb|].
  assert (Go : ch1 = ch -> pending x w1 -> wk_batch w1 = false -> (ch1 = ch /\ pending x w1 /\ wk_prog w1 <> Done) \/ past x w1 ch ch1).
  { intros E1 Pe Hb1. destruct (done_dec (wk_prog w1)) as [D|D]; [right; rewrite E1; apply pending_done; assumption|left; auto]. }
  destruct (wk_prog w) as [|y k|k|k|k|y k|d q k|t|] eqn:Ep; cbn [one_call] in Oc.
  - injection E as <- <-. apply Go; [reflexivity| |exact Bw]. split; [right; rewrite Ep; exact Logic.I|]. split; [exact Ho|]. rewrite Ep. exact H.
  - injection E as <- <-. apply Go; [reflexivity| |reflexivity]. split; [right; exact Oc|]. split; [exact Ho|]. cbn. intros ch0 ch' es X. rewrite <- app_assoc. apply H. revert X. apply ends_also. also.
  - injection E as <- <-. apply Go; [reflexivity| |reflexivity]. split; [right; exact Oc|]. split; [exact Ho|]. cbn. intros ch0 ch' es X. rewrite <- app_assoc. apply H. revert X. apply ends_also. also.
  - injection E as <- <-. apply Go; [reflexivity| |reflexivity]. split; [right; exact Oc|]. split; [exact Ho|]. cbn. intros ch0 ch' es X. rewrite <- app_assoc. apply H. revert X. apply ends_also. also.
  - injection E as <- <-. apply Go; [reflexivity| |reflexivity]. split; [right; apply Oc|]. split; [exact Ho|]. cbn. intros ch0 ch' es [evs X]. apply H. exists evs. exact X.
  - destruct (step c (in_env (wk_orc w (wk_n w))) ch y) as [[[ch2 r] ev]|t] eqn:Es; [|discriminate E]. injection E as <- <-. right.
    split; [reflexivity|]. split; [apply Oc|]. split; [exact Ho|]. cbn. intros ch0 ch' es [evs X].
    assert (Nb : forall p n0 a b es0 ev0, no_call p -> prun c (wk_orc w) n0 a p = Ok (b, es0, ev0) -> forall a2, prun c (wk_orc w) n0 a2 p = Ok (a2, es0, ev0)).
    { clear. induction p as [|y k IH|k IH|k IH|k IH|y k IH|d q _ k IH|t|]; intros n0 a b es0 ev0 N E a2; cbn [prun no_call] in *.
      - injection E as _ <- <-. reflexivity.
      - destruct (prun c (wk_orc w) n0 a k) as [[[u v] z]|] eqn:Q; [|discriminate E]. injection E as _ <- <-. rewrite (IH _ _ _ _ _ N Q). reflexivity.
      - destruct (prun c (wk_orc w) n0 a k) as [[[u v] z]|] eqn:Q; [|discriminate E]. injection E as _ <- <-. rewrite (IH _ _ _ _ _ N Q). reflexivity.
      - destruct (prun c (wk_orc w) n0 a k) as [[[u v] z]|] eqn:Q; [|discriminate E]. injection E as _ <- <-. rewrite (IH _ _ _ _ _ N Q). reflexivity.
      - exact (IH _ _ _ _ _ _ (N _) E a2).
      - destruct N.
      - destruct (prun c (wk_orc w) n0 a k) as [[[u v] z]|] eqn:Q; [|discriminate E]. injection E as _ <- <-. rewrite (IH _ _ _ _ _ N Q). reflexivity.
      - discriminate E.
      - injection E as _ <- <-. reflexivity. }
    apply H. exists (ev ++ evs). cbn [prun]. rewrite Es, (Nb _ _ _ _ _ _ (Oc r) X ch2). reflexivity.
  - injection E as <- <-. apply Go; [reflexivity| |reflexivity]. split; [right; exact Oc|]. split; [exact Ho|]. cbn. intros ch0 ch' es X. rewrite <- app_assoc. apply H. revert X. apply ends_also. also.
  - discriminate E.
  - injection E as <- <-. apply Go; [reflexivity| |reflexivity]. split; [right; exact Logic.I|]. split; [exact Ho|]. cbn. intros ch0 ch' es [evs X]. injection X as <- <- _. rewrite <- app_assoc. apply H. exists []. reflexivity.
Qed.

(** *** The whole run *)
Section Q.
Variable Q : nat -> cache -> cache -> Prop.
Inductive chain : cache -> list nat -> cache -> Prop :=
| ch_nil : forall a, chain a [] a
| ch_cons : forall a t b l d, Q t a b -> chain b l d -> chain a (t :: l) d.
Lemma chain_snoc : forall a l b t d, chain a l b -> Q t b d -> chain a (l ++ [t]) d.
Proof. intros a l b t d C H. induction C; cbn; econstructor; try eassumption; [constructor|apply IHC; exact H]. Qed.
Lemma chain_in : forall a l b t, chain a l b -> In t l -> exists u v, Q t u v.
Proof. intros a l b t C. induction C as [|a t0 b l d H C IH]; intro I; [destruct I|]. destruct I as [-> |I]; [eauto|apply IH; exact I]. Qed.
End Q.
Lemma chain_impl : forall (Q Q' : nat -> cache -> cache -> Prop) a l b, chain Q a l b -> (forall t u v, In t l -> Q t u v -> Q' t u v) -> chain Q' a l b.
Proof.
  intros Q Q' a l b C. induction C as [|a t b l d H C IH]; intro X; [constructor|]. econstructor; [apply X; [left; reflexivity|exact H]|]. apply IH. intros u v z I. apply X. right. exact I.
Qed.
Lemma put_at_same : forall ws t w w1, nth_error ws t = Some w -> nth_error (put_at ws t w1) t = Some w1.
Proof. induction ws as [|y ws IH]; intros [|t] w w1 E; cbn in *; try discriminate E; [reflexivity|eapply IH; exact E]. Qed.
Lemma put_at_other : forall ws t u w1, u <> t -> nth_error (put_at ws t w1) u = nth_error ws u.
Proof. induction ws as [|y ws IH]; intros [|t] [|u] w1 N; cbn; try reflexivity; [destruct N; reflexivity|]. apply IH. congruence. Qed.
Definition ran_over (ws : list worker) (t : nat) (a b : cache) : Prop := exists x w, nth_error cs t = Some x /\ nth_error ws t = Some w /\ past x w a b.
Variable ch0 : cache.
Definition inv (ws : list worker) (ch : cache) (ord : list nat) : Prop :=
  NoDup ord /\ chain (ran_over ws) ch0 ord ch /\ (forall t, nth_error cs t = None -> nth_error ws t = None) /\
  (forall t x, nth_error cs t = Some x -> In t ord \/ exists w, nth_error ws t = Some w /\ pending x w).
Lemma nodup_snoc : forall (l : list nat) t, NoDup l -> ~ In t l -> NoDup (l ++ [t]).
Proof. intros l t N I. apply (Permutation_NoDup (l := t :: l)); [apply Permutation_cons_append|constructor; assumption]. Qed.
Lemma inv_step : forall ws ch ord t w ch1 w1, inv ws ch ord -> nth_error ws t = Some w -> wstep c ch w = Ok (ch1, w1) ->
  exists more, incl more [t] /\ inv (put_at ws t w1) ch1 (ord ++ more) /\ (wk_prog w1 = Done -> In t (ord ++ more)).
Proof.
  intros ws ch ord t w ch1 w1 (Nd & C & Nn & Al) Ew E.
  assert (Nn' : forall u, nth_error cs u = None -> nth_error (put_at ws t w1) u = None).
  { intros u Eu. destruct (Nat.eq_dec u t) as [-> |Ne]; [rewrite (Nn t Eu) in Ew; discriminate Ew|rewrite put_at_other by exact Ne; exact (Nn u Eu)]. }
  destruct (in_dec Nat.eq_dec t ord) as [It|Nt].
  - exists []. rewrite app_nil_r. split; [intros u []|]. split; [|intros _; exact It].
    destruct (chain_in _ _ _ _ _ C It) as (a & b & x & w' & Ex & Ew' & Pa). rewrite Ew in Ew'. injection Ew' as <-.
    destruct (past_step _ _ _ _ _ _ _ Pa E) as [-> _]. split; [exact Nd|]. split; [|split; [exact Nn'|]].
    + apply (chain_impl _ _ _ _ _ C). intros u a' b' Iu (y & v & Ey & Ev & Py). destruct (Nat.eq_dec u t) as [-> |Ne].
      * rewrite Ew in Ev. injection Ev as <-. exists y, w1. split; [exact Ey|]. split; [exact (put_at_same _ _ _ _ Ew)|]. exact (proj2 (past_step _ _ _ _ _ _ _ Py E)).
      * exists y, v. split; [exact Ey|]. split; [rewrite put_at_other by exact Ne; exact Ev|exact Py].
    + intros u y Ey. destruct (Al u y Ey) as [I|(v & Ev & Pv)]; [left; exact I|]. destruct (Nat.eq_dec u t) as [-> |Ne]; [left; exact It|].
      right. exists v. split; [rewrite put_at_other by exact Ne; exact Ev|exact Pv].
  - assert (Keep : chain (ran_over (put_at ws t w1)) ch0 ord ch).
    { apply (chain_impl _ _ _ _ _ C). intros u a' b' Iu (y & v & Ey & Ev & Py). exists y, v. split; [exact Ey|]. split; [|exact Py].
      rewrite put_at_other; [exact Ev|]. intros ->. exact (Nt Iu). }
    destruct (nth_error cs t) as [x|] eqn:Ex; [|rewrite (Nn t Ex) in Ew; discriminate Ew].
    destruct (Al t x Ex) as [I|(w' & Ew' & Pe)]; [destruct (Nt I)|]. rewrite Ew in Ew'. injection Ew' as <-.
    destruct (pending_step _ _ _ _ _ Pe E) as [(-> & Pe1 & Nd1)|Pa].
    + exists []. rewrite app_nil_r. split; [intros u []|]. split; [|intro D; destruct (Nd1 D)]. split; [exact Nd|]. split; [exact Keep|]. split; [exact Nn'|].
      intros u y Ey. destruct (Nat.eq_dec u t) as [-> |Ne].
      * right. exists w1. split; [exact (put_at_same _ _ _ _ Ew)|]. rewrite Ex in Ey. injection Ey as <-. exact Pe1.
      * destruct (Al u y Ey) as [I|(v & Ev & Pv)]; [left; exact I|right]. exists v. split; [rewrite put_at_other by exact Ne; exact Ev|exact Pv].
    + exists [t]. split; [apply incl_refl|]. split; [|intros _; apply in_or_app; right; left; reflexivity]. split; [apply nodup_snoc; assumption|]. split; [|split; [exact Nn'|]].
      * eapply chain_snoc; [exact Keep|]. exists x, w1. split; [exact Ex|]. split; [exact (put_at_same _ _ _ _ Ew)|exact Pa].
      * intros u y Ey. destruct (Nat.eq_dec u t) as [-> |Ne]; [left; apply in_or_app; right; left; reflexivity|].
        destruct (Al u y Ey) as [I|(v & Ev & Pv)]; [left; apply in_or_app; left; exact I|right]. exists v. split; [rewrite put_at_other by exact Ne; exact Ev|exact Pv].
Qed.
Lemma weave_other : forall sched ch ws ch' ws' j, weave c sched ch ws = Ok (ch', ws') -> ~ In j sched -> nth_error ws' j = nth_error ws j.
Proof.
  induction sched as [|t r IH]; intros ch ws ch' ws' j E N; cbn [weave] in E; [injection E as <- <-; reflexivity|].
  destruct (nth_error ws t) as [w|] eqn:Ew; [|apply (IH _ _ _ _ _ E); intro I; apply N; right; exact I].
  destruct (wstep c ch w) as [[ch1 w1]|] eqn:Es; [|discriminate E]. rewrite (IH _ _ _ _ j E) by (intro I; apply N; right; exact I).
  apply put_at_other. intros ->. apply N. left. reflexivity.
Qed.
Lemma inv_run : forall sched ch ws ord ch' ws', inv ws ch ord -> weave c sched ch ws = Ok (ch', ws') ->
  exists more, inv ws' ch' (ord ++ more) /\
    forall A B, sched = A ++ B -> exists m1 m2, more = m1 ++ m2 /\ incl m1 A /\
      forall j w, In j A -> ~ In j B -> nth_error ws' j = Some w -> wk_prog w = Done -> In j (ord ++ m1).
Proof.
  induction sched as [|t r IH]; intros ch ws ord ch' ws' I E; cbn [weave] in E.
  - injection E as <- <-. exists []. rewrite app_nil_r. split; [exact I|]. intros A B Es. symmetry in Es. apply app_eq_nil in Es. destruct Es as [-> ->]. exists [], []. split; [reflexivity|]. split; [intros u []|]. intros j w [].
  - assert (X : exists opt ch1 ws1, incl opt [t] /\ inv ws1 ch1 (ord ++ opt) /\ weave c r ch1 ws1 = Ok (ch', ws') /\ forall w, nth_error ws1 t = Some w -> wk_prog w = Done -> In t (ord ++ opt)).
    { destruct (nth_error ws t) as [w|] eqn:Ew.
      - destruct (wstep c ch w) as [[ch1 w1]|] eqn:Es; [|discriminate E]. destruct (inv_step _ _ _ _ _ _ _ I Ew Es) as (opt & Io & I1 & D). exists opt, ch1, (put_at ws t w1).
        split; [exact Io|]. split; [exact I1|]. split; [exact E|]. intros w2 E2. rewrite (put_at_same _ _ _ _ Ew) in E2. injection E2 as <-. exact D.
      - exists [], ch, ws. rewrite app_nil_r. split; [intros u []|]. split; [exact I|]. split; [exact E|]. intros w E2. rewrite Ew in E2. discriminate E2. }
    destruct X as (opt & ch1 & ws1 & Io & I1 & E1 & D). destruct (IH _ _ _ _ _ I1 E1) as (more & I2 & Sp). exists (opt ++ more). rewrite app_assoc. split; [exact I2|].
    intros A B Es. destruct A as [|t' A'].
    + exists [], (opt ++ more). split; [reflexivity|]. split; [intros u []|]. intros j w [].
    + injection Es as <- Er. destruct (Sp A' B Er) as (m1 & m2 & Em & Im & Dj). exists (opt ++ m1), m2. split; [rewrite Em, app_assoc; reflexivity|].
      split; [intros u Iu; apply in_app_or in Iu; destruct Iu as [Iu|Iu]; [destruct (Io u Iu) as [<-|[]]; left; reflexivity|right; apply Im; exact Iu]|].
      intros j w Ij Nj Ew Dw. rewrite app_assoc. destruct (in_dec Nat.eq_dec j A') as [Ia|Na]; [exact (Dj j w Ia Nj Ew Dw)|].
      destruct Ij as [<-|Ij]; [|destruct (Na Ij)]. apply in_or_app. left. apply (D w); [|exact Dw]. rewrite <- Ew. symmetry. apply (weave_other _ _ _ _ _ _ E1). rewrite Er. intro K. apply in_app_or in K. tauto.
Qed.
(** The serial run. *)
Lemma serial : forall ws a ord b, chain (ran_over ws) a ord b -> (forall w, In w ws -> wk_prog w = Done) ->
  exists l, map fst l = ord /\ one_after_other c cf cs a l b /\ forall t es, In (t, es) l -> exists w, nth_error ws t = Some w /\ wk_did w = es.
Proof.
  intros ws a ord b C Dn. induction C as [a|a t b l d (x & w & Ex & Ew & Pa) C (l' & E1 & E2 & E3)].
  - exists []. split; [reflexivity|]. split; [constructor|]. intros t es [].
  - destruct Pa as (_ & _ & Ho & H). rewrite (Dn w (nth_error_In _ _ Ew)) in H. destruct (H a a [] ltac:(exists []; reflexivity)) as [evs Ep]. rewrite app_nil_r in Ep.
    exists ((t, wk_did w) :: l'). split; [cbn; rewrite E1; reflexivity|]. split; [econstructor; eassumption|].
    intros u es [Q|Q]; [injection Q as <- <-; exists w; auto|exact (E3 u es Q)].
Qed.
(** What took no step is put at the end. *)
Lemma leftovers : forall ws L ch ord, inv ws ch ord -> (forall w, In w ws -> wk_prog w = Done /\ wk_batch w = false) -> exists more, inv ws ch (ord ++ more) /\ forall t x, In t L -> nth_error cs t = Some x -> In t (ord ++ more).
Proof.
  intros ws L. induction L as [|t L IH]; intros ch ord I Dn; [exists []; rewrite app_nil_r; split; [exact I|intros t x []]|].
  destruct (in_dec Nat.eq_dec t ord) as [It|Nt].
  { destruct (IH ch ord I Dn) as (more & I' & H). exists more. split; [exact I'|]. intros u x [<-|Iu] Ex; [apply in_or_app; left; exact It|exact (H u x Iu Ex)]. }
  destruct (nth_error cs t) as [x|] eqn:Ex.
  - pose proof I as (Nd & C & Nn & Al). destruct (Al t x Ex) as [K|(w & Ew & Pe)]; [destruct (Nt K)|]. destruct (Dn w (nth_error_In _ _ Ew)) as [Dw Bw].
    assert (I1 : inv ws ch (ord ++ [t])).
    { split; [apply nodup_snoc; assumption|]. split; [eapply chain_snoc; [exact C|]; exists x, w; split; [exact Ex|]; split; [exact Ew|apply pending_done; assumption]|]. split; [exact Nn|].
      intros u y Ey. destruct (Al u y Ey) as [K|K]; [left; apply in_or_app; left; exact K|right; exact K]. }
    destruct (IH ch _ I1 Dn) as (more & I' & H). exists (t :: more). rewrite <- app_assoc in I', H. split; [exact I'|]. intros u y [<-|Iu] Ey; [apply in_or_app; right; left; reflexivity|exact (H u y Iu Ey)].
  - destruct (IH ch ord I Dn) as (more & I' & H). exists more. split; [exact I'|]. intros u x [<-|Iu] Eu; [congruence|exact (H u x Iu Eu)].
Qed.
End P.
