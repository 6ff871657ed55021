From Verif Require Import Base Glob.
Local Open Scope N_scope.

Lemma lang_star_inv : forall p s, lang (42 :: p) s -> exists a b, s = a ++ b /\ lang p b.
Proof.
  intros p s L. remember (42 :: p) as q eqn:Q. revert p Q. induction L; intros p0 Q; inversion Q; subst.
  - congruence.
  - exists [], s. auto.
  - destruct (IHL _ eq_refl) as (a & b & -> & H). exists (x :: a), b. auto.
Qed.
Lemma lang_star : forall p a b, lang p b -> lang (42 :: p) (a ++ b).
Proof. intros p a b L. induction a as [|x a IH]; cbn; [constructor; exact L|constructor; exact IH]. Qed.
Lemma lang_star_star : forall p s, lang (42 :: 42 :: p) s <-> lang (42 :: p) s.
Proof.
  intros p s. split; intros L.
  - apply lang_star_inv in L. destruct L as (a & b & -> & L). apply lang_star_inv in L. destruct L as (a' & b' & -> & L).
    rewrite app_assoc. apply lang_star. exact L.
  - apply l_skip. exact L.
Qed.
Lemma lang_all : forall s, lang [42] s.
Proof. intros s. rewrite <- (app_nil_r s). apply lang_star. constructor. Qed.

Lemma gmatch_spec : forall n p, (length p <= n)%nat -> forall d s,
  no_escaped_any p = true -> (d + star_groups p <= 127)%nat ->
  gmatch p d s = true <-> lang p s.
Proof.
  induction n as [|n IH]; intros p LE d s NE SG.
  - destruct p; [|cbn in LE; lia]. cbn. destruct s; split; intros H; try discriminate; try constructor; inversion H.
  - destruct p as [|b p]; [cbn; destruct s; split; intros H; try discriminate; try constructor; inversion H|].
    cbn [length] in LE. cbn [gmatch]. cbn [no_escaped_any] in NE. cbn [star_groups] in SG.
    destruct (N.eqb_spec b 92) as [->|N92].
    + destruct p as [|c p]; [split; intros H; [discriminate|inversion H; congruence]|].
      apply andb_true_iff in NE. destruct NE as [NE1 NE]. apply negb_true_iff in NE1. rewrite NE1. cbn [negb andb].
      cbn [length] in LE.
      destruct s as [|x s]; [split; intros H; [discriminate|inversion H]|].
      destruct (N.eqb_spec x c) as [->|NX]; cbn [negb].
      * rewrite (IH p ltac:(lia) d s NE SG). split; intros H; [constructor; exact H|inversion H; subst; congruence].
      * split; intros H; [discriminate|inversion H; subst; congruence].
    + destruct (N.eqb_spec b 42) as [->|N42].
      * destruct p as [|c p]; [split; intros H; [apply lang_all|reflexivity]|].
        destruct (N.eqb_spec c 42) as [->|NC].
        -- rewrite (IH (42 :: p) ltac:(lia) d s NE SG). symmetry. apply lang_star_star.
        -- assert (SG' : (d + S (star_groups (c :: p)) <= 127)%nat).
           { destruct c as [|q]; [exact SG|]. do 6 (try destruct q as [q|q|]; try exact SG). congruence. }
           destruct (Nat.eqb_spec d 127) as [->|ND]; [lia|].
           assert (IHs : forall s, gmatch (c :: p) (S d) s = true <-> lang (c :: p) s) by (intros s0; apply IH; [lia|exact NE|lia]).
           set (f := gmatch (c :: p) (S d)) in *. clearbody f.
           transitivity (exists a b, s = a ++ b /\ f b = true).
           ++ induction s as [|x s IHl].
              ** destruct (f []) eqn:F; split; intros H; try discriminate; auto.
                 { exists [], []. auto. }
                 { destruct H as (a & b & E & H). symmetry in E. apply app_eq_nil in E. destruct E; subst. congruence. }
              ** destruct (f (x :: s)) eqn:F.
                 { split; intros _; [exists [], (x :: s); auto|reflexivity]. }
                 { rewrite IHl. split; intros (a & b & E & H).
                   - exists (x :: a), b. subst. auto.
                   - destruct a as [|y a]; cbn in E; [subst; congruence|]. inversion E; subst. eauto. }
           ++ split.
              ** intros (a & b & -> & H). apply lang_star. apply IHs. exact H.
              ** intros H. apply lang_star_inv in H. destruct H as (a & b & -> & H). exists a, b. rewrite IHs. auto.
      * destruct s as [|x s]; [split; intros H; [discriminate|inversion H; congruence]|].
        destruct (N.eqb_spec b 63) as [->|N63]; cbn [negb andb].
        -- rewrite (IH p ltac:(lia) d s NE SG). split; intros H; [constructor; exact H|inversion H; subst; congruence].
        -- destruct (N.eqb_spec x b) as [->|NX]; cbn [negb].
           ++ rewrite (IH p ltac:(lia) d s NE SG). split; intros H; [constructor; assumption|inversion H; subst; congruence].
           ++ split; intros H; [discriminate|inversion H; subst; congruence].
Qed.
