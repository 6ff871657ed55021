(** Proofs for C56: a round leaves connections without an event alone. *)
From Verif Require Import Base Net NetSpec NetProofs.
From Coq Require Import Lia.

Section Frame.
Variables A G J : Type.
Variable opened : A.
Variable data : bytes -> A -> G -> hres A G J.
Variable work : J -> G -> J * G.
Variable done : J -> A -> A * bytes * bool.
Notation nconn := (nconn A G J).
Notation thread := (thread A G J).
(** The connection, and the descriptors that have events. *)
Variable k : nconn.
Variable evs : list nat.
Hypothesis out : ~ In (c_fd k) evs.
Definition qin (q : queues) : Prop :=
  incl (q_attach q) evs /\ incl (q_reads q) evs /\ incl (map fst (q_ins q)) evs /\ incl (q_outs q) evs /\ incl (q_closes q) evs.
Definition kept (x : nres (thread * queues)) : Prop := forall t q, x = NOk (t, q) -> In k (t_conns t) /\ qin q.

Lemma put_keeps : forall (d : nconn) (t : thread), In k (t_conns t) -> In (c_fd d) evs -> In k (t_conns (put_conn d t)).
Proof.
  intros d t H D. assert (P := in_put A G J d t k H). destruct (Nat.eqb_spec (c_fd k) (c_fd d)) as [E|E]; [|exact P].
  exfalso. apply out. rewrite E. exact D.
Qed.
Lemma use_fd : forall fd (t : thread) d, use_conn fd t = NOk d -> c_fd d = fd.
Proof. intros fd t d H. unfold use_conn in H. destruct (get_conn fd t) eqn:E; [|discriminate]. inversion H; subst. exact (proj2 (get_in A G J _ _ _ E)). Qed.
Lemma flush_fd : forall ws (d d' : nconn), flush ws d = NOk d' -> c_fd d' = c_fd d.
Proof. intros ws d d' H. unfold flush in H. destruct (flush_loop (c_out d) ws) as [[s b]|]; inversion H; reflexivity. Qed.
Lemma flush_uring_fd : forall o s ws (d d' : nconn), flush_uring o s ws d = NOk d' -> c_fd d' = c_fd d.
Proof.
  intros o s ws d d' H. unfold flush_uring in H. destruct s as [n| |];
    repeat match type of H with context [match flush_loop ?a ?b with _ => _ end] => destruct (flush_loop a b) as [[? ?]|] end; inversion H; reflexivity.
Qed.
Lemma watch_fd : forall b (d d' : nconn), watch b d = NOk d' -> c_fd d' = c_fd d.
Proof. intros b d d' H. unfold watch in H. destruct (c_watch d); inversion H; reflexivity. Qed.
Lemma unwatch_fd : forall (d d' : nconn), unwatch d = NOk d' -> c_fd d' = c_fd d.
Proof. intros d d' H. unfold unwatch in H. destruct (c_watch d); inversion H; reflexivity. Qed.
Lemma incl_snoc : forall (l : list nat) x, incl l evs -> In x evs -> incl (l ++ [x]) evs.
Proof. intros l x H I y Y. apply in_app_iff in Y. destruct Y as [Y|[Y|[]]]; [exact (H y Y)|subst; exact I]. Qed.
Ltac bnd H e := match type of H with nbind ?x _ = _ => destruct x as [?|?] eqn:e; cbn [nbind] in H; [|discriminate H] end.
Ltac queue := match goal with
  | Q : qin ?q |- qin _ => destruct Q as (? & ? & ? & ? & ?); unfold qin; cbn; rewrite ?map_app; cbn; repeat split; try assumption; try (apply incl_snoc; assumption)
  end.

Lemma accept_keeps : forall es (t : thread) q, In k (t_conns t) -> qin q -> incl (map e_fd es) evs -> kept (NOk (qaccept opened es t q)).
Proof.
  induction es as [|e es IH]; intros t q H Q U t' q' E.
  - inversion E; subst. auto.
  - cbn [qaccept] in E. assert (Ie : In (e_fd e) evs) by (apply U; left; reflexivity). assert (U' : incl (map e_fd es) evs) by (intros x X; apply U; right; exact X).
    unfold qaccept_one in E. destruct (get_conn (e_fd e) t) as [d|] eqn:Eg.
    + assert (Ed := proj2 (get_in A G J _ _ _ Eg)). rewrite Ed in E.
      destruct (c_bg d); [|destruct (0 <? length (c_out d))%nat; [|destruct (c_closed d)]]; refine (IH _ _ H _ U' _ _ E); queue.
    + destruct (e_new e).
      * cbn in E. refine (IH _ _ _ _ U' _ _ E); [right; exact H|]. queue.
      * exact (IH _ _ H Q U' _ _ E).
Qed.
Lemma attach_keeps : forall w fds (t : thread) q, In k (t_conns t) -> qin q -> incl fds evs -> kept (qattach done w fds t q).
Proof.
  intro w. induction fds as [|fd fds IH]; intros t q H Q U t' q' E.
  - inversion E; subst. auto.
  - cbn [qattach] in E. assert (Ie : In fd evs) by (apply U; left; reflexivity). assert (U' : incl fds evs) by (intros x X; apply U; right; exact X).
    bnd E E1. destruct a as [t1 q1]. assert (K : In k (t_conns t1) /\ qin q1).
    { unfold qattach_one in E1. bnd E1 F1. apply use_fd in F1. destruct (c_bg a) as [j|]; [|discriminate]. destruct (done j (c_data a)) as [[x o] b].
      bnd E1 F2. apply unwatch_fd in F2. bnd E1 F3. apply watch_fd in F3. bnd E1 F4. apply flush_fd in F4. injection E1 as <- <-.
      assert (Ef : c_fd a2 = fd) by (rewrite F4, F3, F2; exact F1). split; [apply put_keeps; [exact H|congruence]|]. destruct (c_closed a2); queue. }
    destruct K as [K1 K2]. exact (IH _ _ K1 K2 U' _ _ E).
Qed.
Lemma read_keeps : forall rs (t : thread) q, In k (t_conns t) -> qin q -> incl (map fst rs) evs -> kept (qread rs t q).
Proof.
  induction rs as [|[fd [own r]] rs IH]; intros t q H Q U t' q' E.
  - inversion E; subst. auto.
  - cbn [qread] in E. assert (Ie : In fd evs) by (apply U; left; reflexivity). assert (U' : incl (map fst rs) evs) by (intros x X; apply U; right; exact X).
    bnd E E1. destruct a as [t1 q1]. assert (K : In k (t_conns t1) /\ qin q1).
    { unfold handle_read in E1. bnd E1 F1. apply use_fd in F1. destruct (negb (length (c_out a) =? 0)%nat); [discriminate|]. destruct (c_bg a); [discriminate|].
      assert (P : forall d : nconn, c_fd d = fd -> In k (t_conns (put_conn d t))) by (intros d D; apply put_keeps; [exact H|congruence]).
      destruct r as [s| | |]; injection E1 as <- <-; (split; [apply P; destruct own; exact F1|queue]). }
    destruct K as [K1 K2]. exact (IH _ _ K1 K2 U' _ _ E).
Qed.
Lemma feed_fd : forall w fd s (d : nconn) g d' g', feed data w fd s d g = NOk (d', g') -> c_fd d' = c_fd d.
Proof.
  intros w fd s d g d' g' H. unfold feed in H. destruct (data s (c_data d) g) as [a g1 o b|a g1 o j [[a2 g2] o2]]; [inversion H; reflexivity|].
  bnd H E. destruct a0 as [d1 taken]. assert (F : c_fd d1 = c_fd d).
  { unfold bgwork in E. destruct (_ || _); [inversion E; reflexivity|]. bnd E F. apply flush_fd in F. cbn in F. destruct (c_closed a0); [inversion E; subst; exact F|].
    bnd E F2. apply unwatch_fd in F2. inversion E; subst. cbn. congruence. }
  destruct taken; inversion H; subst; [exact F|cbn; exact F].
Qed.
Lemma process_keeps : forall w ps (t : thread) q, In k (t_conns t) -> qin q -> incl (map fst ps) evs -> kept (qprocess data w ps t q).
Proof.
  intro w. induction ps as [|[fd s] ps IH]; intros t q H Q U t' q' E.
  - inversion E; subst. auto.
  - cbn [qprocess] in E. assert (Ie : In fd evs) by (apply U; left; reflexivity). assert (U' : incl (map fst ps) evs) by (intros x X; apply U; right; exact X).
    bnd E E1. destruct a as [t1 q1]. assert (K : In k (t_conns t1) /\ qin q1).
    { unfold qprocess_one in E1. bnd E1 F1. apply use_fd in F1. bnd E1 F2. destruct a0 as [d g]. apply feed_fd in F2. injection E1 as <- <-.
      split; [apply put_keeps; [exact H|congruence]|]. destruct (c_bg d); [exact Q|]. destruct (0 <? length (c_out d))%nat; [queue|]. destruct (c_closed d); [queue|exact Q]. }
    destruct K as [K1 K2]. exact (IH _ _ K1 K2 U' _ _ E).
Qed.
Lemma write_keeps : forall w rs (t : thread) q, In k (t_conns t) -> qin q -> incl (map fst rs) evs -> kept (qwrite w rs t q).
Proof.
  intro w. induction rs as [|[fd u] rs IH]; intros t q H Q U t' q' E.
  - inversion E; subst. auto.
  - cbn [qwrite] in E. assert (Ie : In fd evs) by (apply U; left; reflexivity). assert (U' : incl (map fst rs) evs) by (intros x X; apply U; right; exact X).
    bnd E E1. destruct a as [t1 q1]. assert (K : In k (t_conns t1) /\ qin q1).
    { unfold qwrite_one in E1. bnd E1 F1. apply use_fd in F1. bnd E1 F2. injection E1 as <- <-.
      assert (Ef : c_fd a0 = fd) by (destruct u as [[o s]|]; [apply flush_uring_fd in F2|apply flush_fd in F2]; congruence).
      split; [apply put_keeps; [exact H|congruence]|]. destruct (c_closed a0); [queue|exact Q]. }
    destruct K as [K1 K2]. exact (IH _ _ K1 K2 U' _ _ E).
Qed.
Lemma close_keeps : forall fds (t : thread), In k (t_conns t) -> incl fds evs -> forall t', qclose fds t = NOk t' -> In k (t_conns t').
Proof.
  induction fds as [|fd fds IH]; intros t H U t' E.
  - inversion E; subst. exact H.
  - cbn [qclose] in E. bnd E F. refine (IH _ _ _ t' E); [|intros x X; apply U; right; exact X]. cbn. apply filter_In. split; [exact H|].
    destruct (Nat.eqb_spec (c_fd k) fd) as [Q|Q]; [|reflexivity]. exfalso. apply out. rewrite Q. apply U. left. reflexivity.
Qed.
End Frame.

Section Round.
Variables A G J : Type.
Variable opened : A.
Variable data : bytes -> A -> G -> hres A G J.
Variable work : J -> G -> J * G.
Variable done : J -> A -> A * bytes * bool.
Lemma combine_fst : forall (X Y : Type) (l : list X) (m : list Y), incl (map fst (combine l m)) l.
Proof. induction l as [|x l IH]; intros [|y m] z H; cbn in *; try contradiction. destruct H as [H|H]; [left; exact H|right; exact (IH m z H)]. Qed.
Lemma read_fst : forall w fds, incl (map fst (@read_results G w fds)) fds.
Proof.
  intros w fds. unfold read_results. destruct (uses_uring w fds) as [u|]; rewrite map_map; cbn.
  - assert (H := combine_fst _ _ fds (u_reads u fds)). exact H.
  - rewrite map_id. apply incl_refl.
Qed.
Lemma write_fst : forall w reads fds, incl (map fst (@write_results G w reads fds)) fds.
Proof.
  intros w reads fds. unfold write_results. destruct (uses_uring w reads) as [u|]; rewrite map_map; cbn.
  - assert (H := combine_fst _ _ fds (u_writes u fds)). exact H.
  - rewrite map_id. apply incl_refl.
Qed.
(** A connection without an event stays as it is. *)
Lemma round_keeps : forall size w es (t t' : thread A G J) k, In k (t_conns t) -> ~ In (c_fd k) (map e_fd es) ->
  round opened data done size w es t = NOk t' -> In k (t_conns t').
Proof.
  intros size w es t t' k H N E. unfold round in E. set (evs := map e_fd es) in *.
  assert (R : forall x t q, room size x = NOk (t, q) -> x = NOk (t, q) :> nres (thread A G J * queues)).
  { intros x t1 q1 X. unfold room in X. destruct x as [[t2 q2]|f]; cbn in X; [|discriminate]. destruct (fits size q2); [exact X|discriminate]. }
  assert (Q0 : qin evs q_new) by (unfold qin; cbn; repeat split; intros x []).
  match type of E with nbind ?x _ = _ => destruct x as [[t0 q0]|] eqn:E0; cbn [nbind] in E; [|discriminate] end. apply R in E0.
  destruct (accept_keeps A G J opened k evs es t q_new H Q0 (incl_refl _) _ _ E0) as [H0 I0].
  match type of E with nbind ?x _ = _ => destruct x as [[t1 q1]|] eqn:E1; cbn [nbind] in E; [|discriminate] end. apply R in E1.
  destruct (attach_keeps A G J done k evs N w _ t0 q0 H0 I0 (proj1 I0) _ _ E1) as [H1 I1].
  match type of E with nbind ?x _ = _ => destruct x as [[t2 q2]|] eqn:E2; cbn [nbind] in E; [|discriminate] end. apply R in E2.
  assert (X2 : incl (map fst (read_results w (q_reads q1))) evs) by (eapply incl_tran; [apply read_fst|]; apply I1).
  destruct (read_keeps A G J k evs N _ t1 q1 H1 I1 X2 _ _ E2) as [H2 I2].
  match type of E with nbind ?x _ = _ => destruct x as [[t3 q3]|] eqn:E3; cbn [nbind] in E; [|discriminate] end. apply R in E3.
  assert (X3 : incl (map fst (q_ins q2)) evs) by apply I2.
  destruct (process_keeps A G J data k evs N w _ t2 q2 H2 I2 X3 _ _ E3) as [H3 I3].
  match type of E with nbind ?x _ = _ => destruct x as [[t4 q4]|] eqn:E4; cbn [nbind] in E; [|discriminate] end. apply R in E4.
  assert (X4 : incl (map fst (write_results w (q_reads q3) (q_outs q3))) evs) by (eapply incl_tran; [apply write_fst|]; apply I3).
  destruct (write_keeps A G J k evs N w _ t3 q3 H3 I3 X4 _ _ E4) as [H4 I4].
  refine (close_keeps A G J k evs N _ t4 H4 _ t' E). apply I4.
Qed.
(** A connection in the background whose thread does not exist stays as it is forever. *)
Lemma lost_forever : forall size ss (t t' : thread A G J) k, In k (t_conns t) -> inv A G J opened data done t rest ->
  c_bg k <> None -> c_watch k = None -> c_thread k = false ->
  possible_all A G J opened data work done size ss t -> nrun opened data work done size ss t = NOk t' -> In k (t_conns t').
Proof.
  intro size. induction ss as [|s ss IH]; intros t t' k H I B W T P E.
  - inversion E; subst. exact H.
  - destruct P as [P1 P2]. cbn [nrun] in E. destruct (nstep_run opened data work done size s t) as [t1|f] eqn:E1; cbn [nbind] in E; [|discriminate].
    assert (K : In k (t_conns t1) /\ inv A G J opened data done t1 rest).
    { destruct s as [w es|fd|f]; cbn [nstep_run] in E1.
      - split.
        + refine (round_keeps size w es t t1 k H _ E1). intro Q. destruct P1 as (_ & _ & P1 & _). exact (P1 k H Q W).
        + destruct (round_ok A G J opened data work done (fun _ => True) (fun _ => True) (fun _ => True) size w es t (fun _ => conj (fun _ => Logic.I) (conj (fun _ => Logic.I) Logic.I)) I P1) as [X|(t2 & X & _ & I2)]; rewrite X in E1; [discriminate|]. inversion E1; subst. exact I2.
      - split; [|destruct (finish_ok A G J opened data work done (fun _ => True) (fun _ => True) (fun _ => True) fd t I P1) as (t2 & X & _ & I2); rewrite X in E1; inversion E1; subst; exact I2].
        destruct P1 as (c & C1 & C2 & C3). unfold finish, use_conn in E1. rewrite (in_get A G J _ _ _ (i_nodup _ _ _ _ _ _ _ _ I) C1 C2) in E1. cbn [nbind] in E1.
        destruct (c_bg c) as [j|]; [|discriminate]. destruct (work j (t_shared t)) as [j' g']. unfold watch in E1. cbn [set_bg c_watch] in E1.
        destruct (c_watch c); cbn [nbind] in E1; [discriminate|]. injection E1 as <-. cbn [set_shared t_conns].
        match goal with |- In k (t_conns (put_conn ?d t)) => assert (X := in_put A G J d t k H) end. cbn [c_fd set_bg] in X.
        destruct (Nat.eqb_spec (c_fd k) (c_fd c)) as [Q|Q]; [|exact X]. exfalso.
        assert (Y := in_get A G J _ _ _ (i_nodup _ _ _ _ _ _ _ _ I) H Q). rewrite (in_get A G J _ _ _ (i_nodup _ _ _ _ _ _ _ _ I) C1 eq_refl) in Y. congruence.
      - inversion E1; subst. split; [exact H|]. apply shared_inv. exact I. }
    destruct K as [K1 K2]. exact (IH t1 t' k K1 K2 B W T (P2 t1 eq_refl) E).
Qed.
End Round.
