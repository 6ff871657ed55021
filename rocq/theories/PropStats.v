(** C68: what the counters of commands in STATS show, with the vocabulary of
    StatsSpec.v. *)
From Verif Require Import Base Stats StatsSpec StatsProofs.
Local Open Scope N_scope.

(** *** C68 *)
(** A total read is the number of the commands counted so far whose thread has
    meanwhile been at the top of its loop, modulo 2^64. *)
Theorem C68_read : forall work sched s a t k v b, (forall t, few (work t)) ->
  run (init work) sched = (s, a ++ ERead t k v :: b) -> v = u64 (settled k a).
Proof.
  intros work sched s a t k v b F H.
  destruct (run_split _ _ _ _ _ _ _ H eq_refl) as (pre & t0 & post & s1 & s2 & -> & R & S).
  destruct (read_step _ _ _ _ _ _ S) as (-> & -> & _).
  exact (proj1 (run_inv _ _ [] _ _ (init_inv work F) R) k).
Qed.

(** It counts no command that was not executed, and it counts every command that
    the same thread answered in earlier rounds. *)
Theorem C68_bounds : forall work sched s a t k v b, (forall t, few (work t)) ->
  run (init work) sched = (s, a ++ ERead t k v :: b) -> number (is_inc k) a < 2 ^ 64 ->
  before (is_own t k) (is_round t) a <= v <= number (is_inc k) a.
Proof.
  intros work sched s a t k v b F H L.
  pose proof (C68_read _ _ _ _ _ _ _ _ F H) as V. pose proof (settled_le k a) as Le.
  assert (E : v = settled k a).
  { rewrite V. unfold u64. apply N.mod_small. change (2 ^ 64) with 18446744073709551616 in *. lia. }
  split; [|lia]. rewrite E.
  destruct (run_split _ _ _ _ _ _ _ H eq_refl) as (pre & t0 & post & s1 & s2 & -> & R & S).
  destruct (read_step _ _ _ _ _ _ S) as (-> & _ & c & acts & q & rest & P).
  pose proof (proj2 (run_inv _ _ [] _ _ (init_inv work F) R) t0) as A. cbn [app] in A.
  unfold at_ok in A. rewrite P in A. destruct A as (_ & _ & _ & _ & _ & Q). specialize (Q k).
  pose proof (before_open (is_own t0 k) (is_round t0) a). pose proof (before_open (is_own t0 k) (is_flush t0 k) a).
  pose proof (before_settled t0 k a). unfold recent, pend in Q. lia.
Qed.

(** Totals never go back. *)
Theorem C68_monotone : forall work sched s a t k v b t' v' d, (forall t, few (work t)) ->
  run (init work) sched = (s, a ++ ERead t k v :: b ++ ERead t' k v' :: d) ->
  number (is_inc k) (a ++ b) < 2 ^ 64 -> v <= v'.
Proof.
  intros work sched s a t k v b t' v' d F H L.
  pose proof (C68_read _ _ _ _ _ _ _ _ F H) as V.
  assert (H' : run (init work) sched = (s, (a ++ ERead t k v :: b) ++ ERead t' k v' :: d))
    by (rewrite <- app_assoc; exact H).
  pose proof (C68_read _ _ _ _ _ _ _ _ F H') as V'.
  pose proof (settled_app k (ERead t k v :: b) a) as M.
  pose proof (settled_le k (a ++ ERead t k v :: b)) as Le.
  assert (N : number (is_inc k) (a ++ ERead t k v :: b) = number (is_inc k) (a ++ b)).
  { rewrite !number_app. reflexivity. }
  change (2 ^ 64) with 18446744073709551616 in *.
  rewrite V, V'. unfold u64. rewrite !N.mod_small by (change (2 ^ 64) with 18446744073709551616; lia). exact M.
Qed.

(** Threads that take no step count nothing. *)
Lemma idle_none : forall sched w s tr t k, run w sched = (s, tr) -> ~ In t sched -> number (is_own t k) tr = 0.
Proof.
  induction sched as [|x r IH]; intros w s tr t k H N; cbn [run] in H.
  - injection H as _ <-. reflexivity.
  - destruct (step w x) as [s1 e1] eqn:E1. destruct (run s1 r) as [s2 e2] eqn:E2. injection H as _ <-.
    rewrite number_app, (IH _ _ _ t k E2) by (intro Q; apply N; right; exact Q).
    assert (X : (x =? t)%nat = false) by (apply Nat.eqb_neq; intros ->; apply N; left; reflexivity).
    unfold step in E1. cbv zeta in E1.
    destruct (st_pc w x) as [[|k0 ks] [|q rest]|[|[c acts] q] rest|c [|[k0|k0] acts] q rest];
      injection E1 as _ <-; cbn [number is_own one]; rewrite ?X; reflexivity.
Qed.
(** When all threads wait for events, every total is exact: nothing that was
    counted is lost or counted twice. *)
Theorem C68_quiet : forall work sched s tr k, (forall t, few (work t)) ->
  run (init work) sched = (s, tr) -> (forall t, In t sched -> exists rest, st_pc s t = AtFlush [] rest) ->
  st_glob s k = u64 (number (is_inc k) tr).
Proof.
  intros work sched s tr k F H W. destruct (run_inv _ _ [] _ _ (init_inv work F) H) as [G A]. cbn [app] in *.
  rewrite G. f_equal. apply all_settled. intro t.
  destruct (in_dec Nat.eq_dec t sched) as [I|I].
  - specialize (A t). destruct (W t I) as [rest P].
    unfold at_ok in A. rewrite P in A. destruct A as (_ & _ & _ & _ & Q). apply Q. intros [].
  - pose proof (idle_none _ _ _ _ t k H I). pose proof (before_open (is_own t k) (is_flush t k) tr). lia.
Qed.

(** *** A case *)
(** Thread 0 gets a key with a hit, then another connection asks for STATS; at the
    same time a set on thread 1. *)
Definition demo_work (t : nat) : rounds :=
  match t with
  | O => [[(7%nat, [Incr KGet; Incr KHit])]; [(8%nat, [Read KGet; Read KSet; Read KHit])]]
  | 1%nat => [[(3%nat, [Incr KSet; Incr KSet])]]
  | _ => []
  end.
Definition demo_sched : list nat :=
  repeat 0%nat 10 ++ repeat 1%nat 10 ++ repeat 0%nat 10 ++ repeat 1%nat 10 ++ repeat 0%nat 10.
Lemma demo_few : forall t, few (demo_work t).
Proof.
  intro t. destruct t as [|[|t]]; cbn [demo_work]; repeat constructor; intros []; vm_compute; reflexivity.
Qed.
Example C68_case : exists s a b,
  run (init demo_work) demo_sched = (s, a ++ ERead 0 KGet 1 :: b) /\
  before (is_own 0 KGet) (is_round 0) a = 1 /\ number (is_inc KGet) a = 1 /\
  number (is_inc KSet) (a ++ b) = 2 /\ st_glob s KSet = 2 /\
  (forall t, In t demo_sched -> exists rest, st_pc s t = AtFlush [] rest).
Proof.
  pose (r := run (init demo_work) demo_sched).
  assert (P : snd r = firstn 18 (snd r) ++ ERead 0 KGet 1 :: skipn 19 (snd r)) by (vm_compute; reflexivity).
  exists (fst r), (firstn 18 (snd r)), (skipn 19 (snd r)).
  split; [rewrite <- P; apply surjective_pairing|]. do 4 (split; [vm_compute; reflexivity|]).
  assert (Q : forall t, In t demo_sched -> t = 0%nat \/ t = 1%nat).
  { intros t. unfold demo_sched. rewrite !in_app_iff. intros [I|[I|[I|[I|I]]]]; apply repeat_spec in I; auto. }
  intros t I. destruct (Q t I) as [-> | ->]; exists []; vm_compute; reflexivity.
Qed.

(** *** Refuted *)
(** "STATS counts the commands sent before it on the same connection": not those
    of the same packet, and not those of the same round. *)
Theorem C68_same_connection_refuted : ~ (forall work sched s a t k v b, (forall t, few (work t)) ->
  run (init work) sched = (s, a ++ ERead t k v :: b) -> number (is_inc k) a < 2 ^ 64 ->
  number (is_own t k) a <= v).
Proof.
  intro H.
  pose (w := fun t : nat => match t with O => [[(1%nat, [Incr KGet; Read KGet])]] | _ => [] end).
  pose (r := run (init w) (repeat 0%nat 8)).
  assert (F : forall t, few (w t)) by (intros [|t]; cbn; repeat constructor; intros []; vm_compute; reflexivity).
  assert (P : snd r = firstn 5 (snd r) ++ [ERead 0 KGet 0]) by (vm_compute; reflexivity).
  assert (Q : r = (fst r, firstn 5 (snd r) ++ [ERead 0 KGet 0])) by (rewrite <- P; apply surjective_pairing).
  pose proof (H _ _ _ _ _ _ _ _ F Q) as X.
  assert (Y : number (is_inc KGet) (firstn 5 (snd r)) = 1) by (vm_compute; reflexivity).
  assert (Z : number (is_own 0 KGet) (firstn 5 (snd r)) = 1) by (vm_compute; reflexivity).
  rewrite Y, Z in X. apply X; reflexivity.
Qed.
(** "STATS counts every command that has been answered": not one that another
    thread answered just now. *)
Theorem C68_answered_refuted : ~ (forall work sched s a t k v b, (forall t, few (work t)) ->
  run (init work) sched = (s, a ++ ERead t k v :: b) -> number (is_inc k) a < 2 ^ 64 ->
  forall t', before (is_own t' k) (is_round t') a <= v).
Proof.
  intro H.
  pose (w := fun t : nat => match t with O => [[(1%nat, [Incr KGet])]] | 1%nat => [[(2%nat, [Read KGet])]] | _ => [] end).
  pose (r := run (init w) (repeat 0%nat 9 ++ repeat 1%nat 7)).
  assert (F : forall t, few (w t)) by (intros [|[|t]]; cbn; repeat constructor; intros []; vm_compute; reflexivity).
  assert (P : snd r = firstn 10 (snd r) ++ [ERead 1 KGet 0]) by (vm_compute; reflexivity).
  assert (Q : r = (fst r, firstn 10 (snd r) ++ [ERead 1 KGet 0])) by (rewrite <- P; apply surjective_pairing).
  pose proof (H _ _ _ _ _ _ _ _ F Q) as X.
  assert (Y : number (is_inc KGet) (firstn 10 (snd r)) = 1) by (vm_compute; reflexivity).
  assert (Z : before (is_own 0 KGet) (is_round 0) (firstn 10 (snd r)) = 1) by (vm_compute; reflexivity).
  rewrite Y in X. specialize (X eq_refl 0%nat). rewrite Z in X. apply X; reflexivity.
Qed.
