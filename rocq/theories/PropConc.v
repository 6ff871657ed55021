(** Threads: what the locks and batches guarantee (C24, C25). The programs,
    the shards and the operations are arbitrary; the last part is about the
    cache. *)
From Verif Require Import Base Types Map Conc ConcProofs Shard Spec Cache Refine Reach Observe
  PropCache Threads ThreadsProofs.

Lemma same_list : forall A (l l' : list A), (forall i, nth_error l i = nth_error l' i) -> l = l'.
Proof.
  induction l as [|x l IH]; intros [|y l'] H; [reflexivity|discriminate (H 0%nat)|discriminate (H 0%nat)|].
  pose proof (H 0%nat) as E. cbn in E. inversion E; subst. f_equal. apply IH. intros i. exact (H (S i)).
Qed.

Section Any.
Variables (G S R Op : Type) (sem : Op -> G -> S -> G * S * R).
Notation event := (Conc.tevent R Op).
Notation prog := (Conc.prog R Op).

(** ** C24 Linearizability *)

(** Whatever the schedule: executing the operations one at a time, in the order
    [order evs], gives the results the threads got, and, when nobody is in the
    middle of an operation, the shards as they are. Each operation takes its
    place in the order between its call and its return, and each thread does
    what its program says. *)
Theorem C24_linearizable : forall g l (ps : list prog) sched c evs,
  exec sem (initial g l ps) sched = (c, evs) ->
  (exists ll, one_by_one sem g l (order evs) (st_g c) ll /\ (quiet c -> st_shards c = ll)) /\
  (forall t, exists ph, follows t (of_thread t evs) ph) /\
  (forall t p, nth_error ps t = Some p -> exists p', executes t p (acts t evs) p').
Proof.
  intros g l ps sched c evs E. pose proof (exec_sim _ _ _ _ _ _ _ _ _ _ _ E) as [X (ll & O & NW) PH NO].
  split; [|split].
  - exists ll. split; [exact O|]. intros Q. apply same_list. intros i. symmetry. apply (no_rest _ _ _ _ _ _ NW).
    intros t th h s r k N. apply (Q th). eapply nth_error_In; exact N.
  - intros t. destruct (nth_error (st_threads c) t) as [th|] eqn:N.
    + eexists. apply PH. exact N.
    + exists Idle. rewrite (NO _ N). constructor.
  - intros t p NP. destruct (exec_obeys _ _ _ _ _ _ _ _ _ _ _ E) as [LN EX _].
    destruct (nth_error (st_threads c) t) as [th|] eqn:N.
    + eexists. eapply EX; eassumption.
    + apply nth_error_None in N. assert (t < length ps)%nat by (apply nth_error_Some; congruence). lia.
Qed.

Lemma filter_split : forall A (p : A -> bool) l X e Y, filter p l = X ++ e :: Y ->
  exists l1 l2, l = l1 ++ e :: l2 /\ filter p l1 = X /\ filter p l2 = Y.
Proof.
  intros A p. induction l as [|x l IH]; cbn [filter]; intros X e Y E; [destruct X; discriminate E|].
  destruct (p x) eqn:PX.
  - destruct X as [|x' X]; cbn in E; inversion E; subst.
    + exists [], l. auto.
    + destruct (IH _ _ _ H1) as (l1 & l2 & -> & <- & <-). exists (x' :: l1), l2. cbn. rewrite PX. auto.
  - destruct (IH _ _ _ E) as (l1 & l2 & -> & <- & <-). exists (x :: l1), l2. cbn. rewrite PX. auto.
Qed.

Lemma follows_prefix : forall t (a b : list event) ph, follows t (a ++ b) ph -> exists ph', follows t a ph'.
Proof.
  intros t a b. induction b as [|e b IH] using rev_ind; intros ph F.
  - rewrite app_nil_r in F. eauto.
  - rewrite app_assoc in F. inversion F as [H|l i f F' H|l h i f r F' H|l r F' H].
    + symmetry in H. apply app_eq_nil in H. destruct H; discriminate.
    + apply app_inj_tail in H. destruct H as [-> _]. eapply IH; exact F'.
    + apply app_inj_tail in H. destruct H as [-> _]. eapply IH; exact F'.
    + apply app_inj_tail in H. destruct H as [-> _]. eapply IH; exact F'.
Qed.

(** So the order respects real time: a call that returned was taken into the
    order before its return and after it was made, with the result it returned,
    and the thread did nothing else meanwhile. *)
Theorem C24_real_time : forall g l (ps : list prog) sched c evs t r A B,
  exec sem (initial g l ps) sched = (c, evs) -> evs = A ++ ERet t r :: B ->
  exists A1 A2 A3 h i f, A = A1 ++ EInv t i f :: A2 ++ ELin t h i f r :: A3 /\
    of_thread t A2 = [] /\ of_thread t A3 = [].
Proof.
  intros g l ps sched c evs t r A B E EV.
  destruct (C24_linearizable _ _ _ _ _ _ E) as (_ & FO & _). destruct (FO t) as (ph & F).
  rewrite EV in F. unfold of_thread in F. rewrite filter_app in F. cbn [filter] in F. rewrite Nat.eqb_refl in F.
  change (filter _ A) with (of_thread t A) in F.
  replace (of_thread t A ++ ERet t r :: filter _ B) with ((of_thread t A ++ [ERet t r]) ++ of_thread t B) in F
    by (rewrite <- app_assoc; reflexivity).
  destruct (follows_prefix _ _ _ _ F) as (ph1 & F1).
  inversion F1 as [H|l0 i f F' H|l0 h i f r0 F' H|l0 r0 F' H].
  { symmetry in H. apply app_eq_nil in H. destruct H; discriminate. }
  { apply app_inj_tail in H. destruct H; discriminate. }
  { apply app_inj_tail in H. destruct H; discriminate. }
  apply app_inj_tail in H. destruct H as [-> H]. inversion H; subst r0. clear H F1 F.
  inversion F' as [|l0 i f F2 H|l0 h i f r0 F2 H H'|l0 r0 F2 H]. subst r0.
  inversion F2 as [|l1 i1 f1 F3 H1 H1'|l1 h1 i1 f1 r1 F3 H1|l1 r1 F3 H1]. subst i1 f1. subst l0.
  rewrite <- app_assoc in H. cbn [app] in H.
  symmetry in H. destruct (filter_split _ _ _ _ _ _ H) as (A1 & A' & -> & _ & H2).
  change ([ELin t h i f r]) with ([] ++ ELin t h i f r :: []) in H2.
  destruct (filter_split _ _ _ _ _ _ H2) as (A2 & A3 & -> & H3 & H4).
  exists A1, A2, A3, h, i, f. auto.
Qed.

(** No deadlock: if the programs use batches as intended and every batch takes
    its shards in increasing order, then from every state that any schedule
    leads to, some continuation lets every thread finish, with all locks free. *)
Theorem C24_progress : forall g l (ps : list prog) sched c evs,
  Forall (orderly true (length l) None) ps ->
  exec sem (initial g l ps) sched = (c, evs) ->
  exists more c' evs', exec sem c more = (c', evs') /\
    (forall th, In th (st_threads c') -> th_pc th = At Stop) /\
    (forall v, In v (st_locks c') -> v = Free).
Proof.
  intros g l ps sched c evs F E. pose proof (exec_orderly _ _ _ _ _ true _ _ _ _ _ _ F E) as OS.
  destruct (finish _ _ _ _ sem _ _ OS) as (more & c' & evs' & EX & DN & OS').
  rewrite Forall_forall in DN.
  exists more, c', evs'. split; [exact EX|]. split; [intros th J; exact (DN _ J)|].
  intros v J. apply In_nth_error in J. destruct J as (i & N). destruct v as [| |t]; [reflexivity| |].
  - destruct (os_plain _ _ _ _ _ _ _ OS' _ N) as (t & th & NT & I).
    pose proof (DN th (nth_error_In _ _ NT)) as D. unfold done in D. rewrite D in I. discriminate I.
  - destruct (os_batch _ _ _ _ _ _ _ OS' _ _ N) as (th & NT & I).
    pose proof (DN th (nth_error_In _ _ NT)) as D. unfold done in D.
    pose proof (os_th _ _ _ _ _ _ _ OS' _ _ NT) as P. unfold placed_thread in P. rewrite D in P.
    destruct P as [[HN _]|(m & P & _)]; [rewrite HN in I; destruct I|destruct P].
Qed.

(** ** C25 Batches *)

(** Once a batch of thread [t] has operated on a shard, no other thread's
    operation on that shard takes place until [t] ends its batch. *)
Theorem C25_alone : forall g l (ps : list prog) sched c evs A t i f r B t' h f' r' C,
  exec sem (initial g l ps) sched = (c, evs) ->
  evs = A ++ ELin t true i f r :: B ++ ELin t' h i f' r' :: C -> t' <> t ->
  In (EEnd t) B.
Proof.
  intros g l ps sched c evs A t i f r B t' h f' r' C E EV D.
  destruct (exec_kept _ _ _ _ _ _ _ _ _ _ _ E) as [_ _ K]. eapply K; eassumption.
Qed.

(** Batches are atomic: when all threads have finished, the shards are what the
    batches give when they are executed one after the other, each one undivided,
    in the order in which they ended, with the results the threads got. The
    memory handed out by the allocator may differ. *)
Theorem C25_atomic : forall g l (ps : list prog) sched c evs,
  Forall (orderly false (length l) None) ps ->
  exec sem (initial g l ps) sched = (c, evs) ->
  (forall th, In th (st_threads c) -> th_pc th = At Stop) ->
  any_by_one sem l (batch_order evs) (st_shards c) /\
  (forall t, filter (fun b => (fst b =? t)%nat) (batches evs) = batches (acts t evs)).
Proof.
  intros g l ps sched c evs F E DN. split; [|intros t; apply own_batches].
  destruct (exec_serial _ _ _ _ _ _ _ _ _ _ _ F E) as [OS (cs & ll & NW & LN & A & TB & FREE) CL].
  replace (st_shards c) with cs; [exact A|].
  apply same_list. intros i. transitivity (nth_error ll i).
  - symmetry. apply FREE. intros t th N J.
    pose proof (DN th (nth_error_In _ _ N)) as D.
    pose proof (os_th _ _ _ _ _ _ _ OS _ _ N) as P. unfold placed_thread in P. rewrite D in P.
    destruct P as [[HN _]|(m & P & _)]; [rewrite HN in J; destruct J|destruct P].
  - apply (no_rest _ _ _ _ _ _ NW). intros t th h s r k N. rewrite (DN th (nth_error_In _ _ N)). discriminate.
Qed.
End Any.

(** *** Increments are not lost *)

(** A shard that holds a number; [None] reads it, [Some v] writes [v]. *)
Definition cell (f : option Z) (g : unit) (s : Z) : unit * Z * Z :=
  match f with None => (g, s, s) | Some v => (g, v, v) end.

(** The way INCR works [src/cmds.c:1645-1770]: begin, load, store what was loaded
    plus one, end; for each of the shards listed. *)
Fixpoint increments (is : list nat) : prog Z (option Z) :=
  match is with
  | [] => Stop
  | i :: r => Begin (Do true i None (fun v => Do true i (Some (v + 1)%Z) (fun _ => End (increments r))))
  end.

Definition one_increment (i : nat) (b : list (nat * option Z * Z)) : Prop :=
  exists v r, b = [(i, None, v); (i, Some (v + 1)%Z, r)].

Section Exec.
Variables (R Op : Type).
Notation event := (Conc.tevent R Op).
Notation prog := (Conc.prog R Op).
Lemma executes_first : forall t (p : prog) l p', executes t p l p' ->
  (l = [] /\ p' = p) \/
  (exists h i f k r l', p = Do h i f k /\ l = ELin t h i f r :: l' /\ executes t (k r) l' p') \/
  (exists k l', p = Begin k /\ l = EBegin t :: l' /\ executes t k l' p') \/
  (exists k l', p = End k /\ l = EEnd t :: l' /\ executes t k l' p').
Proof.
  intros t p l p' X. induction X as [p|p l h i f k r X IH|p l k X IH|p l k X IH]; [auto| | |]; right.
  - destruct IH as [[-> E]|[(h' & i' & f' & k' & r' & l' & -> & -> & X')|[(k' & l' & -> & -> & X')|(k' & l' & -> & -> & X')]]].
    + subst. left. exists h, i, f, k, r, []. repeat split. constructor.
    + left. exists h', i', f', k', r', (l' ++ [ELin t h i f r]). repeat split. constructor. exact X'.
    + right. left. exists k', (l' ++ [ELin t h i f r]). repeat split. constructor. exact X'.
    + right. right. exists k', (l' ++ [ELin t h i f r]). repeat split. constructor. exact X'.
  - destruct IH as [[-> E]|[(h' & i' & f' & k' & r' & l' & -> & -> & X')|[(k' & l' & -> & -> & X')|(k' & l' & -> & -> & X')]]].
    + subst. right. left. exists k, []. repeat split. constructor.
    + left. exists h', i', f', k', r', (l' ++ [EBegin t]). repeat split. constructor. exact X'.
    + right. left. exists k', (l' ++ [EBegin t]). repeat split. constructor. exact X'.
    + right. right. exists k', (l' ++ [EBegin t]). repeat split. constructor. exact X'.
  - destruct IH as [[-> E]|[(h' & i' & f' & k' & r' & l' & -> & -> & X')|[(k' & l' & -> & -> & X')|(k' & l' & -> & -> & X')]]].
    + subst. right. right. exists k, []. repeat split. constructor.
    + left. exists h', i', f', k', r', (l' ++ [EEnd t]). repeat split. constructor. exact X'.
    + right. left. exists k', (l' ++ [EEnd t]). repeat split. constructor. exact X'.
    + right. right. exists k', (l' ++ [EEnd t]). repeat split. constructor. exact X'.
Qed.

Lemma collect_from : forall (l : list event) out open open', (forall u, open u = open' u) ->
  fst (fold_left (@collect R Op) l (out, open)) = out ++ fst (fold_left (@collect R Op) l ([], open')).
Proof.
  induction l as [|e l IH]; intros out open open' H; cbn [fold_left]; [rewrite app_nil_r; reflexivity|].
  destruct e as [t i f|t h i f r|t r|t|t]; unfold collect at 2 4.
  - apply IH. exact H.
  - destruct h.
    + rewrite (IH out _ (fun u => if (u =? t)%nat then open' t ++ [(i, f, r)] else open' u)); [reflexivity|].
      intros u. rewrite (H t), (H u). reflexivity.
    + rewrite (IH _ _ open' H). cbn [app]. symmetry. rewrite (IH [(t, [(i, f, r)])] open' open'); [|reflexivity].
      rewrite app_assoc. reflexivity.
  - apply IH. exact H.
  - apply IH. intros u. destruct (u =? t)%nat; [reflexivity|apply H].
  - rewrite (IH _ _ (fun u => if (u =? t)%nat then [] else open' u)); [|intros u; destruct (u =? t)%nat; [reflexivity|apply H]].
    cbn [app]. symmetry. rewrite (IH [(t, open' t)] _ (fun u => if (u =? t)%nat then [] else open' u)); [|reflexivity].
    rewrite app_assoc, (H t). reflexivity.
Qed.
End Exec.

Lemma increments_batches : forall t is l, executes t (increments is) l Stop ->
  Forall2 one_increment is (List.map snd (batches l)).
Proof.
  intros t. induction is as [|i is IH]; intros l X.
  - destruct (executes_first _ _ _ _ _ _ X) as [[-> _]|[(h & i & f & k & r & l' & E & _)|[(k & l' & E & _)|(k & l' & E & _)]]];
      [constructor|discriminate E..].
  - cbn [increments] in X.
    destruct (executes_first _ _ _ _ _ _ X) as [[_ E]|[(h & j & f & k & r & l1 & E & _)|[(k & l1 & E & -> & X1)|(k & l1 & E & _)]]];
      [discriminate E..| |discriminate E]. inversion E; subst k. clear E X.
    destruct (executes_first _ _ _ _ _ _ X1) as [[_ E]|[(h & j & f & k & r & l2 & E & -> & X2)|[(k & l2 & E & _)|(k & l2 & E & _)]]];
      [discriminate E| |discriminate E..]. inversion E; subst. clear E X1.
    destruct (executes_first _ _ _ _ _ _ X2) as [[_ E]|[(h & j' & f & k & r' & l3 & E & -> & X3)|[(k & l3 & E & _)|(k & l3 & E & _)]]];
      [discriminate E| |discriminate E..]. inversion E; subst. clear E X2.
    destruct (executes_first _ _ _ _ _ _ X3) as [[_ E]|[(h & j0 & f & k & r0 & l4 & E & _)|[(k & l4 & E & _)|(k & l4 & E & -> & X4)]]];
      [discriminate E..|]. inversion E; subst. clear E X3.
    unfold batches, collected. cbn [fold_left collect]. rewrite !Nat.eqb_refl. cbn [app].
    rewrite (collect_from _ _ l4 _ _ (fun _ => [])).
    + cbn [List.map app snd]. constructor; [exists r, r'; reflexivity|]. apply IH. exact X4.
    + intros u. destruct (u =? t)%nat eqn:EQ; rewrite ?EQ; reflexivity.
Qed.

(** The first shard of a batch. *)
Definition first_shard (b : list (nat * option Z * Z)) : nat :=
  match b with [] => 0 | x :: _ => fst (fst x) end.

Lemma blocks_add : forall bs l l', any_by_one cell l (concat bs) l' ->
  Forall (fun b => exists i, one_increment i b) bs ->
  forall i v, nth_error l i = Some v ->
  nth_error l' i = Some (v + Z.of_nat (count_occ Nat.eq_dec (List.map first_shard bs) i))%Z.
Proof.
  induction bs as [|b bs IH]; intros l l' A F i v N; cbn [concat List.map count_occ] in *.
  - inversion A; subst. rewrite N. f_equal. lia.
  - inversion F as [|? ? (j & w & r & ->) F']; subst. cbn [app] in A. cbn [first_shard fst].
    inversion A as [|? ? ? s g g1 s1 ? ? ? N1 E1 A1]; subst. cbn in E1. inversion E1; subst. clear E1.
    inversion A1 as [|? ? ? s g' g1' s1' ? ? ? N2 E2 A2]; subst. cbn in E2. inversion E2; subst. clear E2.
    rewrite (IH _ _ A2 F' i (if (j =? i)%nat then w + 1 else v)%Z).
    + destruct (Nat.eq_dec j i) as [->|D].
      * rewrite Nat.eqb_refl. rewrite N in N1. inversion N1; subst. f_equal. lia.
      * apply Nat.eqb_neq in D. rewrite D. reflexivity.
    + rewrite !nth_error_update. destruct (Nat.eqb_spec j i) as [->|D]; [rewrite N|exact N]. reflexivity.
Qed.

Definition total (f : nat -> nat) (n : nat) : nat := list_sum (List.map f (seq 0 n)).

Lemma total_ext : forall f g n, (forall t, (t < n)%nat -> f t = g t) -> total f n = total g n.
Proof.
  intros f g n H. unfold total. f_equal. apply map_ext_in. intros t J. apply in_seq in J. apply H. lia.
Qed.
Lemma total_add : forall f g n, total (fun t => f t + g t)%nat n = (total f n + total g n)%nat.
Proof.
  intros f g n. unfold total, list_sum. induction (seq 0 n) as [|x l IH]; [reflexivity|]. cbn [List.map fold_right]. rewrite IH. lia.
Qed.
Lemma total_one : forall n t v, (t < n)%nat -> total (fun u => if (t =? u)%nat then v else 0%nat) n = v.
Proof.
  intros n t v L. unfold total, list_sum.
  assert (K : forall m a, fold_right Nat.add 0%nat (List.map (fun u => if (t =? u)%nat then v else 0%nat) (seq a m)) =
    if ((a <=? t) && (t <? a + m))%nat then v else 0%nat).
  { induction m as [|m IH]; intros a; cbn [seq List.map fold_right].
    - destruct (Nat.leb_spec a t), (Nat.ltb_spec t (a + 0)); cbn; lia.
    - rewrite IH.
      destruct (Nat.eqb_spec t a), (Nat.leb_spec (S a) t), (Nat.ltb_spec t (S a + m)), (Nat.leb_spec a t), (Nat.ltb_spec t (a + S m)); cbn; lia. }
  rewrite K. destruct (Nat.leb_spec 0 t), (Nat.ltb_spec t (0 + n)); cbn; lia.
Qed.

Lemma count_split : forall B (bs : list (nat * B)) (h : B -> nat) n i, (forall b, In b bs -> (fst b < n)%nat) ->
  count_occ Nat.eq_dec (List.map (fun b => h (snd b)) bs) i =
  total (fun t => count_occ Nat.eq_dec (List.map (fun b => h (snd b)) (filter (fun b => (fst b =? t)%nat) bs)) i) n.
Proof.
  intros B bs h n i. induction bs as [|[t b] bs IH]; intros H.
  - cbn. unfold total. induction (seq 0 n); [reflexivity|]. cbn. assumption.
  - rewrite (total_ext _ (fun u => (if (t =? u)%nat then (if Nat.eq_dec (h b) i then 1 else 0)%nat else 0%nat) +
      count_occ Nat.eq_dec (List.map (fun b => h (snd b)) (filter (fun b => (fst b =? u)%nat) bs)) i)%nat).
    + rewrite total_add, total_one by (apply (H (t, b)); left; reflexivity). rewrite <- IH by (intros; apply H; right; assumption).
      cbn [List.map count_occ snd]. destruct (Nat.eq_dec (h b) i); reflexivity.
    + intros u _. cbn [filter fst]. destruct (t =? u)%nat; [|reflexivity]. cbn [List.map count_occ snd].
      destruct (Nat.eq_dec (h b) i); reflexivity.
Qed.

Lemma count_concat : forall (js : list (list nat)) i,
  count_occ Nat.eq_dec (concat js) i = total (fun t => count_occ Nat.eq_dec (nth t js []) i) (length js).
Proof.
  intros js i. unfold total. rewrite <- (map_map (fun t => nth t js []) (fun l => count_occ Nat.eq_dec l i)).
  replace (List.map (fun t => nth t js []) (seq 0 (length js))) with js.
  - induction js as [|j js IH]; [reflexivity|]. cbn [concat List.map list_sum fold_right]. rewrite count_occ_app, IH. reflexivity.
  - induction js as [|j js IH]; [reflexivity|]. cbn [length seq List.map nth]. f_equal. rewrite <- seq_shift, map_map. exact IH.
Qed.

Lemma increments_orderly : forall n is, Forall (fun i => i < n)%nat is -> orderly false n None (increments is).
Proof.
  intros n is F. induction F as [|i is L F IH]; cbn; [exact I|].
  split; [discriminate|]. split; [exact L|]. intros v. split; [discriminate|]. split; [exact L|]. intros _. exact IH.
Qed.

(** Any number of threads incrementing any numbers, in any interleaving: when
    all have finished, every number has grown by exactly the number of times it
    was incremented. *)
Theorem C25_no_lost_update : forall l (js : list (list nat)) sched c evs,
  Forall (Forall (fun i => i < length l)%nat) js ->
  exec cell (initial tt l (List.map increments js)) sched = (c, evs) ->
  (forall th, In th (st_threads c) -> th_pc th = At Stop) ->
  forall i v, nth_error l i = Some v ->
  nth_error (st_shards c) i = Some (v + Z.of_nat (count_occ Nat.eq_dec (concat js) i))%Z.
Proof.
  intros l js sched c evs F E DN i v N.
  destruct (C25_atomic _ _ _ _ cell tt l (List.map increments js) sched c evs) as [A OB]; [|exact E|exact DN|].
  { rewrite Forall_forall in *. intros p J. apply in_map_iff in J. destruct J as (is & <- & J).
    apply increments_orderly. apply F. exact J. }
  destruct (exec_obeys _ _ _ _ _ _ _ _ _ _ _ E) as [LN EX NO].
  assert (TH : forall t is, nth_error js t = Some is ->
    Forall2 one_increment is (List.map snd (filter (fun b => (fst b =? t)%nat) (batches evs)))).
  { intros t is NJ. rewrite OB. eapply (increments_batches t).
    assert (NP : nth_error (List.map increments js) t = Some (increments is)) by (rewrite nth_error_map, NJ; reflexivity).
    destruct (nth_error (st_threads c) t) as [th|] eqn:NT.
    - pose proof (EX _ _ _ NP NT) as X. rewrite (DN th (nth_error_In _ _ NT)) in X. exact X.
    - apply nth_error_None in NT. assert (t < length (List.map increments js))%nat by (apply nth_error_Some; congruence). lia. }
  assert (IN : forall b, In b (batches evs) -> (fst b < length js)%nat).
  { intros b J. destruct (Nat.lt_ge_cases (fst b) (length js)) as [L|L]; [exact L|exfalso].
    assert (K : In b (filter (fun b' => (fst b' =? fst b)%nat) (batches evs))) by (apply filter_In; split; [exact J|apply Nat.eqb_refl]).
    rewrite OB, (NO (fst b)) in K; [destruct K|]. apply nth_error_None. rewrite map_length. exact L. }
  unfold batch_order in A. rewrite (blocks_add _ _ _ A) with (v := v); [| |exact N].
  - do 3 f_equal. rewrite map_map, (count_split _ (batches evs) first_shard (length js) i IN), count_concat.
    apply total_ext. intros t L. destruct (nth_error js t) as [is|] eqn:NJ; [|apply nth_error_None in NJ; lia].
    rewrite (nth_error_nth _ _ [] NJ). pose proof (TH _ _ NJ) as H. rewrite <- map_map. f_equal.
    clear - H. induction H as [|j b is bs (v & r & ->) H IH]; [reflexivity|]. cbn [List.map first_shard fst]. f_equal. exact IH.
  - rewrite Forall_forall. intros b J. apply in_map_iff in J. destruct J as ((t & b') & <- & J). cbn [snd].
    pose proof (IN _ J) as L. cbn in L. destruct (nth_error js t) as [is|] eqn:NJ; [|apply nth_error_None in NJ; lia].
    pose proof (TH _ _ NJ) as H.
    assert (K : In b' (List.map snd (filter (fun b => (fst b =? t)%nat) (batches evs)))).
    { apply in_map_iff. exists (t, b'). split; [reflexivity|]. apply filter_In. split; [exact J|apply Nat.eqb_refl]. }
    clear - H K. induction H as [|j b0 is bs H0 H IH]; [destruct K|]. destruct K as [<-|K]; [eauto|auto].
Qed.

(** *** Cases *)
Definition rounds (n : nat) : list (nat * bool) := concat (repeat [(0, false); (1, true); (1, false)]%nat n).
Definition two_counters := initial tt [10; 20]%Z (List.map increments [[0; 1; 0]; [1; 0]]%nat).
Example C25_case :
  Forall (Forall (fun i => i < length [10; 20]%Z)%nat) [[0; 1; 0]; [1; 0]]%nat /\
  (let '(c, _) := exec cell two_counters (rounds 60) in
   (forall th, In th (st_threads c) -> th_pc th = At Stop) /\ st_shards c = [13; 22]%Z).
Proof.
  split; [repeat constructor|]. vm_compute. split; [|reflexivity]. intros th [<-|[<-|[]]]; reflexivity.
Qed.
(** Both threads have taken part before the first finished, and one of them
    found the lock taken. *)
Example C25_case_mixed :
  let '(c, _) := exec cell two_counters (rounds 4) in
  st_locks c = [Batch 0; Batch 1] /\ List.map (fun th => th_held th) (st_threads c) = [[0]; [1]]%nat.
Proof. vm_compute. auto. Qed.

(** Without batches updates are lost. *)
Definition careless : prog Z (option Z) :=
  Do false 0%nat None (fun v => Do false 0%nat (Some (v + 1)%Z) (fun _ => Stop)).
Theorem C25_plain_refuted : exists sched,
  let '(c, _) := exec cell (initial tt [10%Z] [careless; careless]) sched in
  (forall th, In th (st_threads c) -> th_pc th = At Stop) /\ st_shards c = [11%Z].
Proof.
  exists (concat (repeat [(0, false); (1, false)]%nat 30)). vm_compute. split; [|reflexivity].
  intros th [<-|[<-|[]]]; reflexivity.
Qed.

(** *** What goes wrong *)
Definition stuck_in {G S R Op} (sem : Op -> G -> S -> G * S * R) (c : cst G S R Op) : Prop :=
  forall more, exec sem c more = (c, []).
Lemma stuck_intro : forall G S R Op (sem : Op -> G -> S -> G * S * R) c,
  (forall t sp, tstep sem sp t c = (c, None)) -> stuck_in sem c.
Proof.
  intros G S R Op sem c H more. induction more as [|[t sp] more IH]; [reflexivity|]. cbn [exec]. rewrite H, IH. reflexivity.
Qed.

(** Two batches that take two shards in opposite orders can wait for each other
    for ever: taking shards in increasing order is needed in C24_progress. *)
Definition touch (i j : nat) : prog Z (option Z) :=
  Begin (Do true i None (fun _ => Do true j None (fun _ => End Stop))).

(** The hypotheses of C24_progress: the same batches in the same order, and
    a state in the middle of an execution, where the second thread waits. *)
Example C24_progress_case :
  Forall (orderly true 2 None) [touch 0 1; touch 0 1; increments [1; 0]%nat] /\
  let c := fst (exec cell (initial tt [10; 20]%Z [touch 0 1; touch 0 1; increments [1; 0]%nat])
                  [(0, false); (0, false); (0, false); (1, false); (1, false); (1, false)]%nat) in
  st_locks c = [Batch 0; Free] /\
  exists th h i f k, nth_error (st_threads c) 1 = Some th /\ th_pc th = Want h i f k.
Proof.
  split; [repeat constructor; discriminate|]. cbv zeta. split; [vm_compute; reflexivity|].
  vm_compute. repeat eexists.
Qed.

Theorem C24_opposite_refuted : exists sched,
  Forall (orderly false 2 None) [touch 0 1; touch 1 0] /\
  let c := fst (exec cell (initial tt [10; 20]%Z [touch 0 1; touch 1 0]) sched) in
  stuck_in cell c /\ forall th, In th (st_threads c) -> th_pc th <> At Stop.
Proof.
  exists (concat (repeat [(0, false); (1, false)]%nat 10)). split.
  - repeat constructor; discriminate.
  - cbv zeta. split.
    + apply stuck_intro. intros [|[|[|t]]] [|]; vm_compute; reflexivity.
    + vm_compute. intros th [<-|[<-|[]]]; discriminate.
Qed.

(** Calls on all shards through a batch: only the first shard is locked by the
    batch, because the macro replaces the handle by the cache
    [src/pogocache.c:1381-1394, 1744-1751]. So a batch that has used a shard other
    than the first and then makes such a call waits for itself. *)
Fixpoint scan_from (h : bool) (is : list nat) (k : prog Z (option Z)) : prog Z (option Z) :=
  match is with
  | [] => k
  | i :: r => Do h i None (fun _ => scan_from false r k)
  end.
Theorem C25_scan_refuted : exists sched,
  let p := Begin (Do true 1%nat None (fun _ => scan_from true [0; 1]%nat (End Stop))) in
  let c := fst (exec cell (initial tt [10; 20]%Z [p]) sched) in
  stuck_in cell c /\ forall th, In th (st_threads c) -> th_pc th <> At Stop.
Proof.
  exists (repeat (0%nat, false) 20). cbv zeta. split.
  - apply stuck_intro. intros [|[|t]] [|]; vm_compute; reflexivity.
  - vm_compute. intros th [<-|[]]. discriminate.
Qed.

(** A nested begin forgets the shards locked so far: they stay locked
    [src/pogocache.c:1258-1274 with usethreadbatch]. *)
Theorem C25_nested_refuted : exists sched,
  let p := Begin (Do true 0%nat None (fun _ => Begin (Do true 1%nat None (fun _ => End (End Stop))))) in
  let c := fst (exec cell (initial tt [10; 20]%Z [p]) sched) in
  (forall th, In th (st_threads c) -> th_pc th = At Stop) /\ st_locks c = [Batch 0; Free].
Proof.
  exists (repeat (0%nat, false) 20). vm_compute. split; [|reflexivity]. intros th [<-|[]]. reflexivity.
Qed.

(** ** The cache *)

Lemma stored_in : forall h k, In k (stored h) -> exists en v o t, In (en, Store k v o t) h.
Proof.
  intros h k J. unfold stored in J. apply in_flat_map in J. destruct J as ([en x] & J & K). cbn [snd] in K.
  destruct x; cbn in K; try tauto. destruct K as [->|[]]. eauto 6.
Qed.

(** Threads that share a cache and make calls that lock one shard, with
    arguments in range, memory available and no shard that sees more than 253
    keys. Whatever the schedule, the results they get are those of the history
    [List.map call (order evs)] executed on the cache one call at a time, which the
    abstract cache of Spec.v allows; and once nobody is in the middle of a call the
    shards are those of that history. (Its order respects real time and the
    programs: C24_linearizable, C24_real_time.) *)
Theorem C24_cache : forall o al ch0 keys (ps : list (prog (out result) (env * call))) sched c evs,
  cache_new (ctx_of o) al = Ok (Some ch0) ->
  few_keys (ctx_of o) keys ->
  Forall (only _ _ (fun i p => call_shard (ctx_of o) p = Some i /\ args_fine (ctx_of o) (fst p) (snd p) /\
    match snd p with Store key _ _ _ => In key keys | _ => True end)) ps ->
  exec (call_sem (ctx_of o)) (initial (ca_next ch0) (ca_shards ch0) ps) sched = (c, evs) ->
  exists ch rs es w0 w,
    run (ctx_of o) ch0 (List.map (fun x => snd (fst x)) (order evs)) = Ok (ch, rs, es) /\
    List.map snd (order evs) = List.map Ok rs /\
    (quiet c -> st_shards c = ca_shards ch) /\
    (forall k, w_map w0 k = None) /\
    spec_run (op_usecas o) (op_noevict o) (route (ctx_of o)) w0
      (List.map (fun x => snd (fst x)) (order evs)) w rs.
Proof.
  intros o al ch0 keys ps sched c evs NEW FEW F E.
  destruct (C24_linearizable _ _ _ _ _ _ _ _ _ _ _ E) as ((ll & O & Q) & _ & _).
  pose proof (exec_only _ _ _ _ _ _ _ _ _ _ _ _ F E) as ALL.
  assert (FO : Forall (fun x => call_shard (ctx_of o) (snd (fst x)) = Some (fst (fst x)) /\
     args_fine (ctx_of o) (fst (snd (fst x))) (snd (snd (fst x))) /\
     match snd (snd (fst x)) with Store key _ _ _ => In key keys | _ => True end) (order evs)).
  { rewrite Forall_forall. intros [[i p] r] J. unfold order in J. apply in_flat_map in J.
    destruct J as (e & J & K). destruct e; cbn in K; try tauto. destruct K as [K|[]]. inversion K; subst.
    cbn [fst snd]. eapply ALL. exact J. }
  destruct (C01_history o al ch0 (List.map (fun x => snd (fst x)) (order evs)) NEW) as (ch & rs & es & w0 & w & RUN & W0 & _ & SP).
  - rewrite Forall_forall in *. intros p J. apply in_map_iff in J. destruct J as (x & <- & J). apply FO. exact J.
  - intros i ks ND H. apply (FEW i ks ND). intros k J. destruct (H k J) as [J1 J2]. split; [|exact J2].
    destruct (stored_in _ _ J1) as (en & v & so & t & J3). apply in_map_iff in J3. destruct J3 as (x & EX & J3).
    rewrite Forall_forall in FO. destruct (FO _ J3) as (_ & _ & K). rewrite EX in K. exact K.
  - exists ch, rs, es, w0, w. split; [exact RUN|].
    destruct ch0 as [n0 l0]. cbn [ca_next ca_shards] in *.
    assert (FS : Forall (fun x => call_shard (ctx_of o) (snd (fst x)) = Some (fst (fst x))) (order evs)).
    { eapply Forall_impl; [|exact FO]. intros x K. apply K. }
    destruct (history_of (ctx_of o) _ _ _ _ _ _ _ _ O FS RUN) as [-> ER].
    split; [exact ER|]. split; [exact Q|]. split; [exact W0|exact SP].
Qed.

(** *** Cases on the cache of PropCache.v *)
Definition call_at (en : env) (x : call) (k : out result -> prog (out result) (env * call)) :=
  match call_shard demo_c (en, x) with
  | Some i => Do false i (en, x) k
  | None => Stop
  end.
Definition writer (v : bytes) : prog (out result) (env * call) :=
  call_at (plenty_env 100) (Store [107; 49] v plain_store 0)%N (fun _ =>
  call_at (plenty_env 101) (Load [107; 49] look 0)%N (fun _ =>
  call_at (plenty_env 102) (Delete [107; 50] None 0)%N (fun _ => Stop))).
Definition pair_threads := initial (ca_next demo_new) (ca_shards demo_new) [writer [118; 49]%N; writer [119]%N].
Lemma writer_fine : forall v, bytes_ok v -> (length v <= 100)%nat ->
  only _ _ (fun i p => call_shard demo_c p = Some i /\ args_fine demo_c (fst p) (snd p) /\
    match snd p with Store key _ _ _ => In key [[107; 49]%N] | _ => True end) (writer v).
Proof.
  intros v V L. unfold writer, call_at, call_shard. cbn [fst snd only].
  split; [|intros _; split; [|intros _; split; [|intros _; exact I]]].
  - split; [reflexivity|]. cbn [args_fine]. split; [|left; reflexivity]. split; [|reflexivity].
    apply small_store; try assumption; try reflexivity; cbn; try lia. repeat constructor; lia.
  - split; [reflexivity|]. cbn [args_fine]. split; [|exact I]. intros g w u H1 H2. cbn in H1. injection H1 as <-. discriminate.
  - split; [reflexivity|]. cbn [args_fine]. auto.
Qed.
Definition statuses (l : list (nat * (env * call) * out result)) : list (option status) :=
  List.map (fun x => match snd x with Ok (RStatus s _) => Some s | _ => None end) l.
Example C24_case :
  cache_new demo_c (fun _ => true) = Ok (Some demo_new) /\
  few_keys demo_c [[107; 49]%N] /\
  Forall (only _ _ (fun i p => call_shard demo_c p = Some i /\ args_fine demo_c (fst p) (snd p) /\
    match snd p with Store key _ _ _ => In key [[107; 49]%N] | _ => True end)) [writer [118; 49]%N; writer [119]%N] /\
  (let '(c, evs) := exec (call_sem demo_c) pair_threads (rounds 20) in
   statuses (order evs) = [Some INSERTED; Some REPLACED; Some FOUND; Some FOUND; Some NOTFOUND; Some NOTFOUND]).
Proof.
  split; [reflexivity|]. split; [|split].
  - intros i ks ND H. assert (L : (length ks <= length [[107; 49]%N])%nat).
    { apply NoDup_incl_length; [exact ND|]. intros k J. apply H. exact J. }
    cbn in L. lia.
  - apply Forall_cons; [apply writer_fine; [repeat constructor; lia|cbn; lia]|].
    apply Forall_cons; [apply writer_fine; [repeat constructor; lia|cbn; lia]|constructor].
  - vm_compute. reflexivity.
Qed.

(** A call on all shards is not atomic: a count can give a number of items the
    cache never had. The cache holds one item; another thread deletes it and then
    stores one in the other shard; a count of both shards meanwhile gives 2. *)
Definition counter : prog (out result) (env * call) :=
  call_at (plenty_env 200) (Count (Some 0))%Z (fun _ => call_at (plenty_env 200) (Count (Some 1))%Z (fun _ => Stop)).
Definition mover : prog (out result) (env * call) :=
  call_at (plenty_env 200) (Delete [107; 51] None 0)%N (fun _ =>
  call_at (plenty_env 200) (Store [107; 49] [118] plain_store 0)%N (fun _ => Stop)).
Definition one_item : cache :=
  match step demo_c (plenty_env 100) demo_new (Store [107; 51] [118] plain_store 0)%N with
  | Ok (ch, _, _) => ch | Bad _ => demo_new end.
(** The number of items after each of the calls, in the order they took place. *)
Definition counts (ch : cache) (h : list (env * call)) : list (option result) :=
  List.map (fun n => match run demo_c ch (firstn n h ++ [(plenty_env 200, Count None)]) with
    | Ok (_, rs, _) => Some (last rs RVoid) | Bad _ => None end) (seq 0 (S (length h))).
Definition got (t : nat) (evs : list (tevent (out result) (env * call))) : list (out result) :=
  flat_map (fun e => match e with ELin u _ _ _ r => if (u =? t)%nat then [r] else [] | _ => [] end) evs.
Theorem C24_count_refuted : exists sched,
  let evs := snd (exec (call_sem demo_c) (initial (ca_next one_item) (ca_shards one_item) [counter; mover]) sched) in
  got 0 evs = [Ok (RNum 1); Ok (RNum 1)] /\
  counts one_item (List.map (fun x => snd (fst x)) (order evs)) =
    [Some (RNum 1); Some (RNum 1); Some (RNum 0); Some (RNum 1); Some (RNum 1)].
Proof.
  exists (repeat (0%nat, false) 5 ++ repeat (1%nat, false) 20 ++ repeat (0%nat, false) 5). vm_compute. auto.
Qed.
