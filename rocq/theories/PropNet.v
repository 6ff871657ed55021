(** C56: the event loop hands every connection its own bytes and sends it its own
    answers, in order. *)
From Verif Require Import Base Net NetSpec NetProofs NetProofs2.
From Coq Require Import Lia Permutation.

(** For every handler, whatever clients, system and background threads do (as far as
    they can): either the thread waits for a client to take bytes, or all is well after
    each round: no assertion has failed, no queue has overflowed and no freed connection was used, and for
    every connection, open or closed, the handler got what came in, packet by packet,
    and the client was sent what the handlers wrote, in order and before more was read;
    all of it, unless a write failed. *)
Theorem C56_loop : forall A G J opened data work done size ss g,
  possible_all A G J opened data work done size ss (thread_new g) ->
  nrun opened data work done size ss (thread_new g) = NBad NStuck \/
  exists t, nrun opened data work done size ss (thread_new g) = NOk t /\
    (forall c, In c (t_conns t) -> served A G J opened data done c) /\
    (forall c, In c (t_gone t) -> ended A G J opened data done c).
Proof.
  intros A G J opened data work done size ss g P.
  assert (Tl : Forall (told G (fun _ => True) (fun _ => True) (fun _ => True)) ss) by (apply Forall_forall; intros [w es|fd|f] _; cbn; auto).
  destruct (run_ok A G J opened data work done (fun _ => True) (fun _ => True) (fun _ => True) size ss _ Tl (inv_new A G J opened data done g) P) as [E|(t & E & _ & I)]; [left; exact E|].
  right. exists t. split; [exact E|]. split.
  - intros c C. apply good_served. exact (i_ok _ _ _ _ _ _ _ _ I c C).
  - exact (i_gone _ _ _ _ _ _ _ _ I).
Qed.
(** The thread is a server that handles one packet at a time, to the end, and that opens, refuses
    and closes connections only as the specification says: what the handlers got and
    answered, what they made of their data and of what they share, and which connections are open
    and which are closed is what it could have been on such a server, where writes fail only
    to connections where the system said so, connections end only where the system said so, and
    other threads do only what they may. *)
Theorem C56_serial : forall A G J opened data work done failing ending meddling size ss g t,
  possible_all A G J opened data work done size ss (thread_new g) -> Forall (told G failing ending meddling) ss ->
  nrun opened data work done size ss (thread_new g) = NOk t ->
  ssteps A G J opened data work done failing ending meddling (mkServer A G J g [] []) (view A G J t).
Proof.
  intros A G J opened data work done failing ending meddling size ss g t P Tl E.
  destruct (run_ok A G J opened data work done failing ending meddling size ss _ Tl (inv_new A G J opened data done g) P) as [E2|(t2 & E2 & V & _)]; rewrite E2 in E; [discriminate|].
  injection E as <-. exact V.
Qed.
(** Connections without an event are left alone. *)
Theorem C56_others : forall A G J opened data done size w es (t t' : thread A G J) c,
  In c (t_conns t) -> ~ In (c_fd c) (map e_fd es) -> round opened data done size w es t = NOk t' -> In c (t_conns t').
Proof. exact round_keeps. Qed.

(** *** A handler for the cases *)
(** Every byte is echoed and counted; "b" starts a background job that answers "B" and adds
    100 to the count; "c" closes the connection. What follows "b" waits for the job. *)
Fixpoint eat (s out : bytes) (g : nat) : hres bytes nat unit :=
  match s with
  | [] => HDone [] g out false
  | x :: r => if (x =? 98)%N then HBack r g out tt (r, g, [33%N]) else if (x =? 99)%N then HDone r g out true else eat r (out ++ [x]) (S g)
  end.
Definition demo_data (p a : bytes) (g : nat) : hres bytes nat unit := eat (a ++ p) [] g.
Definition demo_work (j : unit) (g : nat) : unit * nat := (j, 100 + g)%nat.
Definition demo_done (j : unit) (a : bytes) : bytes * bytes * bool := (a, [66%N], false).
(** Answers: reads by descriptor, every write takes all. *)
Definition demo_answers (r : nat -> rres) : answers nat :=
  mkAnswers r (fun _ _ => [WAgain; WTook 1; WTook 100]) (fun _ => true) (fun _ g => g) None.
Definition demo_read (l : list (nat * rres)) (fd : nat) : rres :=
  match find (fun p => (fst p =? fd)%nat) l with Some (_, r) => r | None => RAgain end.
Notation demo_run := (nrun [] demo_data demo_work demo_done 8).
Notation demo_possible := (possible_all bytes nat unit [] demo_data demo_work demo_done 8).
(** Connection 5 sends "xb1", connection 6 "yz"; the job ends; 6 hangs up. *)
Definition demo_steps : list (nstep nat) :=
  [SRound (demo_answers (demo_read [(5, RData [120; 98; 49]%N); (6, RData [121; 122]%N)])) [mkEvent 5 true; mkEvent 6 true]; SFinish 5;
   SRound (demo_answers (demo_read [(6, REof)])) [mkEvent 6 false; mkEvent 5 false]].
Definition demo_end : thread bytes nat unit :=
  mkThread
    [mkNconn 5 false [] None [] (Some false) false
       [Got [120; 98; 49]%N; Fed [120; 98; 49]%N 0; Said [120%N]; Sent [120%N] true; Worked tt; Said [66%N]; Sent [66%N] true;
        Got []; Fed [] 103; Said [49%N]; Sent [49%N] true]] 104
    [mkNconn 6 false [] None [] (Some false) false [Got [121; 122]%N; Fed [121; 122]%N 1; Said [121; 122]%N; Sent [121; 122]%N true; Over]].
Lemma demo_ran : demo_run demo_steps (thread_new 0) = NOk demo_end.
Proof. vm_compute. reflexivity. Qed.
Lemma possible_next : forall size s ss (t t' : thread bytes nat unit), possible bytes nat unit size s t ->
  nstep_run [] demo_data demo_work demo_done size s t = NOk t' -> possible_all bytes nat unit [] demo_data demo_work demo_done size ss t' ->
  possible_all bytes nat unit [] demo_data demo_work demo_done size (s :: ss) t.
Proof. intros size s ss t t' P E H. split; [exact P|]. intros t2 E2. assert (Q : NOk t' = NOk t2) by (rewrite <- E; exact E2). injection Q as <-. exact H. Qed.
Ltac nodups := repeat (apply NoDup_cons; [cbn; intuition discriminate|]); apply NoDup_nil.
Ltac watched := let c := fresh in let H := fresh in intros c H _; cbn in H; repeat (destruct H as [H|H]; [subst c; discriminate|]); contradiction.
Example C56_case : demo_possible demo_steps (thread_new 0) /\ demo_run demo_steps (thread_new 0) = NOk demo_end.
Proof.
  split; [|exact demo_ran]. unfold demo_steps. eapply possible_next; [|vm_compute; reflexivity|].
  - split; [cbn; lia|]; split; [cbn; nodups|]; split; [intros c []|discriminate].
  - eapply possible_next; [|vm_compute; reflexivity|].
    + cbn. eexists. split; [right; left; reflexivity|]. auto.
    + eapply possible_next; [|vm_compute; reflexivity|exact I]. split; [cbn; lia|]; split; [cbn; nodups|]; split; [watched|discriminate].
Qed.
(** No write fails, only connection 6 ends and other threads do nothing. *)
Definition idle (f : nat -> nat) : Prop := f = fun g => g.
Example C56_serial_case : Forall (told nat (fun _ => False) (fun fd => fd = 6%nat) idle) demo_steps /\
  ssteps bytes nat unit [] demo_data demo_work demo_done (fun _ => False) (fun fd => fd = 6%nat) idle (mkServer bytes nat unit 0%nat [] []) (view bytes nat unit demo_end).
Proof.
  assert (T : Forall (told nat (fun _ => False) (fun fd => fd = 6%nat) idle) demo_steps).
  { assert (R : forall l fd, In (fd, demo_read l fd) l \/ demo_read l fd = RAgain).
    { intros l fd. unfold demo_read. destruct (find _ l) as [[x r]|] eqn:F; [left|right; reflexivity]. apply find_some in F. destruct F as [F1 F2]. apply Nat.eqb_eq in F2. cbn in F2. subst x. exact F1. }
    assert (T : forall l es, (forall fd r, In (fd, r) l -> r = REof \/ r = RErr -> fd = 6%nat) -> told nat (fun _ => False) (fun fd => fd = 6%nat) idle (SRound (demo_answers (demo_read l)) es)).
    { intros l es H fd. split; [intros [[k K]|[u [K _]]]; [cbn in K; intuition discriminate|discriminate]|]. split; [|reflexivity]. cbn. intro Q.
      destruct (R l fd) as [S|S]; [exact (H fd _ S Q)|rewrite S in Q; destruct Q; discriminate]. }
    unfold demo_steps. constructor; [|constructor; [exact I|constructor; [|constructor]]]; apply T; cbn; intros fd r K Q;
      repeat (destruct K as [K|K]; [injection K as <- <-; first [reflexivity | destruct Q; discriminate]|]); destruct K. }
  split; [exact T|]. refine (C56_serial _ _ _ _ _ _ _ _ _ _ 8 demo_steps 0%nat demo_end _ T demo_ran). exact (proj1 C56_case).
Qed.
(** A connection without an event: 5 in the round in which only 6 has one. *)
Example C56_others_case : exists (t t' : thread bytes nat unit) c w,
  In c (t_conns t) /\ ~ In (c_fd c) (map e_fd [mkEvent 6 false]) /\ round [] demo_data demo_done 8 w [mkEvent 6 false] t = NOk t' /\ length (t_gone t') = 1%nat.
Proof.
  destruct (demo_run [SRound (demo_answers (demo_read [(5, RData [120]%N); (6, RData [121; 122]%N)])) [mkEvent 5 true; mkEvent 6 true]] (thread_new 0)) as [t|] eqn:E; [|vm_compute in E; discriminate].
  exists t. vm_compute in E. injection E as <-. eexists. eexists. exists (demo_answers (demo_read [(6, REof)])). split; [right; left; reflexivity|].
  split; [cbn; intuition discriminate|]. split; vm_compute; reflexivity.
Qed.

(** *** What does not hold *)
(** io_uring may complete what was submitted in any order. Then a handler gets bytes that were not
    sent: here the packets of two connections are completed in the other order, and connection
    5, which sent "x", is handled as if it had sent "x" and a byte of an earlier packet, which came from
    another client. [src/net.c:748-763] *)
Theorem C56_uring_refuted : exists w es t c,
  Permutation (u_reads (mkUring (fun _ => WTook 100) (@rev nat) (fun l => l) (fun _ => [115; 101]%N)) [5; 6]) [5; 6] /\
  a_uring w = Some (mkUring (fun _ => WTook 100) (@rev nat) (fun l => l) (fun _ => [115; 101]%N)) /\
  round [] demo_data demo_done 8 w es (thread_new 0) = NOk t /\ In c (t_conns t) /\
  gots nat unit (c_acts c) = [[120%N]] /\ feds nat unit (c_acts c) = [[120; 101]%N].
Proof.
  exists (mkAnswers (demo_read [(5, RData [120]%N); (6, RData [121; 122]%N)]) (fun _ _ => []) (fun _ => true) (fun _ g => g)
    (Some (mkUring (fun _ => WTook 100) (@rev nat) (fun l => l) (fun _ => [115; 101]%N)))), [mkEvent 5 true; mkEvent 6 true].
  eexists. eexists. split; [apply perm_swap|]. split; [reflexivity|]. split; [vm_compute; reflexivity|]. split; [right; left; reflexivity|]. split; reflexivity.
Qed.
(** A client that sends a command and does not take the answer keeps the thread busy: the
    round does not end however often the write is tried, and connection 6, which has sent "y",
    gets no answer. [src/net.c:692-695] *)
Theorem C56_wait_refuted : forall n,
  round [] demo_data demo_done 8
    (mkAnswers (demo_read [(5, RData [120]%N); (6, RData [121]%N)]) (fun _ fd => if (fd =? 5)%nat then repeat WAgain n else [WTook 1]) (fun _ => true) (fun _ g => g) None)
    [mkEvent 5 true; mkEvent 6 true] (thread_new 0) = NBad NStuck.
Proof.
  intro n. assert (F : flush_loop [120%N] (repeat WAgain n) = None) by (induction n as [|n IH]; [reflexivity|exact IH]).
  revert F. generalize (repeat WAgain n). intros ws F. unfold round.
  do 4 match goal with |- nbind ?x _ = _ => let y := eval vm_compute in x in replace x with y by (vm_compute; reflexivity); cbn [nbind] end.
  match goal with |- context [write_results ?w ?r ?o] => let y := eval vm_compute in (write_results w r o) in replace (write_results w r o) with y by (vm_compute; reflexivity) end.
  cbn [qwrite]. unfold qwrite_one at 1. match goal with |- context [use_conn ?f ?t] => let y := eval vm_compute in (use_conn f t) in replace (use_conn f t) with y by (vm_compute; reflexivity) end.
  cbn [nbind a_write Nat.eqb]. unfold flush at 1. cbn [c_out]. rewrite F. reflexivity.
Qed.
(** What came in before the end of the stream is not always handled: a client sends "b1" and
    hangs up. After the job the connection is closed, and "1", though received, is not counted;
    without hanging up it is. [src/net.c:706-728, 658-680] *)
Theorem C56_eof_refuted :
  let steps last := [SRound (demo_answers (demo_read [(5, RData [98; 49]%N)])) [mkEvent 5 true]; SFinish 5; SRound (demo_answers (demo_read [(5, last)])) [mkEvent 5 false]] in
  (exists t, demo_run (steps REof) (thread_new 0) = NOk t /\ t_shared t = 100%nat) /\
  (exists t, demo_run (steps RAgain) (thread_new 0) = NOk t /\ t_shared t = 101%nat).
Proof. split; eexists; (split; [vm_compute; reflexivity|reflexivity]). Qed.
(** When the thread for a job cannot be created, the connection is never served again, nor
    closed, whatever happens: the result of [pthread_create] is compared with -1. [src/net.c:1285] *)
Theorem C56_thread_refuted : exists t c,
  demo_run [SRound (mkAnswers (demo_read [(5, RData [98; 49]%N)]) (fun _ _ => []) (fun _ => false) (fun _ g => g) None) [mkEvent 5 true]] (thread_new 0) = NOk t /\
  In c (t_conns t) /\ c_fd c = 5%nat /\ feds nat unit (c_acts c) = [[98; 49]%N] /\
  forall ss t', demo_possible ss t -> demo_run ss t = NOk t' -> In c (t_conns t').
Proof.
  set (s := SRound _ _).
  destruct (round_ok bytes nat unit [] demo_data demo_work demo_done (fun _ => True) (fun _ => True) (fun _ => True) 8 (mkAnswers (demo_read [(5, RData [98; 49]%N)]) (fun _ _ => []) (fun _ => false) (fun _ g => g) None) [mkEvent 5 true] (thread_new 0)) as [E|(t & E & _ & I)].
  - cbn. auto.
  - apply inv_new.
  - split; [cbn; lia|]; split; [cbn; nodups|]; split; [intros c []|discriminate].
  - vm_compute in E. discriminate.
  - exists t. vm_compute in E. injection E as <-. eexists. split; [vm_compute; reflexivity|]. split; [left; reflexivity|]. split; [reflexivity|]. split; [reflexivity|].
    intros ss t' P R. refine (lost_forever _ _ _ _ _ _ _ 8 ss _ t' _ _ I _ _ _ P R); [left; reflexivity|discriminate|reflexivity|reflexivity].
Qed.
