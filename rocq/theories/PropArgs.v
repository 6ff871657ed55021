(** C55: arguments and buffers hold what was put into them, and their memory is freed
    once. *)
From Verif Require Import Base Text Varint VarintProofs Args ArgsSpec ArgsProofs ArgsProofs2.
From Coq Require Import String Lia.
Local Open Scope N_scope.
Notation length := List.length.

(** Whatever is done with any number of lists: no memory is freed twice or used after it
    was freed, no access is out of bounds; the lists hold what they should, and every
    block of memory in use belongs to an argument. *)
Theorem C55_arguments : forall os l, does_all (fun _ => []) os l ->
  exists w m, perform_all os world_new mem_new = Fine (w, m) /\
    (forall k, args_texts (w k) m = Fine (map g_text (l k))) /\
    (forall i, m_block m i <> None -> belongs w i).
Proof.
  intros os l H. destruct (all_ok _ _ _ H _ _ _ _ ginv_new) as (w & m & used & rest & E & I). exists w, m. split; [exact E|]. split.
  - intro k. exact (list_texts _ _ _ _ _ (g_list _ _ _ _ _ I k)).
  - intros i Hi. destruct (g_live _ _ _ _ _ I i Hi) as (k & K). exact (ids_belong _ _ _ _ _ _ _ I K).
Qed.
(** When all lists are empty, no memory is left. *)
Theorem C55_no_leak : forall os l, does_all (fun _ => []) os l -> (forall k, l k = []) ->
  exists w m, perform_all os world_new mem_new = Fine (w, m) /\ forall i, m_block m i = None.
Proof.
  intros os l H Em. destruct (all_ok _ _ _ H _ _ _ _ ginv_new) as (w & m & used & rest & E & I). exists w, m. split; [exact E|]. intro i.
  destruct (m_block m i) eqn:B; [|reflexivity]. destruct (g_live _ _ _ _ _ I i) as (k & K); [rewrite B; discriminate|].
  assert (U := l_used _ _ _ _ _ (g_list _ _ _ _ _ I k)). rewrite Em in U. inversion U as [Q|]. rewrite <- Q in K. contradiction.
Qed.
(** A buffer holds what was appended, in order. *)
Theorem C55_buffer : forall os, bsmall os [] ->
  exists b m, bperform_all os buf_zero mem_new = Fine (b, m) /\ buf_text b m = Fine (fold_left (fun t o => bholds o t) os []).
Proof.
  assert (G : forall os t b m, wfm m -> filled m b t -> N.of_nat (length t) + 10 < 2 ^ 62 -> bsmall os t ->
    exists b' m', bperform_all os b m = Fine (b', m') /\ filled m' b' (fold_left (fun t o => bholds o t) os t)).
  { induction os as [|o os IH]; intros t b m W F L S.
    - exists b, m. split; [reflexivity|exact F].
    - destruct S as (V & L' & S). cbn [bperform_all fold_left].
      assert (X : exists b' m', bperform o b m = Fine (b', m') /\ filled m' b' (bholds o t) /\ wfm m').
      { destruct o as [s|x|x|x|]; cbn [bperform bholds bvalid] in *.
        - destruct (append_ok m b t s W F) as (b' & m' & A & B & C & _); [rewrite app_length in L'; lia|]. exists b', m'. auto.
        - destruct (byte_ok1 m b t x W F) as (b' & m' & A & B & C & _); [lia|]. exists b', m'. auto.
        - destruct (short_ok m b t _ W F (proj2 (varint_length x V)) L) as (b' & m' & A & B & C & _). exists b', m'. auto.
        - destruct (short_ok m b t (varint_write_i64 x) W F (proj2 (varint_length _ (proj1 (zigzag_roundtrip x V)))) L) as (b' & m' & A & B & C & _). exists b', m'. auto.
        - destruct (clear_ok m b W) as (m' & A & B & _); [right; exists t; exact F|]. exists buf_zero, m'. split; [exact A|]. split; [left; auto|exact B]. }
      destruct X as (b1 & m1 & E1 & F1 & W1). rewrite E1. cbn [rbind]. exact (IH _ _ _ W1 F1 L' S). }
  intros os S. destruct (G os [] buf_zero mem_new) as (b & m & E & F).
  - intros i H. exfalso. apply H. reflexivity.
  - left. auto.
  - reflexivity.
  - exact S.
  - exists b, m. split; [exact E|]. destruct (N.eqb_spec (bu_cap b) 0) as [Q|Q]; [|exact (filled_text _ _ _ F Q)].
    destruct F as [(A & B & C)|(i & blk & A & B & C & D & _)]; [|lia]. unfold buf_text, mread. rewrite B, C. reflexivity.
Qed.

(** *** Cases *)
(** Two lists: 0 is the list of the command, 1 the spare list. *)
Definition session : list aop :=
  [OAppend 1 (bs "GET"); OAppend 1 (bs "ke"); OJoin 1 (bs "y"); OSwap 0 1; OBorrow 0 (bs "z"); ORemove 0; OMove 0 3; OAppend 3 (bs "u")].
Example C55_case : exists l, does_all (fun _ => []) session l /\ map g_text (l 3%nat) = [bs "key"; bs "z"; bs "u"].
Proof.
  eexists. split.
  - unfold session. eapply does_next; [apply does_append; reflexivity|]. eapply does_next; [apply does_append; reflexivity|].
    eapply does_next; [apply (does_join _ _ _ [mkArg true (bs "GET")] (bs "ke")); reflexivity|].
    eapply does_next; [apply does_swap|]. eapply does_next; [apply does_borrow; reflexivity|].
    eapply does_next; [apply (does_remove _ _ (mkArg true (bs "GET")) [mkArg true (bs "key"); mkArg false (bs "z")]); [reflexivity|]|].
    { intros r y E. change [mkArg true (bs "key"); mkArg false (bs "z")] with ([mkArg true (bs "key")] ++ [mkArg false (bs "z")]) in E.
      apply app_inj_tail in E. destruct E as [_ <-]. reflexivity. }
    eapply does_next; [apply does_move; [discriminate|reflexivity]|]. eapply does_next; [apply does_append; reflexivity|]. apply does_none.
  - reflexivity.
Qed.
Example C55_no_leak_case : exists l, does_all (fun _ => []) [OAppend 0 (bs "a"); OBorrow 0 (bs "b"); OSwap 0 1; OFree 1] l /\ forall k, l k = [].
Proof.
  eexists. split.
  - eapply does_next; [apply does_append; reflexivity|]. eapply does_next; [apply does_borrow; reflexivity|]. eapply does_next; [apply does_swap|].
    eapply does_next; [apply does_free|]. apply does_none.
  - intros [|[|k]]; reflexivity.
Qed.
Example C55_buffer_case : bsmall [BAppend (bs "abc"); BByte 7; BVarint (-300)%Z; BClear; BUvarint 300] [].
Proof. unfold bsmall, bvalid, i64_ok, INT64_MIN, INT64_MAX. cbn [bholds]. repeat split; try (vm_compute; reflexivity); lia. Qed.

(** *** What does not hold *)
(** A Postgres client executes the statement [::text GET $1] with the parameter "k" and
    then sends the query [SET a b]. Dropping the first argument leaves a second
    reference to the last; the same memory is freed twice.
    [src/postgres.c:1555 pg_precommand, src/args.c:101-109, src/parse.c:109] *)
Theorem C55_remove_refuted :
  let execute := [OClear 1; OAppend 1 (bs "::text"); OAppend 1 (bs "GET"); OAppend 1 (bs "k"); OSwap 0 1; ORemove 0] in
  let query := [OClear 0; OBorrow 0 (bs "SET"); OBorrow 0 (bs "a"); OBorrow 0 (bs "b")] in
  (exists w m, perform_all execute world_new mem_new = Fine (w, m) /\ args_texts (w 0%nat) m = Fine [bs "GET"; bs "k"]) /\
  perform_all (execute ++ query) world_new mem_new = Fault FreeTwice.
Proof. split; [eexists; eexists; split; vm_compute; reflexivity|vm_compute; reflexivity]. Qed.
(** And the next Execute of a statement with three arguments writes to freed memory. *)
Theorem C55_reuse_refuted :
  let execute := fun a b c => [OClear 1; OAppend 1 a; OAppend 1 b; OAppend 1 c; OSwap 0 1] in
  perform_all (execute (bs "::text") (bs "GET") (bs "k") ++ [ORemove 0; OClear 0] ++ execute (bs "SET") (bs "a") (bs "b") ++ [OClear 0] ++
    execute (bs "SET") (bs "c") (bs "d")) world_new mem_new = Fault UseFreed.
Proof. vm_compute. reflexivity. Qed.
