(** Commands on one key call the cache at most once, or do it in a batch: proofs for C83. *)
From Verif Require Import Base Types Clamp Entry Hash Map Shard Cache Text IntText CmdTable CmdSpec Prog Cmds CmdsProofs CmdTableProofs PropFrame Weave WeaveSpec WeaveProofs.
From Coq Require Import String Lia Permutation.
Notation length := List.length.
Notation map := List.map.
Lemma no_puts : forall ws k, no_call k -> no_call (puts ws k).
Proof. induction ws as [|w ws IH]; intros k H; cbn; [exact H|apply IH; exact H]. Qed.
Lemma no_answer : forall ws, no_call (answer ws).
Proof. intro ws. apply no_puts. exact I. Qed.
Lemma no_one : forall p, no_call p -> one_call p.
Proof. induction p as [|w k IH|k IH|k IH|k IH|x k IH|d q _ k IH|t|]; cbn; auto. intros []. Qed.
Lemma one_puts : forall ws k, one_call k -> one_call (puts ws k).
Proof. induction ws as [|w ws IH]; intros k H; cbn; [exact H|apply IH; exact H]. Qed.
Lemma one_need : forall x k, (forall z, one_call (k z)) -> one_call (need x k).
Proof. intros x k C. unfold need. destruct x; [apply C|exact I]. Qed.
Lemma one_error : forall m, one_call (error m).
Proof. intro m. exact I. Qed.
Lemma no_error : forall m, no_call (error m).
Proof. intro m. exact I. Qed.
Ltac ones :=
  repeat first [exact I | assumption | apply one_error | apply no_error | apply no_answer | apply no_puts | (apply no_one; apply no_answer) | apply one_puts | apply one_need; intro
    | match goal with |- one_call (match ?x with _ => _ end) => destruct x end
    | match goal with |- one_call (if ?x then _ else _) => destruct x end
    | match goal with |- no_call (match ?x with _ => _ end) => destruct x end
    | match goal with |- no_call (if ?x then _ else _) => destruct x end
    | progress (cbn [one_call no_call]; intros) ].
Lemma one_execSET : forall pr name now key val e nx xx get kt fl cas wc, one_call (execSET pr name now key val e nx xx get kt fl cas wc).
Proof. intros. unfold execSET. ones. Qed.
Lemma one_time : forall pr now e k, (forall z, one_call (k z)) -> one_call (expiry_seconds_time pr now e k).
Proof. intros pr now e0 k C. unfold expiry_seconds_time. ones; apply C. Qed.
Lemma one_expiry : forall pr now kind z k, (forall z, one_call (k z)) -> one_call (set_expiry pr now kind z k).
Proof. intros pr now kind z0 k C. unfold set_expiry. ones; first [apply one_time; exact C | apply C]. Qed.
Lemma one_set_loop : forall pr now k, (forall s, one_call (k s)) -> forall n rest s, (length rest <= n)%nat -> one_call (set_loop pr now rest s k).
Proof.
  intros pr now k C. induction n as [|n IH]; intros rest s L; destruct rest as [|w r]; cbn [set_loop]; [apply C|cbn in L; lia|apply C|].
  cbn [length] in L. destruct (ex_word w).
  - destruct r as [|v r']; [apply one_error|]. destruct (parse_i64 v); [|apply one_error]. apply one_expiry. intro e9. apply IH. cbn [length] in L. lia.
  - repeat match goal with |- one_call (if ?x then _ else _) => destruct x end; try (apply IH; lia); try apply one_error;
    (destruct r as [|v r']; [apply one_error|]; destruct (parse_u64 v); [|apply one_error]; apply IH; cbn [length] in L; lia).
Qed.
Lemma one_SET : forall pr args, one_call (cmdSET pr args).
Proof.
  intros pr args. unfold cmdSET. destruct args as [|a [|k [|v rest]]]; try apply one_error. cbn [one_call]. intro i. cbv zeta.
  eapply one_set_loop; [|apply le_n]. intro s. ones. apply one_execSET.
Qed.
Lemma one_SETEX : forall pr args, one_call (cmdSETEX pr args).
Proof. intros pr args. unfold cmdSETEX. ones; apply one_execSET. Qed.
Lemma one_GET : forall pr args, one_call (cmdGET pr args).
Proof. intros pr args. unfold cmdGET. ones. Qed.
Lemma one_TTL : forall pr args, one_call (cmdTTL pr args).
Proof. intros pr args. unfold cmdTTL. ones. Qed.
Lemma one_EXPIRE : forall pr args, one_call (cmdEXPIRE pr args).
Proof. intros pr args. unfold cmdEXPIRE. ones. Qed.
Lemma one_AUTH : forall pw pr args, one_call (cmdAUTH pw pr args).
Proof. intros pw pr args. unfold cmdAUTH. ones. Qed.
Lemma one_ECHO : forall pr args, one_call (cmdECHO pr args).
Proof. intros pr args. unfold cmdECHO. ones. Qed.
Lemma one_PING : forall pr args, one_call (cmdPING pr args).
Proof. intros pr args. unfold cmdPING. ones. Qed.
Lemma one_DEL : forall pr a0 key, one_call (cmdDEL pr [a0; key]).
Proof. intros pr a0 key. unfold cmdDEL. cbn [List.tl del_loop]. ones. Qed.
Lemma one_EXISTS : forall pr a0 key, one_call (cmdEXISTS pr [a0; key]).
Proof. intros pr a0 key. unfold cmdEXISTS. cbn [List.tl found_loop]. ones. Qed.
Lemma one_TOUCH : forall pr a0 key, one_call (cmdTOUCH pr [a0; key]).
Proof. intros pr a0 key. unfold cmdTOUCH. cbn [List.tl found_loop]. ones. Qed.
Lemma one_MGET : forall pr a0 key, one_call (cmdMGET pr [a0; key]).
Proof. intros pr a0 key. unfold cmdMGET. cbn [List.tl mget_loop]. ones. Qed.
Lemma single_ok : forall cf auth pr args, single args -> in_batch args = true \/ one_call (evcommand cf auth pr args).
Proof.
  intros cf auth pr args S. unfold evcommand, in_batch.
  destruct (cf_useauth cf && negb auth && negb (is_http pr)); [right; apply one_AUTH|].
  destruct S as [(a0 & rest & w & -> & Iw & W)|(a0 & key & w & -> & Iw & W)]; cbn [hd].
  - assert (G : forall i, nth_error cmd_names i = Some (bs w) -> get_cmd a0 = Some (Some i)) by (intros i; exact (get_at a0 w i W)).
    cbn [single_names In] in Iw.
    repeat (destruct Iw as [<-|Iw]; [first [rewrite (G 0%nat eq_refl)|rewrite (G 1%nat eq_refl)|rewrite (G 5%nat eq_refl)|rewrite (G 6%nat eq_refl)|rewrite (G 7%nat eq_refl)|rewrite (G 8%nat eq_refl)
      |rewrite (G 26%nat eq_refl)|rewrite (G 27%nat eq_refl)|rewrite (G 24%nat eq_refl)|rewrite (G 25%nat eq_refl)|rewrite (G 30%nat eq_refl)|rewrite (G 31%nat eq_refl)|rewrite (G 28%nat eq_refl)|rewrite (G 29%nat eq_refl)
      |rewrite (G 32%nat eq_refl)|rewrite (G 33%nat eq_refl)|rewrite (G 11%nat eq_refl)|rewrite (G 21%nat eq_refl)|rewrite (G 34%nat eq_refl)];
      first [left; reflexivity | right; cbn [cmd_func nth]; first [apply one_SET|apply one_GET|apply one_TTL|apply one_EXPIRE|apply one_SETEX|apply one_ECHO|apply one_PING|apply one_AUTH]]|]). destruct Iw.
  - assert (G : forall i, nth_error cmd_names i = Some (bs w) -> get_cmd a0 = Some (Some i)) by (intros i; exact (get_at a0 w i W)).
    cbn [many_names In] in Iw. right.
    repeat (destruct Iw as [<-|Iw]; [first [rewrite (G 2%nat eq_refl)|rewrite (G 3%nat eq_refl)|rewrite (G 4%nat eq_refl)|rewrite (G 12%nat eq_refl)|rewrite (G 22%nat eq_refl)];
      cbn [cmd_func nth]; first [apply one_DEL|apply one_MGET|apply one_EXISTS|apply one_TOUCH]|]). destruct Iw.
Qed.
