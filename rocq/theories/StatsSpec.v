(** What the counters of STATS should show: the vocabulary of C68. Nothing here
    has a counterpart in the code. *)
From Verif Require Import Base Stats.
Local Open Scope N_scope.

(** *** Vocabulary of the statements *)
(** Somebody counted a [k]. *)
Definition is_inc (k : kind) (e : ev) : bool := match e with EInc _ k' => kind_eqb k' k | _ => false end.
(** Thread [t] counted a [k]. *)
Definition is_own (t : nat) (k : kind) (e : ev) : bool :=
  match e with EInc t' k' => (t' =? t)%nat && kind_eqb k' k | _ => false end.
(** Thread [t] added its [k] to the total. *)
Definition is_flush (t : nat) (k : kind) (e : ev) : bool :=
  match e with EFlush t' k' => (t' =? t)%nat && kind_eqb k' k | _ => false end.
(** Thread [t] has finished a round of its loop. *)
Definition is_round (t : nat) (e : ev) : bool := match e with ERound t' => (t' =? t)%nat | _ => false end.
(** 1 or 0. *)
Definition one (b : bool) : N := if b then 1 else 0.
(** Number of events. *)
Fixpoint number (p : ev -> bool) (tr : list ev) : N :=
  match tr with [] => 0 | e :: r => one (p e) + number p r end.
(** Number of [p] events with a [q] event after them. *)
Fixpoint before (p q : ev -> bool) (tr : list ev) : N :=
  match tr with [] => 0 | e :: r => one (p e && existsb q r) + before p q r end.
(** Number of increments whose thread made the total up to date after them. *)
Fixpoint settled (k : kind) (tr : list ev) : N :=
  match tr with
  | [] => 0
  | e :: r => one (match e with EInc t k' => kind_eqb k' k && existsb (is_flush t k) r | _ => false end)
              + settled k r
  end.
(** How often the processing of a packet counts a [k]. *)
Definition incs (k : kind) (acts : list act) : N :=
  N.of_nat (length (filter (fun a => match a with Incr k' => kind_eqb k' k | _ => false end) acts)).
(** No call of ctx->data counts 2^32 times. *)
Definition few_call (d : dcall) : Prop := forall k, incs k (snd d) < 2 ^ 32.
(** For all packets. *)
Definition few (r : rounds) : Prop := Forall (Forall few_call) r.

