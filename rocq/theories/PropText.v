(** C33, C35, C36, C45: command lookup, shard ranges of parallel commands,
    patterns, and integers as text. *)
From Verif Require Import Base Types Clamp Entry EntryProofs Hash Map MapProofs MapInv Shard
  Spec Trace ShardProofs ScanProofs LoopProofs Cache Refine Reach Observe PropCache Small PropMemory
  Text IntText IntTextProofs Glob GlobProofs CmdTable CmdTableProofs.
From Coq Require Import Permutation String.
Local Open Scope N_scope.

(** *** C45: integers as text *)

(** What is printed is the canonical decimal form, which is unique, and fits the
    21-byte buffers. *)
Theorem C45_print_u64 : forall x, x < 2 ^ 64 ->
  canonical (u64toa x) x /\ (forall ds, canonical ds x -> ds = u64toa x) /\ (List.length (u64toa x) <= 20)%nat.
Proof.
  intros x H. pose proof (u64toa_canonical x H) as C. split; [assumption|]. split.
  - intros ds D. exact (canonical_unique _ _ _ D C).
  - exact (canonical_length _ _ C H).
Qed.
Theorem C45_print_i64 : forall z, i64_ok z ->
  if (z <? 0)%Z then exists ds, i64toa z = 45 :: ds /\ canonical ds (Z.to_N (- z))
  else canonical (i64toa z) (Z.to_N z).
Proof.
  intros z [L U]. unfold INT64_MIN, INT64_MAX in *. unfold i64toa.
  destruct (Z.ltb_spec z 0) as [H|H].
  - destruct (Z.eqb_spec z INT64_MIN) as [->|_].
    + eexists. split; [reflexivity|]. vm_compute. split; [|split; [reflexivity|discriminate]].
      split; [discriminate|repeat constructor].
    + eexists. split; [reflexivity|]. apply u64toa_canonical. lia.
  - apply u64toa_canonical. lia.
Qed.
Theorem C45_roundtrip :
  (forall x, x < 2 ^ 64 -> parse_u64 (u64toa x) = Some x) /\
  (forall z, i64_ok z -> parse_i64 (i64toa z) = Some z).
Proof. split; [exact parse_print_u64|exact parse_print_i64]. Qed.
(** Exactly which strings are read, and as what. *)
Theorem C45_parse_i64 : forall s z, parse_i64 s = Some z <->
  (List.length s <= 21)%nat /\ i64_ok z /\
  ((s = [] /\ z = 0%Z) \/ exists neg x, reads s neg x /\ z = if neg then (- Z.of_N x)%Z else Z.of_N x).
Proof. exact parse_i64_spec. Qed.
Theorem C45_parse_u64 : forall s x, parse_u64 s = Some x <->
  (List.length s <= 21)%nat /\ hd 0 s <> 45 /\
  ((s = [] /\ x = 0) \/
   exists neg v, reads s neg v /\ v < 2 ^ 64 /\ x = if neg then u64 (2 ^ 64 - v) else v).
Proof. exact parse_u64_spec. Qed.
(** Of two readings of a string at most one is possible. *)
Theorem C45_reading_unique : forall s neg x neg' x', reads s neg x -> reads s neg' x' -> neg = neg' /\ x = x'.
Proof.
  intros s neg x neg' x' A B. apply reads_strto in A, B. rewrite A in B. inversion B. auto.
Qed.
Example C45_case :
  i64toa INT64_MIN = bs "-9223372036854775808" /\ parse_i64 (bs "-9223372036854775808") = Some INT64_MIN /\
  parse_i64 (bs "9223372036854775808") = None /\ u64toa (2 ^ 64 - 1) = bs "18446744073709551615" /\
  parse_u64 (bs "18446744073709551615") = Some (2 ^ 64 - 1) /\ parse_u64 (bs "18446744073709551616") = None /\
  parse_i64 (bs " +0042") = Some 42%Z /\ parse_i64 (bs "4 2") = None /\
  reads (bs " +0042") false 42.
Proof.
  repeat match goal with |- _ /\ _ => split end; try (vm_compute; reflexivity).
  exists (bs " "), (bs "+"), (bs "0042"). split; [reflexivity|]. split; [repeat constructor|].
  split; [right; reflexivity|]. split; [split; [discriminate|repeat constructor]|reflexivity].
Qed.
(** "Unsigned numbers reject a minus sign" is refuted when white space precedes
    it, and "only numbers are read" for the empty string. *)
Theorem C45_unsigned_minus_refuted : parse_u64 (bs " -1") = Some (2 ^ 64 - 1) /\ parse_u64 (bs "-1") = None.
Proof. split; vm_compute; reflexivity. Qed.
Theorem C45_empty_refuted : parse_u64 [] = Some 0 /\ parse_i64 [] = Some 0%Z /\ forall neg x, ~ reads [] neg x.
Proof. split; [reflexivity|]. split; [reflexivity|]. exact reads_nonempty. Qed.

(** *** C36: patterns *)
Theorem C36_glob : forall p s, no_escaped_any p = true -> (star_groups p <= 127)%nat ->
  (gmatch p 0 s = true <-> lang p s).
Proof. intros p s H1 H2. apply (gmatch_spec (List.length p)); auto. Qed.
Example C36_case :
  no_escaped_any (bs "us?r:*\**") = true /\ star_groups (bs "us?r:*\**") = 2%nat /\
  gmatch (bs "us?r:*\**") 0 (bs "user:1*2") = true /\ gmatch (bs "us?r:*\**") 0 (bs "user:12") = false /\
  lang (bs "us?r:*\**") (bs "user:1*2") /\ ~ lang (bs "us?r:*\**") (bs "user:12").
Proof.
  assert (A : no_escaped_any (bs "us?r:*\**") = true) by reflexivity.
  assert (B : (star_groups (bs "us?r:*\**") <= 127)%nat) by (vm_compute; lia).
  repeat match goal with |- _ /\ _ => split end; try (vm_compute; reflexivity).
  - apply C36_glob; [exact A|exact B|vm_compute; reflexivity].
  - intros L. apply C36_glob in L; [|exact A|exact B]. vm_compute in L. discriminate L.
Qed.
(** An escaped question mark still stands for any byte. *)
Theorem C36_escaped_any_refuted : gmatch (bs "\?") 0 (bs "a") = true /\ ~ lang (bs "\?") (bs "a").
Proof. split; [reflexivity|]. intros H. inversion H; subst; congruence. Qed.
(** With 128 groups of stars before the last byte nothing matches. The bytes
    [100], [101], ... as a string, and each after a star as a pattern. *)
Definition letters (n : nat) : bytes := List.map (fun i => N.of_nat (100 + i)) (seq 0 n).
Definition starred (n : nat) : bytes := flat_map (fun x => [42; x]) (letters n).
Theorem C36_many_stars_refuted :
  gmatch (starred 128) 0 (letters 128) = false /\ lang (starred 128) (letters 128) /\
  no_escaped_any (starred 128) = true /\ star_groups (starred 128) = 128%nat /\
  gmatch (starred 127) 0 (letters 127) = true.
Proof.
  split; [vm_compute; reflexivity|]. split.
  - unfold starred.
    assert (F : Forall (fun x => 100 <= x) (letters 128)).
    { unfold letters. apply Forall_map. apply Forall_forall. intros x _. lia. }
    induction F as [|x l X F IH]; [constructor|]. cbn [flat_map app].
    apply l_skip. apply l_lit; [lia|lia|lia|exact IH].
  - repeat split; vm_compute; reflexivity.
Qed.

(** *** C33: command names *)
(** [get_cmd s] is [None] when the probe leaves the table. *)
Theorem C33_lookup : forall s,
  (exists r, get_cmd s = Some r) /\
  (forall i, get_cmd s = Some (Some i) <-> nth_error cmd_names i = Some (lower s)) /\
  (get_cmd s = Some None <-> ~ In (lower s) cmd_names).
Proof.
  intros s. split; [|exact (get_cmd_spec s)].
  destruct (get_cmd s) as [r|] eqn:E; [exists r; reflexivity|destruct (get_cmd_total s E)].
Qed.
Theorem C33_names : NoDup cmd_names /\ List.length cmd_names = 40%nat /\
  forall s t, lower s = lower t -> get_cmd s = get_cmd t.
Proof.
  split; [|split; [exact names_len|]].
  - assert (D : forall l : list bytes, (fix nd l := match l with [] => true | x :: r => negb (existsb (beq x) r) && nd r end) l = true -> NoDup l).
    { induction l as [|x r IH]; intros H; [constructor|]. apply andb_true_iff in H. destruct H as [H1 H2].
      constructor; [|exact (IH H2)]. intros I. apply negb_true_iff in H1.
      assert (X : existsb (beq x) r = true) by (apply existsb_exists; exists x; split; [exact I|apply beq_refl]). congruence. }
    apply D. vm_compute. reflexivity.
  - intros s t E. rewrite (get_cmd_lower s), (get_cmd_lower t), E. reflexivity.
Qed.
Example C33_case :
  get_cmd (bs "GeT") = Some (Some 1%nat) /\ nth_error cmd_names 1 = Some (bs "get") /\
  get_cmd (bs "getx") = Some None /\ get_cmd [] = Some None.
Proof. repeat split; vm_compute; reflexivity. Qed.

(** *** C35: the ranges of parallel commands *)

(** Listing the ranges one after the other lists every shard, in order, once. *)
Theorem C35_ranges : forall procs nshards, (0 < procs)%nat -> (0 < nshards)%nat ->
  List.concat (List.map (fun p => seq (fst p) (snd p)) (ranges procs nshards)) = seq 0 nshards /\
  List.length (ranges procs nshards) = Nat.min procs nshards.
Proof.
  intros procs nshards P S. split; [exact (ranges_cover procs nshards P S)|].
  unfold ranges.
  assert (L : forall left i n sh st, List.length (ranges_loop left i n sh st) = left).
  { induction left as [|left IH]; intros; cbn [ranges_loop List.length]; [reflexivity|]. rewrite IH. reflexivity. }
  rewrite L. destruct (Nat.ltb_spec nshards procs); lia.
Qed.
Example C35_case : ranges 4 10 = [(0, 2); (2, 2); (4, 2); (6, 4)]%nat /\ ranges 8 3 = [(0, 1); (1, 1); (2, 1)]%nat.
Proof. split; reflexivity. Qed.

(** The calls of the workers of a parallel flush or sweep, in any interleaving:
    each shard of each range once. *)
Definition schedule (procs nshards : nat) (is : list nat) : Prop :=
  Permutation is (List.concat (List.map (fun p => seq (fst p) (snd p)) (ranges procs nshards))).

Section F.
Variable o : opts.
Let c := opts_to_ctx o.

Lemma schedule_in : forall ch procs is, reachable c ch -> (0 < procs)%nat -> schedule procs (N.to_nat (c_nshards c)) is ->
  forall key, In (route c key) is.
Proof.
  intros ch procs is R P S key. unfold schedule in S.
  assert (B : (0 < N.to_nat (c_nshards c))%nat) by (pose proof (opts_shards o) as B; fold c in B; lia).
  rewrite (proj1 (C35_ranges procs _ P B)) in S.
  apply (Permutation_in _ (Permutation_sym S)). apply in_seq.
  pose proof (reach_cinv o ch R) as C. pose proof (route_lt c (opts_load o) ch key C). pose proof (ci_len c ch C) as CL. lia.
Qed.

(** Whatever the interleaving, a parallel flush leaves nothing. *)
Theorem C35_flush : forall ch procs is (ens : nat -> env) df t, reachable c ch -> (0 < procs)%nat ->
  schedule procs (N.to_nat (c_nshards c)) is -> (forall i j, al_table (en_mem (ens i) j) = true) ->
  exists ch' rs evs,
    run c ch (List.map (fun i => (ens i, Clear (Some (Z.of_nat i)) df t)) is) = Ok (ch', rs, evs) /\
    reachable c ch' /\ forall key now, sees c ch' key now None.
Proof.
  intros ch procs is ens df t R P S M.
  pose proof (schedule_in ch procs is R P S) as I. clear S.
  assert (Q : exists ch' rs evs,
    run c ch (List.map (fun i => (ens i, Clear (Some (Z.of_nat i)) df t)) is) = Ok (ch', rs, evs) /\
    reachable c ch' /\ forall key, (In (route c key) is -> cabs c ch' key = None) /\
      (cabs c ch key = None -> cabs c ch' key = None)).
  { clear I. revert ch R. induction is as [|i is IH]; intros ch R; cbn [List.map run].
    - exists ch, [], []. split; [reflexivity|]. split; [exact R|]. intros key. cbn. tauto.
    - destruct (reachable_step c (opts_load o) (opts_shards o) ch (ens i) (Clear (Some (Z.of_nat i)) df t) R (M i))
        as (ch1 & r & ev & E & R1 & _ & Sp).
      destruct (IH ch1 R1) as (ch2 & rs & ev2 & E2 & R2 & K).
      exists ch2, (r :: rs), (ev ++ ev2). rewrite E, E2. split; [reflexivity|]. split; [exact R2|].
      intros key. destruct (K key) as [K1 K2]. inversion Sp; subst.
      match goal with H : sp_clear _ _ _ |- _ => specialize (H key); cbn [world_of w_map] in H; destruct H as [H1 H2] end.
      unfold sel in H1, H2. destruct (Nat.eq_dec (route c key) i) as [Ei|Ei].
      + split; intros _; apply K2; apply H1; rewrite Ei; reflexivity.
      + split.
        * intros [X|X]; [congruence|exact (K1 X)].
        * intros X. apply K2. rewrite H2; [exact X|]. intro Y. apply Ei. lia. }
  destruct Q as (ch' & rs & evs & E & R' & K). exists ch', rs, evs. split; [exact E|]. split; [exact R'|].
  intros key now. apply (sees_iff c (opts_load o)); [apply reach_cinv; exact R'|].
  unfold live_item. rewrite (proj1 (K key) (I key)). reflexivity.
Qed.

(** Whatever the interleaving, a parallel sweep at time [t] removes exactly the
    items expired then: every key shows what it did, from then on. *)
Theorem C35_sweep : forall ch procs is (ens : nat -> env) t, reachable c ch -> (0 < procs)%nat ->
  schedule procs (N.to_nat (c_nshards c)) is -> (0 < t)%Z ->
  exists ch' rs evs,
    run c ch (List.map (fun i => (ens i, Sweep (Some (Z.of_nat i)) t)) is) = Ok (ch', rs, evs) /\
    reachable c ch' /\
    (forall key now v, (t <= now)%Z -> (sees c ch' key now v <-> sees c ch key now v)) /\
    (forall key, sees c ch key t None -> forall now, sees c ch' key now None).
Proof.
  intros ch procs is ens t R P S T.
  pose proof (schedule_in ch procs is R P S) as I. clear S.
  assert (Q : exists ch' rs evs,
    run c ch (List.map (fun i => (ens i, Sweep (Some (Z.of_nat i)) t)) is) = Ok (ch', rs, evs) /\
    reachable c ch' /\ forall key, (In (route c key) is -> cabs c ch' key = live_item (cabs c ch) key t) /\
      (cabs c ch' key = cabs c ch key \/ cabs c ch' key = live_item (cabs c ch) key t)).
  { clear I. revert ch R. induction is as [|i is IH]; intros ch R; cbn [List.map run].
    - exists ch, [], []. split; [reflexivity|]. split; [exact R|]. intros key. cbn. tauto.
    - destruct (reachable_step c (opts_load o) (opts_shards o) ch (ens i) (Sweep (Some (Z.of_nat i)) t) R Logic.I)
        as (ch1 & r & ev & E & R1 & _ & Sp).
      destruct (IH ch1 R1) as (ch2 & rs & ev2 & E2 & R2 & K).
      exists ch2, (r :: rs), (ev ++ ev2). rewrite E, E2. split; [reflexivity|]. split; [exact R2|].
      intros key. destruct (K key) as [K1 K2]. inversion Sp; subst.
      match goal with H : sp_sweep _ _ _ _ |- _ => specialize (H key); cbn [world_of w_map] in H; destruct H as [S1 S2] end.
      replace (resolve_now t (en_clock (ens i))) with t in S1
        by (unfold resolve_now; destruct (Z.gtb_spec t 0); [reflexivity|lia]).
      unfold sel in S1, S2.
      assert (L : forall m, m key = live_item (cabs c ch) key t -> live_item m key t = live_item (cabs c ch) key t).
      { intros m X. unfold live_item at 1. rewrite X. unfold live_item.
        destruct (cabs c ch key) as [it|]; [|reflexivity]. destruct (alive_at (i_exp it) t) eqn:A; [rewrite A; reflexivity|reflexivity]. }
      destruct (Nat.eq_dec (route c key) i) as [Ei|Ei].
      + specialize (S1 ltac:(rewrite Ei; reflexivity)).
        assert (Z : cabs c ch2 key = live_item (cabs c ch) key t) by (destruct K2 as [->| ->]; [exact S1|apply L; exact S1]).
        split; [intros _; exact Z|right; exact Z].
      + specialize (S2 ltac:(intro Y; apply Ei; lia)).
        assert (L2 : live_item (cabs c ch1) key t = live_item (cabs c ch) key t) by (unfold live_item; rewrite S2; reflexivity).
        rewrite L2, S2 in *. split; [|exact K2]. intros [X|X]; [congruence|exact (K1 X)]. }
  destruct Q as (ch' & rs & evs & E & R' & K). exists ch', rs, evs. split; [exact E|]. split; [exact R'|].
  pose proof (reach_cinv o ch R) as C1. pose proof (reach_cinv o ch' R') as C2.
  assert (Z : forall key, cabs c ch' key = live_item (cabs c ch) key t) by (intros key; exact (proj1 (K key) (I key))).
  split.
  - intros key now v L. rewrite !(sees_iff c (opts_load o)) by assumption.
    assert (Y : live_item (cabs c ch') key now = live_item (cabs c ch) key now); [|rewrite Y; reflexivity].
    unfold live_item at 1. rewrite Z. unfold live_item. destruct (cabs c ch key) as [it|]; [|reflexivity].
    destruct (alive_at (i_exp it) t) eqn:A; [reflexivity|].
    destruct (alive_at (i_exp it) now) eqn:B; [|reflexivity]. exfalso.
    unfold alive_at in *. destruct (i_exp it =? 0)%Z eqn:Z0; cbn in *; [discriminate|].
    apply Z.ltb_ge in A. apply Z.ltb_lt in B. lia.
  - intros key X now. apply (sees_iff c (opts_load o)) in X; [|exact C1]. apply (sees_iff c (opts_load o)); [exact C2|].
    unfold live_item at 1. rewrite Z. destruct (live_item (cabs c ch) key t); [discriminate X|reflexivity].
Qed.
End F.

(** Two processors and the two shards of the demonstration cache, in the other
    order: a key that was there is gone. *)
Example C35_flush_case :
  schedule 2 (N.to_nat (c_nshards demo_c)) [1; 0]%nat /\ reachable demo_c demo_ch /\
  sees demo_c demo_ch [107; 51] 106 (Some (mkView [] 0 0 2)).
Proof.
  split; [|split].
  - unfold schedule. change (Permutation [1; 0]%nat [0; 1]%nat). apply perm_swap.
  - exact demo_reachable.
  - apply demo_sees_eq. vm_compute. reflexivity.
Qed.
