(** Short histories: helpers for showing that concrete caches are reachable. *)
From Verif Require Import Base Types Clamp Entry EntryProofs Hash Map MapProofs MapInv Shard
  Spec Trace ShardProofs ScanProofs LoopProofs Cache Refine Reach Observe PropCache.
Local Open Scope N_scope.

Section S.
Variable o : opts.
Let c := ctx_of o.

Lemma few_short : forall ks, (length ks <= 253)%nat -> few_keys c ks.
Proof.
  intros ks L i l Nd H. assert (length l <= length ks)%nat; [|lia].
  apply NoDup_incl_length; [assumption|]. intros k Hk. apply H. assumption.
Qed.

Lemma short_reachable : forall al ch0 h ch rs evs,
  cache_new c al = Ok (Some ch0) -> Forall (fun p => args_fine c (fst p) (snd p)) h ->
  (length (stored h) <= 253)%nat -> run c ch0 h = Ok (ch, rs, evs) -> reachable c ch.
Proof.
  intros al ch0 h ch rs evs Hn F L E.
  destruct (new_ok c (opts_load o) (opts_shards o) _ _ Hn) as (I & _ & _ & A & _).
  exists al, ch0, h, rs, evs. split; [assumption|]. split; [|assumption].
  apply (few_sensible c (opts_load o) h ch0 []); [assumption| |apply few_short; assumption|assumption].
  intros k X. destruct (X (A k)).
Qed.

(** ... and stores on them are covered. *)
Lemma short_store : forall al ch0 h ch rs evs en key val so time,
  cache_new c al = Ok (Some ch0) -> Forall (fun p => args_fine c (fst p) (snd p)) h ->
  (length (stored h) <= 253)%nat -> run c ch0 h = Ok (ch, rs, evs) ->
  store_ok key val so (resolve_now time (en_clock en)) ->
  al_entry (en_mem en (route c key)) = true ->
  call_ok c en (cabs c ch) (Store key val so time).
Proof.
  intros al ch0 h ch rs evs en key val so time Hn F L E K A. cbn [call_ok].
  split; [assumption|]. split; [assumption|].
  apply (roomy_small c (opts_load o)). intros ks Nd H.
  destruct (new_ok c (opts_load o) (opts_shards o) _ _ Hn) as (I & _ & _ & A0 & _).
  assert (Se : sensible c ch0 h).
  { apply (few_sensible c (opts_load o) h ch0 []); [assumption| |apply few_short; assumption|assumption].
    intros k X. destruct (X (A0 k)). }
  destruct (run_refines c (opts_load o) (opts_shards o) h ch0 I Se) as (ch1 & rs1 & evs1 & E1 & _ & Sp).
  rewrite E in E1. injection E1 as <- <- <-.
  assert (length ks <= length (stored h))%nat; [|lia].
  apply NoDup_incl_length; [assumption|]. intros k Hk. apply H in Hk. destruct Hk as [_ Hk].
  destruct (run_keys c _ _ _ _ Sp k Hk) as [Y|Y]; [destruct (Y (A0 k))|exact Y].
Qed.
End S.

Ltac fine_history := repeat apply Forall_cons; try apply Forall_nil; cbn [fst snd args_fine];
    try exact Logic.I; try (split; [small_store|reflexivity]); try (intros; reflexivity);
    try (intros g w u H1 H0 H2; cbn in H1; injection H1 as <-; discriminate).
