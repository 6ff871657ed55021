(** C01-C10: what a client of the cache sees of its items. *)
From Verif Require Import Base Types Clamp Entry EntryProofs Hash Map MapProofs MapInv Shard
  Spec Trace ShardProofs ScanProofs LoopProofs Cache Refine Reach Observe.
Local Open Scope N_scope.

Notation ctx_of := opts_to_ctx.

(** ** A case that is used throughout: a cache of two shards with tokens, and a
    history on it. *)
Definition demo_opts : opts := mkOpts true false false true 2 75 7.
Definition demo_c : ctx := opts_to_ctx demo_opts.
Definition plenty_env (clock : Z) : env := mkEnv (fun _ => mkMem true true) clock.
Definition plain_store : store_opts := mkStoreOpts 0 0 0 0 false false false false false None.
Definition ttl_store (ttl : Z) : store_opts := mkStoreOpts 0 ttl 0 5 false false false false false None.

Definition demo_new : cache := mkCache 1 [shard_init demo_c; shard_init demo_c].
Definition demo_history : list (env * call) :=
  [ (plenty_env 100, Store [107; 49] [118; 49] (ttl_store 50) 0);
    (plenty_env 101, Store [107; 50] [118; 50; 0; 255] plain_store 0);
    (plenty_env 102, Load [107; 49] look 0);
    (plenty_env 103, Store [107; 49] [119] (ttl_store 20) 0);
    (plenty_env 104, Delete [107; 50] None 0);
    (plenty_env 105, Store [107; 51] [] plain_store 0) ].
Definition demo_ch : cache :=
  match run demo_c demo_new demo_history with Ok (ch, _, _) => ch | Bad _ => demo_new end.

Lemma small_store : forall key val so now, bytes_ok key -> bytes_ok val ->
  (length key <= 100)%nat -> (length val <= 100)%nat ->
  (so_expires so <=? INT64_MAX)%Z = true -> (INT64_MIN <=? so_ttl so)%Z = true ->
  (so_ttl so <=? INT64_MAX)%Z = true -> (INT64_MIN <=? now)%Z = true -> (now <=? INT64_MAX)%Z = true ->
  so_flags so < 2 ^ 32 -> store_ok key val so now.
Proof.
  intros key val so now K V LK LV E T1 T2 N1 N2 F.
  apply Z.leb_le in E, T1, T2, N1, N2. constructor; try assumption; try (split; assumption).
  apply N.le_lt_trans with 200; [lia|reflexivity].
Qed.

Ltac small_store := apply small_store; cbn;
  [ repeat constructor; lia | repeat constructor; lia | lia | lia | reflexivity | reflexivity
  | reflexivity | reflexivity | reflexivity | reflexivity ].

Lemma demo_is_new : cache_new demo_c (fun _ => true) = Ok (Some demo_new).
Proof. reflexivity. Qed.
Lemma demo_few : few_keys demo_c (stored demo_history).
Proof.
  intros i ks Nd H. change 253%nat with (253 + 0)%nat.
  assert (L : (length ks <= length (stored demo_history))%nat).
  { apply NoDup_incl_length; [assumption|]. intros k Hk. apply H. assumption. }
  cbn in L. lia.
Qed.
Lemma demo_args : Forall (fun p => args_fine demo_c (fst p) (snd p)) demo_history.
Proof.
  unfold demo_history. repeat apply Forall_cons; try apply Forall_nil; cbn [fst snd args_fine];
    try exact Logic.I; try (split; [small_store|reflexivity]).
  intros g w u H1 H2. cbn in H1. injection H1 as <-. discriminate.
Qed.
Lemma demo_sensible : sensible demo_c demo_new demo_history.
Proof.
  destruct (new_ok demo_c (opts_load _) (opts_shards _) _ _ demo_is_new) as (I & _ & _ & A & _).
  apply (few_sensible demo_c (opts_load _) demo_history demo_new []).
  - assumption.
  - intros k X. destruct (X (A k)).
  - exact demo_few.
  - exact demo_args.
Qed.
Lemma demo_run : exists rs evs, run demo_c demo_new demo_history = Ok (demo_ch, rs, evs).
Proof. eexists _, _. vm_compute. reflexivity. Qed.
Lemma demo_reachable : reachable demo_c demo_ch.
Proof.
  destruct demo_run as (rs & evs & R). exists (fun _ => true), demo_new, demo_history, rs, evs.
  split; [exact demo_is_new|]. split; [exact demo_sensible|exact R].
Qed.
Lemma demo_sees : forall key now, sees demo_c demo_ch key now
  (option_map shown_of (live_item (cabs demo_c demo_ch) key now)).
Proof.
  intros. apply (sees_iff demo_c (opts_load demo_opts));
    [apply (reach_cinv demo_opts); exact demo_reachable|reflexivity].
Qed.
Lemma demo_sees_eq : forall key now v,
  option_map shown_of (live_item (cabs demo_c demo_ch) key now) = v -> sees demo_c demo_ch key now v.
Proof. intros key now v <-. apply demo_sees. Qed.
Definition demo_keys : list bytes := [[107; 49]; [107; 50]; [107; 51]].
(** In the demonstration cache every store of a short key is covered. *)
Lemma demo_number : forall ks, NoDup ks -> (forall k, In k ks -> cabs demo_c demo_ch k <> None) ->
  (length ks <= 3)%nat.
Proof.
  intros ks Nd H.
  assert (In3 : forall k, cabs demo_c demo_ch k <> None -> In k (stored demo_history)).
  { destruct (new_ok demo_c (opts_load _) (opts_shards _) _ _ demo_is_new) as (I & _ & _ & A & _).
    intros k X. destruct (run_refines demo_c (opts_load _) (opts_shards _) demo_history demo_new I demo_sensible)
      as (ch & rs & evs & E & _ & Sp).
    destruct demo_run as (rs' & evs' & E'). rewrite E in E'. assert (Ech : ch = demo_ch) by (clear - E'; generalize dependent demo_ch; intros d E'; injection E'; intros; assumption). subst ch.
    destruct (run_keys demo_c _ _ _ _ Sp k X) as [Y|Y]; [destruct (Y (A k))|exact Y]. }
  assert (Li : (length ks <= length demo_keys)%nat).
  { apply NoDup_incl_length; [assumption|]. intros k Hk. apply H in Hk. apply In3 in Hk.
    unfold stored, demo_history in Hk. unfold demo_keys. cbn in Hk |- *. intuition auto. }
  exact Li.
Qed.
Lemma demo_store_ok : forall en key val so time, store_ok key val so (resolve_now time (en_clock en)) ->
  al_entry (en_mem en (route demo_c key)) = true ->
  call_ok demo_c en (cabs demo_c demo_ch) (Store key val so time).
Proof.
  intros en key val so time K A. cbn [call_ok]. split; [assumption|]. split; [assumption|].
  apply (roomy_small demo_c (opts_load demo_opts)). intros ks Nd H.
  assert (L : (length ks <= 3)%nat) by (apply demo_number; [assumption|intros k Hk; apply H; assumption]).
  lia.
Qed.

(** ** C01 Every history refines the abstract map *)

(** For every choice of options, every history in which the arguments are in
    range and memory is available, and in which no shard sees more than 253
    different keys: the calls all return, with results the abstract cache of
    Spec.v allows for that history, starting empty. (A shard may hold more keys:
    C01_history_general. The default is 4096 shards.) *)
Theorem C01_history : forall o al ch0 h,
  cache_new (ctx_of o) al = Ok (Some ch0) ->
  Forall (fun p => args_fine (ctx_of o) (fst p) (snd p)) h ->
  few_keys (ctx_of o) (stored h) ->
  exists ch rs evs w0 w, run (ctx_of o) ch0 h = Ok (ch, rs, evs) /\
    (forall k, w_map w0 k = None) /\
    (forall i, (i < N.to_nat (c_nshards (ctx_of o)))%nat -> w_cas w0 i = 1) /\
    spec_run (op_usecas o) (op_noevict o) (route (ctx_of o)) w0 h w rs.
Proof.
  intros o al ch0 h Hn F Fk.
  destruct (new_ok _ (opts_load o) (opts_shards o) al ch0 Hn) as (I & _ & _ & A & Cc).
  assert (S : sensible (ctx_of o) ch0 h).
  { apply (few_sensible _ (opts_load o) h ch0 []); [assumption| |exact Fk|assumption].
    intros k X. destruct (X (A k)). }
  destruct (run_refines _ (opts_load o) (opts_shards o) h ch0 I S) as (ch & rs & evs & E & G & Sp).
  exists ch, rs, evs, (world_of (ctx_of o) ch0), (world_of (ctx_of o) ch).
  split; [assumption|]. split; [exact A|]. split; [|exact Sp].
  intros i Hi. cbn [w_cas world_of]. rewrite Cc. unfold empty_world. cbn [w_cas].
  destruct (Nat.ltb_spec i (N.to_nat (c_nshards (ctx_of o)))); [reflexivity|lia].
Qed.

(** The same for any number of keys, as long as, whenever a key is stored, the
    home buckets of the keys then in its shard leave every probe distance below
    255 ([roomy] in [sensible]); without that the claim is false
    (C05_crowded_refuted). *)
Theorem C01_history_general : forall o al ch0 h,
  cache_new (ctx_of o) al = Ok (Some ch0) -> sensible (ctx_of o) ch0 h ->
  exists ch rs evs w0 w, run (ctx_of o) ch0 h = Ok (ch, rs, evs) /\
    (forall k, w_map w0 k = None) /\
    (forall i, (i < N.to_nat (c_nshards (ctx_of o)))%nat -> w_cas w0 i = 1) /\
    spec_run (op_usecas o) (op_noevict o) (route (ctx_of o)) w0 h w rs.
Proof.
  intros o al ch0 h Hn S.
  destruct (new_ok _ (opts_load o) (opts_shards o) al ch0 Hn) as (I & _ & _ & A & Cc).
  destruct (run_refines _ (opts_load o) (opts_shards o) h ch0 I S) as (ch & rs & evs & E & G & Sp).
  exists ch, rs, evs, (world_of (ctx_of o) ch0), (world_of (ctx_of o) ch).
  split; [assumption|]. split; [exact A|]. split; [|exact Sp].
  intros i Hi. cbn [w_cas world_of]. rewrite Cc. unfold empty_world. cbn [w_cas].
  destruct (Nat.ltb_spec i (N.to_nat (c_nshards (ctx_of o)))); [reflexivity|lia].
Qed.

Example C01_case :
  cache_new demo_c (fun _ => true) = Ok (Some demo_new) /\
  Forall (fun p => args_fine demo_c (fst p) (snd p)) demo_history /\
  few_keys demo_c (stored demo_history) /\
  exists ch evs, run demo_c demo_new demo_history = Ok (ch,
    [RStatus INSERTED []; RStatus INSERTED [];
     RStatus FOUND [([107; 49], mkView [118; 49] 150 5 2)];
     RStatus REPLACED []; RStatus DELETED []; RStatus INSERTED []], evs).
Proof.
  split; [exact demo_is_new|]. split; [exact demo_args|]. split; [exact demo_few|].
  eexists _, _. vm_compute. reflexivity.
Qed.
