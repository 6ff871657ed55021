(** C46, C47: clamped arithmetic, transparent table resizing; and what happens
    beyond the probe-distance limit of C01 and C05. *)
From Coq Require Import Permutation.
From Verif Require Import Base Types Clamp Entry EntryProofs Hash Map MapProofs MapInv Shard
  Spec Trace ShardProofs ScanProofs LoopProofs Cache Refine Reach Observe PropCache PropItems Small
  PropMemory PropScan CursorProofs.
Local Open Scope N_scope.

(** ** C46 Clamped arithmetic. A signed overflow would make the model return
    [None]. *)
Definition limited (x : Z) : Z := Z.max (- 2 ^ 63) (Z.min (2 ^ 63 - 1) x).
Lemma clamp_limited : forall x, clampZ x = limited x.
Proof.
  intro x. unfold clampZ, limited, INT64_MIN, INT64_MAX.
  destruct (x <? - 2 ^ 63)%Z eqn:A; [lia|]. destruct (2 ^ 63 - 1 <? x)%Z eqn:B; lia.
Qed.
Theorem C46_add : forall a b, (- 2 ^ 63 <= a < 2 ^ 63)%Z -> (- 2 ^ 63 <= b < 2 ^ 63)%Z ->
  int64_add_clamp a b = Some (limited (a + b)).
Proof.
  intros a b Ha Hb. rewrite add_clamp_spec, clamp_limited; [reflexivity| |]; unfold i64_ok, INT64_MIN, INT64_MAX; lia.
Qed.
Theorem C46_mul : forall a b, (- 2 ^ 63 <= a < 2 ^ 63)%Z -> (- 2 ^ 63 <= b < 2 ^ 63)%Z ->
  int64_mul_clamp a b = Some (limited (a * b)).
Proof.
  intros a b Ha Hb. rewrite mul_clamp_spec, clamp_limited; [reflexivity| |]; unfold i64_ok, INT64_MIN, INT64_MAX; lia.
Qed.
Example C46_case :
  int64_add_clamp 9223372036854775807 1 = Some 9223372036854775807%Z /\
  int64_add_clamp (-9223372036854775808) (-1) = Some (-9223372036854775808)%Z /\
  int64_mul_clamp (-9223372036854775808) (-1) = Some 9223372036854775807%Z /\
  int64_mul_clamp (-3) 5 = Some (-15)%Z.
Proof. repeat split. Qed.

(** ** C47 Growing and shrinking are transparent *)
(** The cache with another table in shard [i]. *)
Definition with_table (ch : cache) (i : nat) (s : shard) (m : map entry) : cache :=
  mkCache (ca_next ch) (upd (ca_shards ch) i (mkShard (s_cas s) m (s_next s))).
Definition power_of_two (n : nat) : Prop := exists k, n = (2 ^ k)%nat.

Lemma swap_table : forall c, 55 <= c_load c <= 95 -> forall ch i s m, cinv c ch -> nth_error (ca_shards ch) i = Some s ->
  minv (ekey c) (c_load c) (wf_entry c) (hash32 c) m -> Permutation (ents m) (sents s) ->
  cinv c (with_table ch i s m) /\ forall k, cabs c (with_table ch i s m) k = cabs c ch k.
Proof.
  intros c Lo ch i s m I Hs M P.
  assert (Hi : (i < length (ca_shards ch))%nat) by (apply nth_error_Some; congruence).
  pose proof (ci_shard c ch I _ _ Hs) as Is.
  assert (Lk : forall k, sabs c (mkShard (s_cas s) m (s_next s)) k = sabs c s k).
  { intro k. unfold sabs, sents at 1. cbn [s_map]. f_equal. symmetry. apply (lk_perm (ekey c)).
    - apply (nodup_keys c _ Is).
    - symmetry. exact P. }
  split.
  - constructor.
    + apply (ci_pos c ch I).
    + cbn [with_table ca_shards]. rewrite upd_length. apply (ci_len c ch I).
    + intros j t Hj. cbn [with_table ca_shards ca_next] in *. rewrite nth_error_upd in Hj by assumption.
      destruct (Nat.eqb_spec j i) as [->|]; [|apply (ci_shard c ch I _ _ Hj)].
      injection Hj as <-. constructor.
      * exact M.
      * unfold sents, placed. cbn [s_map]. unfold ids. rewrite (Permutation_map e_id P). apply (si_ids c _ Is).
      * unfold sents, placed. cbn [s_map s_next]. unfold ids. rewrite (Permutation_map e_id P). apply (si_next c _ Is).
      * apply (si_cas c _ Is).
    + intros j t k Hj Hk. cbn [with_table ca_shards] in *. rewrite nth_error_upd in Hj by assumption.
      destruct (Nat.eqb_spec j i) as [->|]; [|apply (ci_route c ch I _ _ _ Hj Hk)].
      injection Hj as <-. rewrite Lk in Hk. apply (ci_route c ch I _ _ _ Hs Hk).
  - intro k. unfold cabs, with_table. cbn [ca_shards]. rewrite nth_error_upd by assumption.
    destruct (Nat.eqb_spec (route c k) i) as [->|]; [|reflexivity]. rewrite Hs. apply Lk.
Qed.

Lemma power_pow2 : forall n, power_of_two n -> (64 <= n)%nat -> pow2 n.
Proof.
  intros n [k ->] H. exists k. split.
  - clear H. induction k as [|k IH]; [reflexivity|]. rewrite Nat.pow_succ_r', Nat2N.inj_mul, IH. rewrite (Nat2N.inj_succ k), N.pow_succ_r by lia. reflexivity.
  - destruct k; [cbn in H; lia|lia].
Qed.

(** Rebuilding the table at any size it has room for, or failing to. *)
Theorem C47_resize : forall o ch i s n (alloc : bool), reachable (ctx_of o) ch ->
  nth_error (ca_shards ch) i = Some s -> power_of_two n -> (64 <= n)%nat ->
  (100 * (N.of_nat (m_count (s_map s)) + 1) <= N.of_nat n * c_load (ctx_of o)) ->
  if alloc then
    exists m', resize (c_load (ctx_of o)) true (s_map s) n = ROk m' /\ m_nb m' = n /\
      forall key, same_at (ctx_of o) ch (with_table ch i s m') key
  else resize (c_load (ctx_of o)) false (s_map s) n = RFail.
Proof.
  intros o ch i s n alloc R Hs Hp Hn Hc. destruct alloc; [|reflexivity].
  set (c := ctx_of o) in *. pose proof (reach_cinv o ch R) as I. fold c in I.
  pose proof (si_map c _ (ci_shard c ch I _ _ Hs)) as M.
  destruct (resize_spec (ekey c) (c_load c) (wf_entry c) (hash32 c) (opts_load o) (s_map s) n M
    (power_pow2 n Hp Hn) Hn) as (m' & E & M' & Nb & P & _).
  { unfold grow_at. apply N.div_le_mono with (c := 100) in Hc; [|discriminate].
    rewrite N.mul_comm, N.div_mul in Hc by discriminate. lia. }
  exists m'. split; [exact E|]. split; [exact Nb|]. intro key.
  destruct (swap_table c (opts_load o) ch i s m' I Hs M') as [I' A].
  - apply Permutation_map with (f := snd) in P. exact P.
  - apply (same_at_abs c (opts_load o)); [assumption|assumption|]. apply A.
Qed.

(** The shrinking attempt after removals, whatever the allocator does. *)
Theorem C47_shrink : forall o ch i s allowed alloc, reachable (ctx_of o) ch ->
  nth_error (ca_shards ch) i = Some s ->
  exists m', tryshrink (c_load (ctx_of o)) allowed alloc (s_map s) = Some m' /\
    forall key, same_at (ctx_of o) ch (with_table ch i s m') key.
Proof.
  intros o ch i s allowed alloc R Hs.
  set (c := ctx_of o) in *. pose proof (reach_cinv o ch R) as I. fold c in I.
  pose proof (si_map c _ (ci_shard c ch I _ _ Hs)) as M.
  destruct (tryshrink_spec (ekey c) (c_load c) (wf_entry c) (hash32 c) (opts_load o) allowed alloc (s_map s) M)
    as (m' & E & M' & P & _).
  exists m'. split; [exact E|]. intro key.
  destruct (swap_table c (opts_load o) ch i s m' I Hs M' P) as [I' A].
  apply (same_at_abs c (opts_load o)); [assumption|assumption|]. apply A.
Qed.
(** A table of 128 buckets with three items, which shrinking takes back to 64. *)
Definition grown_history : list (env * call) :=
  List.map (fun i => (plenty_env 100, Store [N.of_nat i] [1] plain_store 0)) (seq 97 49)
  ++ List.map (fun i => (mkEnv (fun _ => mkMem true false) 100, Delete [N.of_nat i] None 0)) (seq 97 46).
Definition final (r : out (cache * list result * list event)) (d : cache) : cache :=
  match r with Ok (ch, _, _) => ch | Bad _ => d end.
Definition grown_ch : cache := final (run wrap_c (one_new false) grown_history) (one_new false).
Definition shrinks (x : option shard) : option (nat * nat * nat) :=
  match x with
  | None => None
  | Some s =>
      match tryshrink (c_load wrap_c) true true (s_map s) with
      | Some m' => Some (m_nb (s_map s), m_count (s_map s), m_nb m')
      | None => None
      end
  end.
Example C47_case : reachable wrap_c grown_ch /\
  shrinks (nth_error (ca_shards grown_ch) 0) = Some (128, 3, 64)%nat /\ power_of_two 64.
Proof.
  split; [|split].
  - assert (E : exists rs evs, run wrap_c (one_new false) grown_history = Ok (grown_ch, rs, evs))
      by (eexists _, _; vm_compute; reflexivity).
    destruct E as (rs & evs & E). eapply short_reachable; [apply one_is_new| | |exact E].
    + apply Forall_app. split; apply Forall_map, Forall_forall; intros i Hi; apply in_seq in Hi; [|exact Logic.I].
      split; [|reflexivity]. apply small_store; try (cbn; lia); try reflexivity;
        (apply Forall_cons; [red; lia|apply Forall_nil]).
    + vm_compute. lia.
  - vm_compute. reflexivity.
  - exists 6%nat. reflexivity.
Qed.

(** ** Beyond the limit of C01 and C05: with 256 keys of one shard that share the
    low bits of their hash, the 8-bit probe distance wraps; the last store
    reports INSERTED and its item is gone at once, without any expiration,
    deletion or memory pressure. *)
Definition crowd_keys : list bytes :=
    [[116; 119; 97; 97]; [103; 105; 98; 97]; [100; 110; 98; 97]; [103; 122; 99; 97]; [99; 108; 100;
     97]; [100; 122; 100; 97]; [122; 111; 101; 97]; [120; 113; 101; 97]; [100; 100; 102; 97]; [104;
     100; 102; 97]; [115; 111; 102; 97]; [111; 111; 103; 97]; [119; 99; 104; 97]; [101; 105; 104;
     97]; [100; 110; 107; 97]; [104; 101; 108; 97]; [117; 104; 108; 97]; [122; 104; 111; 97]; [104;
     111; 112; 97]; [104; 120; 112; 97]; [98; 107; 114; 97]; [120; 118; 114; 97]; [106; 117; 118;
     97]; [122; 119; 118; 97]; [105; 102; 119; 97]; [122; 111; 120; 97]; [119; 122; 121; 97]; [103;
     101; 122; 97]; [110; 122; 122; 97]; [98; 98; 97; 98]; [108; 110; 97; 98]; [98; 116; 97; 98];
     [103; 117; 97; 98]; [106; 122; 97; 98]; [102; 105; 98; 98]; [100; 120; 98; 98]; [118; 107; 99;
     98]; [99; 114; 100; 98]; [104; 115; 100; 98]; [99; 97; 101; 98]; [116; 101; 101; 98]; [101; 115;
     101; 98]; [104; 120; 101; 98]; [100; 108; 102; 98]; [117; 99; 104; 98]; [120; 110; 104; 98];
     [114; 114; 108; 98]; [113; 116; 108; 98]; [98; 122; 108; 98]; [108; 114; 109; 98]; [120; 121;
     109; 98]; [104; 104; 111; 98]; [122; 111; 111; 98]; [101; 103; 112; 98]; [115; 107; 113; 98];
     [119; 99; 114; 98]; [117; 103; 116; 98]; [104; 105; 117; 98]; [101; 113; 118; 98]; [122; 110;
     119; 98]; [119; 102; 121; 98]; [101; 114; 121; 98]; [99; 110; 122; 98]; [114; 104; 98; 99];
     [102; 115; 98; 99]; [107; 109; 99; 99]; [110; 98; 100; 99]; [99; 114; 100; 99]; [104; 115; 100;
     99]; [109; 120; 100; 99]; [105; 103; 102; 99]; [116; 107; 104; 99]; [110; 98; 105; 99]; [104;
     105; 105; 99]; [118; 100; 106; 99]; [100; 109; 106; 99]; [117; 113; 106; 99]; [103; 101; 108;
     99]; [105; 102; 108; 99]; [112; 106; 108; 99]; [106; 114; 109; 99]; [110; 105; 110; 99]; [121;
     115; 111; 99]; [104; 119; 112; 99]; [106; 120; 112; 99]; [101; 118; 115; 99]; [107; 100; 116;
     99]; [109; 101; 116; 99]; [112; 109; 116; 99]; [99; 111; 116; 99]; [107; 111; 116; 99]; [102;
     99; 117; 99]; [117; 106; 118; 99]; [110; 117; 118; 99]; [121; 113; 119; 99]; [106; 112; 121;
     99]; [104; 104; 98; 100]; [102; 108; 98; 100]; [104; 99; 99; 100]; [118; 104; 99; 100]; [107;
     105; 99; 100]; [98; 106; 99; 100]; [114; 107; 100; 100]; [103; 110; 100; 100]; [114; 112; 100;
     100]; [116; 107; 101; 100]; [100; 104; 102; 100]; [110; 122; 102; 100]; [119; 105; 103; 100];
     [97; 101; 105; 100]; [118; 101; 107; 100]; [105; 121; 108; 100]; [98; 122; 108; 100]; [117; 107;
     109; 100]; [98; 113; 111; 100]; [116; 104; 112; 100]; [117; 109; 112; 100]; [113; 121; 112;
     100]; [112; 104; 113; 100]; [119; 108; 113; 100]; [120; 97; 115; 100]; [116; 98; 117; 100];
     [106; 101; 117; 100]; [118; 111; 117; 100]; [106; 118; 117; 100]; [113; 98; 118; 100]; [113;
     110; 118; 100]; [120; 104; 119; 100]; [121; 105; 97; 101]; [118; 114; 97; 101]; [102; 119; 97;
     101]; [98; 99; 98; 101]; [122; 118; 98; 101]; [97; 109; 99; 101]; [121; 100; 100; 101]; [99;
     103; 100; 101]; [121; 120; 100; 101]; [107; 116; 101; 101]; [115; 117; 101; 101]; [120; 111;
     102; 101]; [109; 113; 102; 101]; [112; 102; 103; 101]; [105; 105; 103; 101]; [100; 114; 103;
     101]; [120; 113; 104; 101]; [116; 101; 105; 101]; [110; 121; 105; 101]; [99; 100; 106; 101];
     [104; 101; 106; 101]; [116; 107; 106; 101]; [98; 115; 107; 101]; [119; 103; 108; 101]; [108;
     102; 109; 101]; [116; 99; 110; 101]; [113; 120; 110; 101]; [101; 97; 112; 101]; [105; 118; 113;
     101]; [113; 106; 114; 101]; [111; 117; 116; 101]; [120; 120; 116; 101]; [112; 99; 117; 101];
     [102; 107; 117; 101]; [101; 101; 118; 101]; [118; 97; 119; 101]; [102; 102; 120; 101]; [104;
     112; 121; 101]; [105; 112; 121; 101]; [104; 100; 122; 101]; [98; 103; 97; 102]; [107; 112; 99;
     102]; [103; 99; 102; 102]; [111; 120; 102; 102]; [105; 113; 103; 102]; [110; 116; 103; 102];
     [122; 104; 104; 102]; [122; 106; 104; 102]; [106; 99; 105; 102]; [118; 115; 105; 102]; [111; 97;
     106; 102]; [107; 121; 106; 102]; [122; 119; 110; 102]; [98; 122; 110; 102]; [116; 122; 110;
     102]; [119; 100; 111; 102]; [104; 116; 111; 102]; [98; 117; 111; 102]; [107; 99; 112; 102];
     [103; 103; 112; 102]; [110; 111; 114; 102]; [116; 114; 114; 102]; [118; 99; 115; 102]; [119;
     118; 115; 102]; [120; 100; 116; 102]; [116; 103; 116; 102]; [100; 110; 116; 102]; [114; 113;
     116; 102]; [105; 115; 116; 102]; [101; 118; 116; 102]; [118; 118; 116; 102]; [116; 103; 117;
     102]; [108; 112; 117; 102]; [106; 115; 117; 102]; [101; 107; 118; 102]; [112; 109; 118; 102];
     [114; 111; 118; 102]; [104; 101; 120; 102]; [119; 103; 120; 102]; [121; 110; 120; 102]; [115;
     107; 122; 102]; [112; 110; 97; 103]; [116; 121; 99; 103]; [109; 110; 100; 103]; [118; 120; 101;
     103]; [98; 118; 102; 103]; [109; 110; 103; 103]; [114; 97; 104; 103]; [117; 107; 105; 103];
     [111; 108; 105; 103]; [97; 116; 106; 103]; [116; 102; 109; 103]; [111; 120; 109; 103]; [104;
     108; 110; 103]; [104; 116; 110; 103]; [116; 113; 111; 103]; [117; 113; 111; 103]; [111; 115;
     111; 103]; [99; 117; 111; 103]; [115; 122; 111; 103]; [102; 107; 112; 103]; [105; 116; 112;
     103]; [118; 100; 114; 103]; [97; 99; 115; 103]; [97; 103; 115; 103]; [107; 104; 115; 103]; [114;
     121; 115; 103]; [100; 115; 116; 103]; [113; 115; 116; 103]; [119; 122; 116; 103]; [101; 99; 117;
     103]; [103; 106; 117; 103]; [115; 108; 117; 103]; [119; 99; 118; 103]; [115; 106; 118; 103];
     [115; 113; 118; 103]; [122; 101; 119; 103]; [117; 104; 119; 103]; [116; 108; 119; 103]; [119;
     122; 119; 103]; [100; 115; 120; 103]; [121; 106; 122; 103]; [119; 118; 122; 103]; [112; 108; 97;
     104]; [111; 119; 97; 104]; [114; 120; 98; 104]; [114; 104; 100; 104]; [98; 119; 101; 104]].
Definition crowd_history : list (env * call) :=
  List.map (fun k => (plenty_env 100, Store k [1] plain_store 0)) crowd_keys.
Definition lost (r : out (cache * list result * list event)) (key : bytes) : bool :=
  match r with
  | Ok (ch, rs, _) =>
      forallb (fun r => match r with RStatus INSERTED [] => true | _ => false end) rs &&
      match step wrap_c (plenty_env 100) ch (Load key look 0) with
      | Ok (_, RStatus NOTFOUND [], _) => true
      | _ => false
      end
  | Bad _ => false
  end.
Lemma lost_ok : forall r key, lost r key = true -> exists ch rs evs ch' evs', r = Ok (ch, rs, evs) /\
  Forall (fun r => r = RStatus INSERTED []) rs /\
  step wrap_c (plenty_env 100) ch (Load key look 0) = Ok (ch', RStatus NOTFOUND [], evs').
Proof.
  intros [[[ch rs] evs]|] key H; [|discriminate]. unfold lost in H. apply andb_true_iff in H. destruct H as [H1 H2].
  destruct (step wrap_c (plenty_env 100) ch (Load key look 0)) as [[[ch' r] evs']|] eqn:E; [|discriminate].
  exists ch, rs, evs, ch', evs'. split; [reflexivity|]. split.
  - apply Forall_forall. intros x Hx. rewrite forallb_forall in H1. specialize (H1 x Hx).
    destruct x as [[] [|]| | | | |]; try discriminate. reflexivity.
  - rewrite E. destruct r as [[] [|]| | | | |]; try discriminate. reflexivity.
Qed.
Lemma in_dec_true : forall (k : bytes) l, existsb (beq k) l = true -> In k l.
Proof. intros k l H. apply existsb_exists in H. destruct H as (x & Hx & B). apply beq_eq in B. subst. assumption. Qed.
Theorem C05_crowded_refuted : exists ch rs evs key ch' evs',
  run wrap_c (one_new false) crowd_history = Ok (ch, rs, evs) /\
  Forall (fun r => r = RStatus INSERTED []) rs /\ In key (stored crowd_history) /\
  step wrap_c (plenty_env 100) ch (Load key look 0) = Ok (ch', RStatus NOTFOUND [], evs').
Proof.
  destruct (lost_ok (run wrap_c (one_new false) crowd_history) (last crowd_keys [])) as (ch & rs & evs & ch' & evs' & E & F & L).
  { vm_compute. reflexivity. }
  exists ch, rs, evs, (last crowd_keys []), ch', evs'. split; [exact E|]. split; [exact F|]. split; [|exact L].
  clear. apply in_dec_true. vm_compute. reflexivity.
Qed.
