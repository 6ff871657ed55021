(** C71: DEBUG POPULATE. *)
From Verif Require Import Base Types Clamp Entry EntryProofs Hash Map MapProofs MapInv Shard
  Spec Trace ShardProofs ScanProofs LoopProofs Cache Refine Reach Observe PropCache PropItems
  Text IntText IntTextProofs Prog CmdSpec CmdSpec2 Cmds CmdsProofs PropCmds PropCmds2 Main PropMain Debug.
From Coq Require Import String Permutation.
Local Open Scope N_scope.
Notation length := List.length.

(** *** The keys of the threads *)
Fixpoint nseq (i : N) (n : nat) : list N := match n with O => [] | S n' => i :: nseq (i + 1) n' end.
Lemma nseq_app : forall a b i, nseq i (a + b) = nseq i a ++ nseq (i + N.of_nat a) b.
Proof.
  induction a as [|a IH]; intros b i; cbn [nseq Nat.add app].
  - replace (i + N.of_nat 0) with i by lia. reflexivity.
  - rewrite IH. replace (i + N.of_nat (S a)) with (i + 1 + N.of_nat a) by lia. reflexivity.
Qed.
Lemma nseq_in : forall n i x, In x (nseq i n) <-> i <= x < i + N.of_nat n.
Proof.
  induction n as [|n IH]; intros i x; cbn [nseq In]; [lia|]. rewrite IH. lia.
Qed.
Lemma nseq_nodup : forall n i, NoDup (nseq i n).
Proof. induction n as [|n IH]; intro i; cbn [nseq]; constructor; [rewrite nseq_in; lia|apply IH]. Qed.

(** The call that stores key [i]. *)
Definition stores (p : pop) (rnd : N -> N) (now : Z) (i : N) (x : call) : Prop :=
  exists ttl, pop_ttl (p_range p) (rnd i) = Fine ttl /\
    x = Store (pop_key (p_prefix p) i) (repeat 0 (N.to_nat (p_len p)))
          (mkStoreOpts 0 ttl 0 0 false false false false false None) now.
Lemma entry_stores : forall p now rnd n i l, populate_entry p now rnd n i = Fine l ->
  Forall2 (stores p rnd now) (nseq i n) l.
Proof.
  intros p now rnd. induction n as [|n IH]; intros i l H; cbn [populate_entry nseq] in *.
  - injection H as <-. constructor.
  - destruct (pop_ttl _ _) as [ttl|] eqn:T; [|discriminate].
    destruct (populate_entry p now rnd n (i + 1)) as [l'|] eqn:E; [|discriminate]. injection H as <-.
    constructor; [exists ttl; split; [exact T|reflexivity]|apply IH; exact E].
Qed.
Definition part_keys (procs : nat) (count : N) (i : nat) : list N :=
  nseq (fst (pop_part procs count i)) (N.to_nat (snd (pop_part procs count i))).
Lemma threads_stores : forall p nows rnd procs is ls, pop_threads p nows rnd procs is = Fine ls ->
  Forall2 (fun i x => exists t, In t is /\ stores p rnd (nows t) i x)
    (List.concat (List.map (part_keys procs (p_count p)) is)) (List.concat ls).
Proof.
  intros p nows rnd procs. induction is as [|i is IH]; intros ls H; cbn [pop_threads List.map List.concat] in *.
  - injection H as <-. constructor.
  - unfold part_keys at 1. destruct (pop_part procs (p_count p) i) as [start n] eqn:P. cbn [fst snd].
    destruct (populate_entry p (nows i) rnd (N.to_nat n) start) as [l|] eqn:E; [|discriminate].
    destruct (pop_threads p nows rnd procs is) as [ls'|] eqn:E2; [|discriminate]. injection H as <-. cbn [List.concat].
    apply Forall2_app.
    + apply entry_stores in E. clear - E. induction E; constructor; [exists i; split; [left; reflexivity|assumption]|assumption].
    + specialize (IH ls' eq_refl). clear - IH. induction IH; constructor; [|assumption].
      destruct H as (t & It & St). exists t. split; [right; exact It|exact St].
Qed.
Lemma parts_all : forall procs count, (0 < procs)%nat ->
  List.concat (List.map (part_keys procs count) (seq 0 procs)) = nseq 0 (N.to_nat count).
Proof.
  intros procs count P. set (g := count / N.of_nat procs).
  assert (G : N.of_nat procs * g <= count) by (unfold g; apply N.mul_div_le; lia).
  assert (F : forall k, (k < procs)%nat ->
    List.concat (List.map (part_keys procs count) (seq 0 k)) = nseq 0 (N.to_nat (N.of_nat k * g))).
  { induction k as [|k IH]; intro K; [reflexivity|].
    rewrite seq_S, List.map_app, concat_app, IH by lia. cbn [List.map List.concat Nat.add]. rewrite app_nil_r.
    unfold part_keys, pop_part. cbn zeta. cbn [fst snd]. fold g.
    destruct (Nat.eqb_spec (S k) procs); [lia|].
    replace (N.to_nat (N.of_nat (S k) * g)) with (N.to_nat (N.of_nat k * g) + N.to_nat g)%nat by lia.
    rewrite nseq_app. replace (0 + N.of_nat (N.to_nat (N.of_nat k * g))) with (N.of_nat k * g) by lia. reflexivity. }
  destruct procs as [|k]; [lia|]. rewrite seq_S, List.map_app, concat_app, F by lia.
  cbn [List.map List.concat Nat.add]. rewrite app_nil_r. unfold part_keys, pop_part. cbn zeta. cbn [fst snd]. fold g.
  rewrite Nat.eqb_refl.
  assert (B : N.of_nat k * g <= count) by lia.
  replace (N.to_nat count) with (N.to_nat (N.of_nat k * g) + N.to_nat (count - N.of_nat k * g))%nat by lia.
  rewrite nseq_app. replace (0 + N.of_nat (N.to_nat (N.of_nat k * g))) with (N.of_nat k * g) by lia. reflexivity.
Qed.

(** *** Stores with different keys, in any order *)
Definition key_of (x : call) : bytes := match x with Store k _ _ _ => k | _ => [] end.
Definition plain (x : call) : Prop := exists k v ttl t, (0 < t)%Z /\
  x = Store k v (mkStoreOpts 0 ttl 0 0 false false false false false None) t.
(** What a plain store leaves under its key. *)
Definition left_by (o : opts) (ch : cache) (x : call) : Prop :=
  match x with
  | Store k v so t => exists tok, forall now,
      sees (ctx_of o) ch k now (if alive_at (asked so t) now then Some (mkView v (asked so t) 0 tok) else None)
  | _ => False
  end.
Lemma run_plain : forall o h ch, reachable (ctx_of o) ch -> sensible (ctx_of o) ch h ->
  (forall en x, In (en, x) h -> plain x /\ forall s, al_table (en_mem en s) = true) ->
  NoDup (List.map (fun e => key_of (snd e)) h) ->
  exists ch' rs evs, run (ctx_of o) ch h = Ok (ch', rs, evs) /\ reachable (ctx_of o) ch' /\
    (forall en x, In (en, x) h -> left_by o ch' x) /\
    (forall k, ~ In k (List.map (fun e => key_of (snd e)) h) -> same_at (ctx_of o) ch ch' k).
Proof.
  intros o. induction h as [|[en x] h IH]; intros ch R Se Pl Nd.
  - exists ch, [], []. split; [reflexivity|]. split; [exact R|]. split; [intros en x []|]. intros k _ now v. reflexivity.
  - cbn [sensible] in Se. destruct Se as [K Se].
    destruct (Pl en x (or_introl eq_refl)) as [(k & v & ttl & t & T & ->) M].
    destruct (reachable_step (ctx_of o) (opts_load o) (opts_shards o) ch en _ R K) as (ch1 & r & ev & E & R1 & _ & _).
    cbn [List.map snd key_of] in Nd. inversion Nd as [|? ? Nin Nd']; subst.
    destruct (IH ch1 R1 (Se _ _ _ E)) as (ch' & rs & evs & E' & R' & L & Sm); [intros e y Hy; apply Pl; right; exact Hy|exact Nd'|].
    exists ch', (r :: rs), (ev ++ evs). cbn [run]. rewrite E, E'. split; [reflexivity|]. split; [exact R'|].
    set (so := mkStoreOpts 0 ttl 0 0 false false false false false None) in *.
    split.
    + intros e y [Q|Q]; [|apply (L e y Q)]. injection Q as <- <-. cbn [left_by].
      destruct (made_store o ch en k v so t ch1 r ev R K E) as (_ & st & sh & m' & cas' & Er & S & _). subst r.
      assert (St : st = INSERTED \/ st = REPLACED).
      { inversion S; subst.
        - match goal with H : sp_store _ _ _ _ _ _ _ = _ |- _ => unfold sp_store in H; cbn [so so_casop so_nx so_entry so_xx orb] in H;
            destruct (live_item _ _ _) in H; injection H as _ _ <- _; auto end.
        - left; reflexivity.
        - discriminate.
        - match goal with H : al_table _ = false |- _ => rewrite M in H; discriminate end. }
      destruct (C02_store_load o ch en k v so t ch1 st sh ev R K E St) as (exp & tok & Ex & S1 & S2).
      specialize (Ex eq_refl). unfold resolve_now in Ex. destruct (Z.gtb_spec t 0); [|lia].
      exists tok. intro now. specialize (Sm k Nin now). rewrite <- Sm. rewrite <- Ex.
      destruct (alive_at exp now) eqn:A; [apply S1; exact A|apply S2; exact A].
    + intros q Hq. cbn [List.map snd key_of In] in Hq. intros now w.
      rewrite <- (Sm q ltac:(tauto) now w).
      apply (C03_frame o ch en (Store k v so t) k ch1 r ev R K eq_refl); [intros ? ? ? ? Q; injection Q as _ _ <- _; reflexivity|exact E|].
      intro Q. apply Hq. left. congruence.
Qed.
Lemma pop_key_inj : forall pre i j, i < 2 ^ 63 -> j < 2 ^ 63 -> pop_key pre i = pop_key pre j -> i = j.
Proof.
  intros pre i j Hi Hj H. unfold pop_key in H. apply app_inv_head in H. apply app_inv_head in H.
  assert (B : forall x, x < 2 ^ 63 -> i64_ok (Z.of_N x)).
  { intros x Hx. unfold i64_ok, INT64_MIN, INT64_MAX. change (2 ^ 63) with 9223372036854775808 in Hx. lia. }
  pose proof (parse_print_i64 _ (B i Hi)) as P. rewrite H, (parse_print_i64 _ (B j Hj)) in P. injection P as P. lia.
Qed.

(** ** C71 DEBUG POPULATE stores what it is asked to store *)
(** The limits of the lifetimes make sense: two different [int]s, the lower one first, not too far apart. *)
Definition sane_range (r : option (Z * Z)) : Prop :=
  match r with
  | None => True
  | Some (lo, hi) => (lo < hi /\ - 2 ^ 31 <= lo /\ hi < 2 ^ 31 /\ hi - lo < 2 ^ 31)%Z
  end.
(** Expirations: none without limits; otherwise a number of seconds from the
    lower limit up to, not including, the upper one after [now] (none if that is not positive). *)
Definition lifetime (r : option (Z * Z)) (now exp : Z) : Prop :=
  match r with
  | None => exp = 0%Z
  | Some (lo, hi) => exists s, (lo <= s < hi)%Z /\
      exp = if (s <=? 0)%Z then 0%Z else Z.min INT64_MAX (now + s * 1000000000)
  end.

Lemma sane_ttl : forall r rnd, sane_range r -> exists ttl, pop_ttl r rnd = Fine ttl /\
  forall now, (0 < now)%Z -> lifetime r now (asked (mkStoreOpts 0 ttl 0 0 false false false false false None) now).
Proof.
  intros [[lo hi]|] rnd H; cbn [pop_ttl sane_range lifetime] in *.
  - cbn zeta. destruct H as (H1 & H2 & H3 & H4). change (2 ^ 31)%Z with 2147483648%Z in *.
    assert (B : (0 <= Z.rem (Z.of_N rnd) (hi - lo) < hi - lo)%Z) by (apply Z.rem_bound_pos; lia).
    assert (Ii : forall z, (- 2147483648 <= z < 2147483648)%Z -> is_int z = true).
    { intros z Hz. unfold is_int. change (2 ^ 31)%Z with 2147483648%Z. apply andb_true_iff. split; [apply Z.leb_le|apply Z.ltb_lt]; lia. }
    rewrite (Ii (hi - lo)%Z) by lia. cbn [negb]. destruct (Z.eqb_spec (hi - lo) 0); [lia|].
    set (e := (Z.rem (Z.of_N rnd) (hi - lo) + lo)%Z) in *.
    rewrite (Ii e) by (unfold e; lia). eexists. split; [reflexivity|]. intros now Hn. exists e. split; [unfold e; lia|].
    unfold asked. cbn [so_expires so_ttl]. change (0 >? 0)%Z with false. cbn iota. unfold SECOND.
    destruct (Z.leb_spec e 0); destruct (Z.gtb_spec (e * 1000000000) 0); try lia.
    unfold norm, clamp64, INT64_MIN, INT64_MAX. match goal with |- context [(0 <? ?z)%Z] => destruct (Z.ltb_spec 0 z) end; lia.
  - exists 0%Z. split; [reflexivity|]. intros now _. reflexivity.
Qed.

(** However the stores of the threads are interleaved: exactly the keys
    prefix:0, prefix:1, ... are stored, with zeros, and all others are as before. *)
Theorem C71_populate : forall o ch avail p nows rnd procs calls h,
  reachable (ctx_of o) ch -> (0 < procs)%nat -> p_count p < 2 ^ 63 -> sane_range (p_range p) ->
  (forall k, 0 < nows k)%Z ->
  populate avail p nows rnd procs = Fine calls ->
  Permutation (List.map snd h) (List.concat calls) -> sensible (ctx_of o) ch h ->
  (forall en x s, In (en, x) h -> al_table (en_mem en s) = true) ->
  exists ch' rs evs dec, prints dec /\
    run (ctx_of o) ch h = Ok (ch', rs, evs) /\ reachable (ctx_of o) ch' /\
    (forall i, i < p_count p -> exists k exp tok, (k < procs)%nat /\ lifetime (p_range p) (nows k) exp /\
      forall t, sees (ctx_of o) ch' (p_prefix p ++ bs ":" ++ dec i) t
        (if alive_at exp t then Some (mkView (repeat 0 (N.to_nat (p_len p))) exp 0 tok) else None)) /\
    (forall key, (forall i, i < p_count p -> key <> p_prefix p ++ bs ":" ++ dec i) -> same_at (ctx_of o) ch ch' key).
Proof.
  intros o ch avail p nows rnd procs calls h R P Ct Sr Hn Pop Pm Se M.
  unfold populate in Pop. destruct (avail (p_len p)); [|discriminate]. cbn [negb] in Pop.
  apply threads_stores in Pop. rewrite parts_all in Pop by exact P.
  assert (Dec : forall i, i < p_count p -> pop_key (p_prefix p) i = p_prefix p ++ bs ":" ++ u64toa i).
  { intros i Hi. unfold pop_key, i64toa. destruct (Z.ltb_spec (Z.of_N i) 0); [lia|]. rewrite N2Z.id. reflexivity. }
  assert (All : forall x, In x (List.concat calls) -> exists i t, i < p_count p /\ In t (seq 0 procs) /\ stores p rnd (nows t) i x).
  { intros x Hx. assert (G : forall l ls, Forall2 (fun i x => exists t, In t (seq 0 procs) /\ stores p rnd (nows t) i x) l ls ->
      In x ls -> exists i t, In i l /\ In t (seq 0 procs) /\ stores p rnd (nows t) i x).
    { induction 1 as [|i y l ls (t & It & St) F IH]; intros I; [destruct I|]. destruct I as [<-|I].
      - exists i, t. split; [left; reflexivity|]. split; assumption.
      - destruct (IH I) as (j & u & Ij & Q). exists j, u. split; [right; exact Ij|exact Q]. }
    destruct (G _ _ Pop Hx) as (i & t & Ii & Q). exists i, t. split; [apply nseq_in in Ii; lia|exact Q]. }
  assert (Ks : List.map key_of (List.concat calls) = List.map (pop_key (p_prefix p)) (nseq 0 (N.to_nat (p_count p)))).
  { clear - Pop. induction Pop as [|i x l ls (t & _ & ttl & _ & ->) F IH]; cbn [List.map key_of]; [reflexivity|]. rewrite IH. reflexivity. }
  assert (Nd : NoDup (List.map key_of (List.concat calls))).
  { rewrite Ks. assert (G : forall l, NoDup l -> (forall i, In i l -> i < p_count p) -> NoDup (List.map (pop_key (p_prefix p)) l)).
    { induction 1 as [|i l Ni Nl IH]; intro B; cbn [List.map]; constructor.
      - intro I. apply in_map_iff in I. destruct I as (j & E & Ij). apply pop_key_inj in E.
        + subst j. contradiction.
        + pose proof (B j (or_intror Ij)). lia.
        + pose proof (B i (or_introl eq_refl)). lia.
      - apply IH. intros j Hj. apply B. right. exact Hj. }
    apply G; [apply nseq_nodup|]. intros i Hi. apply nseq_in in Hi. lia. }
  assert (Mk : List.map (fun e => key_of (snd e)) h = List.map key_of (List.map snd h)) by (rewrite List.map_map; reflexivity).
  destruct (run_plain o h ch R Se) as (ch' & rs & evs & E & R' & L & Sm).
  { intros en x I. split; [|intro s; exact (M en x s I)].
    assert (Ix : In x (List.concat calls)) by (apply (Permutation_in _ Pm); apply (in_map snd) in I; exact I).
    destruct (All x Ix) as (i & t & _ & _ & ttl & _ & ->). eexists _, _, _, _. split; [apply Hn|reflexivity]. }
  { rewrite Mk. apply (Permutation_NoDup (Permutation_map key_of (Permutation_sym Pm))). exact Nd. }
  exists ch', rs, evs, u64toa. split; [exact u64toa_prints|]. split; [exact E|]. split; [exact R'|]. split.
  - intros i Hi.
    assert (Ii : In i (nseq 0 (N.to_nat (p_count p)))) by (apply nseq_in; lia).
    assert (G : forall l ls, Forall2 (fun i x => exists t, In t (seq 0 procs) /\ stores p rnd (nows t) i x) l ls ->
      In i l -> exists x t, In x ls /\ In t (seq 0 procs) /\ stores p rnd (nows t) i x).
    { induction 1 as [|j y l ls (t & It & St) F IH]; intros I; [destruct I|]. destruct I as [-> |I].
      - exists y, t. split; [left; reflexivity|]. split; assumption.
      - destruct (IH I) as (x & u & Ix & Q). exists x, u. split; [right; exact Ix|exact Q]. }
    destruct (G _ _ Pop Ii) as (x & t & Ix & It & ttl & T & ->). apply in_seq in It.
    assert (Ih : exists en, In (en, Store (pop_key (p_prefix p) i) (repeat 0 (N.to_nat (p_len p)))
      (mkStoreOpts 0 ttl 0 0 false false false false false None) (nows t)) h).
    { apply (Permutation_in _ (Permutation_sym Pm)) in Ix. apply in_map_iff in Ix. destruct Ix as ([en y] & Q & I).
      cbn [snd] in Q. subst y. exists en. exact I. }
    destruct Ih as (en & Ih). specialize (L en _ Ih). cbn [left_by] in L. destruct L as (tok & L).
    exists t. eexists. exists tok. split; [lia|]. split; [|intro now; rewrite <- (Dec i Hi); apply L].
    destruct (sane_ttl (p_range p) (rnd i) Sr) as (ttl' & T' & Lt). rewrite T in T'. injection T' as <-. apply Lt. apply Hn.
  - intros key Hk. apply Sm. rewrite Mk. intro I.
    apply (Permutation_in _ (Permutation_map key_of Pm)) in I. rewrite Ks in I. apply in_map_iff in I.
    destruct I as (i & <- & Ii). apply nseq_in in Ii. apply (Hk i ltac:(lia)). apply Dec. lia.
Qed.

(** With sensible limits and enough memory nothing stops the process. *)
Theorem C71_runs : forall avail p nows rnd procs, sane_range (p_range p) -> avail (p_len p) = true ->
  exists calls, populate avail p nows rnd procs = Fine calls.
Proof.
  intros avail p nows rnd procs Sr Av. unfold populate. rewrite Av. cbn [negb].
  assert (E : forall now n i, exists l, populate_entry p now rnd n i = Fine l).
  { intro now. induction n as [|n IH]; intro i; cbn [populate_entry]; [eexists; reflexivity|].
    destruct (sane_ttl (p_range p) (rnd i) Sr) as (ttl & -> & _). destruct (IH (i + 1)) as (l & ->). eexists; reflexivity. }
  generalize (seq 0 procs). induction l as [|i l (ls & IH)]; cbn [pop_threads]; [eexists; reflexivity|].
  destruct (pop_part procs (p_count p) i) as [a b]. destruct (E (nows i) (N.to_nat b) a) as (x & ->). rewrite IH. eexists; reflexivity.
Qed.

(** Equal limits, or a size for which there is no memory, stop the server. *)
Theorem C71_stops : forall avail p nows rnd procs, (0 < procs)%nat ->
  (avail (p_len p) = false \/ (0 < p_count p /\ exists z, is_int z = true /\ p_range p = Some (z, z))) ->
  exists c, populate avail p nows rnd procs = Crash c.
Proof.
  intros avail p nows rnd procs P H. unfold populate. destruct (avail (p_len p)); cbn [negb]; [|eexists; reflexivity].
  destruct H as [H|(C & z & Iz & Rz)]; [discriminate|].
  assert (T : forall r, pop_ttl (p_range p) r = Crash DivByZero).
  { intro r. rewrite Rz. cbn [pop_ttl]. cbn zeta. rewrite Z.sub_diag. reflexivity. }
  destruct (pop_threads p nows rnd procs (seq 0 procs)) as [ls|c] eqn:E; [|eexists; reflexivity]. exfalso.
  apply threads_stores in E. rewrite parts_all in E by exact P.
  destruct (N.to_nat (p_count p)) as [|k] eqn:Q; [lia|]. cbn [nseq] in E. inversion E; subst.
  match goal with H : exists t, _ |- _ => destruct H as (t & _ & ttl & F & _) end. rewrite T in F. discriminate.
Qed.

(** What the arguments mean: the number of keys, the prefix, the size, and
    possibly two limits joined by a dash. *)
Theorem C71_parse : forall a0 a1 c pre s n l rest, word a1 "populate" -> int_text c n -> (0 <= n)%Z -> int_text s l -> (0 <= l)%Z ->
  (rest = [] -> debug (a0 :: a1 :: c :: pre :: s :: rest) = Populate (mkPop (Z.to_N n) pre (Z.to_N l) None)) /\
  (forall r, rest = [r] -> ~ In 45 r -> debug (a0 :: a1 :: c :: pre :: s :: rest) = Populate (mkPop (Z.to_N n) pre (Z.to_N l) None)) /\
  (forall a b lo hi, rest = [a ++ bs "-" ++ b] -> canonical a lo -> canonical b hi -> lo < 2 ^ 31 -> hi < 2 ^ 31 ->
     debug (a0 :: a1 :: c :: pre :: s :: rest) = Populate (mkPop (Z.to_N n) pre (Z.to_N l) (Some (Z.of_N lo, Z.of_N hi)))).
Proof.
  intros a0 a1 c pre s n l rest W Ic Hn Is Hl.
  apply int_text_parse in Ic. apply int_text_parse in Is.
  assert (W' : is_word a1 "populate" = true) by (apply is_word_iff; exact W).
  assert (Go : forall r0, debug (a0 :: a1 :: c :: pre :: s :: r0) =
    match r0 with [] => Populate (mkPop (Z.to_N n) pre (Z.to_N l) None) | [r] => Populate (mkPop (Z.to_N n) pre (Z.to_N l) (rand_range r)) | _ => Reject ERR_WRONG_NUM_ARGS end).
  { intro r0. unfold debug. rewrite W'. unfold populate_args. cbn zeta.
    destruct r0 as [|r [|r2 r3]]; [| |reflexivity]; rewrite Ic, Is; destruct (Z.ltb_spec n 0); try lia; destruct (Z.ltb_spec l 0); try lia; reflexivity. }
  rewrite Go. split; [intros ->; reflexivity|]. split.
  - intros r -> Nr. do 2 f_equal. unfold rand_range. cbn zeta.
    assert (A : forall x, ~ In 45 x -> after_dash (cstr x) = None).
    { induction x as [|b x IH]; intro H; cbn [cstr]; [reflexivity|]. destruct (b =? 0); [reflexivity|]. cbn [after_dash].
      destruct (N.eqb_spec b 45) as [->|_]; [destruct H; left; reflexivity|]. apply IH. intro K. apply H. right. exact K. }
    rewrite A by exact Nr. reflexivity.
  - intros a b lo hi -> Ca Cb La Lb. do 2 f_equal. unfold rand_range. cbn zeta.
    destruct Ca as ((Na & Fa) & Da & _). destruct Cb as ((Nb & Fb) & Db & _).
    assert (Z0 : forall x, Forall (fun d => is_digit d = true) x -> forall y, cstr (x ++ y) = x ++ cstr y).
    { induction 1 as [|d x Hd _ IH]; intro y; cbn [app cstr]; [reflexivity|]. apply is_digit_range in Hd.
      destruct (N.eqb_spec d 0); [lia|]. rewrite IH. reflexivity. }
    assert (Lead : forall x, Forall (fun d => is_digit d = true) x -> forall acc y, (forall d r, y = d :: r -> is_digit d = false) ->
      lead_num acc (x ++ y) = acc * 10 ^ N.of_nat (length x) + decimal x).
    { induction 1 as [|d x Hd _ IH]; intros acc y Hy; cbn [app lead_num decimal length].
      - change (10 ^ N.of_nat 0) with 1. destruct y as [|d r]; cbn [lead_num]; [lia|].
        specialize (Hy d r eq_refl). unfold is_digit in Hy. rewrite Hy. lia.
      - pose proof Hd as Hr. unfold is_digit in Hr. rewrite Hr. rewrite IH by exact Hy.
        replace (N.of_nat (S (length x))) with (N.succ (N.of_nat (length x))) by lia. rewrite N.pow_succ_r'. change (@List.length byte x) with (@List.length N x). generalize (d - 48), (10 ^ N.of_nat (@List.length N x)). intros e w. ring. }
    assert (At : forall x y v, x <> [] -> Forall (fun d => is_digit d = true) x -> decimal x = v -> v < 2 ^ 31 ->
      (forall d r, y = d :: r -> is_digit d = false) -> atoi (x ++ y) = Z.of_N v).
    { intros x y v Nx Fx Dx Lv Hy. 
      unfold atoi.
      assert (Sk : skip_space (x ++ y) = x ++ y /\ exists d x', x = d :: x' /\ 48 <= d <= 57).
      { destruct x as [|d x']; [congruence|]. inversion Fx; subst. apply is_digit_range in H1. split; [|exists d, x'; split; [reflexivity|lia]].
        cbn [app skip_space]. unfold Main.is_space. destruct (N.eqb_spec d 32); [lia|]. cbn [orb].
        destruct (N.leb_spec 9 d); destruct (N.leb_spec d 13); try lia; reflexivity. }
      destruct Sk as [Sk (d & x' & Ex & Hd)].
      assert (Sg : signed_num (x ++ y) = (false, lead_num 0 (x ++ y))).
      { unfold signed_num. rewrite Sk, Ex. cbn [app]. destruct d as [|q]; [reflexivity|].
        do 6 (destruct q; try reflexivity); lia. }
      rewrite Sg. rewrite (Lead x Fx 0 y Hy). cbn iota. rewrite N.mul_0_l, N.add_0_l, Dx.
      change (2 ^ 31) with 2147483648 in Lv. change (2 ^ 32)%Z with 4294967296%Z. change (2 ^ 31)%Z with 2147483648%Z. unfold INT64_MAX.
      rewrite Z.min_r by lia. rewrite Z.mod_small by lia. destruct (Z.ltb_spec (Z.of_N v) 2147483648); lia. }
    rewrite Z0 by exact Fa. change (cstr (bs "-" ++ b)) with (45 :: cstr b).
    replace (cstr b) with b by (rewrite <- (app_nil_r b) at 2; rewrite Z0 by exact Fb; cbn [cstr]; rewrite app_nil_r; reflexivity).
    assert (Ad : forall x, Forall (fun d => is_digit d = true) x -> after_dash (x ++ 45 :: b) = Some b).
    { induction 1 as [|d x Hd _ IH]; cbn [app after_dash]; [reflexivity|]. apply is_digit_range in Hd.
      destruct (N.eqb_spec d 45); [lia|exact IH]. }
    rewrite (Ad a Fa). rewrite (At a (45 :: b) lo Na Fa Da La) by (intros d r Q; injection Q as <- _; reflexivity).
    pose proof (At b [] hi Nb Fb Db Lb ltac:(intros d r Q; discriminate)) as Ab. rewrite app_nil_r in Ab. rewrite Ab. reflexivity.
Qed.
(** Everything else is refused. *)
Theorem C71_reject : forall args, (forall p, debug args = Populate p ->
    exists a0 a1 c pre s rest n l, args = a0 :: a1 :: c :: pre :: s :: rest /\ (length rest <= 1)%nat /\ word a1 "populate" /\
      int_text c n /\ (0 <= n)%Z /\ int_text s l /\ (0 <= l)%Z /\ p_count p = Z.to_N n /\ p_prefix p = pre /\ p_len p = Z.to_N l).
Proof.
  intros args p H. unfold debug in H. destruct args as [|a0 [|a1 r]]; try discriminate.
  destruct (is_word a1 "populate") eqn:W; [|destruct (is_word a1 "detach"); discriminate].
  apply is_word_iff in W. unfold populate_args in H. cbn zeta in H.
  destruct r as [|c [|pre [|s [|q [|q2 r]]]]]; try discriminate;
    destruct (parse_i64 c) as [n|] eqn:Ec; try discriminate; destruct (Z.ltb_spec n 0); try discriminate;
    destruct (parse_i64 s) as [l|] eqn:Es; try discriminate; destruct (Z.ltb_spec l 0); try discriminate;
    injection H as <-; apply int_text_parse in Ec; apply int_text_parse in Es;
    eexists a0, a1, c, pre, s, _, n, l; cbn [p_count p_prefix p_len]; (split; [reflexivity|]); cbn [length]; repeat (split; [solve [assumption|lia|reflexivity]|]); reflexivity.
Qed.

(** "DEBUG cannot stop the server" is refuted. *)
Theorem C71_stop_refuted : exists args p, debug args = Populate p /\ p_count p = 1 /\ p_len p = 1 /\
  forall avail nows rnd procs, (0 < procs)%nat -> exists c, populate avail p nows rnd procs = Crash c.
Proof.
  exists [bs "DEBUG"; bs "POPULATE"; bs "1"; bs "test"; bs "1"; bs "5-5"], (mkPop 1 (bs "test") 1 (Some (5, 5)%Z)).
  split; [vm_compute; reflexivity|]. split; [reflexivity|]. split; [reflexivity|].
  intros avail nows rnd procs P. apply C71_stops; [exact P|]. right. split; [reflexivity|]. exists 5%Z. split; reflexivity.
Qed.

(** DEBUG DETACH replies with the two times, within its buffer of 128 bytes. *)
Theorem C71_detach : forall a0 a1 rest, word a1 "detach" -> debug (a0 :: a1 :: rest) = Detach /\
  forall pr now later, i64_ok now -> i64_ok later -> exists a b, int_text a now /\ int_text b later /\
    (length (a ++ bs ":" ++ b) < 128)%nat /\
    detach_reply pr now later = match pr with
      | POSTGRES => [PRowDesc [bs "detach"]; PRow [a ++ bs ":" ++ b]; PComplete (bs "DEBUG DETACH"); PReady]
      | _ => [WBulk (a ++ bs ":" ++ b)] end.
Proof.
  intros a0 a1 rest W. split.
  - unfold debug. destruct (is_word a1 "populate") eqn:P; [|apply is_word_iff in W; rewrite W; reflexivity].
    apply is_word_iff in P. unfold word in W. rewrite W in P. discriminate P.
  - intros pr now later A B. exists (i64toa now), (i64toa later).
    pose proof (parse_print_i64 now A) as Pn. pose proof (parse_print_i64 later B) as Pl.
    apply int_text_parse in Pn. apply int_text_parse in Pl.
    split; [exact Pn|]. split; [exact Pl|]. split.
    + destruct Pn as [Ln _]. destruct Pl as [Ll _]. rewrite !app_length. change (length (bs ":")) with 1%nat. lia.
    + destruct pr; reflexivity.
Qed.

(** ** A case: three keys by two threads, the second one first *)
Definition case_pop : pop := mkPop 3 (bs "k") 2 (Some (5, 6)%Z).
Definition case_store (k : string) (t : Z) : call :=
  Store (bs k) [0; 0] (mkStoreOpts 0 5000000000 0 0 false false false false false None) t.
Definition case_h : list (env * call) :=
  [(plenty_env 110, case_store "k:1" 111); (plenty_env 112, case_store "k:0" 110); (plenty_env 113, case_store "k:2" 111)].
Example C71_case : debug [bs "debug"; bs "populate"; bs "3"; bs "k"; bs "2"; bs "5-6"] = Populate case_pop /\ sane_range (p_range case_pop) /\
  exists calls, populate (fun _ => true) case_pop (fun i => 110 + Z.of_nat i)%Z (fun _ => 77) 2 = Fine calls /\
    Permutation (List.map snd case_h) (List.concat calls) /\ reachable demo_c demo_new /\ sensible demo_c demo_new case_h.
Proof.
  split; [vm_compute; reflexivity|]. split; [cbn; lia|].
  exists [[case_store "k:0" 110]; [case_store "k:1" 111; case_store "k:2" 111]].
  split; [vm_compute; reflexivity|]. split; [apply perm_swap|].
  destruct (new_ok demo_c (opts_load _) (opts_shards _) _ _ demo_is_new) as (I & _ & _ & A & _).
  split; [exists (fun _ => true), demo_new, [], [], []; split; [exact demo_is_new|split; [exact Logic.I|reflexivity]]|].
  apply (few_sensible demo_c (opts_load _) case_h demo_new []).
  - assumption.
  - intros k X. destruct (X (A k)).
  - intros i ks Nd H. change 253%nat with (253 + 0)%nat.
    assert (L : (length ks <= length (stored case_h))%nat) by (apply NoDup_incl_length; [assumption|intros k Hk; apply H; assumption]).
    cbn in L. lia.
  - unfold case_h, case_store. repeat apply Forall_cons; try apply Forall_nil; cbn [fst snd args_fine]; (split; [small_store|reflexivity]).
Qed.

(** Limits that are more than an int apart stop the server too. *)
Theorem C71_far_limits : forall avail p nows rnd procs lo hi, (0 < procs)%nat -> 0 < p_count p -> p_range p = Some (lo, hi) ->
  (hi - lo < - 2 ^ 31 \/ 2 ^ 31 <= hi - lo)%Z -> exists c, populate avail p nows rnd procs = Crash c.
Proof.
  intros avail p nows rnd procs lo hi P C R F. unfold populate. destruct (avail (p_len p)); cbn [negb]; [|eexists; reflexivity].
  assert (T : forall r, pop_ttl (p_range p) r = Crash IntOverflow).
  { intro r. rewrite R. unfold pop_ttl, is_int. cbv zeta. replace ((- 2 ^ 31 <=? hi - lo) && (hi - lo <? 2 ^ 31))%Z with false by lia. reflexivity. }
  destruct (pop_threads p nows rnd procs (seq 0 procs)) as [ls|c] eqn:E; [|eexists; reflexivity]. exfalso.
  apply threads_stores in E. rewrite parts_all in E by exact P.
  destruct (N.to_nat (p_count p)) as [|k] eqn:Q; [lia|]. cbn [nseq] in E. inversion E; subst.
  match goal with H : exists t, _ |- _ => destruct H as (t & _ & ttl & X & _) end. rewrite T in X. discriminate.
Qed.
Example C71_case_far : debug [bs "debug"; bs "populate"; bs "3"; bs "k"; bs "2"; bs "-2000000000"] = Populate (mkPop 3 (bs "k") 2 (Some (-2000000000, 2000000000)%Z)) /\
  populate (fun _ => true) (mkPop 3 (bs "k") 2 (Some (-2000000000, 2000000000)%Z)) (fun _ => 110%Z) (fun _ => 77) 2 = Crash IntOverflow.
Proof. split; vm_compute; reflexivity. Qed.
(** The reply: OK, or on Postgres the number of keys. *)
Theorem C71_reply : forall pr p, p_count p < 2 ^ 63 -> exists s, int_text s (Z.of_N (p_count p)) /\
  populate_reply pr p = match pr with POSTGRES => [PComplete (bs "DEBUG POPULATE " ++ s); PReady] | _ => [WString (bs "OK")] end.
Proof.
  intros pr p B. exists (i64toa (Z.of_N (p_count p))). split.
  - apply int_text_parse. apply parse_print_i64. unfold i64_ok, INT64_MIN, INT64_MAX. lia.
  - destruct pr; reflexivity.
Qed.
Example C71_case_reply : populate_reply POSTGRES case_pop = [PComplete (bs "DEBUG POPULATE 3"); PReady].
Proof. reflexivity. Qed.
