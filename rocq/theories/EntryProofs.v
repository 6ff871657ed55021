From Verif Require Import Base Types Varint VarintProofs Sixpack SixpackProofs Entry.
Local Open Scope N_scope.

(** The inputs [entry_new] is called with: byte strings, 64-bit expiration,
    32-bit flags, 64-bit cas, sizes that fit in memory. *)
Record args_ok (key val : bytes) (expires : Z) (flags cas : N) : Prop := {
  ao_key : bytes_ok key;
  ao_val : bytes_ok val;
  ao_len : N.of_nat (length key) + N.of_nat (length val) < 2 ^ 62;
  ao_exp : (expires <= INT64_MAX)%Z;
  ao_flags : flags < 2 ^ 32;
  ao_cas : cas < 2 ^ 64
}.

Definition norm_exp (z : Z) : Z := if (0 <? z)%Z then z else 0%Z.

(** the stored form of a key *)
Definition packed_key (c : ctx) (key : bytes) : bytes :=
  if negb (c_nosixpack c) && (length key <=? 128)%nat then sixpack key else [].
Definition raw_key (c : ctx) (key : bytes) : bytes :=
  if negb (length (packed_key c key) =? 0)%nat then packed_key c key else key.

Lemma length_zero_iff : forall (l : bytes), (length l =? 0)%nat = true <-> l = [].
Proof. intros [|a l]; cbn; split; intro; congruence. Qed.

Lemma packed_key_unpack : forall c key, (length (packed_key c key) =? 0)%nat = false ->
  unsixpack (packed_key c key) = key /\ (length (packed_key c key) <= 96)%nat.
Proof.
  intros c key H. unfold packed_key in *.
  destruct (negb (c_nosixpack c) && (length key <=? 128)%nat) eqn:E; [|discriminate].
  assert (Hn : sixpack key <> []).
  { intro Z. rewrite Z in H. discriminate. }
  apply sixpack_nonempty in Hn. destruct Hn as [Hp _].
  split; [apply unsixpack_sixpack; assumption|].
  pose proof (sixpack_length key).
  apply andb_true_iff in E. destruct E as [_ E]. lia.
Qed.

Lemma raw_key_length : forall c key, (length (raw_key c key) <= length key + 96)%nat.
Proof.
  intros c key. unfold raw_key.
  destruct (length (packed_key c key) =? 0)%nat eqn:E; cbn [negb]; [lia|].
  apply packed_key_unpack in E. lia.
Qed.

Section Fields.
Variables (c : ctx) (id : N) (key val : bytes) (expires : Z) (flags cas : N).
Hypothesis OK : args_ok key val expires flags cas.

Let rk := raw_key c key.
Let hasexp := (0 <? expires)%Z.
Let hasflags := 0 <? flags.
Let klb := varint_write_u64 (N.of_nat (length rk)).
Let pre := (opt8 hasexp + opt4 hasflags + opt8 (c_usecas c))%nat.
Let size0 := SIZEOF_ENTRY + N.of_nat pre + N.of_nat (length klb)
  + N.of_nat (length rk) + N.of_nat (length val).
Let msz := if size0 <=? 255 - 1 then 0
    else if size0 <=? 65535 - 2 then 1
    else if size0 <=? 4294967295 - 4 then 2
    else 3.
Let size := size0 + 2 ^ msz.
Let fexp := if hasexp then le_bytes 8 (u64_of_i64 expires) else [].
Let fflags := if hasflags then le_bytes 4 flags else [].
Let fcas := if c_usecas c then le_bytes 8 cas else [].

Lemma rk_len : N.of_nat (length rk) < 2 ^ 62 + 96.
Proof.
  pose proof (raw_key_length c key). destruct OK as [_ _ Hl _ _ _]. unfold rk. lia.
Qed.
Lemma rk_len64 : N.of_nat (length rk) < 2 ^ 64.
Proof. pose proof rk_len. lia. Qed.
Lemma klb_len : (1 <= length klb <= 10)%nat.
Proof. apply varint_length. apply rk_len64. Qed.
Lemma pre_le : (pre <= 20)%nat.
Proof. unfold pre, opt8, opt4. case hasexp, hasflags, (c_usecas c); lia. Qed.
Lemma size0_bound : size0 < 2 ^ 63 + 1000.
Proof.
  pose proof rk_len. pose proof klb_len. pose proof pre_le.
  destruct OK as [_ _ Hl _ _ _]. unfold size0, SIZEOF_ENTRY. lia.
Qed.
Lemma msz_range : msz < 4.
Proof. unfold msz. repeat destruct (_ <=? _); lia. Qed.
Lemma size_fits : size < 256 ^ N.of_nat (szlen msz) /\ size < 2 ^ 64.
Proof.
  pose proof size0_bound. unfold size, msz.
  destruct (size0 <=? 255 - 1) eqn:E1; [|destruct (size0 <=? 65535 - 2) eqn:E2;
    [|destruct (size0 <=? 4294967295 - 4) eqn:E3]].
  - change (256 ^ N.of_nat (szlen 0)) with 256. change (2 ^ 0) with 1. lia.
  - change (256 ^ N.of_nat (szlen 1)) with 65536. change (2 ^ 1) with 2. lia.
  - change (256 ^ N.of_nat (szlen 2)) with 4294967296. change (2 ^ 2) with 4. lia.
  - change (256 ^ N.of_nat (szlen 3)) with (2 ^ 64). change (2 ^ 3) with 8. lia.
Qed.

Lemma entry_new_eq :
  entry_new c id key val expires flags cas =
  mkEntry id 0 msz hasexp hasflags (negb (length (packed_key c key) =? 0)%nat)
    (le_bytes (szlen msz) size ++ fexp ++ fflags ++ fcas ++ klb ++ rk ++ val).
Proof.
  pose proof size0_bound as Hb. pose proof size_fits as [_ Hs].
  unfold entry_new. fold (packed_key c key). fold (raw_key c key).
  fold hasexp hasflags. fold rk. fold klb. fold pre.
  assert (E : u64 (SIZEOF_ENTRY + N.of_nat pre + N.of_nat (length klb)
    + N.of_nat (length rk) + N.of_nat (length val)) = size0).
  { fold size0. unfold u64. apply N.mod_small. lia. }
  cbv zeta. rewrite E. fold msz. fold size.
  assert (E2 : u64 size = size) by (unfold u64; apply N.mod_small; exact Hs).
  rewrite E2. reflexivity.
Qed.

Lemma fexp_len : length fexp = opt8 hasexp.
Proof. unfold fexp, opt8. case hasexp; [apply le_bytes_length|reflexivity]. Qed.
Lemma fflags_len : length fflags = opt4 hasflags.
Proof. unfold fflags, opt4. case hasflags; [apply le_bytes_length|reflexivity]. Qed.
Lemma fcas_len : length fcas = opt8 (c_usecas c).
Proof. unfold fcas, opt8. destruct (c_usecas c); [apply le_bytes_length|reflexivity]. Qed.

Lemma skip_app_len : forall n (a b : bytes), length a = n -> skipn n (a ++ b) = b.
Proof. intros n a b <-. apply skipn_exact. Qed.
Lemma first_app_len : forall n (a b : bytes), length a = n -> firstn n (a ++ b) = a.
Proof. intros n a b <-. apply firstn_exact. Qed.
Lemma skip_plus : forall n m (l : bytes), skipn (n + m) l = skipn m (skipn n l).
Proof. 
  induction n as [|n IH]; intros m l; cbn [Nat.add skipn]; [reflexivity|].
  destruct l; [rewrite skipn_nil; reflexivity|apply IH].
Qed.

Lemma new_memsize : entry_memsize (entry_new c id key val expires flags cas) = size.
Proof.
  rewrite entry_new_eq. unfold entry_memsize. cbn [e_memszsz e_data].
  rewrite first_app_len by apply le_bytes_length.
  apply le_val_bytes. apply size_fits.
Qed.

Lemma new_expires_raw : (if hasexp then i64_of_u64 (le_val fexp) else 0%Z) = norm_exp expires.
Proof.
  unfold norm_exp, fexp. fold hasexp. case_eq hasexp; intro E; [|reflexivity].
  rewrite le_val_bytes.
  - apply i64_u64_roundtrip. destruct OK. unfold hasexp in E.
    unfold i64_ok, INT64_MIN in *. lia.
  - change (256 ^ N.of_nat 8) with (2 ^ 64). apply u64_of_i64_bound.
Qed.

Lemma new_expires : entry_expires (entry_new c id key val expires flags cas) = norm_exp expires.
Proof.
  rewrite entry_new_eq. unfold entry_expires. cbn [e_memszsz e_data e_hasexp].
  rewrite skip_app_len by apply le_bytes_length.
  rewrite <- new_expires_raw. case_eq hasexp; intro E; [|reflexivity].
  rewrite first_app_len; [reflexivity|]. rewrite fexp_len, E. reflexivity.
Qed.

Lemma new_rawkey_pos :
  entry_rawkey_pos c (entry_new c id key val expires flags cas)
  = Some ((szlen msz + pre + length klb)%nat, N.of_nat (length rk)).
Proof.
  rewrite entry_new_eq. unfold entry_rawkey_pos.
  cbn [e_memszsz e_data e_hasexp e_hasflags].
  rewrite !skip_plus.
  rewrite skip_app_len by apply le_bytes_length.
  rewrite (skip_app_len _ fexp) by apply fexp_len.
  rewrite (skip_app_len _ fflags) by apply fflags_len.
  rewrite (skip_app_len _ fcas) by apply fcas_len.
  unfold klb. rewrite varint_roundtrip_nolen by apply rk_len64.
  fold klb. unfold pre. do 2 f_equal. lia.
Qed.

Lemma data_tail : 
  skipn (szlen msz + pre + length klb)
    (e_data (entry_new c id key val expires flags cas)) = rk ++ val.
Proof.
  rewrite entry_new_eq. cbn [e_data]. unfold pre.
  rewrite !skip_plus.
  rewrite skip_app_len by apply le_bytes_length.
  rewrite (skip_app_len _ fexp) by apply fexp_len.
  rewrite (skip_app_len _ fflags) by apply fflags_len.
  rewrite (skip_app_len _ fcas) by apply fcas_len.
  apply skip_app_len. reflexivity.
Qed.

Lemma new_rawkey : entry_rawkey c (entry_new c id key val expires flags cas) = Some rk.
Proof.
  unfold entry_rawkey. rewrite new_rawkey_pos. rewrite data_tail.
  rewrite Nat2N.id. rewrite firstn_exact. reflexivity.
Qed.

Lemma new_hassix : e_hassix (entry_new c id key val expires flags cas)
  = negb (length (packed_key c key) =? 0)%nat.
Proof. rewrite entry_new_eq. reflexivity. Qed.

Lemma new_key : entry_key c (entry_new c id key val expires flags cas) = Some key.
Proof.
  unfold entry_key. rewrite new_rawkey, new_hassix. f_equal.
  unfold rk, raw_key.
  destruct (length (packed_key c key) =? 0)%nat eqn:E; cbn [negb]; [reflexivity|].
  apply packed_key_unpack. assumption.
Qed.

Lemma vallen_eq : forall q, q = (szlen msz + pre + length klb + length rk)%nat ->
  u64 (size + 2 * 2 ^ 64 - N.of_nat q - SIZEOF_ENTRY) = N.of_nat (length val).
Proof.
  intros q ->. unfold u64.
  assert (Hz : N.of_nat (szlen msz) = 2 ^ msz).
  { unfold szlen. apply N2Nat.id. }
  pose proof size0_bound.
  assert (N.of_nat (length val) < 2 ^ 64) by (destruct OK; lia).
  symmetry. apply N.mod_unique with (q := 2); [assumption|].
  unfold size, size0, SIZEOF_ENTRY in *. lia.
Qed.

Lemma new_value : entry_value c (entry_new c id key val expires flags cas) = Some val.
Proof.
  unfold entry_value. rewrite new_rawkey_pos, new_memsize. cbv zeta.
  rewrite Nat2N.id.
  rewrite vallen_eq by reflexivity. rewrite Nat2N.id.
  rewrite skip_plus, data_tail, skipn_exact, firstn_all. reflexivity.
Qed.

Lemma new_extract : entry_extract c (entry_new c id key val expires flags cas)
  = Some (mkView val (norm_exp expires) flags (if c_usecas c then cas else 0)).
Proof.
  pose proof new_memsize as Hm. pose proof data_tail as Ht.
  unfold entry_extract. rewrite Hm. clear Hm.
  rewrite entry_new_eq in *. cbn [e_memszsz e_data e_hasexp e_hasflags] in *.
  set (D := le_bytes (szlen msz) size ++ fexp ++ fflags ++ fcas ++ klb ++ rk ++ val) in *.
  assert (S1 : skipn (szlen msz) D = fexp ++ fflags ++ fcas ++ klb ++ rk ++ val)
    by (apply skip_app_len, le_bytes_length).
  assert (S2 : skipn (szlen msz + opt8 hasexp) D = fflags ++ fcas ++ klb ++ rk ++ val)
    by (rewrite skip_plus, S1; apply skip_app_len, fexp_len).
  assert (S3 : skipn (szlen msz + opt8 hasexp + opt4 hasflags) D = fcas ++ klb ++ rk ++ val)
    by (rewrite skip_plus, S2; apply skip_app_len, fflags_len).
  assert (S4 : skipn (szlen msz + opt8 hasexp + opt4 hasflags + opt8 (c_usecas c)) D
     = klb ++ rk ++ val)
    by (rewrite skip_plus, S3; apply skip_app_len, fcas_len).
  cbv zeta. rewrite S1, S2, S3, S4.
  unfold klb at 1. rewrite varint_roundtrip_nolen by apply rk_len64. fold klb.
  rewrite Nat2N.id.
  rewrite vallen_eq by (unfold pre; lia). rewrite Nat2N.id.
  rewrite skip_plus, skip_plus, S4, skipn_exact, skipn_exact, firstn_all.
  f_equal. f_equal.
  - rewrite <- new_expires_raw. case_eq hasexp; intro E; [|reflexivity].
    rewrite first_app_len; [reflexivity|]. rewrite fexp_len, E. reflexivity.
  - unfold fflags. case_eq hasflags; intro E.
    + rewrite first_app_len by apply le_bytes_length. apply le_val_bytes.
      change (256 ^ N.of_nat 4) with (2 ^ 32). apply OK.
    + unfold hasflags in E. lia.
  - unfold fcas. destruct (c_usecas c); [|reflexivity].
    rewrite first_app_len by apply le_bytes_length. apply le_val_bytes.
    change (256 ^ N.of_nat 8) with (2 ^ 64). apply OK.
Qed.

Lemma new_cas : entry_cas c (entry_new c id key val expires flags cas)
  = if c_usecas c then cas else 0.
Proof.
  rewrite entry_new_eq. unfold entry_cas. case_eq (c_usecas c); intro U; [|reflexivity].
  cbn [e_memszsz e_data e_hasexp e_hasflags].
  rewrite !skip_plus.
  rewrite skip_app_len by apply le_bytes_length.
  rewrite (skip_app_len _ fexp) by apply fexp_len.
  rewrite (skip_app_len _ fflags) by apply fflags_len.
  assert (F : fcas = le_bytes 8 cas) by (unfold fcas; rewrite U; reflexivity).
  rewrite F.
  rewrite first_app_len by apply le_bytes_length. apply le_val_bytes.
  change (256 ^ N.of_nat 8) with (2 ^ 64). apply OK.
Qed.

(** every byte written lies inside the allocation: data starts at offset 13 *)
Lemma new_data_len : N.of_nat (length (e_data (entry_new c id key val expires flags cas)))
   + SIZEOF_ENTRY = size.
Proof.
  rewrite entry_new_eq. cbn [e_data]. rewrite !app_length, le_bytes_length, fexp_len,
    fflags_len, fcas_len.
  assert (Hz : N.of_nat (szlen msz) = 2 ^ msz) by (unfold szlen; apply N2Nat.id).
  unfold size, size0, pre, SIZEOF_ENTRY. lia.
Qed.

End Fields.

(** A well-formed entry is one made by [entry_new] (with any access time). *)
Definition wf_entry (c : ctx) (e : entry) : Prop :=
  exists key val expires flags cas t,
    args_ok key val expires flags cas /\
    e = entry_settime (entry_new c (e_id e) key val expires flags cas) t.

Lemma wf_entry_settime : forall c e t, wf_entry c e -> wf_entry c (entry_settime e t).
Proof.
  intros c e t (k & v & x & f & s & t0 & Hok & E).
  exists k, v, x, f, s, t. split; [assumption|].
  rewrite E. cbn. reflexivity.
Qed.

Lemma entry_compare_settime : forall c a b t u,
  entry_compare c (entry_settime a t) (entry_settime b u) = entry_compare c a b.
Proof. reflexivity. Qed.

Lemma raw_key_inj : forall c k1 k2,
  negb (length (packed_key c k1) =? 0)%nat = negb (length (packed_key c k2) =? 0)%nat ->
  raw_key c k1 = raw_key c k2 -> k1 = k2.
Proof.
  intros c k1 k2 Hf E. unfold raw_key in E.
  destruct (length (packed_key c k1) =? 0)%nat eqn:E1;
  destruct (length (packed_key c k2) =? 0)%nat eqn:E2; cbn [negb] in *;
    try discriminate; [assumption|].
  apply packed_key_unpack in E1. apply packed_key_unpack in E2.
  destruct E1 as [E1 _], E2 as [E2 _]. congruence.
Qed.

(** Comparing two entries is comparing their keys. *)
Lemma entry_compare_keys : forall c a b ka kb, wf_entry c a -> wf_entry c b ->
  entry_key c a = Some ka -> entry_key c b = Some kb ->
  exists r, entry_compare c a b = Some r /\ (r = Eq <-> ka = kb).
Proof.
  intros c a b ka kb (k1 & v1 & x1 & f1 & s1 & t1 & O1 & E1)
    (k2 & v2 & x2 & f2 & s2 & t2 & O2 & E2) Ka Kb.
  assert (K1 : entry_key c a = Some k1) by (rewrite E1; apply new_key; assumption).
  assert (K2 : entry_key c b = Some k2) by (rewrite E2; apply new_key; assumption).
  assert (ka = k1) by congruence. assert (kb = k2) by congruence. subst ka kb.
  unfold entry_compare.
  assert (S1 : e_hassix a = negb (length (packed_key c k1) =? 0)%nat)
    by (rewrite E1; apply new_hassix; assumption).
  assert (S2 : e_hassix b = negb (length (packed_key c k2) =? 0)%nat)
    by (rewrite E2; apply new_hassix; assumption).
  assert (R1 : entry_rawkey c a = Some (raw_key c k1))
    by (rewrite E1; apply new_rawkey; assumption).
  assert (R2 : entry_rawkey c b = Some (raw_key c k2))
    by (rewrite E2; apply new_rawkey; assumption).
  destruct (Bool.eqb (e_hassix a) (e_hassix b)) eqn:EB.
  - apply eqb_prop in EB. rewrite R1, R2.
    eexists. split; [reflexivity|]. rewrite lex_eq. split.
    + intro E. apply raw_key_inj with c; congruence.
    + intros ->. reflexivity.
  - rewrite K1, K2. eexists. split; [reflexivity|]. apply lex_eq.
Qed.

Lemma wf_entry_key : forall c e, wf_entry c e -> exists k, entry_key c e = Some k /\ bytes_ok k.
Proof.
  intros c e (k & v & x & f & s & t & O & E). exists k. split.
  - rewrite E. apply new_key. assumption.
  - apply O.
Qed.

Lemma wf_entry_extract : forall c e, wf_entry c e -> exists w, entry_extract c e = Some w
  /\ v_exp w = entry_expires e /\ (v_cas w = entry_cas c e).
Proof.
  intros c e (k & v & x & f & s & t & O & E). eexists. split.
  - rewrite E. apply new_extract. assumption.
  - cbn [v_exp v_cas]. rewrite E. split; symmetry.
    + apply new_expires with (1 := O).
    + apply new_cas with (1 := O).
Qed.
