(** C21, C22, C23, C27: storage formats. *)
From Verif Require Import Base Types Varint VarintProofs Sixpack SixpackProofs Entry EntryProofs
  Hash HashProofs.
From Coq Require Import String Ascii.
Local Open Scope N_scope.

(** ** C21 Entry encoding round-trips *)

(** What decoding must give back. *)
Record decoded := mkDecoded {
  d_key : bytes; d_val : bytes; d_exp : Z; d_flags : N; d_cas : N
}.

(** Decoding an entry with the accessors of the cache: the key, and everything
    shown to callbacks. *)
Definition decode (c : ctx) (e : entry) : option decoded :=
  match entry_key c e, entry_extract c e with
  | Some k, Some w => Some (mkDecoded k (v_val w) (v_exp w) (v_flags w) (v_cas w))
  | _, _ => None
  end.

Theorem C21_entry_roundtrip : forall c id key val expires flags cas,
  bytes_ok key -> bytes_ok val ->
  N.of_nat (List.length key) + N.of_nat (List.length val) < 2 ^ 62 ->
  (expires <= INT64_MAX)%Z -> flags < 2 ^ 32 -> cas < 2 ^ 64 ->
  decode c (entry_new c id key val expires flags cas)
  = Some (mkDecoded key val (if (0 <? expires)%Z then expires else 0%Z) flags
            (if c_usecas c then cas else 0)).
Proof.
  intros c id key val expires flags cas Hk Hv Hl He Hf Hc.
  assert (OK : args_ok key val expires flags cas) by (constructor; assumption).
  unfold decode. rewrite (new_key c id key val expires flags cas OK).
  rewrite (new_extract c id key val expires flags cas OK). reflexivity.
Qed.

(** The other accessors agree with it. *)
Theorem C21_accessors : forall c id key val expires flags cas,
  bytes_ok key -> bytes_ok val ->
  N.of_nat (List.length key) + N.of_nat (List.length val) < 2 ^ 62 ->
  (expires <= INT64_MAX)%Z -> flags < 2 ^ 32 -> cas < 2 ^ 64 ->
  let e := entry_new c id key val expires flags cas in
  entry_value c e = Some val /\
  entry_expires e = (if (0 <? expires)%Z then expires else 0%Z) /\
  entry_cas c e = (if c_usecas c then cas else 0) /\
  entry_memsize e = N.of_nat (List.length (e_data e)) + SIZEOF_ENTRY.
Proof.
  intros c id key val expires flags cas Hk Hv Hl He Hf Hc e.
  assert (OK : args_ok key val expires flags cas) by (constructor; assumption).
  unfold e. repeat split.
  - apply new_value. assumption.
  - apply (new_expires c id key val expires flags cas OK).
  - apply new_cas. assumption.
  - rewrite (new_memsize c id key val expires flags cas OK).
    rewrite (new_data_len c id key val expires flags cas OK). reflexivity.
Qed.

Example C21_case :
  decode (mkCtx true false false false 16 75 0)
    (entry_new (mkCtx true false false false 16 75 0) 7 [117; 58; 49] [1; 2; 255; 0] 5000 9 (2 ^ 63))
  = Some (mkDecoded [117; 58; 49] [1; 2; 255; 0] 5000 9 (2 ^ 63)).
Proof. apply C21_entry_roundtrip; try lia; repeat constructor; unfold INT64_MAX; lia. Qed.

(** ** C22 Six-bit key packing *)

Definition bytes_of_string (s : string) : bytes :=
  List.map N_of_ascii (list_ascii_of_string s).

(** The 63 characters a packable key is made of. *)
Definition alphabet : bytes := bytes_of_string
  "-.0123456789:ABCDEFGHIJKLMNOPRSTUVWXY_abcdefghijklmnopqrstuvwxy".

Lemma alphabet_packable : forall b, In b alphabet <-> packable b.
Proof.
  intro b. destruct (N.lt_ge_cases b 256) as [H|H].
  - pose proof (all_bytes_spec (fun b => Bool.eqb (existsb (N.eqb b) alphabet)
      (negb (tosix b =? 0))) eq_refl b H) as E. cbv beta in E. apply eqb_prop in E.
    split.
    + intro Hin. unfold packable.
      assert (X : existsb (N.eqb b) alphabet = true)
        by (apply existsb_exists; exists b; split; [assumption|apply N.eqb_refl]).
      rewrite X in E. intro Z. rewrite Z in E. discriminate.
    + intro Hp. apply packable_eqb in Hp. rewrite Hp in E. cbn [negb] in E.
      apply existsb_exists in E. destruct E as (x & Hx & Ex). apply N.eqb_eq in Ex.
      subst. assumption.
  - split; intro X.
    + exfalso. revert X. assert (F : forallb (fun x => x <? 256) alphabet = true) by reflexivity.
      rewrite forallb_forall in F. intro X. apply F in X. lia.
    + exfalso. apply X. unfold tosix. apply nth_overflow. change (List.length tosix_tbl) with 128%nat. lia.
Qed.

Lemma alphabet_forall : forall l, (forall b, In b l -> In b alphabet) -> Forall packable l.
Proof. intros l H. apply Forall_forall. intros b Hb. apply alphabet_packable. auto. Qed.

Theorem C22_lossless : forall key, (forall b, In b key -> In b alphabet) ->
  unsixpack (sixpack key) = key.
Proof. intros key H. apply unsixpack_sixpack. apply alphabet_forall. assumption. Qed.

Theorem C22_packed_iff : forall key, sixpack key <> [] <->
  key <> [] /\ (forall b, In b key -> In b alphabet).
Proof.
  intro key. rewrite sixpack_nonempty. split; intros [H1 H2]; split; auto.
  - intros b Hb. apply alphabet_packable. rewrite Forall_forall in H1. auto.
  - apply alphabet_forall. assumption.
Qed.

Theorem C22_size : forall key, (List.length key <= 128)%nat ->
  (List.length (sixpack key) <= 96)%nat /\ bytes_ok (sixpack key).
Proof.
  intros key H. pose proof (sixpack_length key). split; [lia|apply sixpack_ok].
Qed.

Theorem C22_injective : forall a b,
  (forall x, In x a -> In x alphabet) -> (forall x, In x b -> In x alphabet) ->
  sixpack a = sixpack b -> a = b.
Proof.
  intros a b Ha Hb E. rewrite <- (C22_lossless a Ha), <- (C22_lossless b Hb). congruence.
Qed.

(** [lex] is memcmp on the common length, then the length. *)
Theorem C22_order : forall a b,
  (forall x, In x a -> In x alphabet) -> (forall x, In x b -> In x alphabet) ->
  lex (sixpack a) (sixpack b) = lex a b.
Proof. intros a b Ha Hb. apply sixpack_order; apply alphabet_forall; assumption. Qed.

Example C22_case : (forall b, In b (bytes_of_string "user:1001_A") -> In b alphabet) /\
  List.length (sixpack (bytes_of_string "user:1001_A")) = 9%nat.
Proof.
  split; [|reflexivity]. intros b Hb. apply alphabet_packable.
  assert (F : Forall packable (bytes_of_string "user:1001_A")) by (repeat constructor; discriminate).
  rewrite Forall_forall in F. auto.
Qed.

(** ** C23 Variable-length integers *)

Theorem C23_unsigned : forall x trailing, x < 2 ^ 64 ->
  varint_read_u64 (varint_write_u64 x ++ trailing) = VOk (List.length (varint_write_u64 x)) x /\
  (1 <= List.length (varint_write_u64 x) <= 10)%nat.
Proof.
  intros x tr Hx. split; [apply varint_roundtrip|apply varint_length]; assumption.
Qed.

Theorem C23_signed : forall x trailing, i64_ok x ->
  varint_read_i64 (varint_write_i64 x ++ trailing) = IOk (List.length (varint_write_i64 x)) x.
Proof. intros x tr Hx. apply varint_i64_roundtrip. assumption. Qed.

Theorem C23_prefix_waits : forall x k, x < 2 ^ 64 ->
  (k < List.length (varint_write_u64 x))%nat ->
  varint_read_u64 (firstn k (varint_write_u64 x)) = VMore.
Proof. intros. apply varint_prefix; assumption. Qed.

(** A value is returned only from bytes inside the buffer, and only those count. *)
Theorem C23_in_bounds : forall data n x other,
  varint_read_u64 data = VOk n x ->
  (0 < n <= List.length data)%nat /\ varint_read_u64 (firstn n data ++ other) = VOk n x.
Proof.
  intros data n x other H. unfold varint_read_u64 in *.
  pose proof (read_local data 0 0 n x other H) as [H1 H2].
  rewrite Nat.sub_0_r in H2. split; [lia|assumption].
Qed.

Example C23_case : varint_read_u64 (varint_write_u64 (2 ^ 63 + 5) ++ [128; 7])
  = VOk 10 (2 ^ 63 + 5).
Proof. vm_compute. reflexivity. Qed.

(** ** C27 Pointer and hash packing *)

Theorem C27_pointer : forall p, p < 2 ^ 48 ->
  load_ptr (store_ptr p) = p /\ List.length (store_ptr p) = 6%nat /\ bytes_ok (store_ptr p).
Proof. intros p H. split; [apply ptr_roundtrip; assumption|apply ptr_bytes]. Qed.

Theorem C27_hash : forall h,
  read_hash (write_hash (clip_hash h)) = clip_hash h /\ clip_hash h = h mod 2 ^ 24.
Proof. intro h. split; [apply hash_roundtrip|apply clip_hash_mod]. Qed.

Example C27_case : load_ptr (store_ptr 0x7f00deadbeef) = 0x7f00deadbeef.
Proof. apply C27_pointer. lia. Qed.

(** A pointer above 48 bits would not survive. *)
Theorem C27_wide_pointer_refuted : exists p, p < 2 ^ 64 /\ load_ptr (store_ptr p) <> p.
Proof. exists (2 ^ 48). split; [reflexivity|discriminate]. Qed.

Print Assumptions C21_entry_roundtrip.
Print Assumptions C21_accessors.
Print Assumptions C22_lossless.
Print Assumptions C22_packed_iff.
Print Assumptions C22_size.
Print Assumptions C22_injective.
Print Assumptions C22_order.
Print Assumptions C23_unsigned.
Print Assumptions C23_signed.
Print Assumptions C23_prefix_waits.
Print Assumptions C23_in_bounds.
Print Assumptions C27_pointer.
Print Assumptions C27_hash.
