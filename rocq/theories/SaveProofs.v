(** Reading back what was written: entries, blocks, files. *)
From Verif Require Import Base Types Clamp Varint VarintProofs Entry EntryProofs Hash Map MapProofs MapInv Shard
  Spec Trace ShardProofs ScanProofs LoopProofs Cache Refine Reach Observe PropCache Text CmdSpec Save SaveSpec CrcProofs.
From Coq Require Import String.
Local Open Scope N_scope.
Notation length := List.length.
Notation concat := List.concat.
Notation map := List.map.

(** Every item of a cache is in the range of its C types. *)
Definition item_ok (key : bytes) (v : view) : Prop :=
  bytes_ok key /\ bytes_ok (v_val v) /\ N.of_nat (length key) + N.of_nat (length (v_val v)) < 2 ^ 62 /\
  (0 <= v_exp v <= INT64_MAX)%Z /\ v_flags v < 2 ^ 32 /\ v_cas v < 2 ^ 64.

Lemma reach_item : forall o ch key it, reachable (ctx_of o) ch -> cabs (ctx_of o) ch key = Some it -> item_ok key (shown_of it).
Proof.
  intros o ch key it R H. set (c := ctx_of o) in *. pose proof (reach_cinv o ch R) as I.
  unfold cabs in H. destruct (nth_error (ca_shards ch) (route c key)) as [s|] eqn:Es; [|discriminate].
  pose proof (ci_shard _ ch I _ _ Es) as Is. unfold sabs in H.
  destruct (lk (Shard.ekey c) (sents s) key) as [e|] eqn:Ek; [|discriminate]. injection H as <-.
  apply lk_some in Ek. destruct Ek as [Ein Ek].
  pose proof (mi_wf _ _ _ _ _ (si_map _ _ Is)) as W. cbn [placed s_map] in W.
  assert (We : wf_entry c e).
  { unfold sents, ents in Ein. apply in_map_iff in Ein. destruct Ein as (p & <- & Hp).
    rewrite Forall_forall in W. apply W. exact Hp. }
  rewrite shown_item. destruct We as (k & v & x & f & cs & t & A & E).
  assert (K : Shard.ekey c e = k). { unfold Shard.ekey. rewrite E. change (entry_key c (entry_settime ?a t)) with (entry_key c a). rewrite (new_key c (e_id e) k v x f cs A). reflexivity. }
  assert (V : eview c e = mkView v (norm_exp x) f (if c_usecas c then cs else 0)).
  { unfold eview. rewrite E. change (entry_extract c (entry_settime ?a t)) with (entry_extract c a). rewrite (new_extract c (e_id e) k v x f cs A). reflexivity. }
  rewrite V, <- Ek, K. destruct A as [A1 A2 A3 A4 A5 A6]. unfold item_ok. cbn [v_val v_exp v_flags v_cas].
  repeat split; try assumption.
  - unfold norm_exp. destruct (Z.ltb_spec 0 x); lia.
  - unfold norm_exp. destruct (Z.ltb_spec 0 x); [lia|]. unfold INT64_MAX. lia.
  - destruct (c_usecas c); [assumption|reflexivity].
Qed.
Lemma sees_item : forall o ch key now v, reachable (ctx_of o) ch -> sees (ctx_of o) ch key now (Some v) -> item_ok key v /\ alive_at (v_exp v) now = true.
Proof.
  intros o ch key now v R S. apply (sees_iff _ (opts_load o)) in S; [|apply reach_cinv; exact R].
  unfold live_item in S. destruct (cabs (ctx_of o) ch key) as [it|] eqn:E; [|discriminate].
  destruct (alive_at (i_exp it) now) eqn:A; [|discriminate]. injection S as ->. split; [exact (reach_item o ch key it R E)|exact A].
Qed.

Lemma get_put : forall x r, x < 2 ^ 64 -> get_varint (varint_write_u64 x ++ r) = Some (x, r).
Proof.
  intros x r H. unfold get_varint. rewrite varint_roundtrip by exact H.
  rewrite skipn_app, skipn_all, Nat.sub_diag. reflexivity.
Qed.
Lemma get_put_bytes : forall s r, N.of_nat (length s) < 2 ^ 64 ->
  get_bytes (varint_write_u64 (N.of_nat (length s)) ++ s ++ r) = Some (s, r).
Proof.
  intros s r H. unfold get_bytes. rewrite get_put by exact H. rewrite app_length.
  destruct (N.ltb_spec (N.of_nat (length s + length r)) (N.of_nat (length s))); [lia|].
  rewrite Nat2N.id, firstn_app, firstn_all, Nat.sub_diag, firstn_O, app_nil_r, skipn_app, skipn_all, Nat.sub_diag. reflexivity.
Qed.

(** The time to live of a saved item. *)
Definition ttl_of (now : Z) (v : view) : Z := if (0 <? v_exp v)%Z then (v_exp v - now)%Z else 0%Z.
Definition entry_text (now : Z) (key : bytes) (v : view) : bytes :=
  [0] ++ varint_write_u64 (N.of_nat (length key)) ++ key ++ varint_write_u64 (N.of_nat (length (v_val v))) ++ v_val v ++
  varint_write_u64 (Z.to_N (ttl_of now v)) ++ varint_write_u64 (v_flags v) ++ varint_write_u64 (v_cas v).
Lemma save_entry_text : forall now key v, (0 < now)%Z -> (0 <= v_exp v)%Z -> alive_at (v_exp v) now = true ->
  save_entry now key v = Ok (entry_text now key v).
Proof.
  intros now key v Hn He Ha. unfold save_entry, entry_text, ttl_of. unfold alive_at in Ha.
  destruct (Z.ltb_spec 0 (v_exp v)) as [L|L].
  - destruct (Z.ltb_spec 0 (v_exp v - now)) as [L2|L2]; [|exfalso; destruct (Z.eqb_spec (v_exp v) 0); [lia|]; cbn [orb] in Ha; lia].
    rewrite <- !app_assoc. reflexivity.
  - rewrite <- !app_assoc. reflexivity.
Qed.
Lemma get_entry_text : forall now key v r, (0 < now)%Z -> item_ok key v ->
  alive_at (v_exp v) now = true ->
  get_entry (entry_text now key v ++ r) = Some (key, v_val v, ttl_of now v, v_flags v, v_cas v, r).
Proof.
  intros now key v r Hn (A1 & A2 & A3 & A4 & A5 & A6) Al. unfold entry_text. rewrite <- !app_assoc. cbn [app get_entry].
  change (negb (0 =? 0)) with false. cbv iota.
  rewrite get_put_bytes by lia. rewrite get_put_bytes by lia.
  assert (T : (0 <= ttl_of now v < 2 ^ 63)%Z).
  { unfold ttl_of. unfold alive_at in Al. unfold INT64_MAX in A4. destruct (Z.ltb_spec 0 (v_exp v)); [|lia].
    destruct (Z.eqb_spec (v_exp v) 0); [lia|]. cbn [orb] in Al. lia. }
  rewrite get_put by lia.
  destruct (N.leb_spec (2 ^ 63) (Z.to_N (ttl_of now v))); [lia|].
  rewrite get_put by lia. destruct (N.leb_spec (2 ^ 32) (v_flags v)); [lia|].
  rewrite get_put by lia. rewrite Z2N.id by lia. reflexivity.
Qed.

Definition entries_text (now : Z) (items : list (bytes * view)) : bytes := concat (map (fun p => entry_text now (fst p) (snd p)) items).
Lemma save_entries_text : forall now items, (0 < now)%Z ->
  Forall (fun p => item_ok (fst p) (snd p) /\ alive_at (v_exp (snd p)) now = true) items ->
  save_entries now items = Ok (entries_text now items).
Proof.
  intros now items Hn F. induction F as [|[k v] r [Hi Ha] F IH]; [reflexivity|]. cbn [save_entries fst snd] in *.
  rewrite save_entry_text; [|exact Hn|apply Hi|exact Ha]. rewrite IH. reflexivity.
Qed.

(** The store that brings an item back. *)
Definition back_store (now unix now' unix' : Z) (key : bytes) (v : view) : list call :=
  if (0 <? v_exp v)%Z then
    let e := Z.min INT64_MAX (instant now unix (v_exp v)) in
    if (e <? unix')%Z then []
    else [Store key (v_val v) (restore_opts (e - unix') (v_flags v) (v_cas v)) now']
  else [Store key (v_val v) (restore_opts 0 (v_flags v) (v_cas v)) now'].
Lemma restore_back : forall now unix now' unix' key v, times_ok now unix -> times_ok now' unix' -> item_ok key v ->
  alive_at (v_exp v) now = true ->
  restore unix unix' now' key (v_val v) (ttl_of now v) (v_flags v) (v_cas v) = Ok (back_store now unix now' unix' key v).
Proof.
  intros now unix now' unix' key v [T1 T2] [T3 T4] (_ & _ & _ & I & _ & _) Al. unfold restore, back_store, ttl_of, instant.
  unfold alive_at in Al.
  destruct (Z.ltb_spec 0 (v_exp v)) as [L|L]; [|reflexivity].
  assert (P : (0 < v_exp v - now)%Z) by (destruct (Z.eqb_spec (v_exp v) 0); [lia|]; cbn [orb] in Al; lia).
  destruct (Z.ltb_spec 0 (v_exp v - now)); [|lia].
  rewrite add_clamp_spec by (unfold i64_ok, INT64_MIN, INT64_MAX in *; lia).
  assert (C : clampZ (unix + (v_exp v - now)) = Z.min INT64_MAX (unix + (v_exp v - now))).
  { unfold clampZ, INT64_MIN, INT64_MAX in *. repeat match goal with |- context [Z.ltb ?a ?b] => destruct (Z.ltb_spec a b) end; lia. }
  rewrite C. set (e := Z.min INT64_MAX (unix + (v_exp v - now))).
  destruct (Z.ltb_spec e unix') as [L2|L2]; [reflexivity|].
  unfold i64_chk. replace ((INT64_MIN <=? e - unix')%Z && (e - unix' <=? INT64_MAX)%Z) with true; [reflexivity|].
  symmetry. apply andb_true_iff. unfold e, INT64_MIN, INT64_MAX in *. lia.
Qed.

Lemma entry_text_nonempty : forall now key v, exists t, entry_text now key v = 0 :: t.
Proof. intros. eexists. reflexivity. Qed.
Lemma load_entries_text : forall now unix now' unix' items f, times_ok now unix -> times_ok now' unix' ->
  Forall (fun p => item_ok (fst p) (snd p) /\ alive_at (v_exp (snd p)) now = true) items ->
  (length (entries_text now items) < f)%nat ->
  load_entries f unix unix' now' (entries_text now items) =
    Ok (flat_map (fun p => back_store now unix now' unix' (fst p) (snd p)) items, true).
Proof.
  intros now unix now' unix' items f T T' F. revert f. induction F as [|[k v] r [Hi Ha] F IH]; intros f Hf; (destruct f as [|f]; [lia|]).
  - reflexivity.
  - cbn [fst snd] in *. unfold entries_text in *. cbn [map concat fst snd flat_map] in *.
    destruct (entry_text_nonempty now k v) as (t & Et). cbn [load_entries].
    rewrite app_length in Hf. assert (1 <= length (entry_text now k v))%nat by (rewrite Et; cbn [length]; lia).
    rewrite Et at 1. cbn [app]. rewrite get_entry_text by (try assumption; apply T).
    rewrite (restore_back now unix now' unix' k v T T' Hi Ha). rewrite IH by lia. reflexivity.
Qed.

Lemma ttl_bounds : forall now key v, (0 < now)%Z -> item_ok key v -> alive_at (v_exp v) now = true -> (0 <= ttl_of now v < 2 ^ 63)%Z.
Proof.
  intros now key v Hn (A1 & A2 & A3 & A4 & A5 & A6) Al. unfold ttl_of. unfold alive_at in Al. unfold INT64_MAX in A4.
  destruct (Z.ltb_spec 0 (v_exp v)); [|lia]. destruct (Z.eqb_spec (v_exp v) 0); [lia|]. cbn [orb] in Al. lia.
Qed.
Lemma entries_bytes : forall now items, (0 < now)%Z ->
  Forall (fun p => item_ok (fst p) (snd p) /\ alive_at (v_exp (snd p)) now = true) items -> bytes_ok (entries_text now items).
Proof.
  intros now items Hn F. induction F as [|[k v] r [Hi Ha] F IH]; [constructor|].
  unfold entries_text in *. cbn [map concat fst snd] in *. apply Forall_app. split; [|exact IH].
  pose proof (ttl_bounds now k v Hn Hi Ha) as T. destruct Hi as (A1 & A2 & A3 & A4 & A5 & A6).
  unfold entry_text. unfold bytes_ok in *. rewrite !Forall_app. repeat split; try assumption;
    try (apply varint_write_ok; lia). repeat constructor.
Qed.

(** Loading a saved block. *)
Lemma load_block_saved : forall compress decompress now unix now' unix' items, lz_ok compress decompress ->
  times_ok now unix -> times_ok now' unix' ->
  Forall (fun p => item_ok (fst p) (snd p) /\ alive_at (v_exp (snd p)) now = true) items ->
  let d := varint_write_u64 (u64_of_i64 unix) ++ entries_text now items in
  N.of_nat (length d) <= 0x7E000000 ->
  load_block decompress (mkBlock (compress d) (N.of_nat (length d))) now' unix' =
    Ok (flat_map (fun p => back_store now unix now' unix' (fst p) (snd p)) items, true).
Proof.
  intros compress decompress now unix now' unix' items L T T' F d Hd.
  assert (U : u64_of_i64 unix = Z.to_N unix). { unfold u64_of_i64. rewrite Z.mod_small; [reflexivity|]. destruct T as [_ T]. unfold INT64_MAX in T. lia. }
  assert (Bd : bytes_ok d) by (apply Forall_app; split; [apply varint_write_ok; rewrite U; destruct T as [_ T]; unfold INT64_MAX in T; lia|exact (entries_bytes now items (proj1 (proj1 T)) F)]).
  destruct (L d Bd Hd) as (_ & _ & E). unfold load_block. cbn [cb_data cb_dlen]. rewrite E, N.eqb_refl. cbn [negb].
  unfold d. rewrite U. destruct T as [T1 T2]. unfold INT64_MAX in T2. rewrite get_put by lia.
  destruct (N.leb_spec (2 ^ 63) (Z.to_N unix)); [lia|]. rewrite Z2N.id by lia.
  apply load_entries_text; try assumption; [|lia]. split; [assumption|unfold INT64_MAX; lia].
Qed.

(** Reading the blocks of a file. *)
Lemma block_text_length : forall compress d, length (block_text compress d) = (16 + length (compress d))%nat.
Proof. intros. unfold block_text. rewrite !app_length, !le_bytes_length. cbn [List.length bs]. reflexivity. Qed.
Lemma firstn_exact : forall A (a b : list A) n, length a = n -> firstn n (a ++ b) = a.
Proof. intros A a b n <-. rewrite firstn_app, firstn_all, Nat.sub_diag, firstn_O. apply app_nil_r. Qed.
Lemma skipn_exact : forall A (a b : list A) n, length a = n -> skipn n (a ++ b) = b.
Proof. intros A a b n <-. rewrite skipn_app, skipn_all, Nat.sub_diag. reflexivity. Qed.
Lemma skipn_after : forall A (a b : list A) n m, length a = n -> skipn (n + m) (a ++ b) = skipn m b.
Proof. intros A a b n m <-. rewrite skipn_app, skipn_all2 by lia. cbn [app]. replace (length a + m - length a)%nat with m by lia. reflexivity. Qed.

(** A block in front of the rest of a file. *)
Lemma read_block : forall compress d r f, bytes_ok (compress d) -> N.of_nat (length (compress d)) < 2 ^ 32 -> N.of_nat (length d) < 2 ^ 32 ->
  read_blocks (S f) (block_text compress d ++ r) =
    (mkBlock (compress d) (N.of_nat (length d)) :: fst (read_blocks f r), snd (read_blocks f r)).
Proof.
  intros compress d r f Hb Hz Hd. cbn [read_blocks].
  assert (Ht : exists t, block_text compress d ++ r = 80 :: t) by (eexists; reflexivity).
  destruct Ht as (t & Et). rewrite Et. rewrite <- Et. clear t Et.
  rewrite app_length, block_text_length.
  destruct (Nat.ltb_spec (16 + length (compress d) + length r) 16); [lia|].
  unfold block_text. unfold u32. rewrite !N.mod_small by assumption. rewrite <- !app_assoc.
  set (z := compress d) in *.
  set (m := bs "POGO"). assert (Lm : length m = 4%nat) by reflexivity.
  rewrite (firstn_exact _ m _ 4 Lm), beq_refl. cbn [negb].
  set (c4 := le_bytes 4 (crc32 z)). set (d4 := le_bytes 4 (N.of_nat (length d))). set (z4 := le_bytes 4 (N.of_nat (length z))).
  assert (Lc : length c4 = 4%nat) by apply le_bytes_length. assert (Ld : length d4 = 4%nat) by apply le_bytes_length.
  assert (Lz : length z4 = 4%nat) by apply le_bytes_length.
  rewrite (skipn_exact _ m _ 4 Lm).
  set (tl := z ++ r) in *.
  assert (S8 : skipn 8 (m ++ c4 ++ d4 ++ z4 ++ tl) = d4 ++ z4 ++ tl) by (rewrite app_assoc; apply skipn_exact; rewrite app_length, Lm, Lc; reflexivity).
  assert (S12 : skipn 12 (m ++ c4 ++ d4 ++ z4 ++ tl) = z4 ++ tl) by (rewrite 2!app_assoc; apply skipn_exact; rewrite !app_length, Lm, Lc, Ld; reflexivity).
  assert (S16 : skipn 16 (m ++ c4 ++ d4 ++ z4 ++ tl) = tl) by (rewrite 3!app_assoc; apply skipn_exact; rewrite !app_length, Lm, Lc, Ld, Lz; reflexivity).
  rewrite S8, S12, S16. unfold tl.
  rewrite (firstn_exact _ c4 _ 4 Lc), (firstn_exact _ d4 _ 4 Ld), (firstn_exact _ z4 _ 4 Lz).
  unfold c4, d4, z4. assert (P4 : 256 ^ N.of_nat 4 = 2 ^ 32) by reflexivity.
  rewrite !le_val_bytes by (rewrite P4; first [assumption | apply crc32_lt; assumption]).
  rewrite app_length. destruct (N.ltb_spec (N.of_nat (length z + length r)) (N.of_nat (length z))); [lia|].
  rewrite Nat2N.id. rewrite (firstn_exact _ z _ _ eq_refl), (skipn_exact _ z _ _ eq_refl). rewrite N.eqb_refl. cbn [negb].
  destruct (read_blocks f r); reflexivity.
Qed.
Definition sized (compress : bytes -> bytes) (d : bytes) : Prop :=
  bytes_ok (compress d) /\ N.of_nat (length (compress d)) < 2 ^ 32 /\ N.of_nat (length d) < 2 ^ 32.
Lemma read_concat : forall compress ds r f, Forall (sized compress) ds -> (length ds <= f)%nat ->
  read_blocks f (concat (map (block_text compress) ds) ++ r) =
    (map (fun d => mkBlock (compress d) (N.of_nat (length d))) ds ++ fst (read_blocks (f - length ds) r),
     snd (read_blocks (f - length ds) r)).
Proof.
  intros compress ds r f F. revert f. induction F as [|d ds (Z1 & Z2 & Z3) F IH]; intros f Hf.
  - cbn [map concat app length]. rewrite Nat.sub_0_r. apply surjective_pairing.
  - cbn [length] in *. destruct f as [|f]; [lia|]. cbn [map concat]. rewrite <- app_assoc.
    rewrite read_block by assumption. rewrite IH by lia. reflexivity.
Qed.
Lemma concat_length : forall compress ds, (length ds <= length (concat (map (block_text compress) ds)))%nat.
Proof.
  intros compress ds. induction ds as [|d ds IH]; [reflexivity|]. cbn [map concat length]. rewrite app_length, block_text_length. lia.
Qed.
Lemma read_saved : forall compress ds, Forall (sized compress) ds ->
  read_file (concat (map (block_text compress) ds)) = (map (fun d => mkBlock (compress d) (N.of_nat (length d))) ds, true).
Proof.
  intros compress ds F. unfold read_file. pose proof (concat_length compress ds) as L.
  rewrite <- (app_nil_r (concat (map (block_text compress) ds))) at 2.
  rewrite read_concat by (try exact F; lia).
  replace (S (length (concat (map (block_text compress) ds))) - length ds)%nat with (S (length (concat (map (block_text compress) ds)) - length ds)) by lia.
  cbn [read_blocks fst snd]. rewrite app_nil_r. reflexivity.
Qed.
