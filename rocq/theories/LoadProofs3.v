(** What load reads from any file at all: the blocks that are intact, up to the
    first that is not. *)
From Verif Require Import Base Types Clamp Varint VarintProofs Entry Hash Map Shard Spec Cache Refine Reach Observe PropCache CmdSpec Text Save SaveSpec CrcProofs
  SaveProofs LoadProofs LoadProofs2.
From Coq Require Import String.
Local Open Scope N_scope.
Notation map := List.map.
Notation length := List.length.
Notation concat := List.concat.

Lemma Forall_firstn : forall A (P : A -> Prop) n l, Forall P l -> Forall P (firstn n l).
Proof. intros A P n l H. rewrite <- (firstn_skipn n l) in H. apply Forall_app in H. apply H. Qed.
Lemma Forall_skipn : forall A (P : A -> Prop) n l, Forall P l -> Forall P (skipn n l).
Proof. intros A P n l H. rewrite <- (firstn_skipn n l) in H. apply Forall_app in H. apply H. Qed.
Lemma app_inv_length : forall A (a b x y : list A), length a = length b -> a ++ x = b ++ y -> a = b /\ x = y.
Proof.
  intros A a. induction a as [|h a IH]; intros [|k b] x y L E; try discriminate; [auto|]. cbn [app length] in *. injection E as -> E. injection L as L.
  destruct (IH _ _ _ L E) as [-> ->]. auto.
Qed.
Lemma framed_text : forall z dlen, dlen < 2 ^ 32 -> N.of_nat (length z) < 2 ^ 32 ->
  framed (crc32 z) dlen z = block_text (fun _ => z) (repeat 0 (N.to_nat dlen)).
Proof.
  intros z dlen Hd Hz. unfold framed, block_text, u32. rewrite repeat_length, N2Nat.id, !N.mod_small by assumption. reflexivity.
Qed.
Lemma framed_length : forall crc dlen z, length (framed crc dlen z) = (16 + length z)%nat.
Proof. intros. unfold framed. rewrite !app_length, !le_bytes_length. reflexivity. Qed.
Lemma read_framed : forall z dlen r f, dlen < 2 ^ 32 -> N.of_nat (length z) < 2 ^ 32 -> bytes_ok z ->
  read_blocks (S f) (framed (crc32 z) dlen z ++ r) = (mkBlock z dlen :: fst (read_blocks f r), snd (read_blocks f r)).
Proof.
  intros z dlen r f Hd Hz Bz. rewrite framed_text by assumption.
  rewrite (read_block (fun _ => z)).
  - rewrite repeat_length, N2Nat.id. reflexivity.
  - exact Bz.
  - exact Hz.
  - rewrite repeat_length, N2Nat.id. exact Hd.
Qed.

Lemma firstn_le_val : forall s n, bytes_ok s -> (n <= length s)%nat -> firstn n s = le_bytes n (le_val (firstn n s)).
Proof.
  intros s n Hs Hn. assert (L : length (firstn n s) = n) by (rewrite firstn_length; lia).
  rewrite <- L at 2. symmetry. apply le_bytes_val. apply Forall_firstn. exact Hs.
Qed.
Lemma firstn_le_lt : forall s, bytes_ok s -> le_val (firstn 4 s) < 2 ^ 32.
Proof.
  intros s Hs. eapply N.lt_le_trans; [apply le_val_bound; apply Forall_firstn; exact Hs|].
  rewrite firstn_length. assert (P4 : 2 ^ 32 = 256 ^ N.of_nat 4) by reflexivity. rewrite P4. apply N.pow_le_mono_r; lia.
Qed.
Lemma skip_more : forall A n m (s : list A), skipn n (skipn m s) = skipn (m + n) s.
Proof.
  intros A n m. induction m as [|m IH]; intro s; [reflexivity|]. destruct s as [|x s]; [cbn [skipn]; rewrite !skipn_nil; reflexivity|].
  cbn [skipn Nat.add]. apply IH.
Qed.

(** One block, from the side of the reader. *)
Lemma read_cases : forall f s, bytes_ok s ->
  s = [] \/ (read_blocks (S f) s = ([], false) /\ s <> [] /\ forall b r, s = b ++ r -> ~ intact b) \/
  exists z dlen r, dlen < 2 ^ 32 /\ N.of_nat (length z) < 2 ^ 32 /\ bytes_ok z /\ bytes_ok r /\ s = framed (crc32 z) dlen z ++ r.
Proof.
  intros f s Hs. destruct s as [|c0 s0]; [left; reflexivity|]. right. set (s := c0 :: s0) in *.
  destruct (read_blocks (S f) s) as [l ok] eqn:E. pose proof E as E0. cbn [read_blocks] in E. unfold s in E at 1. cbv iota in E. fold s in E.
  assert (Contra : forall z dlen r, dlen < 2 ^ 32 -> N.of_nat (length z) < 2 ^ 32 -> bytes_ok z -> s = framed (crc32 z) dlen z ++ r -> l <> []).
  { intros z dlen r Hd Hz Bz Es. rewrite Es, read_framed in E0 by assumption. injection E0 as <- _. discriminate. }
  assert (Nope : (l, ok) = ([], false) -> ((l, ok) = ([], false) /\ s <> [] /\ (forall b r, s = b ++ r -> ~ intact b)) \/
     exists z dlen r, dlen < 2 ^ 32 /\ N.of_nat (length z) < 2 ^ 32 /\ bytes_ok z /\ bytes_ok r /\ s = framed (crc32 z) dlen z ++ r).
  { intro X. left. split; [exact X|]. split; [discriminate|]. injection X as X1 X2. intros b r Eb (dlen & z & A & B & C & D). subst b.
    exact (Contra z dlen r A B C Eb X1). }
  destruct (Nat.ltb_spec (length s) 16) as [L|L]; [apply Nope; congruence|].
  destruct (beq (firstn 4 s) (bs "POGO")) eqn:Em; cbn [negb] in E; [|apply Nope; congruence]. apply beq_eq in Em.
  set (crc := le_val (firstn 4 (skipn 4 s))) in *. set (dlen := le_val (firstn 4 (skipn 8 s))) in *. set (clen := le_val (firstn 4 (skipn 12 s))) in *.
  destruct (N.ltb_spec (N.of_nat (length (skipn 16 s))) clen) as [Lr|Lr]; [apply Nope; congruence|].
  set (z := firstn (N.to_nat clen) (skipn 16 s)) in *.
  destruct (N.eqb_spec (crc32 z) crc) as [Ec|Ec]; cbn [negb] in E; [|apply Nope; congruence].
  right. assert (Bk : forall n, bytes_ok (skipn n s)) by (intro n; apply Forall_skipn; exact Hs).
  assert (Lz : length z = N.to_nat clen) by (unfold z; rewrite firstn_length; lia).
  exists z, dlen, (skipn (N.to_nat clen) (skipn 16 s)).
  split; [apply firstn_le_lt; apply Bk|]. split; [rewrite Lz, N2Nat.id; apply firstn_le_lt; apply Bk|].
  split; [apply Forall_firstn; apply Bk|]. split; [apply Forall_skipn; apply Bk|].
  unfold framed. rewrite Lz, N2Nat.id, Ec. unfold crc, dlen, clen.
  rewrite <- !firstn_le_val by (try apply Bk; rewrite skipn_length; lia).
  change [80; 79; 71; 79] with (bs "POGO"). rewrite <- Em. unfold z, clen. rewrite <- !app_assoc. rewrite firstn_skipn.
  assert (Sp : forall n, skipn n s = firstn 4 (skipn n s) ++ skipn (n + 4) s) by (intro n; rewrite <- skip_more; symmetry; apply firstn_skipn).
  pose proof (Sp 0%nat) as S0. pose proof (Sp 4%nat) as S4. pose proof (Sp 8%nat) as S8. pose proof (Sp 12%nat) as S12. cbn [Nat.add] in S0, S4, S8, S12.
  change (skipn 0 s) with s in S0. rewrite S12 in S8. rewrite S8 in S4. rewrite S4 in S0. etransitivity; [exact S0|]. rewrite <- S4. reflexivity.
Qed.

(** A file is intact blocks and a rest that starts with none. *)
Lemma read_parts : forall f s, bytes_ok s -> (length s < f)%nat ->
  exists bl rest, s = concat bl ++ rest /\ Forall intact bl /\ (forall b r, rest = b ++ r -> ~ intact b) /\
    read_blocks f (concat bl) = (fst (read_blocks f s), true) /\ (snd (read_blocks f s) = true -> rest = []) /\ (rest = [] -> snd (read_blocks f s) = true).
Proof.
  induction f as [|f IH]; intros s Hs Hf; [lia|].
  assert (Ni : ~ intact []).
  { intros (dlen & z & _ & _ & _ & E). discriminate. }
  destruct (read_cases f s Hs) as [->|[(E & Nz & R)|(z & dlen & r & Hd & Hz & Bz & Br & E)]].
  - exists [], []. split; [reflexivity|]. split; [constructor|]. split; [|split; [reflexivity|auto]].
    intros b r Eb. destruct b; [exact Ni|discriminate].
  - exists [], s. rewrite E. split; [reflexivity|]. split; [constructor|]. split; [exact R|]. split; [reflexivity|]. split; [discriminate|]. intros ->. contradiction.
  - subst s. rewrite app_length, framed_length in Hf. destruct (IH r Br) as (bl & rest & E1 & E2 & E3 & E4 & E5 & E6); [lia|].
    exists (framed (crc32 z) dlen z :: bl), rest. cbn [concat]. rewrite <- app_assoc, <- E1.
    split; [reflexivity|]. split; [constructor; [exists dlen, z; auto|exact E2]|]. split; [exact E3|].
    rewrite !read_framed by assumption. rewrite E4. cbn [fst snd]. auto.
Qed.
Lemma read_more : forall s f f', bytes_ok s -> (length s < f)%nat -> (length s < f')%nat -> read_blocks f s = read_blocks f' s.
Proof.
  intros s f. revert s. induction f as [|f IH]; intros s f' Hs H1 H2; [lia|]. destruct f' as [|f']; [lia|].
  destruct (read_cases f s Hs) as [->|[(E & Nz & R)|(z & dlen & r & Hd & Hz & Bz & Br & E)]].
  - reflexivity.
  - destruct (read_cases f' s Hs) as [->|[(E' & _)|(z & dlen & r & Hd & Hz & Bz & Br & E')]]; [reflexivity|congruence|].
    exfalso. apply (R _ _ E'). exists dlen, z. auto.
  - subst s. rewrite app_length, framed_length in *. rewrite !read_framed by assumption. rewrite (IH r f' Br) by lia. reflexivity.
Qed.

(** ** The threads *)
(** What differs when the file is cut at the first block that is not intact: only how
    the reading ends. *)
Definition repaired (x : loading) : loading :=
  mkLoading (ld_left x) true (match ld_done x with Some false => Some (match ld_left x with [] => true | _ => false end) | d => d end)
    (ld_queue x) (ld_failure x) (ld_workers x) (ld_cache x).
Lemma repaired_step : forall c decompress clocks envs x y, load_step c decompress clocks envs x y ->
  load_step c decompress clocks envs (repaired x) (repaired y).
Proof.
  intros c decompress clocks envs x y H. destruct H; unfold repaired; cbn [ld_left ld_read ld_done ld_queue ld_failure ld_workers ld_cache].
  - eapply ls_take; eassumption.
  - eapply ls_store; eassumption.
  - apply ls_next.
  - apply ls_fail.
  - apply ls_end. destruct H as [H|[H1 H2]]; [left; exact H|right; split; [exact H1|]]. destruct dn as [[|]|]; [discriminate|discriminate|contradiction].
  - apply ls_push. exact H.
  - apply ls_stop.
  - destruct rd; apply ls_read.
Qed.
Lemma repaired_steps : forall c decompress clocks envs x y, load_steps c decompress clocks envs x y ->
  load_steps c decompress clocks envs (repaired x) (repaired y).
Proof.
  intros c decompress clocks envs x y H. induction H as [|x y z H IH Hz]; [apply lss_refl|]. eapply lss_step; [exact IH|]. apply repaired_step. exact Hz.
Qed.
Definition rd_ok (rd : bool) (x : loading) : Prop := ld_read x = rd /\ (ld_done x = Some true -> rd = true).
Lemma rd_step : forall c decompress clocks envs rd x y, load_step c decompress clocks envs x y -> rd_ok rd x -> rd_ok rd y.
Proof.
  intros c decompress clocks envs rd x y H [H1 H2]. destruct H; unfold rd_ok; cbn [ld_read ld_done] in *; split; try assumption; intros; try congruence; auto.
Qed.
Lemma rd_steps : forall c decompress clocks envs rd x y, load_steps c decompress clocks envs x y -> rd_ok rd x -> rd_ok rd y.
Proof.
  intros c decompress clocks envs rd x y H. induction H as [|x y z H IH Hz]; intro I; [exact I|]. exact (rd_step _ _ _ _ _ _ _ Hz (IH I)).
Qed.

Lemma load_parts : forall c decompress clocks envs file nprocs ch0, bytes_ok file ->
  exists blocks rest, file = concat blocks ++ rest /\ Forall intact blocks /\ (forall b r, rest = b ++ r -> ~ intact b) /\
  forall x, load_steps c decompress clocks envs (load_start file nprocs ch0) x ->
    (load_result x = 0%Z -> rest = []) /\
    exists y, load_steps c decompress clocks envs (load_start (concat blocks) nprocs ch0) y /\ ld_cache y = ld_cache x.
Proof.
  intros c decompress clocks envs file nprocs ch0 Hf.
  destruct (read_parts (S (length file)) file Hf ltac:(lia)) as (bl & rest & E1 & E2 & E3 & E4 & E5 & E6).
  exists bl, rest. split; [exact E1|]. split; [exact E2|]. split; [exact E3|]. intros x Hx. split.
  - intro Hr. apply E5. assert (I : rd_ok (snd (read_file file)) (load_start file nprocs ch0)) by (split; [reflexivity|discriminate]).
    pose proof (rd_steps _ _ _ _ _ _ _ Hx I) as [_ I2]. unfold load_result in Hr. destruct (ld_done x) as [[|]|]; [exact (I2 eq_refl)|discriminate|discriminate].
  - exists (repaired x). split; [|reflexivity]. apply repaired_steps in Hx.
    assert (Es : repaired (load_start file nprocs ch0) = load_start (concat bl) nprocs ch0).
    { unfold load_start, repaired, read_file. cbn [ld_left ld_done ld_queue ld_failure ld_workers ld_cache].
      assert (Lb : (length (concat bl) < S (length file))%nat) by (rewrite E1, app_length; lia).
      assert (Bb : bytes_ok (concat bl)) by (rewrite E1 in Hf; apply Forall_app in Hf; apply Hf).
      rewrite (read_more (concat bl) (S (length (concat bl))) (S (length file)) Bb) by lia. rewrite E4. reflexivity. }
    rewrite Es in Hx. exact Hx.
Qed.

(** A block with another payload is not intact. *)
Lemma burst_not_intact : forall z z' dlen r, bytes_ok z -> bytes_ok z' -> N.of_nat (length z) < 2 ^ 32 -> burst z z' ->
  forall b q, framed (crc32 z) dlen z' ++ r = b ++ q -> ~ intact b.
Proof.
  intros z z' dlen r Bz Bz' Lz (Hl & Hn & k & Hw) b q E (dlen' & w & D1 & D2 & D3 & ->).
  unfold framed in E. rewrite <- !app_assoc in E. apply app_inv_head in E.
  assert (S4 : forall (a b x y : bytes), length a = 4%nat -> length b = 4%nat -> a ++ x = b ++ y -> a = b /\ x = y).
  { intros a b x y La Lb Ex. apply app_inv_length; [congruence|exact Ex]. }
  apply S4 in E; [|apply le_bytes_length|apply le_bytes_length]. destruct E as [Ec E].
  apply S4 in E; [|apply le_bytes_length|apply le_bytes_length]. destruct E as [_ E].
  apply S4 in E; [|apply le_bytes_length|apply le_bytes_length]. destruct E as [Ez E].
  assert (P4 : 256 ^ N.of_nat 4 = 2 ^ 32) by reflexivity.
  apply (f_equal le_val) in Ez. rewrite !le_val_bytes in Ez by (rewrite P4; first [assumption|rewrite <- Hl; assumption]).
  apply (f_equal le_val) in Ec. rewrite !le_val_bytes in Ec by (rewrite P4; apply crc32_lt; assumption).
  apply app_inv_length in E; [|lia]. destruct E as [<- _].
  exact (window_differs z z' k Bz Bz' Hl Hn Hw Ec).
Qed.

(** ** Cutting a file short *)
Lemma intact_split : forall a b x y, intact a -> intact b -> a ++ x = b ++ y -> a = b /\ x = y.
Proof.
  intros a b x y (d1 & z1 & A1 & A2 & A3 & ->) (d2 & z2 & B1 & B2 & B3 & ->) E. apply app_inv_length; [|exact E].
  rewrite !framed_length. f_equal. unfold framed in E. rewrite <- !app_assoc in E. apply app_inv_head in E.
  apply app_inv_length in E; [|rewrite !le_bytes_length; reflexivity]. destruct E as [_ E].
  apply app_inv_length in E; [|rewrite !le_bytes_length; reflexivity]. destruct E as [_ E].
  apply app_inv_length in E; [|rewrite !le_bytes_length; reflexivity]. destruct E as [E _].
  assert (P4 : 256 ^ N.of_nat 4 = 2 ^ 32) by reflexivity.
  apply (f_equal le_val) in E. rewrite !le_val_bytes in E by (rewrite P4; assumption). lia.
Qed.
Lemma intact_nonempty : forall b, intact b -> b <> [].
Proof. intros b (d & z & _ & _ & _ & ->). discriminate. Qed.
Lemma intact_prefix : forall bl bl' q, Forall intact bl -> Forall intact bl' -> concat bl' ++ q = concat bl -> exists k, concat bl' = concat (firstn k bl).
Proof.
  intros bl bl' q F F'. revert bl F q. induction F' as [|b bl' Hb F' IH]; intros bl F q E; [exists 0%nat; reflexivity|].
  cbn [concat] in E. rewrite <- app_assoc in E. destruct F as [|a bl Ha F].
  - exfalso. cbn [concat] in E. apply app_eq_nil in E. destruct E as [E _]. exact (intact_nonempty b Hb E).
  - cbn [concat] in E. destruct (intact_split b a _ _ Hb Ha E) as [-> E2]. destruct (IH bl F q E2) as (k & Ek). exists (S k). cbn [firstn concat]. rewrite Ek. reflexivity.
Qed.
Lemma intact_bytes : forall b, intact b -> bytes_ok b.
Proof.
  intros b (d & z & _ & _ & Bz & ->). unfold framed. repeat (apply Forall_app; split); try apply le_bytes_ok; [|exact Bz].
  repeat constructor.
Qed.
Lemma made_bytes : forall o s i d, shot_ok o s -> made_block o s i (Some d) -> bytes_ok d.
Proof.
  intros o s i d Hs M. destruct (made_items o s i (Some d) Hs M) as (items & B & E). pose proof (block_items_ok o s i items Hs B) as F.
  destruct items as [|p items]; [discriminate|]. injection E as ->. apply Forall_app. split; [|apply entries_bytes; [apply Hs|exact F]].
  destruct Hs as [_ [_ T2]]. apply varint_write_ok. unfold u64_of_i64. unfold INT64_MAX in T2. rewrite Z.mod_small; lia.
Qed.
Lemma route_small : forall o key, (route (ctx_of o) key < N.to_nat (c_nshards (ctx_of o)))%nat.
Proof.
  intros o key. pose proof (opts_shards o) as Hs. change (opts_to_ctx o) with (ctx_of o) in Hs. unfold route, shard_index.
  pose proof (N.mod_lt (N.shiftr (th64 key (c_seed (ctx_of o))) 32) (c_nshards (ctx_of o))). lia.
Qed.
Lemma sees_some_or_none : forall o ch key now, reachable (ctx_of o) ch ->
  (exists v, sees (ctx_of o) ch key now (Some v)) \/ sees (ctx_of o) ch key now None.
Proof.
  intros o ch key now R. pose proof (reach_cinv o ch R) as I.
  destruct (option_map shown_of (live_item (cabs (ctx_of o) ch) key now)) as [v|] eqn:E.
  - left. exists v. apply (sees_iff _ (opts_load o)); [exact I|]. symmetry. exact E.
  - right. apply (sees_iff _ (opts_load o)); [exact I|]. symmetry. exact E.
Qed.
