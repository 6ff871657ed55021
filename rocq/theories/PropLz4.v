(** C63: compression. *)
From Verif Require Import Base Types Clamp Entry Hash Map Shard Spec Cache Refine Reach Observe PropCache CmdSpec Save SaveSpec SaveProofs LoadProofs LoadProofs2
  SaveFs PropSave PropSaveCases Lz4 Lz4Spec Lz4Proofs1 Lz4Proofs2 Lz4Proofs3 Lz4Proofs4.
From Coq Require Import Permutation.
Local Open Scope nat_scope.
Notation map := List.map.
Notation length := List.length.
Notation concat := List.concat.

(** ** Compressing and decompressing *)
(** Data of at most 0x7E000000 bytes: compressing it into a buffer of LZ4_compressBound bytes touches nothing but the data and the buffer, and
    decompressing the result into a buffer of the size of the data, whatever the buffer held before, gives the data back and touches nothing but the
    result and the buffer. *)
Theorem C63_round_trip : forall data, bytes_ok data -> (N.of_nat (length data) <= 0x7E000000)%N ->
  exists z, compress_default data (compress_bound (length data)) = Fine z /\ bytes_ok z /\
    length z <= length data + length data / 255 + 16 /\
    forall mem, length mem = length data -> decompress_safe z (length data) mem = Fine (Some data).
Proof.
  intros data B L. unfold compress_bound, MAX_INPUT.
  destruct (N.ltb_spec 0x7E000000 (N.of_nat (length data))) as [X|_]; [lia|].
  destruct (compress_ok data (length data + length data / 255 + 16) L (le_n _) B) as (b & C & P & X & W & Z).
  exists (write b). split; [exact C|]. split; [exact W|]. split; [exact Z|].
  intros mem M. rewrite <- X in M |- *. apply decompress_proper; auto.
Qed.

(** What is written is a block of the LZ4 format that stands for the data, and any block of the format, by whatever compressor, is
    read as what it stands for. *)
Theorem C63_format :
  (forall data z, bytes_ok data -> (N.of_nat (length data) <= 0x7E000000)%N -> compress_default data (compress_bound (length data)) = Fine z ->
     exists b, proper b /\ expand b = data /\ z = write b) /\
  (forall b osz mem, proper b -> bytes_ok (write b) -> length (expand b) <= osz -> length mem = osz ->
     decompress_safe (write b) osz mem = Fine (Some (expand b))).
Proof.
  split.
  - intros data z B L. unfold compress_bound, MAX_INPUT.
    destruct (N.ltb_spec 0x7E000000 (N.of_nat (length data))) as [X|_]; [lia|]. intros H.
    destruct (compress_ok data (length data + length data / 255 + 16) L (le_n _) B) as (b & C & P & X & W & Z).
    exists b. split; [exact P|]. split; [exact X|]. rewrite C in H. injection H as ->. reflexivity.
  - intros. apply decompress_proper; assumption.
Qed.

(** Whatever the bytes of the input and whatever the size of the output buffer: nothing is read or written outside the two buffers, at most
    [osz] bytes come out, and what comes out does not depend on what the buffer held before. *)
Theorem C63_any_input : forall src osz, bytes_ok src ->
  exists r, (forall x, r = Some x -> length x <= osz) /\ forall mem, length mem = osz -> decompress_safe src osz mem = Fine r.
Proof. intros src osz B. apply decompress_settled. exact B. Qed.

(** A block of the format has one meaning only. *)
Theorem C63_one_meaning : forall b b', proper b -> proper b' -> bytes_ok (write b) -> write b = write b' -> expand b = expand b'.
Proof.
  intros b b' P P' B E. set (n := Nat.max (length (expand b)) (length (expand b'))).
  assert (L : length (repeat 0%N n) = n) by apply repeat_length.
  pose proof (decompress_proper b n (repeat 0%N n) P B ltac:(lia) L) as D.
  rewrite E in B, D. rewrite (decompress_proper b' n (repeat 0%N n) P' B ltac:(lia) L) in D. congruence.
Qed.

(** *** Cases *)
Definition abc (n : nat) : bytes := concat (repeat [97; 98; 99]%N n) ++ [120; 121; 122; 48; 49; 50; 51]%N.
Example C63_case_repeat : match compress_default (abc 30) (compress_bound (length (abc 30))) with
  | Fine z => z = [63; 97; 98; 99; 3; 0; 68; 112; 120; 121; 122; 48; 49; 50; 51]%N /\
              decompress_safe z 97 (repeat 7%N 97) = Fine (Some (abc 30))
  | Stray => False
  end.
Proof. vm_compute. split; reflexivity. Qed.
Example C63_case_empty : compress_default [] (compress_bound 0) = Fine [0%N] /\ decompress_safe [0%N] 0 [] = Fine (Some []).
Proof. vm_compute. split; reflexivity. Qed.
Definition case_block : block := ([{| lits := [65; 66]%N; off := 2; mlen := 20 |}; {| lits := [67]%N; off := 1; mlen := 300 |}], repeat 68%N 16).
Example C63_case_block : proper case_block /\ length (expand case_block) = 339 /\
  decompress_safe (write case_block) 1000 (repeat 7%N 1000) = Fine (Some (expand case_block)).
Proof.
  split; [|split; vm_compute; reflexivity].
  unfold proper, case_block. cbn [rules fst snd lits off mlen size List.length repeat]. repeat split; try lia; exact Logic.I.
Qed.
(** Damaged input: too far back, cut short, too long for the buffer. *)
Example C63_case_damage :
  decompress_safe [63; 97; 98; 99; 4; 0; 68; 112; 120; 121; 122; 48; 49; 50; 51]%N 97 (repeat 7%N 97) = Fine None /\
  decompress_safe [63; 97; 98; 99; 3; 0; 68; 112; 120; 121]%N 97 (repeat 7%N 97) = Fine None /\
  decompress_safe [63; 97; 98; 99; 3; 0; 68; 112; 120; 121; 122; 48; 49; 50; 51]%N 96 (repeat 7%N 96) = Fine None.
Proof. vm_compute. repeat split; reflexivity. Qed.

(** *** Not only blocks of the format are read *)
(** A block with a distance of 0 is taken, and zeros come out. *)
Definition zero_off : bytes := [0; 0; 0; 192; 1; 2; 3; 4; 5; 6; 7; 8; 9; 10; 11; 12]%N.
Theorem C63_only_format_refuted : exists src osz out, bytes_ok src /\
  (forall mem, length mem = osz -> decompress_safe src osz mem = Fine (Some out)) /\ forall b, proper b -> write b <> src.
Proof.
  exists zero_off, 16, [0; 0; 0; 0; 1; 2; 3; 4; 5; 6; 7; 8; 9; 10; 11; 12]%N.
  assert (B : bytes_ok zero_off) by (repeat constructor; lia).
  split; [exact B|]. split.
  - destruct (C63_any_input zero_off 16 B) as (r & _ & H). intros mem M. rewrite (H mem M).
    rewrite <- (H (repeat 7%N 16) (repeat_length _ _)). vm_compute. reflexivity.
  - intros [[|s l] last] P E.
    + unfold write in E. cbn [flat_map fst snd app] in E. injection E as E0 E.
      assert (length last = 0). { unfold nibble in E0. destruct last; cbn [List.length] in *; [reflexivity|lia]. }
      destruct last; [discriminate|discriminate].
    + unfold write, write_seq in E. cbn [flat_map fst snd app] in E. injection E as E0 E.
      destruct P as (_ & P1 & P2 & _). 
      assert (L : lits s = []). { unfold nibble in E0. destruct (lits s); cbn [List.length] in *; [reflexivity|lia]. }
      rewrite L in E. cbn [List.length app more Nat.ltb Nat.leb] in E. injection E as E1 E2 _.
      assert (N.of_nat (off s) = 0)%N by lia. lia.
Qed.

(** ** Saving and loading with it *)
(** SAVE and LOAD with LZ4 meet what C42 and C44 ask of the codec. *)
Lemma lz4_ok : forall junk, (forall n, length (junk n) = N.to_nat n) -> lz_ok lz4_compress (lz4_decompress junk).
Proof.
  intros junk J s B L. destruct (C63_round_trip s B L) as (z & C & Bz & Lz & D). unfold lz4_compress. rewrite C.
  assert (Z : (N.of_nat (length z) < 2 ^ 31)%N).
  { apply N.le_lt_trans with (N.of_nat (length s + length s / 255 + 16)); [lia|]. generalize dependent (length s). clear. intros n L _. lia. }
  split; [exact Bz|]. split; [lia|]. unfold lz4_decompress.
  destruct (N.leb_spec (2 ^ 31) (N.of_nat (length s))); [lia|]. destruct (N.leb_spec (2 ^ 31) (N.of_nat (length z))); [lia|]. cbn [orb].
  rewrite Nnat.Nat2N.id, D by (rewrite J, Nnat.Nat2N.id; reflexivity). rewrite Nat.eqb_refl. reflexivity.
Qed.

(** What was saved comes back: C42_save_load without any assumption on the codec. *)
Theorem C63_save_load : forall o o' junk takes nprocs fast f0 svs0 f svs sv ch0 (clocks : Z -> Z -> Prop) (envs : env -> Prop) nprocs',
  (* saving *)
  (0 < nprocs)%nat -> small_enough o takes -> fresh f0 svs0 -> (forall i s, takes i s -> shot_ok o s) ->
  saves_steps o lz4_compress takes nprocs fast (f0, svs0) (f, svs) -> In sv svs -> sv_phase sv = PDone true ->
  (* loading *)
  (forall n, length (junk n) = N.to_nat n) -> reachable (ctx_of o') ch0 ->
  (forall now unix, clocks now unix -> times_ok now unix) -> (forall en, envs en -> mem_fine en) -> (1 <= nprocs')%nat ->
  room_for o' ch0 (fun key => exists s v, takes (route (ctx_of o) key) s /\ sees (ctx_of o) (sh_cache s) key (sh_now s) (Some v)) ->
  exists file shots, content f (sv_path sv) = Some file /\
    (forall i, (i < N.to_nat (c_nshards (ctx_of o)))%nat -> takes i (shots i)) /\
    forall x, load_steps (ctx_of o') (lz4_decompress junk) clocks envs (load_start file nprocs' ch0) x -> load_ended x = true ->
      load_result x = 0%Z /\ forall key, let s := shots (route (ctx_of o) key) in
        (sees (ctx_of o) (sh_cache s) key (sh_now s) None -> same_at (ctx_of o') ch0 (ld_cache x) key) /\
        (forall v, sees (ctx_of o) (sh_cache s) key (sh_now s) (Some v) ->
           exists now' unix', clocks now' unix' /\ came_back o' ch0 (ld_cache x) key v (sh_now s) (sh_unix s) now' unix').
Proof.
  intros o o' junk takes nprocs fast f0 svs0 f svs sv ch0 clocks envs nprocs' A1 A2 A3 A4 A5 A6 A7 J A8 A9 A10 A11 A12.
  exact (C42_save_load o o' lz4_compress (lz4_decompress junk) takes nprocs fast f0 svs0 f svs sv ch0 clocks envs nprocs' A1 A2 A3 A4 A5 A6 A7
    (lz4_ok junk J) A8 A9 A10 A11 A12).
Qed.

(** *** A case *)
Definition fill7 (n : N) : bytes := repeat 7%N (N.to_nat n).
Definition demo_zfile : bytes := block_text lz4_compress demo_d1 ++ block_text lz4_compress demo_d0.
Lemma demo_zsaved : saved_file demo_opts lz4_compress (fun _ => demo_shot) demo_zfile.
Proof.
  exists [Some demo_d0; Some demo_d1], [demo_d1; demo_d0]. split; [reflexivity|]. split; [|split].
  - intros i d H. destruct i as [|[|i]]; cbn [nth_error] in H.
    + injection H as <-. split; [exact demo_made0|]. intros s E. injection E as <-. vm_compute. discriminate.
    + injection H as <-. split; [exact demo_made1|]. intros s E. injection E as <-. vm_compute. discriminate.
    + destruct i; discriminate.
  - cbn [flat_map app]. apply perm_swap.
  - cbn [map concat]. rewrite app_nil_r. reflexivity.
Qed.
Example C63_case_codec : lz_ok lz4_compress (lz4_decompress fill7).
Proof. apply lz4_ok. intros n. apply repeat_length. Qed.
Example C63_case_load : fst (read_file demo_zfile) = [mkBlock (176%N :: demo_d1) 11; mkBlock (160%N :: demo_d0) 10] /\ snd (read_file demo_zfile) = true /\
  load_block (lz4_decompress fill7) (mkBlock (176%N :: demo_d1) 11) 500 1005 =
    load_block unraw (mkBlock demo_d1 11) 500 1005.
Proof. vm_compute. repeat split; reflexivity. Qed.

(** ** Too much data *)
Section Bad.
Variables (c : ctx) (decompress : bytes -> N -> option bytes) (clocks : Z -> Z -> Prop) (envs : env -> Prop) (b : cblock).
Hypothesis bad : forall now unix, clocks now unix -> load_block decompress b now unix = Ok ([], false).
Definition doomed (x : loading) : Prop :=
  ld_workers x <> [] /\
  (In WEnd (ld_workers x) -> ld_failure x = true \/ (ld_queue x = [] /\ ld_done x <> None)) /\
  (ld_failure x = true \/ (In b (ld_left x) /\ ld_done x = None) \/ In b (ld_queue x) \/ In (WRun [] false) (ld_workers x)).
Lemma in_mid : forall (w v : worker) l1 l2 u, In u (l1 ++ w :: l2) -> u <> w -> In u (l1 ++ v :: l2).
Proof. intros w v l1 l2 u H N. apply in_app_or in H. apply in_or_app. destruct H as [H|[H|H]]; [left; exact H|congruence|right; right; exact H]. Qed.
Lemma mid_some : forall (w : worker) l1 l2, l1 ++ w :: l2 <> [].
Proof. intros w l1 l2 H. destruct l1; discriminate. Qed.
Lemma doomed_step : forall x y, load_step c decompress clocks envs x y -> doomed x -> doomed y.
Proof.
  intros x y H. destruct H; intros (D1 & D2 & D3); unfold doomed; cbn [ld_workers ld_failure ld_queue ld_done ld_left] in *.
  - split; [apply mid_some|]. split.
    + intros K. assert (K' : In WEnd (ws1 ++ WIdle :: ws2)) by (refine (in_mid _ _ _ _ _ K _); discriminate).
      destruct (D2 K') as [X|[X _]]; [discriminate|]. destruct q; discriminate.
    + destruct D3 as [X|[X|[X|X]]]; [discriminate|right; left; exact X| |].
      * apply in_app_or in X. destruct X as [X|[X|[]]]; [right; right; left; exact X|]. subst b0. rewrite (bad _ _ H) in H0. injection H0 as <- <-.
        right. right. right. apply in_or_app. right. left. reflexivity.
      * right. right. right. refine (in_mid _ _ _ _ _ X _). discriminate.
  - split; [apply mid_some|]. split.
    + intros K. apply D2. refine (in_mid _ _ _ _ _ K _). discriminate.
    + destruct D3 as [X|[X|[X|X]]]; [left; exact X|right; left; exact X|right; right; left; exact X|].
      right. right. right. refine (in_mid _ _ _ _ _ X _). discriminate.
  - split; [apply mid_some|]. split.
    + intros K. apply D2. refine (in_mid _ _ _ _ _ K _). discriminate.
    + destruct D3 as [X|[X|[X|X]]]; [left; exact X|right; left; exact X|right; right; left; exact X|].
      right. right. right. refine (in_mid _ _ _ _ _ X _). discriminate.
  - split; [apply mid_some|]. split; left; reflexivity.
  - split; [apply mid_some|]. split.
    + intros _. exact H.
    + destruct D3 as [X|[X|[X|X]]]; [left; exact X|right; left; exact X|right; right; left; exact X|].
      right. right. right. refine (in_mid _ _ _ _ _ X _). discriminate.
  - split; [exact D1|]. split.
    + intros K. destruct (D2 K) as [X|[_ X]]; [discriminate|congruence].
    + destruct D3 as [X|[[[X|X] _]|[X|X]]]; [discriminate| | | |].
      * right. right. left. apply in_or_app. right. left. exact X.
      * right. left. split; [exact X|reflexivity].
      * right. right. left. apply in_or_app. left. exact X.
      * right. right. right. exact X.
  - split; [exact D1|]. split; left; reflexivity.
  - split; [exact D1|]. split.
    + intros K. destruct (D2 K) as [X|[X _]]; [left; exact X|right; split; [exact X|discriminate]].
    + destruct D3 as [X|[[[] _]|[X|X]]]; [left; exact X|right; right; left; exact X|right; right; right; exact X].
Qed.
Lemma doomed_fails : forall x, doomed x -> load_ended x = true -> load_result x = (-1)%Z.
Proof.
  intros x (D1 & D2 & D3) E. unfold load_ended in E. destruct (ld_done x) as [d|] eqn:Ed; [|discriminate]. rewrite forallb_forall in E.
  unfold load_result. rewrite Ed. destruct (ld_failure x) eqn:F; [rewrite Bool.andb_false_r; reflexivity|exfalso].
  assert (W : In WEnd (ld_workers x)).
  { destruct (ld_workers x) as [|w ws]; [congruence|]. pose proof (E w (or_introl eq_refl)). destruct w; try discriminate. left. reflexivity. }
  destruct (D2 W) as [X|[Q _]]; [discriminate|]. destruct D3 as [X|[[_ X]|[X|X]]]; [discriminate|discriminate| |].
  - rewrite Q in X. destruct X.
  - pose proof (E _ X). discriminate.
Qed.
Lemma doomed_steps : forall x y, load_steps c decompress clocks envs x y -> doomed x -> doomed y.
Proof. intros x y H. induction H as [x|x y z H IH K]; intros D; [exact D|]. eapply doomed_step; [exact K|]. exact (IH D). Qed.
End Bad.

(** If a shard holds more than LZ4 takes (and less than 4 GB), save writes a block that has the right checksum but no data, and a load of a file
    that holds this block after intact ones fails, in every run; save itself reports success. *)
Theorem C63_too_large_refuted : forall data, (0x7E000000 < N.of_nat (length data) < 2 ^ 32)%N ->
  let b := block_text lz4_compress data in
  intact b /\ length b = 16 /\
  forall before after c junk (clocks : Z -> Z -> Prop) (envs : env -> Prop) nprocs ch0, (forall n, length (junk n) = N.to_nat n) -> (1 <= nprocs)%nat ->
    Forall (fun d => bytes_ok (lz4_compress d) /\ (N.of_nat (length (lz4_compress d)) < 2 ^ 32 /\ N.of_nat (length d) < 2 ^ 32)%N) before ->
    forall x, load_steps c (lz4_decompress junk) clocks envs (load_start (concat (map (block_text lz4_compress) before) ++ b ++ after) nprocs ch0) x ->
      load_ended x = true -> load_result x = (-1)%Z.
Proof.
  intros data L b.
  assert (Z : lz4_compress data = []).
  { unfold lz4_compress, compress_default, MAX_INPUT. destruct (N.ltb_spec 0x7E000000 (N.of_nat (length data))) as [_|X]; [reflexivity|lia]. }
  split; [|split].
  - exists (N.of_nat (length data)), []. split; [lia|]. split; [reflexivity|]. split; [constructor|].
    unfold b, block_text, framed, u32. rewrite Z. rewrite !N.mod_small by (try lia; reflexivity). reflexivity.
  - unfold b, block_text. rewrite Z. rewrite !app_length, !le_bytes_length. reflexivity.
  - intros before after c junk clocks envs nprocs ch0 J Np F x Hx He.
    assert (In (mkBlock [] (N.of_nat (length data))) (fst (read_file (concat (map (block_text lz4_compress) before) ++ b ++ after)))) as I.
    { unfold read_file.
      assert (G : forall before f, Forall (fun d => bytes_ok (lz4_compress d) /\ (N.of_nat (length (lz4_compress d)) < 2 ^ 32 /\ N.of_nat (length d) < 2 ^ 32)%N) before ->
        length before < f -> In (mkBlock [] (N.of_nat (length data))) (fst (read_blocks f (concat (map (block_text lz4_compress) before) ++ b ++ after)))).
      { clear - L Z. intros before. induction before as [|d before IH]; intros f F Lf; destruct f as [|f]; [lia| |cbn [List.length] in Lf; lia|].
        - cbn [map concat app]. unfold b. rewrite read_block; rewrite ?Z; [left; reflexivity|constructor|reflexivity|lia].
        - inversion F as [|? ? (F1 & F2 & F3) F4]; subst. cbn [map concat]. rewrite <- app_assoc. rewrite read_block by assumption. right.
          apply IH; [exact F4|]. cbn [List.length] in Lf. lia. }
      apply G; [exact F|]. rewrite !app_length. clear - before. assert (length before <= length (concat (map (block_text lz4_compress) before))); [|lia].
      induction before as [|d l IH]; [reflexivity|]. cbn [map concat List.length]. rewrite app_length, block_text_length. lia. }
    apply (doomed_fails (mkBlock [] (N.of_nat (length data)))); [|exact He].
    refine (doomed_steps c (lz4_decompress junk) clocks envs _ _ _ _ Hx _).
    + intros now unix _. unfold load_block. cbn [cb_data cb_dlen]. unfold lz4_decompress.
      destruct ((2 ^ 31 <=? N.of_nat (length data))%N || (2 ^ 31 <=? N.of_nat (@length N []))%N); [reflexivity|].
      unfold decompress_safe. destruct (Nat.eqb_spec (N.to_nat (N.of_nat (length data))) 0) as [E|_]; [lia|]. reflexivity.
    + unfold doomed, load_start. cbn [ld_workers ld_failure ld_queue ld_done ld_left]. split; [destruct nprocs; [lia|discriminate]|].
      split; [|right; left; split; [exact I|reflexivity]]. intros K. apply repeat_spec in K. discriminate.
Qed.
(** There is such data. *)
Example C63_case_too_large : exists data : bytes, (0x7E000000 < N.of_nat (length data) < 2 ^ 32)%N.
Proof. exists (repeat 0%N (N.to_nat 0x7E000001)). rewrite repeat_length, Nnat.N2Nat.id. split; reflexivity. Qed.
