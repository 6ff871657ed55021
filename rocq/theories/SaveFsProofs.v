(** Whatever the threads of save do, a path names its old file or a complete new one. *)
From Verif Require Import Base Types Entry Hash Map Shard Cache Refine Reach PropCache PropItems Save SaveSpec SaveFs.
From Coq Require Import Permutation.
Local Open Scope N_scope.
Notation map := List.map.
Notation length := List.length.
Notation concat := List.concat.

(** ** The shards are shared out *)
Lemma ranges_all : forall n nshards per start, (0 < n)%nat -> (start + (n - 1) * per <= nshards)%nat ->
  concat (map (fun r => seq (fst r) (snd r)) (save_ranges nshards per start n)) = seq start (nshards - start).
Proof.
  induction n as [|n IH]; intros nshards per start Hn Hs; [lia|]. cbn [save_ranges map concat fst snd].
  destruct (Nat.eqb_spec n 0) as [->|Nz].
  - cbn [save_ranges map concat]. rewrite app_nil_r. reflexivity.
  - replace (S n - 1)%nat with n in Hs by lia.
    assert (Hm : (n * per = per + (n - 1) * per)%nat) by (destruct n; [lia|]; cbn [Nat.mul]; replace (S n - 1)%nat with n by lia; reflexivity).
    rewrite IH by lia. replace (nshards - start)%nat with (per + (nshards - (start + per)))%nat by lia.
    rewrite seq_app. reflexivity.
Qed.
Lemma threads_all : forall nshards nprocs fast, (0 < nshards)%nat -> (0 < nprocs)%nat ->
  concat (map (fun r => seq (fst r) (snd r)) (save_threads nshards nprocs fast)) = seq 0 nshards.
Proof.
  intros nshards nprocs fast Hs Hp. unfold save_threads.
  set (n := if fast then if (nshards <? nprocs)%nat then nshards else nprocs else 1%nat).
  assert (Hn : (0 < n)%nat) by (unfold n; destruct fast; [destruct (nshards <? nprocs)%nat|]; lia).
  rewrite ranges_all.
  - rewrite Nat.sub_0_r. reflexivity.
  - exact Hn.
  - pose proof (Nat.mul_div_le nshards n ltac:(lia)). pose proof (Nat.mul_le_mono_r (n - 1) n (nshards / n) ltac:(lia)). lia.
Qed.

Lemma overwrite_end : forall d w, overwrite d (length d) w = d ++ w.
Proof. intros d w. unfold overwrite. rewrite firstn_all, skipn_all2 by lia. rewrite app_nil_r. reflexivity. Qed.

Section P.
Variable o : opts.
Variable compress : bytes -> bytes.
Variable takes : nat -> shot -> Prop.
Variable nprocs : nat.
Variable fast : bool.
Hypothesis nprocs_pos : (0 < nprocs)%nat.
Hypothesis takes_small : forall i s d, takes i s -> made_block o s i (Some d) -> N.of_nat (length d) <= 0x7E000000.
Notation nshards := (N.to_nat (c_nshards (ctx_of o))).

(** The contents of a complete file. *)
Definition complete (d : bytes) : Prop :=
  exists shots, (forall i, (i < nshards)%nat -> takes i (shots i)) /\ saved_file o compress shots d.

(** What was made, by shard. *)
Definition thing : Type := nat * shot * option bytes.
Definition th_shard (g : thing) : nat := fst (fst g).
Definition th_text (g : thing) : list bytes := match snd g with Some d => [block_text compress d] | None => [] end.
Definition th_ok (g : thing) : Prop := takes (th_shard g) (snd (fst g)) /\ made_block o (snd (fst g)) (th_shard g) (snd g).
Definition left_of (t : sthread) : list nat := match t with TSave l | TWait _ l | TWrite _ l => l | TEnd _ => [] end.
Definition pend (part : bytes) (t : sthread) : list bytes :=
  match t with TWait b _ => [b] | TWrite b _ => [part ++ b] | _ => [] end.

Record rinv (d : bytes) (off : nat) (ts : list sthread) : Prop := {
  ri_off : off = length d;
  ri_one : (length (filter writing ts) <= 1)%nat;
  ri_good : ~ In (TEnd false) ts -> exists got wr part,
     d = concat wr ++ part /\ Forall th_ok got /\
     Permutation (map th_shard got ++ flat_map left_of ts) (seq 0 nshards) /\
     Permutation (flat_map th_text got) (wr ++ flat_map (pend part) ts) /\
     (filter writing ts = [] -> part = [])
}.

Lemma rinv_start : rinv [] 0 (map (fun r => TSave (seq (fst r) (snd r))) (save_threads nshards nprocs fast)).
Proof.
  pose proof (opts_shards o) as Hs. change (opts_to_ctx o) with (ctx_of o) in Hs.
  set (rs := save_threads nshards nprocs fast).
  assert (F : filter writing (map (fun r => TSave (seq (fst r) (snd r))) rs) = []) by (induction rs as [|r rs IH]; [reflexivity|exact IH]).
  constructor; [reflexivity|rewrite F; cbn [length]; lia|].
  intros _. exists [], [], []. split; [reflexivity|]. split; [constructor|]. split; [|split; [|intros _; reflexivity]].
  - cbn [map app].
    assert (E : flat_map left_of (map (fun r => TSave (seq (fst r) (snd r))) rs) = concat (map (fun r => seq (fst r) (snd r)) rs)).
    { induction rs as [|r rs IH]; [reflexivity|]. cbn [map flat_map concat left_of]. rewrite IH; [reflexivity|]. clear IH. exact F. }
    rewrite E. unfold rs. rewrite threads_all by lia. reflexivity.
  - cbn [flat_map app]. assert (E : flat_map (pend []) (map (fun r => TSave (seq (fst r) (snd r))) rs) = []) by (clear F; induction rs as [|r rs IH]; [reflexivity|exact IH]).
    rewrite E. constructor.
Qed.

Lemma filter_mid : forall t1 t t2, length (filter writing (t1 ++ t :: t2)) = (length (filter writing (t1 ++ t2)) + if writing t then 1 else 0)%nat.
Proof.
  intros t1 t t2. rewrite !filter_app, !app_length. cbn [filter]. destruct (writing t); cbn [length]; lia.
Qed.
Lemma pend_idle : forall part part' ts, filter writing ts = [] -> flat_map (pend part) ts = flat_map (pend part') ts.
Proof.
  intros part part' ts. induction ts as [|t ts IH]; intro H; [reflexivity|]. cbn [filter] in H. destruct (writing t) eqn:W; [discriminate|].
  cbn [flat_map]. rewrite (IH H). destruct t; try discriminate; reflexivity.
Qed.
Lemma in_mid2 : forall (A : Type) (x y : A) a b, In x (a ++ y :: b) <-> x = y \/ In x (a ++ b).
Proof. intros A x y a b. rewrite !in_app_iff. cbn [In]. split; intros [H|H]; intuition congruence. Qed.
Lemma flat_mid : forall (A B : Type) (f : A -> list B) a x b, Permutation (flat_map f (a ++ x :: b)) (f x ++ flat_map f (a ++ b)).
Proof.
  intros A B f a x b. rewrite !flat_map_app. cbn [flat_map]. rewrite !app_assoc. apply Permutation_app_tail. apply Permutation_app_comm.
Qed.

Lemma rinv_step : forall d off t1 t t2 d' off' t', rinv d off (t1 ++ t :: t2) ->
  thread_step o compress takes d off (t1 ++ t2) t d' off' t' -> rinv d' off' (t1 ++ t' :: t2).
Proof.
  intros d off t1 t t2 d' off' t' [R1 R2 R3] H.
  assert (N0 : forall x, (forall b, x <> TEnd b) -> ~ In (TEnd false) (t1 ++ x :: t2) -> ~ In (TEnd false) (t1 ++ t2)).
  { intros x _ Hx Hi. apply Hx. apply in_mid2. right. exact Hi. }
  rewrite filter_mid in R2. inversion H; subst.
  - (* none *)
    constructor; [reflexivity|rewrite filter_mid; cbn [writing] in *; lia|].
    intro Hn. destruct R3 as (got & wr & part & E & G & P1 & P2 & P3).
    { intro Hi. apply Hn. apply in_mid2 in Hi. apply in_mid2. destruct Hi as [Hi|Hi]; [discriminate|right; exact Hi]. }
    exists (got ++ [(i, s, None)]), wr, part. split; [exact E|]. split; [apply Forall_app; split; [exact G|constructor; [split; assumption|constructor]]|].
    split; [|split].
    + rewrite map_app. cbn [map th_shard fst]. rewrite <- P1. rewrite (flat_mid _ _ left_of t1 (TSave l)), (flat_mid _ _ left_of t1 (TSave (i :: l))).
      cbn [left_of]. rewrite <- !app_assoc. reflexivity.
    + rewrite flat_map_app. cbn [flat_map th_text snd app]. rewrite app_nil_r. rewrite P2, !(flat_mid _ _ (pend part)). reflexivity.
    + intro F. apply P3. rewrite filter_app in *. exact F.
  - (* block *)
    constructor; [reflexivity|rewrite filter_mid; cbn [writing] in *; lia|].
    intro Hn. destruct R3 as (got & wr & part & E & G & P1 & P2 & P3).
    { intro Hi. apply Hn. apply in_mid2 in Hi. apply in_mid2. destruct Hi as [Hi|Hi]; [discriminate|right; exact Hi]. }
    exists (got ++ [(i, s, Some d0)]), wr, part. split; [exact E|]. split; [apply Forall_app; split; [exact G|constructor; [split; assumption|constructor]]|].
    split; [|split].
    + rewrite map_app. cbn [map th_shard fst]. rewrite <- P1. rewrite (flat_mid _ _ left_of t1 (TWait _ l)), (flat_mid _ _ left_of t1 (TSave (i :: l))).
      cbn [left_of]. rewrite <- !app_assoc. reflexivity.
    + rewrite flat_map_app. cbn [flat_map th_text snd app]. rewrite P2, !(flat_mid _ _ (pend part)). cbn [pend app].
      rewrite <- app_assoc. apply Permutation_app_head. symmetry. apply Permutation_cons_append.
    + intro F. apply P3. rewrite filter_app in *. exact F.
  - (* lock *)
    assert (F0 : filter writing (t1 ++ t2) = []).
    { clear - H0. induction (t1 ++ t2) as [|t ts IH]; [reflexivity|].
      cbn [forallb filter] in *. apply andb_true_iff in H0. destruct H0 as [Ht Hf]. destruct (writing t); [discriminate|]. exact (IH Hf). }
    constructor; [reflexivity|rewrite filter_mid, F0; cbn [writing length]; lia|].
    intro Hn. destruct R3 as (got & wr & part & E & G & P1 & P2 & P3).
    { intro Hi. apply Hn. apply in_mid2 in Hi. apply in_mid2. destruct Hi as [Hi|Hi]; [discriminate|right; exact Hi]. }
    assert (Ep : part = []). { apply P3. rewrite filter_app in *. cbn [filter writing]. exact F0. }
    subst part. exists got, wr, []. split; [exact E|]. split; [exact G|]. split; [|split].
    + rewrite <- P1. rewrite (flat_mid _ _ left_of t1 (TWait b l)), (flat_mid _ _ left_of t1 (TWrite b l)). reflexivity.
    + rewrite P2, !(flat_mid _ _ (pend [])). reflexivity.
    + reflexivity.
  - (* write *)
    cbn [writing] in R2. assert (F0 : filter writing (t1 ++ t2) = []) by (destruct (filter writing (t1 ++ t2)); [reflexivity|cbn [length] in R2; lia]).
    rewrite overwrite_end. constructor; [rewrite app_length; reflexivity|rewrite filter_mid; cbn [writing]; lia|].
    intro Hn. destruct R3 as (got & wr & part & E & G & P1 & P2 & P3).
    { intro Hi. apply Hn. apply in_mid2 in Hi. apply in_mid2. destruct Hi as [Hi|Hi]; [discriminate|right; exact Hi]. }
    exists got, wr, (part ++ w). split; [rewrite E, app_assoc; reflexivity|]. split; [exact G|]. split; [|split].
    + rewrite <- P1. rewrite (flat_mid _ _ left_of t1 (TWrite b l)), (flat_mid _ _ left_of t1 (TWrite (w ++ b) l)). reflexivity.
    + rewrite P2, !(flat_mid _ _ (pend _)). cbn [pend]. rewrite <- app_assoc. rewrite (pend_idle (part ++ w) part _ F0). reflexivity.
    + intro F. rewrite filter_app in F. cbn [filter writing] in F. destruct (filter writing t1); discriminate.
  - (* error *)
    constructor; [reflexivity|rewrite filter_mid; cbn [writing] in *; lia|]. intro Hn. exfalso. apply Hn. apply in_mid2. left. reflexivity.
  - (* unlock *)
    cbn [writing] in R2. assert (F0 : filter writing (t1 ++ t2) = []) by (destruct (filter writing (t1 ++ t2)); [reflexivity|cbn [length] in R2; lia]).
    constructor; [reflexivity|rewrite filter_mid; cbn [writing]; lia|].
    intro Hn. destruct R3 as (got & wr & part & E & G & P1 & P2 & P3).
    { intro Hi. apply Hn. apply in_mid2 in Hi. apply in_mid2. destruct Hi as [Hi|Hi]; [discriminate|right; exact Hi]. }
    exists got, (wr ++ [part]), []. split; [rewrite concat_app; cbn [concat]; rewrite !app_nil_r; exact E|]. split; [exact G|]. split; [|split].
    + rewrite <- P1. rewrite (flat_mid _ _ left_of t1 (TWrite [] l)), (flat_mid _ _ left_of t1 (TSave l)). reflexivity.
    + rewrite P2, !(flat_mid _ _ (pend _)). cbn [pend]. rewrite app_nil_r, <- app_assoc. rewrite (pend_idle [] part _ F0). reflexivity.
    + reflexivity.
  - (* end *)
    constructor; [reflexivity|rewrite filter_mid; cbn [writing] in *; lia|].
    intro Hn. destruct R3 as (got & wr & part & E & G & P1 & P2 & P3).
    { intro Hi. apply Hn. apply in_mid2 in Hi. apply in_mid2. destruct Hi as [Hi|Hi]; [discriminate|right; exact Hi]. }
    exists got, wr, part. split; [exact E|]. split; [exact G|]. split; [|split].
    + rewrite <- P1. rewrite (flat_mid _ _ left_of t1 (TSave [])), (flat_mid _ _ left_of t1 (TEnd true)). reflexivity.
    + rewrite P2, !(flat_mid _ _ (pend part)). reflexivity.
    + intro F. apply P3. rewrite filter_app in *. exact F.
Qed.

(** When all threads are done the file is complete. *)
Lemma rinv_end : forall d off ts, rinv d off ts -> (forall t, In t ts -> t = TEnd true) -> complete d.
Proof.
  intros d off ts [R1 R2 R3] He. destruct R3 as (got & wr & part & E & G & P1 & P2 & P3).
  { intro Hi. apply He in Hi. discriminate. }
  assert (F : filter writing ts = [] /\ flat_map left_of ts = [] /\ flat_map (pend part) ts = []).
  { clear - He. induction ts as [|t ts IH]; [auto|]. rewrite (He t (or_introl eq_refl)). cbn [filter writing flat_map left_of pend app].
    apply IH. intros x Hx. apply He. right. exact Hx. }
  destruct F as (F1 & F2 & F3). specialize (P3 F1). subst part. rewrite F2, app_nil_r in P1. rewrite F3, app_nil_r in P2. rewrite app_nil_r in E.
  assert (Nd : NoDup (map th_shard got)) by (apply (Permutation_NoDup (Permutation_sym P1)), seq_NoDup).
  assert (Dm : exists g0 : thing, True \/ g0 = g0).
  { pose proof (opts_shards o) as Hs. change (opts_to_ctx o) with (ctx_of o) in Hs. destruct got as [|g got]; [|exists g; auto].
    exfalso. cbn [map] in P1. apply Permutation_nil in P1. destruct nshards eqn:En; [lia|discriminate]. }
  destruct Dm as (g0 & _).
  set (find_at := fun i => match find (fun g => (th_shard g =? i)%nat) got with Some g => g | None => g0 end).
  assert (Fa : forall g, In g got -> find_at (th_shard g) = g).
  { intros g Hin. unfold find_at. clear - Nd Hin. induction got as [|h got IH]; [destruct Hin|]. cbn [find map] in *. inversion Nd; subst.
    destruct (Nat.eqb_spec (th_shard h) (th_shard g)) as [Eq|Ne].
    - destruct Hin as [->|Hin]; [reflexivity|]. exfalso. apply H1. rewrite Eq. apply in_map. exact Hin.
    - destruct Hin as [->|Hin]; [congruence|]. exact (IH H2 Hin). }
  assert (Pg : Permutation got (map find_at (seq 0 nshards))).
  { rewrite <- P1. rewrite map_map. rewrite <- (map_id got) at 1. erewrite map_ext_in; [reflexivity|]. intros g Hin. symmetry. apply Fa. exact Hin. }
  assert (In_at : forall i, (i < nshards)%nat -> In (find_at i) got /\ th_shard (find_at i) = i).
  { intros i Hi. assert (X : In i (map th_shard got)) by (apply (Permutation_in _ (Permutation_sym P1)), in_seq; lia).
    apply in_map_iff in X. destruct X as (g & <- & Hg). rewrite (Fa g Hg). auto. }
  rewrite Forall_forall in G.
  exists (fun i => snd (fst (find_at i))). split.
  - intros i Hi. destruct (In_at i Hi) as [H1 H2]. destruct (G _ H1) as [H3 _]. rewrite H2 in H3. exact H3.
  - (* the order of the blocks *)
    assert (Fo : flat_map th_text got = map (block_text compress) (flat_map (fun g => match snd g with Some s => [s] | None => [] end) got)).
    { clear. induction got as [|g got IH]; [reflexivity|]. cbn [flat_map]. rewrite map_app, <- IH. unfold th_text. destruct (snd g); reflexivity. }
    rewrite Fo in P2. destruct (Permutation_map_inv _ _ (Permutation_sym P2)) as (order & Eo & Po).
    exists (map (fun i => snd (find_at i)) (seq 0 nshards)), order.
    split; [rewrite map_length, seq_length; reflexivity|]. split; [|split].
    + intros i x Hx. assert (Hi : (i < nshards)%nat) by (rewrite <- (seq_length nshards 0), <- (map_length (fun i => snd (find_at i))); apply nth_error_Some; congruence).
      rewrite (map_nth_error _ i (seq 0 nshards) (d := i)) in Hx.
      * injection Hx as <-. destruct (In_at i Hi) as [H1 H2]. destruct (G _ H1) as [H3 H4]. rewrite H2 in *. split; [exact H4|].
        intros s Es. apply (takes_small i (snd (fst (find_at i)))); [exact H3|]. rewrite <- Es. exact H4.
      * rewrite (nth_error_nth' (seq 0 nshards) 0%nat) by (rewrite seq_length; exact Hi). rewrite seq_nth by exact Hi. reflexivity.
    + rewrite <- Po. rewrite Pg at 1. clear. induction (seq 0 nshards) as [|i l IH]; [reflexivity|]. cbn [map flat_map]. rewrite IH. reflexivity.
    + rewrite E, Eo. reflexivity.
Qed.

(** ** The file system *)
Definition succeeded (ph : phase) : bool := match ph with PClose true | PDone true => true | _ => false end.
Definition owns (f : fs) (w : bytes) (i : nat) : Prop := fs_names f w = Some i /\ forall n, fs_names f n = Some i -> n = w.
Definition sinv (f : fs) (sv : saver) : Prop :=
  match sv_phase sv with
  | POpen => fs_names f (sv_work sv) = None
  | PRun i off ts => owns f (sv_work sv) i /\ (i < fs_next f)%nat /\ rinv (fs_data f i) off ts
  | PRename i => owns f (sv_work sv) i /\ (i < fs_next f)%nat /\ complete (fs_data f i)
  | _ => True
  end.
Variable f0 : fs.
Record winv (f : fs) (svs : list saver) : Prop := {
  wi_sv : Forall (sinv f) svs;
  wi_names : forall n i, fs_names f n = Some i -> (i < fs_next f)%nat;
  wi_works : NoDup (map sv_work svs);
  wi_paths : forall a b, In a svs -> In b svs -> sv_work a <> sv_path b;
  wi_content : forall p, ~ In p (map sv_work svs) ->
     (content f p = content f0 p /\ forall sv, In sv svs -> sv_path sv = p -> succeeded (sv_phase sv) = false) \/
     (exists d, content f p = Some d /\ complete d /\ exists sv, In sv svs /\ sv_path sv = p /\ succeeded (sv_phase sv) = true)
}.

(** A change of the file of one saver does not matter to the others. *)
Lemma sinv_other : forall f f' sv w p i, sinv f sv -> sv_work sv <> w -> sv_work sv <> p -> (fs_next f <= fs_next f')%nat ->
  (* names other than [w] and [p] are as before, these two lead to [i] or to what [w] led to *)
  (forall n, n <> w -> n <> p -> fs_names f' n = fs_names f n) ->
  (forall n j, n = w \/ n = p -> fs_names f' n = Some j -> j = i \/ fs_names f n = Some j) ->
  (forall j, j <> i -> (j < fs_next f)%nat -> fs_data f' j = fs_data f j) ->
  (fs_names f w = Some i \/ (fs_next f <= i)%nat) -> sinv f' sv.
Proof.
  intros f f' sv w p i S Nw Np Le Hn Hwp Hd Hi. unfold sinv in *.
  assert (On : forall j, owns f (sv_work sv) j -> (j < fs_next f)%nat -> owns f' (sv_work sv) j /\ fs_data f' j = fs_data f j).
  { intros j [O1 O2] Lj. assert (Nj : j <> i).
    { intros ->. destruct Hi as [Hi|Hi]; [|lia]. apply O2 in Hi. congruence. }
    split; [|apply Hd; assumption]. split; [rewrite Hn by assumption; exact O1|].
    intros n Hx. destruct (list_eq_dec N.eq_dec n w) as [->|N1]; [|destruct (list_eq_dec N.eq_dec n p) as [->|N2]].
    - destruct (Hwp w j (or_introl eq_refl) Hx) as [->|X]; [contradiction|exact (O2 _ X)].
    - destruct (Hwp p j (or_intror eq_refl) Hx) as [->|X]; [contradiction|exact (O2 _ X)].
    - rewrite Hn in Hx by assumption. exact (O2 _ Hx). }
  destruct (sv_phase sv) as [|j off ts|j|ok|ok]; try exact Logic.I.
  - rewrite Hn by assumption. exact S.
  - destruct S as (S1 & S2 & S3). destruct (On j S1 S2) as [O E]. split; [exact O|]. split; [lia|]. rewrite E. exact S3.
  - destruct S as (S1 & S2 & S3). destruct (On j S1 S2) as [O E]. split; [exact O|]. split; [lia|]. rewrite E. exact S3.
Qed.

(** The general step: one saver changes, the rest of the world is as above. *)
Lemma winv_frame : forall f f' s1 sv s2 ph' i, winv f (s1 ++ sv :: s2) ->
  (fs_next f <= fs_next f')%nat ->
  (forall n, n <> sv_work sv -> n <> sv_path sv -> fs_names f' n = fs_names f n) ->
  (forall n j, n = sv_work sv \/ n = sv_path sv -> fs_names f' n = Some j -> j = i \/ fs_names f n = Some j) ->
  (forall j, j <> i -> (j < fs_next f)%nat -> fs_data f' j = fs_data f j) ->
  (owns f (sv_work sv) i \/ (fs_next f <= i)%nat) -> (i < fs_next f')%nat ->
  sinv f' (mkSaver (sv_path sv) (sv_work sv) ph') ->
  (* the path *)
  ((fs_names f' (sv_path sv) = fs_names f (sv_path sv) /\ succeeded ph' = succeeded (sv_phase sv)) \/
   (succeeded ph' = true /\ exists d, content f' (sv_path sv) = Some d /\ complete d)) ->
  winv f' (s1 ++ mkSaver (sv_path sv) (sv_work sv) ph' :: s2).
Proof.
  intros f f' s1 sv s2 ph' i [W1 W2 W3 W4 W5] Le Hn Hwp Hd Hi Li Hs Hp.
  set (sv' := mkSaver (sv_path sv) (sv_work sv) ph').
  assert (Ew : map sv_work (s1 ++ sv' :: s2) = map sv_work (s1 ++ sv :: s2)) by (rewrite !map_app; reflexivity).
  assert (Hsv : In sv (s1 ++ sv :: s2)) by (apply in_mid2; left; reflexivity).
  assert (Wo : forall x, In x (s1 ++ s2) -> sv_work x <> sv_work sv).
  { intros x Hx E. rewrite map_app in W3. cbn [map] in W3. apply NoDup_remove_2 in W3. apply W3. rewrite <- map_app, <- E. apply in_map. exact Hx. }
  constructor.
  - rewrite Forall_forall in W1. apply Forall_forall. intros x Hx. apply in_mid2 in Hx. destruct Hx as [->|Hx]; [exact Hs|].
    assert (Hx2 : In x (s1 ++ sv :: s2)) by (apply in_mid2; right; exact Hx).
    apply (sinv_other f f' x (sv_work sv) (sv_path sv) i); try assumption.
    + exact (W1 x Hx2).
    + exact (Wo x Hx).
    + exact (W4 x sv Hx2 Hsv).
    + destruct Hi as [Hi|Hi]; [left; apply Hi|right; exact Hi].
  - intros n j Hx. destruct (list_eq_dec N.eq_dec n (sv_work sv)) as [->|N1]; [|destruct (list_eq_dec N.eq_dec n (sv_path sv)) as [->|N2]].
    + destruct (Hwp _ j (or_introl eq_refl) Hx) as [->|X]; [exact Li|apply W2 in X; lia].
    + destruct (Hwp _ j (or_intror eq_refl) Hx) as [->|X]; [exact Li|apply W2 in X; lia].
    + rewrite Hn in Hx by assumption. apply W2 in Hx. lia.
  - rewrite Ew. exact W3.
  - intros a b Ha Hb. apply in_mid2 in Ha, Hb.
    assert (Q : forall x, x = sv' \/ In x (s1 ++ s2) -> exists y, In y (s1 ++ sv :: s2) /\ sv_work y = sv_work x /\ sv_path y = sv_path x).
    { intros x [->|Hx]; [exists sv; auto|exists x; split; [apply in_mid2; right; exact Hx|auto]]. }
    destruct (Q a Ha) as (a' & A1 & <- & _). destruct (Q b Hb) as (b' & B1 & _ & <-). exact (W4 a' b' A1 B1).
  - intros p Np. rewrite Ew in Np.
    assert (Npw : p <> sv_work sv) by (intros ->; apply Np; apply in_map; exact Hsv).
    (* names that keep their file keep their content *)
    assert (Keep : forall q, q <> sv_work sv -> fs_names f' q = fs_names f q -> content f' q = content f q).
    { intros q Nq E. unfold content. rewrite E. destruct (fs_names f q) as [j|] eqn:Ej; [|reflexivity]. f_equal. apply Hd; [|exact (W2 _ _ Ej)].
      intros ->. destruct Hi as [[_ Hi]|Hi]; [apply Hi in Ej; congruence|apply W2 in Ej; lia]. }
    destruct (list_eq_dec N.eq_dec p (sv_path sv)) as [->|Npp].
    + destruct Hp as [[E1 E2]|(E1 & d & E2 & E3)].
      * rewrite (Keep _ Npw E1). destruct (W5 _ Np) as [[A B]|(d & A & B & x & X1 & X2 & X3)].
        -- left. split; [exact A|]. intros x Hx Ex. apply in_mid2 in Hx. destruct Hx as [->|Hx].
           ++ cbn [sv' sv_phase]. rewrite E2. apply B; [exact Hsv|reflexivity].
           ++ apply B; [apply in_mid2; right; exact Hx|exact Ex].
        -- right. exists d. split; [exact A|]. split; [exact B|]. apply in_mid2 in X1. destruct X1 as [->|X1].
           ++ exists sv'. split; [apply in_mid2; left; reflexivity|]. split; [reflexivity|]. cbn [sv' sv_phase]. congruence.
           ++ exists x. split; [apply in_mid2; right; exact X1|auto].
      * right. exists d. split; [exact E2|]. split; [exact E3|]. exists sv'. split; [apply in_mid2; left; reflexivity|]. split; [reflexivity|exact E1].
    + rewrite (Keep p Npw (Hn p Npw Npp)). destruct (W5 _ Np) as [[A B]|(d & A & B & x & X1 & X2 & X3)].
      * left. split; [exact A|]. intros x Hx Ex. apply in_mid2 in Hx. destruct Hx as [->|Hx]; [cbn [sv' sv_path] in Ex; congruence|].
        apply B; [apply in_mid2; right; exact Hx|exact Ex].
      * right. exists d. split; [exact A|]. split; [exact B|]. apply in_mid2 in X1. destruct X1 as [->|X1]; [congruence|].
        exists x. split; [apply in_mid2; right; exact X1|auto].
Qed.

Lemma beq_ne : forall a b : bytes, a <> b -> beq a b = false.
Proof. exact beq_neq. Qed.

Lemma winv_step : forall f svs f' svs', winv f svs -> saves_step o compress takes nprocs fast (f, svs) (f', svs') -> winv f' svs'.
Proof.
  intros f svs f' svs' W H. inversion H as [g s1 sv s2 g' ph' Hs E1 E2]; subst.
  assert (Hsv : In sv (s1 ++ sv :: s2)) by (apply in_mid2; left; reflexivity).
  pose proof (proj1 (Forall_forall _ _) (wi_sv _ _ W) sv Hsv) as Is. unfold sinv in Is.
  pose proof (wi_names _ _ W) as Wn. pose proof (wi_paths _ _ W sv sv Hsv Hsv) as Wp.
  remember (sv_phase sv) as ph eqn:Eph. destruct Hs.
  - (* create *)
    apply (winv_frame f _ s1 sv s2 _ (fs_next f) W); cbn [fs_next fs_names fs_data set_name set_data].
    + lia.
    + intros n N1 _. rewrite beq_ne by congruence. reflexivity.
    + intros n j [->| ->] Hx; [rewrite beq_refl in Hx; injection Hx as <-; left; reflexivity|].
      rewrite beq_ne in Hx by congruence. right. exact Hx.
    + intros j Nj Lj. destruct (Nat.eqb_spec (fs_next f) j); [congruence|reflexivity].
    + right. lia.
    + lia.
    + unfold sinv. cbn [sv_phase sv_work fs_names fs_next fs_data]. split; [split|split].
      * cbn [fs_names]. rewrite beq_refl. reflexivity.
      * intros n Hx. cbn [fs_names] in Hx. destruct (beq (sv_work sv) n) eqn:B; [apply beq_eq in B; congruence|]. apply Wn in Hx. lia.
      * lia.
      * rewrite Nat.eqb_refl. apply rinv_start.
    + left. rewrite beq_ne by congruence. rewrite <- Eph. auto.
  - (* reopen *) congruence.
  - (* noopen *)
    assert (exists i, (fs_next f <= i)%nat) by (exists (fs_next f); lia).
    (* nothing changes in the file system *)
    destruct W as [W1 W2 W3 W4 W5]. set (sv' := mkSaver (sv_path sv) (sv_work sv) (PDone false)).
    constructor.
    + rewrite Forall_forall in *. intros x Hx. apply in_mid2 in Hx. destruct Hx as [->|Hx]; [exact Logic.I|]. apply W1. apply in_mid2. right. exact Hx.
    + exact W2.
    + rewrite map_app in *. exact W3.
    + intros a b Ha Hb. apply in_mid2 in Ha, Hb.
      assert (Q : forall x, x = sv' \/ In x (s1 ++ s2) -> exists y, In y (s1 ++ sv :: s2) /\ sv_work y = sv_work x /\ sv_path y = sv_path x).
      { intros x [->|Hx]; [exists sv; auto|exists x; split; [apply in_mid2; right; exact Hx|auto]]. }
      destruct (Q a Ha) as (a' & A1 & <- & _). destruct (Q b Hb) as (b' & B1 & _ & <-). exact (W4 a' b' A1 B1).
    + intros p Np. assert (Ew : map sv_work (s1 ++ sv' :: s2) = map sv_work (s1 ++ sv :: s2)) by (rewrite !map_app; reflexivity).
      rewrite Ew in Np. destruct (W5 _ Np) as [[A B]|(d & A & B & x & X1 & X2 & X3)].
      * left. split; [exact A|]. intros x Hx Ex. apply in_mid2 in Hx. destruct Hx as [->|Hx]; [reflexivity|]. apply B; [apply in_mid2; right; exact Hx|exact Ex].
      * right. exists d. split; [exact A|]. split; [exact B|]. apply in_mid2 in X1. destruct X1 as [->|X1]; [rewrite <- Eph in X3; discriminate|].
        exists x. split; [apply in_mid2; right; exact X1|auto].
  - (* thread *)
    destruct Is as (I1 & I2 & I3).
    apply (winv_frame f _ s1 sv s2 _ i W); cbn [fs_next fs_names fs_data set_data].
    + lia.
    + reflexivity.
    + intros n j _ Hx. right. exact Hx.
    + intros j Nj Lj. destruct (Nat.eqb_spec i j); [congruence|reflexivity].
    + left. exact I1.
    + exact I2.
    + unfold sinv. cbn [sv_phase sv_work fs_names fs_next fs_data]. split; [exact I1|]. split; [exact I2|].
      cbn [fs_data set_data]. rewrite Nat.eqb_refl. exact (rinv_step _ _ _ _ _ _ _ _ I3 H0).
    + left. rewrite <- Eph. auto.
  - (* joined *)
    destruct Is as (I1 & I2 & I3). apply (winv_frame f f s1 sv s2 _ i W); auto.
    + unfold sinv. cbn [sv_phase sv_work]. split; [exact I1|]. split; [exact I2|]. exact (rinv_end _ _ _ I3 H0).
    + left. rewrite <- Eph. auto.
  - (* failed *)
    destruct Is as (I1 & I2 & I3). apply (winv_frame f f s1 sv s2 _ i W); auto.
    + exact Logic.I.
    + left. rewrite <- Eph. auto.
  - (* rename *)
    destruct Is as (I1 & I2 & I3). apply (winv_frame f _ s1 sv s2 _ i W); cbn [fs_next fs_names fs_data set_name].
    + lia.
    + intros n N1 N2. rewrite !beq_ne by congruence. reflexivity.
    + intros n j [->| ->] Hx; [rewrite beq_refl in Hx; discriminate|].
      rewrite (beq_ne (sv_work sv)) in Hx by congruence. rewrite beq_refl in Hx. left. destruct I1 as [I1 _]. congruence.
    + reflexivity.
    + left. exact I1.
    + exact I2.
    + exact Logic.I.
    + right. split; [reflexivity|]. exists (fs_data f i). split; [|exact I3]. unfold content. cbn [fs_names fs_data set_name].
      rewrite (beq_ne (sv_work sv)) by congruence. rewrite beq_refl. destruct I1 as [-> _]. reflexivity.
  - (* norename *)
    destruct Is as (I1 & I2 & I3). apply (winv_frame f f s1 sv s2 _ i W); auto.
    + exact Logic.I.
    + left. rewrite <- Eph. auto.
  - (* unlink *)
    destruct W as [W1 W2 W3 W4 W5]. set (sv' := mkSaver (sv_path sv) (sv_work sv) (PDone ok)).
    assert (Wo : forall x, In x (s1 ++ s2) -> sv_work x <> sv_work sv).
    { intros x Hx E. rewrite map_app in W3. cbn [map] in W3. apply NoDup_remove_2 in W3. apply W3. rewrite <- map_app, <- E. apply in_map. exact Hx. }
    assert (Ew : map sv_work (s1 ++ sv' :: s2) = map sv_work (s1 ++ sv :: s2)) by (rewrite !map_app; reflexivity).
    constructor.
    + rewrite Forall_forall in *. intros x Hx. apply in_mid2 in Hx. destruct Hx as [->|Hx]; [exact Logic.I|].
      specialize (W1 x ltac:(apply in_mid2; right; exact Hx)). specialize (Wo x Hx). unfold sinv in *. cbn [fs_names fs_data fs_next set_name].
      assert (On : forall j, owns f (sv_work x) j -> owns (set_name f (sv_work sv) None) (sv_work x) j).
      { intros j [O1 O2]. split; cbn [fs_names set_name]; [rewrite beq_ne by congruence; exact O1|]. intros n Hn. destruct (beq (sv_work sv) n); [discriminate|exact (O2 n Hn)]. }
      destruct (sv_phase x); try exact Logic.I.
      * rewrite beq_ne by congruence. exact W1.
      * destruct W1 as (A & B & C). auto.
      * destruct W1 as (A & B & C). auto.
    + intros n j. cbn [fs_names set_name fs_next]. destruct (beq (sv_work sv) n); [discriminate|apply W2].
    + rewrite Ew. exact W3.
    + intros a b Ha Hb. apply in_mid2 in Ha, Hb.
      assert (Q : forall x, x = sv' \/ In x (s1 ++ s2) -> exists y, In y (s1 ++ sv :: s2) /\ sv_work y = sv_work x /\ sv_path y = sv_path x).
      { intros x [->|Hx]; [exists sv; auto|exists x; split; [apply in_mid2; right; exact Hx|auto]]. }
      destruct (Q a Ha) as (a' & A1 & <- & _). destruct (Q b Hb) as (b' & B1 & _ & <-). exact (W4 a' b' A1 B1).
    + intros p Np. rewrite Ew in Np.
      assert (Npw : p <> sv_work sv) by (intros ->; apply Np; apply in_map; exact Hsv).
      assert (Kp : content (set_name f (sv_work sv) None) p = content f p) by (unfold content; cbn [fs_names set_name fs_data]; rewrite beq_ne by congruence; reflexivity).
      rewrite Kp. destruct (W5 _ Np) as [[A B]|(d & A & B & x & X1 & X2 & X3)].
      * left. split; [exact A|]. intros x Hx Ex. apply in_mid2 in Hx. destruct Hx as [->|Hx].
        -- cbn [sv_path] in Ex. specialize (B sv Hsv Ex). rewrite <- Eph in B. exact B.
        -- apply B; [apply in_mid2; right; exact Hx|exact Ex].
      * right. exists d. split; [exact A|]. split; [exact B|]. apply in_mid2 in X1. destruct X1 as [->|X1].
        -- exists sv'. split; [apply in_mid2; left; reflexivity|]. split; [exact X2|]. rewrite <- Eph in X3. exact X3.
        -- exists x. split; [apply in_mid2; right; exact X1|auto].
  - (* nounlink *)
    destruct W as [W1 W2 W3 W4 W5]. set (sv' := mkSaver (sv_path sv) (sv_work sv) (PDone ok)).
    assert (Ew : map sv_work (s1 ++ sv' :: s2) = map sv_work (s1 ++ sv :: s2)) by (rewrite !map_app; reflexivity).
    constructor.
    + rewrite Forall_forall in *. intros x Hx. apply in_mid2 in Hx. destruct Hx as [->|Hx]; [exact Logic.I|]. apply W1. apply in_mid2. right. exact Hx.
    + exact W2.
    + rewrite Ew. exact W3.
    + intros a b Ha Hb. apply in_mid2 in Ha, Hb.
      assert (Q : forall x, x = sv' \/ In x (s1 ++ s2) -> exists y, In y (s1 ++ sv :: s2) /\ sv_work y = sv_work x /\ sv_path y = sv_path x).
      { intros x [->|Hx]; [exists sv; auto|exists x; split; [apply in_mid2; right; exact Hx|auto]]. }
      destruct (Q a Ha) as (a' & A1 & <- & _). destruct (Q b Hb) as (b' & B1 & _ & <-). exact (W4 a' b' A1 B1).
    + intros p Np. rewrite Ew in Np. destruct (W5 _ Np) as [[A B]|(d & A & B & x & X1 & X2 & X3)].
      * left. split; [exact A|]. intros x Hx Ex. apply in_mid2 in Hx. destruct Hx as [->|Hx].
        -- cbn [sv_path] in Ex. specialize (B sv Hsv Ex). rewrite <- Eph in B. exact B.
        -- apply B; [apply in_mid2; right; exact Hx|exact Ex].
      * right. exists d. split; [exact A|]. split; [exact B|]. apply in_mid2 in X1. destruct X1 as [->|X1].
        -- exists sv'. split; [apply in_mid2; left; reflexivity|]. split; [exact X2|]. rewrite <- Eph in X3. exact X3.
        -- exists x. split; [apply in_mid2; right; exact X1|auto].
Qed.
Lemma winv_steps : forall x y, saves_steps o compress takes nprocs fast x y -> winv (fst x) (snd x) -> winv (fst y) (snd y).
Proof.
  intros x y H. induction H as [|x [f1 s1] [f2 s2] H IH Hs]; intro W; [exact W|]. exact (winv_step _ _ _ _ (IH W) Hs).
Qed.
End P.
