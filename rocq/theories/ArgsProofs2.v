(** Facts for C55: lists of arguments. *)
From Verif Require Import Base Args ArgsSpec ArgsProofs.
From Coq Require Import Lia.
Local Open Scope N_scope.

Definition slot (m : mem) (b : buf) (x : arg) : Prop :=
  if g_copied x then filled m b (g_text x)
  else bu_cap b = 0 /\ bu_data b = POther (g_text x) /\ bu_len b = N.of_nat (length (g_text x)).
Definition idle (b : buf) : Prop := bu_cap b = 0.
Record linv (m : mem) (a : args) (x : list arg) (used rest : list buf) : Prop := {
  l_bufs : ar_bufs a = used ++ rest;
  l_len : ar_len a = length x;
  l_used : Forall2 (slot m) used x;
  l_rest : Forall idle rest;
  l_zero : ar_zero a = true -> Forall (fun y => g_copied y = false) x;
  l_nodup : NoDup (flat_map bids used)
}.
Lemma f2_length : forall (A B : Type) (R : A -> B -> Prop) l l', Forall2 R l l' -> length l = length l'.
Proof. intros A B R l l' H. induction H; cbn; congruence. Qed.
Lemma slot_ids : forall m b x i, wfm m -> slot m b x -> In i (bids b) -> (i < m_next m)%nat.
Proof.
  intros m b x i W H I. unfold slot in H. destruct (g_copied x); [exact (bids_live _ _ _ W H i I)|]. destruct H as [H _]. unfold bids in I. rewrite H in I. contradiction.
Qed.
Lemma slots_ids : forall m used x, wfm m -> Forall2 (slot m) used x -> forall i, In i (flat_map bids used) -> (i < m_next m)%nat.
Proof.
  intros m used x W H. induction H as [|b y used x Hb H IH]; intros i I; [contradiction|]. cbn [flat_map] in I. apply in_app_or in I.
  destruct I as [I|I]; [exact (slot_ids _ _ _ _ W Hb I)|exact (IH i I)].
Qed.
Lemma slot_keep : forall m m' b x, slot m b x -> (forall i, In i (bids b) -> m_block m' i = m_block m i) -> slot m' b x.
Proof. intros m m' b x H K. unfold slot in *. destruct (g_copied x); [exact (filled_keep _ _ _ _ H K)|exact H]. Qed.
Lemma slots_keep : forall m m' used x, Forall2 (slot m) used x -> (forall i, In i (flat_map bids used) -> m_block m' i = m_block m i) -> Forall2 (slot m') used x.
Proof.
  intros m m' used x H. induction H as [|b y used x Hb H IH]; intro K; constructor.
  - apply (slot_keep _ _ _ _ Hb). intros i I. apply K. cbn. apply in_or_app. left. exact I.
  - apply IH. intros i I. apply K. cbn. apply in_or_app. right. exact I.
Qed.
Lemma idle_ids : forall b, idle b -> bids b = [].
Proof. intros b H. unfold bids. rewrite H. reflexivity. Qed.
Lemma bids_nodup : forall b, NoDup (bids b).
Proof. intro b. unfold bids. destruct (_ =? 0); [constructor|]. destruct (bu_data b); constructor; [intros []|constructor]. Qed.
Lemma nodup_app : forall (A : Type) (l r : list A), NoDup l -> NoDup r -> (forall x, In x l -> ~ In x r) -> NoDup (l ++ r).
Proof.
  intros A l r H K D. induction l as [|y l IH]; [exact K|]. cbn. inversion H as [|? ? N1 N2]; subst. constructor.
  - intro X. apply in_app_or in X. destruct X as [X|X]; [exact (N1 X)|exact (D y (or_introl eq_refl) X)].
  - apply IH; [exact N2|]. intros x X. apply D. right. exact X.
Qed.
Lemma nodup_parts : forall (A : Type) (l r : list A), NoDup (l ++ r) -> NoDup l /\ NoDup r /\ (forall x, In x l -> ~ In x r).
Proof.
  intros A l r H. induction l as [|y l IH]; [split; [constructor|split; [exact H|intros x []]]|]. cbn in H. inversion H as [|? ? N1 N2]; subst.
  destruct (IH N2) as (P & Q & D). split; [|split; [exact Q|]].
  - constructor; [|exact P]. intro X. apply N1, in_or_app. left. exact X.
  - intros x [<-|X]; [|exact (D x X)]. intro Y. apply N1, in_or_app. right. exact Y.
Qed.
Lemma put_mid : forall (l : list buf) b c r, put (length l) b (l ++ c :: r) = l ++ b :: r.
Proof. induction l as [|y l IH]; intros b c r; [reflexivity|]. cbn. rewrite IH. reflexivity. Qed.
Lemma nth_mid : forall (l : list buf) c r d, nth (length l) (l ++ c :: r) d = c.
Proof. intros l c r d. rewrite app_nth2 by lia. rewrite Nat.sub_diag. reflexivity. Qed.
(** A slot is there after growing. *)
Lemma grow_slot : forall m a x used rest, linv m a x used rest ->
  exists b rest', linv m (args_grow a) x used (b :: rest') /\ ar_len (args_grow a) = length used /\ ar_zero (args_grow a) = ar_zero a.
Proof.
  intros m a x used rest [B L U R Z N]. assert (E := f2_length _ _ _ _ _ U). unfold args_grow. destruct (Nat.eqb_spec (ar_len a) (length (ar_bufs a))) as [X|X].
  - rewrite B, app_length in X. assert (rest = []) by (destruct rest; [reflexivity|cbn in X; lia]). subst rest. rewrite app_nil_r in B. rewrite B.
    set (cap := match length used with O => 4%nat | c => (c * 2)%nat end).
    assert (C : (ar_len a < cap)%nat). { unfold cap. destruct (length used) eqn:Q; [lia|]. lia. }
    destruct (cap - ar_len a)%nat as [|d] eqn:D; [lia|]. exists buf_zero, (repeat buf_zero d). split; [|cbn; split; [lia|reflexivity]].
    constructor; cbn [ar_bufs ar_len ar_zero]; try assumption; [reflexivity|].
    change (buf_zero :: repeat buf_zero d) with (repeat buf_zero (S d)). apply Forall_forall. intros y Y. apply repeat_spec in Y. subst y. reflexivity.
  - destruct rest as [|b rest]; [rewrite B, app_nil_r in X; lia|]. exists b, rest. split; [constructor; assumption|]. split; [lia|reflexivity].
Qed.
Lemma forall2_snoc : forall (A B : Type) (R : A -> B -> Prop) l l' y y', Forall2 R l l' -> R y y' -> Forall2 R (l ++ [y]) (l' ++ [y']).
Proof. intros A B R l l' y y' H K. apply Forall2_app; [exact H|constructor; [exact K|constructor]]. Qed.
Definition lop (m : mem) (x : list arg) (used : list buf) (r : res (args * mem)) (x' : list arg) : Prop :=
  exists a' m' used' rest', r = Fine (a', m') /\ linv m' a' x' used' rest' /\ wfm m' /\ change m (flat_map bids used) m' (flat_map bids used').
Lemma borrow_lop : forall m a x used rest s, wfm m -> linv m a x used rest -> lop m x used (args_borrow a s m) (x ++ [mkArg false s]).
Proof.
  intros m a x used rest s W I. destruct (grow_slot _ _ _ _ _ I) as (b & rest' & [B L U R Z N] & Le & Ze). unfold args_borrow.
  rewrite Le, B, nth_mid. inversion R as [|? ? Ib Ir]; subst.
  assert (E := f2_length _ _ _ _ _ U). unfold buf_clear. rewrite Ib, N.eqb_refl. cbn [rbind]. rewrite put_mid. eexists. exists m, (used ++ [mkBuf (POther s) (N.of_nat (length s)) 0]), rest'. split; [reflexivity|].
  split; [|split; [exact W|]].
  - constructor; cbn [ar_bufs ar_len ar_zero].
    + rewrite <- app_assoc. reflexivity.
    + rewrite app_length. cbn. lia.
    + apply forall2_snoc; [exact U|]. cbn. auto.
    + exact Ir.
    + intro H. apply Forall_app. split; [|constructor; [reflexivity|constructor]]. destruct (length used =? 0)%nat eqn:Q; [|exact (Z H)].
      apply Nat.eqb_eq in Q. destruct x; [constructor|cbn in E; lia].
    + rewrite flat_map_app. cbn. rewrite app_nil_r. exact N.
  - rewrite flat_map_app. cbn. rewrite app_nil_r. apply change_refl.
Qed.
(** An own buffer is added at the end. *)
Lemma append_lop : forall m a x used rest s, wfm m -> linv m a x used rest -> N.of_nat (length s) < 2 ^ 62 -> lop m x used (args_append a s m) (x ++ [mkArg true s]).
Proof.
  intros m a x used rest s W I Hs. destruct (grow_slot _ _ _ _ _ I) as (b & rest' & [B L U R Z N] & Le & Ze). unfold args_append.
  rewrite Le, B, nth_mid. inversion R as [|? ? Ib Ir]; subst. assert (E := f2_length _ _ _ _ _ U).
  destruct (append_ok m (mkBuf (bu_data b) 0 (bu_cap b)) [] s W) as (b' & m' & E1 & F1 & W1 & C1); [left; cbn; split; [exact Ib|auto]|cbn; lia|].
  rewrite E1. cbn [rbind]. rewrite put_mid. assert (D : bids (mkBuf (bu_data b) 0 (bu_cap b)) = []) by (apply idle_ids; exact Ib). rewrite D in C1.
  eexists. exists m', (used ++ [b']), rest'. split; [reflexivity|].
  assert (Old := slots_ids _ _ _ W U).
  assert (New : forall i, In i (bids b') -> ~ In i (flat_map bids used)).
  { intros i X Y. destruct (c_new _ _ _ _ C1 i X) as [[]|V]. apply Old in Y. lia. }
  split; [|split; [exact W1|]].
  - constructor; cbn [ar_bufs ar_len ar_zero].
    + rewrite <- app_assoc. reflexivity.
    + rewrite app_length. cbn. lia.
    + apply forall2_snoc; [|exact F1]. apply (slots_keep _ _ _ _ U). intros i X. apply (c_keep _ _ _ _ C1); [exact (Old i X)|intros []].
    + exact Ir.
    + discriminate.
    + rewrite flat_map_app. cbn. rewrite app_nil_r. apply nodup_app; [exact N|apply bids_nodup|]. intros i X Y. exact (New i Y X).
  - rewrite flat_map_app. cbn. rewrite app_nil_r. apply (change_perm _ _ _ _ (flat_map bids used) (flat_map bids used ++ bids b') (change_frame _ _ _ _ (flat_map bids used) C1 (fun i X => conj (fun Y => Y) (Old i X)))).
    + intro i. cbn. tauto.
    + intro i. rewrite !in_app_iff. tauto.
Qed.
Lemma f2_snoc_inv : forall (A B : Type) (R : A -> B -> Prop) l l' y', Forall2 R l (l' ++ [y']) -> exists k y, l = k ++ [y] /\ Forall2 R k l' /\ R y y'.
Proof.
  intros A B R l l' y' H. apply Forall2_app_inv_r in H. destruct H as (k & e & H1 & H2 & ->). inversion H2 as [|y ? e' ? Hy He]; subst. inversion He; subst.
  exists k, y. auto.
Qed.
Lemma join_lop : forall m a x t used rest s, wfm m -> linv m a (x ++ [mkArg true t]) used rest -> N.of_nat (length t + length s) < 2 ^ 62 ->
  lop m (x ++ [mkArg true t]) used (args_join a s m) (x ++ [mkArg true (t ++ s)]).
Proof.
  intros m a x t used rest s W [B L U R Z N] Hs. destruct (f2_snoc_inv _ _ _ _ _ _ U) as (k & b & Eu & Uk & Sb). rewrite Eu in *. clear Eu.
  unfold args_join. rewrite app_length in L. cbn in L. replace (length x + 1)%nat with (S (length x)) in L by lia. rewrite L.
  assert (E := f2_length _ _ _ _ _ Uk). rewrite B, <- app_assoc. cbn [app]. rewrite <- E, nth_mid. cbn [slot g_copied] in Sb.
  change (filled m b t) in Sb.
  destruct (append_ok m b t s W Sb Hs) as (b' & m' & E1 & F1 & W1 & C1). rewrite E1. cbn [rbind]. rewrite put_mid.
  rewrite flat_map_app in N. cbn in N. rewrite app_nil_r in N. destruct (nodup_parts _ _ _ N) as (N1 & N2 & D).
  assert (Old := slots_ids _ _ _ W Uk).
  assert (New : forall i, In i (bids b') -> ~ In i (flat_map bids k)).
  { intros i X Y. destruct (c_new _ _ _ _ C1 i X) as [V|V]; [exact (D i Y V)|]. apply Old in Y. lia. }
  eexists. exists m', (k ++ [b']), rest. split; [reflexivity|]. split; [|split; [exact W1|]].
  - constructor; cbn [ar_bufs ar_len ar_zero].
    + rewrite <- app_assoc. reflexivity.
    + rewrite app_length. cbn. lia.
    + apply forall2_snoc; [|exact F1]. apply (slots_keep _ _ _ _ Uk). intros i X. apply (c_keep _ _ _ _ C1); [exact (Old i X)|exact (D i X)].
    + exact R.
    + intro H. specialize (Z H). apply Forall_app in Z. destruct Z as [_ Z]. inversion Z as [|? ? Z1 Z2]. discriminate Z1.
    + rewrite flat_map_app. cbn. rewrite app_nil_r. apply nodup_app; [exact N1|apply bids_nodup|]. intros i X Y. exact (New i Y X).
  - rewrite !flat_map_app. cbn. rewrite !app_nil_r.
    apply (change_perm _ _ _ _ (flat_map bids k ++ bids b) (flat_map bids k ++ bids b') (change_frame _ _ _ _ (flat_map bids k) C1 (fun i X => conj (D i X) (Old i X)))).
    + intro i. rewrite !in_app_iff. tauto.
    + intro i. rewrite !in_app_iff. tauto.
Qed.
Lemma slot_clear : forall m b x, slot m b x -> idle b \/ exists t, filled m b t.
Proof. intros m b x H. unfold slot in H. destruct (g_copied x); [right; exists (g_text x); exact H|left; apply H]. Qed.
Lemma clear_slots_ok : forall used m x rest, wfm m -> Forall2 (slot m) used x -> NoDup (flat_map bids used) ->
  exists m', clear_slots (length x) (used ++ rest) m = Fine (repeat buf_zero (length x) ++ rest, m') /\ wfm m' /\ change m (flat_map bids used) m' [].
Proof.
  induction used as [|b used IH]; intros m x rest W U N.
  - inversion U; subst. exists m. cbn. destruct rest; (split; [reflexivity|split; [exact W|apply change_refl]]).
  - inversion U as [|? y ? x' Sb U']; subst. cbn [length app clear_slots repeat]. cbn [flat_map] in N. destruct (nodup_parts _ _ _ N) as (N1 & N2 & D).
    destruct (clear_ok m b W (slot_clear _ _ _ Sb)) as (m1 & E1 & W1 & C1). rewrite E1. cbn [rbind].
    assert (Old := slots_ids _ _ _ W U'). assert (Ob : forall i, In i (bids b) -> (i < m_next m)%nat) by (intros i; exact (slot_ids _ _ _ i W Sb)).
    destruct (IH m1 x' rest W1) as (m2 & E2 & W2 & C2).
    + apply (slots_keep _ _ _ _ U'). intros i X. apply (c_keep _ _ _ _ C1); [exact (Old i X)|]. intro Y. exact (D i Y X).
    + exact N2.
    + rewrite E2. cbn [rbind]. exists m2. split; [reflexivity|]. split; [exact W2|]. cbn [flat_map].
      refine (change_trans _ _ _ (flat_map bids used) _ _ _ _ C2).
      * intros i X. apply in_app_or in X. destruct X as [X|X]; [exact (Ob i X)|exact (Old i X)].
      * apply (change_frame _ _ _ _ (flat_map bids used) C1). intros i X. split; [intro Y; exact (D i Y X)|exact (Old i X)].
Qed.
Lemma zero_idle : forall m used x, Forall2 (slot m) used x -> Forall (fun y => g_copied y = false) x -> Forall idle used.
Proof.
  intros m used x U. induction U as [|b y used x Sb U IH]; intro Z; [constructor|]. inversion Z; subst. constructor; [|auto]. unfold slot in Sb.
  match goal with H : g_copied y = false |- _ => rewrite H in Sb end. apply Sb.
Qed.
Lemma idle_no_ids : forall l, Forall idle l -> flat_map bids l = [].
Proof. intros l H. induction H as [|b l Hb H IH]; [reflexivity|]. cbn. rewrite (idle_ids b Hb), IH. reflexivity. Qed.
Lemma repeat_idle : forall n, Forall idle (repeat buf_zero n).
Proof. induction n; constructor; [reflexivity|assumption]. Qed.
Lemma clear_lop : forall m a x used rest, wfm m -> linv m a x used rest -> lop m x used (args_clear a m) [].
Proof.
  intros m a x used rest W [B L U R Z N]. unfold args_clear. destruct (ar_zero a) eqn:Q.
  - assert (I := zero_idle _ _ _ U (Z eq_refl)). eexists. exists m, [], (used ++ rest). split; [reflexivity|]. split; [|split; [exact W|]].
    + constructor; cbn; [exact B|reflexivity|constructor|apply Forall_app; split; assumption|constructor|constructor].
    + rewrite (idle_no_ids _ I). apply change_refl.
  - rewrite L, B. destruct (clear_slots_ok used m x rest W U N) as (m' & E & W' & C). rewrite E. cbn [rbind].
    eexists. exists m', [], (repeat buf_zero (length x) ++ rest). split; [reflexivity|]. split; [|split; [exact W'|exact C]].
    constructor; cbn; [reflexivity|reflexivity|constructor|apply Forall_app; split; [apply repeat_idle|assumption]|discriminate|constructor].
Qed.
Lemma free_lop : forall m a x used rest, wfm m -> linv m a x used rest -> lop m x used (args_free a m) [].
Proof.
  intros m a x used rest W I. destruct (clear_lop _ _ _ _ _ W I) as (a' & m' & u' & r' & E & [B L U R Z N] & W' & C). unfold args_free. rewrite E. cbn [rbind].
  inversion U; subst. exists args_new, m', [], []. split; [reflexivity|]. split; [|split; [exact W'|exact C]].
  constructor; cbn; constructor.
Qed.
Lemma skipn_app_exact : forall (A : Type) (l r : list A), skipn (length l) (l ++ r) = r.
Proof. intros A l r. rewrite skipn_app, skipn_all, Nat.sub_diag. reflexivity. Qed.
Lemma firstn_app_exact : forall (A : Type) (l r : list A), firstn (length l) (l ++ r) = l.
Proof. intros A l r. rewrite firstn_app, firstn_all, Nat.sub_diag. cbn. apply app_nil_r. Qed.
Lemma remove_lop : forall m a y x used rest, wfm m -> linv m a (y :: x) used rest -> (forall r z, x = r ++ [z] -> g_copied z = false) ->
  lop m (y :: x) used (args_remove_first a m) x.
Proof.
  intros m a y x used rest W [B L U R Z N] H. inversion U as [|b ? used' ? Sb U']; subst. unfold args_remove_first. rewrite L, B. cbn [length app].
  cbn [flat_map] in N. destruct (nodup_parts _ _ _ N) as (N1 & N2 & D).
  destruct (clear_ok m b W (slot_clear _ _ _ Sb)) as (m1 & E1 & W1 & C1). rewrite E1. cbn [rbind].
  assert (Old := slots_ids _ _ _ W U'). assert (E := f2_length _ _ _ _ _ U').
  assert (U1 : Forall2 (slot m1) used' x).
  { apply (slots_keep _ _ _ _ U'). intros i X. apply (c_keep _ _ _ _ C1); [exact (Old i X)|]. intro Y. exact (D i Y X). }
  assert (Cf : change m (bids b ++ flat_map bids used') m1 (flat_map bids used')).
  { apply (change_frame _ _ _ _ (flat_map bids used') C1). intros i X. split; [intro Y; exact (D i Y X)|exact (Old i X)]. }
  assert (Z' : ar_zero a = true -> Forall (fun y => g_copied y = false) x). { intro Q. specialize (Z Q). inversion Z; assumption. }
  destruct x as [|z x'] eqn:Ex.
  - inversion U'; subst. eexists. exists m1, [], (buf_zero :: rest). split; [reflexivity|]. split; [|split; [exact W1|exact Cf]].
    constructor; cbn; [reflexivity|reflexivity|constructor|constructor; [reflexivity|exact R]|exact Z'|constructor].
  - cbn [length]. rewrite <- Ex in *. destruct (exists_last (l := x)) as (r & w & Er); [rewrite Ex; discriminate|].
    assert (Lr : length x' = length r). { assert (Q : length (z :: x') = length (r ++ [w])) by congruence. rewrite app_length in Q. cbn in Q. lia. }
    rewrite Er in U1. destruct (f2_snoc_inv _ _ _ _ _ _ U1) as (k & c & Ek & Uk & Sc). rewrite <- Er in U1.
    assert (Lk := f2_length _ _ _ _ _ Uk). rewrite Ek. rewrite <- app_assoc. cbn [app].
    replace (S (length x')) with (length (k ++ [c])) by (rewrite app_length; cbn; lia).
    replace (k ++ c :: rest) with ((k ++ [c]) ++ rest) at 1 by (rewrite <- app_assoc; reflexivity). rewrite firstn_app_exact.
    replace (length x') with (length k) by lia. rewrite skipn_app_exact. rewrite Ek in *.
    assert (Ic : idle c). { unfold slot in Sc. rewrite (H r w Er) in Sc. apply Sc. }
    eexists. exists m1, (k ++ [c]), (c :: rest). split; [reflexivity|]. split; [|split; [exact W1|exact Cf]].
    constructor; cbn [ar_bufs ar_len ar_zero]; [reflexivity|rewrite <- E; reflexivity|exact U1|constructor; [exact Ic|exact R]|exact Z'|exact N2].
Qed.

(** *** All lists together *)
Record ginv (m : mem) (w : world) (l : lists) (used rest : nat -> list buf) : Prop := {
  g_wf : wfm m;
  g_list : forall k, linv m (w k) (l k) (used k) (rest k);
  g_apart : forall j k i, In i (flat_map bids (used j)) -> In i (flat_map bids (used k)) -> j = k;
  g_live : forall i, m_block m i <> None -> exists k, In i (flat_map bids (used k))
}.
Definition at_k (k : nat) (u : list buf) (f : nat -> list buf) : nat -> list buf := fun j => if (j =? k)%nat then u else f j.
Lemma on_ok : forall m w l used rest k f x, ginv m w l used rest -> lop m (l k) (used k) (f (w k) m) x ->
  exists w' m' used' rest', on k f w m = Fine (w', m') /\ ginv m' w' (change_list k x l) used' rest'.
Proof.
  intros m w l used rest k f x [W G A Lv] (a' & m' & u' & r' & E & I & W' & C). unfold on. rewrite E. cbn [rbind].
  exists (change_args k a' w), m', (at_k k u' used), (at_k k r' rest). split; [reflexivity|]. 
  assert (Old : forall j i, In i (flat_map bids (used j)) -> (i < m_next m)%nat). { intros j i. exact (slots_ids _ _ _ W (l_used _ _ _ _ _ (G j)) i). }
  constructor; [exact W'| | |].
  - intro j. unfold change_args, change_list, at_k. destruct (Nat.eqb_spec j k) as [X|X]; [exact I|]. destruct (G j) as [B L U R Z N]. constructor; try assumption.
    apply (slots_keep _ _ _ _ U). intros i Y. apply (c_keep _ _ _ _ C); [exact (Old j i Y)|]. intro Q. exact (X (A j k i Y Q)).
  - unfold at_k. intros j1 j2 i X Y. destruct (Nat.eqb_spec j1 k) as [J1|J1], (Nat.eqb_spec j2 k) as [J2|J2]; [congruence| | |exact (A j1 j2 i X Y)].
    + destruct (c_new _ _ _ _ C i X) as [Q|Q]; [rewrite J1; exact (A k j2 i Q Y)|]. apply Old in Y. lia.
    + destruct (c_new _ _ _ _ C i Y) as [Q|Q]; [rewrite J2; exact (A j1 k i X Q)|]. apply Old in X. lia.
  - intros i X. unfold at_k. destruct (c_live _ _ _ _ C i X) as [Y|[Y Z]].
    + exists k. rewrite Nat.eqb_refl. exact Y.
    + destruct (Lv i Y) as (j & J). exists j. destruct (Nat.eqb_spec j k) as [Q|Q]; [rewrite Q in J; contradiction|exact J].
Qed.
Lemma linv_new : forall m, linv m args_new [] [] [].
Proof. intro m. constructor; cbn; constructor. Qed.
Lemma perform_ok : forall l o l', does l o l' -> forall m w used rest, ginv m w l used rest ->
  exists w' m' used' rest', perform o w m = Fine (w', m') /\ ginv m' w' l' used' rest'.
Proof.
  intros l o l' H m w used rest I. assert (W := g_wf _ _ _ _ _ I). destruct H as [l k s Hs|l k s Hs|l k s x t E Hs|l k|l k|l j k|l j k Nj E|l k x r E Hr]; cbn [perform].
  - eapply on_ok; [exact I|]. apply (borrow_lop _ _ _ _ _ _ W (g_list _ _ _ _ _ I k)).
  - eapply on_ok; [exact I|]. apply (append_lop _ _ _ _ _ _ W (g_list _ _ _ _ _ I k) Hs).
  - eapply on_ok; [exact I|]. assert (K := g_list _ _ _ _ _ I k). rewrite E in K |- *. exact (join_lop _ _ _ _ _ _ _ W K Hs).
  - eapply on_ok; [exact I|]. apply (clear_lop _ _ _ _ _ W (g_list _ _ _ _ _ I k)).
  - eapply on_ok; [exact I|]. apply (free_lop _ _ _ _ _ W (g_list _ _ _ _ _ I k)).
  - exists (change_args j (w k) (change_args k (w j) w)), m, (at_k j (used k) (at_k k (used j) used)), (at_k j (rest k) (at_k k (rest j) rest)).
    split; [reflexivity|]. destruct I as [_ G A Lv]. constructor; [exact W| | |].
    + intro i. unfold change_args, change_list, at_k. destruct (Nat.eqb_spec i j); [apply G|]. destruct (Nat.eqb_spec i k); [apply G|apply G].
    + unfold at_k. intros i1 i2 i X Y. destruct (Nat.eqb_spec i1 j), (Nat.eqb_spec i1 k), (Nat.eqb_spec i2 j), (Nat.eqb_spec i2 k); assert (Q := A _ _ _ X Y); congruence.
    + intros i X. destruct (Lv i X) as (q & Q). unfold at_k. destruct (Nat.eq_dec q k) as [->|Qk].
      * exists j. rewrite Nat.eqb_refl. exact Q.
      * destruct (Nat.eq_dec q j) as [->|Qj].
        -- exists k. destruct (Nat.eqb_spec k j); [congruence|]. rewrite Nat.eqb_refl. exact Q.
        -- exists q. destruct (Nat.eqb_spec q j); [congruence|]. destruct (Nat.eqb_spec q k); [congruence|exact Q].
  - exists (change_args k (w j) (change_args j args_new w)), m, (at_k k (used j) (at_k j [] used)), (at_k k (rest j) (at_k j [] rest)).
    split; [reflexivity|]. destruct I as [_ G A Lv]. constructor; [exact W| | |].
    + intro i. unfold change_args, change_list, at_k. destruct (Nat.eqb_spec i k); [apply G|]. destruct (Nat.eqb_spec i j); [apply linv_new|apply G].
    + unfold at_k. intros i1 i2 i X Y. destruct (Nat.eqb_spec i1 k), (Nat.eqb_spec i1 j), (Nat.eqb_spec i2 k), (Nat.eqb_spec i2 j); try contradiction; assert (Q := A _ _ _ X Y); congruence.
    + intros i X. destruct (Lv i X) as (q & Q). unfold at_k. destruct (Nat.eq_dec q j) as [->|Qj].
      * exists k. rewrite Nat.eqb_refl. exact Q.
      * destruct (Nat.eq_dec q k) as [->|Qk].
        -- assert (U := l_used _ _ _ _ _ (G k)). rewrite E in U. inversion U as [Q0|]. rewrite <- Q0 in Q. contradiction.
        -- exists q. destruct (Nat.eqb_spec q k); [congruence|]. destruct (Nat.eqb_spec q j); [congruence|exact Q].
  - eapply on_ok; [exact I|]. assert (K := g_list _ _ _ _ _ I k). rewrite E in K |- *. exact (remove_lop _ _ _ _ _ _ W K Hr).
Qed.
Lemma ginv_new : ginv mem_new world_new (fun _ => []) (fun _ => []) (fun _ => []).
Proof.
  constructor.
  - intros i H. exfalso. apply H. reflexivity.
  - intro k. apply linv_new.
  - intros j k i [].
  - intros i H. exfalso. apply H. reflexivity.
Qed.
Lemma all_ok : forall l os l', does_all l os l' -> forall m w used rest, ginv m w l used rest ->
  exists w' m' used' rest', perform_all os w m = Fine (w', m') /\ ginv m' w' l' used' rest'.
Proof.
  intros l os l' H. induction H as [l|l o l1 os l2 D H IH]; intros m w used rest I.
  - exists w, m, used, rest. split; [reflexivity|exact I].
  - destruct (perform_ok _ _ _ D _ _ _ _ I) as (w1 & m1 & u1 & r1 & E & I1). cbn [perform_all]. rewrite E. cbn [rbind]. exact (IH _ _ _ _ I1).
Qed.
(** What the lists hold. *)
Lemma slot_text : forall m b x, slot m b x -> buf_text b m = Fine (g_text x).
Proof.
  intros m b x H. unfold slot in H. destruct (g_copied x).
  - destruct (N.eqb_spec (bu_cap b) 0) as [Q|Q]; [|exact (filled_text _ _ _ H Q)].
    destruct H as [(A & B & C)|(i & blk & A & B & C & D & _)]; [|lia]. unfold buf_text, mread. rewrite B, C. reflexivity.
  - destruct H as (A & B & C). unfold buf_text, mread. rewrite B, C. destruct (N.eqb_spec (N.of_nat (length (g_text x))) 0) as [Z|Z].
    { destruct (g_text x); [reflexivity|cbn in Z; lia]. }
    destruct (N.leb_spec (N.of_nat (length (g_text x))) (N.of_nat (length (g_text x)))); [|lia].
    rewrite Nat2N.id, firstn_all. reflexivity.
Qed.
Lemma list_texts : forall m a x used rest, linv m a x used rest -> args_texts a m = Fine (map g_text x).
Proof.
  intros m a x used rest [B L U R Z N]. unfold args_texts. rewrite B, L, <- (f2_length _ _ _ _ _ U), firstn_app_exact. clear B L Z N.
  induction U as [|b y used x Sb U IH]; [reflexivity|]. cbn [texts]. rewrite (slot_text _ _ _ Sb). cbn [rbind]. rewrite IH. reflexivity.
Qed.
Lemma ids_belong : forall m w l used rest i k, ginv m w l used rest -> In i (flat_map bids (used k)) -> belongs w i.
Proof.
  intros m w l used rest i k I H. destruct (g_list _ _ _ _ _ I k) as [B L U R Z N]. apply in_flat_map in H. destruct H as (b & Hb & Hi).
  destruct (In_nth (used k) b buf_zero Hb) as (j & Lj & Ej). exists k, j. rewrite L, <- (f2_length _ _ _ _ _ U), B, app_nth1, Ej by exact Lj.
  unfold bids in Hi. destruct (N.eqb_spec (bu_cap b) 0) as [Q|Q]; [contradiction|]. destruct (bu_data b); try contradiction. destruct Hi as [->|[]].
  split; [exact Lj|]. split; [reflexivity|exact Q].
Qed.
