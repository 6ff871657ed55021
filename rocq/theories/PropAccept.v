(** C58: the limit on connections, and which connections are served with TLS. *)
From Verif Require Import Base Accept.
From Coq Require Import Lia Permutation.
Local Open Scope N_scope.
Notation length := List.length.

Lemma nodup_app_iff : forall (X : Type) (l k : list X), NoDup (l ++ k) <-> NoDup l /\ NoDup k /\ (forall x, In x l -> In x k -> False).
Proof.
  induction l as [|x l IH]; intros k; cbn.
  - split; [intro H; split; [constructor|split; [exact H|intros y []]]|intros (_ & H & _); exact H].
  - split.
    + intro H. inversion H as [|? ? N1 N2]; subst. apply IH in N2. destruct N2 as (A & B & C). split; [constructor; [intro Q; apply N1; apply in_app_iff; auto|exact A]|].
      split; [exact B|]. intros y [Y|Y] K; [subst y; apply N1; apply in_app_iff; auto|exact (C y Y K)].
    + intros (A & B & C). inversion A as [|? ? N1 N2]; subst. constructor; [|apply IH; split; [exact N2|split; [exact B|intros y Y; apply C; right; exact Y]]].
      intro Q. apply in_app_iff in Q. destruct Q as [Q|Q]; [exact (N1 Q)|exact (C x (or_introl eq_refl) Q)].
Qed.
Lemma pick_in : forall (X : Type) fd (l : list (N * X)) x, pick fd l = Some x -> In (fd, x) l.
Proof. intros X fd l x H. unfold pick in H. destruct (find _ l) as [[a b]|] eqn:F; [|discriminate]. injection H as <-. apply find_some in F. destruct F as [F1 F2]. apply N.eqb_eq in F2. cbn in F2. subst a. exact F1. Qed.
Lemma without_perm : forall (X : Type) fd (l : list (N * X)) x, NoDup (map fst l) -> In (fd, x) l -> Permutation l ((fd, x) :: without fd l).
Proof.
  intros X fd. induction l as [|[a b] l IH]; intros x N H; [destruct H|]. cbn in N. inversion N as [|? ? N1 N2]; subst. cbn. destruct (N.eqb_spec a fd) as [E|E]; cbn.
  - subst a. destruct H as [H|H]; [|destruct (N1 (in_map fst _ _ H))]. injection H as <-. apply perm_skip.
    assert (Q : without fd l = l); [|unfold without in Q; rewrite Q; reflexivity]. unfold without. clear - N1. induction l as [|[a c] l IH]; [reflexivity|]. cbn in *.
    destruct (N.eqb_spec a fd); [tauto|]. cbn. rewrite IH; tauto.
  - destruct H as [H|H]; [congruence|]. rewrite (IH x N2 H) at 1. apply perm_swap.
Qed.
Lemma filter_perm : forall fd (l : list N), NoDup l -> In fd l -> Permutation l (fd :: filter (fun x => negb (x =? fd)) l).
Proof.
  intros fd. induction l as [|a l IH]; intros N H; [destruct H|]. inversion N as [|? ? N1 N2]; subst. cbn. destruct (N.eqb_spec a fd) as [E|E]; cbn.
  - subst a. apply perm_skip. assert (Q : filter (fun x => negb (x =? fd)) l = l); [|rewrite Q; reflexivity]. clear - N1. induction l as [|a l IH]; [reflexivity|]. cbn in *.
    destruct (N.eqb_spec a fd); [tauto|]. cbn. rewrite IH; tauto.
  - destruct H as [H|H]; [congruence|]. rewrite (IH N2 H) at 1. apply perm_swap.
Qed.
(** Marks. *)
Lemma overwrite_perm : forall fd z (l l2 : list N), overwrite fd z l = Some l2 -> Permutation (z :: l) (fd :: l2).
Proof.
  intros fd z. induction l as [|x l IH]; intros l2 H; [discriminate|]. cbn in H. destruct (N.eqb_spec x fd) as [E|E].
  - injection H as <-. subst x. apply perm_swap.
  - destruct (overwrite fd z l) as [l3|]; [|discriminate]. injection H as <-. rewrite perm_swap, (IH l3 eq_refl). apply perm_swap.
Qed.
Lemma overwrite_none : forall fd z l, overwrite fd z l = None -> ~ In fd l.
Proof. intros fd z. induction l as [|x l IH]; intros H Q; [exact Q|]. cbn in H. destruct (N.eqb_spec x fd); [discriminate|]. destruct (overwrite fd z l); [discriminate|]. destruct Q; [congruence|exact (IH eq_refl H0)]. Qed.
Lemma overwrite_last : forall fd z l l2, overwrite fd z l = Some l2 -> last l 0 = z -> last l2 0 = z.
Proof.
  intros fd z. induction l as [|x l IH]; intros l2 H L; [discriminate|]. cbn [overwrite] in H. destruct (N.eqb_spec x fd) as [E|E].
  - injection H as <-. destruct l as [|y l]; [reflexivity|exact L].
  - destruct (overwrite fd z l) as [l3|] eqn:O; [|discriminate]. injection H as <-. destruct l as [|y l]; [discriminate|]. change (last (y :: l) 0 = z) in L.
    assert (Q := IH l3 eq_refl L). destruct l3 as [|w l3]; [|exact Q]. cbn in O. destruct (y =? fd); [discriminate|]. destruct (overwrite fd z l); discriminate.
Qed.
Lemma del_found : forall fd l l2, del_tls fd l = (true, l2) -> Permutation l (fd :: l2).
Proof.
  intros fd l l2 H. unfold del_tls in H. destruct (overwrite fd (last l 0) l) as [l3|] eqn:O; [|discriminate]. injection H as <-.
  assert (P := overwrite_perm _ _ _ _ O). assert (L := overwrite_last _ _ _ _ O eq_refl).
  assert (Ne : l3 <> []) by (intro Q; subst l3; apply Permutation_length in P; destruct l; [cbn in O; discriminate|cbn in P; lia]).
  assert (A := app_removelast_last 0 Ne). rewrite L in A. apply (Permutation_cons_inv (a := last l 0)).
  rewrite P. rewrite A at 1. rewrite perm_swap. apply perm_skip. symmetry. apply Permutation_cons_append.
Qed.
Lemma del_missing : forall fd l l2, del_tls fd l = (false, l2) -> l2 = l /\ ~ In fd l.
Proof. intros fd l l2 H. unfold del_tls in H. destruct (overwrite fd (last l 0) l) as [l3|] eqn:O; [discriminate|]. injection H as <-. split; [reflexivity|exact (overwrite_none _ _ _ O)]. Qed.

(** What holds at all times. *)
Record ginv (max : N) (g : gate) : Prop := {
  gi_used : NoDup (g_used g);
  gi_count : g_count g = N.of_nat (length (g_open g)) + N.of_nat (length (g_leaving g));
  gi_max : N.of_nat (length (g_open g)) <= max }.
Lemma step_inv : forall max o g g', ginv max g -> gate_step max o g = Some g' -> ginv max g'.
Proof.
  intros max o g g' [U C M] H. unfold g_used in U. apply nodup_app_iff in U. destruct U as (U1 & U2 & U3). apply nodup_app_iff in U2. destruct U2 as (U2 & U4 & U5).
  destruct o as [fd tls queued|fd hands|fd|fd]; cbn [gate_step] in H.
  - destruct (existsb (N.eqb fd) (g_used g)) eqn:X; [discriminate|].
    assert (Nn : ~ In fd (g_used g)). { intro Q. assert (Y : existsb (N.eqb fd) (g_used g) = true) by (apply existsb_exists; exists fd; split; [exact Q|apply N.eqb_refl]). congruence. }
    unfold g_used in Nn. rewrite !in_app_iff in Nn. destruct queued; injection H as <-; (constructor; cbn [g_open g_leaving g_count]; [|exact C|exact M]); unfold g_used; cbn [g_wait g_leaving g_open].
    + rewrite map_app. cbn [map fst]. apply nodup_app_iff. split; [|split].
      * apply nodup_app_iff. split; [exact U1|]. split; [repeat constructor; intros []|]. intros x X1 [X2|[]]. subst x. tauto.
      * apply nodup_app_iff. auto.
      * intros x X1 X2. apply in_app_iff in X1. destruct X1 as [X1|[X1|[]]]; [exact (U3 x X1 X2)|]. subst x. apply in_app_iff in X2. tauto.
    + apply nodup_app_iff. split; [exact U1|]. split; [apply nodup_app_iff; auto|exact U3].
  - destruct (pick fd (g_wait g)) as [port|] eqn:P; [|discriminate]. apply pick_in in P. assert (W := without_perm _ _ _ _ U1 P).
    assert (W1 := Permutation_NoDup (Permutation_map fst W) U1). cbn in W1. inversion W1 as [|? ? Wn Wd]; subst.
    assert (Win : forall x, In x (map fst (without fd (g_wait g))) -> In x (map fst (g_wait g))).
    { intros x Q. apply (Permutation_in (l := map fst ((fd, port) :: without fd (g_wait g)))); [apply Permutation_map; symmetry; exact W|right; exact Q]. }
    assert (Fw : In fd (map fst (g_wait g))) by exact (in_map fst _ _ P).
    assert (Fn : ~ In fd (g_leaving g) /\ ~ In fd (map fst (g_open g))) by (split; intro Q; apply (U3 fd Fw); apply in_app_iff; auto).
    destruct (max <=? g_count g) eqn:Mx.
    + injection H as <-. constructor; cbn [g_open g_leaving g_count]; [|rewrite app_length; cbn; lia|exact M]. unfold g_used. cbn [g_wait g_leaving g_open].
      apply nodup_app_iff. split; [exact Wd|]. split.
      * rewrite <- app_assoc. cbn. apply nodup_app_iff. split; [exact U2|]. split; [constructor; [tauto|exact U4]|].
        intros x X1 [X2|X2]; [subst x; tauto|exact (U5 x X1 X2)].
      * intros x X1 X2. rewrite !in_app_iff in X2. cbn in X2. destruct X2 as [[X2|[X2|[]]]|X2]; [|subst x; exact (Wn X1)|]; apply (U3 x (Win x X1)); apply in_app_iff; auto.
    + apply N.leb_gt in Mx. destruct (del_tls fd (g_marks g)) as [istls marks]. destruct (istls && negb hands).
      * injection H as <-. constructor; cbn [g_open g_leaving g_count]; [|exact C|exact M]. unfold g_used. cbn [g_wait g_leaving g_open]. apply nodup_app_iff.
        split; [exact Wd|]. split; [apply nodup_app_iff; auto|]. intros x X1 X2. exact (U3 x (Win x X1) X2).
      * injection H as <-. constructor; cbn [g_open g_leaving g_count]; rewrite ?app_length; cbn [length]; [|lia|lia]. unfold g_used. cbn [g_wait g_leaving g_open].
        rewrite map_app. cbn [map fst]. apply nodup_app_iff. split; [exact Wd|]. split.
        -- apply nodup_app_iff. split; [exact U2|]. split; [apply nodup_app_iff; split; [exact U4|split; [repeat constructor; intros []|]]; intros x X1 [X2|[]]; subst x; tauto|].
           intros x X1 X2. apply in_app_iff in X2. destruct X2 as [X2|[X2|[]]]; [exact (U5 x X1 X2)|subst x; tauto].
        -- intros x X1 X2. rewrite !in_app_iff in X2. cbn in X2. destruct X2 as [X2|[X2|[X2|[]]]]; [| |subst x; exact (Wn X1)]; apply (U3 x (Win x X1)); apply in_app_iff; auto.
  - destruct (existsb (N.eqb fd) (g_leaving g)) eqn:X; [|discriminate]. injection H as <-. apply existsb_exists in X. destruct X as (y & X1 & X2). apply N.eqb_eq in X2. subst y.
    assert (P := filter_perm fd _ U2 X1). assert (P1 := Permutation_NoDup P U2). inversion P1 as [|? ? Pn Pd]; subst.
    assert (Win : forall x, In x (filter (fun x => negb (x =? fd)) (g_leaving g)) -> In x (g_leaving g)) by (intros x Q; apply filter_In in Q; apply Q).
    constructor; cbn [g_open g_leaving g_count]; [|apply Permutation_length in P; cbn [length] in P; lia|exact M]. unfold g_used. cbn [g_wait g_leaving g_open].
    apply nodup_app_iff. split; [exact U1|]. split; [apply nodup_app_iff; split; [exact Pd|split; [exact U4|intros x Y1 Y2; exact (U5 x (Win x Y1) Y2)]]|].
    intros x Y1 Y2. apply (U3 x Y1). apply in_app_iff. apply in_app_iff in Y2. destruct Y2; auto.
  - destruct (pick fd (g_open g)) as [z|] eqn:P; [|discriminate]. injection H as <-. apply pick_in in P. assert (W := without_perm _ _ _ _ U4 P).
    assert (W1 := Permutation_NoDup (Permutation_map fst W) U4). cbn in W1. inversion W1 as [|? ? Wn Wd]; subst.
    assert (Win : forall x, In x (map fst (without fd (g_open g))) -> In x (map fst (g_open g))).
    { intros x Q. apply (Permutation_in (l := map fst ((fd, z) :: without fd (g_open g)))); [apply Permutation_map; symmetry; exact W|right; exact Q]. }
    assert (Ln := Permutation_length W). cbn [length] in Ln. constructor; cbn [g_open g_leaving g_count]; [|lia|lia]. unfold g_used. cbn [g_wait g_leaving g_open].
    apply nodup_app_iff. split; [exact U1|]. split; [apply nodup_app_iff; split; [exact U2|split; [exact Wd|intros x Y1 Y2; exact (U5 x Y1 (Win x Y2))]]|].
    intros x Y1 Y2. apply (U3 x Y1). apply in_app_iff. apply in_app_iff in Y2. destruct Y2 as [Y2|Y2]; [left; exact Y2|right; exact (Win x Y2)].
Qed.
Lemma run_inv : forall max os g g', ginv max g -> gate_run max os g = Some g' -> ginv max g'.
Proof.
  intros max. induction os as [|o os IH]; intros g g' I H; cbn in H; [injection H as <-; exact I|]. destruct (gate_step max o g) as [g1|] eqn:E; [|discriminate].
  exact (IH g1 g' (step_inv _ _ _ _ I E) H).
Qed.
Lemma new_inv : forall max, ginv max gate_new. Proof. intro max. constructor; cbn; [constructor|reflexivity|lia]. Qed.

(** Whatever the threads do, in whatever order: there are never more open connections than the limit, and
    the counter is the number of open connections and of those that are being turned away. *)
Theorem C58_limit : forall max os g, gate_run max os gate_new = Some g ->
  N.of_nat (length (g_open g)) <= max /\ g_count g = N.of_nat (length (g_open g)) + N.of_nat (length (g_leaving g)).
Proof. intros max os g H. destruct (run_inv _ _ _ _ (new_inv max) H) as [_ C M]. auto. Qed.

(** A run in which no connection is turned away. *)
Fixpoint none_turned (max : N) (os : list gop) (g : gate) : Prop :=
  match os with
  | [] => True
  | o :: os => (match o with GEvent _ _ => g_count g < max | _ => True end) /\
      match gate_step max o g with None => True | Some g => none_turned max os g end
  end.
(** If no connection is turned away, a connection is served with TLS if and only if it came in on the TLS
    port. *)
Definition right_marks (g : gate) : Prop :=
  Permutation (g_marks g) (map fst (filter (fun p => snd p) (g_wait g))) /\ forall fd istls port, In (fd, (istls, port)) (g_open g) -> istls = port.
Lemma filter_without : forall fd (l : list (N * bool)), filter (fun p => snd p) (without fd l) = without fd (filter (fun p => snd p) l).
Proof.
  unfold without. intros fd. induction l as [|[a b] l IH]; [reflexivity|]. destruct (a =? fd) eqn:E, b; cbn; rewrite E; cbn; rewrite ?E; cbn; rewrite <- ?IH; reflexivity.
Qed.
Lemma without_out : forall (X : Type) fd (l : list (N * X)), ~ In fd (map fst l) -> without fd l = l.
Proof. intros X fd. induction l as [|[a c] l IH]; intro H; [reflexivity|]. cbn in *. destruct (N.eqb_spec a fd); [tauto|]. cbn. unfold without in IH. rewrite IH; tauto. Qed.
Lemma nodup_filter_fst : forall (l : list (N * bool)), NoDup (map fst l) -> NoDup (map fst (filter (fun p => snd p) l)).
Proof.
  induction l as [|[a b] l IH]; intro H; [constructor|]. cbn in *. inversion H as [|? ? N1 N2]; subst. destruct b; cbn; [|exact (IH N2)]. constructor; [|exact (IH N2)].
  intro Q. apply N1. apply in_map_iff in Q. destruct Q as ([x y] & E & Q). apply filter_In in Q. cbn in E. subst x. exact (in_map fst _ _ (proj1 Q)).
Qed.
Lemma right_step : forall max o g g', ginv max g -> right_marks g -> (match o with GEvent _ _ => g_count g < max | _ => True end) ->
  gate_step max o g = Some g' -> right_marks g'.
Proof.
  intros max o g g' [U _ _] [R1 R2] T H. unfold g_used in U. apply nodup_app_iff in U. destruct U as (U1 & _ & _).
  destruct o as [fd tls queued|fd hands|fd|fd]; cbn [gate_step] in H.
  - destruct (existsb (N.eqb fd) (g_used g)) eqn:X; [discriminate|].
    destruct queued; injection H as <-; (split; [|exact R2]); cbn [g_marks g_wait].
    + rewrite filter_app, map_app. cbn. destruct tls; cbn; [|rewrite app_nil_r; exact R1]. unfold save_tls. apply Permutation_app_tail. exact R1.
    + destruct tls; [|exact R1]. destruct (del_tls fd (save_tls fd (g_marks g))) as [f l] eqn:D. cbn [snd]. destruct f.
      * apply del_found in D. unfold save_tls in D. rewrite <- Permutation_cons_append in D. apply Permutation_cons_inv in D. rewrite <- D. exact R1.
      * apply del_missing in D. destruct D as [_ D]. exfalso. apply D. unfold save_tls. apply in_app_iff. right. left. reflexivity.
  - destruct (pick fd (g_wait g)) as [port|] eqn:P; [|discriminate]. apply pick_in in P. rewrite (proj2 (N.leb_gt _ _) T) in H.
    destruct (del_tls fd (g_marks g)) as [istls marks] eqn:D.
    assert (K : Permutation marks (map fst (filter (fun p => snd p) (without fd (g_wait g)))) /\ istls = port).
    { rewrite filter_without. destruct istls.
      - apply del_found in D. rewrite D in R1. assert (In fd (map fst (filter (fun p => snd p) (g_wait g)))) by (apply (Permutation_in _ R1); left; reflexivity).
        apply in_map_iff in H0. destruct H0 as ([x y] & E & Q). cbn in E. subst x. apply filter_In in Q. destruct Q as [Q1 Q2]. cbn in Q2. subst y.
        assert (Pt : port = true). { clear - U1 P Q1. induction (g_wait g) as [|[a b] l IH]; [destruct P|]. cbn in U1. inversion U1 as [|? ? N1 N2]; subst. destruct P as [P|P], Q1 as [Q|Q]; try congruence.
          - injection P as -> ->. destruct (N1 (in_map fst _ _ Q)).
          - injection Q as -> ->. destruct (N1 (in_map fst _ _ P)).
          - exact (IH N2 P Q). }
        split; [|congruence]. subst port. assert (W := without_perm _ fd (filter (fun p => snd p) (g_wait g)) true (nodup_filter_fst _ U1)).
        rewrite (Permutation_map fst (W ltac:(apply filter_In; auto))) in R1. cbn in R1. apply Permutation_cons_inv in R1. exact R1.
      - apply del_missing in D. destruct D as [D1 D2]. subst marks.
        assert (Nn : ~ In fd (map fst (filter (fun p => snd p) (g_wait g)))) by (intro Q; apply D2; apply (Permutation_in (l := map fst (filter (fun p => snd p) (g_wait g)))); [symmetry; exact R1|exact Q]).
        rewrite (without_out _ _ _ Nn). split; [exact R1|]. destruct port; [|reflexivity]. exfalso. apply Nn. apply in_map_iff. exists (fd, true). split; [reflexivity|]. apply filter_In. auto. }
    destruct K as [K1 K2]. destruct (istls && negb hands); injection H as <-; (split; [exact K1|]); cbn [g_open]; [exact R2|].
    intros x a b Q. apply in_app_iff in Q. destruct Q as [Q|[Q|[]]]; [exact (R2 x a b Q)|congruence].
  - destruct (existsb (N.eqb fd) (g_leaving g)); [|discriminate]. injection H as <-. split; [exact R1|exact R2].
  - destruct (pick fd (g_open g)); [|discriminate]. injection H as <-. split; [exact R1|]. cbn [g_open]. intros x a b Q. apply filter_In in Q. exact (R2 x a b (proj1 Q)).
Qed.
Theorem C58_tls : forall max os g, gate_run max os gate_new = Some g -> none_turned max os gate_new ->
  forall fd istls port, In (fd, (istls, port)) (g_open g) -> istls = port.
Proof.
  assert (GO : forall max os g g', ginv max g -> right_marks g -> gate_run max os g = Some g' -> none_turned max os g -> right_marks g').
  { intros max. induction os as [|o os IH]; intros g g' I R H T; cbn in H; [injection H as <-; exact R|]. destruct T as [T1 T2]. destruct (gate_step max o g) as [g1|] eqn:E; [|discriminate].
    exact (IH g1 g' (step_inv _ _ _ _ I E) (right_step _ _ _ _ I R T1 E) H T2). }
  intros max os g H T. apply (GO max os gate_new g); [apply new_inv|split; [constructor|intros ? ? ? []]|exact H|exact T].
Qed.

(** *** Cases *)
Definition visits : list gop :=
  [GAccept 7 true true; GAccept 8 false true; GAccept 9 true true; GEvent 8 true; GAccept 10 true false; GEvent 9 true; GEvent 7 false; GAccept 7 false true; GEvent 7 true; GClose 9].
Example C58_case : none_turned 3 visits gate_new /\ gate_run 3 visits gate_new = Some (mkGate 2 [] [] [] [(8, (false, false)); (7, (false, false))]).
Proof. split; vm_compute; auto 20. Qed.
Example C58_full_case : exists g, gate_run 1 [GAccept 7 true true; GAccept 8 false true; GEvent 8 true; GEvent 7 true] gate_new = Some g /\ length (g_open g) = 1%nat /\ g_leaving g = [7].
Proof. eexists. split; [vm_compute; reflexivity|]. split; reflexivity. Qed.

(** *** What does not hold *)
(** After a TLS connection was turned away its mark is left: a plain connection that gets the same
    descriptor is served as TLS. [src/net.c:619-627] *)
Theorem C58_tls_refuted : exists os g fd, gate_run 1 os gate_new = Some g /\ In (fd, (true, false)) (g_open g).
Proof.
  exists [GAccept 7 false true; GEvent 7 true; GAccept 8 true true; GEvent 8 true; GTurned 8; GClose 7; GAccept 8 false true; GEvent 8 true].
  eexists. exists 8. split; [vm_compute; reflexivity|]. left. reflexivity.
Qed.
(** A connection can be turned away although none is open: another one is just being turned away and
    is still counted. [src/net.c:617-625] *)
Theorem C58_room_refuted : exists os g fd g', gate_run 1 os gate_new = Some g /\ g_open g = [] /\
  gate_step 1 (GEvent fd true) g = Some g' /\ In fd (g_leaving g') /\ ~ In fd (g_leaving g).
Proof.
  exists [GAccept 7 false true; GEvent 7 true; GAccept 8 false true; GEvent 8 true; GClose 7; GAccept 7 false true].
  eexists. exists 7. eexists. split; [vm_compute; reflexivity|]. split; [reflexivity|]. split; [vm_compute; reflexivity|]. cbn. split; [auto|]. intros [H|[]]. discriminate.
Qed.
