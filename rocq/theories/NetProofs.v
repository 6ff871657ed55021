(** Proofs for C56: the rounds of the event loop. *)
From Verif Require Import Base Net NetSpec.
From Coq Require Import Lia.

Lemma nodup_snoc : forall (X : Type) (l : list X) x, NoDup l -> ~ In x l -> NoDup (l ++ [x]).
Proof.
  induction l as [|y l IH]; intros x N H; cbn; [constructor; [intros []|constructor]|].
  inversion N as [|? ? N1 N2]; subst. constructor; [|apply IH; [exact N2|intro; apply H; right; assumption]].
  rewrite in_app_iff. intros [Q|[Q|[]]]; [exact (N1 Q)|apply H; left; auto].
Qed.
(** The class of a connection within a round: in which queue it is. *)
Inductive cls := Idle | CAtt | CRd | CIn (s : bytes) | COut | CCl.
Definition upd (cl : nat -> cls) (fd : nat) (k : cls) : nat -> cls := fun x => if (x =? fd)%nat then k else cl x.
Lemma upd_same : forall cl fd k, upd cl fd k fd = k. Proof. intros. unfold upd. rewrite Nat.eqb_refl. reflexivity. Qed.
Lemma upd_other : forall cl fd k x, x <> fd -> upd cl fd k x = cl x.
Proof. intros. unfold upd. destruct (Nat.eqb_spec x fd); [contradiction|reflexivity]. Qed.
Definition has (k : cls) (l : list nat) (cl : nat -> cls) : Prop := NoDup l /\ forall fd, In fd l <-> cl fd = k.
Definition hasin (l : list (nat * bytes)) (cl : nat -> cls) : Prop :=
  NoDup (map fst l) /\ forall fd s, In (fd, s) l <-> cl fd = CIn s.
Definition notin (k : cls) : Prop := forall s, k <> CIn s.

Lemma has_pop : forall k k' fd l cl, has k (fd :: l) cl -> k' <> k -> has k l (upd cl fd k').
Proof.
  intros k k' fd l cl [N H] D. inversion N as [|? ? N1 N2]; subst. split; [exact N2|]. intro x. destruct (Nat.eq_dec x fd) as [E|E].
  - subst x. rewrite upd_same. split; [intro; contradiction|intro; contradiction].
  - rewrite upd_other by exact E. rewrite <- H. cbn. split; [auto|intros [Q|Q]; [congruence|exact Q]].
Qed.
Lemma has_push : forall k fd l cl, has k l cl -> cl fd <> k -> has k (l ++ [fd]) (upd cl fd k).
Proof.
  intros k fd l cl [N H] D. split.
  - apply nodup_snoc; [exact N|]. rewrite H. exact D.
  - intro x. rewrite in_app_iff. cbn. destruct (Nat.eq_dec x fd) as [E|E].
    + subst x. rewrite upd_same. split; auto.
    + rewrite upd_other by exact E. rewrite <- H. split; [intros [Q|[Q|[]]]; [exact Q|congruence]|auto].
Qed.
Lemma has_other : forall k k' fd l cl, has k l cl -> cl fd <> k -> k' <> k -> has k l (upd cl fd k').
Proof.
  intros k k' fd l cl [N H] D D'. split; [exact N|]. intro x. destruct (Nat.eq_dec x fd) as [E|E].
  - subst x. rewrite upd_same, H. split; contradiction.
  - rewrite upd_other by exact E. apply H.
Qed.
Lemma hasin_pop : forall k' fd s l cl, hasin ((fd, s) :: l) cl -> notin k' -> hasin l (upd cl fd k').
Proof.
  intros k' fd s l cl [N H] D. inversion N as [|? ? N1 N2]; subst. split; [exact N2|]. intros x s'. destruct (Nat.eq_dec x fd) as [E|E].
  - subst x. rewrite upd_same. split; [intro Q; exfalso; apply N1; exact (in_map fst _ _ Q)|intro Q; destruct (D s' Q)].
  - rewrite upd_other by exact E. rewrite <- H. cbn. split; [auto|intros [Q|Q]; [congruence|exact Q]].
Qed.
Lemma hasin_push : forall fd s l cl, hasin l cl -> notin (cl fd) -> hasin (l ++ [(fd, s)]) (upd cl fd (CIn s)).
Proof.
  intros fd s l cl [N H] D. split.
  - rewrite map_app. apply nodup_snoc; [exact N|]. cbn. intro Q. apply in_map_iff in Q. destruct Q as ([x s'] & E & Q). cbn in E. subst x.
    apply H in Q. destruct (D s' Q).
  - intros x s'. rewrite in_app_iff. cbn. destruct (Nat.eq_dec x fd) as [E|E].
    + subst x. rewrite upd_same. split; [intros [Q|[Q|[]]]; [apply H in Q; destruct (D s' Q)|congruence]|intro Q; right; left; congruence].
    + rewrite upd_other by exact E. rewrite <- H. split; [intros [Q|[Q|[]]]; [exact Q|congruence]|auto].
Qed.
Lemma hasin_other : forall k' fd l cl, hasin l cl -> notin (cl fd) -> notin k' -> hasin l (upd cl fd k').
Proof.
  intros k' fd l cl [N H] D D'. split; [exact N|]. intros x s. destruct (Nat.eq_dec x fd) as [E|E].
  - subst x. rewrite upd_same, H. split; intro Q; [destruct (D s Q)|destruct (D' s Q)].
  - rewrite upd_other by exact E. apply H.
Qed.

Arguments NetSpec.over G J l : simpl never. Arguments NetSpec.due G J l : simpl never.
Section Proofs.
Variables A G J : Type.
Variable opened : A.
Variable data : bytes -> A -> G -> hres A G J.
Variable work : J -> G -> J * G.
Variable done : J -> A -> A * bytes * bool.
Notation act := (act G J).
Notation nconn := (nconn A G J).
Notation thread := (thread A G J).
Notation replay := (replay A G J opened data done).
Notation gots := (gots G J). Notation feds := (feds G J). Notation saids := (saids G J). Notation sents := (sents G J).
Notation tidy := (tidy G J). Notation orderly := (orderly G J). Notation broken := (broken G J).
Variables failing ending : nat -> Prop.
Variable meddling : (G -> G) -> Prop.
Notation over := (over G J). Notation due := (due G J). Notation sact := (sact A G J data work done failing ending). Notation sstep := (sstep A G J opened data work done failing ending meddling).
Notation ssteps := (ssteps A G J opened data work done failing ending meddling). Notation told := (told G failing ending meddling). Notation conn_view := (conn_view A G J). Notation view := (view A G J).
Notation served := (served A G J opened data done). Notation ended := (ended A G J opened data done).

(** *** Lists of acts *)
Lemma gots_app : forall l k, gots (l ++ k) = gots l ++ gots k.
Proof. induction l as [|[] l IH]; intro k; cbn; rewrite ?IH; reflexivity. Qed.
Lemma feds_app : forall l k, feds (l ++ k) = feds l ++ feds k.
Proof. induction l as [|[] l IH]; intro k; cbn; rewrite ?IH; reflexivity. Qed.
Lemma saids_app : forall l k, saids (l ++ k) = saids l ++ saids k.
Proof. induction l as [|[] l IH]; intro k; cbn; rewrite ?IH, ?app_assoc; reflexivity. Qed.
Lemma sents_app : forall l k, sents (l ++ k) = sents l ++ sents k.
Proof. induction l as [|[] l IH]; intro k; cbn; rewrite ?IH, ?app_assoc; reflexivity. Qed.
Lemma over_one : forall x, over [x] = match x with Over => true | _ => false end.
Proof. intro x. unfold NetSpec.over. cbn. apply orb_false_r. Qed.
Lemma over_app : forall l k, over (l ++ k) = over l || over k.
Proof. intros. unfold NetSpec.over. apply existsb_app. Qed.
Lemma due_snoc : forall l x, due (l ++ [x]) = match x with Fed _ _ => false | Worked _ => true | _ => due l end.
Proof. intros l x. unfold NetSpec.due. rewrite fold_left_app. destruct x; reflexivity. Qed.
Definition isgot (x : act) : bool := match x with Got _ => true | _ => false end.
Lemma orderly_snoc : forall l x, orderly l -> (isgot x = true -> tidy l) -> orderly (l ++ [x]).
Proof.
  intros l x O T l1 s l2 E. destruct (exists_last (l := Got s :: l2)) as (l3 & y & E3); [discriminate|].
  destruct l2 as [|z l2].
  - apply app_inj_tail in E. destruct E as [E1 E2]. subst l1 x. apply T. reflexivity.
  - destruct l3 as [|z3 l3]; [cbn in E3; discriminate|]. cbn in E3. inversion E3 as [[E4 E5]]. subst z3. rewrite E5 in E.
    change (Got s :: l3 ++ [y]) with ((Got s :: l3) ++ [y]) in E. rewrite app_assoc in E. apply app_inj_tail in E. destruct E as [E1 E2].
    exact (O l1 s l3 E1).
Qed.
Lemma broken_app : forall l k, broken l -> broken (l ++ k).
Proof. intros l k (l1 & s & l2 & rest & E & F). exists l1, s, (l2 ++ k), rest. split; [rewrite E, <- app_assoc; reflexivity|exact F]. Qed.
Notation replay2 := (fun l => fold_left (replay_one A G J data done) l (opened, opened)).
Lemma replay2_snoc : forall l x, replay2 (l ++ [x]) = replay_one A G J data done (replay2 l) x.
Proof. intros. cbn beta. rewrite fold_left_app. reflexivity. Qed.

(** *** Connections *)
(** What is common to all states of a connection: the data agrees with its acts. *)
Definition based (c : nconn) : Prop := orderly (c_acts c) /\ c_data c = replay (c_acts c).
(** The client has not ended the connection, as far as is known. *)
Definition live (c : nconn) : Prop := over (c_acts c) = false.
(** The handler was called after a job. *)
Definition undue (c : nconn) : Prop := due (c_acts c) = false.
(** Between rounds. *)
Definition good (c : nconn) : Prop :=
  based c /\ tidy (c_acts c) /\ c_out c = [] /\ c_closed c = false /\ live c /\
  match c_bg c with
  | None => c_watch c = Some false /\ c_thread c = false
  | Some _ => c_watch c = None \/ c_watch c = Some true /\ c_thread c = false
  end.
Definition ok (k : cls) (c : nconn) : Prop :=
  match k with
  | Idle => good c /\ undue c
  | CAtt => good c /\ undue c /\ c_bg c <> None /\ c_watch c <> None
  | CRd => good c /\ c_bg c = None
  | CIn s => based c /\ c_bg c = None /\ c_watch c = Some false /\ c_thread c = false /\ c_out c = [] /\ c_closed c = false /\
      gots (c_acts c) = feds (c_acts c) ++ [s] /\ sents (c_acts c) = saids (c_acts c) /\ live c
  | COut => based c /\ c_bg c = None /\ c_watch c = Some false /\ c_thread c = false /\ gots (c_acts c) = feds (c_acts c) /\
      (saids (c_acts c) = sents (c_acts c) ++ c_out c \/ broken (c_acts c) /\ c_closed c = true) /\ live c /\ undue c
  | CCl => ended c
  end.
Record inv (t : thread) (cl : nat -> cls) : Prop := {
  i_nodup : NoDup (map c_fd (t_conns t));
  i_ok : forall c, In c (t_conns t) -> ok (cl (c_fd c)) c;
  i_known : forall fd, cl fd <> Idle -> exists c, In c (t_conns t) /\ c_fd c = fd;
  i_gone : forall c, In c (t_gone t) -> ended c }.

Lemma get_in : forall fd (t : thread) (c : nconn), get_conn fd t = Some c -> In c (t_conns t) /\ c_fd c = fd.
Proof. intros fd t c H. apply find_some in H. destruct H as [H1 H2]. apply Nat.eqb_eq in H2. auto. Qed.
Lemma in_get : forall fd (t : thread) (c : nconn), NoDup (map c_fd (t_conns t)) -> In c (t_conns t) -> c_fd c = fd -> get_conn fd t = Some c.
Proof.
  intros fd t c N I E. unfold get_conn. destruct (find (fun c0 => c_fd c0 =? fd) (t_conns t)) as [d|] eqn:F.
  - apply find_some in F. destruct F as [F1 F2]. apply Nat.eqb_eq in F2. f_equal. clear - N I E F1 F2.
    induction (t_conns t) as [|x l IH]; [destruct I|]. inversion N as [|? ? N1 N2]; subst. destruct I as [I|I], F1 as [F|F]; subst.
    + reflexivity.
    + exfalso. apply N1. rewrite <- F2. exact (in_map c_fd _ _ F).
    + exfalso. apply N1. rewrite F2. exact (in_map c_fd _ _ I).
    + exact (IH N2 I F).
  - exfalso. apply (find_none _ _ F) in I. rewrite E, Nat.eqb_refl in I. discriminate.
Qed.
Lemma put_fds : forall (c : nconn) (t : thread), map c_fd (t_conns (put_conn c t)) = map c_fd (t_conns t).
Proof.
  intros c t. unfold put_conn. cbn. rewrite map_map. apply map_ext. intro d. destruct (Nat.eqb_spec (c_fd d) (c_fd c)); congruence.
Qed.
Lemma put_in : forall (c : nconn) (t : thread) (d : nconn), In d (t_conns (put_conn c t)) -> d = c \/ In d (t_conns t) /\ c_fd d <> c_fd c.
Proof.
  intros c t d H. unfold put_conn in H. cbn in H. apply in_map_iff in H. destruct H as (e & E & H).
  destruct (Nat.eqb_spec (c_fd e) (c_fd c)) as [Q|Q]; [left; auto|subst e; right; auto].
Qed.
Lemma in_put : forall (c : nconn) (t : thread) (d : nconn), In d (t_conns t) -> In (if c_fd d =? c_fd c then c else d) (t_conns (put_conn c t)).
Proof. intros c t d H. unfold put_conn. cbn. apply (in_map (fun d => if c_fd d =? c_fd c then c else d)) in H. exact H. Qed.
(** A connection of a queue is there. *)
Lemma use_ok : forall t cl fd, inv t cl -> cl fd <> Idle ->
  exists c, use_conn fd t = NOk c /\ In c (t_conns t) /\ c_fd c = fd /\ ok (cl fd) c.
Proof.
  intros t cl fd I H. destruct (i_known _ _ I fd H) as (c & I1 & I2). exists c. unfold use_conn. rewrite (in_get _ _ _ (i_nodup _ _ I) I1 I2).
  split; [reflexivity|]. split; [exact I1|]. split; [exact I2|]. rewrite <- I2. exact (i_ok _ _ I c I1).
Qed.
(** One connection changes. *)
Lemma put_inv : forall t cl c k, inv t cl -> (exists d, In d (t_conns t) /\ c_fd d = c_fd c) -> ok k c -> inv (put_conn c t) (upd cl (c_fd c) k).
Proof.
  intros t cl c k I (d & D1 & D2) O. constructor.
  - rewrite put_fds. exact (i_nodup _ _ I).
  - intros e H. destruct (put_in _ _ _ H) as [E|[H1 H2]]; [subst e; rewrite upd_same; exact O|]. rewrite upd_other by exact H2. exact (i_ok _ _ I e H1).
  - intros fd H. destruct (Nat.eq_dec fd (c_fd c)) as [E|E].
    + exists c. split; [|auto]. assert (P := in_put c t d D1). rewrite D2, Nat.eqb_refl in P. exact P.
    + rewrite upd_other in H by exact E. destruct (i_known _ _ I fd H) as (e & E1 & E2). exists e. split; [|exact E2].
      assert (P := in_put c t e E1). destruct (Nat.eqb_spec (c_fd e) (c_fd c)); [congruence|exact P].
  - exact (i_gone _ _ I).
Qed.
(** Only the queue of a connection changes. *)
Lemma move_inv : forall t cl fd k, inv t cl -> (exists c, In c (t_conns t) /\ c_fd c = fd /\ ok k c) -> inv t (upd cl fd k).
Proof.
  intros t cl fd k I (c & C1 & C2 & C3). constructor.
  - exact (i_nodup _ _ I).
  - intros e H. destruct (Nat.eq_dec (c_fd e) fd) as [E|E].
    + assert (Q : e = c). { assert (X := in_get _ _ _ (i_nodup _ _ I) H E). rewrite (in_get _ _ _ (i_nodup _ _ I) C1 C2) in X. congruence. }
      subst e. rewrite E, upd_same. exact C3.
    + rewrite upd_other by exact E. exact (i_ok _ _ I e H).
  - intros x H. destruct (Nat.eq_dec x fd) as [E|E]; [subst x; exists c; auto|]. rewrite upd_other in H by exact E. exact (i_known _ _ I x H).
  - exact (i_gone _ _ I).
Qed.
Lemma shared_inv : forall t cl g, inv t cl -> inv (set_shared g t) cl.
Proof. intros t cl g [H1 H2 H3 H4]. constructor; assumption. Qed.

(** *** The server that handles one packet at a time *)
Lemma trans : forall x y z, ssteps x y -> ssteps y z -> ssteps x z.
Proof. intros x y z H. induction H as [x|x y w S H IH]; intro K; [exact K|]. exact (ss_next _ _ _ S (IH K)). Qed.
Lemma one : forall x y, sstep x y -> ssteps x y.
Proof. intros x y H. exact (ss_next _ _ _ H (ss_refl _)). Qed.
Lemma same_steps : forall x y, x = y -> ssteps x y.
Proof. intros x y H. rewrite H. apply ss_refl. Qed.
Lemma map_put : forall (c' : nconn) (l : list nconn), ~ In (c_fd c') (map c_fd l) -> map (fun d => if c_fd d =? c_fd c' then c' else d) l = l.
Proof.
  intros c'. induction l as [|d l IH]; intro H; [reflexivity|]. cbn in *. rewrite IH by tauto. destruct (Nat.eqb_spec (c_fd d) (c_fd c')); [exfalso; apply H; left; assumption|reflexivity].
Qed.
Lemma view_put : forall (t : thread) (c c' : nconn), NoDup (map c_fd (t_conns t)) -> In c (t_conns t) -> c_fd c' = c_fd c ->
  exists l1 l2, t_conns t = l1 ++ c :: l2 /\ t_conns (put_conn c' t) = l1 ++ c' :: l2.
Proof.
  intros t c c' N H E. apply in_split in H. destruct H as (l1 & l2 & H). exists l1, l2. split; [exact H|]. unfold put_conn. cbn [t_conns]. rewrite H in *.
  rewrite map_app in N. cbn [map] in N. assert (Nr := NoDup_remove_2 _ _ _ N). rewrite in_app_iff in Nr. rewrite map_app. cbn [map]. rewrite E, Nat.eqb_refl, <- E.
  rewrite !map_put; [reflexivity| |]; rewrite E; tauto.
Qed.
Lemma act_put : forall (t : thread) (c c' : nconn) g', NoDup (map c_fd (t_conns t)) -> In c (t_conns t) -> c_fd c' = c_fd c ->
  sact (conn_view c) (t_shared t) (conn_view c') g' -> sstep (view t) (view (set_shared g' (put_conn c' t))).
Proof.
  intros t c c' g' N H E S. destruct (view_put t c c' N H E) as (l1 & l2 & E1 & E2). unfold NetSpec.view. cbn [set_shared t_conns t_shared t_gone].
  rewrite E1, E2, !map_app. cbn [map]. apply s_act. exact S.
Qed.
Lemma same_put : forall (t : thread) (c c' : nconn), NoDup (map c_fd (t_conns t)) -> In c (t_conns t) -> c_fd c' = c_fd c ->
  conn_view c' = conn_view c -> view (put_conn c' t) = view t.
Proof.
  intros t c c' N H E S. destruct (view_put t c c' N H E) as (l1 & l2 & E1 & E2). unfold NetSpec.view. rewrite E1, E2, !map_app. cbn [map]. rewrite S. reflexivity.
Qed.

(** *** Writing *)
Lemma flush_loop_ok : forall ws out s b, flush_loop out ws = Some (s, b) -> exists rest, out = s ++ rest /\ (b = true -> rest = []) /\ (b = false -> In WErr ws).
Proof.
  induction ws as [|w ws IH]; intros out s b H; destruct out as [|x out]; cbn [flush_loop] in H; try discriminate.
  1, 2: inversion H; subst; exists []; split; [reflexivity|split; [reflexivity|discriminate]].
  destruct w as [n| |].
  - destruct (flush_loop (skipn n (x :: out)) ws) as [[s' b']|] eqn:F; [|discriminate]. inversion H; subst. destruct (IH _ _ _ F) as (rest & E & R1 & R2).
    exists rest. split; [|split; [exact R1|intro Q; right; exact (R2 Q)]]. rewrite <- app_assoc, <- E. symmetry. apply firstn_skipn.
  - destruct (IH _ _ _ H) as (rest & E & R1 & R2). exists rest. split; [exact E|split; [exact R1|intro Q; right; exact (R2 Q)]].
  - inversion H; subst. exists (x :: out). split; [reflexivity|split; [discriminate|intros _; left; reflexivity]].
Qed.
Lemma flush_cases : forall ws (c : nconn), flush ws c = NBad NStuck \/
  exists s b rest, c_out c = s ++ rest /\ (b = true -> rest = []) /\ (b = false -> In WErr ws) /\
    flush ws c = NOk (flushed s b c).
Proof.
  intros ws c. unfold flush. destruct (flush_loop (c_out c) ws) as [[s b]|] eqn:F; [|left; reflexivity].
  right. destruct (flush_loop_ok _ _ _ _ F) as (rest & E & R). exists s, b, rest. split; [exact E|]. split; [apply R|]. split; [apply R|reflexivity].
Qed.
Lemma firstn_out : forall (o : wres) (out : bytes), exists rest, out = match o with WTook n => firstn n out | _ => [] end ++ rest.
Proof. intros [n| |] out; [exists (skipn n out); symmetry; apply firstn_skipn|exists out; reflexivity|exists out; reflexivity]. Qed.
Lemma flush_uring_cases : forall u ws (c : nconn), flush_uring u u ws c = NBad NStuck \/
  exists s b rest, c_out c = s ++ rest /\ (b = true -> rest = []) /\ (b = false -> In WErr ws \/ u = WErr) /\ flush_uring u u ws c = NOk (flushed s b c).
Proof.
  intros u ws c. destruct u as [n| |]; cbn [flush_uring]; unfold flush_uring.
  - destruct (flush_loop (skipn n (c_out c)) ws) as [[s b]|] eqn:F; [|left; reflexivity]. right. destruct (flush_loop_ok _ _ _ _ F) as (rest & E & R).
    exists (firstn n (c_out c) ++ s), b, rest. split; [|split; [apply R|split; [intro Q; left; exact (proj2 R Q)|reflexivity]]]. rewrite <- app_assoc, <- E. symmetry. apply firstn_skipn.
  - destruct (flush_loop (c_out c) ws) as [[s b]|] eqn:F; [|left; reflexivity]. right. destruct (flush_loop_ok _ _ _ _ F) as (rest & E & R).
    exists s, b, rest. split; [exact E|]. split; [apply R|]. split; [intro Q; left; exact (proj2 R Q)|reflexivity].
  - right. exists [], false, (c_out c). split; [reflexivity|]. split; [discriminate|]. split; [right; reflexivity|reflexivity].
Qed.
(** What a flush does to the acts when all that was said before was sent but for the output. *)
Lemma flush_acts : forall (l : list act) out s b rest, saids l = sents l ++ out -> out = s ++ rest -> (b = true -> rest = []) ->
  (b = true /\ sents (l ++ [Sent s b]) = saids (l ++ [Sent s b])) \/ (b = false /\ broken (l ++ [Sent s b])).
Proof.
  intros l out s b rest H E R. destruct b.
  - left. split; [reflexivity|]. rewrite sents_app, saids_app. cbn. rewrite !app_nil_r, H, E, (R eq_refl), app_nil_r. reflexivity.
  - right. split; [reflexivity|]. exists l, s, [], rest. split; [reflexivity|]. rewrite H, E. reflexivity.
Qed.

(** *** Queues *)
Definition lists (cl : nat -> cls) (att : list nat) (q : queues) (reads : list nat) (ins : list (nat * bytes)) (outs : list nat) : Prop :=
  has CAtt att cl /\ has CRd reads cl /\ hasin ins cl /\ has COut outs cl /\ has CCl (q_closes q) cl.
Definition within (evs : list nat) (cl : nat -> cls) : Prop := forall fd, cl fd <> Idle -> In fd evs.
Lemma within_upd : forall evs cl fd k, within evs cl -> In fd evs -> within evs (upd cl fd k).
Proof.
  intros evs cl fd k W I x H. destruct (Nat.eq_dec x fd) as [E|E]; [subst x; exact I|]. rewrite upd_other in H by exact E. exact (W x H).
Qed.
Lemma has_small : forall evs cl k l, within evs cl -> k <> Idle -> has k l cl -> (length l <= length evs)%nat.
Proof.
  intros evs cl k l W D [N H]. apply NoDup_incl_length; [exact N|]. intros x I. apply W. apply H in I. congruence.
Qed.
Lemma hasin_small : forall evs cl l, within evs cl -> hasin l cl -> (length l <= length evs)%nat.
Proof.
  intros evs cl l W [N H]. rewrite <- (map_length fst l). apply NoDup_incl_length; [exact N|]. intros x I. apply in_map_iff in I.
  destruct I as ([y s] & E & I). cbn in E. subst y. apply W. apply H in I. congruence.
Qed.
Definition small (n : nat) (q : queues) : Prop :=
  (length (q_attach q) <= n)%nat /\ (length (q_reads q) <= n)%nat /\ (length (q_ins q) <= n)%nat /\
  (length (q_outs q) <= n)%nat /\ (length (q_closes q) <= n)%nat.
Lemma small_fits : forall n size q, small n q -> (n <= size)%nat -> fits size q = true.
Proof.
  intros n size q (H1 & H2 & H3 & H4 & H5) L. unfold fits. repeat (apply andb_true_intro; split); apply Nat.leb_le; lia.
Qed.

(** *** Accepting *)
Lemma based_new : forall fd, based (conn_new A G J opened fd).
Proof. intro fd. split; [|reflexivity]. intros l1 s l2 H. cbn in H. destruct l1; discriminate. Qed.
Lemma good_new : forall fd, good (conn_new A G J opened fd).
Proof. intro fd. split; [apply based_new|]. repeat split. Qed.
Lemma qaccept_ok : forall evs es t q cl, inv t cl -> lists cl (q_attach q) q (q_reads q) (q_ins q) (q_outs q) -> NoDup (map e_fd es) ->
  (forall e, In e es -> cl (e_fd e) = Idle) -> incl (map e_fd es) evs -> within evs cl ->
  (forall c, In c (t_conns t) -> In (c_fd c) (map e_fd es) -> c_watch c <> None) ->
  exists cl', let '(t', q') := qaccept opened es t q in
    inv t' cl' /\ lists cl' (q_attach q') q' (q_reads q') (q_ins q') (q_outs q') /\ within evs cl' /\ ssteps (view t) (view t').
Proof.
  intro evs. induction es as [|e es IH]; intros t q cl I L N Z U W V.
  { exists cl. cbn. split; [exact I|]. split; [exact L|]. split; [exact W|]. apply ss_refl. }
  cbn [map] in N. inversion N as [|? ? N1 N2]; subst. cbn [qaccept].
  assert (Ein : In (e_fd e) evs) by (apply U; left; reflexivity).
  assert (U2 : incl (map e_fd es) evs) by (intros x Hx; apply U; right; exact Hx).
  assert (Zc := Z e (or_introl eq_refl)).
  assert (Zn : forall k x, In x es -> upd cl (e_fd e) k (e_fd x) = Idle).
  { intros k x Hx. rewrite upd_other; [apply Z; right; exact Hx|]. intro Q. apply N1. rewrite <- Q. exact (in_map e_fd _ _ Hx). }
  destruct L as (L1 & L2 & L3 & L4 & L5). unfold qaccept_one. destruct (get_conn (e_fd e) t) as [c|] eqn:Eg.
  - destruct (get_in _ _ _ Eg) as [C1 C2]. assert (O := i_ok _ _ I c C1). rewrite C2, Zc in O. cbn in O. destruct O as [O Od]. assert (O' := O).
    destruct O as (B & T & O1 & O2 & O3). rewrite C2. destruct (c_bg c) as [j|] eqn:Ej.
    + apply (IH _ _ (upd cl (e_fd e) CAtt)); auto.
      * apply move_inv; [exact I|]. exists c. split; [exact C1|]. split; [exact C2|]. split; [exact O'|]. split; [exact Od|]. split; [congruence|].
        apply V; [exact C1|]. rewrite C2. left. reflexivity.
      * cbn. split; [apply has_push; [exact L1|congruence]|]. split; [apply has_other; [exact L2|congruence|discriminate]|].
        split; [apply hasin_other; [exact L3|rewrite Zc; intros s; discriminate|intros s; discriminate]|].
        split; [apply has_other; [exact L4|congruence|discriminate]|apply has_other; [exact L5|congruence|discriminate]].
      * apply within_upd; assumption.
      * intros d D1 D2. apply V; [exact D1|right; exact D2].
    + rewrite O1, O2. cbn [length Nat.ltb Nat.leb]. apply (IH _ _ (upd cl (e_fd e) CRd)); auto.
      * apply move_inv; [exact I|]. exists c. split; [exact C1|]. split; [exact C2|]. split; [exact O'|exact Ej].
      * cbn. split; [apply has_other; [exact L1|congruence|discriminate]|]. split; [apply has_push; [exact L2|congruence]|].
        split; [apply hasin_other; [exact L3|rewrite Zc; intros s; discriminate|intros s; discriminate]|].
        split; [apply has_other; [exact L4|congruence|discriminate]|apply has_other; [exact L5|congruence|discriminate]].
      * apply within_upd; assumption.
      * intros d D1 D2. apply V; [exact D1|right; exact D2].
  - destruct (e_new e).
    + cbn [conn_new c_fd c_bg c_out c_closed length Nat.ltb Nat.leb].
      assert (Fresh : ~ In (e_fd e) (map c_fd (t_conns t))).
      { intro Q. apply in_map_iff in Q. destruct Q as (d & D1 & D2). rewrite (in_get _ _ _ (i_nodup _ _ I) D2 D1) in Eg. discriminate. }
      match goal with |- exists _, let '(_, _) := qaccept _ _ ?t1 ?q1 in _ => set (t1' := t1); set (q1' := q1) end.
      assert (St : sstep (view t) (view t1')).
      { unfold NetSpec.view, t1'. cbn [t_shared t_conns t_gone map]. apply s_open. intro Q. apply Fresh. rewrite map_map in Q. exact Q. }
      match goal with |- exists _, let '(_, _) := ?X in _ => enough (EN : exists cl', let '(t', q') := X in
        inv t' cl' /\ lists cl' (q_attach q') q' (q_reads q') (q_ins q') (q_outs q') /\ within evs cl' /\ ssteps (view t1') (view t')) end.
      { destruct EN as (cl' & EN). exists cl'. destruct (qaccept opened es t1' q1') as [t2 q2]. destruct EN as (E1 & E2 & E3 & E4).
        split; [exact E1|]. split; [exact E2|]. split; [exact E3|]. exact (ss_next _ _ _ St E4). }
      subst t1' q1'. apply (IH _ _ (upd cl (e_fd e) CRd)); auto.
      * constructor; cbn.
        -- constructor; [|exact (i_nodup _ _ I)]. intro Q. apply in_map_iff in Q. destruct Q as (d & D1 & D2).
           rewrite (in_get _ _ _ (i_nodup _ _ I) D2 D1) in Eg. discriminate.
        -- intros c [C|C].
           ++ subst c. cbn. rewrite upd_same. split; [apply good_new|reflexivity].
           ++ rewrite upd_other; [exact (i_ok _ _ I c C)|]. intro Q. rewrite (in_get _ _ _ (i_nodup _ _ I) C Q) in Eg. discriminate.
        -- intros fd H. destruct (Nat.eq_dec fd (e_fd e)) as [Q|Q].
           ++ eexists. split; [left; reflexivity|cbn; auto].
           ++ rewrite upd_other in H by exact Q. destruct (i_known _ _ I fd H) as (d & D1 & D2). exists d. auto.
        -- exact (i_gone _ _ I).
      * cbn. split; [apply has_other; [exact L1|congruence|discriminate]|]. split; [apply has_push; [exact L2|congruence]|].
        split; [apply hasin_other; [exact L3|rewrite Zc; intros s; discriminate|intros s; discriminate]|].
        split; [apply has_other; [exact L4|congruence|discriminate]|apply has_other; [exact L5|congruence|discriminate]].
      * apply within_upd; assumption.
      * cbn. intros d [D|D] D2; [subst d; cbn; discriminate|]. apply V; [exact D|right; exact D2].
    + apply (IH _ _ cl); auto.
      * repeat split; assumption || apply L1 || apply L2 || apply L3 || apply L4 || apply L5.
      * intros d D. apply Z. right. exact D.
      * intros d D1 D2. apply V; [exact D1|right; exact D2].
Qed.

Ltac moves := repeat match goal with
  | |- _ /\ _ => split
  | |- has ?k ?l (upd ?cl ?fd ?k') => first [eapply has_other; [eassumption|congruence|discriminate] | eapply has_pop; [eassumption|discriminate] | idtac]
  | |- hasin ?l (upd ?cl ?fd ?k') => first [eapply hasin_other; [eassumption|intros ? ?; congruence|intros ? ?; discriminate] | idtac]
  end.
(** What a phase gives: it does not end, or the state is in order again. *)
Definition result (t0 : thread) (evs : list nat) (x : nres (thread * queues)) (P : thread -> queues -> (nat -> cls) -> Prop) : Prop :=
  x = NBad NStuck \/ exists t q cl, x = NOk (t, q) /\ ssteps (view t0) (view t) /\ inv t cl /\ within evs cl /\ P t q cl.

(** *** Attaching *)
Lemma qattach_one_ok : forall evs w fd att t q cl es, told (SRound w es) -> inv t cl -> within evs cl -> lists cl (fd :: att) q (q_reads q) (q_ins q) (q_outs q) ->
  result t evs (qattach_one done w fd t q) (fun t' q' cl' =>
    lists cl' att q' (q_reads q') (q_ins q') (q_outs q') /\ q_attach q' = q_attach q).
Proof.
  intros evs w fd att t q cl es Tw I W (L1 & L2 & L3 & L4 & L5).
  assert (K : cl fd = CAtt) by (apply L1; left; reflexivity).
  destruct (use_ok t cl fd I) as (c & U & C1 & C2 & O); [congruence|]. unfold qattach_one. rewrite U. cbn [nbind].
  rewrite K in O. destruct O as (((B1 & B2) & (T1 & T2) & O1 & O2 & Lv & O3) & Od & O4 & O5). destruct (c_bg c) as [j|] eqn:Ej; [|congruence].
  destruct O3 as [O3|[O3 O6]]; [congruence|]. destruct (done j (c_data c)) as [[a out] b] eqn:Ed.
  unfold unwatch. cbn [set_bg shut say set_data add_act c_watch]. rewrite O3. cbn [nbind watch c_watch].
  match goal with |- context [flush ?ws ?d] => set (d0 := d); destruct (flush_cases ws d0) as [F|(s & fb & rest & F1 & F2 & Fe & F3)] end.
  { rewrite F. left. reflexivity. }
  rewrite F3. cbn [nbind]. right.
  assert (G1 : gots (c_acts d0) = feds (c_acts d0)).
  { subst d0. cbn. rewrite !gots_app, !feds_app. cbn. rewrite !app_nil_r. exact T1. }
  assert (G2 : saids (c_acts d0) = sents (c_acts d0) ++ c_out d0).
  { subst d0. cbn. rewrite !saids_app, !sents_app. cbn. rewrite !app_nil_r, T2, O1. reflexivity. }
  assert (G3 : orderly (c_acts d0)).
  { subst d0. cbn. apply orderly_snoc; [|discriminate]. apply orderly_snoc; [exact B1|discriminate]. }
  assert (G4 : c_data d0 = replay (c_acts d0)).
  { unfold NetSpec.replay in *. subst d0. cbn [c_data c_acts set_bg shut say set_data add_act]. rewrite !fold_left_app. cbn [fold_left]. unfold replay_one at 1. unfold replay_one at 1.
    rewrite <- B2, Ed. reflexivity. }
  unfold flushed. set (c' := add_act (Sent s fb) _).
  assert (E1 : c_fd c' = fd) by (subst c' d0; cbn; exact C2).
  assert (G5 : orderly (c_acts c')) by (subst c'; cbn; apply orderly_snoc; [exact G3|discriminate]).
  assert (G6 : c_data c' = replay (c_acts c')).
  { subst c'. cbn [c_data c_acts add_act]. unfold NetSpec.replay. rewrite fold_left_app. cbn [fold_left replay_one]. exact G4. }
  assert (G7 : gots (c_acts c') = feds (c_acts c')).
  { subst c'. cbn. rewrite gots_app, feds_app. cbn. rewrite !app_nil_r. exact G1. }
  assert (G8 : (fb = true /\ sents (c_acts c') = saids (c_acts c')) \/ (fb = false /\ broken (c_acts c'))).
  { subst c'. cbn [c_acts add_act]. exact (flush_acts _ _ _ _ _ G2 F1 F2). }
  assert (G9 : live c').
  { unfold live in *. subst c' d0. cbn [c_acts add_act set_bg shut say set_data]. rewrite !over_app, Lv, !over_one. reflexivity. }
  assert (G10 : ssteps (view t) (view (put_conn c' t))).
  { assert (Vc : conn_view c = mkSconn A J (c_fd c) (feds (c_acts c)) (saids (c_acts c)) (c_data c) (Some (j, true)) false false false).
    { unfold NetSpec.conn_view. rewrite Ej, O3, O2. unfold live in Lv. unfold undue in Od. rewrite Lv, Od. reflexivity. }
    assert (Vc' : conn_view c' = mkSconn A J (c_fd c) (feds (c_acts c)) (saids (c_acts c) ++ out) a None (b || negb fb) false true).
    { unfold NetSpec.conn_view. unfold live in G9. rewrite G9. subst c' d0. cbn. rewrite !feds_app, !saids_app, !due_snoc. cbn. rewrite !app_nil_r, O2. reflexivity. }
    destruct fb.
    - rewrite orb_false_r in Vc'. apply one. apply (act_put t c c' (t_shared t) (i_nodup _ _ I) C1); [congruence|]. rewrite Vc, Vc'. apply s_done. exact Ed.
    - assert (K1 : c_fd d0 = c_fd c) by reflexivity.
      assert (Vd : conn_view d0 = mkSconn A J (c_fd c) (feds (c_acts c)) (saids (c_acts c) ++ out) a None b false true).
      { unfold NetSpec.conn_view. subst d0. cbn. rewrite !feds_app, !saids_app, !over_app, !over_one, !due_snoc. cbn. rewrite !app_nil_r, O2. unfold live in Lv. rewrite Lv. reflexivity. }
      apply (ss_next _ (view (put_conn d0 t))).
      + apply (act_put t c d0 (t_shared t) (i_nodup _ _ I) C1 K1). rewrite Vc, Vd. apply s_done. exact Ed.
      + replace (view (put_conn c' t)) with (view (set_shared (t_shared (put_conn d0 t)) (put_conn c' (put_conn d0 t)))).
        * apply one. apply (act_put (put_conn d0 t) d0 c').
          -- rewrite put_fds. exact (i_nodup _ _ I).
          -- assert (P := in_put d0 t c C1). rewrite K1, Nat.eqb_refl in P. exact P.
          -- reflexivity.
          -- rewrite Vd, Vc', orb_true_r. apply s_fail. rewrite C2. apply (proj1 (Tw fd)). left. exists 0%nat. exact (Fe eq_refl).
        * unfold put_conn, set_shared, NetSpec.view. cbn [t_conns t_shared t_gone]. f_equal. rewrite !map_map. apply map_ext. intro d.
          change (c_fd d0) with (c_fd c'). destruct (c_fd d =? c_fd c')%nat eqn:Q; [rewrite Nat.eqb_refl; reflexivity|rewrite Q; reflexivity]. }
  destruct (c_closed c') eqn:Ec.
  - eexists. eexists. exists (upd cl (c_fd c') CCl). split; [reflexivity|]. split; [exact G10|]. split; [|split].
    + apply put_inv; [exact I| |].
      * exists c. split; [exact C1|congruence].
      * cbn. split; [exact G5|]. split; [exact G7|]. split; [|split; [exact G6|left; exact Ec]]. destruct G8 as [[_ G8]|[_ G8]]; auto.
    + apply within_upd; [exact W|]. apply W. congruence.
    + rewrite E1. cbn. unfold lists. cbn. moves; try reflexivity. apply has_push; [exact L5|congruence].
  - eexists. eexists. exists (upd cl (c_fd c') CRd). split; [reflexivity|]. split; [exact G10|]. split; [|split].
    + apply put_inv; [exact I| |].
      * exists c. split; [exact C1|congruence].
      * assert (Fb : fb = true). { subst c'. cbn in Ec. apply orb_false_iff in Ec. destruct fb; [reflexivity|destruct Ec; discriminate]. }
        destruct G8 as [[_ G8]|[G8 _]]; [|congruence]. cbn. split; [|reflexivity]. split; [split; assumption|]. split; [split; assumption|].
        split; [reflexivity|]. split; [exact Ec|]. split; [exact G9|]. cbn. auto.
    + apply within_upd; [exact W|]. apply W. congruence.
    + rewrite E1. cbn. unfold lists. cbn. moves; try reflexivity. apply has_push; [exact L2|congruence].
Qed.
Lemma qattach_ok : forall evs w es att t q cl, told (SRound w es) -> inv t cl -> within evs cl -> lists cl att q (q_reads q) (q_ins q) (q_outs q) ->
  result t evs (qattach done w att t q) (fun t' q' cl' =>
    lists cl' [] q' (q_reads q') (q_ins q') (q_outs q') /\ q_attach q' = q_attach q).
Proof.
  intros evs w es. induction att as [|fd att IH]; intros t q cl Tw I W L.
  - right. exists t, q, cl. split; [reflexivity|]. split; [apply ss_refl|]. auto 10.
  - cbn [qattach]. destruct (qattach_one_ok evs w fd att t q cl es Tw I W L) as [E|(t1 & q1 & cl1 & E & V1 & I1 & W1 & L1 & Q1)]; rewrite E; cbn [nbind]; [left; reflexivity|].
    destruct (IH t1 q1 cl1 Tw I1 W1 L1) as [E2|(t2 & q2 & cl2 & E2 & V2 & I2 & W2 & L2 & Q2)]; rewrite E2; [left; reflexivity|].
    right. exists t2, q2, cl2. split; [reflexivity|]. split; [exact (trans _ _ _ V1 V2)|]. split; [exact I2|]. split; [exact W2|]. split; [exact L2|congruence].
Qed.

(** *** Reading *)
Lemma qread_one_ok : forall evs r fd reads t q cl, (r = REof \/ r = RErr -> ending fd) -> inv t cl -> within evs cl -> lists cl [] q (fd :: reads) (q_ins q) (q_outs q) ->
  result t evs (handle_read r r fd t q) (fun t' q' cl' =>
    lists cl' [] q' reads (q_ins q') (q_outs q') /\ q_attach q' = q_attach q /\ q_reads q' = q_reads q).
Proof.
  intros evs r fd reads t q cl Tw I W (L1 & L2 & L3 & L4 & L5).
  assert (K : cl fd = CRd) by (apply L2; left; reflexivity).
  destruct (use_ok t cl fd I) as (c & U & C1 & C2 & O); [congruence|]. unfold handle_read. rewrite U. cbn [nbind].
  rewrite K in O. destruct O as (((B1 & B2) & (T1 & T2) & O1 & O2 & Lv & O3) & O4). rewrite O1, O4. rewrite O4 in O3. destruct O3 as [O5 O6].
  cbn [length Nat.eqb negb]. right.
  assert (Take : forall s, exists t1 q1 cl1,
    NOk (put_conn (add_act (Got s) c) t, mkQueues (q_attach q) (q_reads q) (q_ins q ++ [(fd, s)]) (q_outs q) (q_closes q)) = NOk (t1, q1) /\
    ssteps (view t) (view t1) /\ inv t1 cl1 /\ within evs cl1 /\ lists cl1 [] q1 reads (q_ins q1) (q_outs q1) /\ q_attach q1 = q_attach q /\ q_reads q1 = q_reads q).
  { intro s. eexists. eexists. exists (upd cl (c_fd c) (CIn s)). split; [reflexivity|]. split; [|split; [|split]].
    - apply same_steps. symmetry. apply (same_put t c); [exact (i_nodup _ _ I)|exact C1|reflexivity|].
      unfold NetSpec.conn_view. cbn. rewrite feds_app, saids_app, over_app, over_one, due_snoc. cbn. rewrite !app_nil_r, orb_false_r. reflexivity.
    - change (c_fd c) with (c_fd (add_act (Got s) c)). apply put_inv; [exact I|exists c; auto|]. cbn [ok].
      split; [split|].
      + cbn. apply orderly_snoc; [exact B1|]. intros _. split; [exact T1|exact T2].
      + cbn [c_data c_acts add_act]. unfold NetSpec.replay. rewrite fold_left_app. cbn. exact B2.
      + cbn. rewrite gots_app, feds_app, sents_app, saids_app. cbn. rewrite !app_nil_r, T1, T2. unfold live in *. cbn. rewrite over_app, Lv, over_one. auto 12.
    - apply within_upd; [exact W|]. apply W. congruence.
    - rewrite C2. cbn. unfold lists. cbn. moves; try reflexivity. apply hasin_push; [exact L3|]. intros x. congruence. }
  assert (Close : ending fd -> exists t1 q1 cl1,
    NOk (put_conn (add_act Over c) t, mkQueues (q_attach q) (q_reads q) (q_ins q) (q_outs q) (q_closes q ++ [fd])) = NOk (t1, q1) /\
    ssteps (view t) (view t1) /\ inv t1 cl1 /\ within evs cl1 /\ lists cl1 [] q1 reads (q_ins q1) (q_outs q1) /\ q_attach q1 = q_attach q /\ q_reads q1 = q_reads q).
  { intro Te. eexists. eexists. exists (upd cl (c_fd (add_act Over c)) CCl). split; [reflexivity|]. split; [|split; [|split]].
    - apply one. apply (act_put t c (add_act Over c) (t_shared t) (i_nodup _ _ I) C1 eq_refl).
      unfold NetSpec.conn_view. cbn. rewrite feds_app, saids_app, over_app, over_one, due_snoc, O4, O2. unfold live in Lv. rewrite Lv. cbn. rewrite !app_nil_r. apply s_end. rewrite C2. exact Te.
    - apply put_inv; [exact I|exists c; auto|]. cbn. split; [apply orderly_snoc; [exact B1|discriminate]|].
      cbn [c_acts add_act c_data c_closed]. rewrite gots_app, feds_app, sents_app, saids_app, over_app, over_one. cbn. rewrite !app_nil_r, orb_true_r. split; [exact T1|]. split; [left; exact T2|].
      split; [|right; reflexivity]. unfold NetSpec.replay. rewrite fold_left_app. cbn. exact B2.
    - cbn. rewrite C2. apply within_upd; [exact W|]. apply W. congruence.
    - cbn. rewrite C2. unfold lists. cbn. moves; try reflexivity. apply has_push; [exact L5|congruence]. }
  destruct r as [s| | |]; auto.
Qed.
Lemma qread_ok : forall evs rs t q cl, Forall (fun p => fst (snd p) = snd (snd p) /\ (fst (snd p) = REof \/ fst (snd p) = RErr -> ending (fst p))) rs -> inv t cl -> within evs cl -> lists cl [] q (map fst rs) (q_ins q) (q_outs q) ->
  result t evs (qread rs t q) (fun t' q' cl' =>
    lists cl' [] q' [] (q_ins q') (q_outs q') /\ q_attach q' = q_attach q /\ q_reads q' = q_reads q).
Proof.
  intros evs. induction rs as [|[fd [own r]] rs IH]; intros t q cl Fs I W L.
  - right. exists t, q, cl. split; [reflexivity|]. split; [apply ss_refl|]. auto 10.
  - inversion Fs as [|? ? F1 F2]; subst. cbn in F1. destruct F1 as [F1 Tf]. subst own. cbn [qread]. destruct (qread_one_ok evs r fd (map fst rs) t q cl Tf I W L) as [E|(t1 & q1 & cl1 & E & V1 & I1 & W1 & L1 & Q1 & R1)]; rewrite E; cbn [nbind]; [left; reflexivity|].
    destruct (IH t1 q1 cl1 F2 I1 W1 L1) as [E2|(t2 & q2 & cl2 & E2 & V2 & I2 & W2 & L2 & Q2 & R2)]; rewrite E2; [left; reflexivity|].
    right. exists t2, q2, cl2. split; [reflexivity|]. split; [exact (trans _ _ _ V1 V2)|]. split; [exact I2|]. split; [exact W2|]. split; [exact L2|split; congruence].
Qed.

(** *** Handling packets *)
Lemma feed_ok : forall w es fd s c g, told (SRound w es) -> ok (CIn s) c -> c_fd c = fd ->
  feed data w fd s c g = NBad NStuck \/
  exists c' g', feed data w fd s c g = NOk (c', g') /\ c_fd c' = fd /\ sact (conn_view c) g (conn_view c') g' /\ (c_bg c' <> None /\ ok Idle c' \/ ok COut c').
Proof.
  intros w es fd s c g Tw ((B1 & B2) & O1 & O2 & O3 & O4 & O5 & O6 & O7 & Lv) Ef. unfold feed. unfold live in Lv.
  assert (Vc : conn_view c = mkSconn A J (c_fd c) (feds (c_acts c)) (saids (c_acts c)) (c_data c) None false false (due (c_acts c))).
  { unfold NetSpec.conn_view. rewrite O1, O5, Lv. reflexivity. }
  assert (H1 : orderly (c_acts c ++ [Fed s g])) by (apply orderly_snoc; [exact B1|discriminate]).
  assert (R : fold_left (replay_one A G J data done) (c_acts c ++ [Fed s g]) (opened, opened) =
    match data s (c_data c) g with HDone a _ _ _ => (a, a) | HBack a _ _ _ (a2, _, _) => (a, a2) end).
  { rewrite fold_left_app. cbn [fold_left]. unfold replay_one at 1. unfold NetSpec.replay in B2. rewrite <- B2. reflexivity. }
  destruct (data s (c_data c) g) as [a g1 out cl|a g1 out j [[a2 g2] out2]] eqn:Ed.
  - right. eexists. eexists. split; [reflexivity|]. split; [exact Ef|]. split.
    { rewrite Vc. unfold NetSpec.conn_view. cbn. rewrite O1, O5, !feds_app, !saids_app, !over_app, !over_one, !due_snoc, Lv. cbn. rewrite !app_nil_r. apply s_packet. exact Ed. }
    right. cbn [ok]. split; [split|].
    + cbn. apply orderly_snoc; [exact H1|discriminate].
    + cbn [c_data c_acts shut say set_data add_act]. unfold NetSpec.replay. rewrite fold_left_app, R. reflexivity.
    + cbn. split; [exact O1|]. split; [exact O2|]. split; [exact O3|]. rewrite !gots_app, !feds_app, !saids_app, !sents_app. cbn.
      rewrite !app_nil_r, O4, O6, O7. split; [reflexivity|]. split; [left; reflexivity|]. unfold live, undue. cbn. rewrite !over_app, !over_one, !due_snoc, Lv. split; reflexivity.
  - unfold bgwork. cbn [c_bg c_closed say set_data add_act]. rewrite O1, O5. cbn [orb].
    match goal with |- context [flush ?ws ?d] => set (d0 := d); destruct (flush_cases ws d0) as [F|(so & fb & rest & F1 & F2 & Fe & F3)] end.
    { rewrite F. left. reflexivity. }
    rewrite F3. cbn [nbind]. right.
    assert (G1 : gots (c_acts d0) = feds (c_acts d0)).
    { subst d0. cbn. rewrite !gots_app, !feds_app. cbn. rewrite !app_nil_r. exact O6. }
    assert (G2 : saids (c_acts d0) = sents (c_acts d0) ++ c_out d0).
    { subst d0. cbn. rewrite !saids_app, !sents_app. cbn. rewrite !app_nil_r, O7, O4. reflexivity. }
    assert (G3 : orderly (c_acts d0)) by (subst d0; cbn; apply orderly_snoc; [exact H1|discriminate]).
    assert (G4 : fold_left (replay_one A G J data done) (c_acts d0) (opened, opened) = (a, a2)).
    { subst d0. cbn [c_data c_acts say set_data add_act]. rewrite fold_left_app, R. reflexivity. }
    unfold flushed. set (c' := add_act (Sent so fb) _).
    assert (G5 : orderly (c_acts c')) by (subst c'; cbn; apply orderly_snoc; [exact G3|discriminate]).
    assert (G6 : fold_left (replay_one A G J data done) (c_acts c') (opened, opened) = (a, a2)).
    { subst c'. cbn [c_acts add_act]. rewrite fold_left_app, G4. reflexivity. }
    assert (G7 : gots (c_acts c') = feds (c_acts c')).
    { subst c'. cbn. rewrite gots_app, feds_app. cbn. rewrite !app_nil_r. exact G1. }
    assert (G8 := flush_acts _ _ _ _ _ G2 F1 F2). change (c_acts d0 ++ [Sent so fb]) with (c_acts c') in G8.
    assert (Cc : c_closed c' = negb fb) by (subst c' d0; cbn; rewrite O5; reflexivity).
    assert (Cw : c_watch c' = Some false) by (subst c' d0; cbn; exact O2).
    assert (Lv' : over (c_acts c') = false) by (subst c' d0; cbn [c_acts add_act say set_data]; rewrite !over_app, !over_one, Lv; reflexivity).
    assert (Fv : feds (c_acts c') = feds (c_acts c) ++ [s]) by (subst c' d0; cbn [c_acts add_act say set_data]; rewrite !feds_app; cbn; rewrite !app_nil_r; reflexivity).
    assert (Sv : saids (c_acts c') = saids (c_acts c) ++ out) by (subst c' d0; cbn [c_acts add_act say set_data]; rewrite !saids_app; cbn; rewrite !app_nil_r; reflexivity).
    assert (Dv : due (c_acts c') = false) by (subst c' d0; cbn [c_acts add_act say set_data]; rewrite !due_snoc; reflexivity).
    rewrite Cc. destruct fb; cbn [negb].
    + unfold unwatch. rewrite Cw. cbn [nbind]. eexists. eexists. split; [reflexivity|]. split; [exact Ef|]. split.
      { rewrite Vc. unfold NetSpec.conn_view. cbn [c_fd c_acts c_data c_bg c_watch c_closed set_bg]. rewrite Fv, Sv, Lv', Dv, Cc. eapply s_begin. exact Ed. }
      left. split; [discriminate|].
      destruct G8 as [[_ G8]|[G8 _]]; [|discriminate]. split; [|exact Dv]. split; [split|].
      * exact G5.
      * cbn [c_data c_acts set_bg]. unfold NetSpec.replay. rewrite G6. reflexivity.
      * cbn. split; [split; assumption|]. split; [reflexivity|]. split; [exact Cc|]. split; [|left; reflexivity]. exact Lv'.
    + cbn [nbind]. eexists. eexists. split; [reflexivity|]. split; [exact Ef|]. split.
      { rewrite Vc. unfold NetSpec.conn_view. cbn [c_fd c_acts c_data c_bg c_watch c_closed say set_data add_act]. rewrite !feds_app, !saids_app, !over_app, !over_one, !due_snoc, Fv, Sv, Lv', Dv, Cc.
        cbn [NetSpec.feds NetSpec.saids orb negb]. rewrite !app_nil_r, <- app_assoc. change (c_bg c') with (c_bg c). rewrite O1. eapply s_refuse; [|exact Ed]. change (failing (c_fd c)). rewrite Ef. apply (proj1 (Tw fd)). left. exists 1%nat. exact (Fe eq_refl). }
      right. destruct G8 as [[G8 _]|[_ G8]]; [discriminate|]. cbn [ok]. split; [split|].
      * cbn [c_acts say set_data add_act]. apply orderly_snoc; [|discriminate]. apply orderly_snoc; [exact G5|discriminate].
      * cbn [c_data c_acts say set_data add_act]. unfold NetSpec.replay. rewrite !fold_left_app. rewrite G6. reflexivity.
      * cbn [c_bg c_watch c_thread c_acts c_closed say set_data add_act]. split; [exact O1|]. split; [exact Cw|]. split; [exact O3|].
        rewrite !gots_app, !feds_app. cbn [NetSpec.gots NetSpec.feds]. rewrite !app_nil_r. split; [exact G7|].
        split; [|unfold live, undue; cbn [c_acts say set_data add_act]; rewrite !over_app, !over_one, !due_snoc, Lv', Dv; split; reflexivity]. right. split; [|exact Cc].
        apply broken_app. apply broken_app. exact G8.
Qed.
Lemma qprocess_one_ok : forall evs w es p ins t q cl, told (SRound w es) -> inv t cl -> within evs cl -> lists cl [] q [] (p :: ins) (q_outs q) ->
  result t evs (qprocess_one data w p t q) (fun t' q' cl' =>
    lists cl' [] q' [] ins (q_outs q') /\ q_attach q' = q_attach q /\ q_reads q' = q_reads q /\ q_ins q' = q_ins q).
Proof.
  intros evs w es [fd s] ins t q cl Tw I W (L1 & L2 & L3 & L4 & L5).
  assert (K : cl fd = CIn s) by (apply L3; left; reflexivity).
  destruct (use_ok t cl fd I) as (c & U & C1 & C2 & O); [congruence|]. unfold qprocess_one. rewrite U. cbn [nbind].
  rewrite K in O. destruct (feed_ok w es fd s c (a_other w fd (t_shared t)) Tw O C2) as [E|(c' & g' & E & Ef & Sa & H)]; rewrite E; [left; reflexivity|].
  cbn [nbind]. right.
  assert (St : ssteps (view t) (view (set_shared g' (put_conn c' t)))).
  { apply (ss_next _ (view (set_shared (a_other w fd (t_shared t)) t))); [apply s_other; exact (proj2 (proj2 (Tw fd)))|]. apply one.
    apply (act_put (set_shared (a_other w fd (t_shared t)) t) c c' g'); [exact (i_nodup _ _ I)|exact C1|congruence|exact Sa]. } assert (We : In fd evs) by (apply W; congruence).
  assert (Ex : exists d, In d (t_conns t) /\ c_fd d = c_fd c') by (exists c; split; [exact C1|congruence]).
  assert (Pop : forall k', notin k' -> hasin ins (upd cl fd k')) by (intros k' D; exact (hasin_pop _ _ _ _ _ L3 D)).
  assert (Fin : forall k q1, ok k c' -> notin k ->
    has CAtt [] (upd cl fd k) -> has CRd [] (upd cl fd k) -> has COut (q_outs q1) (upd cl fd k) -> has CCl (q_closes q1) (upd cl fd k) ->
    q_attach q1 = q_attach q /\ q_reads q1 = q_reads q /\ q_ins q1 = q_ins q ->
    exists t' q' cl', NOk (set_shared g' (put_conn c' t), q1) = NOk (t', q') /\ ssteps (view t) (view t') /\ inv t' cl' /\ within evs cl' /\
      lists cl' [] q' [] ins (q_outs q') /\ q_attach q' = q_attach q /\ q_reads q' = q_reads q /\ q_ins q' = q_ins q).
  { intros k q1 K1 K2 H1 H2 H3 H4 H5. eexists. eexists. exists (upd cl fd k). split; [reflexivity|]. split; [exact St|]. split; [|split].
    - apply shared_inv. rewrite <- Ef. apply put_inv; assumption.
    - apply within_upd; assumption.
    - split; [|exact H5]. unfold lists. split; [exact H1|]. split; [exact H2|]. split; [exact (Pop k K2)|]. split; assumption. }
  assert (D1 : cl fd <> CAtt) by congruence. assert (D2 : cl fd <> CRd) by congruence. assert (D3 : cl fd <> COut) by congruence. assert (D4 : cl fd <> CCl) by congruence.
  destruct (c_bg c') as [j|] eqn:Ej.
  - destruct H as [[_ H]|H]; [|destruct H as (_ & H & _); congruence]. apply (Fin Idle q); auto; try (intros ? ?; discriminate); apply has_other; auto; discriminate.
  - destruct H as [[H _]|H]; [congruence|]. destruct (0 <? length (c_out c'))%nat eqn:Eo.
    + apply (Fin COut); cbn; auto; try (intros ? ?; discriminate); try (apply has_other; auto; discriminate). apply has_push; auto.
    + assert (Eo' : c_out c' = []) by (destruct (c_out c'); [reflexivity|cbn in Eo; discriminate]). destruct H as ((H1 & H2) & _ & H3 & H4 & H5 & H6 & H7 & H8).
      rewrite Eo', app_nil_r in H6. destruct (c_closed c') eqn:Ec.
      * apply (Fin CCl); cbn; auto; try (intros ? ?; discriminate); try (apply has_other; auto; discriminate).
        -- split; [exact H1|]. split; [exact H5|]. split; [|split; [exact H2|left; exact Ec]]. destruct H6 as [H6|[H6 _]]; auto.
        -- apply has_push; auto.
      * destruct H6 as [H6|[_ H6]]; [|congruence].
        apply (Fin Idle q); auto; try (intros ? ?; discriminate); try (apply has_other; auto; discriminate).
        split; [|exact H8]. split; [split; assumption|]. split; [split; auto|]. split; [exact Eo'|]. split; [exact Ec|]. split; [exact H7|]. rewrite Ej. auto.
Qed.
Lemma qprocess_ok : forall evs w es ins t q cl, told (SRound w es) -> inv t cl -> within evs cl -> lists cl [] q [] ins (q_outs q) ->
  result t evs (qprocess data w ins t q) (fun t' q' cl' =>
    lists cl' [] q' [] [] (q_outs q') /\ q_attach q' = q_attach q /\ q_reads q' = q_reads q /\ q_ins q' = q_ins q).
Proof.
  intros evs w es. induction ins as [|p ins IH]; intros t q cl Tw I W L.
  - right. exists t, q, cl. split; [reflexivity|]. split; [apply ss_refl|]. auto 10.
  - cbn [qprocess]. destruct (qprocess_one_ok evs w es p ins t q cl Tw I W L) as [E|(t1 & q1 & cl1 & E & V1 & I1 & W1 & L1 & Q1 & R1 & S1)]; rewrite E; cbn [nbind]; [left; reflexivity|].
    destruct (IH t1 q1 cl1 Tw I1 W1 L1) as [E2|(t2 & q2 & cl2 & E2 & V2 & I2 & W2 & L2 & Q2 & R2 & S2)]; rewrite E2; [left; reflexivity|].
    right. exists t2, q2, cl2. split; [reflexivity|]. split; [exact (trans _ _ _ V1 V2)|]. split; [exact I2|]. split; [exact W2|]. split; [exact L2|repeat split; congruence].
Qed.

(** *** Writing and closing *)
Definition same (p : nat * option (wres * wres)) : Prop := match snd p with None => True | Some (a, b) => a = b /\ (a = WErr -> failing (fst p)) end.
Lemma qwrite_one_ok : forall evs w es fd u outs t q cl, told (SRound w es) -> same (fd, u) -> inv t cl -> within evs cl -> lists cl [] q [] [] (fd :: outs) ->
  result t evs (qwrite_one w fd u t q) (fun t' q' cl' => lists cl' [] q' [] [] outs /\
    q_attach q' = q_attach q /\ q_reads q' = q_reads q /\ q_ins q' = q_ins q /\ q_outs q' = q_outs q).
Proof.
  intros evs w es fd u outs t q cl Tw Su I W (L1 & L2 & L3 & L4 & L5).
  assert (K : cl fd = COut) by (apply L4; left; reflexivity).
  destruct (use_ok t cl fd I) as (c & U & C1 & C2 & O); [congruence|]. unfold qwrite_one. rewrite U. cbn [nbind].
  rewrite K in O. destruct O as ((B1 & B2) & O1 & O2 & O3 & O4 & O5 & Lv & Od).
  set (X := match u with None => flush (a_write w 2 fd) c | Some (own, seen) => flush_uring own seen (a_write w 2 fd) c end).
  assert (FC : X = NBad NStuck \/ exists s b rest, c_out c = s ++ rest /\ (b = true -> rest = []) /\ (b = false -> failing fd) /\ X = NOk (flushed s b c)).
  { assert (Te : In WErr (a_write w 2 fd) -> failing fd) by (intro Q; apply (proj1 (Tw fd)); left; exists 2%nat; exact Q).
    subst X. destruct u as [[own seen]|].
    - cbn in Su. destruct Su as [Su1 Su2]. subst seen. destruct (flush_uring_cases own (a_write w 2 fd) c) as [Q|(s & b & rest & Q1 & Q2 & Q3 & Q4)]; [left; exact Q|].
      right. exists s, b, rest. split; [exact Q1|]. split; [exact Q2|]. split; [|exact Q4]. intro Q. destruct (Q3 Q); auto.
    - destruct (flush_cases (a_write w 2 fd) c) as [Q|(s & b & rest & Q1 & Q2 & Q3 & Q4)]; [left; exact Q|].
      right. exists s, b, rest. auto 10. }
  destruct FC as [F|(s & fb & rest & F1 & F2 & Fe & F3)]; [rewrite F; left; reflexivity|]. rewrite F3. cbn [nbind]. right.
  unfold flushed. set (c' := add_act (Sent s fb) _).
  assert (Ef : c_fd c' = fd) by exact C2. assert (We : In fd evs) by (apply W; congruence).
  assert (G5 : orderly (c_acts c')) by (subst c'; cbn; apply orderly_snoc; [exact B1|discriminate]).
  assert (G6 : c_data c' = replay (c_acts c')).
  { subst c'. cbn [c_data c_acts add_act]. unfold NetSpec.replay. rewrite fold_left_app. cbn [fold_left replay_one]. exact B2. }
  assert (G7 : gots (c_acts c') = feds (c_acts c')) by (subst c'; cbn; rewrite gots_app, feds_app; cbn; rewrite !app_nil_r; exact O4).
  assert (G8 : (fb = true /\ sents (c_acts c') = saids (c_acts c')) \/ (c_closed c' = true /\ broken (c_acts c'))).
  { destruct O5 as [O5|[O5 O6]].
    - destruct (flush_acts _ _ _ _ _ O5 F1 F2) as [[Q1 Q2]|[Q1 Q2]]; [left; auto|right]. split; [|exact Q2]. subst c' fb. cbn. apply orb_true_r.
    - right. split; [subst c'; cbn; rewrite O6; reflexivity|]. subst c'. cbn [c_acts add_act]. apply broken_app. exact O5. }
  assert (Ex : exists d, In d (t_conns t) /\ c_fd d = c_fd c') by (exists c; split; [exact C1|congruence]).
  assert (D1 : cl fd <> CAtt) by congruence. assert (D2 : cl fd <> CRd) by congruence. assert (D4 : cl fd <> CCl) by congruence.
  assert (D3 : notin (cl fd)) by (intros ? ?; congruence).
  assert (Lv' : over (c_acts c') = false) by (subst c'; cbn [c_acts add_act]; rewrite over_app, over_one, Lv; reflexivity).
  assert (Od' : due (c_acts c') = false) by (subst c'; cbn [c_acts add_act]; rewrite due_snoc; exact Od).
  assert (St : ssteps (view t) (view (put_conn c' t))).
  { assert (Vc : conn_view c = mkSconn A J (c_fd c) (feds (c_acts c)) (saids (c_acts c)) (c_data c) None (c_closed c) false false) by (unfold NetSpec.conn_view; unfold undue in Od; rewrite O1, Lv, Od; reflexivity).
    assert (Vc' : conn_view c' = mkSconn A J (c_fd c) (feds (c_acts c)) (saids (c_acts c)) (c_data c) None (c_closed c || negb fb) false false).
    { unfold NetSpec.conn_view. rewrite Lv', Od'. subst c'. cbn. rewrite feds_app, saids_app, O1. cbn. rewrite !app_nil_r. reflexivity. }
    destruct fb; cbn [negb] in Vc'.
    - apply same_steps. symmetry. apply (same_put t c); [exact (i_nodup _ _ I)|exact C1|congruence|]. rewrite Vc, Vc', orb_false_r. reflexivity.
    - apply one. apply (act_put t c c' (t_shared t) (i_nodup _ _ I) C1); [congruence|]. rewrite Vc, Vc', orb_true_r. apply s_fail. rewrite C2. exact (Fe eq_refl). }
  destruct (c_closed c') eqn:Ec.
  - eexists. eexists. exists (upd cl (c_fd c') CCl). split; [reflexivity|]. split; [exact St|]. split; [|split].
    + apply put_inv; [exact I|exact Ex|]. cbn. split; [exact G5|]. split; [exact G7|]. split; [|split; [exact G6|left; exact Ec]]. destruct G8 as [[_ G8]|[_ G8]]; auto.
    + rewrite Ef. apply within_upd; assumption.
    + rewrite Ef. cbn. unfold lists. cbn. moves; try reflexivity. apply has_push; assumption.
  - destruct G8 as [[_ G8]|[G8 _]]; [|discriminate].
    eexists. eexists. exists (upd cl (c_fd c') Idle). split; [reflexivity|]. split; [exact St|]. split; [|split].
    + apply put_inv; [exact I|exact Ex|]. split; [|exact Od']. split; [split; assumption|]. split; [split; assumption|]. split; [reflexivity|]. split; [exact Ec|]. split; [exact Lv'|]. cbn. rewrite O1. auto.
    + rewrite Ef. apply within_upd; assumption.
    + rewrite Ef. cbn. unfold lists. cbn. moves; reflexivity.
Qed.
Lemma qwrite_ok : forall evs w es rs t q cl, told (SRound w es) -> Forall same rs -> inv t cl -> within evs cl -> lists cl [] q [] [] (map fst rs) ->
  result t evs (qwrite w rs t q) (fun t' q' cl' => lists cl' [] q' [] [] [] /\
    q_attach q' = q_attach q /\ q_reads q' = q_reads q /\ q_ins q' = q_ins q /\ q_outs q' = q_outs q).
Proof.
  intros evs w es. induction rs as [|[fd u] rs IH]; intros t q cl Tw Fs I W L.
  - right. exists t, q, cl. split; [reflexivity|]. split; [apply ss_refl|]. auto 10.
  - inversion Fs as [|? ? F1 F2]; subst. cbn [qwrite]. destruct (qwrite_one_ok evs w es fd u (map fst rs) t q cl Tw F1 I W L) as [E|(t1 & q1 & cl1 & E & V1 & I1 & W1 & L1 & Q1 & R1 & S1 & T1)]; rewrite E; cbn [nbind]; [left; reflexivity|].
    destruct (IH t1 q1 cl1 Tw F2 I1 W1 L1) as [E2|(t2 & q2 & cl2 & E2 & V2 & I2 & W2 & L2 & Q2 & R2 & S2 & T2)]; rewrite E2; [left; reflexivity|].
    right. exists t2, q2, cl2. split; [reflexivity|]. split; [exact (trans _ _ _ V1 V2)|]. split; [exact I2|]. split; [exact W2|]. split; [exact L2|repeat split; congruence].
Qed.
Lemma qclose_ok : forall fds t cl, inv t cl -> (forall fd, cl fd = Idle \/ cl fd = CCl) -> has CCl fds cl ->
  exists t', qclose fds t = NOk t' /\ ssteps (view t) (view t') /\ inv t' (fun _ => Idle).
Proof.
  induction fds as [|fd fds IH]; intros t cl I Z H.
  - exists t. split; [reflexivity|]. split; [apply ss_refl|]. assert (Z' : forall fd, cl fd = Idle).
    { intro fd. destruct (Z fd) as [Q|Q]; [exact Q|]. apply H in Q. destruct Q. }
    constructor; [exact (i_nodup _ _ I)| |intros fd Q; congruence|exact (i_gone _ _ I)].
    intros c C. rewrite <- (Z' (c_fd c)). exact (i_ok _ _ I c C).
  - assert (K : cl fd = CCl) by (apply H; left; reflexivity).
    destruct (use_ok t cl fd I) as (c & U & C1 & C2 & O); [congruence|]. cbn [qclose]. rewrite U. cbn [nbind]. rewrite K in O. cbn in O.
    match goal with |- exists t', qclose fds ?t1 = NOk t' /\ _ => enough (EN : exists t', qclose fds t1 = NOk t' /\ ssteps (view t1) (view t') /\ inv t' (fun _ => Idle)); [assert (St : sstep (view t) (view t1))|] end.
    { unfold NetSpec.view. cbn [t_shared t_conns t_gone map]. assert (Sp := C1). apply in_split in Sp. destruct Sp as (l1 & l2 & Sp).
      assert (N := i_nodup _ _ I). rewrite Sp in *. rewrite map_app in N. cbn [map] in N. assert (Nr := NoDup_remove_2 _ _ _ N). rewrite in_app_iff in Nr.
      assert (Ft : forall l, ~ In fd (map c_fd l) -> filter (fun d : nconn => negb (c_fd d =? fd)%nat) l = l).
      { clear. induction l as [|d l IH]; intro H; [reflexivity|]. cbn in *. destruct (Nat.eqb_spec (c_fd d) fd); [tauto|]. cbn. rewrite IH; tauto. }
      rewrite filter_app. cbn [filter]. rewrite C2, Nat.eqb_refl. cbn [negb]. rewrite !Ft by (rewrite <- C2; tauto). rewrite !map_app. cbn [map]. apply s_remove.
      unfold NetSpec.conn_view. cbn [s_closed s_over]. exact (proj2 (proj2 (proj2 (proj2 O)))). }
    { destruct EN as (t' & E1 & E2 & E3). exists t'. split; [exact E1|]. split; [exact (ss_next _ _ _ St E2)|exact E3]. }
    apply (IH _ (upd cl fd Idle)).
    + constructor; cbn.
      * assert (N := i_nodup _ _ I). clear - N. induction (t_conns t) as [|d l IH]; [constructor|]. cbn in *. inversion N as [|? ? N1 N2]; subst.
        destruct (negb (c_fd d =? fd)%nat); cbn; [|exact (IH N2)]. constructor; [|exact (IH N2)]. intro Q. apply N1.
        apply in_map_iff in Q. destruct Q as (e & Q1 & Q2). apply filter_In in Q2. rewrite <- Q1. exact (in_map c_fd _ _ (proj1 Q2)).
      * intros d D. apply filter_In in D. destruct D as [D1 D2]. destruct (Nat.eqb_spec (c_fd d) fd) as [Q|Q]; [discriminate|].
        rewrite upd_other by exact Q. exact (i_ok _ _ I d D1).
      * intros x Q. destruct (Nat.eq_dec x fd) as [E|E]; [subst x; rewrite upd_same in Q; congruence|]. rewrite upd_other in Q by exact E.
        destruct (i_known _ _ I x Q) as (d & D1 & D2). exists d. split; [|exact D2]. apply filter_In. split; [exact D1|].
        destruct (Nat.eqb_spec (c_fd d) fd); [congruence|reflexivity].
      * intros d [D|D]; [subst d; exact O|exact (i_gone _ _ I d D)].
    + intro x. destruct (Nat.eq_dec x fd) as [E|E]; [subst x; rewrite upd_same; auto|]. rewrite upd_other by exact E. apply Z.
    + apply (has_pop _ _ _ _ _ H). discriminate.
Qed.

(** *** A round *)
Lemma combine_same : forall (X : Type) (l : list X), combine l l = map (fun x => (x, x)) l.
Proof. induction l as [|x l IH]; [reflexivity|]. cbn. rewrite IH. reflexivity. Qed.
Lemma packet_own : forall stale r, uring_packet stale r r = r.
Proof. intros stale [d| | |]; try reflexivity. cbn. f_equal. rewrite firstn_app, Nat.sub_diag, firstn_all. cbn. apply app_nil_r. Qed.
Lemma read_fds : forall w es fds, told (SRound w es) -> (forall u, a_uring w = Some u -> forall l, u_reads u l = l /\ u_writes u l = l) ->
  map fst (@read_results G w fds) = fds /\ Forall (fun p => fst (snd p) = snd (snd p) /\ (fst (snd p) = REof \/ fst (snd p) = RErr -> ending (fst p))) (read_results w fds).
Proof.
  intros w es fds Tw H.
  assert (N : map fst (map (fun fd : nat => (fd, (a_read w fd, a_read w fd))) fds) = fds /\
    Forall (fun p => fst (snd p) = snd (snd p) /\ (fst (snd p) = REof \/ fst (snd p) = RErr -> ending (fst p))) (map (fun fd : nat => (fd, (a_read w fd, a_read w fd))) fds)).
  { split; [rewrite map_map; apply map_id|]. apply Forall_map. apply Forall_forall. intros x _. split; [reflexivity|exact (proj1 (proj2 (Tw x)))]. }
  unfold read_results, uses_uring. destruct (a_uring w) as [u|]; [|apply N].
  destruct (2 <=? length fds)%nat; [|apply N]. rewrite (proj1 (H u eq_refl fds)), combine_same, !map_map. cbn [fst snd]. split; [apply map_id|].
  apply Forall_map. apply Forall_forall. intros x _. cbn [fst snd]. split; [symmetry; apply packet_own|exact (proj1 (proj2 (Tw x)))].
Qed.
Lemma write_fds : forall w es reads fds, told (SRound w es) -> (forall u, a_uring w = Some u -> forall l, u_reads u l = l /\ u_writes u l = l) ->
  map fst (@write_results G w reads fds) = fds /\ Forall same (write_results w reads fds).
Proof.
  assert (N : forall fds, map fst (map (fun fd : nat => (fd, @None (wres * wres))) fds) = fds /\
    Forall same (map (fun fd : nat => (fd, @None (wres * wres))) fds)).
  { intro fds. split; [rewrite map_map; apply map_id|]. apply Forall_map. apply Forall_forall. intros x _. exact Logic.I. }
  intros w es reads fds Tw H. unfold write_results, uses_uring. destruct (a_uring w) as [u|] eqn:Eu; [|apply N].
  destruct (2 <=? length reads)%nat; [|apply N]. rewrite (proj2 (H u eq_refl fds)), combine_same, !map_map. cbn. split; [apply map_id|].
  apply Forall_map. apply Forall_forall. intros x _. cbn. split; [reflexivity|]. intro Q. apply (proj1 (Tw x)). right. exists u. auto.
Qed.
Definition rest := fun _ : nat => Idle.
Lemma round_ok : forall size w es t, told (SRound w es) -> inv t rest -> possible A G J size (SRound w es) t ->
  round opened data done size w es t = NBad NStuck \/ exists t', round opened data done size w es t = NOk t' /\ ssteps (view t) (view t') /\ inv t' rest.
Proof.
  intros size w es t Tw I (P1 & P2 & P3 & P4). unfold round, room. set (evs := map e_fd es).
  assert (Le : length evs = length es) by apply map_length.
  destruct (qaccept_ok evs es t q_new rest I) as (cl0 & H); auto.
  { unfold rest. repeat split; try constructor; cbn; try tauto; try discriminate. }
  { apply incl_refl. } { intros fd Q. destruct (Q eq_refl). }
  cbn [nbind]. destruct (qaccept opened es t q_new) as [t0 q0]. destruct H as (I0 & L0 & W0 & V0). cbn [nbind].
  assert (S0 : small (length evs) q0).
  { destruct L0 as (H1 & H2 & H3 & H4 & H5). unfold small. repeat split; try (eapply has_small; [exact W0| |eassumption]; discriminate). eapply hasin_small; eassumption. }
  rewrite (small_fits _ size _ S0) by lia. cbn [nbind].
  destruct (qattach_ok evs w es (q_attach q0) t0 q0 cl0 Tw I0 W0 L0) as [E|(t1 & q1 & cl1 & E & V1 & I1 & W1 & L1 & Q1)]; rewrite E; cbn [nbind]; [left; reflexivity|].
  assert (S1 : small (length evs) q1).
  { destruct L1 as (H1 & H2 & H3 & H4 & H5). unfold small. rewrite Q1. split; [apply S0|]. repeat split; try (eapply has_small; [exact W1| |eassumption]; discriminate). eapply hasin_small; eassumption. }
  rewrite (small_fits _ size _ S1) by lia. cbn [nbind].
  destruct (read_fds w es (q_reads q1) Tw P4) as [Rf Rs]. rewrite <- Rf in L1.
  destruct (qread_ok evs _ t1 q1 cl1 Rs I1 W1 L1) as [E2|(t2 & q2 & cl2 & E2 & V2 & I2 & W2 & L2 & Q2 & R2)]; rewrite E2; cbn [nbind]; [left; reflexivity|].
  assert (S2 : small (length evs) q2).
  { destruct L2 as (H1 & H2 & H3 & H4 & H5). unfold small. rewrite Q2, R2. split; [apply S1|]. split; [apply S1|]. repeat split; try (eapply has_small; [exact W2| |eassumption]; discriminate). eapply hasin_small; eassumption. }
  rewrite (small_fits _ size _ S2) by lia. cbn [nbind].
  destruct (qprocess_ok evs w es (q_ins q2) t2 q2 cl2 Tw I2 W2 L2) as [E3|(t3 & q3 & cl3 & E3 & V3 & I3 & W3 & L3 & Q3 & R3 & T3)]; rewrite E3; cbn [nbind]; [left; reflexivity|].
  assert (S3 : small (length evs) q3).
  { destruct L3 as (H1 & H2 & H3 & H4 & H5). unfold small. rewrite Q3, R3, T3. split; [apply S2|]. split; [apply S2|]. split; [apply S2|]. repeat split; eapply has_small; [exact W3| |eassumption|exact W3| |eassumption]; discriminate. }
  rewrite (small_fits _ size _ S3) by lia. cbn [nbind].
  destruct (write_fds w es (q_reads q3) (q_outs q3) Tw P4) as [Wf Ws]. rewrite <- Wf in L3.
  destruct (qwrite_ok evs w es _ t3 q3 cl3 Tw Ws I3 W3 L3) as [E4|(t4 & q4 & cl4 & E4 & V4 & I4 & W4 & L4 & Q4 & R4 & T4 & U4)]; rewrite E4; cbn [nbind]; [left; reflexivity|].
  destruct L4 as (H1 & H2 & H3 & H4 & H5).
  assert (S4 : small (length evs) q4).
  { unfold small. rewrite Q4, R4, T4, U4. split; [apply S3|]. split; [apply S3|]. split; [apply S3|]. split; [apply S3|]. eapply has_small; [exact W4| |eassumption]. discriminate. }
  rewrite (small_fits _ size _ S4) by lia. cbn [nbind]. right. destruct (qclose_ok (q_closes q4) t4 cl4 I4) as (t5 & E5 & V5 & I5); [|exact H5|].
  2: { exists t5. split; [exact E5|]. split; [|exact I5]. exact (trans _ _ _ V0 (trans _ _ _ V1 (trans _ _ _ V2 (trans _ _ _ V3 (trans _ _ _ V4 V5))))). }
  intro fd. destruct (cl4 fd) as [| | |s| |] eqn:K; auto; exfalso.
  - apply H1 in K. destruct K.
  - apply H2 in K. destruct K.
  - apply H3 in K. destruct K.
  - apply H4 in K. destruct K.
Qed.
Lemma finish_ok : forall fd t, inv t rest -> (exists c, In c (t_conns t) /\ c_fd c = fd /\ c_thread c = true) ->
  exists t', finish work fd t = NOk t' /\ ssteps (view t) (view t') /\ inv t' rest.
Proof.
  intros fd t I (c & C1 & C2 & C3). unfold finish, use_conn. rewrite (in_get _ _ _ (i_nodup _ _ I) C1 C2). cbn [nbind].
  assert (O := i_ok _ _ I c C1). cbn in O. destruct O as [((B1 & B2) & T & O1 & O2 & Lv & O3) Od]. destruct (c_bg c) as [j|] eqn:Ej; [|destruct O3; congruence].
  destruct O3 as [O3|[_ O3]]; [|congruence]. destruct (work j (t_shared t)) as [j' g'] eqn:Ew. unfold watch. cbn [set_bg c_watch]. rewrite O3. cbn [nbind].
  eexists. split; [reflexivity|]. split.
  { apply one. apply (act_put t c); [exact (i_nodup _ _ I)|exact C1|reflexivity|]. unfold live in Lv. unfold NetSpec.conn_view. cbn. unfold undue in Od. rewrite Ej, O3, O2, Lv, Od. apply s_work. exact Ew. }
  apply shared_inv.
  match goal with |- inv (put_conn ?c' t) rest => assert (P : inv (put_conn c' t) (upd rest (c_fd c') Idle)) end.
  { apply put_inv; [exact I|exists c; auto|]. split; [|exact Od]. split; [split; assumption|]. split; [exact T|]. split; [exact O1|]. split; [exact O2|]. split; [exact Lv|]. cbn. auto. }
  destruct P as [P1 P2 P3 P4]. constructor; [exact P1| |intros x Q; destruct (Q eq_refl)|exact P4].
  intros d D. assert (Q := P2 d D). unfold upd in Q. destruct (c_fd d =? _)%nat; exact Q.
Qed.
Lemma inv_new : forall g, inv (thread_new g) rest.
Proof. intro g. constructor; cbn; [constructor|intros ? []|intros ? Q; destruct (Q eq_refl)|intros ? []]. Qed.
Lemma run_ok : forall size ss t, Forall told ss -> inv t rest -> possible_all A G J opened data work done size ss t ->
  nrun opened data work done size ss t = NBad NStuck \/ exists t', nrun opened data work done size ss t = NOk t' /\ ssteps (view t) (view t') /\ inv t' rest.
Proof.
  intro size. induction ss as [|s ss IH]; intros t Tw I P; [right; exists t; split; [reflexivity|]; split; [apply ss_refl|exact I]|]. destruct P as [P1 P2]. inversion Tw as [|? ? Tw1 Tw2]; subst. cbn [nrun].
  assert (X : nstep_run opened data work done size s t = NBad NStuck \/ exists t', nstep_run opened data work done size s t = NOk t' /\ ssteps (view t) (view t') /\ inv t' rest).
  { destruct s as [w es|fd|f]; cbn [nstep_run].
    - exact (round_ok size w es t Tw1 I P1).
    - right. exact (finish_ok fd t I P1).
    - right. eexists. split; [reflexivity|]. split; [apply one; apply s_other; exact Tw1|]. apply shared_inv. exact I. }
  destruct X as [E|(t' & E & V & I')]; rewrite E; cbn [nbind]; [left; reflexivity|].
  destruct (IH t' Tw2 I' (P2 t' E)) as [E2|(t2 & E2 & V2 & I2)]; [left; exact E2|]. right. exists t2. split; [exact E2|]. split; [exact (trans _ _ _ V V2)|exact I2].
Qed.
Lemma good_served : forall c, ok Idle c -> served c.
Proof. intros c [((B1 & B2) & T & O1 & O2 & Lv & _) Od]. split; [exact B1|]. split; [exact T|]. split; [exact B2|]. split; [exact O1|]. split; [exact O2|]. split; [exact Lv|exact Od]. Qed.
End Proofs.
