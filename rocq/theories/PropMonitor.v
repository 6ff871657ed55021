(** C61: what a connection that watches the commands gets to see. *)
From Verif Require Import Base Types Text CmdTable Prog Cmds Monitor.
From Coq Require Import String Lia Permutation.
Local Open Scope N_scope.
Notation length := List.length.

(** ** For the statements, no counterpart in the code *)
(** The lines of the commands that were shown while [c] was watching, in the order of the notes. *)
Fixpoint watched (c : nat) (on : bool) (notes : list mevent) : list bytes :=
  match notes with
  | [] => []
  | MOn d :: r => watched c (if (d =? c)%nat then true else on) r
  | MOff d :: r => watched c (if (d =? c)%nat then false else on) r
  | MCmd _ line :: r => if on then line :: watched c on r else watched c on r
  | _ :: r => watched c on r
  end.
(** The notes about one thread. *)
Definition of_thread (t : nat) (e : mevent) : bool :=
  match e with MBegin u _ | MCmd u _ | MRan u => (u =? t)%nat | _ => false end.
(** A line that tells of a command. *)
Definition tells (line : bytes) (args : list bytes) : Prop := exists stamp addr junk, line = mon_line stamp addr junk args.
(** Commands one after the other: received, shown, run; those that are hidden only received and run. *)
Inductive in_turn (t : nat) : list mevent -> Prop :=
| it_nil : in_turn t []
| it_shown : forall l args line, in_turn t l -> mon_hidden args = false -> tells line args ->
    in_turn t (l ++ [MBegin t args; MCmd t line; MRan t])
| it_hidden : forall l args, in_turn t l -> mon_hidden args = true -> in_turn t (l ++ [MBegin t args; MRan t]).
(** The start of one. *)
Inductive begun (t : nat) : list mevent -> Prop :=
| bg_none : begun t []
| bg_begin : forall args, begun t [MBegin t args]
| bg_shown : forall args line, mon_hidden args = false -> tells line args -> begun t [MBegin t args; MCmd t line].
(** A byte that can be printed, or tab, line feed or carriage return. *)
Definition plain (c : N) : Prop := 32 <= c < 127 \/ c = 9 \/ c = 10 \/ c = 13.

(** ** The threads *)
Fixpoint on_after (c : nat) (on : bool) (notes : list mevent) : bool :=
  match notes with
  | [] => on
  | MOn d :: r => on_after c (if (d =? c)%nat then true else on) r
  | MOff d :: r => on_after c (if (d =? c)%nat then false else on) r
  | _ :: r => on_after c on r
  end.
Lemma watched_app : forall c a on b, watched c on (a ++ b) = watched c on a ++ watched c (on_after c on a) b.
Proof.
  intros c. induction a as [|e a IH]; intros on b; [reflexivity|].
  destruct e; cbn [app watched on_after]; rewrite ?IH; try reflexivity. destruct on; reflexivity.
Qed.
Lemma on_app : forall c a on b, on_after c on (a ++ b) = on_after c (on_after c on a) b.
Proof. intros c. induction a as [|e a IH]; intros on b; [reflexivity|]. destruct e; cbn [app on_after]; rewrite ?IH; reflexivity. Qed.

Definition pending (s : mstate) (c : nat) : list bytes :=
  match mo_lock s with
  | None => []
  | Some t => match mo_phase s t with MWrite line todo => if existsb (Nat.eqb c) todo then [line] else [] | _ => [] end
  end.
Definition turn (t : nat) (p : mphase) (l : list mevent) : Prop :=
  exists l0, in_turn t l0 /\
  match p with
  | MIdle => l = l0
  | MWait line => exists args, mon_hidden args = false /\ tells line args /\ l = l0 ++ [MBegin t args]
  | MWrite line _ => exists args, mon_hidden args = false /\ tells line args /\ l = l0 ++ [MBegin t args; MCmd t line]
  | MRun => (exists args line, mon_hidden args = false /\ tells line args /\ l = l0 ++ [MBegin t args; MCmd t line]) \/
            (exists args, mon_hidden args = true /\ l = l0 ++ [MBegin t args])
  end.
Record minv (s : mstate) (notes : list mevent) : Prop := {
  iv_nodup : NoDup (mo_conns s);
  iv_count : mo_count s = Z.of_nat (length (mo_conns s));
  iv_on : forall c, existsb (Nat.eqb c) (mo_conns s) = on_after c false notes;
  iv_lock : forall t, mo_lock s = Some t -> exists line todo, mo_phase s t = MWrite line todo /\ NoDup todo;
  iv_free : forall t line todo, mo_phase s t = MWrite line todo -> mo_lock s = Some t;
  iv_got : forall c, mo_shut s c = false -> mo_got s c ++ pending s c = watched c false notes;
  iv_turn : forall t, turn t (mo_phase s t) (filter (of_thread t) notes)
}.

Lemma inb_iff : forall c l, existsb (Nat.eqb c) l = true <-> In c l.
Proof.
  intros c l. rewrite existsb_exists. split; [intros (x & I & E); apply Nat.eqb_eq in E; subst; exact I|].
  intro I. exists c. split; [exact I|apply Nat.eqb_refl].
Qed.
Lemma inb_not : forall c l, existsb (Nat.eqb c) l = false <-> ~ In c l.
Proof. intros c l. rewrite <- inb_iff. destruct (existsb (Nat.eqb c) l); split; congruence. Qed.
Lemma fset_same : forall A (f : nat -> A) i x, fset f i x i = x.
Proof. intros. unfold fset. rewrite Nat.eqb_refl. reflexivity. Qed.
Lemma fset_other : forall A (f : nat -> A) i x j, j <> i -> fset f i x j = f j.
Proof. intros. unfold fset. apply Nat.eqb_neq in H. rewrite H. reflexivity. Qed.
Lemma last_perm : forall (r : list nat), r <> [] -> Permutation (last r O :: removelast r) r.
Proof.
  intros r H. rewrite (app_removelast_last O H) at 3. apply Permutation_cons_append.
Qed.
Lemma swap_out_perm : forall c l, In c l -> Permutation (c :: swap_out c l) l.
Proof.
  intros c. induction l as [|x l IH]; intro I; [destruct I|]. cbn [swap_out]. destruct (Nat.eqb_spec x c) as [E | E].
  - subst x. apply perm_skip. destruct l as [|y l]; [apply Permutation_refl|]. apply last_perm. discriminate.
  - destruct I as [I | I]; [congruence|]. eapply perm_trans; [apply perm_swap|]. apply perm_skip. apply IH. exact I.
Qed.
Lemma watched_off : forall c t line, watched c false [MCmd t line] = [].
Proof. reflexivity. Qed.

Ltac others t u := destruct (Nat.eq_dec u t) as [? | ?]; [subst u; rewrite fset_same in *|rewrite fset_other in * by assumption].

Lemma minv_start : minv mstart [].
Proof.
  constructor; cbn; auto; try discriminate.
  - constructor.
  - intro t. exists []. split; [constructor|reflexivity].
Qed.

Lemma filter_single : forall t e, filter (of_thread t) [e] = if of_thread t e then [e] else [].
Proof. reflexivity. Qed.

Lemma turn_other : forall u (t : nat) p notes es, turn u p (filter (of_thread u) notes) -> forallb (fun e => negb (of_thread u e)) es = true ->
  turn u p (filter (of_thread u) (notes ++ es)).
Proof.
  intros u t p notes es H F. rewrite filter_app.
  replace (filter (of_thread u) es) with (@nil mevent); [rewrite app_nil_r; exact H|].
  clear - F. induction es as [|e es IH]; [reflexivity|]. cbn [forallb filter] in *. apply andb_true_iff in F. destruct F as (F1 & F2).
  destruct (of_thread u e); [discriminate|]. apply IH. exact F2.
Qed.

Lemma minv_step : forall s a s' es notes, minv s notes -> mstep s a = Some (s', es) -> minv s' (notes ++ es).
Proof.
  intros [conns count lock phase got room shut] a s' es notes [Nd Ct On Lk Fr Gt Tn] E.
  cbn [mo_conns mo_count mo_lock mo_phase mo_got mo_room mo_shut] in *.
  assert (Off : count = 0%Z -> forall c, on_after c false notes = false).
  { intros E0 c. rewrite <- On. destruct conns; [reflexivity|]. rewrite Ct in E0. cbn [length] in E0. lia. }
  destruct a as [t stamp addr junk args|t|t|t|t|c|c|c n|c]; cbn [mstep] in E.
  - (* begin *)
    destruct (phase t) eqn:Pt; try discriminate.
    assert (Pend : forall ph, (forall u, u <> t -> ph u = phase u) -> (forall l td, ph t <> MWrite l td) ->
      forall c, pending (mkM conns count lock ph got room shut) c = pending (mkM conns count lock phase got room shut) c).
    { intros ph H1 H2 c. unfold pending. cbn [mo_lock mo_phase]. destruct lock as [u|]; [|reflexivity].
      destruct (Nat.eq_dec u t) as [-> | N]; [|rewrite H1 by exact N; reflexivity].
      rewrite Pt. destruct (Lk t eq_refl) as (l & td & X & _). congruence. }
    assert (Lk' : forall p, forall u, lock = Some u -> exists line todo, fset phase t p u = MWrite line todo /\ NoDup todo).
    { intros p u X. destruct (Lk u X) as (l & td & Y & Z). exists l, td. split; [|exact Z]. rewrite fset_other; [exact Y|]. intros ->. congruence. }
    assert (Tn' : forall u, u <> t -> forall es, forallb (fun e => negb (of_thread u e)) es = true -> turn u (phase u) (filter (of_thread u) (notes ++ es))).
    { intros u N es0 F. apply (turn_other u t); [apply Tn|exact F]. }
    assert (NTb : forall u, u <> t -> (t =? u)%nat = false) by (intros u N; apply Nat.eqb_neq; congruence).
    pose proof (Tn t) as Tt. rewrite Pt in Tt. destruct Tt as (l0 & T0 & T1).
    destruct (Z.eqb_spec count 0) as [C0 | C0]; [|destruct (mon_hidden args) eqn:Hd]; injection E as <- <-.
    + constructor; cbn [mo_conns mo_count mo_lock mo_phase mo_got mo_room mo_shut]; auto.
      * intro c. rewrite on_app, <- On. cbn [on_after]. destruct (mon_hidden args); reflexivity.
      * intros u l td X. others t u; [discriminate|]. eapply Fr. exact X.
      * intros c Hc. rewrite Pend. 2:{ intros u N. apply fset_other. exact N. } 2:{ intros l td. rewrite fset_same. discriminate. }
        rewrite (Gt c Hc), watched_app, (Off C0). destruct (mon_hidden args); cbn [watched]; rewrite app_nil_r; reflexivity.
      * intro u. others t u.
        -- exists l0. split; [exact T0|]. rewrite filter_app, T1. cbn [filter of_thread]. rewrite Nat.eqb_refl.
           destruct (mon_hidden args) eqn:Hd; cbn [filter of_thread]; rewrite ?Nat.eqb_refl.
           ++ right. exists args. auto.
           ++ left. exists args, (mon_line stamp addr junk args). split; [exact Hd|]. split; [exists stamp, addr, junk; reflexivity|reflexivity].
        -- apply Tn'; [assumption|]. cbn [forallb of_thread]. rewrite NTb by assumption. destruct (mon_hidden args); cbn [forallb of_thread negb]; rewrite ?NTb by assumption; reflexivity.
    + constructor; cbn [mo_conns mo_count mo_lock mo_phase mo_got mo_room mo_shut]; auto.
      * intro c. rewrite on_app, <- On. reflexivity.
      * intros u l td X. others t u; [discriminate|]. eapply Fr. exact X.
      * intros c Hc. rewrite Pend. 2:{ intros u N. apply fset_other. exact N. } 2:{ intros l td. rewrite fset_same. discriminate. }
        rewrite (Gt c Hc), watched_app. cbn [watched]. rewrite app_nil_r. reflexivity.
      * intro u. others t u.
        -- exists l0. split; [exact T0|]. rewrite filter_app, T1. cbn [filter of_thread]. rewrite Nat.eqb_refl. right. exists args. auto.
        -- apply Tn'; [assumption|]. cbn [forallb of_thread]. rewrite NTb by assumption. reflexivity.
    + constructor; cbn [mo_conns mo_count mo_lock mo_phase mo_got mo_room mo_shut]; auto.
      * intro c. rewrite on_app, <- On. reflexivity.
      * intros u l td X. others t u; [discriminate|]. eapply Fr. exact X.
      * intros c Hc. rewrite Pend. 2:{ intros u N. apply fset_other. exact N. } 2:{ intros l td. rewrite fset_same. discriminate. }
        rewrite (Gt c Hc), watched_app. cbn [watched]. rewrite app_nil_r. reflexivity.
      * intro u. others t u.
        -- exists l0. split; [exact T0|]. exists args. rewrite filter_app, T1. cbn [filter of_thread]. rewrite Nat.eqb_refl.
           split; [exact Hd|]. split; [exists stamp, addr, junk; reflexivity|reflexivity].
        -- apply Tn'; [assumption|]. cbn [forallb of_thread]. rewrite NTb by assumption. reflexivity.
  - (* lock *)
    destruct (phase t) as [|line| |] eqn:Pt; try discriminate. destruct lock as [|] eqn:El; [discriminate|]. injection E as <- <-.
    assert (NTb : forall u, u <> t -> (t =? u)%nat = false) by (intros u N; apply Nat.eqb_neq; congruence).
    pose proof (Tn t) as Tt. rewrite Pt in Tt. destruct Tt as (l0 & T0 & args & T1 & T2 & T3).
    constructor; cbn [mo_conns mo_count mo_lock mo_phase mo_got mo_room mo_shut]; auto.
    + intro c. rewrite on_app, <- On. reflexivity.
    + intros u X. injection X as <-. rewrite fset_same. exists line, conns. auto.
    + intros u l td X. others t u; [reflexivity|]. specialize (Fr _ _ _ X). discriminate.
    + intros c Hc. unfold pending. cbn [mo_lock mo_phase]. rewrite fset_same. specialize (Gt c Hc). unfold pending in Gt. cbn [mo_lock] in Gt.
      rewrite app_nil_r in Gt. rewrite Gt, watched_app, On. cbn [watched]. destruct (on_after c false notes); reflexivity.
    + intro u. others t u.
      * exists l0. split; [exact T0|]. exists args. split; [exact T1|]. split; [exact T2|]. rewrite filter_app, T3. cbn [filter of_thread]. rewrite Nat.eqb_refl, <- app_assoc. reflexivity.
      * apply (turn_other u t); [apply Tn|]. cbn [forallb of_thread]. rewrite NTb by assumption. reflexivity.
  - (* write *)
    destruct (phase t) as [| |line [|c todo]|] eqn:Pt; try discriminate.
    pose proof (Fr t line _ Pt) as El. subst lock. destruct (Lk t eq_refl) as (l1 & td1 & X & Nt). rewrite Pt in X. injection X as <- <-.
    pose proof (proj1 (NoDup_cons_iff _ _) Nt) as (Nc & Nt').
    assert (Inv : forall got' room', (forall d, shut d = false -> got' d ++ (if existsb (Nat.eqb d) todo then [line] else []) = got d ++ (if existsb (Nat.eqb d) (c :: todo) then [line] else [])) ->
      minv (mkM conns count (Some t) (fset phase t (MWrite line todo)) got' room' shut) (notes ++ [])).
    { intros got' room' G. rewrite app_nil_r. constructor; cbn [mo_conns mo_count mo_lock mo_phase mo_got mo_room mo_shut]; auto.
      - intros u Y. injection Y as <-. rewrite fset_same. exists line, todo. auto.
      - intros u l td Y. others t u; [reflexivity|]. exact (Fr _ _ _ Y).
      - intros d Hd. specialize (Gt d Hd). unfold pending in *. cbn [mo_lock mo_phase] in *. rewrite fset_same. rewrite Pt in Gt. rewrite G by exact Hd. exact Gt.
      - intro u. others t u; [|apply Tn]. pose proof (Tn t) as Tt. rewrite Pt in Tt. exact Tt. }
    destruct (shut c) eqn:Sc.
    + injection E as <- <-. apply Inv. intros d Hd. cbn [existsb]. assert (N : d <> c) by congruence.
      apply Nat.eqb_neq in N. rewrite N. reflexivity.
    + destruct (length line <=? room c)%nat; [|discriminate]. injection E as <- <-. apply Inv. intros d Hd. cbn [existsb].
      destruct (Nat.eqb_spec d c) as [-> | N].
      * rewrite fset_same. cbn [orb]. apply inb_not in Nc. rewrite Nc, app_nil_r. reflexivity.
      * rewrite fset_other by exact N. reflexivity.
  - (* leave *)
    destruct (phase t) as [| |line [|c todo]|] eqn:Pt; try discriminate. injection E as <- <-. rewrite app_nil_r.
    pose proof (Fr t line _ Pt) as El. subst lock.
    constructor; cbn [mo_conns mo_count mo_lock mo_phase mo_got mo_room mo_shut]; auto; try discriminate.
    + intros u l td Y. others t u; [discriminate|]. specialize (Fr _ _ _ Y). congruence.
    + intros c Hc. specialize (Gt c Hc). unfold pending in *. cbn [mo_lock mo_phase] in *. rewrite Pt in Gt. exact Gt.
    + intro u. others t u; [|apply Tn]. pose proof (Tn t) as Tt. rewrite Pt in Tt. destruct Tt as (l0 & T0 & args & T1).
      exists l0. split; [exact T0|]. left. exists args, line. exact T1.
  - (* run *)
    destruct (phase t) eqn:Pt; try discriminate. injection E as <- <-.
    assert (NTb : forall u, u <> t -> (t =? u)%nat = false) by (intros u N; apply Nat.eqb_neq; congruence).
    constructor; cbn [mo_conns mo_count mo_lock mo_phase mo_got mo_room mo_shut]; auto.
    + intro c. rewrite on_app, <- On. reflexivity.
    + intros u X. destruct (Lk u X) as (l & td & Y & Z). exists l, td. split; [|exact Z]. rewrite fset_other; [exact Y|]. intros ->. congruence.
    + intros u l td X. others t u; [discriminate|]. eapply Fr. exact X.
    + intros c Hc. rewrite watched_app. cbn [watched]. rewrite app_nil_r, <- (Gt c Hc). f_equal. unfold pending. cbn [mo_lock mo_phase].
      destruct lock as [u|]; [|reflexivity]. destruct (Nat.eq_dec u t) as [-> | N]; [|rewrite fset_other by exact N; reflexivity].
      destruct (Lk t eq_refl) as (l & td & X & _). congruence.
    + intro u. others t u.
      * pose proof (Tn t) as Tt. rewrite Pt in Tt. destruct Tt as (l0 & T0 & [(args & line & T1 & T2 & T3) | (args & T1 & T2)]); rewrite filter_app; cbn [filter of_thread]; rewrite Nat.eqb_refl.
        -- exists (l0 ++ [MBegin t args; MCmd t line; MRan t]). split; [apply it_shown; assumption|]. rewrite T3, <- app_assoc. reflexivity.
        -- exists (l0 ++ [MBegin t args; MRan t]). split; [apply it_hidden; assumption|]. rewrite T2, <- app_assoc. reflexivity.
      * apply (turn_other u t); [apply Tn|]. cbn [forallb of_thread]. rewrite NTb by assumption. reflexivity.
  - (* start *)
    destruct lock as [|]; [discriminate|]. destruct (existsb (Nat.eqb c) conns) eqn:Ec; [discriminate|]. injection E as <- <-.
    constructor; cbn [mo_conns mo_count mo_lock mo_phase mo_got mo_room mo_shut]; auto.
    + apply inb_not in Ec. eapply Permutation_NoDup; [apply Permutation_cons_append|]. constructor; assumption.
    + rewrite app_length. cbn [length]. lia.
    + intro d. rewrite on_app, <- On, existsb_app. cbn [existsb on_after]. rewrite orb_false_r, Nat.eqb_sym. destruct (c =? d)%nat; [apply orb_true_r|apply orb_false_r].
    + intros d Hd. rewrite watched_app, <- (Gt d Hd). unfold pending. cbn [mo_lock watched]. rewrite !app_nil_r. reflexivity.
    + intro u. apply (turn_other u u); [apply Tn|reflexivity].
  - (* stop *)
    destruct lock as [|]; [discriminate|]. destruct (existsb (Nat.eqb c) conns) eqn:Ec; [|discriminate]. injection E as <- <-.
    apply inb_iff in Ec. pose proof (swap_out_perm c conns Ec) as P.
    assert (Nd' : NoDup (c :: swap_out c conns)) by (eapply Permutation_NoDup; [symmetry; exact P|exact Nd]).
    pose proof (proj1 (NoDup_cons_iff _ _) Nd') as (Nc & Ns).
    constructor; cbn [mo_conns mo_count mo_lock mo_phase mo_got mo_room mo_shut]; auto.
    + apply Permutation_length in P. cbn [length] in P. lia.
    + intro d. rewrite on_app, <- On. cbn [on_after]. destruct (Nat.eqb_spec c d) as [<- | N].
      * apply inb_not. exact Nc.
      * assert (Q : existsb (Nat.eqb d) (swap_out c conns) = true <-> existsb (Nat.eqb d) conns = true).
        { rewrite !inb_iff. split; intro I.
          - eapply Permutation_in; [exact P|right; exact I].
          - eapply Permutation_in in I; [|symmetry; exact P]. destruct I as [I | I]; [congruence|exact I]. }
        destruct (existsb (Nat.eqb d) (swap_out c conns)), (existsb (Nat.eqb d) conns); try reflexivity; [symmetry; apply Q; reflexivity|apply Q; reflexivity].
    + intros d Hd. rewrite watched_app, <- (Gt d Hd). unfold pending. cbn [mo_lock watched]. rewrite !app_nil_r. reflexivity.
    + intro u. apply (turn_other u u); [apply Tn|reflexivity].
  - (* read *)
    injection E as <- <-. rewrite app_nil_r. constructor; cbn [mo_conns mo_count mo_lock mo_phase mo_got mo_room mo_shut]; auto.
  - (* shut *)
    injection E as <- <-. rewrite app_nil_r. constructor; cbn [mo_conns mo_count mo_lock mo_phase mo_got mo_room mo_shut]; auto.
    intros d Hd. unfold fset in Hd. destruct (d =? c)%nat; [discriminate|]. exact (Gt d Hd).
Qed.

Lemma minv_run : forall l s s' es notes, minv s notes -> mrun s l = Some (s', es) -> minv s' (notes ++ es).
Proof.
  induction l as [|a l IH]; intros s s' es notes H E; cbn [mrun] in E.
  - injection E as <- <-. rewrite app_nil_r. exact H.
  - destruct (mstep s a) as [[s1 e1]|] eqn:E1; [|discriminate]. destruct (mrun s1 l) as [[s2 e2]|] eqn:E2; [|discriminate].
    injection E as <- <-. rewrite app_assoc. eapply IH; [|exact E2]. eapply minv_step; eassumption.
Qed.
Lemma minv_all : forall l s notes, mrun mstart l = Some (s, notes) -> minv s notes.
Proof. intros l s notes E. exact (minv_run l _ _ _ [] minv_start E). Qed.

(** However the threads take turns: whenever nobody is writing, each connection that is not closed was sent exactly
    the lines of the commands that were shown while it watched, in the one order that holds for all of them. *)
Theorem C61_watchers_see_all : forall l s notes, mrun mstart l = Some (s, notes) -> mo_lock s = None ->
  forall c, mo_shut s c = false -> mo_got s c = watched c false notes.
Proof.
  intros l s notes E L c S. pose proof (iv_got s notes (minv_all l s notes E) c S) as G. unfold pending in G. rewrite L, app_nil_r in G. exact G.
Qed.
(** Each thread shows each command once, after it was received and before it is run; a hidden one not at all. *)
Theorem C61_shown_before_run : forall l s notes, mrun mstart l = Some (s, notes) ->
  forall t, exists done rest, filter (of_thread t) notes = done ++ rest /\ in_turn t done /\ begun t rest.
Proof.
  intros l s notes E t. destruct (iv_turn s notes (minv_all l s notes E) t) as (l0 & T0 & T1). destruct (mo_phase s t) as [|line|line todo|].
  - exists l0, []. rewrite app_nil_r. split; [exact T1|]. split; [exact T0|constructor].
  - destruct T1 as (args & H1 & H2 & H3). exists l0, [MBegin t args]. split; [exact H3|]. split; [exact T0|constructor].
  - destruct T1 as (args & H1 & H2 & H3). exists l0, [MBegin t args; MCmd t line]. split; [exact H3|]. split; [exact T0|constructor; assumption].
  - destruct T1 as [(args & line & H1 & H2 & H3) | (args & H1 & H3)].
    + exists l0, [MBegin t args; MCmd t line]. split; [exact H3|]. split; [exact T0|constructor; assumption].
    + exists l0, [MBegin t args]. split; [exact H3|]. split; [exact T0|constructor].
Qed.
(** Passwords are not shown: no line tells of AUTH, in whatever letters, nor of QUIT and MONITOR. *)
Theorem C61_auth_is_hidden : forall l s notes, mrun mstart l = Some (s, notes) ->
  forall c line, mo_shut s c = false -> In line (mo_got s c) ->
  exists name args, tells line (name :: args) /\
    is_word name "auth" = false /\ is_word name "quit" = false /\ is_word name "monitor" = false.
Proof.
  intros l s notes E c line S I. pose proof (minv_all l s notes E) as V.
  assert (W : In line (watched c false notes)).
  { rewrite <- (iv_got s notes V c S). apply in_or_app. left. exact I. }
  assert (M : exists t, In (MCmd t line) notes).
  { clear - W. revert W. generalize false. induction notes as [|e notes IH]; intros on W; [destruct W|].
    destruct e; cbn [watched] in W; try (destruct (IH _ W) as (t' & J); exists t'; right; exact J).
    destruct on; [|destruct (IH _ W) as (t' & J); exists t'; right; exact J].
    destruct W as [<- | W]; [exists t; left; reflexivity|]. destruct (IH _ W) as (t' & J). exists t'. right. exact J. }
  destruct M as (t & M).
  assert (F : In (MCmd t line) (filter (of_thread t) notes)) by (apply filter_In; split; [exact M|apply Nat.eqb_refl]).
  destruct (C61_shown_before_run l s notes E t) as (dn & rest & Es & T & B). rewrite Es in F.
  assert (Q : exists args, mon_hidden args = false /\ tells line args).
  { apply in_app_or in F. destruct F as [F | F].
    - clear - T F. induction T as [|l args ln T IH H1 H2|l args T IH H1].
      + destruct F.
      + apply in_app_or in F. destruct F as [F | [F | [F | [F | []]]]]; [apply IH; exact F|discriminate| |discriminate]. injection F as <-. exists args. auto.
      + apply in_app_or in F. destruct F as [F | [F | [F | []]]]; [apply IH; exact F|discriminate|discriminate].
    - inversion B; subst; cbn in F; [destruct F|destruct F as [F | []]; discriminate|]. destruct F as [F | [F | []]]; [discriminate|]. injection F as <-. exists args. auto. }
  destruct Q as ([|name args] & Hd & Tl); [discriminate|]. exists name, args. split; [exact Tl|]. cbn [mon_hidden] in Hd.
  apply orb_false_iff in Hd. destruct Hd as (Hd & H3). apply orb_false_iff in Hd. destruct Hd as (H1 & H2). auto.
Qed.

(** ** The text of a line *)
Lemma mon_char_cases : forall junk c, plain c ->
  (mon_char junk c = [c] /\ 32 <= c < 127 /\ c <> 34 /\ c <> 92) \/
  (exists e, mon_char junk c = [92; e] /\ (c = 10 /\ e = 110 \/ c = 13 /\ e = 114 \/ c = 9 /\ e = 116 \/ c = 34 /\ e = 34 \/ c = 92 /\ e = 92)).
Proof.
  intros junk c P. unfold plain in P. unfold mon_char.
  destruct (N.eqb_spec c 10); [right; eexists; split; [reflexivity|auto]|].
  destruct (N.eqb_spec c 13); [right; eexists; split; [reflexivity|auto]|].
  destruct (N.eqb_spec c 9); [right; eexists; split; [reflexivity|auto]|].
  destruct (N.eqb_spec c 34); [right; eexists; split; [reflexivity|auto 6]|].
  destruct (N.eqb_spec c 92); [right; eexists; split; [reflexivity|auto 7]|].
  left. replace ((c <? 32) || (127 <=? c)) with false by lia. split; [reflexivity|lia].
Qed.
Lemma mon_char_inj : forall j k c d x y, plain c -> plain d -> mon_char j c ++ x = mon_char k d ++ y -> c = d /\ x = y.
Proof.
  intros j k c d x y Pc Pd E.
  destruct (mon_char_cases j c Pc) as [(Ec & C1 & C2 & C3) | (e & Ec & C)]; destruct (mon_char_cases k d Pd) as [(Ed & D1 & D2 & D3) | (f & Ed & D)]; rewrite Ec, Ed in E; cbn [app] in E.
  - injection E as -> ->. auto.
  - injection E as -> _. lia.
  - injection E as <- _. lia.
  - injection E as -> ->. split; [lia|reflexivity].
Qed.
Lemma mon_text_inj : forall j k a b x y, Forall plain a -> Forall plain b ->
  flat_map (mon_char j) a ++ 34 :: x = flat_map (mon_char k) b ++ 34 :: y -> a = b /\ x = y.
Proof.
  intros j k. induction a as [|c a IH]; intros [|d b] x y Pa Pb E; cbn [flat_map app] in E.
  - injection E as ->. auto.
  - inversion Pb; subst. exfalso. destruct (mon_char_cases k d) as [(Ed & D) | (f & Ed & D)]; [assumption| |]; rewrite Ed in E; cbn [app] in E; injection E; lia.
  - inversion Pa; subst. exfalso. destruct (mon_char_cases j c) as [(Ed & D) | (f & Ed & D)]; [assumption| |]; rewrite Ed in E; cbn [app] in E; injection E; lia.
  - inversion Pa; inversion Pb; subst. rewrite <- !app_assoc in E. apply mon_char_inj in E; [|assumption|assumption]. destruct E as (-> & E).
    apply IH in E; [|assumption|assumption]. destruct E as (-> & ->). auto.
Qed.

(** A line tells what was run: with arguments of plain characters two lines are equal only if the commands are. *)
Theorem C61_line_tells_arguments : forall stamp addr j k args args',
  Forall (Forall plain) args -> Forall (Forall plain) args' ->
  mon_line stamp addr j args = mon_line stamp addr k args' -> args = args'.
Proof.
  intros stamp addr j k args args' Pa Pb E. unfold mon_line in E. rewrite !app_assoc in E. rewrite <- !(app_assoc _ _ [13; 10]) in E. apply app_inv_head in E.
  revert args' Pb E. induction args as [|a args IH]; intros [|b args'] Pb E; cbn [flat_map app] in E.
  - reflexivity.
  - unfold mon_arg in E. cbn [app] in E. discriminate.
  - unfold mon_arg in E. cbn [app] in E. discriminate.
  - inversion Pa; inversion Pb; subst. unfold mon_arg in E. rewrite <- !app_assoc in E. apply app_inv_head in E. rewrite <- ?app_assoc in E. cbn [app] in E.
    apply mon_text_inj in E; [|assumption|assumption]. destruct E as (-> & E). f_equal. apply IH; assumption.
Qed.
(** It is one line, starting with a plus: the first carriage return and line feed are its last two bytes. *)
Theorem C61_line_is_one_line : forall stamp addr junk args, Forall (Forall plain) args ->
  (forall c, In c (stamp ++ addr) -> c <> 10 /\ c <> 13) ->
  exists body, mon_line stamp addr junk args = body ++ [13; 10] /\ ~ In 10 body /\ ~ In 13 body /\ hd 0 body = 43.
Proof.
  intros stamp addr junk args P S.
  exists ([43] ++ stamp ++ bs " [0 " ++ addr ++ bs "]" ++ flat_map (mon_arg junk) args).
  split; [unfold mon_line; rewrite !app_assoc; reflexivity|].
  assert (A : forall x, x = 10 \/ x = 13 -> ~ In x (flat_map (mon_arg junk) args)).
  { intros x X I. apply in_flat_map in I. destruct I as (a & Ia & I). rewrite Forall_forall in P. specialize (P a Ia).
    unfold mon_arg in I. cbn [app] in I. destruct I as [I | [I | I]]; [lia|lia|]. apply in_app_or in I. destruct I as [I | [I | []]]; [|lia].
    apply in_flat_map in I. destruct I as (c & Ic & I). rewrite Forall_forall in P. specialize (P c Ic).
    destruct (mon_char_cases junk c P) as [(E & D) | (e & E & D)]; rewrite E in I; cbn in I; lia. }
  assert (B : forall x, x = 10 \/ x = 13 -> ~ In x ([43] ++ stamp ++ bs " [0 " ++ addr ++ bs "]" ++ flat_map (mon_arg junk) args)).
  { intros x X I. repeat (apply in_app_or in I; destruct I as [I | I]).
    - cbn in I. lia.
    - destruct (S x) as (S1 & S2); [apply in_or_app; left; exact I|]. lia.
    - cbn in I. lia.
    - destruct (S x) as (S1 & S2); [apply in_or_app; right; exact I|]. lia.
    - cbn in I. lia.
    - exact (A x X I). }
  split; [apply B; auto|]. split; [apply B; auto|reflexivity].
Qed.

(** With any other byte this fails: the line holds three bytes of memory that were never written, whatever they are, and if they hold
    a line feed the line is cut there. *)
Theorem C61_other_bytes_refuted : exists args, Forall (fun a => a <> []) args /\
  (forall stamp addr junk, exists p q, mon_line stamp addr junk args = p ++ junk ++ q /\ (length q = 3)%nat) /\
  (exists junk stamp addr p q, (length junk = 3)%nat /\ (forall c, In c (stamp ++ addr) -> c <> 10 /\ c <> 13) /\
     mon_line stamp addr junk args = p ++ [13; 10] ++ q /\ q <> []).
Proof.
  exists [bs "GET"; [1]]. split; [repeat constructor; discriminate|]. split.
  - intros stamp addr junk. exists ([43] ++ stamp ++ bs " [0 " ++ addr ++ bs "]" ++ mon_arg junk (bs "GET") ++ [32; 34; 92; 120; 48; 49; 0]), [34; 13; 10].
    split; [|reflexivity]. unfold mon_line. cbn [flat_map]. rewrite app_nil_r. rewrite <- !app_assoc. do 6 f_equal.
    unfold mon_arg. cbn [flat_map]. change (mon_char junk 1) with ([92; 120; 48; 49; 0] ++ junk). cbn [app]. rewrite app_nil_r, <- app_assoc. reflexivity.
  - exists [13; 10; 43], (bs "1.0"), (bs "a:1"), (firstn 25 (mon_line (bs "1.0") (bs "a:1") [13; 10; 43] [bs "GET"; [1]])), [43; 34; 13; 10].
    split; [reflexivity|]. split.
    { intros c I. cbn in I. repeat (destruct I as [<- | I]; [split; discriminate|]). destruct I. }
    split; [vm_compute; reflexivity|discriminate].
Qed.

(** ** Waiting *)
(** If the clients read what they are sent, a thread that is writing gets done. *)
Theorem C61_readers_let_go : forall l s notes t, mrun mstart l = Some (s, notes) -> mo_lock s = Some t ->
  exists more s' notes', Forall (fun a => match a with ARead _ _ => True | AWrite u | ALeave u => u = t | _ => False end) more /\
    mrun s more = Some (s', notes') /\ mo_lock s' = None.
Proof.
  intros l s notes t E L. destruct (iv_lock s notes (minv_all l s notes E) t L) as (line & todo & P & _). clear E.
  revert s L P. induction todo as [|c todo IH]; intros [conns count lock phase got room shut] L P; cbn [mo_lock mo_phase] in *.
  - exists [ALeave t]. cbn [mrun mstep]. rewrite P. eexists. eexists. split; [repeat constructor|]. split; reflexivity.
  - set (s1 := mkM conns count lock (fset phase t (MWrite line todo)) (if shut c then got else fset got c (got c ++ [line]))
      (if shut c then fset room c (room c + length line)%nat else fset (fset room c (room c + length line)%nat) c (room c + length line - length line)%nat) shut).
    destruct (IH s1) as (more & s' & n' & F & R & Q); [exact L|apply fset_same|].
    assert (St : forall rest, mrun (mkM conns count lock phase got room shut) (ARead c (length line) :: AWrite t :: rest) = mrun s1 rest).
    { intro rest. cbn [mrun mstep]. rewrite P. unfold s1. destruct (shut c).
      - destruct (mrun _ rest) as [[? ?]|]; reflexivity.
      - rewrite fset_same. replace (length line <=? room c + length line)%nat with true by (symmetry; apply Nat.leb_le; lia).
        destruct (mrun _ rest) as [[? ?]|]; reflexivity. }
    exists (ARead c (length line) :: AWrite t :: more), s', n'. split; [constructor; [exact I|]; constructor; [reflexivity|exact F]|].
    split; [rewrite St; exact R|exact Q].
Qed.

(** A client that does not read stops everyone: from the state reached here no command of any other client is run until
    this one reads or goes away. *)
Definition stuck (c t : nat) (line : bytes) (s : mstate) : Prop :=
  mo_lock s = Some t /\ (exists todo, mo_phase s t = MWrite line (c :: todo)) /\ (mo_room s c < length line)%nat /\ mo_shut s c = false /\
  mo_count s <> 0%Z /\ forall u, mo_phase s u <> MRun /\ (u <> t -> forall l td, mo_phase s u <> MWrite l td).
Lemma stuck_step : forall c t line s a s' es, stuck c t line s -> mstep s a = Some (s', es) ->
  (match a with ARead d _ | AShut d => d <> c | ABegin _ _ _ _ args => mon_hidden args = false | _ => True end) ->
  stuck c t line s' /\ forall e, In e es -> exists u args, e = MBegin u args.
Proof.
  intros c t line [conns count lock phase got room shut] a s' es (L & (todo & P) & R & S & C & U) E A.
  cbn [mo_lock mo_phase mo_room mo_shut mo_count] in *. subst lock.
  destruct a as [u stamp addr junk args|u|u|u|u|d|d|d n|d]; cbn [mstep] in E.
  - destruct (phase u) eqn:Pu; try discriminate. destruct (Z.eqb_spec count 0) as [C0 | C0]; [contradiction|]. rewrite A in E. injection E as <- <-.
    split; [|intros e [<- | []]; eauto]. assert (u <> t) by congruence.
    split; [reflexivity|]. split; [exists todo; cbn [mo_phase]; rewrite fset_other by congruence; exact P|]. split; [exact R|]. split; [exact S|]. split; [exact C|].
    intro v. cbn [mo_phase]. unfold fset. destruct (v =? u)%nat; [split; [discriminate|intros; discriminate]|apply U].
  - destruct (phase u); discriminate.
  - destruct (phase u) as [| |l [|d td]|] eqn:Pu; try discriminate. destruct (Nat.eq_dec u t) as [-> | N].
    + rewrite P in Pu. injection Pu as <- <- <-. rewrite S in E. replace (length line <=? room c)%nat with false in E by (symmetry; apply Nat.leb_gt; exact R). discriminate.
    + exfalso. apply (proj2 (U u) N _ _ Pu).
  - destruct (phase u) as [| |l [|d td]|] eqn:Pu; try discriminate. destruct (Nat.eq_dec u t) as [-> | N]; [congruence|]. exfalso. apply (proj2 (U u) N _ _ Pu).
  - destruct (phase u) eqn:Pu; try discriminate. exfalso. apply (proj1 (U u) Pu).
  - discriminate.
  - discriminate.
  - injection E as <- <-. split; [|intros e []]. split; [reflexivity|]. split; [exists todo; exact P|]. split; [cbn [mo_room]; rewrite fset_other by congruence; exact R|]. auto.
  - injection E as <- <-. split; [|intros e []]. split; [reflexivity|]. split; [exists todo; exact P|]. split; [exact R|]. split; [cbn [mo_shut]; rewrite fset_other by congruence; exact S|]. auto.
Qed.
Theorem C61_others_go_on_refuted : exists l s notes c, mrun mstart l = Some (s, notes) /\
  (forall u, mo_phase s u <> MRun) /\
  forall more s' notes', mrun s more = Some (s', notes') ->
    Forall (fun a => match a with ARead d _ | AShut d => d <> c | ABegin _ _ _ _ args => mon_hidden args = false | _ => True end) more ->
    forall e, In e notes' -> exists u args, e = MBegin u args.
Proof.
  exists [AStart 7; ABegin 0 (bs "1.0") (bs "a:1") [] [bs "GET"; bs "k"]; ALock 0].
  set (r := mrun mstart _). vm_compute in r. eexists. eexists. exists 7%nat. split; [subst r; reflexivity|].
  match goal with |- (forall u, mo_phase ?s u <> MRun) /\ _ => set (s0 := s) end.
  assert (K : stuck 7 0 (mon_line (bs "1.0") (bs "a:1") [] [bs "GET"; bs "k"]) s0).
  { split; [reflexivity|]. split; [exists []; reflexivity|]. split; [vm_compute; lia|]. split; [reflexivity|]. split; [discriminate|].
    intro u. destruct u as [|u]; [split; [discriminate|intro X; congruence]|]. split; [discriminate|intros; discriminate]. }
  split; [intro u; apply (proj2 (proj2 (proj2 (proj2 (proj2 K)))))|].
  clearbody s0. clear r. intros more. revert s0 K. induction more as [|a more IH]; intros s0 K s' notes' E F e I; cbn [mrun] in E.
  - injection E as <- <-. destruct I.
  - inversion F as [|? ? F1 F2]; subst. destruct (mstep s0 a) as [[s1 e1]|] eqn:E1; [|discriminate]. destruct (mrun s1 more) as [[s2 e2]|] eqn:E2; [|discriminate].
    injection E as <- <-. destruct (stuck_step _ _ _ _ _ _ _ K E1 F1) as (K1 & G). apply in_app_or in I. destruct I as [I | I]; [exact (G e I)|].
    eapply IH; eassumption.
Qed.

(** ** Cases *)
(** Two watchers, two threads; one watcher leaves; a password is not shown. *)
Definition case_acts : list mact :=
  [ABegin 0 (bs "1.0") (bs "a:1") [] [bs "SET"; bs "a"; bs "b"]; ARun 0; AStart 1; AStart 2; ARead 1 200; ARead 2 200;
   ABegin 0 (bs "2.0") (bs "a:1") [] [bs "GET"; bs "a"]; ABegin 5 (bs "2.0") (bs "b:2") [] [bs "Auth"; bs "secret"]; ARun 5;
   ABegin 5 (bs "2.5") (bs "b:2") [] [bs "DEL"; bs "a"]; ALock 5; AWrite 5; AWrite 5; ALeave 5; ALock 0; AWrite 0; AWrite 0; ALeave 0; AStop 1;
   ARun 0; ABegin 0 (bs "3.0") (bs "a:1") [] [bs "GET"; bs "q""x"]; ALock 0; AWrite 0; ALeave 0; ARun 0; ARun 5].
Example C61_case : match mrun mstart case_acts with
  | Some (s, notes) => mo_lock s = None /\ mo_shut s 1 = false /\ mo_shut s 2 = false /\ length notes = 17%nat /\
      mo_got s 1 = [bs "+2.5 [0 b:2] ""DEL"" ""a""" ++ [13; 10]; bs "+2.0 [0 a:1] ""GET"" ""a""" ++ [13; 10]] /\
      mo_got s 2 = mo_got s 1 ++ [bs "+3.0 [0 a:1] ""GET"" ""q\""x""" ++ [13; 10]]
  | None => False
  end.
Proof. vm_compute. repeat split. Qed.
Example C61_case_plain : Forall (Forall plain) [bs "SET"; [9; 13; 10; 34; 92; 126]].
Proof. repeat constructor; unfold plain; vm_compute; intuition congruence. Qed.
Example C61_case_lock : exists s notes, mrun mstart (firstn 11 case_acts) = Some (s, notes) /\ mo_lock s = Some 5%nat.
Proof. destruct (mrun mstart (firstn 11 case_acts)) as [[s notes]|] eqn:E; [|vm_compute in E; discriminate]. exists s, notes. split; [reflexivity|]. vm_compute in E. injection E as <- _. reflexivity. Qed.

(** A byte that is no printable character stands in the line as a backslash, an x and its two hexadecimal digits, followed by the zero and the three
    bytes that snprintf left as they were. *)
Theorem C61_hex : forall junk c, c < 256 -> (c < 32 \/ 127 <= c) -> c <> 9 -> c <> 10 -> c <> 13 ->
  exists h l, nth_error (bs "0123456789ABCDEF") (N.to_nat (c / 16)) = Some h /\ nth_error (bs "0123456789ABCDEF") (N.to_nat (c mod 16)) = Some l /\
    mon_char junk c = bs "\x" ++ [h; l; 0] ++ junk.
Proof.
  intros junk c B R N1 N2 N3.
  assert (H : forall d, d < 16 -> nth_error (bs "0123456789ABCDEF") (N.to_nat d) = Some (hexdig d)).
  { intros d D. assert (K : exists n, d = N.of_nat n /\ (n < 16)%nat) by (exists (N.to_nat d); lia). destruct K as (n & -> & L). do 16 (destruct n as [|n]; [reflexivity|]). lia. }
  exists (hexdig (c / 16)), (hexdig (c mod 16)). split; [apply H; apply N.div_lt_upper_bound; lia|]. split; [apply H; apply N.mod_lt; lia|].
  unfold mon_char. replace (c =? 10) with false by lia. replace (c =? 13) with false by lia. replace (c =? 9) with false by lia.
  replace (c =? 34) with false by lia. replace (c =? 92) with false by lia. replace ((c <? 32) || (127 <=? c)) with true by lia. reflexivity.
Qed.
Example C61_case_hex : mon_char [1; 2; 3] 171 = bs "\xAB" ++ [0; 1; 2; 3].
Proof. reflexivity. Qed.
