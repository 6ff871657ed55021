(** C77: a counter that several clients change: no change is lost, and no two INCR get the same number. *)
From Verif Require Import Base Types Clamp Entry Hash Map Shard Cache Reach Text IntText IntTextProofs CmdTable CmdSpec CmdSpec3 CmdsProofs CmdsProofs3 CmdsProofs4 Prog Cmds Conn ConnSpec ConnProofs7 PropCache SafeSpec SafeProofs2 PropSafe PropSafe2 PropConn Net NetSpec NetProofs PropNet Server ServerSpec ServerProofs ServerProofs2 ServerProofs3 PropReply Base PropCmds PropCursor PropCmds3  PropSafe2 SafeProofs2  PropServer.
From Verif Require Import Observe CmdSpec2 PropCmds2 CmdTableProofs PropText SafeProofs PropServerSafe FrameSpec FrameProofs PropFrame.
From Coq Require Import String Lia.
Local Open Scope N_scope.
Notation length := List.length.
Notation concat := List.concat.
Notation map := List.map.

(** *** Specification *)
(** The commands that add to a counter: with [u] the unsigned ones. [tag] is what a Postgres client is told. *)
Inductive adds (key : bytes) : list bytes -> bool -> string -> Z -> Prop :=
| adds_incr : forall a0 (u : bool), word a0 (if u then "uincr" else "incr") -> adds key [a0; key] u "INCR" 1
| adds_decr : forall a0 (u : bool), word a0 (if u then "udecr" else "decr") -> adds key [a0; key] u "DECR" (-1)
| adds_incrby : forall a0 (u : bool) dl d, word a0 (if u then "uincrby" else "incrby") -> number u dl d -> adds key [a0; key; dl] u "INCRBY" d
| adds_decrby : forall a0 (u : bool) dl d, word a0 (if u then "udecrby" else "decrby") -> number u dl d -> adds key [a0; key; dl] u "DECRBY" (- d).
(** What an entry of the log adds to the counter: nothing if it is no command, if the client is not allowed to give commands, or if
    the command may not change the key. *)
Inductive step_of (cf : config) (key : bytes) (e : deed) : Z -> Prop :=
| step_reply : snd (d_what (e_did e)) = None -> step_of cf key e 0
| step_refused : ~ allowed cf e -> step_of cf key e 0
| step_other : forall args es, snd (d_what (e_did e)) = Some (args, es) -> ~ writes args key -> step_of cf key e 0
| step_adds : forall args es u tag d, snd (d_what (e_did e)) = Some (args, es) -> allowed cf e -> adds key args u tag d -> step_of cf key e d.
Inductive total (cf : config) (key : bytes) : list deed -> Z -> Prop :=
| total_none : total cf key [] 0
| total_more : forall e l d s, step_of cf key e d -> total cf key l s -> total cf key (e :: l) (d + s).

(** *** Proofs *)
Lemma canonical_number : forall s x u, canonical s x -> x < 2 ^ 63 -> number u s (Z.of_N x).
Proof.
  intros s x u C L. assert (Ln : (length s <= 20)%nat) by (apply (canonical_length s x C); lia).
  assert (Rd : reads s false x).
  { destruct C as (D & E & _). exists [], [], s. split; [reflexivity|]. split; [constructor|]. split; [left; reflexivity|]. split; assumption. }
  assert (Hd : hd 0 s <> 45).
  { destruct C as ((Ne & D) & _). destruct s as [|b r]; [contradiction|]. inversion D; subst. cbn. intros ->. discriminate. }
  destruct u; cbn [number].
  - exists x. split; [|reflexivity]. split; [lia|]. split; [exact Hd|]. right. exists false, x. split; [exact Rd|]. split; [lia|reflexivity].
  - split; [lia|]. split; [unfold i64_ok, INT64_MIN, INT64_MAX; change (2 ^ 63) with 9223372036854775808 in L; lia|]. right. exists false, x. split; [exact Rd|reflexivity].
Qed.
Lemma number_unique : forall u s x y, number u s x -> number u s y -> x = y.
Proof.
  intros u s x y A B. apply number_read in A. apply number_read in B. destruct A as [A Ra], B as [B Rb]. rewrite A in B. injection B as B.
  destruct u; cbn [delta_of in_range] in *; injection B; lia.
Qed.
Lemma refused_keeps : forall c orc n ch pw pr args ch' es evs, prun c orc n ch (cmdAUTH pw pr args) = Ok (ch', es, evs) -> ch' = ch.
Proof.
  intros c orc n ch pw pr args ch' es evs. unfold cmdAUTH. cbv zeta. destruct (negb (is_word (hd [] args) "auth")).
  { destruct (is_mc pr); unfold error; rewrite prun_answer; intro H; injection H as <- _ _; reflexivity. }
  destruct args as [|a0 [|p [|q [|x r]]]]; try (unfold error; rewrite prun_answer; intro H; injection H as <- _ _; reflexivity).
  destruct (beq p pw); [|unfold error; rewrite prun_answer; intro H; injection H as <- _ _; reflexivity].
  cbn [prun]. destruct (is_pg pr); rewrite prun_answer; intro H; injection H as <- _ _; reflexivity.
Qed.
Lemma allowed_dec : forall cf e, allowed cf e \/ (~ allowed cf e /\ forall args, evcommand cf (e_auth e) (d_proto (e_did e)) args = cmdAUTH (cf_password cf) (d_proto (e_did e)) args).
Proof.
  intros cf e. unfold allowed, evcommand. destruct (cf_useauth cf); [|left; left; reflexivity]. destruct (e_auth e); [left; right; left; reflexivity|].
  destruct (d_proto (e_did e)); try (left; right; right; reflexivity); right; (split; [|reflexivity]); intros [H|[H|H]]; discriminate.
Qed.
Lemma total_one : forall cf key e d, step_of cf key e d -> total cf key [e] d.
Proof. intros cf key e d Sd. replace d with (d + 0)%Z by lia. constructor; [exact Sd|constructor]. Qed.
Lemma starts_word : forall a0 w, word a0 w -> starts_u a0 = match bs w with b :: _ => b =? 117 | [] => false end.
Proof. intros a0 w W. unfold word in W. rewrite <- W. destruct a0; reflexivity. Qed.
(** Only times matter that no clock has passed yet. *)
Definition later (orc : nat -> nat -> input) (i : nat) (t : Z) : Prop := forall j a, (j < i)%nat -> (in_now (orc j a) <= t)%Z.
Definition shown (o : opts) (orc : nat -> nat -> input) (i : nat) (ch : cache) (key : bytes) (z : Z) : Prop :=
  exists s tok, canonical s (Z.to_N z) /\ forall t, later orc i t -> sees (ctx_of o) ch key t (Some (mkView s 0 0 tok)).
Section Log.
Variables (o : opts) (cf : config) (orc : nat -> nat -> input).
Hypothesis Ns : cf_nshards cf = shards_of o.
Hypothesis H : forall j, fine (orc j) /\ manned (orc j) /\ steady (orc j) /\ ample (orc j).
Hypothesis Mono : forall i j a b, (i < j)%nat -> (in_now (orc i a) <= in_now (orc j b))%Z.
Lemma add_runs : forall i ch w e args u tag d key z ch' es evs, reachable (ctx_of o) ch -> SafeSpec.sized o (cf_fuel cf) ch -> ordinary o args ->
  prun (ctx_of o) (working w (orc i)) 0 ch (evcommand cf (e_auth e) (d_proto (e_did e)) args) = Ok (ch', es, evs) -> allowed cf e -> adds key args u tag d ->
  (0 <= z < 2 ^ 63)%Z -> (0 <= z + d < 2 ^ 63)%Z -> shown o orc i ch key z ->
  shown o orc (S i) ch' key (z + d) /\ exists s, canonical s (Z.to_N (z + d)) /\ es = map Out (number_reply (d_proto (e_did e)) (bs tag) u (z + d) s).
Proof.
  intros i ch w e args u tag d key z ch' es evs R Sz [Oa _] P A Ad Hz Hd (s & tok & Cs & Sh).
  destruct (H i) as (F & _ & St & _).
  assert (So : sees (ctx_of o) ch key (in_now (working w (orc i) 0%nat)) (Some (mkView s 0 0 tok))) by (apply Sh; intros j a Hj; apply Mono; exact Hj).
  assert (Done_ : forall reply, count_done o (d_proto (e_did e)) (bs tag) u (in_now (working w (orc i) 0%nat)) key d ch ch' (Some (mkView s 0 0 tok)) reply -> es = map Out reply ->
    shown o orc (S i) ch' key (z + d) /\ exists s0, canonical s0 (Z.to_N (z + d)) /\ es = map Out (number_reply (d_proto (e_did e)) (bs tag) u (z + d) s0)).
  { intros reply Cd Ee. assert (Nz : number u s z).
    { rewrite <- (Z2N.id z) by lia. apply canonical_number; [exact Cs|]. lia. }
    inversion Cd as [|v Nn _ Ev|old x _ Cx Nr _ Eo|old x y s0 tok0 Cx _ _ Ey Ds Hd0 _ Eo Er]; subst; cbn [counter v_val] in *.
    - destruct (Nn z Nz).
    - rewrite (number_unique _ _ _ _ Cx Nz) in Nr. destruct Nr. destruct u; unfold in_range; lia.
    - rewrite (number_unique _ _ _ _ Cx Nz) in *.
      assert (Ew : wrapped u (z + d) = (z + d)%Z) by (destruct u; unfold wrapped; lia).
      rewrite Ew in *. unfold decimal_text in Ds. destruct (Z.ltb_spec (z + d) 0); [lia|].
      split; [|exists s0; split; [exact Ds|reflexivity]]. exists s0, tok0. split; [exact Ds|]. intros t _. exact (Hd0 t). }
  assert (Ft : forall k r r', args = r ++ k :: r' -> forall v, bytes_ok v -> (length v <= 20)%nat -> CmdSpec.fits o ch k v).
  { intros k r r' -> v Bv Lv. destruct (proj1 (Forall_forall _ _) Oa k) as [B2 L2]; [apply in_or_app; right; left; reflexivity|].
    apply fits_of; try assumption; [exact (sz_room _ _ _ Sz)|]. change (2 ^ 61) with 2305843009213693952 in L2. change (2 ^ 62) with 4611686018427387904. lia. }
  destruct Ad as [a0 u Wd|a0 u Wd|a0 u dl d Wd Nd|a0 u dl d Wd Nd].
  all: assert (Us : starts_u a0 = u) by (rewrite (starts_word _ _ Wd); destruct u; reflexivity).
  - assert (P' : prun (ctx_of o) (working w (orc i)) 0 ch (cmdINCRDECR (d_proto (e_did e)) [a0; key] false (bs "INCR")) = Ok (ch', es, evs)).
    { destruct u; [rewrite (allowed_runs cf e [a0; key] 30 A (get_at _ "uincr" 30%nat Wd eq_refl)) in P|rewrite (allowed_runs cf e [a0; key] 26 A (get_at _ "incr" 26%nat Wd eq_refl)) in P]; exact P. }
    destruct (C29_one o (working w (orc i)) 0 ch (d_proto (e_did e)) a0 key false (bs "INCR") _ R (working_fine w _ F) (Ft key [a0] [] eq_refl) So) as (c2 & reply & ev2 & _ & Q & Cd).
    rewrite P' in Q. injection Q as <- Q _. rewrite Us in Cd. exact (Done_ reply Cd Q).
  - assert (P' : prun (ctx_of o) (working w (orc i)) 0 ch (cmdINCRDECR (d_proto (e_did e)) [a0; key] true (bs "DECR")) = Ok (ch', es, evs)).
    { destruct u; [rewrite (allowed_runs cf e [a0; key] 31 A (get_at _ "udecr" 31%nat Wd eq_refl)) in P|rewrite (allowed_runs cf e [a0; key] 27 A (get_at _ "decr" 27%nat Wd eq_refl)) in P]; exact P. }
    destruct (C29_one o (working w (orc i)) 0 ch (d_proto (e_did e)) a0 key true (bs "DECR") _ R (working_fine w _ F) (Ft key [a0] [] eq_refl) So) as (c2 & reply & ev2 & _ & Q & Cd).
    rewrite P' in Q. injection Q as <- Q _. rewrite Us in Cd. exact (Done_ reply Cd Q).
  - assert (P' : prun (ctx_of o) (working w (orc i)) 0 ch (cmdINCRDECRBY (d_proto (e_did e)) [a0; key; dl] false (bs "INCRBY")) = Ok (ch', es, evs)).
    { destruct u; [rewrite (allowed_runs cf e [a0; key; dl] 28 A (get_at _ "uincrby" 28%nat Wd eq_refl)) in P|rewrite (allowed_runs cf e [a0; key; dl] 24 A (get_at _ "incrby" 24%nat Wd eq_refl)) in P]; exact P. }
    rewrite <- Us in Nd.
    destruct (C29_by o (working w (orc i)) 0 ch (d_proto (e_did e)) a0 key dl false (bs "INCRBY") d _ R (working_fine w _ F) (Ft key [a0] [dl] eq_refl) Nd So) as (c2 & reply & ev2 & _ & Q & Cd).
    rewrite P' in Q. injection Q as <- Q _. rewrite Us in Cd. exact (Done_ reply Cd Q).
  - assert (P' : prun (ctx_of o) (working w (orc i)) 0 ch (cmdINCRDECRBY (d_proto (e_did e)) [a0; key; dl] true (bs "DECRBY")) = Ok (ch', es, evs)).
    { destruct u; [rewrite (allowed_runs cf e [a0; key; dl] 29 A (get_at _ "udecrby" 29%nat Wd eq_refl)) in P|rewrite (allowed_runs cf e [a0; key; dl] 25 A (get_at _ "decrby" 25%nat Wd eq_refl)) in P]; exact P. }
    rewrite <- Us in Nd.
    destruct (C29_by o (working w (orc i)) 0 ch (d_proto (e_did e)) a0 key dl true (bs "DECRBY") d _ R (working_fine w _ F) (Ft key [a0] [dl] eq_refl) Nd So) as (c2 & reply & ev2 & _ & Q & Cd).
    rewrite P' in Q. injection Q as <- Q _. rewrite Us in Cd. exact (Done_ reply Cd Q).
Qed.
Lemma shown_later : forall i ch key z, shown o orc i ch key z -> shown o orc (S i) ch key z.
Proof. intros i ch key z (s & tok & C & Sh). exists s, tok. split; [exact C|]. intros t L. apply Sh. intros j a Hj. apply L. lia. Qed.
(** Through any part of the log, the counter has the sum, and each answer told the sum at its moment. *)
Lemma mid_counts : forall l i ch i' ch' key z, ran (ctx_of o) cf orc i ch l i' ch' -> reachable (ctx_of o) ch ->
  (forall l1 l2 i1 ch1, l = l1 ++ l2 -> ran (ctx_of o) cf orc i ch l1 i1 ch1 -> SafeSpec.sized o (cf_fuel cf) ch1) ->
  (forall e args es, In e l -> snd (d_what (e_did e)) = Some (args, es) -> ordinary o args) ->
  (forall a b s, l = a ++ b -> total cf key a s -> (0 <= z + s < 2 ^ 63)%Z) -> shown o orc i ch key z ->
  (forall s, total cf key l s -> shown o orc i' ch' key (z + s) /\ reachable (ctx_of o) ch') /\
  (forall a e b s args es u tag d, l = a ++ e :: b -> total cf key a s -> snd (d_what (e_did e)) = Some (args, es) -> allowed cf e -> adds key args u tag d ->
     exists t, canonical t (Z.to_N (z + s + d)) /\ es = map Out (number_reply (d_proto (e_did e)) (bs tag) u (z + s + d) t)).
Proof.
  intros l i ch i' ch' key z Rn. revert z. induction Rn as [i ch|i ch e l i' ch' E Rn IH|i ch e l i' ch' args es w ch1 evs E P Rn IH]; intros z R Sz Od Rg Sh.
  - split; [|intros a e b s args es u tag d Q; destruct a; discriminate Q].
    intros s T. inversion T; subst. rewrite Z.add_0_r. split; assumption.
  - assert (Zero : forall d, step_of cf key e d -> d = 0%Z) by (intros d [| | |]; congruence).
    destruct (IH z R) as [I1 I2].
    { intros l1 l2 i1 ch1 -> Q. apply (Sz (e :: l1) l2 i1 ch1 eq_refl). apply ran_reply; assumption. }
    { intros e0 a0 s0 I0. apply Od. right. exact I0. }
    { intros a b s -> T. apply (Rg (e :: a) b s eq_refl). rewrite <- (Z.add_0_l s). constructor; [apply step_reply; exact E|exact T]. }
    { exact Sh. }
    split.
    + intros s T. inversion T as [|? ? d s0 Sd T0]; subst. rewrite (Zero d Sd), Z.add_0_l. exact (I1 s0 T0).
    + intros a e0 b s args es u tag d Q T W. destruct a as [|x a]; cbn [app] in Q; injection Q as <- ->; [congruence|].
      inversion T as [|? ? d0 s0 Sd T0]; subst. rewrite (Zero d0 Sd), Z.add_0_l. intros A Ad. exact (I2 a e0 b s0 args es u tag d eq_refl T0 W A Ad).
  - pose proof (Od e args es (or_introl eq_refl) E) as Oa.
    pose proof (Sz [] (e :: l) i ch eq_refl (ran_end _ _ _ _ _)) as Sz0.
    destruct (H i) as (F & M & St & Am).
    destruct (ordinary_ends o cf (orc i) w ch (e_auth e) (d_proto (e_did e)) args Ns F M St R Sz0 Oa) as (ch2 & es2 & ev2 & P2 & R2).
    rewrite P in P2. injection P2 as <- <- <-.
    assert (Z0 : (0 <= z < 2 ^ 63)%Z) by (rewrite <- (Z.add_0_r z); apply (Rg [] (e :: l) 0%Z eq_refl (total_none _ _))).
    assert (One : forall d, step_of cf key e d -> shown o orc (S i) ch1 key (z + d)).
    { intros d Sd. destruct Sd as [Q|Na|a0 s0 Q Nw|a0 s0 u tag d Q A Ad].
      - congruence.
      - destruct (allowed_dec cf e) as [A|[_ A]]; [contradiction|]. rewrite A in P. apply refused_keeps in P. subst ch1. rewrite Z.add_0_r. apply shown_later. exact Sh.
      - rewrite E in Q. injection Q as <- <-. rewrite Z.add_0_r. destruct Sh as (s & tok & C & Sh). exists s, tok. split; [exact C|]. intros t L.
        apply (C76_frame o cf (e_auth e) (d_proto (e_did e)) args (working w (orc i)) 0 ch t ch1 es evs R Sz0 Ns (working_fine w _ F) M St Am); try assumption; [|lia|apply Sh; intros j a Hj; apply L; lia].
        intro n. exact (L i n (Nat.lt_succ_diag_r i)).
      - rewrite E in Q. injection Q as <- <-.
        assert (Rd : (0 <= z + d < 2 ^ 63)%Z).
        { apply (Rg [e] l d eq_refl). apply total_one. eapply step_adds; eassumption. }
        exact (proj1 (add_runs i ch w e args u tag d key z ch1 es evs R Sz0 Oa P A Ad Z0 Rd Sh)). }
    assert (Next : forall d, step_of cf key e d ->
      (forall s, total cf key l s -> shown o orc i' ch' key (z + d + s) /\ reachable (ctx_of o) ch') /\
      (forall a e b s args es u tag d', l = a ++ e :: b -> total cf key a s -> snd (d_what (e_did e)) = Some (args, es) -> allowed cf e -> adds key args u tag d' ->
         exists t, canonical t (Z.to_N (z + d + s + d')) /\ es = map Out (number_reply (d_proto (e_did e)) (bs tag) u (z + d + s + d') t))).
    { intros d Sd. apply (IH (z + d)%Z R2).
      - intros l1 l2 i1 ch3 -> Q. apply (Sz (e :: l1) l2 i1 ch3 eq_refl). eapply ran_command; eassumption.
      - intros e0 a0 s0 I0. apply Od. right. exact I0.
      - intros a b s -> T. rewrite <- Z.add_assoc. apply (Rg (e :: a) b (d + s)%Z eq_refl). constructor; assumption.
      - exact (One d Sd). }
    split.
    + intros s T. inversion T as [|? ? d s0 Sd T0]; subst. rewrite Z.add_assoc. exact (proj1 (Next d Sd) s0 T0).
    + intros a e0 b s args0 es0 u tag d Q T W A Ad. destruct a as [|x a]; cbn [app] in Q; injection Q as <- ->.
      * inversion T; subst. rewrite Z.add_0_r. rewrite E in W. injection W as <- <-.
        assert (Rd : (0 <= z + d < 2 ^ 63)%Z).
        { apply (Rg [e] b d eq_refl). apply total_one. eapply step_adds; eassumption. }
        exact (proj2 (add_runs i ch w e args u tag d key z ch1 es evs R Sz0 Oa P A Ad Z0 Rd Sh)).
      * inversion T as [|? ? d0 s0 Sd T0]; subst. rewrite Z.add_assoc. exact (proj2 (Next d0 Sd) a e0 b s0 args0 es0 u tag d eq_refl T0 W A Ad).
Qed.
End Log.

(** *** C77 *)
Lemma counts_after : forall o cf orc pg size ss ch t l1 e1 mid l2 a0 key val z es1,
  server_possible (ctx_of o) cf orc pg size ss (thread_new (shared_new ch)) -> Forall (polite (ctx_of o) cf orc) ss ->
  server_run (ctx_of o) cf orc pg size ss (thread_new (shared_new ch)) = NOk t -> g_bad (t_shared t) = None ->
  reachable (ctx_of o) ch -> cf_nshards cf = shards_of o -> (forall j, fine (orc j) /\ manned (orc j) /\ steady (orc j) /\ ample (orc j)) ->
  (forall i j a b, (i < j)%nat -> (in_now (orc i a) <= in_now (orc j b))%Z) ->
  (forall l1 l2 i ch1, g_log (t_shared t) = l1 ++ l2 -> ran (ctx_of o) cf orc 0 ch l1 i ch1 -> SafeSpec.sized o (cf_fuel cf) ch1) ->
  (forall e args es, In e (g_log (t_shared t)) -> snd (d_what (e_did e)) = Some (args, es) -> ordinary o args) ->
  g_log (t_shared t) = l1 ++ e1 :: mid ++ l2 -> allowed cf e1 ->
  word a0 "set" -> snd (d_what (e_did e1)) = Some ([a0; key; val], es1) -> canonical val (Z.to_N z) ->
  (forall a b s, mid = a ++ b -> total cf key a s -> (0 <= z + s < 2 ^ 63)%Z) ->
  (exists i3 ch3, ran (ctx_of o) cf orc i3 ch3 l2 (g_num (t_shared t)) (g_cache (t_shared t)) /\ forall s, total cf key mid s -> shown o orc i3 ch3 key (z + s) /\ reachable (ctx_of o) ch3) /\
  (forall a e b s args es u tag d, mid = a ++ e :: b -> total cf key a s -> snd (d_what (e_did e)) = Some (args, es) -> allowed cf e -> adds key args u tag d ->
     exists v, canonical v (Z.to_N (z + s + d)) /\ es = map Out (number_reply (d_proto (e_did e)) (bs tag) u (z + s + d) v)).
Proof.
  intros o cf orc pg size ss ch t l1 e1 mid l2 a0 key val z es1 Ps Po Er B R Ns H Mono Sz Od El A1 W1 Q1 Cv Rg.
  destruct (C59_server _ _ _ _ _ _ _ _ Ps Po Er B) as (Rn & _). rewrite El in Rn, Sz, Od.
  assert (H' : forall j, fine (orc j) /\ manned (orc j) /\ steady (orc j)) by (intro j; destruct (H j) as (x & y & z0 & _); auto).
  destruct (ran_split _ _ _ _ _ _ _ _ _ Rn) as (i1 & ch1 & Ra & Rb).
  assert (R1 : reachable (ctx_of o) ch1).
  { apply (ran_reachable o cf orc l1 0 ch i1 ch1 Ns H' Ra R).
    - intros a b i ch2 -> Q. apply (Sz a (b ++ e1 :: mid ++ l2) i ch2); [rewrite <- app_assoc; reflexivity|exact Q].
    - intros e a s Ie. apply Od. apply in_or_app. left. exact Ie. }
  destruct (ran_first _ _ _ _ _ _ _ _ _ _ _ Rb Q1) as (w1 & ch2 & ev1 & P1 & Rc).
  pose proof (Sz l1 (e1 :: mid ++ l2) i1 ch1 eq_refl Ra) as Sz1.
  assert (O1 : ordinary o [a0; key; val]) by (apply (Od e1 _ es1); [apply in_or_app; right; left; reflexivity|exact Q1]).
  destruct (H i1) as (F1 & M1 & St1 & Am1).
  destruct (ordinary_ends o cf (orc i1) w1 ch1 (e_auth e1) (d_proto (e_did e1)) _ Ns F1 M1 St1 R1 Sz1 O1) as (ch2' & es2' & ev2' & P1' & R2).
  rewrite P1 in P1'. injection P1' as <- _ _.
  assert (S1 : exists tok, CmdSpec.holds o ch2 key (mkView val 0 0 tok)).
  { rewrite (allowed_runs cf e1 [a0; key; val] 0 A1 (get_at _ "set" 0%nat W1 eq_refl)) in P1. cbn [cmd_func nth] in P1.
    destruct O1 as [O1 _]. inversion O1 as [|? ? _ B1]; subst. inversion B1 as [|? ? B2 B3]; subst. inversion B3 as [|? ? B4 _]; subst.
    destruct B2 as [B2 L2], B4 as [B4 L4].
    assert (Ft : CmdSpec.fits o ch1 key val).
    { apply fits_of; try assumption; [exact (sz_room _ _ _ Sz1)|]. change (2 ^ 61) with 2305843009213693952 in L2, L4. change (2 ^ 62) with 4611686018427387904. lia. }
    destruct (sees_some o ch1 key (in_now (working w1 (orc i1) 0%nat)) R1) as [old So].
    destruct (PropCmds.C28_set o (working w1 (orc i1)) 0 ch1 (d_proto (e_did e1)) a0 key val [] [] old R1 (working_fine w1 _ F1) (fun _ => St1) Ft spell_end) as (c' & reply & evs & i & e & _ & P & (l & ->) & Ne & D).
    { split; [intros _ u z0 []|]. split; [intros []|intros [[] _]]. }
    { exact So. }
    rewrite P1 in P. injection P as <- -> _. destruct Ne as [_ Ne]. specialize (Ne (fun x => x)). subst e.
    destruct D as (_ & _ & D). rewrite (Am1 l : in_lowmem (working w1 (orc i1) l) = false) in D.
    destruct (D eq_refl) as (_ & _ & (tok & Hd) & _). { unfold CmdSpec.refused. cbn [last_cas]. destruct old; intros []. }
    exists tok. exact Hd. }
  destruct S1 as (tok & Hd).
  destruct (ran_split _ _ _ _ _ _ _ _ _ Rc) as (i3 & ch3 & Rd & Re).
  assert (Rp : ran (ctx_of o) cf orc 0 ch (l1 ++ [e1]) (S i1) ch2) by (eapply ran_join; [exact Ra|eapply ran_command; [exact Q1|exact P1|constructor]]).
  destruct (mid_counts o cf orc Ns H Mono mid (S i1) ch2 i3 ch3 key z Rd R2) as [K1 K2].
  { intros a b i c' -> Q. apply (Sz ((l1 ++ [e1]) ++ a) (b ++ l2) i c'); [rewrite <- !app_assoc; reflexivity|].
    eapply ran_join; [exact Rp|exact Q]. }
  { intros e args es Ie Qe. apply (Od e args es); [|exact Qe]. apply in_or_app. right. right. apply in_or_app. left. exact Ie. }
  { exact Rg. }
  { exists val, tok. split; [exact Cv|]. intros t0 _. exact (Hd t0). }
  split; [|exact K2]. exists i3, ch3. split; [exact Re|exact K1].
Qed.
(** In a server with any number of clients: SET key val with a number z, then any commands of any clients that only add to the key or
    leave it alone, then GET key. The answer is z plus all that was added; and each command that added was told the sum at its moment. *)
Theorem C77_sum : forall o cf orc pg size ss ch t l1 e1 mid e2 l2 a0 g key val z es1 es2,
  server_possible (ctx_of o) cf orc pg size ss (thread_new (shared_new ch)) -> Forall (polite (ctx_of o) cf orc) ss ->
  server_run (ctx_of o) cf orc pg size ss (thread_new (shared_new ch)) = NOk t -> g_bad (t_shared t) = None ->
  reachable (ctx_of o) ch -> cf_nshards cf = shards_of o -> (forall j, fine (orc j) /\ manned (orc j) /\ steady (orc j) /\ ample (orc j)) ->
  (forall i j a b, (i < j)%nat -> (in_now (orc i a) <= in_now (orc j b))%Z) ->
  (forall l1 l2 i ch1, g_log (t_shared t) = l1 ++ l2 -> ran (ctx_of o) cf orc 0 ch l1 i ch1 -> SafeSpec.sized o (cf_fuel cf) ch1) ->
  (forall e args es, In e (g_log (t_shared t)) -> snd (d_what (e_did e)) = Some (args, es) -> ordinary o args) ->
  g_log (t_shared t) = l1 ++ e1 :: mid ++ e2 :: l2 -> allowed cf e1 -> allowed cf e2 ->
  word a0 "set" -> snd (d_what (e_did e1)) = Some ([a0; key; val], es1) -> canonical val (Z.to_N z) ->
  word g "get" -> snd (d_what (e_did e2)) = Some ([g; key], es2) ->
  (forall a b s, mid = a ++ b -> total cf key a s -> (0 <= z + s < 2 ^ 63)%Z) ->
  (forall s, total cf key mid s -> exists dec tok v, canonical v (Z.to_N (z + s)) /\ prints dec /\
     es2 = map Out (get_reply dec (d_proto (e_did e2)) key (Some (mkView v 0 0 tok)))) /\
  (forall a e b s args es u tag d, mid = a ++ e :: b -> total cf key a s -> snd (d_what (e_did e)) = Some (args, es) -> allowed cf e -> adds key args u tag d ->
     exists v, canonical v (Z.to_N (z + s + d)) /\ es = map Out (number_reply (d_proto (e_did e)) (bs tag) u (z + s + d) v)).
Proof.
  intros o cf orc pg size ss ch t l1 e1 mid e2 l2 a0 g key val z es1 es2 Ps Po Er B R Ns H Mono Sz Od El A1 A2 W1 Q1 Cv W2 Q2 Rg.
  destruct (counts_after o cf orc pg size ss ch t l1 e1 mid (e2 :: l2) a0 key val z es1 Ps Po Er B R Ns H Mono Sz Od El A1 W1 Q1 Cv Rg) as ((i3 & ch3 & Re & K1) & K2).
  split; [|exact K2]. intros s T. destruct (K1 s T) as ((v & tok3 & Cs & Sh) & R3).
  destruct (ran_first _ _ _ _ _ _ _ _ _ _ _ Re Q2) as (w2 & ch4 & ev2 & P2 & Rf).
  destruct (H i3) as (F3 & M3 & St3 & Am3).
  rewrite (allowed_runs cf e2 [g; key] 1 A2 (get_at _ "get" 1%nat W2 eq_refl)) in P2. cbn [cmd_func nth] in P2.
  assert (So : sees (ctx_of o) ch3 key (in_now (working w2 (orc i3) 0%nat)) (Some (mkView v 0 0 tok3))) by (apply Sh; intros j a Hj; apply Mono; exact Hj).
  destruct (C32_get o (working w2 (orc i3)) 0 ch3 (d_proto (e_did e2)) g key _ R3 (working_fine w2 _ F3) So) as (c' & evs & dec & _ & Pd & P & _).
  rewrite P2 in P. injection P as _ -> _. exists dec, tok3, v. split; [exact Cs|]. split; [exact Pd|reflexivity].
Qed.

Lemma adds_writes : forall key args u tag d, adds key args u tag d -> writes args key.
Proof.
  intros key args u tag d A. destruct A as [a0 u W|a0 u W|a0 u dl d W N|a0 u dl d W N]; apply writes_first; unfold word in W; rewrite W; destruct u; cbn; tauto.
Qed.
Section Tickets.
Variables (cf : config) (key : bytes) (mid : list deed).
Hypothesis Only : forall e args es, In e mid -> snd (d_what (e_did e)) = Some (args, es) -> ~ writes args key \/ exists i, word i "incr" /\ args = [i; key].
Lemma step_one : forall e d, In e mid -> step_of cf key e d -> (d = 0 \/ d = 1)%Z.
Proof.
  intros e d I Sd. destruct Sd as [Q|Na|args es Q Nw|args es u tag d Q A Ad]; [left; reflexivity..|].
  destruct (Only e args es I Q) as [N|(i & W & E)]; [destruct N; exact (adds_writes _ _ _ _ _ Ad)|].
  destruct Ad as [a0 u Wd|a0 u Wd|a0 u dl d Wd Nd|a0 u dl d Wd Nd]; [right; reflexivity| |discriminate E..].
  injection E as ->. unfold word in W, Wd. rewrite W in Wd. destruct u; discriminate Wd.
Qed.
Lemma total_bound : forall a s, incl a mid -> total cf key a s -> (0 <= s <= Z.of_nat (length a))%Z.
Proof.
  intros a s I T. induction T as [|e l d s Sd T IH]; [cbn; lia|]. assert (I' : incl l mid) by (intros x Hx; apply I; right; exact Hx).
  specialize (IH I'). destruct (step_one e d (I e (or_introl eq_refl)) Sd); cbn [length]; lia.
Qed.
Lemma step_exists : forall e, In e mid -> exists d, step_of cf key e d.
Proof.
  intros e I. destruct (snd (d_what (e_did e))) as [[args es]|] eqn:Q; [|exists 0%Z; apply step_reply; exact Q].
  destruct (Only e args es I Q) as [N|(i & W & E)]; [exists 0%Z; eapply step_other; eassumption|].
  destruct (allowed_dec cf e) as [A|[A _]]; [|exists 0%Z; apply step_refused; exact A].
  exists 1%Z. rewrite E in Q. eapply step_adds; [exact Q|exact A|]. apply (adds_incr key i false). exact W.
Qed.
Lemma total_exists : forall a, incl a mid -> exists s, total cf key a s.
Proof.
  intro a. induction a as [|e a IH]; intro I; [exists 0%Z; constructor|].
  destruct (step_exists e (I e (or_introl eq_refl))) as [d Sd]. destruct IH as [s T]; [intros x Hx; apply I; right; exact Hx|]. exists (d + s)%Z. constructor; assumption.
Qed.
Lemma total_app : forall a b s s', total cf key a s -> total cf key b s' -> total cf key (a ++ b) (s + s').
Proof. intros a b s s' T T'. induction T; [exact T'|]. rewrite <- Z.add_assoc. constructor; assumption. Qed.
End Tickets.

(** So INCR gives out tickets: if all that the clients do with the key after SET is INCR, each gets a greater number than all before. *)
Theorem C77_tickets : forall o cf orc pg size ss ch t l1 e1 mid l2 a0 key val z es1,
  server_possible (ctx_of o) cf orc pg size ss (thread_new (shared_new ch)) -> Forall (polite (ctx_of o) cf orc) ss ->
  server_run (ctx_of o) cf orc pg size ss (thread_new (shared_new ch)) = NOk t -> g_bad (t_shared t) = None ->
  reachable (ctx_of o) ch -> cf_nshards cf = shards_of o -> (forall j, fine (orc j) /\ manned (orc j) /\ steady (orc j) /\ ample (orc j)) ->
  (forall i j a b, (i < j)%nat -> (in_now (orc i a) <= in_now (orc j b))%Z) ->
  (forall l1 l2 i ch1, g_log (t_shared t) = l1 ++ l2 -> ran (ctx_of o) cf orc 0 ch l1 i ch1 -> SafeSpec.sized o (cf_fuel cf) ch1) ->
  (forall e args es, In e (g_log (t_shared t)) -> snd (d_what (e_did e)) = Some (args, es) -> ordinary o args) ->
  g_log (t_shared t) = l1 ++ e1 :: mid ++ l2 -> allowed cf e1 ->
  word a0 "set" -> snd (d_what (e_did e1)) = Some ([a0; key; val], es1) -> canonical val (Z.to_N z) -> (0 <= z)%Z ->
  (forall e args es, In e mid -> snd (d_what (e_did e)) = Some (args, es) -> ~ writes args key \/ exists i, word i "incr" /\ args = [i; key]) ->
  (z + Z.of_nat (length mid) < 2 ^ 63)%Z ->
  forall a e b e' c i i' es es', mid = a ++ e :: b ++ e' :: c ->
  word i "incr" -> snd (d_what (e_did e)) = Some ([i; key], es) -> allowed cf e ->
  word i' "incr" -> snd (d_what (e_did e')) = Some ([i'; key], es') -> allowed cf e' ->
  exists n n' v v', (z < n < n')%Z /\ canonical v (Z.to_N n) /\ canonical v' (Z.to_N n') /\
    es = map Out (number_reply (d_proto (e_did e)) (bs "INCR") false n v) /\ es' = map Out (number_reply (d_proto (e_did e')) (bs "INCR") false n' v').
Proof.
  intros o cf orc pg size ss ch t l1 e1 mid l2 a0 key val z es1 Ps Po Er B R Ns H Mono Sz Od El A1 W1 Q1 Cv Hz Only Hm a e b e' c i i' es es' Em Wi Qe Ae Wi' Qe' Ae'.
  destruct (counts_after o cf orc pg size ss ch t l1 e1 mid l2 a0 key val z es1 Ps Po Er B R Ns H Mono Sz Od El A1 W1 Q1 Cv) as (_ & K).
  { intros x y s -> T. pose proof (total_bound cf key (x ++ y) Only x s (incl_appl _ (incl_refl _)) T) as Bd. rewrite app_length in Hm. lia. }
  assert (Ia : incl a mid) by (rewrite Em; apply incl_appl, incl_refl).
  assert (Ib : incl b mid) by (rewrite Em; apply incl_appr, incl_tl, incl_appl, incl_refl).
  destruct (total_exists cf key mid Only a Ia) as [sa Ta]. destruct (total_exists cf key mid Only b Ib) as [sb Tb].
  pose proof (total_bound cf key mid Only a sa Ia Ta) as Ba. pose proof (total_bound cf key mid Only b sb Ib Tb) as Bb.
  assert (Te : total cf key [e] 1) by (apply total_one; eapply step_adds; [exact Qe|exact Ae|apply (adds_incr key i false); exact Wi]).
  destruct (K a e (b ++ e' :: c) sa [i; key] es false "INCR"%string 1%Z Em Ta Qe Ae (adds_incr key i false Wi)) as (v & Cn & Ee).
  destruct (K (a ++ e :: b) e' c (sa + (1 + sb))%Z [i'; key] es' false "INCR"%string 1%Z) as (v' & Cn' & Ee').
  { rewrite Em, <- app_assoc. reflexivity. }
  { apply total_app; [exact Ta|]. apply (total_app cf key [e] b 1 sb Te Tb). }
  { exact Qe'. } { exact Ae'. } { apply (adds_incr key i' false). exact Wi'. }
  exists (z + sa + 1)%Z, (z + (sa + (1 + sb)) + 1)%Z, v, v'. split; [lia|]. auto.
Qed.

(** *** A case: two clients count, one reads *)
Definition tally_steps : list (nstep shared) :=
  [SRound (server_answers (demo_read [(5%nat, RData (bs "SET n 41" ++ crlf ++ bs "INCR n" ++ crlf)); (6%nat, RData (bs "INCR n" ++ crlf ++ bs "GET n" ++ crlf))])) [mkEvent 5 true; mkEvent 6 true]].
Definition tally_end : thread cdata shared job := Eval vm_compute in end_of (case_run tally_steps (thread_new (shared_new demo_ch))).
Definition set_n : list bytes := [bs "SET"; bs "n"; bs "41"].
Definition incr_n : list bytes := [bs "INCR"; bs "n"].
Definition get_n : list bytes := [bs "GET"; bs "n"].
Definition after (args : list bytes) (ch : cache) : cache :=
  match prun demo_c demo_orc 0 ch (evcommand case_cf false RESP args) with Ok (ch', _, _) => ch' | Bad _ => ch end.
Definition tally1 : cache := Eval vm_compute in after set_n demo_ch.
Definition tally2 : cache := Eval vm_compute in after incr_n tally1.
Definition tally3 : cache := Eval vm_compute in after incr_n tally2.
Definition tally4 : cache := Eval vm_compute in after get_n tally3.
Lemma tally_ran : case_run tally_steps (thread_new (shared_new demo_ch)) = NOk tally_end.
Proof. vm_compute. reflexivity. Qed.
Lemma tally_can : server_possible demo_c case_cf server_orc no_pages 8 tally_steps (thread_new (shared_new demo_ch)) /\ Forall (polite demo_c case_cf server_orc) tally_steps.
Proof. split; [unfold tally_steps; next_round; exact I|]. constructor; [intros fd g; apply no_others|constructor]. Qed.
(** The caches that a log goes through. *)
Fixpoint follows (ch : cache) (l : list deed) (cs : list cache) : Prop :=
  match l, cs with
  | [], [] => True
  | e :: l, c' :: cs => (exists args es, snd (d_what (e_did e)) = Some (args, es) /\
      forall w, exists es evs, prun demo_c (working w demo_orc) 0 ch (evcommand case_cf (e_auth e) (d_proto (e_did e)) args) = Ok (c', es, evs)) /\ follows c' l cs
  | _, _ => False
  end.
Lemma follows_ran : forall l cs ch, follows ch l cs -> forall i l1 l2 i' ch1, l = l1 ++ l2 -> ran demo_c case_cf server_orc i ch l1 i' ch1 -> ch1 = ch \/ In ch1 cs.
Proof.
  intro l. induction l as [|e l IH]; intros cs ch Fo i l1 l2 i' ch1 El Rn.
  - destruct l1; [|discriminate]. left. exact (ran_none _ _ _ _ _ _ _ Rn).
  - destruct cs as [|c' cs]; [destruct Fo|]. destruct Fo as [(args & es & Q & Dt) Fo].
    destruct l1 as [|x l1]; [left; exact (ran_none _ _ _ _ _ _ _ Rn)|]. injection El as <- ->.
    destruct (ran_first _ _ _ _ _ _ _ _ _ _ _ Rn Q) as (w & c2 & evs & P & Rn'). destruct (Dt w) as (es' & evs' & P').
    change (server_orc i) with demo_orc in P. rewrite P in P'. injection P' as -> _ _.
    right. destruct (IH cs c' Fo (S i) l1 l2 i' ch1 eq_refl Rn') as [->|I1]; [left; reflexivity|right; exact I1].
Qed.
Ltac tally_next H args := 
  let R := fresh "R" in
  match goal with |- reachable _ ?c /\ _ =>
    assert (R : reachable demo_c c) by
      (destruct H as [R0 S0]; eapply (next_reachable args); [|exact R0|exact S0|apply ordinary_short; reflexivity]; vm_compute; reflexivity);
    split; [exact R|]; apply small_sized; [exact R|apply cursor_fits_b|apply Nat.leb_le|apply N.leb_le]; vm_compute; reflexivity
  end.
Lemma tally1_ok : reachable demo_c tally1 /\ SafeSpec.sized demo_opts 40 tally1.
Proof. tally_next (conj demo_reachable demo_sized) set_n. Qed.
Lemma tally2_ok : reachable demo_c tally2 /\ SafeSpec.sized demo_opts 40 tally2.
Proof. tally_next tally1_ok incr_n. Qed.
Lemma tally3_ok : reachable demo_c tally3 /\ SafeSpec.sized demo_opts 40 tally3.
Proof. tally_next tally2_ok incr_n. Qed.
Lemma tally4_ok : reachable demo_c tally4 /\ SafeSpec.sized demo_opts 40 tally4.
Proof. tally_next tally3_ok get_n. Qed.
Example C77_case :
  server_possible (ctx_of demo_opts) case_cf server_orc no_pages 8 tally_steps (thread_new (shared_new demo_ch)) /\
  Forall (polite (ctx_of demo_opts) case_cf server_orc) tally_steps /\
  server_run (ctx_of demo_opts) case_cf server_orc no_pages 8 tally_steps (thread_new (shared_new demo_ch)) = NOk tally_end /\ g_bad (t_shared tally_end) = None /\
  reachable (ctx_of demo_opts) demo_ch /\ cf_nshards case_cf = shards_of demo_opts /\
  (forall j, fine (server_orc j) /\ manned (server_orc j) /\ steady (server_orc j) /\ ample (server_orc j)) /\
  (forall i j a b, (i < j)%nat -> (in_now (server_orc i a) <= in_now (server_orc j b))%Z) /\
  (forall l1 l2 i ch1, g_log (t_shared tally_end) = l1 ++ l2 -> ran (ctx_of demo_opts) case_cf server_orc 0 demo_ch l1 i ch1 -> SafeSpec.sized demo_opts (cf_fuel case_cf) ch1) /\
  (forall e args es, In e (g_log (t_shared tally_end)) -> snd (d_what (e_did e)) = Some (args, es) -> ordinary demo_opts args) /\
  exists e1 m1 m2 e2 s1 s2 t1 t2, g_log (t_shared tally_end) = [] ++ e1 :: [m1; m2] ++ e2 :: [] /\ (forall e, In e [e1; m1; m2; e2] -> allowed case_cf e) /\
    snd (d_what (e_did e1)) = Some (set_n, s1) /\ canonical (bs "41") (Z.to_N 41) /\ snd (d_what (e_did e2)) = Some (get_n, s2) /\
    snd (d_what (e_did m1)) = Some (incr_n, t1) /\ snd (d_what (e_did m2)) = Some (incr_n, t2) /\
    (forall a b s, [m1; m2] = a ++ b -> total case_cf (bs "n") a s -> (0 <= 41 + s < 2 ^ 63)%Z) /\ total case_cf (bs "n") [m1; m2] 2.
Proof.
  change (ctx_of demo_opts) with demo_c.
  assert (G : exists e1 e2 e3 e4 s1 s2 s3 s4, g_log (t_shared tally_end) = [e1; e2; e3; e4] /\
      (e_auth e1 = false /\ d_proto (e_did e1) = RESP) /\ (e_auth e2 = false /\ d_proto (e_did e2) = RESP) /\
      (e_auth e3 = false /\ d_proto (e_did e3) = RESP) /\ (e_auth e4 = false /\ d_proto (e_did e4) = RESP) /\
      snd (d_what (e_did e1)) = Some (set_n, s1) /\ snd (d_what (e_did e2)) = Some (incr_n, s2) /\ snd (d_what (e_did e3)) = Some (incr_n, s3) /\ snd (d_what (e_did e4)) = Some (get_n, s4)).
  { eexists _, _, _, _, _, _, _, _. split; [vm_compute; reflexivity|]. repeat split; vm_compute; reflexivity. }
  destruct G as (e1 & e2 & e3 & e4 & s1 & s2 & s3 & s4 & G & [A1 P1] & [A2 P2] & [A3 P3] & [A4 P4] & W1 & W2 & W3 & W4). rewrite G.
  assert (Al : forall e, allowed case_cf e) by (intro e; left; reflexivity).
  assert (Fo : follows demo_ch [e1; e2; e3; e4] [tally1; tally2; tally3; tally4]).
  { cbn [follows]. rewrite A1, A2, A3, A4, P1, P2, P3, P4.
    split; [exists set_n, s1; split; [exact W1|]; intros []; eexists _, _; vm_compute; reflexivity|].
    split; [exists incr_n, s2; split; [exact W2|]; intros []; eexists _, _; vm_compute; reflexivity|].
    split; [exists incr_n, s3; split; [exact W3|]; intros []; eexists _, _; vm_compute; reflexivity|].
    split; [exists get_n, s4; split; [exact W4|]; intros []; eexists _, _; vm_compute; reflexivity|exact I]. }
  split; [exact (proj1 tally_can)|]. split; [exact (proj2 tally_can)|]. split; [exact tally_ran|]. split; [vm_compute; reflexivity|].
  split; [exact demo_reachable|]. split; [reflexivity|]. split; [intro j; split; [exact demo_fine|split; [exact demo_manned|split; [exact demo_steady|intro n; reflexivity]]]|].
  split; [intros; cbn; lia|]. split; [|split].
  - intros l1 l2 i ch1 E R. destruct (follows_ran _ _ _ Fo 0%nat l1 l2 i ch1 E R) as [Q|[Q|[Q|[Q|[Q|[]]]]]]; [rewrite Q|rewrite <- Q..].
    + exact demo_sized.
    + exact (proj2 tally1_ok).
    + exact (proj2 tally2_ok).
    + exact (proj2 tally3_ok).
    + exact (proj2 tally4_ok).
  - intros e args es I W. destruct I as [<-|[<-|[<-|[<-|[]]]]]; [rewrite W1 in W|rewrite W2 in W|rewrite W3 in W|rewrite W4 in W]; injection W as <- _; apply ordinary_short; reflexivity.
  - exists e1, e2, e3, e4, s1, s4, s2, s3. split; [reflexivity|]. split; [intros e _; apply Al|]. split; [exact W1|].
    split; [vm_compute; split; [split; [discriminate|repeat constructor]|split; [reflexivity|intro X; discriminate X]]|]. split; [exact W4|]. split; [exact W2|]. split; [exact W3|].
    assert (Only : forall e args es, In e [e2; e3] -> snd (d_what (e_did e)) = Some (args, es) -> ~ writes args (bs "n") \/ exists i, word i "incr" /\ args = [i; bs "n"]).
    { intros e args es I W. right. exists (bs "INCR"). split; [reflexivity|]. destruct I as [<-|[<-|[]]]; [rewrite W2 in W|rewrite W3 in W]; injection W as <- _; reflexivity. }
    split.
    + intros a b s E T. pose proof (total_bound case_cf (bs "n") [e2; e3] Only a s) as Bd.
      assert (Ia : incl a [e2; e3]) by (rewrite E; apply incl_appl, incl_refl). specialize (Bd Ia T).
      assert (La : (length a <= 2)%nat) by (apply (f_equal (@List.length deed)) in E; rewrite app_length in E; cbn [length] in E; lia). lia.
    + assert (Sd : forall e t, snd (d_what (e_did e)) = Some (incr_n, t) -> step_of case_cf (bs "n") e 1).
      { intros e t W. apply (step_adds case_cf (bs "n") e incr_n t false "INCR" 1 W (Al e)). apply (adds_incr (bs "n") (bs "INCR") false). reflexivity. }
      change 2%Z with (1 + (1 + 0))%Z. constructor; [exact (Sd e2 s2 W2)|]. constructor; [exact (Sd e3 s3 W3)|constructor].
Qed.
