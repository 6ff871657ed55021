(** C59, continued: no client can stop the server as a whole. *)
From Verif Require Import Base Types Clamp Entry Hash Map Shard Cache Reach Text IntText CmdTable CmdSpec CmdSpec3 CmdsProofs CmdsProofs4 Prog Cmds Conn ConnSpec ConnProofs7 PropCache SafeSpec SafeProofs2 PropSafe PropSafe2 PropConn Net NetSpec NetProofs PropNet Server ServerSpec ServerProofs ServerProofs2 ServerProofs3 PropReply Base PropCmds PropCursor PropCmds3  PropSafe2 SafeProofs2  PropServer.
From Coq Require Import String Lia.
Local Open Scope N_scope.
Notation length := List.length.
Notation concat := List.concat.
Notation map := List.map.

(** A command that C54 covers: arguments of a size C can address, and not the cursor that stops the server. *)
Definition ordinary (o : opts) (args : list bytes) : Prop := args_fit args /\ ~ bad_cursor o args.

Lemma working_fine : forall w orc, fine orc -> fine (working w orc).
Proof. intros w orc F n. destruct (F n) as [A B]. split; [exact A|exact B]. Qed.
Lemma ordinary_ends : forall o cf orc w ch b pr args, cf_nshards cf = shards_of o -> fine orc -> manned orc -> steady orc ->
  reachable (ctx_of o) ch -> SafeSpec.sized o (cf_fuel cf) ch -> ordinary o args ->
  exists ch' es evs, prun (ctx_of o) (working w orc) 0 ch (evcommand cf b pr args) = Ok (ch', es, evs) /\ reachable (ctx_of o) ch'.
Proof.
  intros o cf orc w ch b pr args Ns F M St R Sz [A Nb]. destruct (outside_dec (hd [] args)) as [O|O].
  - destruct (outside_runs o cf (working w orc) 0 ch b pr args O) as [es E]. exists ch, es, []. split; assumption.
  - destruct (C54_command o cf b pr args (working w orc) 0 ch R Sz Ns (working_fine w orc F) M (fun _ => St) A O Nb) as (ch' & es & evs & E & R' & _).
    exists ch', es, evs. split; assumption.
Qed.
Lemma ran_reachable : forall o cf orc l i ch i' ch', cf_nshards cf = shards_of o -> (forall j, fine (orc j) /\ manned (orc j) /\ steady (orc j)) ->
  ran (ctx_of o) cf orc i ch l i' ch' -> reachable (ctx_of o) ch ->
  (forall l1 l2 i1 ch1, l = l1 ++ l2 -> ran (ctx_of o) cf orc i ch l1 i1 ch1 -> SafeSpec.sized o (cf_fuel cf) ch1) ->
  (forall e args es, In e l -> snd (d_what (e_did e)) = Some (args, es) -> ordinary o args) -> reachable (ctx_of o) ch'.
Proof.
  intros o cf orc l i ch i' ch' Ns H Rn. induction Rn as [i ch|i ch e l i' ch' E Rn IH|i ch e l i' ch' args es w ch1 evs E P Rn IH]; intros R Sz Od.
  - exact R.
  - apply IH; [exact R| |intros e0 a0 s0 I0; apply Od; right; exact I0].
    intros l1 l2 i1 ch1 -> Q. apply (Sz (e :: l1) l2 i1 ch1 eq_refl). apply ran_reply; assumption.
  - destruct (H i) as (F & M & St).
    destruct (ordinary_ends o cf (orc i) w ch (e_auth e) (d_proto (e_did e)) args Ns F M St R (Sz [] (e :: l) i ch eq_refl (ran_end _ _ _ _ _)) (Od e args es (or_introl eq_refl) E)) as (ch2 & es2 & ev2 & P2 & R2).
    rewrite P in P2. injection P2 as <- <- <-. apply IH; [exact R2| |intros e0 a0 s0 I0; apply Od; right; exact I0].
    intros l1 l2 i1 ch3 -> Q. apply (Sz (e :: l1) l2 i1 ch3 eq_refl). eapply ran_command; eassumption.
Qed.

(** Any number of clients, in any interleaving of the event loop, the background jobs and other threads: if nothing that was received is
    one of the texts of C50 that make a parser look beyond what it has, and no client asks for the cursor of C53, the server
    is not stopped. (As in C54: memory, a clock, a cache that is not near the limits of its tables.) *)
Theorem C59_safe : forall o cf orc pg size ss ch t,
  server_possible (ctx_of o) cf orc pg size ss (thread_new (shared_new ch)) -> Forall (polite (ctx_of o) cf orc) ss ->
  server_run (ctx_of o) cf orc pg size ss (thread_new (shared_new ch)) = NOk t ->
  reachable (ctx_of o) ch -> cf_nshards cf = shards_of o -> (forall j, fine (orc j) /\ manned (orc j) /\ steady (orc j)) ->
  (forall l1 l2 i ch1, g_log (t_shared t) = l1 ++ l2 -> ran (ctx_of o) cf orc 0 ch l1 i ch1 -> SafeSpec.sized o (cf_fuel cf) ch1) ->
  (forall e args es, In e (g_log (t_shared t)) -> snd (d_what (e_did e)) = Some (args, es) -> ordinary o args) ->
  (forall n, In n (t_conns t ++ t_gone t) -> bytes_ok (received n) /\
     (forall a b d, received n = a ++ b ++ d -> ~ troubled b) /\
     (forall ds later rest p args raw, done_on n = ds ++ later -> received n = concat (map (fun e => d_raw (e_did e)) ds) ++ rest ->
        reads_as cf rest p args raw -> ordinary o args)) ->
  g_bad (t_shared t) = None.
Proof.
  intros o cf orc pg size ss ch t P Po E R Ns H Sz Od Tx. destruct (g_bad (t_shared t)) as [tr|] eqn:B; [exfalso|reflexivity].
  destruct (C59_trouble (ctx_of o) cf orc pg size ss ch t tr P Po E B (fun n I => proj1 (Tx n I))) as [(n & a & b & d & I & Er & Tr)|(n & I & F)].
  - exact (proj1 (proj2 (Tx n I)) a b d Er Tr).
  - destruct F as (ds & later & l1 & l2 & rest & p & args & raw & au & i & ch1 & w & Ed & Er & _ & Rd & El & Rn & Pb).
    assert (R1 : reachable (ctx_of o) ch1).
    { apply (ran_reachable o cf orc l1 0 ch i ch1 Ns H Rn R).
      - intros a b i1 ch2 -> Q. apply (Sz a (b ++ l2) i1 ch2); [rewrite El, <- app_assoc; reflexivity|exact Q].
      - intros e a s Ie. apply Od. rewrite El. apply in_or_app. left. exact Ie. }
    destruct (H i) as (Fi & M & St).
    destruct (ordinary_ends o cf (orc i) w ch1 au p args Ns Fi M St R1 (Sz l1 l2 i ch1 El Rn) (proj2 (proj2 (Tx n I)) _ _ _ _ _ _ Ed Er Rd)) as (ch2 & es & evs & Q & _).
    rewrite Pb in Q. discriminate.
Qed.

(** *** A case: one client sets a key, another reads one *)
Definition text_set : bytes := bs "SET k9 v" ++ crlf.
Definition text_get : bytes := bs "GET k3" ++ crlf.
Definition pair_steps : list (nstep shared) :=
  [SRound (server_answers (demo_read [(5%nat, RData text_set); (6%nat, RData text_get)])) [mkEvent 5 true; mkEvent 6 true]].
Definition pair_end : thread cdata shared job := Eval vm_compute in end_of (case_run pair_steps (thread_new (shared_new demo_ch))).
Definition pair_ch : cache := Eval vm_compute in g_cache (t_shared pair_end).
Lemma pair_ran : case_run pair_steps (thread_new (shared_new demo_ch)) = NOk pair_end.
Proof. vm_compute. reflexivity. Qed.
Lemma pair_can : server_possible demo_c case_cf server_orc no_pages 8 pair_steps (thread_new (shared_new demo_ch)) /\ Forall (polite demo_c case_cf server_orc) pair_steps.
Proof. split; [unfold pair_steps; next_round; exact I|]. constructor; [intros fd g; apply no_others|constructor]. Qed.
Lemma pair_set : forall w b, exists es evs, prun demo_c (working w demo_orc) 0 demo_ch (evcommand case_cf b RESP case_args) = Ok (case_ch, es, evs).
Proof. intros [] []; eexists _, _; vm_compute; reflexivity. Qed.
Lemma pair_get : forall w b, exists es evs, prun demo_c (working w demo_orc) 0 case_ch (evcommand case_cf b RESP [bs "GET"; bs "k3"]) = Ok (pair_ch, es, evs).
Proof. intros [] []; eexists _, _; vm_compute; reflexivity. Qed.
Lemma ordinary_short : forall o args, forallb (fun a => bytes_okb a && (length a <=? 100)%nat) args = true -> is_word (hd [] args) "scan" = false -> ordinary o args.
Proof. intros o args A B. split; [apply short_args; exact A|apply not_scan; exact B]. Qed.
Lemma pair_reachable : reachable demo_c pair_ch.
Proof.
  destruct (ordinary_ends demo_opts case_cf demo_orc true case_ch false RESP [bs "GET"; bs "k3"] eq_refl demo_fine demo_manned demo_steady case_reachable case_sized (ordinary_short demo_opts [bs "GET"; bs "k3"] eq_refl eq_refl)) as (ch' & es & evs & E & R).
  destruct (pair_get true false) as (es' & evs' & E'). change (ctx_of demo_opts) with demo_c in E.
  assert (Q : ch' = pair_ch) by (rewrite E in E'; clear - E'; generalize dependent pair_ch; intros d E'; injection E'; intros; assumption). rewrite <- Q. exact R.
Qed.
Lemma pair_sized : SafeSpec.sized demo_opts 40 pair_ch.
Proof. apply small_sized; [exact pair_reachable|apply cursor_fits_b|apply Nat.leb_le|apply N.leb_le]; vm_compute; reflexivity. Qed.

(** What a cut of the two texts is read as, by any connection. *)
Lemma cut_of : forall (text x more : bytes), text = x ++ more -> exists m, (m <= length text)%nat /\ x = firstn m text.
Proof.
  intros text x more ->. exists (length x). split; [rewrite app_length; lia|]. rewrite firstn_app, Nat.sub_diag, firstn_all. cbn. rewrite app_nil_r. reflexivity.
Qed.
Ltac no_command := intros [tls p au cl pk pg] n k1 ws args E; destruct p as [[]|]; vm_compute in E; try discriminate E;
  (injection E; intros; subst; apply ordinary_short; reflexivity).
Lemma set_turn : forall m, (m <= 10)%nat -> forall k n k1 ws args, conn_turn case_cf (firstn m text_set) k = Ok (Turn n k1 ws (Some args)) -> ordinary demo_opts args.
Proof. intros m M. do 11 (destruct m as [|m]; [no_command|]). lia. Qed.
Lemma get_turn : forall m, (m <= 8)%nat -> forall k n k1 ws args, conn_turn case_cf (firstn m text_get) k = Ok (Turn n k1 ws (Some args)) -> ordinary demo_opts args.
Proof. intros m M. do 9 (destruct m as [|m]; [no_command|]). lia. Qed.
(** No piece of a text without these bytes and pairs is one of the troubled ones. *)
Definition calm_byte (b : byte) : bool :=
  negb (existsb (N.eqb b) [0; 36; 42; 99; 100; 108; 110; 115; 121; 255]) && (b <? 256).
Fixpoint calm_pairs (s : bytes) : bool :=
  match s with a :: (b :: _) as r => negb ((a =? 13) && (b =? 32)) && calm_pairs r | _ => true end.
Definition calm (s : bytes) : bool := forallb calm_byte s && calm_pairs s.
Lemma calm_pairs_app : forall a b, calm_pairs (a ++ b) = true -> calm_pairs a = true /\ calm_pairs b = true.
Proof.
  induction a as [|x [|y a] IH]; intros b E; cbn in *; auto.
  - split; [reflexivity|]. destruct b; [reflexivity|]. apply andb_prop in E. exact (proj2 E).
  - apply andb_prop in E. destruct E as [E1 E2]. destruct (IH b E2) as [F G]. split; [rewrite E1; exact F|exact G].
Qed.
Lemma in_spaced : forall x ws, In x (hd [] ws) -> In x (McSpec.spaced ws).
Proof. intros x [|w [|v ws]] I; cbn in *; auto. apply in_or_app. left. exact I. Qed.
Lemma calm_free : forall s, calm s = true -> ~ troubled s.
Proof.
  intros s C. unfold calm in C. apply andb_prop in C. destruct C as [B P]. rewrite forallb_forall in B.
  assert (K : forall x, In x s -> calm_byte x = true) by exact B.
  intros [T|[T|[T|T]]].
  - destruct T as (a & m & sp & sg & ds & -> & M & _). assert (Q := K m ltac:(apply in_or_app; right; left; reflexivity)).
    destruct M; subst m; discriminate Q.
  - destruct T as (a & n & rest & -> & _). apply calm_pairs_app in P. destruct P as [_ P]. discriminate P.
  - destruct T as (ws & line & rest & n & -> & _ & (_ & tail & _ & ->) & I & _).
    assert (Q : forall x, In x (hd [] ws) -> calm_byte x = true).
    { intros x J. apply K. apply in_or_app. left. apply in_or_app. left. apply in_spaced. exact J. }
    destruct (hd [] ws) as [|w0 w]; cbn in I; repeat (destruct I as [I|I]; [inversion I; subst|]); try contradiction;
      match type of Q with forall x, In x ?l -> _ =>
        assert (A : forallb calm_byte l = true) by (apply forallb_forall; exact Q); discriminate A end.
  - destruct T as (tag & len & rest & -> & L & T). destruct len as [|a [|b [|c [|d [|]]]]]; try discriminate L.
    assert (Ka := K a ltac:(right; left; reflexivity)). assert (Kb := K b ltac:(do 2 right; left; reflexivity)).
    assert (Kc := K c ltac:(do 3 right; left; reflexivity)). assert (Kd := K d ltac:(do 4 right; left; reflexivity)).
    assert (Z : forall x, calm_byte x = true -> 1 <= x <= 254).
    { intros x Q. unfold calm_byte in Q. apply andb_prop in Q. destruct Q as [Q1 Q2]. apply N.ltb_lt in Q2. apply negb_true_iff in Q1. cbn in Q1.
      repeat (apply orb_false_iff in Q1; let H := fresh in destruct Q1 as [H Q1]; apply N.eqb_neq in H). lia. }
    apply Z in Ka. apply Z in Kb. apply Z in Kc. apply Z in Kd. unfold ReplySpec.number_of in T. cbn [fold_left] in T. change (2 ^ 32) with 4294967296 in T. lia.
Qed.
Lemma calm_piece : forall s a b d, calm s = true -> s = a ++ b ++ d -> ~ troubled b.
Proof.
  intros s a b d C ->. apply calm_free. unfold calm in *. apply andb_prop in C. destruct C as [B P].
  rewrite !forallb_app in B. apply andb_prop in B. destruct B as [_ B]. apply andb_prop in B. destruct B as [B _].
  apply calm_pairs_app in P. destruct P as [_ P]. apply calm_pairs_app in P. destruct P as [P _]. apply andb_true_intro. split; assumption.
Qed.
(** What is left of a text is the whole of it or nothing. *)
Lemma left_of : forall (e : deed) text ds later rest, d_raw (e_did e) = text -> [e] = ds ++ later ->
  text = concat (map (fun e => d_raw (e_did e)) ds) ++ rest -> rest = text \/ rest = [].
Proof.
  intros e text [|e1 [|e2 ds]] later rest R E T; cbn in *; [left; symmetry; exact T| |discriminate].
  injection E as <- _. rewrite app_nil_r, R in T. right. apply (app_inv_head text). rewrite <- T, app_nil_r. reflexivity.
Qed.
Lemma ran_none : forall c cf orc i ch i' ch', ran c cf orc i ch [] i' ch' -> ch' = ch.
Proof. intros c cf orc i ch i' ch' R. inversion R. reflexivity. Qed.
Lemma ran_first : forall c cf orc i ch e l i' ch' args s, ran c cf orc i ch (e :: l) i' ch' -> snd (d_what (e_did e)) = Some (args, s) ->
  exists w ch1 evs, prun c (working w (orc i)) 0 ch (evcommand cf (e_auth e) (d_proto (e_did e)) args) = Ok (ch1, s, evs) /\ ran c cf orc (S i) ch1 l i' ch'.
Proof.
  intros c cf orc i ch e l i' ch' args s R W. inversion R; subst; [congruence|].
  match goal with H : snd _ = Some _, Q : prun _ _ _ _ _ = _ |- _ => rewrite W in H; injection H as <- <-; eexists _, _, _; split; [exact Q|assumption] end.
Qed.
Example C59_safe_case :
  (forall l1 l2 i ch1, g_log (t_shared pair_end) = l1 ++ l2 -> ran (ctx_of demo_opts) case_cf server_orc 0 demo_ch l1 i ch1 -> SafeSpec.sized demo_opts (cf_fuel case_cf) ch1) /\
  (forall e args es, In e (g_log (t_shared pair_end)) -> snd (d_what (e_did e)) = Some (args, es) -> ordinary demo_opts args) /\
  (forall n, In n (t_conns pair_end ++ t_gone pair_end) -> bytes_ok (received n) /\
     (forall a b d, received n = a ++ b ++ d -> ~ troubled b) /\
     (forall ds later rest p args raw, done_on n = ds ++ later -> received n = concat (map (fun e => d_raw (e_did e)) ds) ++ rest ->
        reads_as case_cf rest p args raw -> ordinary demo_opts args)).
Proof.
  change (ctx_of demo_opts) with demo_c. split; [|split].
  - assert (G : exists e1 e2 s1 s2, g_log (t_shared pair_end) = [e1; e2] /\ e_auth e1 = false /\ d_proto (e_did e1) = RESP /\ snd (d_what (e_did e1)) = Some (case_args, s1) /\
      e_auth e2 = false /\ d_proto (e_did e2) = RESP /\ snd (d_what (e_did e2)) = Some ([bs "GET"; bs "k3"], s2)).
    { eexists _, _, _, _. split; [vm_compute; reflexivity|]. repeat split; vm_compute; reflexivity. }
    destruct G as (e1 & e2 & s1 & s2 & -> & A1 & P1 & W1 & A2 & P2 & W2). intros l1 l2 i ch1 E R.
    assert (S1 : forall ch2 es evs w, prun demo_c (working w (server_orc 0)) 0 demo_ch (evcommand case_cf false RESP case_args) = Ok (ch2, es, evs) -> ch2 = case_ch).
    { intros ch2 es evs w Q. destruct (pair_set w false) as (es' & evs' & Q'). change (server_orc 0%nat) with demo_orc in Q. rewrite Q in Q'. clear - Q'.
      generalize dependent case_ch. intros d Q'. injection Q'; intros; assumption. }
    assert (S2 : forall ch2 es evs w, prun demo_c (working w (server_orc 1)) 0 case_ch (evcommand case_cf false RESP [bs "GET"; bs "k3"]) = Ok (ch2, es, evs) -> ch2 = pair_ch).
    { intros ch2 es evs w Q. destruct (pair_get w false) as (es' & evs' & Q'). change (server_orc 1%nat) with demo_orc in Q. rewrite Q in Q'. clear - Q'.
      generalize dependent pair_ch. intros d Q'. injection Q'; intros; assumption. }
    destruct l1 as [|x1 [|x2 [|x3 l1]]]; cbn [app] in E; try discriminate E.
    + apply ran_none in R. rewrite R. exact demo_sized.
    + injection E as <- _. destruct (ran_first _ _ _ _ _ _ _ _ _ _ _ R W1) as (w & c2 & evs & Q & R2). rewrite A1, P1 in Q.
      apply S1 in Q. apply ran_none in R2. rewrite R2, Q. exact case_sized.
    + injection E as <- <- _. destruct (ran_first _ _ _ _ _ _ _ _ _ _ _ R W1) as (w & c2 & evs & Q & R2). rewrite A1, P1 in Q.
      apply S1 in Q. rewrite Q in R2. destruct (ran_first _ _ _ _ _ _ _ _ _ _ _ R2 W2) as (w' & c3 & evs' & Q' & R3). rewrite A2, P2 in Q'.
      apply S2 in Q'. apply ran_none in R3. rewrite R3, Q'. exact pair_sized.
  - assert (G : map (fun e => option_map fst (snd (d_what (e_did e)))) (g_log (t_shared pair_end)) = [Some case_args; Some [bs "GET"; bs "k3"]]) by (vm_compute; reflexivity).
    intros e args es I W. apply (in_map (fun e => option_map fst (snd (d_what (e_did e))))) in I. rewrite G, W in I. cbn [option_map fst] in I.
    destruct I as [I|[I|[]]]; injection I as <-; apply ordinary_short; reflexivity.
  - assert (G : exists n1 n2 e1 e2, t_conns pair_end ++ t_gone pair_end = [n1; n2] /\ received n1 = text_get /\ received n2 = text_set /\
      done_on n1 = [e1] /\ d_raw (e_did e1) = text_get /\ done_on n2 = [e2] /\ d_raw (e_did e2) = text_set).
    { eexists _, _, _, _. split; [vm_compute; reflexivity|]. repeat split; vm_compute; reflexivity. }
    destruct G as (n1 & n2 & e1 & e2 & -> & R1 & R2 & D1 & W1 & D2 & W2). intros n [<-|[<-|[]]].
    + rewrite R1, D1. split; [apply bytes_okb_ok; vm_compute; reflexivity|]. split; [intros a b d; apply calm_piece; vm_compute; reflexivity|].
      intros ds later rest p args raw E T (k & k1 & ws & rest' & more & Er & _ & Q & _).
      assert (C : exists m, (m <= 8)%nat /\ raw ++ rest' = firstn m text_get).
      { destruct (left_of e1 text_get ds later rest W1 E T) as [->| ->]; rewrite app_assoc in Er.
        - exact (cut_of _ _ _ Er).
        - symmetry in Er. apply app_eq_nil in Er. exists 0%nat. split; [lia|]. exact (proj1 Er). }
      destruct C as (m & M & C). rewrite C in Q. exact (get_turn m M _ _ _ _ _ Q).
    + rewrite R2, D2. split; [apply bytes_okb_ok; vm_compute; reflexivity|]. split; [intros a b d; apply calm_piece; vm_compute; reflexivity|].
      intros ds later rest p args raw E T (k & k1 & ws & rest' & more & Er & _ & Q & _).
      assert (C : exists m, (m <= 10)%nat /\ raw ++ rest' = firstn m text_set).
      { destruct (left_of e2 text_set ds later rest W2 E T) as [->| ->]; rewrite app_assoc in Er.
        - exact (cut_of _ _ _ Er).
        - symmetry in Er. apply app_eq_nil in Er. exists 0%nat. split; [lia|]. exact (proj1 Er). }
      destruct C as (m & M & C). rewrite C in Q. exact (set_turn m M _ _ _ _ _ Q).
Qed.
(** So the theorem applies: this server comes to no trouble. *)
Example C59_safe_here : g_bad (t_shared pair_end) = None.
Proof.
  destruct pair_can as [Pc Pp]. destruct C59_safe_case as (A & B & C).
  apply (C59_safe demo_opts case_cf server_orc no_pages 8 pair_steps demo_ch pair_end Pc Pp pair_ran demo_reachable eq_refl).
  - intros j. exact (conj demo_fine (conj demo_manned demo_steady)).
  - exact A.
  - exact B.
  - exact C.
Qed.
