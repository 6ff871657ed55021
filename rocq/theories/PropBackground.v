(** C76, continued: what a command leaves to a background thread changes only its keys as well. *)
From Verif Require Import Base Types Clamp Entry EntryProofs Hash Map MapProofs MapInv Shard
  Spec Trace ShardProofs Cache Refine Reach Observe PropCache Text IntText Glob CmdTable CmdTableProofs PropText Prog CmdSpec CmdSpec2 CmdSpec3 Cmds
  CmdsProofs CmdsProofs2 CmdsProofs3 PropCmds PropCmds2 CmdsProofs4 CmdsProofs5 PropCmds3 PropCmds4 PropCursor SafeSpec SafeProofs SafeProofs2 PropServer PropSafe2 FrameSpec FrameProofs.
From Coq Require Import String Lia.
Local Open Scope N_scope.
Notation length := List.length.

Section Calm.
Variable Q : Z -> prog -> Prop.
(** Whatever the program forks, whatever it is told, is of [Q]. *)
Fixpoint calm (p : prog) : Prop :=
  match p with
  | Done | Fail _ | Unmodelled => True
  | Put _ k | CloseConn k | SetAuth k => calm k
  | Ask k => forall i, calm (k i)
  | Do _ k => forall r, calm (k r)
  | Fork d q k => Q d q /\ calm k
  end.
Lemma calm_runs : forall c orc p n ch ch' es evs d q, calm p -> prun c orc n ch p = Ok (ch', es, evs) -> In (Forked d q) es -> Q d q.
Proof.
  intros c orc p. induction p as [|w k IH|k IH|k IH|k IH|x k IH|d0 q0 IHq k IH|t|]; intros n ch ch' es evs d q C E I; cbn [prun calm] in *.
  - injection E as <- <- <-. destruct I.
  - destruct (prun c orc n ch k) as [[[a b] v]|] eqn:P; [|discriminate]. injection E as <- <- <-. destruct I as [I|I]; [discriminate|]. exact (IH _ _ _ _ _ _ _ C P I).
  - destruct (prun c orc n ch k) as [[[a b] v]|] eqn:P; [|discriminate]. injection E as <- <- <-. destruct I as [I|I]; [discriminate|]. exact (IH _ _ _ _ _ _ _ C P I).
  - destruct (prun c orc n ch k) as [[[a b] v]|] eqn:P; [|discriminate]. injection E as <- <- <-. destruct I as [I|I]; [discriminate|]. exact (IH _ _ _ _ _ _ _ C P I).
  - exact (IH _ _ _ _ _ _ _ _ (C _) E I).
  - destruct (step c (in_env (orc n)) ch x) as [[[ch1 r] ev1]|]; [|discriminate].
    destruct (prun c orc (S n) ch1 (k r)) as [[[a b] v]|] eqn:P; [|discriminate]. injection E as <- <- <-. exact (IH _ _ _ _ _ _ _ _ (C _) P I).
  - destruct (prun c orc n ch k) as [[[a b] v]|] eqn:P; [|discriminate]. injection E as <- <- <-. destruct C as [C1 C2].
    destruct I as [I|I]; [injection I as <- <-; exact C1|]. exact (IH _ _ _ _ _ _ _ C2 P I).
  - discriminate.
  - injection E as <- <- <-. destruct I as [I|[]]. discriminate.
Qed.
Lemma calm_puts : forall ws k, calm k -> calm (puts ws k).
Proof. induction ws as [|w ws IH]; intros k C; [exact C|exact (IH k C)]. Qed.
Lemma calm_answer : forall ws, calm (answer ws).
Proof. intro ws. apply calm_puts. exact I. Qed.
Lemma calm_error : forall m, calm (error m).
Proof. intro m. apply calm_answer. Qed.
Lemma calm_need : forall x k, (forall z, calm (k z)) -> calm (need x k).
Proof. intros x k C. unfold need. destruct x; [apply C|exact I]. Qed.
Ltac calms :=
  repeat first [exact I | assumption | apply calm_error | apply calm_answer | apply calm_puts | apply calm_need; intro
    | match goal with |- calm (match ?x with _ => _ end) => destruct x end
    | match goal with |- calm (if ?x then _ else _) => destruct x end
    | progress (cbn [calm]; intros) ].
Lemma calm_execSET : forall pr name now key val e nx xx get kt fl cas wc, calm (execSET pr name now key val e nx xx get kt fl cas wc).
Proof. intros. unfold execSET. calms. Qed.
Lemma calm_time : forall pr now e k, (forall z, calm (k z)) -> calm (expiry_seconds_time pr now e k).
Proof. intros pr now e0 k C. unfold expiry_seconds_time. calms; apply C. Qed.
Lemma calm_expiry : forall pr now kind z k, (forall z, calm (k z)) -> calm (set_expiry pr now kind z k).
Proof. intros pr now kind z0 k C. unfold set_expiry. calms; first [apply calm_time; exact C | apply C]. Qed.
Lemma calm_set_loop : forall pr now k, (forall s, calm (k s)) -> forall n rest s, (length rest <= n)%nat -> calm (set_loop pr now rest s k).
Proof.
  intros pr now k C. induction n as [|n IH]; intros rest s L; destruct rest as [|w r]; cbn [set_loop]; [apply C|cbn in L; lia|apply C|].
  cbn [length] in L. destruct (ex_word w).
  - destruct r as [|v r']; [apply calm_error|]. destruct (parse_i64 v); [|apply calm_error]. apply calm_expiry. intro e9. apply IH. cbn [length] in L. lia.
  - repeat match goal with |- calm (if ?x then _ else _) => destruct x end; try (apply IH; lia); try apply calm_error;
      (destruct r as [|v r']; [apply calm_error|]; destruct (parse_u64 v); [|apply calm_error]; apply IH; cbn [length] in L; lia).
Qed.
Lemma calm_SET : forall pr args, calm (cmdSET pr args).
Proof.
  intros pr args. unfold cmdSET. destruct args as [|a [|k [|v rest]]]; try apply calm_error. cbn [calm]. intro i. cbv zeta.
  eapply calm_set_loop; [|apply le_n]. intro s. calms. apply calm_execSET.
Qed.
Lemma calm_SETEX : forall pr args, calm (cmdSETEX pr args).
Proof. intros pr args. unfold cmdSETEX. calms; apply calm_execSET. Qed.
Lemma calm_GET : forall pr args, calm (cmdGET pr args).
Proof. intros pr args. unfold cmdGET. calms. Qed.
Lemma calm_mget_loop : forall pr kind now k, (forall n, calm (k n)) -> forall keys n, calm (mget_loop pr kind now keys n k).
Proof. intros pr kind now k C. induction keys as [|key r IH]; intro n; cbn [mget_loop]; [apply C|]. calms; apply IH. Qed.
Lemma calm_MGET : forall pr args, calm (cmdMGET pr args).
Proof. intros pr args. unfold cmdMGET. cbv zeta. calms; try (apply calm_mget_loop; intro; calms). Qed.
Lemma calm_KEYS : forall pr args, calm (cmdKEYS pr args).
Proof. intros pr args. unfold cmdKEYS. calms. Qed.
Lemma calm_SELECT : forall pr args, calm (cmdSELECT pr args).
Proof. intros pr args. unfold cmdSELECT. calms. Qed.
Lemma calm_del_loop : forall now k, (forall n, calm (k n)) -> forall keys n, calm (del_loop now keys n k).
Proof. intros now k C. induction keys as [|key r IH]; intro n; cbn [del_loop]; [apply C|]. calms; apply IH. Qed.
Lemma calm_DEL : forall pr args, calm (cmdDEL pr args).
Proof. intros pr args. unfold cmdDEL. destruct args as [|a [|b r]]; try apply calm_error. cbn [calm]. intro. apply calm_del_loop. intro. calms. Qed.
Lemma calm_DBSIZE : forall pr args, calm (cmdDBSIZE pr args).
Proof. intros pr args. unfold cmdDBSIZE. calms. Qed.
Lemma calm_TTL : forall pr args, calm (cmdTTL pr args).
Proof. intros pr args. unfold cmdTTL. calms. Qed.
Lemma calm_EXPIRE : forall pr args, calm (cmdEXPIRE pr args).
Proof. intros pr args. unfold cmdEXPIRE. calms. Qed.
Lemma calm_found_loop : forall nt now k, (forall n, calm (k n)) -> forall keys n, calm (found_loop nt now keys n k).
Proof. intros nt now k C. induction keys as [|key r IH]; intro n; cbn [found_loop]; [apply C|]. calms; apply IH. Qed.
Lemma calm_EXISTS : forall pr args, calm (cmdEXISTS pr args).
Proof. intros pr args. unfold cmdEXISTS. calms; apply calm_found_loop; intro; calms. Qed.
Lemma calm_TOUCH : forall pr args, calm (cmdTOUCH pr args).
Proof. intros pr args. unfold cmdTOUCH. calms; apply calm_found_loop; intro; calms. Qed.
Lemma calm_exec : forall pr key d decr u name, calm (execINCRDECR pr key d decr u name).
Proof. intros. unfold execINCRDECR. calms. Qed.
Lemma calm_BY : forall pr args decr name, calm (cmdINCRDECRBY pr args decr name).
Proof. intros. unfold cmdINCRDECRBY. calms; apply calm_exec. Qed.
Lemma calm_ONE : forall pr args decr name, calm (cmdINCRDECR pr args decr name).
Proof. intros. unfold cmdINCRDECR. calms; apply calm_exec. Qed.
Lemma calm_APPEND : forall pr args, calm (cmdAPPEND pr args).
Proof. intros. unfold cmdAPPEND. calms. Qed.
Lemma calm_AUTH : forall pw pr args, calm (cmdAUTH pw pr args).
Proof. intros. unfold cmdAUTH. calms. Qed.
Lemma calm_scan_work : forall pat now count k, (forall l c, calm (k l c)) -> forall fuel cur acc, calm (scan_work fuel pat now count cur acc k).
Proof. intros pat now count k C. induction fuel as [|f IH]; intros cur acc; cbn [scan_work]; calms; first [apply C | apply IH]. Qed.
Lemma calm_scan_loop : forall k, (forall p c, calm (k p c)) -> forall n rest pat count, (length rest <= n)%nat -> calm (scan_loop rest pat count k).
Proof.
  intros k C. induction n as [|n IH]; intros rest pat count L; destruct rest as [|w [|v r]]; cbn [scan_loop]; try apply C; try (cbn in L; lia); calms.
  all: apply IH; cbn [length] in L; lia.
Qed.
Lemma calm_SCAN : forall fuel pr args, calm (cmdSCAN fuel pr args).
Proof. intros fuel pr args. unfold cmdSCAN. calms. all: eapply calm_scan_loop; [|apply le_n]; intros; calms; apply calm_scan_work; intros; calms. Qed.
Lemma calm_any : (forall d q, Q d q) -> forall p, calm p.
Proof. intros A p. induction p; cbn [calm]; auto. Qed.
Lemma calm_sweep_loop : forall k, (forall a f, calm (k a f)) -> forall rest a f, calm (sweep_loop rest a f k).
Proof.
  intros k C. induction rest as [|w r IH]; intros a f; cbn [sweep_loop]; [apply C|].
  destruct (is_word w "async"); [apply IH|]. destruct (is_word w "fast"); [apply IH|apply calm_error].
Qed.
Lemma calm_each : forall mk is k, calm k -> calm (each_shard mk is k).
Proof. intros mk is k C. induction is as [|i r IH]; cbn [each_shard]; [exact C|]. cbn [calm]. intros _. exact IH. Qed.
Lemma calm_SWEEP : forall n pr args, (forall fast, Q 0 (sweep_work n fast Done)) -> calm (cmdSWEEP n pr args).
Proof.
  intros n pr args H. unfold cmdSWEEP. destruct (2 <? length args)%nat; [apply calm_error|]. apply calm_sweep_loop. intros async fast. cbv zeta.
  destruct async; [split; [apply H|apply calm_answer]|]. cbn [calm]. intro i. destruct (in_work i); [|apply calm_error].
  unfold sweep_work. cbn [calm]. intro j. destruct fast; [apply calm_each; apply calm_answer|]. cbn [calm]. intros _. apply calm_answer.
Qed.
Lemma calm_PURGE : forall pr args, Q 0 Done -> calm (cmdPURGE pr args).
Proof.
  intros pr args H. unfold cmdPURGE. cbv zeta. destruct args as [|a [|w [|x r]]]; calms. split; [exact H|apply calm_answer].
Qed.
End Calm.

(** Whatever a command hands to a background thread (SWEEP ASYNC and PURGE ASYNC; FLUSHALL ASYNC may change every key) leaves the keys
    alone that the command may not change, whenever it comes to run, on whatever cache it then finds. *)
Theorem C76_background : forall o cf authed pr args orc n ch ch' es evs d q,
  cf_nshards cf = shards_of o ->
  prun (ctx_of o) orc n ch (evcommand cf authed pr args) = Ok (ch', es, evs) -> In (Forked d q) es ->
  forall key, ~ writes args key ->
  forall orc2 n2 ch2 t, reachable (ctx_of o) ch2 -> fine orc2 -> manned orc2 -> until orc2 t ->
  exists ch3 es3 evs3, prun (ctx_of o) orc2 n2 ch2 q = Ok (ch3, es3, evs3) /\ reachable (ctx_of o) ch3 /\ same_from o t ch2 ch3 key.
Proof.
  intros o cf authed pr args orc n ch ch' es evs d q Ns E I.
  set (Q := fun (_ : Z) (q : prog) => forall key, ~ writes args key ->
    forall orc2 n2 ch2 t, reachable (ctx_of o) ch2 -> fine orc2 -> manned orc2 -> until orc2 t ->
    exists ch3 es3 evs3, prun (ctx_of o) orc2 n2 ch2 q = Ok (ch3, es3, evs3) /\ reachable (ctx_of o) ch3 /\ same_from o t ch2 ch3 key).
  enough (C : calm Q (evcommand cf authed pr args)) by exact (calm_runs Q _ _ _ _ _ _ _ _ d q C E I). clear E I es evs ch' ch n orc d q.
  unfold evcommand. destruct (cf_useauth cf && negb authed && negb (is_http pr)); [apply calm_AUTH|].
  destruct (C33_lookup (hd [] args)) as ((g & G) & L & _). rewrite G. destruct g as [i|]; [|apply calm_error].
  apply L in G. clear L.
  assert (Hi : (i < 40)%nat).
  { rewrite <- (proj1 (proj2 C33_names)). apply nth_error_Some. congruence. }
  assert (Any : In (lower (hd [] args)) every_key -> forall p, calm Q p).
  { intros H p. apply calm_any. intros d q key Nw. destruct Nw. destruct args as [|a r]; [|apply writes_every; exact H].
    cbn in H. repeat (destruct H as [H|H]; [discriminate H|]). destruct H. }
  unfold cmd_func. rewrite Ns.
  do 40 (try (destruct i as [|i]; [cbn [nth_error cmd_names List.map] in G; injection G as G; cbn [nth]|])); [..|lia].
  all: try (match type of G with ?w = _ => assert (Ek : In w every_key) by (cbv [every_key List.map In]; tauto) end; rewrite G in Ek; apply (Any Ek)).
  all: try exact I.
  all: try (first [ apply calm_SET | apply calm_GET | apply calm_DEL | apply calm_MGET | apply calm_TTL | apply calm_EXPIRE | apply calm_SETEX | apply calm_DBSIZE
    | apply calm_EXISTS | apply calm_KEYS | apply calm_SELECT | apply calm_TOUCH | apply calm_BY | apply calm_ONE | apply calm_APPEND | apply calm_AUTH | apply calm_SCAN ]).
  - (* QUIT *) unfold cmdQUIT. apply calm_puts. exact I.
  - (* ECHO *) unfold cmdECHO. destruct args as [|a0 [|m [|x r]]]; try apply calm_error; destruct (is_pg pr); apply calm_answer.
  - (* PURGE *) apply calm_PURGE. intros key _ orc2 n2 ch2 t R _ _ _. exists ch2, [], []. split; [reflexivity|]. split; [exact R|]. intros t' v _. reflexivity.
  - (* SWEEP *) apply calm_SWEEP. intros fast key _ orc2 n2 ch2 t R F M U.
    destruct (sweep_work_spec o orc2 n2 ch2 fast Done R F M) as (ch3 & n3 & ev & R3 & Sw & E). cbn [prun] in E.
    eexists ch3, _, _. split; [exact E|]. split; [exact R3|]. intros t' v Ht. apply (proj1 Sw). specialize (U n2). lia.
  - (* PING *) unfold cmdPING. destruct args as [|a0 [|m [|x r]]]; try apply calm_error; destruct (is_pg pr); apply calm_answer.
  - (* VERSION *) unfold cmdVERSION. apply calm_answer.
Qed.
(** A case: SWEEP ASYNC. *)
Example C76_background_case : exists es evs q, prun demo_c demo_orc 0 demo_ch (evcommand case_cf false RESP [bs "SWEEP"; bs "ASYNC"]) = Ok (demo_ch, es, evs) /\
  In (Forked 0 q) es /\ q <> Done /\ ~ writes [bs "SWEEP"; bs "ASYNC"] (bs "k1") /\ until demo_orc 110.
Proof.
  eexists _, _, _. split; [vm_compute; reflexivity|]. split; [left; reflexivity|]. split; [discriminate|]. split; [|intro n; cbn; lia].
  intro W. remember [bs "SWEEP"; bs "ASYNC"] as l eqn:El. destruct W as [name key rest Hn|name keys key Hn Hi|name rest key Hn]; injection El as E _; rewrite E in Hn.
  - repeat (destruct Hn as [Hn|Hn]; [discriminate Hn|]). exact Hn.
  - discriminate Hn.
  - repeat (destruct Hn as [Hn|Hn]; [discriminate Hn|]). exact Hn.
Qed.
