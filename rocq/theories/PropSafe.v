(** C54: no command ends in trouble, stated with the vocabulary of SafeSpec.v. *)
From Verif Require Import Base Types Clamp Entry EntryProofs Hash Map MapProofs MapInv Shard
  Spec Trace ShardProofs ScanProofs LoopProofs Cache Refine Reach Observe PropCache PropItems CursorProofs PropCursor
  Text IntText IntTextProofs Glob GlobProofs CmdTable CmdTableProofs PropText Prog CmdSpec CmdSpec2 CmdSpec3 Cmds
  CmdsProofs CmdsProofs2 CmdsProofs3 PropCmds PropCmds2 CmdsProofs4 PropCmds3 CmdsProofs5 PropCmds4 SafeSpec SafeProofs.
From Coq Require Import String.
Local Open Scope N_scope.
Notation length := List.length.

(** Whatever the arguments, the protocol and the cache: a command ends, without
    trouble, and the cache can be used further. *)
Theorem C54_command : forall o cf authed pr args orc n ch,
  reachable (ctx_of o) ch -> sized o (cf_fuel cf) ch -> cf_nshards cf = shards_of o ->
  fine orc -> manned orc -> (pr = MEMCACHE -> steady orc) ->
  args_fit args -> ~ outside (hd [] args) -> ~ bad_cursor o args ->
  ends_well o orc n ch (evcommand cf authed pr args).
Proof.
  intros o cf authed pr args orc n ch R Sz Ns F M St A Out Nb.
  pose proof (sz_room _ _ _ Sz) as Rm.
  assert (Auth : ends_well o orc n ch (cmdAUTH (cf_password cf) pr args)).
  { unfold cmdAUTH. cbv zeta. destruct (negb (is_word (hd [] args) "auth")).
    { destruct (is_mc pr); apply well_answer; exact R. }
    destruct args as [|a0 [|p [|q [|x r]]]]; try (apply well_error; exact R).
    destruct (beq p (cf_password cf)); [|apply well_error; exact R].
    apply well_auth. destruct (is_pg pr); apply well_answer; exact R. }
  unfold evcommand. destruct (cf_useauth cf && negb authed && negb (is_http pr)); [exact Auth|].
  destruct (C33_lookup (hd [] args)) as ((g & G) & L & _). rewrite G.
  destruct g as [i|]; [|apply well_error; exact R].
  apply L in G. clear L. unfold outside, word in Out.
  assert (Hi : (i < 40)%nat).
  { rewrite <- (proj1 (proj2 C33_names)). apply nth_error_Some. congruence. }
  unfold cmd_func. rewrite Ns.
  do 40 (try (destruct i as [|i]; [cbn [nth_error cmd_names List.map] in G; injection G as G; cbn [nth]|])); [..|lia].
  1: apply set_well; assumption.
  all: try (exfalso; rewrite <- G in Out; tauto).
  all: try (first
    [ apply get_well | apply ttl_well | apply expire_well | apply setex_well | apply dbsize_well | apply flush_well
    | apply purge_well | apply sweep_well | apply keys_well | apply by_well | apply one_well | apply append_well ]; assumption).
  - (* DEL *) unfold cmdDEL. destruct args as [|a0 [|key r]]; try (apply well_error; exact R). apply well_ask.
    apply del_well; [exact R|apply (now_pos orc F n)|]. intros ch' n' cnt R'. apply well_answer. exact R'.
  - (* MGET *) unfold cmdMGET. destruct args as [|a0 [|key r]]; try (apply well_error; exact R). apply well_ask. cbv zeta.
    apply well_puts. apply mget_well; [exact R|apply (now_pos orc F n)|]. intros ch' n' cnt R'. apply well_answer. exact R'.
  - unfold cmdMGET. destruct args as [|a0 [|key r]]; try (apply well_error; exact R). apply well_ask. cbv zeta.
    apply well_puts. apply mget_well; [exact R|apply (now_pos orc F n)|]. intros ch' n' cnt R'. apply well_answer. exact R'.
  - (* QUIT *) unfold cmdQUIT. apply well_puts. apply well_close. apply well_done. exact R.
  - (* ECHO *) unfold cmdECHO. destruct args as [|a0 [|m [|x r]]]; try (apply well_error; exact R).
    destruct (is_pg pr); apply well_answer; exact R.
  - (* EXISTS *) unfold cmdEXISTS. destruct args as [|a0 [|key r]]; try (apply well_error; exact R). apply well_ask.
    apply found_well; [exact R|apply (now_pos orc F n)|]. intros ch' n' cnt R'. destruct (is_pg pr); apply well_answer; exact R'.
  - (* SELECT *) unfold cmdSELECT. destruct (negb (is_resp pr)); [apply well_error; exact R|].
    destruct args as [|a0 [|d [|x r]]]; try (apply well_error; exact R). destruct (parse_i64 d) as [db|]; [|apply well_error; exact R].
    destruct (db >? 0)%Z; [apply well_error|apply well_answer]; exact R.
  - (* PING *) unfold cmdPING. destruct args as [|a0 [|m [|x r]]]; try (apply well_error; exact R); destruct (is_pg pr); apply well_answer; exact R.
  - (* TOUCH *) unfold cmdTOUCH. destruct args as [|a0 [|key r]]; try (apply well_error; exact R). apply well_ask.
    apply found_well; [exact R|apply (now_pos orc F n)|]. intros ch' n' cnt R'. apply well_answer; exact R'.
  - exact Auth.
  - (* VERSION *) unfold cmdVERSION. apply well_answer. exact R.
  - (* SCAN *) apply cmdSCAN_well; try assumption. symmetry. exact G.
Qed.
