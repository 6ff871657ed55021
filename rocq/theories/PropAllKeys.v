(** C82: the server is one table of all keys: also commands on several keys reply what all of them show at one moment. *)
From Verif Require Import Base Types Clamp Entry Hash Map Shard Cache Reach Text IntText IntTextProofs CmdTable CmdSpec CmdSpec3 CmdsProofs CmdsProofs3 CmdsProofs4 Prog Cmds Conn ConnSpec ConnProofs7 PropCache SafeSpec SafeProofs2 PropSafe PropSafe2 PropConn Net NetSpec NetProofs PropNet Server ServerSpec ServerProofs ServerProofs2 ServerProofs3 PropReply Base PropCmds PropCursor PropCmds3  PropSafe2 SafeProofs2  PropServer.
From Verif Require Import Spec Observe CmdSpec2 PropCmds2 CmdTableProofs PropText SafeProofs PropServerSafe FrameSpec FrameProofs PropFrame PropTally PropSpan PropLock RegSpec TableSpec Glob PropReg PropCas.
From Verif Require Import Refine.
From Coq Require Import String Lia.
Local Open Scope N_scope.
Notation length := List.length.
Notation concat := List.concat.
Notation map := List.map.

(** What stands in a cache. *)
Definition contents (o : opts) (ch : cache) : table := fun key => option_map shown_of (cabs (ctx_of o) ch key).
Lemma contents_shown : forall o ch key t, reachable (ctx_of o) ch -> sees (ctx_of o) ch key t (shows (contents o ch key) t).
Proof.
  intros o ch key t R. unfold contents. apply (sees_iff _ (opts_load o) ch key t _ (reach_cinv o ch R)).
  unfold live_item, alive_at. destruct (cabs (ctx_of o) ch key) as [it|]; [|reflexivity]. cbn [option_map shows].
  change (v_exp (shown_of it)) with (i_exp it). destruct ((i_exp it =? 0) || (t <? i_exp it))%Z; reflexivity.
Qed.
Lemma stands_live : forall o ch now key, reachable (ctx_of o) ch -> stands (table_at (contents o ch) now) key = true <-> CmdSpec.live o ch now key.
Proof.
  intros o ch now key R. unfold stands, table_at, CmdSpec.live. pose proof (contents_shown o ch key now R) as S. destruct (shows (contents o ch key) now) as [v|]; split; intro X; try reflexivity.
  - exists v. exact S.
  - discriminate X.
  - destruct X as [v X]. pose proof (sees_same _ _ _ _ _ _ R S X) as Y. discriminate Y.
Qed.
Lemma marks_stand : forall o ch now keys l, reachable (ctx_of o) ch -> present o ch now keys l -> marks l = N.of_nat (length (filter (stands (table_at (contents o ch) now)) keys)).
Proof.
  intros o ch now keys l R P. unfold marks. f_equal. induction P as [|k b keys l Hb P IH]; [reflexivity|]. cbn [filter].
  pose proof (stands_live o ch now k R) as S. destruct (stands (table_at (contents o ch) now) k), b; cbn [length]; try (f_equal; exact IH); try exact IH; exfalso.
  - pose proof (proj2 Hb (proj1 S eq_refl)). discriminate.
  - pose proof (proj2 S (proj1 Hb eq_refl)). discriminate.
Qed.
Lemma olds_stand : forall o ch now keys olds, reachable (ctx_of o) ch -> Forall2 (fun key old => sees (ctx_of o) ch key now old) keys olds -> olds = map (table_at (contents o ch) now) keys.
Proof.
  intros o ch now keys olds R P. induction P as [|k x keys l Hx P IH]; [reflexivity|]. cbn [map]. rewrite IH. f_equal. exact (sees_same _ _ _ _ _ _ R Hx (contents_shown o ch k now R)).
Qed.
(** The commands on several keys. *)
Lemma tells_step : forall o cf orc ch w e args es evs ch1, fine orc -> reachable (ctx_of o) ch -> allowed cf e -> told args ->
  prun (ctx_of o) (working w orc) 0 ch (evcommand cf (e_auth e) (d_proto (e_did e)) args) = Ok (ch1, es, evs) ->
  exists reply, tells (d_proto (e_did e)) (table_at (contents o ch) (in_now (orc 0%nat))) args reply /\ es = map Out reply.
Proof.
  intros o cf orc ch w e args es evs ch1 F R A (a0 & key & rest & Ea & W) P. pose proof (working_fine w _ F) as Fw.
  assert (Ne : key :: rest <> []) by discriminate.
  assert (Mg : forall (gets : bool), word a0 (if gets then "mgets" else "mget") -> exists reply, tells (d_proto (e_did e)) (table_at (contents o ch) (in_now (orc 0%nat))) args reply /\ es = map Out reply).
  { intros gets Wg. assert (Q : prun (ctx_of o) (working w orc) 0 ch (cmdMGET (d_proto (e_did e)) args) = Ok (ch1, es, evs)).
    { destruct gets; [rewrite (allowed_runs cf e args 4 A) in P by (rewrite Ea; exact (get_at _ "mgets" 4%nat Wg eq_refl))|rewrite (allowed_runs cf e args 3 A) in P by (rewrite Ea; exact (get_at _ "mget" 3%nat Wg eq_refl))]; exact P. }
    rewrite Ea in Q. assert (Wi : gets = true <-> word a0 "mgets") by (destruct gets; split; intro X; try reflexivity; try exact Wg; try discriminate X; clash).
    destruct (C32_mget o (working w orc) 0 ch (d_proto (e_did e)) a0 (key :: rest) gets R Fw Ne Wi) as (c' & ev' & olds & dec & _ & Pd & Fo & Q2 & _).
    rewrite Q in Q2. injection Q2 as _ E2 _. change (in_now (working w orc 0%nat)) with (in_now (orc 0%nat)) in Fo. rewrite (olds_stand o ch _ _ _ R Fo) in E2.
    eexists. split; [rewrite Ea; apply tell_mget; eassumption|exact E2]. }
  destruct W as [W|[W|[W|[W|[W|(W & Er & Pp)]]]]]; [exact (Mg false W)|exact (Mg true W)|..]; clear Mg.
  - rewrite (allowed_runs cf e args 12 A) in P by (rewrite Ea; exact (get_at _ "exists" 12%nat W eq_refl)). cbn [cmd_func nth] in P. rewrite Ea in P.
    destruct (C32_exists o (working w orc) 0 ch (d_proto (e_did e)) a0 (key :: rest) R Fw Ne) as (c' & ev' & l & dec & _ & Pd & Pl & Q2 & _).
    rewrite P in Q2. injection Q2 as _ E2 _. change (in_now (working w orc 0%nat)) with (in_now (orc 0%nat)) in Pl. rewrite (marks_stand o ch _ _ _ R Pl) in E2.
    eexists. split; [rewrite Ea; apply tell_exists; eassumption|exact E2].
  - rewrite (allowed_runs cf e args 22 A) in P by (rewrite Ea; exact (get_at _ "touch" 22%nat W eq_refl)). cbn [cmd_func nth] in P. rewrite Ea in P.
    destruct (C32_touch o (working w orc) 0 ch (d_proto (e_did e)) a0 (key :: rest) R Fw Ne) as (c' & ev' & l & dec & _ & Pd & Pl & Q2 & _).
    rewrite P in Q2. injection Q2 as _ E2 _. change (in_now (working w orc 0%nat)) with (in_now (orc 0%nat)) in Pl. rewrite (marks_stand o ch _ _ _ R Pl) in E2.
    eexists. split; [rewrite Ea; apply tell_touch; eassumption|exact E2].
  - rewrite (allowed_runs cf e args 2 A) in P by (rewrite Ea; exact (get_at _ "del" 2%nat W eq_refl)). cbn [cmd_func nth] in P. rewrite Ea in P.
    destruct (C32_del o (working w orc) 0 ch (d_proto (e_did e)) a0 (key :: rest) R Fw Ne) as (c' & ev' & ks & dec & _ & Pd & Nd & Ik & Q2 & _).
    rewrite P in Q2. injection Q2 as _ E2 _. eexists. split; [rewrite Ea; apply (tell_del _ _ a0 (key :: rest) dec ks); try assumption|exact E2].
    intro k. rewrite (stands_live o ch _ k R). exact (Ik k).
  - rewrite (allowed_runs cf e args 19 A) in P by (rewrite Ea; exact (get_at _ "keys" 19%nat W eq_refl)). cbn [cmd_func nth] in P. rewrite Ea, Er in P. rewrite Er in Ea.
    destruct (in_work (working w orc 0%nat)) eqn:Ew.
    + destruct (C52_keys o (working w orc) 0 ch (d_proto (e_did e)) a0 key R Fw Pp Ew) as (c' & ks & ev' & dec & Pd & Q2 & Ik & _).
      rewrite P in Q2. injection Q2 as _ E2 _. eexists. split; [rewrite Ea; apply (tell_keys _ _ a0 key dec ks); try assumption|exact E2].
      intro k. rewrite (stands_live o ch _ k R). exact (Ik k).
    + unfold cmdKEYS in P. rewrite prun_ask, Ew, prun_error in P. injection P as _ E2 _. exists no_worker. split; [rewrite Ea; apply tell_keys_busy; assumption|symmetry; exact E2].
Qed.
Lemma table_on : forall o cf orc l i ch i' ch', cf_nshards cf = shards_of o ->
  (forall j, fine (orc j) /\ manned (orc j) /\ steady (orc j) /\ ample (orc j)) ->
  (forall i j a b, (i < j)%nat -> (in_now (orc i a) <= in_now (orc j b))%Z) ->
  ran (ctx_of o) cf orc i ch l i' ch' -> reachable (ctx_of o) ch ->
  (forall l1 l2 i1 ch1, l = l1 ++ l2 -> ran (ctx_of o) cf orc i ch l1 i1 ch1 -> SafeSpec.sized o (cf_fuel cf) ch1) ->
  (forall e args es, In e l -> snd (d_what (e_did e)) = Some (args, es) -> ordinary o args) ->
  table_plays (op_usecas o) cf orc i (contents o ch) l i' (contents o ch') /\ reachable (ctx_of o) ch'.
Proof.
  intros o cf orc l i ch i' ch' Ns H Mono Rn. induction Rn as [i ch|i ch e l i' ch' E Rn IH|i ch e l i' ch' args es w ch1 evs E P Rn IH]; intros R Sz Od.
  - split; [constructor|exact R].
  - destruct (IH R) as (Pl & R'); [| |split; [apply tp_reply; assumption|exact R']].
    + intros l1 l2 i1 ch1 -> Q. apply (Sz (e :: l1) l2 i1 ch1 eq_refl). apply ran_reply; assumption.
    + intros e0 a0 s0 I0. apply Od. right. exact I0.
  - pose proof (Od e args es (or_introl eq_refl) E) as Oa. pose proof (Sz [] (e :: l) i ch eq_refl (ran_end _ _ _ _ _)) as Sz0.
    destruct (H i) as (F & M & St & _).
    destruct (ordinary_ends o cf (orc i) w ch (e_auth e) (d_proto (e_did e)) args Ns F M St R Sz0 Oa) as (ch2 & es2 & ev2 & P2 & R2).
    rewrite P in P2. injection P2 as <- _ _.
    destruct (IH R2) as (Pl & R').
    + intros l1 l2 i1 ch3 -> Q. apply (Sz (e :: l1) l2 i1 ch3 eq_refl). eapply ran_command; eassumption.
    + intros e0 a0 s0 I0. apply Od. right. exact I0.
    + split; [|exact R']. eapply tp_command; [exact E| |exact Pl]. split.
      * intro key. destruct (PropReg.one_turn o cf orc i ch w e args es evs ch1 key (contents o ch key) Ns H Mono R R2 Sz0 Oa P (fun t _ => contents_shown o ch key t R)) as (s1 & Tn & Sh1).
        exists s1. split; [exact Tn|]. intros t Lt. apply (sees_same o ch1 key t _ _ R2); [|apply contents_shown; exact R2]. apply Sh1.
        intros j a Hj. destruct (Nat.eq_dec j i) as [-> |Nj]; [apply Lt|]. specialize (Mono j i a 0%nat ltac:(lia)). specialize (Lt 0%nat). lia.
      * intros A Tl. eapply tells_step; eassumption.
Qed.
(** Of a server with any number of clients: there is one table of all keys that starts with what the cache shows at first, of which every command of the
    log in turn tells and changes what [moves] says, and that ends with what the cache shows in the end. *)
Theorem C82_table : forall o cf orc pg size ss ch t, served o cf orc pg size ss ch t ->
  exists T0 T', (forall key t', sees (ctx_of o) ch key t' (shows (T0 key) t')) /\
    table_plays (op_usecas o) cf orc 0 T0 (g_log (t_shared t)) (g_num (t_shared t)) T' /\
    forall key t', sees (ctx_of o) (g_cache (t_shared t)) key t' (shows (T' key) t').
Proof.
  intros o cf orc pg size ss ch t [Ps Po Er B R Ns H Mono Sz Od].
  destruct (C59_server _ _ _ _ _ _ _ _ Ps Po Er B) as (Rn & _). destruct (table_on o cf orc _ _ _ _ _ Ns H Mono Rn R Sz Od) as (Pl & R').
  exists (contents o ch), (contents o (g_cache (t_shared t))). split; [intros key t'; apply contents_shown; exact R|]. split; [exact Pl|]. intros key t'. apply contents_shown. exact R'.
Qed.
(** The hypotheses for the server of C81, and what the first command of its log, an MGETS, tells of the table. *)
Example C82_case : served demo_opts case_cf span_orc no_pages 8 cas_steps demo_ch cas_end /\
  (exists e1 e2 e3 e4, g_log (t_shared cas_end) = [e1; e2; e3; e4] /\ allowed case_cf e1 /\
     snd (d_what (e_did e1)) = Some (cas_read, [Out (WArray 1); Out (WArray 3); Out (WUint 0); Out (WUint 2); Out (WBulk [])])) /\
  told cas_read /\ table_at (contents demo_opts demo_ch) 110 (bs "k3") = Some (mkView [] 0 0 2) /\
  tells RESP (table_at (contents demo_opts demo_ch) 110) cas_read [WArray 1; WArray 3; WUint 0; WUint 2; WBulk []].
Proof.
  split; [exact cas_served|]. split; [destruct cas_log as (e1 & e2 & e3 & e4 & G & _ & W1 & _); exists e1, e2, e3, e4; split; [exact G|]; split; [left; reflexivity|exact W1]|].
  split; [exists (bs "MGETS"), (bs "k3"), []; split; [reflexivity|]; right; left; reflexivity|]. assert (K : table_at (contents demo_opts demo_ch) 110 (bs "k3") = Some (mkView [] 0 0 2)) by (vm_compute; reflexivity). split; [exact K|].
  replace [WArray 1; WArray 3; WUint 0; WUint 2; WBulk []] with (mget_reply u64toa RESP true (combine [bs "k3"] (map (table_at (contents demo_opts demo_ch) 110) [bs "k3"]))) by (cbn [map]; rewrite K; vm_compute; reflexivity).
  apply tell_mget; [reflexivity|exact u64toa_prints].
Qed.
