(** C83: commands of several threads at the same time act as if they were run one after the other. *)
From Verif Require Import Base Types Clamp Entry Hash Map Shard Cache Reach Text CmdTable CmdSpec Prog Cmds PropCache SafeSpec PropSafe2 PropSpan Weave WeaveSpec WeaveProofs WeaveProofs2.
From Coq Require Import String Lia Permutation.
Notation length := List.length.
Notation map := List.map.

(** Any number of commands on one key each, run by threads that take steps in any order: when all have ended, there is an order of all of them such that
    they give the same cache and the same replies when they are run one after the other in this order, and a command that ended before another began
    comes before it. *)
Theorem C83_threads : forall o cf cs sched ch ch' ws, (forall x, In x cs -> single (cm_args x)) ->
  weave (ctx_of o) sched ch (map (starting cf) cs) = Ok (ch', ws) -> (forall w, In w ws -> finished w) ->
  exists order, Permutation (map fst order) (seq 0 (length cs)) /\
    one_after_other (ctx_of o) cf cs ch order ch' /\
    (forall t es, In (t, es) order -> exists w, nth_error ws t = Some w /\ wk_did w = es) /\
    (forall A B i j, sched = A ++ B -> (i < length cs)%nat -> (j < length cs)%nat -> In j A -> ~ In j B -> ~ In i A -> before j i (map fst order)).
Proof.
  intros o cf cs sched ch ch' ws Sg E Dn.
  assert (I0 : inv (ctx_of o) cf cs ch (map (starting cf) cs) ch []).
  { split; [constructor|]. split; [constructor|]. split; [intros t N; rewrite nth_error_map, N; reflexivity|]. intros t x Ex. right. exists (starting cf x).
    split; [rewrite nth_error_map, Ex; reflexivity|]. split; [exact (single_ok cf (cm_auth x) (cm_proto x) (cm_args x) (Sg x (nth_error_In _ _ Ex)))|]. split; [reflexivity|]. intros a b es X. exact X. }
  destruct (inv_run _ _ _ _ _ _ _ _ _ _ I0 E) as (m & I1 & Sp). cbn [app] in I1, Sp.
  destruct (leftovers _ _ _ _ ws (seq 0 (length cs)) ch' m I1 Dn) as (r & I2 & All).
  pose proof I2 as (Nd & C & Nn & Al). destruct (serial _ _ _ _ _ _ _ C (fun w K => proj1 (Dn w K))) as (order & Eo & Oa & Di). exists order. rewrite Eo.
  assert (Ins : forall t, In t (m ++ r) <-> In t (seq 0 (length cs))).
  { intro t. rewrite in_seq. split.
    - intro K. destruct (chain_in _ _ _ _ _ C K) as (a & b & x & w & Ex & _). assert (t < length cs)%nat by (apply nth_error_Some; congruence). lia.
    - intro K. destruct (nth_error cs t) as [x|] eqn:Ex; [apply (All t x); [apply in_seq; lia|exact Ex]|]. apply nth_error_None in Ex. lia. }
  split; [apply NoDup_Permutation; [exact Nd|apply seq_NoDup|exact Ins]|]. split; [exact Oa|]. split; [exact Di|].
  intros A B i j Es Li Lj Ja Jb Ia. destruct (Sp A B Es) as (m1 & m2 & -> & Im & Dj).
  assert (Jm : In j m1).
  { destruct (nth_error ws j) as [w|] eqn:Ew; [exact (Dj j w Ja Jb Ew (proj1 (Dn w (nth_error_In _ _ Ew))))|].
    assert (Kj : In j ((m1 ++ m2) ++ r)) by (apply Ins, in_seq; lia). destruct (chain_in _ _ _ _ _ C Kj) as (a & b & x & w & _ & Ew' & _). congruence. }
  assert (Ki : In i ((m1 ++ m2) ++ r)) by (apply Ins, in_seq; lia). rewrite <- app_assoc in Ki |- *. apply in_app_or in Ki. destruct Ki as [Ki|Ki]; [destruct (Ia (Im i Ki))|].
  destruct (in_split _ _ Jm) as (x & y & ->). destruct (in_split _ _ Ki) as (u & v & ->). exists x, (y ++ u), v. repeat (rewrite <- app_assoc; cbn [app]). reflexivity.
Qed.

(** *** A case: a client reads a key, one sets it and one adds to it, all at the same time *)
Definition weave_cmds : list cmd :=
  [mkCmd RESP false [bs "GET"; bs "k1"] (span_orc 0); mkCmd RESP false [bs "SET"; bs "k1"; bs "7"] (span_orc 1); mkCmd RESP false [bs "INCR"; bs "k1"] (span_orc 2)].
Definition weave_sched : list nat := List.concat (repeat [0; 1; 2]%nat 8).
Lemma singles : forall a0 key rest w, In w single_names -> word a0 w -> single (a0 :: key :: rest).
Proof. intros a0 key rest w I W. left. exists a0, (key :: rest), w. auto. Qed.
(** The steps are mixed; the INCR comes first, then the GET, then the SET. *)
Example C83_case : (forall x, In x weave_cmds -> single (cm_args x)) /\ reachable demo_c demo_ch /\
  exists ch' ws, weave demo_c weave_sched demo_ch (map (starting case_cf) weave_cmds) = Ok (ch', ws) /\ (forall w, In w ws -> finished w) /\
    map wk_did ws = [[Out (WBulk (bs "1"))]; [Out (WString (bs "OK"))]; [Out (WInt 1)]].
Proof.
  split; [intros x [<-|[<-|[<-|[]]]]; [apply (singles _ _ _ "get")|apply (singles _ _ _ "set")|apply (singles _ _ _ "incr")]; cbn [single_names In]; tauto || reflexivity|].
  split; [exact demo_reachable|]. eexists _, _. split; [vm_compute; reflexivity|]. split; [|reflexivity]. intros w [<-|[<-|[<-|[]]]]; split; reflexivity.
Qed.

(** *** Commands on several keys are not like this *)
(** One client sets k1 and then k3. Another one asks for both with MGET at the same time, and gets the old value of the first and the new value of the
    second: this never stood in the cache. *)
Definition torn_cmds : list cmd :=
  [mkCmd RESP false [bs "MGET"; bs "k1"; bs "k3"] (span_orc 0); mkCmd RESP false [bs "SET"; bs "k1"; bs "x"] (span_orc 1); mkCmd RESP false [bs "SET"; bs "k3"; bs "y"] (span_orc 2)].
Definition torn_sched : list nat := (repeat 0 4 ++ repeat 1 8) ++ repeat 2 8 ++ repeat 0 8.
Fixpoint run_order (cs : list cmd) (ch : cache) (ids : list nat) : option (list (nat * list eff)) :=
  match ids with
  | [] => Some []
  | t :: r =>
      match nth_error cs t with
      | None => None
      | Some x => match prun demo_c (cm_orc x) 0 ch (evcommand case_cf (cm_auth x) (cm_proto x) (cm_args x)) with
                  | Bad _ => None
                  | Ok (ch1, es, _) => option_map (cons (t, es)) (run_order cs ch1 r)
                  end
      end
  end.
Lemma order_run : forall cs ch l ch', one_after_other demo_c case_cf cs ch l ch' -> run_order cs ch (map fst l) = Some l.
Proof. intros cs ch l ch' O. induction O as [|ch t x es evs ch1 l ch2 Ex Ep O IH]; [reflexivity|]. cbn [map fst run_order]. rewrite Ex, Ep, IH. reflexivity. Qed.
Lemma three_orders : forall l, Permutation l (seq 0 3) -> before 1 2 l -> l = [0; 1; 2]%nat \/ l = [1; 0; 2]%nat \/ l = [1; 2; 0]%nat.
Proof.
  intros l P (x & y & z & ->). pose proof (Permutation_length P) as Le. cbn in Le. rewrite app_length in Le. cbn [length] in Le. rewrite app_length in Le. cbn [length] in Le.
  assert (I : In 0%nat (x ++ 1%nat :: y ++ 2%nat :: z)) by (apply (Permutation_in _ (Permutation_sym P)); left; reflexivity).
  destruct x as [|a x]; [destruct y as [|b y]; [destruct z as [|d z]|]|].
  - cbn in I. destruct I as [I|[I|[]]]; discriminate I.
  - destruct z; [|cbn in Le; lia]. cbn in I. destruct I as [I|[I|[I|[]]]]; try discriminate I. subst d. right. right. reflexivity.
  - destruct y; [|cbn in Le; lia]. destruct z; [|cbn in Le; lia]. cbn in I. destruct I as [I|[I|[I|[]]]]; try discriminate I. subst b. right. left. reflexivity.
  - destruct x; [|cbn in Le; lia]. destruct y; [|cbn in Le; lia]. destruct z; [|cbn in Le; lia]. cbn in I. destruct I as [I|[I|[I|[]]]]; try discriminate I. subst a. left. reflexivity.
Qed.
Theorem C83_several_keys_refuted : exists cs sched A B ch' ws, sched = A ++ B /\ In 1%nat A /\ ~ In 1%nat B /\ ~ In 2%nat A /\ length cs = 3%nat /\
  weave demo_c sched demo_ch (map (starting case_cf) cs) = Ok (ch', ws) /\ (forall w, In w ws -> finished w) /\
  ~ exists order ch2, Permutation (map fst order) (seq 0 (length cs)) /\ one_after_other demo_c case_cf cs demo_ch order ch2 /\
      (forall t es, In (t, es) order -> exists w, nth_error ws t = Some w /\ wk_did w = es) /\ before 1 2 (map fst order).
Proof.
  exists torn_cmds, torn_sched, (repeat 0 4 ++ repeat 1 8)%nat, (repeat 2 8 ++ repeat 0 8)%nat. eexists _, _. split; [reflexivity|].
  split; [cbn; tauto|]. split; [cbn; lia|]. split; [cbn; lia|]. split; [reflexivity|]. split; [vm_compute; reflexivity|].
  split; [intros w [<-|[<-|[<-|[]]]]; split; reflexivity|]. intros (order & ch2 & P & O & D & Bf). apply order_run in O.
  assert (X : exists es, In (0%nat, es) order /\ es <> [Out (WArray 2); Out (WBulk (bs "w")); Out (WBulk (bs "y"))]).
  { destruct (three_orders _ P Bf) as [Q|[Q|Q]]; rewrite Q in O; vm_compute in O; injection O as <-; eexists; (split; [cbn; eauto|]); intro K; vm_compute in K; discriminate K. }
  destruct X as (es & I & N). destruct (D _ _ I) as (w & Ew & Ed). apply N. rewrite <- Ed. cbn [nth_error] in Ew. injection Ew as <-. reflexivity.
Qed.
