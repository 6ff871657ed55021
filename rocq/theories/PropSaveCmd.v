(** C72: SAVE and LOAD as commands. *)
From Verif Require Import Base Types Clamp Entry Hash Map Shard Spec Cache Refine Reach Observe PropCache Text IntText Prog CmdSpec CmdSpec2 Cmds CmdsProofs Save SaveSpec
  SaveProofs LoadProofs LoadProofs2 LoadProofs3 SaveFs SaveFsProofs PropSave PropSaveCases Lz4 PropLz4 Proc ProcProofs PropProc SaveCmd SaveCmdProofs.
From Coq Require Import String Permutation.
Local Open Scope N_scope.
Notation map := List.map.
Notation length := List.length.

(** ** The words *)
(** An option, and how it is spelt: FAST; TO and a path for SAVE, FROM and a path for LOAD. *)
Inductive option_ := OFast | OPath (p : bytes).
Inductive spelt (load : bool) : option_ -> list bytes -> Prop :=
| sp_fast : forall w, word w "fast" -> spelt load OFast [w]
| sp_path : forall w p, word w (if load then "from" else "to")%string -> spelt load (OPath p) [w; p].
(** The last path that is named, else the one of --persist. *)
Fixpoint last_path (l : list option_) (p : bytes) : bytes :=
  match l with [] => p | OFast :: r => last_path r p | OPath q :: r => last_path r q end.
(** The bytes before the first NUL. *)
Definition before_nul (s p : bytes) : Prop := ~ In 0 p /\ (s = p \/ exists r, s = p ++ [0] ++ r).
(** The options [l] of a command, and what they ask for. *)
Definition options_are (load : bool) (args : list bytes) (l : list option_) : Prop :=
  exists ws, Forall2 (spelt load) l ws /\ args = List.concat ws.

Lemma cstr_before : forall s, before_nul s (cstr s).
Proof.
  induction s as [|b s [A B]]; cbn [cstr]; [split; [intros []|left; reflexivity]|].
  destruct (N.eqb_spec b 0) as [->|Nb]; [split; [intros []|right; exists s; reflexivity]|].
  split; [intros [E|E]; [congruence|contradiction]|]. destruct B as [B|(r & B)]; [left; congruence|right; exists r]. rewrite B at 1. reflexivity.
Qed.
Lemma word_fast : forall w (load : bool), word w "fast" -> word w (if load then "from" else "to")%string -> False.
Proof. intros w load A B. unfold word in *. rewrite A in B. destruct load; discriminate B. Qed.
Lemma path_word : forall (load : bool) a, (load && is_word a "from") || (negb load && is_word a "to") = true <-> word a (if load then "from" else "to")%string.
Proof.
  intros load a. destruct load; cbn [andb orb negb]; rewrite ?orb_false_r; apply is_word_iff.
Qed.
Lemma options_iff : forall load args fast path fast' path',
  sl_options load args fast path = Some (fast', path') <->
  exists l, options_are load args l /\ (fast' = true <-> fast = true \/ In OFast l) /\ path' = last_path l path.
Proof.
  intro load.
  assert (G : forall n args, (length args <= n)%nat -> forall fast path fast' path', sl_options load args fast path = Some (fast', path') <->
    exists l, options_are load args l /\ (fast' = true <-> fast = true \/ In OFast l) /\ path' = last_path l path).
  { induction n as [|n IH]; intros args Ln fast path fast' path'.
    { destruct args; [|cbn [length] in Ln; lia]. cbn [sl_options]. split.
      - intro E. injection E as <- <-. exists []. split; [exists []; split; [constructor|reflexivity]|]. split; [cbn [In]; tauto|reflexivity].
      - intros (l & (ws & F & E) & A & ->). destruct F as [|x y l ws S F]; [cbn [last_path]; f_equal; f_equal; destruct fast, fast'; cbn [In] in A; intuition congruence|].
        destruct S; discriminate E. }
    destruct args as [|a r].
    { apply (IH []). cbn [length]. lia. }
    cbn [sl_options length] in *. destruct (is_word a "fast") eqn:F.
    - apply is_word_iff in F. rewrite (IH r ltac:(lia)). split.
      + intros (l & (ws & Fw & E) & A & B). exists (OFast :: l). split; [|split; [cbn [In]; intuition auto|exact B]].
        exists ([a] :: ws). split; [constructor; [constructor; exact F|exact Fw]|]. cbn [List.concat app]. congruence.
      + intros (l & (ws & Fw & E) & A & B). destruct Fw as [|x y l ws S Fw]; [discriminate E|]. destruct S as [w Hw|w p Hw]; cbn [List.concat app] in E.
        * injection E as <- E. exists l. split; [exists ws; auto|]. split; [|exact B]. cbn [In] in A. intuition (auto; congruence).
        * injection E as <- _. destruct (word_fast _ _ F Hw).
    - destruct ((load && is_word a "from") || (negb load && is_word a "to")) eqn:P.
      + apply path_word in P. destruct r as [|p r].
        * split; [discriminate|]. intros (l & (ws & Fw & E) & _). exfalso. destruct Fw as [|x y l ws S Fw]; [discriminate E|].
          destruct S as [w Hw|w p Hw]; cbn [List.concat app] in E; [|discriminate E]. injection E as <- _. exact (word_fast _ _ Hw P).
        * rewrite (IH r ltac:(cbn [length] in *; lia)). split.
          -- intros (l & (ws & Fw & E) & A & B). exists (OPath p :: l). split; [|split; [cbn [In]; split; [intro Z; apply A in Z; tauto|intros [Z|[Z|Z]]; [apply A; auto|discriminate|apply A; auto]]|exact B]].
             exists ([a; p] :: ws). split; [constructor; [constructor; exact P|exact Fw]|]. cbn [List.concat app]. congruence.
          -- intros (l & (ws & Fw & E) & A & B). destruct Fw as [|x y l ws S Fw]; [discriminate E|]. destruct S as [w Hw|w q Hw]; cbn [List.concat app] in E.
             ++ injection E as <- _. destruct (word_fast _ _ Hw P).
             ++ injection E as <- <- E. exists l. split; [exists ws; auto|]. split; [|exact B]. cbn [In] in A. split; [intro Z; apply A in Z; destruct Z as [Z|[Z|Z]]; auto; discriminate|intro Z; apply A; tauto].
      + split; [discriminate|]. intros (l & (ws & Fw & E) & _). exfalso. destruct Fw as [|x y l ws S Fw]; [discriminate E|].
        destruct S as [w Hw|w p Hw]; cbn [List.concat app] in E; injection E as <- _.
        * apply is_word_iff in Hw. congruence.
        * apply path_word in Hw. congruence. }
  intros args. exact (G (length args) args (le_n _)).
Qed.

(** What a command asks for: the name of the command says whether it is LOAD; the options say the rest. *)
Theorem C72_request : forall persist w args load fast path,
  saveload persist (w :: args) = Work load fast path <->
  (load = true <-> word w "load") /\ exists l, options_are load args l /\ (fast = true <-> In OFast l) /\
    last_path l persist <> [] /\ before_nul (last_path l persist) path.
Proof.
  intros persist w args load fast path. unfold saveload. cbn zeta.
  assert (U : forall s p, before_nul s p -> p = cstr s).
  { intros s p [A B]. revert s B. induction p as [|b p IH]; intros s B.
    - destruct B as [->|(r & ->)]; reflexivity.
    - assert (Nb : b <> 0) by (intros ->; apply A; left; reflexivity).
      assert (A' : ~ In 0 p) by (intro Z; apply A; right; exact Z).
      destruct B as [->|(r & ->)]; cbn [cstr app]; destruct (N.eqb_spec b 0); try contradiction; f_equal; apply IH; auto. right. exists r. reflexivity. }
  split.
  - destruct (sl_options (is_word w "load") args false persist) as [[f p]|] eqn:E; [|discriminate].
    destruct p as [|b p]; [discriminate|]. intro H. injection H as <- <- <-. split; [apply is_word_iff|].
    apply options_iff in E. destruct E as (l & A & B & C). exists l. split; [exact A|]. split; [split; [intro Z; apply B in Z; destruct Z as [Z|Z]; [discriminate|exact Z]|intro Z; apply B; auto]|].
    rewrite <- C. split; [discriminate|apply cstr_before].
  - intros (Hl & l & A & B & Ne & C). assert (El : is_word w "load" = load).
    { destruct load; [apply is_word_iff; apply Hl; reflexivity|]. destruct (is_word w "load") eqn:E; [|reflexivity]. apply is_word_iff, Hl in E. discriminate. }
    rewrite El. assert (E : sl_options load args false persist = Some (fast, last_path l persist)).
    { apply options_iff. exists l. split; [exact A|]. split; [|reflexivity]. rewrite B. split; [auto|intros [Z|Z]; [discriminate|exact Z]]. }
    rewrite E. rewrite (U _ _ C). destruct (last_path l persist); [contradiction|reflexivity].
Qed.
(** Everything else is an error, and nothing is done: options that are not options, or no path. *)
Theorem C72_refused : forall persist w args msg, saveload persist (w :: args) = Refuse msg <->
  (msg = ERR_SYNTAX_ERROR /\ forall load, (load = true <-> word w "load") -> ~ exists l, options_are load args l) \/
  (msg = bs "ERR path not provided" /\ exists load l, (load = true <-> word w "load") /\ options_are load args l /\ last_path l persist = []).
Proof.
  intros persist w args msg. unfold saveload. cbn zeta.
  assert (El : forall load, (load = true <-> word w "load") -> is_word w "load" = load).
  { intros load Hl. destruct load; [apply is_word_iff; apply Hl; reflexivity|]. destruct (is_word w "load") eqn:E; [|reflexivity]. apply is_word_iff, Hl in E. discriminate. }
  destruct (sl_options (is_word w "load") args false persist) as [[f p]|] eqn:E.
  - pose proof (proj1 (options_iff _ _ _ _ _ _) E) as (l & A & B & C). split.
    + destruct p as [|b p]; [|discriminate]. intro H. injection H as <-. right. split; [reflexivity|]. exists (is_word w "load"), l. split; [apply is_word_iff|]. auto.
    + intros [[_ N]|(-> & load & l' & Hl & A' & Z)].
      * exfalso. apply (N (is_word w "load") (is_word_iff _ _)). exists l. exact A.
      * rewrite (El load Hl) in E.
        assert (E2 : exists f2, sl_options load args false persist = Some (f2, last_path l' persist)).
        { assert (D : In OFast l' \/ ~ In OFast l') by (clear; induction l' as [|[|q] l' [D|D]]; cbn [In]; auto; right; intros [X|X]; [discriminate|contradiction]).
          destruct D as [D|D]; [exists true|exists false]; apply options_iff; exists l'; (split; [exact A'|]); (split; [|reflexivity]); split; auto; try discriminate.
          intros [X|X]; [discriminate|contradiction]. }
        destruct E2 as (f2 & E2). rewrite E2 in E. injection E as _ <-. rewrite Z. reflexivity.
  - split.
    + intro H. injection H as <-. left. split; [reflexivity|]. intros load Hl (l & A). rewrite (El load Hl) in E.
      assert (D : In OFast l \/ ~ In OFast l) by (clear; induction l as [|[|q] l [D|D]]; cbn [In]; auto; right; intros [X|X]; [discriminate|contradiction]).
      assert (E2 : exists f2, sl_options load args false persist = Some (f2, last_path l persist)).
      { destruct D as [D|D]; [exists true|exists false]; apply options_iff; exists l; (split; [exact A|]); (split; [|reflexivity]); split; auto; try discriminate.
        intros [X|X]; [discriminate|contradiction]. }
      destruct E2 as (f2 & E2). congruence.
    + intros [[-> _]|(_ & load & l & Hl & A & _)]; [reflexivity|]. exfalso. rewrite (El load Hl) in E.
      assert (D : In OFast l \/ ~ In OFast l) by (clear; induction l as [|[|q] l [D|D]]; cbn [In]; auto; right; intros [X|X]; [discriminate|contradiction]).
      assert (E2 : exists f2, sl_options load args false persist = Some (f2, last_path l persist)).
      { destruct D as [D|D]; [exists true|exists false]; apply options_iff; exists l; (split; [exact A|]); (split; [|reflexivity]); split; auto; try discriminate.
        intros [X|X]; [discriminate|contradiction]. }
      destruct E2 as (f2 & E2). congruence.
Qed.

(** The reply says whether save or load returned 0. *)
Definition says_ok (pr : proto) (load : bool) : list wr :=
  match pr with
  | MEMCACHE => [WRaw (bs "OK" ++ [13; 10])]
  | POSTGRES => [PComplete (bs (if load then "LOAD OK" else "SAVE OK")); PReady]
  | _ => [WString (bs "OK")]
  end.
Theorem C72_reply : forall pr persist w args work status,
  let a := saveload_answer pr persist (w :: args) work status in
  (a = says_ok pr true \/ a = says_ok pr false <-> status = 0%Z /\ work = true /\ exists load fast path, saveload persist (w :: args) = Work load fast path) /\
  (forall load fast path, saveload persist (w :: args) = Work load fast path ->
     a = if work then if (status =? 0)%Z then says_ok pr load else [WError (bs (if load then "load failed" else "save failed"))]
         else [WError (bs "ERR failed to do work")]) /\
  (forall msg, saveload persist (w :: args) = Refuse msg -> a = [WError msg]).
Proof.
  intros pr persist w args work status a. subst a. unfold saveload_answer.
  assert (R : forall load ok, saveload_reply pr load ok = if ok then says_ok pr load else [WError (bs (if load then "load failed" else "save failed"))]).
  { intros load ok. destruct ok, load, pr; reflexivity. }
  split; [|split].
  - destruct (saveload persist (w :: args)) as [msg|load fast path].
    + split; [intros [E|E]; destruct pr; discriminate E|]. intros (_ & _ & l & f & p & E). discriminate E.
    + rewrite R. destruct work; [|split; [intros [E|E]; destruct pr; discriminate E|intros (_ & E & _); discriminate E]].
      destruct (Z.eqb_spec status 0) as [->|Ns].
      * split; [|intros _; destruct load; auto]. intros _. split; [reflexivity|]. split; [reflexivity|]. eauto.
      * split; [intros [E|E]; destruct pr, load; discriminate E|intros (E & _); contradiction].
  - intros load fast path E. rewrite E, R. reflexivity.
  - intros msg E. rewrite E. reflexivity.
Qed.

(** ** The saves *)
Definition svs (x : server) : list saver := map jb_save (se_jobs x).
(** The moments of a run. *)
Definition moment (tr : list server) (i : nat) (s : shot) : Prop := exists z, In z tr /\ s = se_shot z.
(** The commands that are sent, each with the number that its work file will have; the work files are their own, and no file is named like one. *)
Definition sent (persist : bytes) (cmds : list (list bytes * N)) (b : server) : Prop :=
  Forall2 (fun c j => job_of persist (fst c) (snd c) = Some j) cmds (se_jobs b).
Definition tidy (b : server) : Prop :=
  (forall sv, In sv (svs b) -> fs_names (se_fs b) (sv_work sv) = None /\ plain_name (sv_path sv)) /\
  NoDup (map sv_work (svs b)) /\ (forall n i, fs_names (se_fs b) n = Some i -> (i < fs_next (se_fs b))%nat).

Lemma work_not_plain : forall p seed q, plain_name q -> work_name p seed <> q.
Proof.
  intros p seed q H E. unfold work_name in E. apply (H (p ++ [46] ++ hex_digits 8 (seed mod 2147483647))). rewrite <- E, <- !app_assoc. reflexivity.
Qed.
Lemma sent_job : forall persist cmds b j, sent persist cmds b -> In j (se_jobs b) ->
  exists args seed, In (args, seed) cmds /\ saveload persist args = Work false (jb_fast j) (sv_path (jb_save j)) /\
    sv_work (jb_save j) = work_name (sv_path (jb_save j)) seed /\ sv_phase (jb_save j) = POpen.
Proof.
  intros persist cmds b j H Hj. unfold sent in H. induction H as [|[args seed] y l l' A F IH]; [destruct Hj|].
  destruct Hj as [->|Hj].
  - exists args, seed. split; [left; reflexivity|]. unfold job_of in A. cbn [fst snd] in A. destruct (saveload persist args) as [|load fast path]; [discriminate|].
    destruct load; [discriminate|]. injection A as <-. auto.
  - destruct (IH Hj) as (a & s & B & C). exists a, s. split; [right; exact B|exact C].
Qed.
Lemma tidy_fresh : forall persist cmds b, sent persist cmds b -> tidy b -> fresh (se_fs b) (svs b).
Proof.
  intros persist cmds b Sn (T1 & T2 & T3).
  assert (Q : forall sv, In sv (svs b) -> sv_phase sv = POpen /\ exists seed, sv_work sv = work_name (sv_path sv) seed).
  { intros sv H. apply in_map_iff in H. destruct H as (j & <- & Hj). destruct (sent_job _ _ _ _ Sn Hj) as (a & s & _ & _ & A & B). eauto. }
  split; [|split; [exact T2|split; [|exact T3]]].
  - intros sv H. split; [apply Q; exact H|apply T1; exact H].
  - intros a c Ha Hc. destruct (Q a Ha) as (_ & seed & ->). apply work_not_plain. apply T1. exact Hc.
Qed.

Lemma svs_mid : forall x j1 fast sv j2, se_jobs x = j1 ++ mkJob fast sv :: j2 -> svs x = map jb_save j1 ++ sv :: map jb_save j2.
Proof. intros x j1 fast sv j2 E. unfold svs. rewrite E, map_app. reflexivity. Qed.

Section Runs.
Variable o : opts.
Variable nprocs : nat.
Variable b : server.
Hypothesis np : (0 < nprocs)%nat.
Hypothesis fr : fresh (se_fs b) (svs b).

Lemma hist_cons : forall z tr, history o nprocs b (z :: tr) -> tr <> [] ->
  exists w t, tr = w :: t /\ history o nprocs b (w :: t) /\ serve o nprocs w z.
Proof. intros z tr H N. inversion H; subst; [contradiction|]. eauto. Qed.
Lemma hist_tail : forall t2 x t1, history o nprocs b (t2 ++ x :: t1) -> history o nprocs b (x :: t1).
Proof.
  induction t2 as [|y t2 IH]; intros x t1 H; [exact H|]. apply IH. cbn [app] in H.
  destruct (hist_cons _ _ H ltac:(destruct t2; discriminate)) as (w & t & Et & H' & _). rewrite Et. exact H'.
Qed.
Lemma hist_all : forall (T : nat -> shot -> Prop) tr, small_enough o T -> history o nprocs b tr -> (forall i s, moment tr i s -> T i s) ->
  match tr with [] => True | x :: _ => jwinv o lz4_compress (fun _ => T) (se_fs b) (se_fs x) (svs x) end.
Proof.
  intros T tr Sm H. induction H as [|t x y H IH Hs]; intro M.
  - destruct fr as (F1 & F2 & F3 & F4). constructor; try assumption.
    + apply Forall_forall. intros sv Hin. destruct (F1 sv Hin) as [E1 E2]. unfold jsinv. rewrite E1. exact E2.
    + intros p _. left. split; [reflexivity|]. intros sv Hin _. rewrite (proj1 (F1 sv Hin)). reflexivity.
  - assert (IH' : jwinv o lz4_compress (fun _ => T) (se_fs b) (se_fs x) (svs x)).
    { apply IH. intros i s (z & Hz & E). apply M. exists z. split; [right; exact Hz|exact E]. }
    destruct Hs as [x now unix L Tm|x en op ch r evs Ca Sp|x j1 fast sv j2 f' ph' E Ss]; cbn [se_fs]; try exact IH'.
    unfold svs. cbn [se_jobs]. rewrite map_app. cbn [map jb_save]. rewrite (svs_mid _ _ _ _ _ E) in IH'.
    apply (jwinv_step o lz4_compress (fun _ => T) nprocs np (fun _ => Sm) (se_fs b) fast (se_fs x)); [exact IH'|].
    eapply save_mono; [|exact Ss]. intros i s ->. apply M. exists x. split; [right; left; reflexivity|reflexivity].
Qed.

(** From a moment [y] on, at which no save to [p] is running. *)
Variable y : server.
Variable t1 : list server.
Variable p : bytes.
Hypothesis quiet : forall sv, In sv (svs y) -> sv_path sv = p -> sv_phase sv = POpen \/ exists ok, sv_phase sv = PDone ok.
Definition over (w : bytes) : bool := existsb (fun sv => beq (sv_work sv) w && match sv_phase sv with PDone _ => true | _ => false end) (svs y).
Definition going (sv : saver) : bool := negb (over (sv_work sv)).
Variable later all : nat -> shot -> Prop.
Hypothesis small_later : small_enough o later.
Hypothesis small_all : small_enough o all.
Definition split_at (q : bytes) : nat -> shot -> Prop := if beq q p then later else all.
Lemma split_small : forall q, small_enough o (split_at q).
Proof. intro q. unfold split_at. destruct (beq q p); assumption. Qed.

Lemma going_start : jwinv o lz4_compress (fun _ => all) (se_fs b) (se_fs y) (svs y) ->
  jwinv o lz4_compress split_at (se_fs y) (se_fs y) (filter going (svs y)) /\
  (forall sv, In sv (svs y) -> going sv = false -> exists ok, sv_phase sv = PDone ok).
Proof.
  intros [W1 W2 W3 W4 W5].
  assert (Ov : forall sv, In sv (svs y) -> going sv = false -> exists ok, sv_phase sv = PDone ok).
  { intros sv Hin Hg. unfold going in Hg. apply negb_false_iff in Hg. unfold over in Hg. apply existsb_exists in Hg. destruct Hg as (sv' & H1 & H2).
    apply andb_true_iff in H2. destruct H2 as [H2 H3]. apply beq_eq in H2.
    assert (sv' = sv) as ->.
    { clear - W3 H1 Hin H2. induction (svs y) as [|a l IH]; [destruct Hin|]. cbn [map] in W3. apply NoDup_cons_iff in W3. destruct W3 as [N1 N2].
      destruct H1 as [->|H1], Hin as [->|Hin]; auto.
      - exfalso. apply N1. rewrite H2. apply in_map. exact Hin.
      - exfalso. apply N1. rewrite <- H2. apply in_map. exact H1. }
    destruct (sv_phase sv); try discriminate. eauto. }
  assert (Op : forall sv, In sv (filter going (svs y)) -> sv_path sv = p -> sv_phase sv = POpen).
  { intros sv Hf E. apply filter_In in Hf. destruct Hf as [Hin Hg]. destruct (quiet sv Hin E) as [Q|(ok & Q)]; [exact Q|exfalso].
    unfold going in Hg. apply negb_true_iff in Hg. unfold over in Hg. assert (X : existsb (fun s => beq (sv_work s) (sv_work sv) && match sv_phase s with PDone _ => true | _ => false end) (svs y) = true).
    { apply existsb_exists. exists sv. split; [exact Hin|]. rewrite beq_refl, Q. reflexivity. }
    congruence. }
  split; [|exact Ov]. constructor.
  - apply Forall_forall. intros sv Hf. pose proof (Op sv Hf) as Os. apply filter_In in Hf. destruct Hf as [Hin Hg]. rewrite Forall_forall in W1. specialize (W1 sv Hin).
    unfold jsinv in *. unfold split_at. destruct (beq (sv_path sv) p) eqn:B; [|exact W1]. apply beq_eq in B. rewrite (Os B) in *. exact W1.
  - exact W2.
  - clear - W3. induction (svs y) as [|a l IH]; [constructor|]. cbn [map] in W3. apply NoDup_cons_iff in W3. destruct W3 as [N1 N2].
    cbn [filter]. destruct (going a); [|apply IH; exact N2]. cbn [map]. constructor; [|apply IH; exact N2].
    intro X. apply N1. apply in_map_iff in X. destruct X as (z & E & Hz). apply filter_In in Hz. rewrite <- E. apply in_map. apply Hz.
  - intros a c Ha Hc. apply filter_In in Ha, Hc. apply W4; [apply Ha|apply Hc].
  - intros q Nq.
    destruct (existsb (fun sv => beq (sv_path sv) q && succeeded (sv_phase sv)) (filter going (svs y))) eqn:X.
    + apply existsb_exists in X. destruct X as (sv & Hf & Hs). apply andb_true_iff in Hs. destruct Hs as [Eq Su]. apply beq_eq in Eq.
      assert (Hin : In sv (svs y)) by (apply filter_In in Hf; apply Hf).
      right. destruct (W5 q) as [[_ A]|(d & A & B & _)].
      * intro Z. apply in_map_iff in Z. destruct Z as (a & Ea & Ha). apply (W4 a sv Ha Hin). congruence.
      * rewrite (A sv Hin Eq) in Su. discriminate.
      * exists d. split; [exact A|]. split; [|exists sv; auto]. unfold split_at. destruct (beq q p) eqn:Bp; [|exact B].
        apply beq_eq in Bp. rewrite (Op sv Hf ltac:(congruence)) in Su. discriminate.
    + left. split; [reflexivity|]. intros sv Hf Eq. destruct (succeeded (sv_phase sv)) eqn:Su; [|reflexivity]. exfalso.
      assert (Y : existsb (fun sv => beq (sv_path sv) q && succeeded (sv_phase sv)) (filter going (svs y)) = true).
      { apply existsb_exists. exists sv. split; [exact Hf|]. rewrite Eq, beq_refl, Su. reflexivity. }
      congruence.
Qed.
Lemma going_run : forall t2, history o nprocs b (t2 ++ y :: t1) ->
  (forall i s, moment (t2 ++ [y]) i s -> later i s) -> (forall i s, moment (t2 ++ y :: t1) i s -> all i s) ->
  let x := hd y (t2 ++ [y]) in
  jwinv o lz4_compress split_at (se_fs y) (se_fs x) (filter going (svs x)) /\
  (forall sv, In sv (svs x) -> going sv = false -> exists ok, sv_phase sv = PDone ok).
Proof.
  induction t2 as [|z t2 IH]; intros H ML MA x.
  - apply going_start. pose proof (hist_all all (y :: t1) small_all H MA) as K. exact K.
  - cbn [app] in H. destruct (hist_cons _ _ H ltac:(destruct t2; discriminate)) as (w & t & Et & H' & Hs).
    assert (Ew : hd y (t2 ++ [y]) = w) by (destruct t2; cbn [app hd] in *; congruence).
    assert (Hin : In w (t2 ++ [y])) by (rewrite <- Ew; destruct t2; left; reflexivity).
    rewrite <- Et in H'.
    destruct IH as [J1 J2]; [exact H'| | |].
    { intros i s (u & Hu & E). apply ML. exists u. split; [right; exact Hu|exact E]. }
    { intros i s (u & Hu & E). apply MA. exists u. split; [right; exact Hu|exact E]. }
    rewrite Ew in J1, J2. subst x. cbn [app hd].
    destruct Hs as [w now unix L Tm|w en op ch r evs Ca Sp|w j1 fast sv j2 f' ph' E Ss]; cbn [se_fs]; try (split; [exact J1|exact J2]).
    pose proof (svs_mid _ _ _ _ _ E) as Em.
    assert (En : svs (mkServer (se_cache w) (se_now w) (se_unix w) f' (j1 ++ mkJob fast (mkSaver (sv_path sv) (sv_work sv) ph') :: j2)) =
      map jb_save j1 ++ mkSaver (sv_path sv) (sv_work sv) ph' :: map jb_save j2) by (unfold svs; cbn [se_jobs]; rewrite map_app; reflexivity).
    assert (Hsv : In sv (svs w)) by (rewrite Em; apply in_mid2; left; reflexivity).
    rewrite En. rewrite Em in J1, J2. destruct (going sv) eqn:G.
    + split.
      * rewrite filter_app in J1 |- *. cbn [filter] in J1 |- *. rewrite G in J1. unfold going at 2 in J1. unfold going at 2. cbn [sv_work].
        unfold going in G. rewrite G.
        apply (jwinv_step o lz4_compress split_at nprocs np split_small (se_fs y) fast (se_fs w)); [exact J1|].
        eapply save_mono; [|exact Ss]. intros i s ->. unfold split_at. destruct (beq (sv_path sv) p).
        -- apply ML. exists w. split; [right; exact Hin|reflexivity].
        -- apply MA. exists w. split; [right; apply in_or_app; apply in_app_or in Hin; destruct Hin as [Hin|[->|[]]]; [left; exact Hin|right; left; reflexivity]|reflexivity].
      * intros s Hs' Gs. apply in_mid2 in Hs'. destruct Hs' as [->|Hs'].
        -- unfold going in Gs, G. cbn [sv_work] in Gs. congruence.
        -- apply J2; [apply in_mid2; right; exact Hs'|exact Gs].
    + exfalso. destruct (J2 sv (proj2 (in_mid2 _ _ _ _ _) (or_introl eq_refl)) G) as (ok & Eo). rewrite Eo in Ss. inversion Ss.
Qed.
End Runs.

(** The commands of a run stay the same. *)
Definition label (j : job) : bool * bytes * bytes := (jb_fast j, sv_path (jb_save j), sv_work (jb_save j)).
Lemma hist_labels : forall o nprocs b tr, history o nprocs b tr -> forall x, In x tr -> map label (se_jobs x) = map label (se_jobs b).
Proof.
  intros o nprocs b tr H. induction H as [|t x y H IH Hs]; intros z Hz.
  - destruct Hz as [<-|[]]. reflexivity.
  - destruct Hz as [<-|Hz]; [|apply IH; exact Hz]. rewrite <- (IH x (or_introl eq_refl)).
    destruct Hs as [x now unix L Tm|x en op ch r evs Ca Sp|x j1 fast sv j2 f' ph' E Ss]; try reflexivity.
    cbn [se_jobs]. rewrite E, !map_app. reflexivity.
Qed.
Lemma sent_label : forall persist cmds b k args seed fast path, sent persist cmds b -> nth_error cmds k = Some (args, seed) ->
  saveload persist args = Work false fast path -> nth_error (map label (se_jobs b)) k = Some (fast, path, work_name path seed).
Proof.
  intros persist cmds b k args seed fast path H. unfold sent in H. revert k. induction H as [|c j l l' A F IH]; intros k Hk E; [destruct k; discriminate|].
  destruct k as [|k]; cbn [nth_error map] in *; [|apply IH; assumption]. injection Hk as ->. unfold job_of in A. cbn [fst snd] in A. rewrite E in A. injection A as <-. reflexivity.
Qed.
(** How far the [k]th save is. *)
Definition progress (x : server) (k : nat) : option phase := option_map (fun j => sv_phase (jb_save j)) (nth_error (se_jobs x) k).
(** No save to [p] is running. *)
Definition no_save_to (p : bytes) (x : server) : Prop :=
  forall sv, In sv (svs x) -> sv_path sv = p -> sv_phase sv = POpen \/ exists ok, sv_phase sv = PDone ok.

Lemma progress_job : forall o nprocs b tr x k ph fast path w, history o nprocs b tr -> In x tr -> nth_error (map label (se_jobs b)) k = Some (fast, path, w) ->
  progress x k = Some ph -> nth_error (svs x) k = Some (mkSaver path w ph).
Proof.
  intros o nprocs b tr x k ph fast path w H Hx L P. rewrite <- (hist_labels _ _ _ _ H x Hx) in L. unfold progress in P. unfold svs.
  rewrite nth_error_map in L. rewrite nth_error_map. destruct (nth_error (se_jobs x) k) as [[fa [a c d]]|]; [|discriminate].
  cbn [option_map label jb_fast jb_save sv_path sv_work sv_phase] in *. injection P as <-. unfold label in L. cbn [jb_fast jb_save sv_path sv_work] in L. injection L as <- <- <-. reflexivity.
Qed.

(** A SAVE that was answered with OK. When it began no other save to the same file was running. Then the file is complete, and it has every shard as it
    was at some moment since [y], at which the SAVE had not begun; whatever other clients did meanwhile, and whatever else was saved. *)
Theorem C72_saved : forall o nprocs persist cmds b x t2 y t1 k args seed fast path,
  (0 < nprocs)%nat -> sent persist cmds b -> tidy b -> history o nprocs b (x :: t2 ++ y :: t1) -> small_enough o (moment (x :: t2 ++ y :: t1)) ->
  nth_error cmds k = Some (args, seed) -> saveload persist args = Work false fast path ->
  progress y k = Some POpen -> no_save_to path y -> progress x k = Some (PDone true) ->
  exists d, content (se_fs x) path = Some d /\ whole_file o lz4_compress (moment (x :: t2 ++ [y])) d.
Proof.
  intros o nprocs persist cmds b x t2 y t1 k args seed fast path Np Sn Td H Sm Hk Hw Py Qy Px.
  pose proof (tidy_fresh _ _ _ Sn Td) as Fr. pose proof (sent_label _ _ _ _ _ _ _ _ Sn Hk Hw) as Lb.
  assert (Iy : In y (x :: t2 ++ y :: t1)) by (right; apply in_or_app; right; left; reflexivity).
  pose proof (progress_job _ _ _ _ _ _ _ _ _ _ H Iy Lb Py) as Jy. pose proof (progress_job _ _ _ _ _ _ _ _ _ _ H (or_introl eq_refl) Lb Px) as Jx.
  assert (Sl : small_enough o (moment (x :: t2 ++ [y]))).
  { intros i s d (z & Hz & E) M. apply (Sm i s d); [|exact M]. exists z. split; [|exact E].
    destruct Hz as [<-|Hz]; [left; reflexivity|right]. apply in_or_app. apply in_app_or in Hz. destruct Hz as [Hz|[<-|[]]]; [left; exact Hz|right; left; reflexivity]. }
  pose proof (going_run o nprocs b Np Fr y t1 path Qy _ _ Sl Sm (x :: t2) H (fun i s X => X) (fun i s X => X)) as G. cbn zeta in G. cbn [app hd] in G.
  destruct G as [J _].
  set (sv := mkSaver path (work_name path seed) (PDone true)) in *.
  assert (Hin : In sv (filter (going y) (svs x))).
  { apply filter_In. split; [exact (nth_error_In _ _ Jx)|]. unfold going. apply negb_true_iff. unfold over.
    destruct (existsb _ (svs y)) eqn:X; [|reflexivity]. exfalso. apply existsb_exists in X. destruct X as (s & Hs & E). apply andb_true_iff in E. destruct E as [E1 E2].
    apply beq_eq in E1. cbn [sv sv_work] in E1. apply In_nth_error in Hs. destruct Hs as (m & Hm).
    assert (Nd : NoDup (map sv_work (svs y))).
    { replace (map sv_work (svs y)) with (map sv_work (svs b)); [apply Td|]. pose proof (hist_labels _ _ _ _ H y Iy) as L. unfold svs. rewrite !map_map.
      apply (f_equal (map (fun l => snd l))) in L. rewrite !map_map in L. cbn [label snd] in L. symmetry. exact L. }
    rewrite NoDup_nth_error in Nd. assert (m = k).
    { apply Nd; [rewrite map_length; apply nth_error_Some; congruence|]. rewrite !nth_error_map, Hm, Jy. cbn [option_map sv_work]. congruence. }
    subst m. rewrite Jy in Hm. injection Hm as <-. discriminate E2. }
  destruct (jwi_content _ _ _ _ _ _ J path) as [[_ A]|(d & A & B & _)].
  - intro X. apply in_map_iff in X. destruct X as (a & Ea & Ha). exact (jwi_paths _ _ _ _ _ _ J a sv Ha Hin Ea).
  - specialize (A sv Hin eq_refl). discriminate.
  - exists d. split; [exact A|]. unfold split_at in B. rewrite beq_refl in B. exact B.
Qed.

(** At any moment a file is the old one or complete; it is the old one if all saves to it failed or have not begun. *)
Theorem C72_any_moment : forall o nprocs persist cmds b x t p,
  (0 < nprocs)%nat -> sent persist cmds b -> tidy b -> history o nprocs b (x :: t) -> small_enough o (moment (x :: t)) -> plain_name p ->
  (content (se_fs x) p = content (se_fs b) p \/ exists d, content (se_fs x) p = Some d /\ whole_file o lz4_compress (moment (x :: t)) d) /\
  ((forall sv, In sv (svs x) -> sv_path sv = p -> sv_phase sv = POpen \/ sv_phase sv = PDone false) -> content (se_fs x) p = content (se_fs b) p).
Proof.
  intros o nprocs persist cmds b x t p Np Sn Td H Sm Pl. pose proof (tidy_fresh _ _ _ Sn Td) as Fr.
  pose proof (hist_all o nprocs b Np Fr _ _ Sm H (fun i s X => X)) as J. cbn beta iota in J.
  assert (Nw : ~ In p (map sv_work (svs x))).
  { intro X. apply in_map_iff in X. destruct X as (sv & E & Hsv). apply in_map_iff in Hsv. destruct Hsv as (j & <- & Hj).
    pose proof (hist_labels _ _ _ _ H x (or_introl eq_refl)) as L. apply (in_map label) in Hj. rewrite L in Hj. apply in_map_iff in Hj. destruct Hj as (j0 & Ej & Hj0).
    destruct (sent_job _ _ _ _ Sn Hj0) as (a & s & _ & _ & W & _). unfold label in Ej. injection Ej as _ _ Ew.
    apply (work_not_plain (sv_path (jb_save j0)) s p Pl). congruence. }
  destruct (jwi_content _ _ _ _ _ _ J p Nw) as [[A B]|(d & A & B & sv & S1 & S2 & S3)].
  - split; [left; exact A|intros _; exact A].
  - split; [right; exists d; auto|]. intro F. exfalso. destruct (F sv S1 S2) as [E|E]; rewrite E in S3; discriminate.
Qed.

Lemma hist_good : forall o nprocs b tr, history o nprocs b tr -> reachable (ctx_of o) (se_cache b) -> times_ok (se_now b) (se_unix b) ->
  forall x, In x tr -> shot_ok o (se_shot x).
Proof.
  intros o nprocs b tr H R T. induction H as [|t x y H IH Hs]; intros z Hz.
  - destruct Hz as [<-|[]]. split; assumption.
  - destruct Hz as [<-|Hz]; [|apply IH; exact Hz]. destruct (IH x (or_introl eq_refl)) as [A B]. cbn [se_shot sh_cache sh_now sh_unix] in A, B.
    destruct Hs as [x now unix L Tm|x en op ch r evs Ca Sp|x j1 fast sv j2 f' ph' E Ss]; split; cbn [se_shot sh_cache sh_now sh_unix se_cache se_now se_unix]; try assumption.
    exact (proj1 (made o (se_cache x) en op ch r evs A Ca Sp)).
Qed.

(** What the file of such a SAVE gives to a LOAD of any server that finds it: either the file could not be opened and nothing changes, or load returns 0 and
    every item is as it was at some moment while the SAVE was running. *)
Theorem C72_loaded : forall o o' nprocs nprocs' persist cmds b x t2 y t1 k args seed fast path f' ch1 junk (clocks : Z -> Z -> Prop) (envs : env -> Prop) fast' st ch',
  (0 < nprocs)%nat -> sent persist cmds b -> tidy b -> history o nprocs b (x :: t2 ++ y :: t1) -> small_enough o (moment (x :: t2 ++ y :: t1)) ->
  nth_error cmds k = Some (args, seed) -> saveload persist args = Work false fast path ->
  progress y k = Some POpen -> no_save_to path y -> progress x k = Some (PDone true) ->
  reachable (ctx_of o) (se_cache b) -> times_ok (se_now b) (se_unix b) ->
  (* the LOAD *)
  content f' path = content (se_fs x) path -> reachable (ctx_of o') ch1 -> (forall n, length (junk n) = N.to_nat n) ->
  (forall now unix, clocks now unix -> times_ok now unix) -> (forall en, envs en -> mem_fine en) -> (0 < nprocs')%nat ->
  room_for o' ch1 (fun key => exists z v, In z (x :: t2 ++ [y]) /\ sees (ctx_of o) (se_cache z) key (se_now z) (Some v)) ->
  load_command o' (lz4_decompress junk) clocks envs nprocs' f' ch1 fast' path st ch' ->
  (st <> 0%Z -> ch' = ch1) /\
  (st = 0%Z -> forall key, exists z, In z (x :: t2 ++ [y]) /\
     (sees (ctx_of o) (se_cache z) key (se_now z) None -> same_at (ctx_of o') ch1 ch' key) /\
     (forall v, sees (ctx_of o) (se_cache z) key (se_now z) (Some v) ->
        exists now' unix', clocks now' unix' /\ came_back o' ch1 ch' key v (se_now z) (se_unix z) now' unix')).
Proof.
  intros o o' nprocs nprocs' persist cmds b x t2 y t1 k args seed fast path f' ch1 junk clocks envs fast' st ch' Np Sn Td H Sm Hk Hw Py Qy Px Rb Tb
    Cf R1 J Ck En Np' Rm L.
  destruct (C72_saved o nprocs persist cmds b x t2 y t1 k args seed fast path Np Sn Td H Sm Hk Hw Py Qy Px) as (d & Cd & shots & Ts & Sv).
  destruct L as [|file l Cl Ls Le].
  { split; [reflexivity|]. intro X. discriminate X. }
  rewrite Cf, Cd in Cl. injection Cl as <-.
  assert (Sh : forall i, (i < N.to_nat (c_nshards (ctx_of o)))%nat -> shot_ok o (shots i)).
  { intros i Hi. destruct (Ts i Hi) as (z & Hz & ->). apply (hist_good _ _ _ _ H Rb Tb).
    destruct Hz as [<-|Hz]; [left; reflexivity|right]. apply in_or_app. apply in_app_or in Hz. destruct Hz as [Hz|[<-|[]]]; [left; exact Hz|right; left; reflexivity]. }
  assert (Rl : forall key, (route (ctx_of o) key < N.to_nat (c_nshards (ctx_of o)))%nat) by apply route_small.
  destruct (back_load o o' lz4_compress (lz4_decompress junk) (lz4_ok junk J) shots Sh d Sv ch1 R1 clocks Ck envs En) with (nprocs := if fast' then nprocs' else 1%nat) (x := l)
    as [A _]; [| |exact Ls|].
  - intros m key Hm (v & Hv). apply Rm.
    + intros q Hq. destruct (Hm q Hq) as [X|(w & Hw')]; [left; exact X|right]. destruct (Ts _ (Rl q)) as (z & Hz & E). exists z, w. split; [exact Hz|]. rewrite E in Hw'. exact Hw'.
    + destruct (Ts _ (Rl key)) as (z & Hz & E). exists z, v. split; [exact Hz|]. rewrite E in Hv. exact Hv.
  - destruct fast'; lia.
  - destruct (A Le) as (A1 & A2 & A3). rewrite A1. split; [intro X; contradiction|]. intros _ key. destruct (Ts _ (Rl key)) as (z & Hz & E). exists z. split; [exact Hz|].
    destruct (A3 key) as [B1 B2]. rewrite E in B1, B2. split; [exact B1|exact B2].
Qed.
(** In particular an item without expiry that is there, untouched, while the SAVE is running is there after the LOAD. *)
Theorem C72_kept : forall o o' nprocs nprocs' persist cmds b x t2 y t1 k args seed fast path f' ch1 junk (clocks : Z -> Z -> Prop) (envs : env -> Prop) fast' ch' key v,
  (0 < nprocs)%nat -> sent persist cmds b -> tidy b -> history o nprocs b (x :: t2 ++ y :: t1) -> small_enough o (moment (x :: t2 ++ y :: t1)) ->
  nth_error cmds k = Some (args, seed) -> saveload persist args = Work false fast path ->
  progress y k = Some POpen -> no_save_to path y -> progress x k = Some (PDone true) ->
  reachable (ctx_of o) (se_cache b) -> times_ok (se_now b) (se_unix b) ->
  content f' path = content (se_fs x) path -> reachable (ctx_of o') ch1 -> (forall n, length (junk n) = N.to_nat n) ->
  (forall now unix, clocks now unix -> times_ok now unix) -> (forall en, envs en -> mem_fine en) -> (0 < nprocs')%nat ->
  room_for o' ch1 (fun key => exists z v, In z (x :: t2 ++ [y]) /\ sees (ctx_of o) (se_cache z) key (se_now z) (Some v)) ->
  load_command o' (lz4_decompress junk) clocks envs nprocs' f' ch1 fast' path 0 ch' ->
  (forall z, In z (x :: t2 ++ [y]) -> sees (ctx_of o) (se_cache z) key (se_now z) (Some v)) -> v_exp v = 0%Z ->
  exists tok, holds o' ch' key (mkView (v_val v) 0 (v_flags v) tok).
Proof.
  intros o o' nprocs nprocs' persist cmds b x t2 y t1 k args seed fast path f' ch1 junk clocks envs fast' ch' key v Np Sn Td H Sm Hk Hw Py Qy Px Rb Tb
    Cf R1 J Ck En Np' Rm L Kp Ev.
  destruct (C72_loaded o o' nprocs nprocs' persist cmds b x t2 y t1 k args seed fast path f' ch1 junk clocks envs fast' 0 ch' Np Sn Td H Sm Hk Hw Py Qy Px Rb Tb
    Cf R1 J Ck En Np' Rm L) as [_ A].
  destruct (A eq_refl key) as (z & Hz & _ & B). destruct (B v (Kp z Hz)) as (now' & unix' & _ & Cb).
  destruct Cb as [tok _ K|e tok X _ _ _ _|X _ _|tok X _ _]; try contradiction. exists tok. exact K.
Qed.
(** LOAD is answered with OK only if the file is there and consists of intact blocks. *)
Theorem C72_load_ok : forall o decompress (clocks : Z -> Z -> Prop) (envs : env -> Prop) nprocs f ch fast path ch',
  (forall file, content f path = Some file -> bytes_ok file) ->
  load_command o decompress clocks envs nprocs f ch fast path 0 ch' ->
  exists blocks, content f path = Some (List.concat blocks) /\ Forall intact blocks.
Proof.
  intros o decompress clocks envs nprocs f ch fast path ch' Bo L. inversion L as [|file l Cl Ls Le E1 E2]; subst.
  destruct (C44_intact o decompress clocks envs file (if fast then nprocs else 1%nat) ch (Bo file Cl)) as (bl & rest & Ef & Fi & _ & G).
  destruct (G l Ls) as [A _]. rewrite (A E1), app_nil_r in Ef. exists bl. split; [rewrite Cl, Ef; reflexivity|exact Fi].
Qed.
