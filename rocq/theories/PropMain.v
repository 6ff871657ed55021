(** C62: the program options mean what they say, with two exceptions. *)
From Verif Require Import Base Types Clamp Entry EntryProofs Hash Map MapProofs MapInv Shard
  Spec Trace ShardProofs ScanProofs LoopProofs Cache Refine Reach Observe PropCache PropItems Small EvictProofs.
From Verif Require Import PropCache PropMemory Text IntText Main.
From Coq Require Import String Lia.
Local Open Scope N_scope.
Notation length := List.length.

(** ** What a user may write, for the statements *)
(** The options, from the help text and the hidden ones. *)
Definition longs : list (string * var) :=
  [("port", VPort); ("threads", VThreads); ("shards", VShards); ("backlog", VBacklog); ("queuesize", VQueue);
   ("maxmemory", VMaxmem); ("evict", VEvict); ("reuseport", VReuse); ("uring", VUring); ("tcpnodelay", VNodelay);
   ("keepalive", VKeepalive); ("quickack", VQuickack); ("trackallocs", VTrack); ("cas", VCas); ("maxconns", VMaxconns);
   ("loadfactor", VLoad); ("sixpack", VSixpack); ("seed", VSeed); ("auth", VAuth); ("persist", VPersist);
   ("noticker", VNoticker); ("autosweep", VSweep); ("warmup", VWarmup); ("allocator", VAlloc); ("tlsport", VTlsport);
   ("tlscert", VTlscert); ("tlscacert", VTlsca); ("tlskey", VTlskey)]%string.
Definition shorts : list (string * var) := [("-p", VPort); ("-h", VHost); ("-s", VSock); ("-t", VThreads); ("-m", VMemmb)]%string.
Definition alone : list (string * (var * string)) :=
  [("-v", (VVerb, "1")); ("-vv", (VVerb, "2")); ("-vvv", (VVerb, "3")); ("-M", (VEvict, "no"))]%string.
(** One option as it is written: a short one with its value, a long one with its value after it or after an equals sign, one alone. *)
Inductive item := IShort (name : string) (v : var) (x : bytes) | ILong (name : string) (v : var) (x : bytes)
  | IEq (name : string) (v : var) (x : bytes) | IAlone (name : string) (v : var) (x : string).
Definition item_ok (i : item) : Prop :=
  match i with
  | IShort n v _ => In (n, v) shorts | ILong n v _ | IEq n v _ => In (n, v) longs | IAlone n v x => In (n, (v, x)) alone
  end.
Definition words (i : item) : list bytes :=
  match i with
  | IShort n _ x => [bs n; x] | ILong n _ x => [bs "--" ++ bs n; x] | IEq n _ x => [bs "--" ++ bs n ++ bs "=" ++ x] | IAlone n _ _ => [bs n]
  end.
Definition sets (i : item) : var * bytes :=
  match i with IShort _ v x | ILong _ v x | IEq _ v x => (v, x) | IAlone _ v x => (v, bs x) end.
(** The value of the last item for a variable. *)
Fixpoint last_for (v : var) (items : list item) : option bytes :=
  match items with
  | [] => None
  | i :: r => match last_for v r with Some x => Some x | None => if var_eqb v (fst (sets i)) then Some (snd (sets i)) else None end
  end.

(** ** Proofs about the words *)
Lemma var_eqb_eq : forall a b, var_eqb a b = true -> a = b.
Proof. intros [] []; intro H; try discriminate H; reflexivity. Qed.
Lemma after_app : forall p s, after p (p ++ s) = Some s.
Proof. induction p as [|a p IH]; intro s; [reflexivity|]. cbn. rewrite N.eqb_refl. apply IH. Qed.
Lemma after_some : forall p s x, after p s = Some x -> s = p ++ x.
Proof.
  induction p as [|a p IH]; intros s x H; cbn in H; [injection H as ->; reflexivity|].
  destruct s as [|b s]; [discriminate|]. destruct (N.eqb_spec a b) as [-> | _]; [|discriminate]. rewrite (IH s x H). reflexivity.
Qed.
Ltac each H := repeat (destruct H as [H | H]; [injection H as <- <-|]); [..|destruct H].
Lemma find_short : forall n v, In (n, v) shorts -> find_flag flags (bs n) = Some (HNext v) /\ beq (bs n) (bs "--help") = false /\ beq (bs n) (bs "--version") = false.
Proof. intros n v H. unfold shorts in H. cbn [In] in H. each H; vm_compute; auto. Qed.
Lemma find_alone : forall n v x, In (n, (v, x)) alone -> find_flag flags (bs n) = Some (HSet v (bs x)) /\ beq (bs n) (bs "--help") = false /\ beq (bs n) (bs "--version") = false.
Proof.
  intros n v x H. unfold alone in H. cbn [In] in H. repeat (destruct H as [H | H]; [injection H as <- <- <-; vm_compute; auto|]). destruct H.
Qed.
Lemma find_long : forall n v, In (n, v) longs -> find_flag flags (bs "--" ++ bs n) = Some (HNext v) /\
  beq (bs "--" ++ bs n) (bs "--help") = false /\ beq (bs "--" ++ bs n) (bs "--version") = false.
Proof. intros n v H. unfold longs in H. cbn [In] in H. each H; vm_compute; auto. Qed.
Lemma find_eq : forall n v x, In (n, v) longs -> find_flag flags (bs "--" ++ bs n ++ bs "=" ++ x) = Some (HSet v x) /\
  beq (bs "--" ++ bs n ++ bs "=" ++ x) (bs "--help") = false /\ beq (bs "--" ++ bs n ++ bs "=" ++ x) (bs "--version") = false.
Proof. intros n v x H. unfold longs in H. cbn [In] in H. each H; vm_compute; auto. Qed.

(** The words of one item. *)
Lemma parse_item : forall dry i rest st, item_ok i ->
  parse_flags dry (words i ++ rest) st = parse_flags dry rest (if dry then st else assign st (fst (sets i)) (snd (sets i))).
Proof.
  intros dry i rest st H. destruct i as [n v x|n v x|n v x|n v x]; cbn [words app item_ok sets fst snd parse_flags] in *.
  - destruct (find_short n v H) as (A & B & C). rewrite B, C, A. reflexivity.
  - destruct (find_long n v H) as (A & B & C). rewrite B, C, A. reflexivity.
  - destruct (find_eq n v x H) as (A & B & C). rewrite B, C, A. reflexivity.
  - destruct (find_alone n v x H) as (A & B & C). rewrite B, C, A. reflexivity.
Qed.
Definition overlay (items : list item) (st : settings) (v : var) : option bytes :=
  match last_for v items with Some x => Some x | None => st v end.
Lemma parse_items : forall items st rest, Forall item_ok items ->
  exists st', (forall v, st' v = overlay items st v) /\ parse_flags false (flat_map words items ++ rest) st = parse_flags false rest st'.
Proof.
  induction items as [|i items IH]; intros st rest H.
  - exists st. split; [reflexivity|reflexivity].
  - inversion H; subst. cbn [flat_map]. rewrite <- app_assoc, parse_item by assumption.
    destruct (IH (assign st (fst (sets i)) (snd (sets i))) rest) as (st' & A & B); [assumption|]. exists st'. split; [|exact B].
    intro v. rewrite A. unfold overlay. cbn [last_for]. destruct (last_for v items); [reflexivity|]. unfold assign. destruct (var_eqb v (fst (sets i))); reflexivity.
Qed.
Lemma dry_items : forall items st rest, Forall item_ok items -> parse_flags true (flat_map words items ++ rest) st = parse_flags true rest st.
Proof.
  induction items as [|i items IH]; intros st rest H; [reflexivity|]. inversion H; subst. cbn [flat_map]. rewrite <- app_assoc, parse_item by assumption. apply IH. assumption.
Qed.

(** A word that is an option is one of those above. *)
Lemma match_named : forall f a h, In f flags -> match_flag f a = Some h ->
  match h with
  | HNext v => (exists n, a = bs n /\ In (n, v) shorts) \/ (exists n, a = bs "--" ++ bs n /\ In (n, v) longs)
  | HSet v x => (exists n, a = bs "--" ++ bs n ++ bs "=" ++ x /\ In (n, v) longs) \/ (exists n y, a = bs n /\ x = bs y /\ In (n, (v, y)) alone)
  end.
Proof.
  intros f a h I M.
  assert (K : match f with BFLAG n v => In (n, v) shorts | TFLAG n v x => In (n, (v, x)) alone | AFLAG n v => In (n, v) longs end).
  { clear M. unfold flags in I. cbn [In] in I. repeat (destruct I as [<- | I]; [unfold shorts, longs, alone; cbn [In]; auto 40|]). destruct I. }
  clear I. destruct f as [n v|n v y|n v]; cbn [match_flag] in M.
  - destruct (beq a (bs n)) eqn:E; [|discriminate]. apply beq_eq in E. injection M as <-. left. exists n. auto.
  - destruct (beq a (bs n)) eqn:E; [|discriminate]. apply beq_eq in E. injection M as <-. right. exists n, y. auto.
  - destruct (beq a (bs "--" ++ bs n)) eqn:E.
    + apply beq_eq in E. injection M as <-. right. exists n. auto.
    + destruct (after _ a) as [x|] eqn:F; [|discriminate]. injection M as <-. apply after_some in F. left. exists n. split; [|exact K].
      rewrite F, <- !app_assoc. reflexivity.
Qed.
Lemma find_named : forall fs a h, incl fs flags -> find_flag fs a = Some h -> exists f, In f flags /\ match_flag f a = Some h.
Proof.
  induction fs as [|f fs IH]; intros a h I H; [discriminate|]. cbn [find_flag] in H. destruct (match_flag f a) as [h'|] eqn:M.
  - injection H as ->. exists f. split; [apply I; left; reflexivity|exact M].
  - apply IH; [|exact H]. intros x X. apply I. right. exact X.
Qed.
(** How the words end. *)
Inductive ending : list bytes -> option Z -> Prop :=
| end_all : ending [] None
| end_help : forall a rest, a = bs "--help" \/ a = bs "--version" -> ending (a :: rest) (Some 0%Z)
| end_unknown : forall a rest, find_flag flags a = None -> ending (a :: rest) (Some 1%Z)
| end_missing : forall i a x, item_ok i -> words i = [a; x] -> ending [a] (Some 1%Z).
Lemma words_split : forall dry n args st, (length args <= n)%nat ->
  exists items rest e, Forall item_ok items /\ args = flat_map words items ++ rest /\ ending rest e /\
    match e with None => exists st', parse_flags dry args st = Parsed st' | Some c => parse_flags dry args st = PExit c end.
Proof.
  intros dry. induction n as [|n IH]; intros args st L.
  - destruct args; [|cbn in L; lia]. exists [], [], None. split; [constructor|]. split; [reflexivity|]. split; [constructor|]. exists st. reflexivity.
  - destruct args as [|a r].
    { exists [], [], None. split; [constructor|]. split; [reflexivity|]. split; [constructor|]. exists st. reflexivity. }
    cbn [parse_flags]. destruct (beq a (bs "--help")) eqn:E1.
    { apply beq_eq in E1. exists [], (a :: r), (Some 0%Z). split; [constructor|]. split; [reflexivity|]. split; [constructor; auto|reflexivity]. }
    destruct (beq a (bs "--version")) eqn:E2.
    { apply beq_eq in E2. exists [], (a :: r), (Some 0%Z). split; [constructor|]. split; [reflexivity|]. split; [constructor; auto|reflexivity]. }
    destruct (find_flag flags a) as [[v|v x]|] eqn:F.
    + destruct (find_named flags a _ (incl_refl _) F) as (f & I & M). apply match_named in M; [|exact I].
      assert (W : forall x, exists i, item_ok i /\ words i = [a; x]).
      { intro x. destruct M as [(nm & -> & K) | (nm & -> & K)]; [exists (IShort nm v x)|exists (ILong nm v x)]; auto. }
      destruct r as [|x r].
      * destruct (W []) as (i & K & Wi). exists [], [a], (Some 1%Z). split; [constructor|]. split; [reflexivity|]. split; [econstructor; eassumption|reflexivity].
      * destruct (W x) as (i & K & Wi). destruct (IH r (if dry then st else assign st v x)) as (items & rest & e & A & B & C & D); [cbn in L; lia|].
        exists (i :: items), rest, e. split; [constructor; assumption|]. split; [cbn [flat_map]; rewrite Wi, B; reflexivity|]. split; [exact C|exact D].
    + destruct (find_named flags a _ (incl_refl _) F) as (f & I & M). apply match_named in M; [|exact I].
      assert (W : exists i, item_ok i /\ words i = [a]).
      { destruct M as [(nm & -> & K) | (nm & y & -> & -> & K)]; [exists (IEq nm v x)|exists (IAlone nm v y)]; auto. }
      destruct W as (i & K & Wi). destruct (IH r (if dry then st else assign st v x)) as (items & rest & e & A & B & C & D); [cbn in L; lia|].
      exists (i :: items), rest, e. split; [constructor; assumption|]. split; [cbn [flat_map]; rewrite Wi, B; reflexivity|]. split; [exact C|exact D].
    + exists [], (a :: r), (Some 1%Z). split; [constructor|]. split; [reflexivity|]. split; [constructor; exact F|reflexivity].
Qed.

(** Options may be written in any of their forms and in any order; for each the last one counts. *)
Theorem C62_last_counts : forall items, Forall item_ok items ->
  exists st, parse_args (flat_map words items) = Parsed st /\ forall v, st v = last_for v items.
Proof.
  intros items H. unfold parse_args. rewrite <- (app_nil_r (flat_map words items)). rewrite dry_items by exact H. cbn [parse_flags].
  destruct (parse_items items (fun _ => None) [] H) as (st & A & B). exists st. rewrite B. cbn [parse_flags]. split; [reflexivity|].
  intro v. rewrite A. unfold overlay. destruct (last_for v items); reflexivity.
Qed.
(** Anything else ends the program, with status 0 only for --help and --version and with status 1 for a word that is not an
    option and for an option whose value is missing. *)
Theorem C62_else_exit : forall args, exists items rest e, Forall item_ok items /\ args = flat_map words items ++ rest /\ ending rest e /\
  match e with None => exists st, parse_args args = Parsed st | Some c => parse_args args = PExit c end.
Proof.
  intro args. destruct (words_split true (length args) args (fun _ => None) (le_n _)) as (items & rest & e & A & B & C & D).
  exists items, rest, e. split; [exact A|]. split; [exact B|]. split; [exact C|]. unfold parse_args. destruct e as [c|].
  - rewrite D. reflexivity.
  - inversion C; subst rest. rewrite app_nil_r in B. subst args. destruct (C62_last_counts items A) as (st & E & _). exists st. exact E.
Qed.

(** ** What the server gets *)
Definition is_yes_no (s : bytes) (b : bool) : Prop := (s = bs "yes" /\ b = true) \/ (s = bs "no" /\ b = false).
Lemma yes_no_spec : forall s b, yes_no s = Some b -> is_yes_no s b.
Proof.
  intros s b H. unfold yes_no in H. destruct (beq s (bs "yes")) eqn:E; [apply beq_eq in E; injection H as <-; left; auto|].
  destruct (beq s (bs "no")) eqn:F; [apply beq_eq in F; injection H as <-; right; auto|discriminate].
Qed.
Lemma yes_no_of : forall s b, is_yes_no s b -> yes_no s = Some b.
Proof. intros s b [(-> & ->) | (-> & ->)]; reflexivity. Qed.
Definition port_ok (s p : bytes) : Prop :=
  (p = [] /\ (s = [] \/ s = bs "0")) \/ (p = s /\ exists n, parse_u64 s = Some n /\ n < 65536).
Lemma port_of_spec : forall s p, port_of s = Some p -> port_ok s p.
Proof.
  intros s p H. unfold port_of in H. destruct ((match s with [] => true | _ => false end) || beq s (bs "0")) eqn:E.
  - injection H as <-. left. split; [reflexivity|]. apply orb_true_iff in E. destruct E as [E | E]; [left; destruct s; [reflexivity|discriminate]|right; apply beq_eq; exact E].
  - destruct (parse_u64 s) as [n|] eqn:P; [|discriminate]. destruct (N.ltb_spec 65535 n); [discriminate|]. injection H as <-. right. split; [reflexivity|]. exists n. split; [exact P|lia].
Qed.
Lemma atoi_int : forall s, (- 2 ^ 31 <= atoi s < 2 ^ 31)%Z.
Proof.
  intro s. unfold atoi. destruct (signed_num s) as [neg n].
  set (l := if neg then _ else _). pose proof (Z.mod_pos_bound l (2 ^ 32) ltac:(lia)) as B. cbv zeta.
  destruct (Z.ltb_spec (l mod 2 ^ 32) (2 ^ 31)); lia.
Qed.

Lemma ports_case : forall (po tp so : bytes) (m : option (option N)) (f : option N -> config) c,
  match po, tp, so with
  | [], [], [] => SExit 1
  | _, _, _ => match m with None => SExit 1 | Some l => Started (f l) end
  end = Started c -> exists l, c = f l /\ (po <> [] \/ tp <> [] \/ so <> []).
Proof.
  intros po tp so m f c H. destruct po, tp, so; try discriminate; (destruct m as [l|]; [|discriminate]); injection H as <-; exists l;
    (split; [reflexivity|]); (left; discriminate) || (right; left; discriminate) || (right; right; discriminate).
Qed.
(** Every option that is yes or no is refused if it is anything else, and otherwise does what it says; except for autosweep
    (see below). Without a limit on memory there is nothing to evict for. *)
Theorem C62_yes_no : forall uring nprocs seed memlim args c, start uring nprocs seed memlim args = Started c ->
  exists st, parse_args args = Parsed st /\
    is_yes_no (text uring st VReuse) (cf_reuse c) /\ is_yes_no (text uring st VTrack) (cf_track c) /\
    is_yes_no (text uring st VNodelay) (cf_nodelay c) /\ is_yes_no (text uring st VKeepalive) (cf_keepalive c) /\
    is_yes_no (text uring st VCas) (op_usecas (cf_cache c)) /\ is_yes_no (text uring st VQuickack) (cf_quickack c) /\
    is_yes_no (text uring st VSixpack) (cf_sixpack c) /\
    (exists u, is_yes_no (text uring st VUring) u /\ cf_uring c = u && uring) /\
    (exists e, is_yes_no (text uring st VEvict) e /\ (cf_memlimit c <> None -> cf_evict c = e)) /\
    (text uring st VSweep = bs "yes" -> cf_autosweep c = true) /\ (text uring st VSweep = bs "no" -> cf_autosweep c = false).
Proof.
  intros uring nprocs seed memlim args c H. unfold start in H. destruct (parse_args args) as [st|]; [|discriminate]. exists st. split; [reflexivity|].
  destruct (negb _); [discriminate|].
  destruct (yes_no (text uring st VEvict)) as [ev|] eqn:Y1; [|discriminate].
  destruct (yes_no (text uring st VReuse)) as [re|] eqn:Y2; [|discriminate].
  destruct (yes_no (text uring st VTrack)) as [tr|] eqn:Y3; [|discriminate].
  destruct (yes_no (text uring st VNodelay)) as [nd|] eqn:Y4; [|discriminate].
  destruct (yes_no (text uring st VKeepalive)) as [ka|] eqn:Y5; [|discriminate].
  destruct (yes_no (text uring st VCas)) as [ca|] eqn:Y6; [|discriminate].
  destruct (if beq (text uring st VSweep) (bs "yes") then Some true else _) as [sw|] eqn:Y7; [|discriminate].
  destruct (yes_no (text uring st VUring)) as [ur|] eqn:Y8; [|discriminate].
  destruct (yes_no (text uring st VQuickack)) as [qa|] eqn:Y9; [|discriminate].
  destruct (yes_no (text uring st VSixpack)) as [sp|] eqn:Y10; [|discriminate].
  destruct (port_of (text uring st VPort)) as [po|]; [|discriminate]. destruct (port_of (text uring st VTlsport)) as [tp|]; [|discriminate].
  apply ports_case in H. destruct H as (limit & -> & _).
  cbn [cf_reuse cf_track cf_nodelay cf_keepalive cf_cache op_usecas cf_quickack cf_sixpack cf_uring cf_memlimit cf_evict cf_autosweep].
  repeat (split; [apply yes_no_spec; assumption|]).
  split; [exists ur; split; [apply yes_no_spec; assumption|reflexivity]|].
  split; [exists ev; split; [apply yes_no_spec; assumption|destruct limit; congruence]|].
  split; intro E; rewrite E in Y7.
  - change (beq (bs "yes") (bs "yes")) with true in Y7. cbv iota in Y7. congruence.
  - change (beq (bs "no") (bs "yes")) with false in Y7. cbv iota in Y7. destruct (beq (text uring st VCas) _); congruence.
Qed.

(** The numbers that the cache and the network get are within their limits, and are the numbers given when these are. *)
Theorem C62_numbers : forall uring nprocs seed memlim args c, start uring nprocs seed memlim args = Started c ->
  exists st, parse_args args = Parsed st /\
    (let n := atoi (text uring st VShards) in (1 <= op_nshards (cf_cache c) <= 65536)%Z /\
       ((1 <= n <= 65536)%Z -> op_nshards (cf_cache c) = n) /\ ((n <= 0)%Z -> op_nshards (cf_cache c) = 4096%Z)) /\
    (let n := atoi (text uring st VLoad) in (55 <= op_loadfactor (cf_cache c) <= 95)%Z /\
       ((55 <= n <= 95)%Z -> op_loadfactor (cf_cache c) = n)) /\
    (let n := atoi (text uring st VQueue) in (1 <= cf_queue c <= 4096)%Z /\ ((1 <= n <= 4096)%Z -> cf_queue c = n)) /\
    (let n := atoi (text uring st VThreads) in ((0 < n)%Z -> (1 <= cf_threads c <= 4096)%Z) /\
       ((1 <= n <= 4096)%Z -> cf_threads c = n) /\ ((n <= 0)%Z -> cf_threads c = nprocs)) /\
    (let n := atoi (text uring st VMaxconns) in (1 <= cf_maxconns c < 2 ^ 31)%Z /\ ((0 < n)%Z -> cf_maxconns c = n)) /\
    op_seed (cf_cache c) = match st VSeed with Some s => strtoull s | None => seed end /\
    port_ok (text uring st VPort) (cf_port c) /\ port_ok (text uring st VTlsport) (cf_tlsport c) /\
    (cf_port c <> [] \/ cf_tlsport c <> [] \/ cf_sock c <> []).
Proof.
  intros uring nprocs seed memlim args c H. unfold start in H. destruct (parse_args args) as [st|]; [|discriminate]. exists st. split; [reflexivity|].
  destruct (negb _); [discriminate|].
  destruct (yes_no (text uring st VEvict)) as [ev|] eqn:Y1; [|discriminate].
  destruct (yes_no (text uring st VReuse)) as [re|] eqn:Y2; [|discriminate].
  destruct (yes_no (text uring st VTrack)) as [tr|] eqn:Y3; [|discriminate].
  destruct (yes_no (text uring st VNodelay)) as [nd|] eqn:Y4; [|discriminate].
  destruct (yes_no (text uring st VKeepalive)) as [ka|] eqn:Y5; [|discriminate].
  destruct (yes_no (text uring st VCas)) as [ca|] eqn:Y6; [|discriminate].
  destruct (if beq (text uring st VSweep) (bs "yes") then Some true else _) as [sw|] eqn:Y7; [|discriminate].
  destruct (yes_no (text uring st VUring)) as [ur|] eqn:Y8; [|discriminate].
  destruct (yes_no (text uring st VQuickack)) as [qa|] eqn:Y9; [|discriminate].
  destruct (yes_no (text uring st VSixpack)) as [sp|] eqn:Y10; [|discriminate].
  destruct (port_of (text uring st VPort)) as [po|] eqn:P1; [|discriminate]. destruct (port_of (text uring st VTlsport)) as [tp|] eqn:P2; [|discriminate].
  apply port_of_spec in P1, P2.
  apply ports_case in H. destruct H as (limit & -> & NE).
  cbn [cf_cache op_nshards op_loadfactor op_seed cf_queue cf_threads cf_maxconns cf_port cf_tlsport cf_sock]. cbv zeta.
  pose proof (atoi_int (text uring st VMaxconns)) as AM.
  generalize dependent (atoi (text uring st VMaxconns)). intros nm AM.
  generalize (atoi (text uring st VShards)) (atoi (text uring st VLoad)) (atoi (text uring st VQueue)) (atoi (text uring st VThreads)). intros n1 n2 n3 n4.
  split; [destruct (Z.leb_spec n1 0), (Z.ltb_spec 65536 n1); lia|].
  split; [destruct (Z.ltb_spec n2 55), (Z.ltb_spec 95 n2); lia|].
  split; [destruct (Z.ltb_spec n3 1), (Z.ltb_spec 4096 n3); lia|].
  split; [destruct (Z.leb_spec n4 0), (Z.ltb_spec 4096 n4); lia|].
  split; [destruct (Z.leb_spec nm 0); lia|]. auto.
Qed.

(** A command line in which everything is in order starts the server; for autosweep see below. *)
Theorem C62_starts : forall uring nprocs seed memlim args st,
  parse_args args = Parsed st ->
  In (text uring st VAlloc) [bs "mimalloc"; bs "jemalloc"; bs "stock"] ->
  (forall v, In v [VEvict; VReuse; VTrack; VNodelay; VKeepalive; VCas; VUring; VQuickack; VSixpack] -> exists b, is_yes_no (text uring st v) b) ->
  text uring st VSweep = bs "yes" \/ (text uring st VSweep = bs "no" /\ text uring st VCas = bs "no") ->
  (exists p t, port_of (text uring st VPort) = Some p /\ port_of (text uring st VTlsport) = Some t /\ (p <> [] \/ t <> [] \/ text uring st VSock <> [])) ->
  memlim (match st VMemmb with Some mb => mb ++ bs "M" | None => text uring st VMaxmem end) <> None ->
  exists c, start uring nprocs seed memlim args = Started c.
Proof.
  intros uring nprocs seed memlim args st P A Y S (p & t & P1 & P2 & NE) M. unfold start. rewrite P.
  replace (negb _) with false.
  2:{ cbn [In] in A. destruct A as [<- | [<- | [<- | []]]]; reflexivity. }
  destruct (Y VEvict) as (b1 & Y1); [cbn; auto 20|]. destruct (Y VReuse) as (b2 & Y2); [cbn; auto 20|]. destruct (Y VTrack) as (b3 & Y3); [cbn; auto 20|].
  destruct (Y VNodelay) as (b4 & Y4); [cbn; auto 20|]. destruct (Y VKeepalive) as (b5 & Y5); [cbn; auto 20|]. destruct (Y VCas) as (b6 & Y6); [cbn; auto 20|].
  destruct (Y VUring) as (b7 & Y7); [cbn; auto 20|]. destruct (Y VQuickack) as (b8 & Y8); [cbn; auto 20|]. destruct (Y VSixpack) as (b9 & Y9); [cbn; auto 20|].
  apply yes_no_of in Y1, Y2, Y3, Y4, Y5, Y6, Y7, Y8, Y9. rewrite Y1, Y2, Y3, Y4, Y5, Y6, Y7, Y8, Y9, P1, P2.
  assert (Q : exists sw, (if beq (text uring st VSweep) (bs "yes") then Some true else if beq (text uring st VCas) (bs "no") then Some false else None) = Some sw).
  { destruct S as [-> | (-> & ->)]; [exists true|exists false]; reflexivity. }
  destruct Q as (sw & ->). destruct (memlim _) as [lim|]; [|congruence].
  destruct p, t, (text uring st VSock); try (eexists; reflexivity). exfalso. destruct NE as [NE | [NE | NE]]; congruence.
Qed.

(** ** Low memory *)
(** The mode follows the memory in use: on above the limit, off below it, unchanged at the limit; never on without a limit. *)
Theorem C62_low_memory : forall limit l rss,
  let mode l := fold_left (memtick limit) l false in
  (limit = None -> mode l = false) /\
  (forall lim, limit = Some lim -> (lim < rss -> mode (l ++ [rss]) = true) /\ (rss < lim -> mode (l ++ [rss]) = false) /\ (rss = lim -> mode (l ++ [rss]) = mode l)).
Proof.
  intros limit l rss. cbv zeta. split.
  - intros ->. induction l as [|x l IH] using rev_ind; [reflexivity|]. rewrite fold_left_app. cbn [fold_left memtick]. exact IH.
  - intros lim ->. rewrite fold_left_app. cbn [fold_left memtick]. destruct (fold_left _ l false); cbn [negb];
      destruct (N.ltb_spec lim rss), (N.ltb_spec rss lim); split; try split; intros; try reflexivity; try lia.
Qed.

(** ** What fails *)
(** [--autosweep no] is refused together with [--cas yes], and [--autosweep maybe] is taken for no: the second test looks at
    the wrong variable [src/main.c:647]. *)
Theorem C62_autosweep_refuted :
  (forall uring nprocs seed memlim, start uring nprocs seed memlim [bs "--autosweep"; bs "no"; bs "--cas"; bs "yes"] = SExit 1) /\
  (forall nprocs seed memlim lim, memlim (bs "80%") = Some lim -> exists c, start true nprocs seed memlim [bs "--autosweep"; bs "maybe"] = Started c /\ cf_autosweep c = false).
Proof.
  split.
  - intros [] nprocs seed memlim; reflexivity.
  - intros nprocs seed memlim lim M. destruct (start true nprocs seed memlim [bs "--autosweep"; bs "maybe"]) as [c|n] eqn:E; vm_compute in E, M; rewrite M in E;
      [|discriminate]. injection E as <-. eexists. split; reflexivity.
Qed.
(** [--evict no] has no effect on the cache: it is started the same way as without, and in low memory mode storing one key drops another. *)
Theorem C62_evict_no_refuted : forall uring nprocs memlim lim, memlim (bs "80%") = Some (Some lim) -> exists c ch ch' evs it,
  start uring nprocs 0 memlim [bs "--evict"; bs "no"; bs "--cas=yes"; bs "--shards"; bs "1"; bs "--seed"; bs "7"] = Started c /\
  cf_evict c = false /\ memtick (cf_memlimit c) false (lim + 1) = true /\
  reachable (ctx_of (cf_cache c)) ch /\
  call_ok (ctx_of (cf_cache c)) (plenty_env 104) (cabs (ctx_of (cf_cache c)) ch) (Store [97; 100] [4] low_store 0) /\
  step (ctx_of (cf_cache c)) (plenty_env 104) ch (Store [97; 100] [4] low_store 0) = Ok (ch', RStatus INSERTED [], evs) /\
  neighbour (cf_cache c) ch [97; 100] [97; 98] it /\ cabs (ctx_of (cf_cache c)) ch' [97; 98] = None.
Proof.
  intros uring nprocs memlim lim M.
  set (argv := [bs "--evict"; bs "no"; bs "--cas=yes"; bs "--shards"; bs "1"; bs "--seed"; bs "7"]).
  assert (Q : exists c, start uring nprocs 0 memlim argv = Started c /\ cf_evict c = false /\ cf_memlimit c = Some lim /\ cf_cache c = one_opts false).
  { destruct uring; destruct (start _ nprocs 0 memlim argv) as [c|n] eqn:E; vm_compute in E, M; rewrite M in E; try discriminate; injection E as <-;
      eexists; (split; [reflexivity|]); (split; [reflexivity|]); split; reflexivity. }
  destruct C11_case as (ch' & evs & it1 & it2 & R & _ & K & S & _ & _ & Nb & _ & G).
  destruct Q as (c & Sc & Ev & Ml & Ca). exists c, (one_ch false), ch', evs, it2. rewrite Ca, Ml. split; [exact Sc|]. split; [exact Ev|]. split.
  { unfold memtick. cbn [negb]. replace (lim <? lim + 1) with true by lia. reflexivity. }
  auto 10.
Qed.

(** ** Cases *)
Definition case_items : list item :=
  [IShort "-p" VPort (bs "9000"); IEq "evict" VEvict (bs "yes"); ILong "port" VPort (bs "9001"); IAlone "-M" VEvict "no"; IAlone "-vv" VVerb "2";
   ILong "auth" VAuth (bs "--help"); IEq "shards" VShards (bs "70000"); ILong "loadfactor" VLoad (bs " 60x"); IEq "persist" VPersist (bs "a=b")]%string.
Example C62_case : Forall item_ok case_items /\
  last_for VPort case_items = Some (bs "9001") /\ last_for VEvict case_items = Some (bs "no") /\ last_for VAuth case_items = Some (bs "--help") /\
  last_for VPersist case_items = Some (bs "a=b").
Proof. split; [repeat (constructor; [cbn; tauto|]); constructor|vm_compute; auto]. Qed.
Example C62_case_start : match start true 8 5 (fun _ => Some (Some 1000)) (flat_map words case_items) with
  | Started c => op_nshards (cf_cache c) = 65536%Z /\ op_loadfactor (cf_cache c) = 60%Z /\ cf_port c = bs "9001" /\ cf_evict c = false /\ cf_threads c = 8%Z
  | SExit _ => False
  end.
Proof. vm_compute. auto. Qed.
Example C62_case_exit : parse_args [bs "-p"; bs "1"; bs "--port"] = PExit 1 /\ parse_args [bs "--Port"; bs "1"] = PExit 1 /\
  parse_args [bs "-v"; bs "--help"; bs "x"] = PExit 0.
Proof. vm_compute. auto. Qed.

(** The numbers of the options are read as written: in decimal, with a minus sign or without. A number that is too large for the seed counts as the
    largest one. *)
Theorem C62_digits : forall ds x, digits ds -> decimal ds = x ->
  (x < 2 ^ 31 -> atoi ds = Z.of_N x) /\ (x <= 2 ^ 31 -> atoi (bs "-" ++ ds) = (- Z.of_N x)%Z) /\
  strtoull ds = N.min x (2 ^ 64 - 1) /\ (0 < x < 2 ^ 64 -> strtoull (bs "-" ++ ds) = 2 ^ 64 - x).
Proof.
  intros ds x [Ne Fd] Dx.
  assert (A : forall l acc, Forall (fun d => is_digit d = true) l -> lead_num acc l = acc * 10 ^ N.of_nat (length l) + decimal l).
  { induction l as [|d l IH]; intros acc F; cbn [lead_num decimal length].
    - rewrite N.mul_1_r, N.add_0_r. reflexivity.
    - inversion F as [|? ? Hd Hl]; subst. unfold is_digit in Hd. rewrite Hd. rewrite IH by exact Hl. rewrite Nat2N.inj_succ, N.pow_succ_r'. unfold byte in *. generalize (d - 48) (10 ^ N.of_nat (length l)) (decimal l). intros. ring. }
  assert (L : lead_num 0 ds = x) by (rewrite A by exact Fd; rewrite Dx; reflexivity).
  assert (S1 : signed_num ds = (false, x)).
  { destruct ds as [|d r]; [congruence|]. inversion Fd as [|? ? Hd Hl]; subst. unfold is_digit in Hd. apply andb_true_iff in Hd. destruct Hd as [H1 H2]. apply N.leb_le in H1, H2.
    rewrite <- L. assert (K : exists n, d = N.of_nat n /\ (48 <= n <= 57)%nat) by (exists (N.to_nat d); lia). destruct K as (n & -> & K). do 58 (destruct n as [|n]; [try lia; reflexivity|]). lia. }
  assert (S2 : signed_num (bs "-" ++ ds) = (true, x)) by (change (signed_num (bs "-" ++ ds)) with (true, lead_num 0 ds); rewrite L; reflexivity).
  clear L A Dx. unfold atoi, strtoull, INT64_MIN, INT64_MAX, two64. rewrite S1, S2. cbv zeta. split; [|split; [|split]].
  - intro B. rewrite Z.min_r by lia. rewrite Z.mod_small by lia. destruct (Z.ltb_spec (Z.of_N x) (2 ^ 31)); lia.
  - intro B. rewrite Z.max_r by lia. destruct (N.eq_dec x 0) as [-> |P]; [reflexivity|].
    replace ((- Z.of_N x) mod 2 ^ 32)%Z with (2 ^ 32 - Z.of_N x)%Z by (apply (Z.mod_unique _ _ (-1)); lia).
    destruct (Z.ltb_spec (2 ^ 32 - Z.of_N x) (2 ^ 31)); lia.
  - destruct (N.leb_spec (2 ^ 64) x); lia.
  - intro B. destruct (N.leb_spec (2 ^ 64) x); [lia|]. apply N.mod_small. lia.
Qed.
Example C62_case_digits : atoi (bs "-12") = (-12)%Z /\ strtoull (bs "-1") = 18446744073709551615 /\ strtoull (bs "99999999999999999999") = 18446744073709551615.
Proof. vm_compute. auto. Qed.
