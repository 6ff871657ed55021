(** Proofs about the messages of Postgres. *)
From Verif Require Import Base Types Shard Cache Text IntText IntTextProofs CmdTable CmdTableProofs CmdSpec CmdsProofs RespProofs Prog Cmds Http Reply ReplySpec ReplyProofs Postgres PgSpec PgProofs Conn ConnProofs ConnProofs2.
From Coq Require Import String Lia.
Local Open Scope N_scope.
Notation length := List.length.
Notation concat := List.concat.

(** *** Fields *)
Lemma cstr_field : forall s r, no_nul s -> parse_cstr (s ++ 0 :: r) = Some (s, r).
Proof.
  induction s as [|b s IH]; intros r F; [reflexivity|]. inversion F; subst. cbn [app parse_cstr].
  destruct (N.eqb_spec b 0); [congruence|]. rewrite IH by assumption. reflexivity.
Qed.
Lemma bytes_field : forall n s r, length s = n -> parse_bytes n (s ++ r) = Some (s, r).
Proof.
  intros n s r L. unfold parse_bytes. destruct (skipn_firstn_len s r n (eq_sym L)) as [-> ->].
  destruct (Nat.ltb_spec (length (s ++ r)) n) as [X|]; [rewrite app_length in X; lia|reflexivity].
Qed.
Lemma int16_field : forall s r x, big 2 x s -> x < 2 ^ 15 -> parse_int16 (s ++ r) = Some (Z.of_N x, r).
Proof.
  intros s r x (L & B & E) H. unfold parse_int16. rewrite bytes_field by exact L. change (read_be s) with (number_of s). rewrite E.
  unfold signed. change (16 - 1) with 15. destruct (N.ltb_spec x (2 ^ 15)); [reflexivity|lia].
Qed.
Lemma int32_field : forall s r x, big 4 x s -> x < 2 ^ 31 -> parse_int32 (s ++ r) = Some (Z.of_N x, r).
Proof.
  intros s r x (L & B & E) H. unfold parse_int32. rewrite bytes_field by exact L. change (read_be s) with (number_of s). rewrite E.
  rewrite signed_small by exact H. reflexivity.
Qed.
Lemma skip32 : forall types r, Forall (fun t : bytes => length t = 4%nat) types -> skip_int32 (length types) (concat types ++ r) = Some r.
Proof.
  induction types as [|t types IH]; intros r F; [reflexivity|]. inversion F; subst. cbn [length concat skip_int32].
  unfold parse_int32. rewrite <- app_assoc, bytes_field by assumption. apply IH. assumption.
Qed.
Lemma skip16 : forall types r, Forall (fun t : bytes => length t = 2%nat) types -> skip_int16 (length types) (concat types ++ r) = Some r.
Proof.
  induction types as [|t types IH]; intros r F; [reflexivity|]. inversion F; subst. cbn [length concat skip_int16].
  unfold parse_int16. rewrite <- app_assoc, bytes_field by assumption. apply IH. assumption.
Qed.
Lemma formats_field : forall fs r, Forall (fun f => big 2 0 f \/ big 2 1 f) fs -> formats (length fs) (concat fs ++ r) = Some (Some r).
Proof.
  induction fs as [|f fs IH]; intros r F; [reflexivity|]. inversion F as [|? ? Hf Hr]; subst. cbn [length concat formats].
  rewrite <- app_assoc. destruct Hf as [Hf|Hf]; rewrite (int16_field _ _ _ Hf) by (cbn; lia); cbn [Z.of_N Z.eqb orb Pos.eqb]; apply IH; assumption.
Qed.
Lemma params_field : forall params ps r acc, pg_columns params ps -> N.of_nat (length ps) < 2 ^ 31 ->
  bind_params (length params) (ps ++ r) acc = Some (acc ++ params, r).
Proof.
  intros params ps r acc H. revert acc. induction H as [|p l len rest L B E H IH]; intros acc Bd.
  - cbn. rewrite app_nil_r. reflexivity.
  - rewrite !app_length in Bd. cbn [length bind_params]. rewrite <- !app_assoc.
    rewrite (int32_field len _ (N.of_nat (length p))) by (try (repeat split; assumption); lia).
    replace (if (Z.of_N (N.of_nat (length p)) <=? 0)%Z then O else Z.to_nat (Z.of_N (N.of_nat (length p)))) with (length p).
    2: { destruct (Z.leb_spec (Z.of_N (N.of_nat (length p))) 0); lia. }
    rewrite bytes_field by reflexivity. rewrite IH by lia. rewrite <- app_assoc. reflexivity.
Qed.

(** *** Queries *)
Lemma query_skip : forall l q, query_text l q -> exists semi, Forall (fun b => b = 59) semi /\ skip_blanks q = tokens_text l ++ semi.
Proof.
  intros l q (T & sp & semi & B & S & ->). exists semi. split; [exact S|]. apply skip_blanks_app; [exact B|].
  intros ch r E. exact (proj1 (tokens_first _ _ _ _ T S E)).
Qed.
Lemma missing_none : forall params todo i, (forall j, i <= j < i + N.of_nat todo -> In j params) -> missing params todo i = None.
Proof.
  intros params. induction todo as [|t IH]; intros i H; [reflexivity|]. cbn [missing].
  replace (existsb (fun x => x =? i) params) with true.
  2: { symmetry. apply existsb_exists. exists i. split; [apply H; lia|apply N.eqb_refl]. }
  apply IH. intros j Hj. apply H. lia.
Qed.
Lemma query_parse : forall l q, query_text l q -> numbered (param_numbers l) ->
  parse_query q = QOk (map tok_arg l) (tok_types false l) (param_numbers l).
Proof.
  intros l q H Nu. destruct (query_skip _ _ H) as (semi & S & E). destruct H as (T & _). unfold parse_query. rewrite E.
  rewrite loop_tokens by (try assumption; lia). cbn [app].
  rewrite missing_none; [reflexivity|]. destruct Nu as [_ Nu]. intros j Hj. apply Nu. lia.
Qed.

(** *** Execute *)
Lemma param_value : forall n ds (params : list bytes), 0 < n < 65536 -> canonical ds n -> n <= N.of_nat (length params) ->
  match parse_u64 ds with Some x => if (x =? 0) || (65535 <? x) then None else nth_error params (N.to_nat (x - 1)) | None => None end
  = Some (nth (N.to_nat (n - 1)) params []).
Proof.
  intros n ds params B C L.
  assert (P : parse_u64 ds = Some n).
  { rewrite (canonical_unique ds (u64toa n) n C); [apply parse_print_u64; eapply N.lt_trans; [exact (proj2 B)|reflexivity]|].
    apply u64toa_canonical. eapply N.lt_trans; [exact (proj2 B)|reflexivity]. }
  rewrite P. replace (n =? 0) with false by (symmetry; apply N.eqb_neq; lia). replace (65535 <? n) with false by (symmetry; apply N.ltb_ge; lia).
  cbn [orb]. apply nth_error_nth'. lia.
Qed.
Lemma exec_spec : forall l params, tokens l -> (forall n, In n (param_numbers l) -> n <= N.of_nat (length params)) ->
  (forall acc, exec_args (map tok_arg l) (tok_types false l) params acc = Ok (Some (acc ++ map (word_value params) (words l)))) /\
  (forall acc last w ws, words l = w :: ws ->
     exec_args (map tok_arg l) (tok_types true l) params (acc ++ [last]) = Ok (Some (acc ++ [last ++ word_value params w] ++ map (word_value params) ws))).
Proof.
  induction l as [|[[p t] sp] l IH]; intros params T B.
  - split; [intro acc; cbn; rewrite app_nil_r; reflexivity|]. intros acc last w ws H. discriminate.
  - destruct (IH params) as [IH1 IH2].
    { eapply tokens_tail; exact T. }
    { intros n I. apply B. unfold param_numbers in *. cbn [flat_map]. apply in_or_app. right. exact I. }
    assert (V : (if is_param p then match tok_arg (p, t, sp) with
          | d :: digits =>
              if d =? 36 then
                match parse_u64 digits with
                | Some x => if (x =? 0) || (65535 <? x) then None else nth_error params (N.to_nat (x - 1))
                | None => None
                end
              else None
          | [] => None
          end else Some (tok_arg (p, t, sp))) = Some (part_value params p)).
    { assert (PT : part_text p t) by (inversion T; subst; assumption).
      destruct PT as [s ? ?|s ?|e s t0 ? ?|n ds Bn C]; cbn [is_param tok_arg token_part fst snd part_value]; try reflexivity.
      change (bs "$" ++ ds) with (36 :: ds). change (36 =? 36) with true. cbv iota. apply param_value; [exact Bn|exact C|].
      apply B. unfold param_numbers. cbn [flat_map token_part fst]. left. reflexivity. }
    cbn [map tok_types exec_args]. rewrite V.
    assert (Wd : words ((p, t, sp) :: l) = match sp, words l with [], w :: ws => (p :: w) :: ws | _, ws => [p] :: ws end) by reflexivity.
    assert (Go : forall acc last, exec_args (map tok_arg l) (tok_types (is_nil sp) l) params (acc ++ [last ++ part_value params p]) =
      Ok (Some (acc ++ match words ((p, t, sp) :: l) with w :: ws => (last ++ word_value params w) :: map (word_value params) ws | [] => [] end))).
    { intros acc last. rewrite Wd. destruct sp as [|b sp]; cbn [is_nil].
      - destruct (words l) as [|w ws] eqn:W.
        + assert (l = []) by (destruct l as [|[[p2 t2] sp2] l]; [reflexivity|]; cbn [words] in W; destruct sp2; [destruct (words l)|]; discriminate). subst l.
          cbn [map tok_types exec_args]. unfold word_value. cbn [map concat]. rewrite app_nil_r. reflexivity.
        + etransitivity; [exact (IH2 acc (last ++ part_value params p) w ws eq_refl)|]. unfold word_value at 3. cbn [map concat]. rewrite <- app_assoc. reflexivity.
      - etransitivity; [exact (IH1 (acc ++ [last ++ part_value params p]))|]. unfold word_value at 2. cbn [map concat]. rewrite app_nil_r, <- app_assoc. reflexivity. }
    split.
    + intro acc. specialize (Go acc []). etransitivity; [exact Go|].
      assert (Gen : forall W, Ok (Some (acc ++ match W with w :: ws => ([] ++ word_value params w) :: map (word_value params) ws | [] => [] end)) = Ok (Some (acc ++ map (word_value params) W))) by (intros []; reflexivity).
      apply Gen.
    + intros acc last w ws W. rewrite rev_app_distr. cbn [rev app]. rewrite rev_involutive. etransitivity; [exact (Go acc last)|].
      assert (Gen : forall W, W = w :: ws -> Ok (Some (acc ++ match W with w :: ws => (last ++ word_value params w) :: map (word_value params) ws | [] => [] end))
        = Ok (Some (acc ++ [last ++ word_value params w] ++ map (word_value params) ws))) by (intros ? ->; reflexivity).
      apply Gen. exact W.
Qed.

(** *** Sessions *)
Definition stmt_of (l : list token) : stmt := mkStmt (map tok_arg l) (tok_types false l) (length (param_numbers l)).
Definition repr (g : pgst) (s : sess) : Prop :=
  pg_flags g = [] /\ Postgres.pg_ready g = true /\
  (forall name, by_name name (pg_stmts g) = option_map stmt_of (ss_stmts s name)) /\
  (forall name l, ss_stmts s name = Some l -> tokens l /\ numbered (param_numbers l) /\ l <> []) /\
  (forall name, by_name name (pg_portals g) = option_map (fun p => mkPortal (fst p) (snd p)) (ss_portals s name)).
Lemma turn_message : forall cf k tag body s, k_proto k = Some POSTGRES -> tag <> 0 -> pg_message tag body s -> N.of_nat (length body) < 2 ^ 31 - 4 ->
  length s = (5 + length body)%nat /\
  conn_turn cf s k = match pg_do (cf_password cf) tag body (Z.of_nat (length body) + 4) (set_err None (k_pg k)) with
    | Bad t => Bad t
    | Ok PgMore => Ok (Wait (with_pg (set_err None (k_pg k)) k))
    | Ok (PgWrong m g) => turn_of cf (CErr m O (with_pg g k))
    | Ok (PgGot n args g) => turn_of cf (CGot n args (with_pg g k))
    end.
Proof.
  intros cf k tag body s P Nt M B. destruct (message_shape tag body s (k_pg k) (cf_password cf) [] Nt M B) as [L E]. rewrite app_nil_r in E.
  split; [exact L|]. rewrite (turn_by cf POSTGRES) by exact P. cbn [parse_by]. rewrite E.
  destruct (pg_do _ _ _ _ _) as [[| |]|]; reflexivity.
Qed.
Lemma pg_do_step : forall pw t body g x, (4 <= Z.of_nat (length body) + 4)%Z ->
  (t = 81 /\ x = Ok (parseQ body g) \/ t = 80 /\ x = Ok (parseP body g) \/ t = 69 /\ x = parseE body g \/ t = 112 /\ x = Ok (parsep pw body g) \/
   t = 66 /\ x = Ok (parseB body g) \/ t = 83 /\ x = Ok (parseS body g)) ->
  pg_do pw t body (Z.of_nat (length body) + 4) g = match x with
    | Bad t => Bad t
    | Ok (PgFail m) => Ok (PgWrong m g)
    | Ok (PgStep args g') => Ok (PgGot (5 + length body) args g')
    end.
Proof.
  intros pw t body g x L H. unfold pg_do.
  replace (Z.of_nat (length body) + 4 <? 4)%Z with false by (symmetry; apply Z.ltb_ge; lia).
  replace (Z.to_nat (Z.of_nat (length body) + 4 + 1)) with (5 + length body)%nat by lia.
  destruct H as [[-> ->]|[[-> ->]|[[-> ->]|[[-> ->]|[[-> ->]|[-> ->]]]]]]; cbn [N.eqb Pos.eqb];
    try (destruct (parseE body g) as [x|]; [destruct x; reflexivity|reflexivity]);
    match goal with |- context [match ?y with PgFail _ => _ | PgStep _ _ => _ end] => destruct y; reflexivity end.
Qed.
Lemma word_is : forall w name, is_word w name = true <-> map tolower w = bs name.
Proof. intros w name. unfold is_word. apply argeq_lower. Qed.
Lemma precommand_shows : forall args g, args <> [] -> exists ws g' cmd, pg_precommand args g = (ws, g', cmd) /\ shows_answer (ACommand args) ws cmd /\
  exists o, g' = set_oid o g.
Proof.
  intros args g Na. destruct args as [|w args]; [congruence|]. cbn [pg_precommand].
  assert (G0 : exists o, g = set_oid o g) by (exists (pg_oid g); destruct g; reflexivity).
  destruct w as [|c w].
  { exists [], g, (Some ([] :: args)). split; [reflexivity|]. split; [|exact G0]. apply show_command.
    split; [|discriminate]. cbn [In map]. intros [X|[X|[X|[]]]]; discriminate X. }
  destruct (is_word (c :: w) "begin") eqn:E1.
  { apply word_is in E1. do 3 eexists. split; [reflexivity|]. split; [|exact G0]. apply show_block. rewrite E1. left. reflexivity. }
  destruct (is_word (c :: w) "rollback") eqn:E2.
  { apply word_is in E2. do 3 eexists. split; [reflexivity|]. split; [|exact G0]. apply show_block. rewrite E2. right. left. reflexivity. }
  destruct (is_word (c :: w) "commit") eqn:E3.
  { apply word_is in E3. do 3 eexists. split; [reflexivity|]. split; [|exact G0]. apply show_block. rewrite E3. right. right. left. reflexivity. }
  assert (NB : ~ In (map tolower (c :: w)) [bs "begin"; bs "rollback"; bs "commit"]).
  { intros [X|[X|[X|[]]]]; symmetry in X; apply word_is in X; congruence. }
  destruct ((c =? 58) && (nth 1 (c :: w) 0 =? 58)) eqn:Cc.
  - apply andb_true_iff in Cc. destruct Cc as [C1 C2]. apply N.eqb_eq in C1, C2. subst c.
    assert (F2 : firstn 2 (58 :: w) = bs "::"). { destruct w as [|c2 w]; cbn in C2; [discriminate|]. subst c2. reflexivity. }
    destruct (is_word (58 :: w) "::bytea" || is_word (58 :: w) "::bytes") eqn:E4.
    + assert (I : In (map tolower (58 :: w)) [bs "::bytea"; bs "::bytes"]).
      { apply orb_true_iff in E4. destruct E4 as [E4|E4]; apply word_is in E4; rewrite E4; cbn [In]; auto. }
      destruct args as [|a args].
      * do 3 eexists. split; [reflexivity|]. split; [|eexists; reflexivity]. apply show_untyped.
        destruct I as [I|[I|[]]]; rewrite <- I; cbn [In]; auto.
      * do 3 eexists. split; [reflexivity|]. split; [|eexists; reflexivity]. apply show_typed.
        destruct I as [I|[I|[]]]; rewrite <- I; cbn [In]; auto.
    + apply orb_false_iff in E4. destruct E4 as [E4 E5]. destruct (is_word (58 :: w) "::text") eqn:E6.
      * apply word_is in E6. destruct args as [|a args].
        -- do 3 eexists. split; [reflexivity|]. split; [|eexists; reflexivity]. apply show_untyped. rewrite E6. left. reflexivity.
        -- do 3 eexists. split; [reflexivity|]. split; [|eexists; reflexivity]. apply show_typed. rewrite E6. left. reflexivity.
      * do 3 eexists. split; [reflexivity|]. split; [|exact G0]. apply show_badtype; [exact F2|].
        intros [X|[X|[X|[]]]]; symmetry in X; apply word_is in X; congruence.
  - do 3 eexists. split; [reflexivity|]. split; [|exact G0]. apply show_command. split; [exact NB|].
    intro F2. destruct w as [|c2 w]; [discriminate F2|]. apply andb_false_iff in Cc.
    assert (X1 : c = 58) by exact (f_equal (hd 0) F2). assert (X2 : c2 = 58) by exact (f_equal (fun l => hd 0 (tl l)) F2).
    subst. cbn in Cc. destruct Cc; discriminate.
Qed.
Lemma repr_err : forall g s e, repr g s -> repr (set_err e g) s.
Proof. intros g s e (A & B & C & D & E). exact (conj A (conj B (conj C (conj D E)))). Qed.
Lemma repr_oid : forall g s o, repr g s -> repr (set_oid o g) s.
Proof. intros g s o (A & B & C & D & E). exact (conj A (conj B (conj C (conj D E)))). Qed.
Lemma repr_execute : forall g s b, repr g s -> repr (set_execute b g) s.
Proof. intros g s b (A & B & C & D & E). exact (conj A (conj B (conj C (conj D E)))). Qed.
Lemma beq_sym : forall a b, beq a b = beq b a.
Proof.
  intros a b. destruct (beq a b) eqn:E.
  - apply beq_eq in E. subst. symmetry. apply beq_refl.
  - destruct (beq b a) eqn:E2; [|reflexivity]. apply beq_eq in E2. subst. rewrite beq_refl in E. discriminate.
Qed.
Definition turned (cf : config) (t : bytes) (k : conn) (s : sess) (a : pg_answer) : Prop :=
  exists g ws cmd, conn_turn cf t k = Ok (Turn (length t) (with_pg g k) ws cmd) /\ shows_answer a ws cmd /\ repr g s.
Lemma turned_fault : forall cf t k s m n g, k_proto k = Some POSTGRES -> n = length t -> repr g s -> pg_err g = Some m ->
  conn_turn cf t k = turn_of cf (CGot n [] (with_pg g k)) -> turned cf t k s (AError m).
Proof.
  intros cf t k s m n g P -> R E H. cbn [turn_of with_pg k_proto k_pg] in H. rewrite P in H. unfold pg_respond in H. rewrite E in H. cbn in H.
  do 3 eexists. split; [exact H|]. split; [constructor|]. exact R.
Qed.
Lemma turned_command : forall cf t k s args n g, k_proto k = Some POSTGRES -> n = length t -> repr g s -> args <> [] ->
  conn_turn cf t k = turn_of cf (CGot n args (with_pg g k)) -> turned cf t k s (ACommand args).
Proof.
  intros cf t k s args n g P -> R Na H. destruct args as [|a args]; [congruence|].
  cbn [turn_of with_pg k_proto k_pg] in H. rewrite P in H. rewrite (proj1 (proj2 R)) in H. cbn [negb] in H.
  destruct (precommand_shows (a :: args) g Na) as (ws & g' & cmd & E & S & o & ->). rewrite E in H.
  do 3 eexists. split; [exact H|]. split; [exact S|]. apply repr_oid; exact R.
Qed.
Lemma turned_flag : forall cf t k s a ws f n g, k_proto k = Some POSTGRES -> n = length t -> repr g s -> pg_err g = None ->
  shows_answer a ws None ->
  In (f, ws) [(FParse, [WRaw [49; 0; 0; 0; 4]]); (FBind, [WRaw [50; 0; 0; 0; 4]]); (FSync, [PReady]);
    (FEmpty, [WRaw [73; 0; 0; 0; 4]; WRaw [90; 0; 0; 0; 5; 73]])] ->
  conn_turn cf t k = turn_of cf (CGot n [] (with_pg (add_flag f g) k)) -> turned cf t k s a.
Proof.
  intros cf t k s a ws f n g P -> (RA & RB & RC & RD & RE) E0 Sh I H. cbn [turn_of with_pg k_proto k_pg] in H. rewrite P in H.
  destruct g; cbn in RA, RB, RC, RD, RE, E0; subst.
  destruct I as [I|[I|[I|[I|[]]]]]; injection I as <- <-; cbn in H; (do 3 eexists; split; [exact H|]; split; [exact Sh|]);
    (split; [reflexivity|]; exact (conj eq_refl (conj RC (conj RD RE)))).
Qed.
Lemma query_values : forall l, param_numbers l = [] -> map tok_arg l = map (fun k => part_value [] (token_part k)) l.
Proof.
  induction l as [|[[p t] sp] l IH]; intro H; [reflexivity|]. unfold param_numbers in H. cbn [flat_map token_part fst] in H.
  cbn [map]. f_equal.
  - destruct p; try reflexivity. discriminate H.
  - apply IH. destruct p; try exact H. discriminate H.
Qed.
Lemma turn_session : forall cf k s m t, k_proto k = Some POSTGRES -> repr (k_pg k) s -> cmsg_text m t ->
  turned cf t k (fst (sess_step s m)) (snd (sess_step s m)).
Proof.
  intros cf k s m t P R M. pose proof (repr_err _ _ None R) as R0. set (g0 := set_err None (k_pg k)) in *.
  assert (E0 : pg_err g0 = None) by reflexivity.
  destruct R as (_ & _ & _ & _ & _). destruct m as [name l|portal name params|portal|l|]; cbn [cmsg_text sess_step fst snd] in *.
  - destruct M as (q & Q & Nu & Nl & cnt & types & body & Nq & (Nn & Ln) & (Lc & Bc & Vc) & Ft & Eb & Bb & Ms).
    assert (B31 : N.of_nat (length body) < 2 ^ 31 - 4) by (change (2 ^ 31 - 4) with 2147483644; change (2 ^ 30) with 1073741824 in Bb; lia).
    destruct (turn_message cf k 80 body t P ltac:(discriminate) Ms B31) as [L T].
    rewrite (pg_do_step _ 80 body _ (Ok (parseP body g0))) in T by (try lia; auto 8).
    assert (X : parseP body g0 = PgStep [] (add_flag FParse (set_stmts ((name, stmt_of l) :: pg_stmts g0) g0))).
    { unfold parseP. rewrite Eb. cbn [app]. rewrite cstr_field by exact Nn. cbn [field]. rewrite cstr_field by exact Nq. cbn [field].
      rewrite bytes_field by exact Lc. cbn [field]. change (read_be cnt) with (number_of cnt). rewrite Vc, Nat2N.id.
      rewrite <- (app_nil_r (concat types)), skip32 by exact Ft. cbn [at_end].
      destruct (Nat.leb_spec PGNAMEDATALEN (length name)) as [X|]; [unfold PGNAMEDATALEN in X; lia|].
      rewrite (query_parse _ _ Q Nu). reflexivity. }
    rewrite X in T. eapply turned_flag; [exact P|symmetry; exact L| | |apply show_parsed|left; reflexivity|exact T]; [|exact E0].
    destruct R0 as (RA & RB & RC & RD & RE). split; [exact RA|]. split; [exact RB|]. split; [|split; [|exact RE]].
    + intro x. cbn [set_stmts pg_stmts ss_stmts by_name]. unfold keep. rewrite (beq_sym x name). destruct (beq name x); [reflexivity|apply RC].
    + intros x l' H. cbn [ss_stmts] in H. unfold keep in H. destruct (beq x name); [|exact (RD x l' H)].
      injection H as <-. split; [exact (proj1 Q)|auto].
  - destruct M as (nf & fs & np & ps & nr & rs & body & (Np & Lp) & (Nn & Ln) & Bnf & Lfs & Ffs & (Lnp & Bnp & Vnp) & Ps & (Lnr & Bnr & Vnr) & Frs & Eb & Bb & Ms).
    assert (B31 : N.of_nat (length body) < 2 ^ 31 - 4) by (change (2 ^ 31 - 4) with 2147483644; change (2 ^ 30) with 1073741824 in Bb; lia).
    destruct (turn_message cf k 66 body t P ltac:(discriminate) Ms B31) as [L T].
    rewrite (pg_do_step _ 66 body _ (Ok (parseB body g0))) in T by (try lia; auto 8).
    assert (Lps : N.of_nat (length ps) < 2 ^ 31).
    { assert ((length ps <= length body)%nat) by (rewrite Eb; rewrite !app_length; lia). change (2 ^ 31) with 2147483648. change (2 ^ 30) with 1073741824 in Bb. lia. }
    assert (X : parseB body g0 = PgStep [] (add_flag FBind (set_portals ((portal, mkPortal name params) :: pg_portals g0) g0))).
    { unfold parseB. rewrite Eb. cbn [app]. rewrite cstr_field by exact Np. cbn [field]. rewrite cstr_field by exact Nn. cbn [field].
      rewrite (int16_field _ _ _ Bnf Lfs). cbn [field]. replace (Z.to_nat (Z.of_N (N.of_nat (length fs)))) with (length fs) by lia.
      rewrite formats_field by exact Ffs. rewrite bytes_field by exact Lnp. cbn [field]. change (read_be np) with (number_of np). rewrite Vnp, Nat2N.id.
      rewrite (params_field _ _ _ _ Ps Lps). cbn [field app]. rewrite bytes_field by exact Lnr. cbn [field]. change (read_be nr) with (number_of nr). rewrite Vnr, Nat2N.id.
      rewrite <- (app_nil_r (concat rs)), skip16 by exact Frs. cbn [at_end].
      destruct (Nat.leb_spec PGNAMEDATALEN (length portal)) as [X|]; [unfold PGNAMEDATALEN in X; lia|].
      destruct (Nat.leb_spec PGNAMEDATALEN (length name)) as [X|]; [unfold PGNAMEDATALEN in X; lia|]. reflexivity. }
    rewrite X in T. eapply turned_flag; [exact P|symmetry; exact L| | |apply show_bound|right; left; reflexivity|exact T]; [|exact E0].
    destruct R0 as (RA & RB & RC & RD & RE). split; [exact RA|]. split; [exact RB|]. split; [exact RC|]. split; [exact RD|].
    intro x. cbn [set_portals pg_portals ss_portals by_name]. unfold keep. rewrite (beq_sym x portal). destruct (beq portal x); [reflexivity|apply RE].
  - destruct M as (rows & (Np & Lp) & Lr & Ms).
    assert (B31 : N.of_nat (length (portal ++ [0] ++ rows)) < 2 ^ 31 - 4).
    { rewrite !app_length. cbn [length]. change (2 ^ 31 - 4) with 2147483644. lia. }
    destruct (turn_message cf k 69 _ t P ltac:(discriminate) Ms B31) as [L T].
    rewrite (pg_do_step _ 69 _ _ (parseE (portal ++ [0] ++ rows) g0)) in T by (try lia; auto 8).
    unfold parseE in T. cbn [app] in T. rewrite cstr_field in T by exact Np.
    assert (P32 : exists z, parse_int32 rows = Some (z, [])).
    { unfold parse_int32. rewrite <- (app_nil_r rows), bytes_field by exact Lr. eauto. }
    destruct P32 as [z P32]. rewrite P32 in T.
    pose proof R0 as (RA & RB & RC & RD & RE). rewrite RE in T.
    destruct (ss_portals s portal) as [[name params]|] eqn:Sp; cbn [option_map fst snd p_stmt p_params] in T.
    2: { unfold pg_fault in T. eapply turned_fault; [exact P|symmetry; exact L| | |exact T]; [apply repr_err; exact R0|reflexivity]. }
    rewrite RC in T. destruct (ss_stmts s name) as [l|] eqn:Ss; cbn [option_map] in T.
    2: { unfold pg_fault in T. eapply turned_fault; [exact P|symmetry; exact L| | |exact T]; [apply repr_err; exact R0|reflexivity]. }
    change (s_nparams (stmt_of l)) with (length (param_numbers l)) in T. rewrite (Nat.eqb_sym (length (param_numbers l))) in T. ns.
    destruct (Nat.eqb_spec (length params) (length (param_numbers l))) as [El|]; cbn [negb] in T.
    2: { unfold pg_fault in T. eapply turned_fault; [exact P|symmetry; exact L| | |exact T]; [apply repr_err; exact R0|reflexivity]. }
    destruct (RD name l Ss) as (Tl & (_ & Nu) & Nl).
    change (s_args (stmt_of l)) with (map tok_arg l) in T. change (s_types (stmt_of l)) with (tok_types false l) in T.
    assert (Ex : exec_args (map tok_arg l) (tok_types false l) params [] = Ok (Some (map (word_value params) (words l)))).
    { apply (exec_spec l params Tl). intros n I. apply Nu in I. ns. rewrite El. lia. }
    ns. rewrite Ex in T.
    eapply turned_command; [exact P|symmetry; exact L| | |exact T]; [apply repr_execute; exact R0|].
    destruct l as [|[[p1 t1] sp1] l]; [congruence|]. cbn [words]. destruct sp1; [destruct (words l)|]; discriminate.
  - destruct M as (q & Q & Nu & Nq & Lq & Ms).
    assert (B31 : N.of_nat (length (q ++ [0])) < 2 ^ 31 - 4).
    { rewrite app_length. cbn [length]. change (2 ^ 31 - 4) with 2147483644. change (2 ^ 30) with 1073741824 in Lq. lia. }
    destruct (turn_message cf k 81 _ t P ltac:(discriminate) Ms B31) as [L T].
    rewrite (pg_do_step _ 81 _ _ (Ok (parseQ (q ++ [0]) g0))) in T by (try lia; auto 8).
    unfold parseQ in T. rewrite cstr_field in T by exact Nq. cbn [field at_end] in T. rewrite (query_parse _ _ Q Nu) in T.
    destruct (param_numbers l) as [|n ns'] eqn:Pn.
    2: { unfold pg_fault in T. eapply turned_fault; [exact P|symmetry; exact L| | |exact T]; [apply repr_err; exact R0|reflexivity]. }
    rewrite (query_values _ Pn) in T. destruct l as [|tk l].
    + cbn [map] in T. eapply turned_flag; [exact P|symmetry; exact L|exact R0|exact E0|apply show_empty|right; right; right; left; reflexivity|exact T].
    + eapply turned_command; [exact P|symmetry; exact L|exact R0| |exact T]. discriminate.
  - assert (B31 : N.of_nat (length (@nil N)) < 2 ^ 31 - 4) by reflexivity.
    destruct (turn_message cf k 83 _ t P ltac:(discriminate) M B31) as [L T].
    rewrite (pg_do_step _ 83 _ _ (Ok (parseS [] g0))) in T by (try (cbn; lia); auto 8).
    unfold parseS in T. cbn [at_end] in T.
    eapply turned_flag; [exact P|symmetry; exact L|exact R0|exact E0|apply show_ready|right; right; left; reflexivity|exact T].
Qed.
