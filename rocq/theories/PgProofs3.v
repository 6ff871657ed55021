(** Proofs about trouble on connections. *)
From Verif Require Import Base Types Clamp Entry Hash Map Shard Cache Text IntText CmdTable CmdSpec CmdsProofs Prog Cmds Resp RespSpec RespProofs Memcache McSpec Http HttpSpec HttpProofs Reply ReplySpec ReplyProofs Postgres PgSpec PgProofs PgProofs2 Conn ConnSpec ConnProofs ConnProofs2 ConnProofs3 ConnProofs4 PropHttp.
From Coq Require Import String Lia.
Local Open Scope N_scope.
Notation length := List.length.
Notation concat := List.concat.
Notation map := List.map.

(** The first part of a statement is not joined to anything. *)
Definition starts_free (types : list argtype) : Prop := match types with (_, true) :: _ => False | _ => True end.
Lemma free_app : forall types p join, starts_free types -> (types = [] -> join = false) -> starts_free (types ++ [(p, join)]).
Proof. intros [|[q j] types] p join F H; cbn; [rewrite (H eq_refl); exact I|exact F]. Qed.
Lemma loop_free : forall f p esc join args types params a t q, (types = [] -> join = false) -> starts_free types ->
  query_loop f p esc join args types params = QOk a t q -> starts_free t.
Proof.
  induction f as [|f IH]; intros p esc join args types params a t q J F H; [discriminate|]. cbn [query_loop] in H.
  assert (QE : forall s, query_end s args types params = QOk a t q -> starts_free t).
  { intros s E. unfold query_end in E. destruct (forallb _ s); [|discriminate]. injection E as <- <- <-. exact F. }
  assert (NN : forall (x : argtype), types ++ [x] = [] -> false = true) by (intros x E; destruct types; discriminate E).
  assert (GO : forall rest e j2 ar (x : bool) ps, query_loop f rest e j2 ar (types ++ [(x, join)]) ps = QOk a t q -> starts_free t).
  { intros rest e j2 ar x ps E. eapply IH; [| |exact E]; [intro Z; apply NN in Z; discriminate Z|apply free_app; assumption]. }
  destruct p as [|c r]; [exact (QE [] H)|].
  destruct (c =? 59); [exact (QE _ H)|]. destruct (c =? 34); [discriminate|].
  assert (W : (if is_space c then query_loop f r esc join args types params
            else let '(k, rest) := keyword (c :: r) in
                 query_loop f (skip_blanks rest) esc (joins rest) (args ++ [k]) (types ++ [(false, join)]) params) = QOk a t q -> starts_free t).
  { intro E. destruct (is_space c); [eapply IH; eassumption|]. destruct (keyword (c :: r)) as [k rest]. eapply GO; exact E. }
  destruct (c =? 39). { destruct (simple_string r) as [[[tx e] rest]|]; [|discriminate]. eapply GO; exact H. }
  destruct (c =? 36).
  { destruct (scan_digits r 0) as [v n]. destruct n; [discriminate|]. cbv zeta in H. destruct (_ || _); [discriminate|]. eapply GO; exact H. }
  destruct (_ || _); [|exact (W H)]. destruct r as [|q' r']; [exact (W H)|]. destruct (q' =? 39); [|exact (W H)].
  destruct (escape_string false r') as [[[tx e] rest]|]; [|discriminate]. eapply GO; exact H.
Qed.
Lemma query_free : forall s a t q, parse_query s = QOk a t q -> starts_free t.
Proof.
  intros s a t q H. unfold parse_query in H. destruct (query_loop _ _ _ _ _ _ _) as [|a' t' q'] eqn:E; [discriminate|].
  destruct (missing _ _ _); [discriminate|]. injection H as <- <- <-. eapply loop_free; [| |exact E]; [reflexivity|exact I].
Qed.
Lemma exec_ok : forall args types params acc, acc <> [] \/ starts_free types -> exists r, exec_args args types params acc = Ok r.
Proof.
  induction args as [|a args IH]; intros types params acc H; [eexists; reflexivity|]. destruct types as [|[isp join] types]; [eexists; reflexivity|].
  cbn [exec_args]. destruct (if isp then _ else _) as [v|]; [|eexists; reflexivity]. destruct join.
  - destruct (rev acc) as [|l b] eqn:E.
    + exfalso. destruct H as [H|H]; [|exact H]. apply H. rewrite <- (rev_involutive acc), E. reflexivity.
    + apply IH. left. destruct (rev b); discriminate.
  - apply IH. left. destruct acc; discriminate.
Qed.
Definition sound (g : pgst) : Prop :=
  (has_flag FDescribe g = true -> pg_desc g <> None) /\ (forall name st, In (name, st) (pg_stmts g) -> starts_free (s_types st)).
Lemma by_name_in : forall {A} name (l : list (bytes * A)) a, by_name name l = Some a -> exists n, In (n, a) l.
Proof.
  induction l as [|[n x] l IH]; intros a H; [discriminate|]. cbn [by_name] in H. destruct (beq n name).
  - injection H as <-. exists n. left. reflexivity.
  - destruct (IH a H) as [m I]. exists m. right. exact I.
Qed.
Lemma sound_step : forall g s args g', sound g ->
  parseQ s g = PgStep args g' \/ parseP s g = PgStep args g' \/ parseD s g = PgStep args g' \/ parseB s g = PgStep args g' \/
  parseX s g = PgStep args g' \/ parseE s g = Ok (PgStep args g') \/ parseS s g = PgStep args g' -> sound g'.
Proof.
  intros g s args g' [A B] H. unfold sound, has_flag in *.
  destruct H as [H|[H|[H|[H|[H|[H|H]]]]]].
  - unfold parseQ, field, at_end, pg_fault in H. steps H; injection H as <- <-; exact (conj A B).
  - unfold parseP, field, at_end, pg_fault in H. steps H; injection H as <- <-; try exact (conj A B).
    split; [exact A|]. intros name st [I|I]; [|exact (B _ _ I)]. injection I as <- <-. cbn [s_types]. eapply query_free. eassumption.
  - unfold parseD, field, at_end, pg_fault in H. steps H; injection H as <- <-; try exact (conj A B).
    all: split; [intros _; discriminate|exact B].
  - unfold parseB, field, at_end, pg_fault in H. steps H; injection H as <- <-; exact (conj A B).
  - unfold parseX, field, at_end, pg_fault in H. steps H; injection H as <- <-; exact (conj A B).
  - unfold parseE, field, at_end, pg_fault in H. steps H; injection H as <- <-; exact (conj A B).
  - unfold parseS, field, at_end, pg_fault in H. steps H; injection H as <- <-; exact (conj A B).
Qed.
Lemma execute_ok : forall s g, sound g -> exists r, parseE s g = Ok r.
Proof.
  intros s g [A B]. unfold parseE. destruct (parse_cstr s) as [[pn r1]|]; [|eauto]. destruct (parse_int32 r1) as [[z [|]]|]; eauto.
  destruct (by_name pn (pg_portals g)) as [p|]; [|eauto]. destruct (by_name (p_stmt p) (pg_stmts g)) as [st|] eqn:E; [|eauto].
  destruct (negb _); [eauto|]. destruct (by_name_in _ _ _ E) as [n I].
  destruct (exec_ok (s_args st) (s_types st) (p_params p) [] (or_intror (B _ _ I))) as [[r|] ->]; eauto.
Qed.
Lemma signed_short : forall len, length len = 4%nat -> bytes_ok len -> (-1 <= signed 32 (read_be len) < 4)%Z -> number_of len < 4 \/ number_of len = 2 ^ 32 - 1.
Proof.
  intros len L B H. change (read_be len) with (number_of len) in H. pose proof (number_of_small len B) as U. rewrite L in U.
  assert (E1 : 256 ^ N.of_nat 4 = 4294967296) by reflexivity. assert (E2 : 2 ^ (32 - 1) = 2147483648) by reflexivity.
  assert (E3 : 2 ^ 32 - 1 = 4294967295) by reflexivity. assert (E4 : 2 ^ 32 = 4294967296) by reflexivity.
  rewrite E1 in U. rewrite E3. unfold signed in H. rewrite E2, ?E4 in H. clear E1 E2 E3 E4.
  destruct (N.ltb_spec (number_of len) 2147483648); [left; lia|right; lia].
Qed.
Lemma pg_sound : forall pw data g, sound g -> bytes_ok data ->
  match parse_postgres pw data g with
  | Bad _ => short_length data
  | Ok PgMore => True
  | Ok (PgWrong _ g') | Ok (PgGot _ _ g') => sound g'
  end.
Proof.
  intros pw data g S0 Bd. unfold parse_postgres. assert (S1 : sound (set_err None g)) by exact S0. revert S1. generalize (set_err None g). clear g S0. intros g S.
  destruct data as [|b data]; [exact I|]. destruct (N.eqb_spec b 0) as [->|Nb].
  - destruct (parse_magic (0 :: data) g) as [|m g'|n args g'] eqn:H; [exact I| |]; unfold parse_magic in H; steps H; injection H as <- <- <- || injection H as <- <-; exact S.
  - rewrite parse_message_do. destruct (Nat.ltb_spec (length (b :: data)) 5) as [|L5]; [exact I|]. cbv zeta.
    set (m := signed 32 (read_be (firstn 4 data))) in *.
    destruct (Z.ltb_spec m (-1)) as [|M1]; [exact I|]. cbn [orb]. destruct (Z.ltb_spec (Z.of_nat (length (b :: data))) (m + 1)); [exact I|].
    unfold pg_do. set (body := firstn (Z.to_nat (m - 4)) (skipn 4 data)) in *.
    inversion Bd as [|? ? Bb Bd']; subst. destruct (Z.ltb_spec m 4) as [M4|M4].
    { assert (Sh : short_length (b :: data)).
      { exists b, (firstn 4 data), (skipn 4 data). split; [rewrite firstn_skipn; reflexivity|]. cbn [length] in L5.
        assert (L4 : length (firstn 4 data) = 4%nat) by (rewrite firstn_length; lia). split; [exact L4|]. apply signed_short; [exact L4| |unfold m in M1, M4; lia].
        apply Forall_forall. intros x Ix. rewrite <- (firstn_skipn 4 data) in Bd'. apply Forall_app in Bd'. destruct Bd' as [Bf _]. rewrite Forall_forall in Bf. exact (Bf x Ix). }
      destruct (execute_ok body g S) as [r ->].
      repeat (match goal with |- context [if ?x then _ else _] => destruct x end; try exact Sh; try exact I; try exact S). }
    destruct (b =? 81). { destruct (parseQ body g) eqn:E; [exact S|eapply sound_step; eauto 8]. }
    destruct (b =? 80). { destruct (parseP body g) eqn:E; [exact S|eapply sound_step; eauto 8]. }
    destruct (b =? 88). { destruct (parseX body g) eqn:E; [exact S|eapply sound_step; eauto 8]. }
    destruct (b =? 69). { destruct (execute_ok body g S) as [r E]. rewrite E. destruct r; [exact S|eapply sound_step; eauto 8]. }
    destruct (b =? 112). { destruct (parsep pw body g) eqn:E; [exact S|]. unfold parsep, field, at_end in E. steps E. injection E as <- <-. exact S. }
    destruct (b =? 68). { destruct (parseD body g) eqn:E; [exact S|eapply sound_step; eauto 8]. }
    destruct (b =? 66). { destruct (parseB body g) eqn:E; [exact S|eapply sound_step; eauto 8]. }
    destruct (b =? 83). { destruct (parseS body g) eqn:E; [exact S|eapply sound_step; eauto 8]. }
    destruct (m =? -1)%Z; [exact I|]. destruct (m =? 3)%Z; exact S.
Qed.
Lemma respond_sound : forall pw v tls g, sound g -> exists r, pg_respond pw v tls g = Ok r /\ sound (r_pg r).
Proof.
  intros pw v tls g [A B]. unfold pg_respond.
  assert (D : forall f, f <> FDescribe -> sound (del_flag f g)).
  { intros f Nf. split; [|exact B]. intro H. apply A. unfold has_flag, del_flag in *. cbn [pg_flags set_flags] in H. clear A B.
    induction (pg_flags g) as [|x l IH]; [exact H|]. cbn [List.filter] in H. cbn [existsb]. destruct (flag_eq f x); cbn [negb] in H.
    - rewrite (IH H). apply orb_true_r.
    - cbn [existsb] in H. apply orb_true_iff in H. destruct H as [H|H]; [rewrite H; reflexivity|rewrite (IH H); apply orb_true_r]. }
  destruct (pg_err g); [eexists; split; [reflexivity|exact (conj A B)]|].
  destruct (has_flag FEmpty g); [eexists; split; [reflexivity|apply D; discriminate]|].
  destruct (has_flag FParse g); [eexists; split; [reflexivity|apply D; discriminate]|].
  destruct (has_flag FBind g); [eexists; split; [reflexivity|apply D; discriminate]|].
  destruct (has_flag FDescribe g) eqn:Fd.
  { destruct (pg_desc g) eqn:Ed; [|destruct (A eq_refl eq_refl)]. eexists. split; [reflexivity|]. split; [|exact B]. intro H. exfalso.
    unfold has_flag, del_flag in H. cbn [pg_flags set_flags set_desc r_pg] in H. clear -H. induction (pg_flags g) as [|x l IH]; [discriminate|].
    cbn [List.filter] in H. destruct x; cbn in H; auto. }
  destruct (has_flag FSync g). { eexists. split; [reflexivity|]. destruct (D FSync ltac:(discriminate)) as [D1 D2]. split; [exact D1|exact D2]. }
  destruct (has_flag FClose g); [eexists; split; [reflexivity|apply D; discriminate]|].
  destruct (has_flag FSsl g); [eexists; split; [reflexivity|apply D; discriminate]|].
  destruct (has_flag FAuth g).
  { destruct (negb (pg_startup g)); [eexists; split; [reflexivity|split; [intro Q; exfalso; change (has_flag FDescribe g = true) in Q; congruence|exact B]]|].
    eexists. split; [reflexivity|]. destruct (D FAuth ltac:(discriminate)) as [D1 D2]. split; [exact D1|exact D2]. }
  destruct (pg_startup g).
  - destruct (cstr pw); eexists; (split; [reflexivity|]); (split; [intro Q; exfalso; change (has_flag FDescribe g = true) in Q; congruence|exact B]).
  - eexists; split; [reflexivity|]. split; [intro Q; exfalso; change (has_flag FDescribe g = true) in Q; congruence|exact B].
Qed.
Lemma turn_sound : forall cf data k, sound (k_pg k) -> bytes_ok data ->
  match conn_turn cf data k with
  | Bad t => parse_resp data = Bad t \/ parse_memcache data = Bad t \/ short_length data
  | Ok t => sound (k_pg (turn_conn t))
  end.
Proof.
  intros cf data k S Bd. rewrite conn_turn_of.
  assert (P : match parse_command cf data k with
    | Bad t => parse_resp data = Bad t \/ parse_memcache data = Bad t \/ short_length data
    | Ok x => sound (k_pg (conn_of x)) /\ (k_proto (conn_of x) = Some HTTP -> forall n k1, x <> CGot n [] k1)
    end).
  { assert (By : forall p k0, sound (k_pg k0) -> k_proto k0 = Some p -> match parse_by cf p data k0 with
    | Bad t => parse_resp data = Bad t \/ parse_memcache data = Bad t \/ short_length data
    | Ok x => sound (k_pg (conn_of x)) /\ (k_proto (conn_of x) = Some HTTP -> forall n k1, x <> CGot n [] k1)
    end).
    { intros p k0 S0 P0. destruct p; cbn [parse_by].
      - destruct (parse_memcache data) as [[]|]; cbn [conn_of]; (split; [exact S0|congruence]) || auto.
      - pose proof (pg_sound (cf_password cf) data (k_pg k0) S0 Bd) as Q.
        destruct (parse_postgres _ _ _) as [[]|]; cbn [conn_of with_pg k_pg k_proto]; (split; [exact Q || exact S0|congruence]) || auto.
      - destruct (parse_http cf data) as [|m|args] eqn:Q; cbn [conn_of]; (split; [exact S0|]); try discriminate.
        intros _ n k1 E. injection E as _ -> _. destruct (C40_accepted _ _ _ Q) as (? & ? & ? & ? & ? & _ & _ & _ & _ & [[_ E]|[[_ E]|[_ [? E]]]]); discriminate E.
      - destruct (match data with [] => _ | _ => _ end); [destruct (parse_resp data) as [[]|]|destruct (parse_resp_telnet data)]; cbn [conn_of]; (split; [exact S0|congruence]) || auto. }
    unfold parse_command. destruct (k_proto k) as [p|] eqn:Ep; [exact (By p k S Ep)|].
    destruct (sniff_proto data) as [p|]; [exact (By p (with_proto p k) S eq_refl)|]. cbn [conn_of]. split; [exact S|congruence]. }
  destruct (parse_command cf data k) as [x|t]; [|exact P]. destruct P as [Sx Hx].
  destruct x as [k1|m n k1|n args k1]; cbn [turn_of conn_of] in *.
  - exact Sx.
  - destruct (k_proto k1) as [[]|]; exact Sx.
  - destruct args as [|a args].
    + destruct (k_proto k1) as [[]|]; try exact Sx.
      * destruct (respond_sound (cf_password cf) (cf_version cf) (k_tls k1) (k_pg k1) Sx) as (r & -> & Sr). cbv zeta. destruct (r_keep r); exact Sr.
      * exfalso. exact (Hx eq_refl n k1 eq_refl).
    + destruct (k_proto k1) as [[]|]; try exact Sx. destruct (negb _); [exact Sx|].
      assert (G : exists o, snd (fst (pg_precommand (a :: args) (k_pg k1))) = set_oid o (k_pg k1)).
      { destruct (precommand_shows (a :: args) (k_pg k1) ltac:(discriminate)) as (ws & g' & cmd & E & _ & o & Eg). exists o. rewrite E. exact Eg. }
      destruct (pg_precommand _ _) as [[ws g] cmd]. cbn [fst snd] in G. destruct G as [o ->]. exact Sx.
Qed.
Lemma sound_new : forall tls, sound (k_pg (conn_new tls)).
Proof. intro tls. split; [discriminate|intros ? ? []]. Qed.
Lemma reached_sound : forall cf k, reached cf k -> sound (k_pg k).
Proof.
  intros cf k R. induction R as [tls k R|k data t k' R IH Bd T E]; [rewrite R; apply sound_new|].
  pose proof (turn_sound cf data k IH Bd) as S. rewrite T in S. destruct t; cbn [turn_conn] in S; rewrite E; exact S.
Qed.
(** The loop over a query ends before its fuel. *)
Lemma simple_rest : forall s t e k, simple_string s = Some (t, e, k) -> (length k < length s)%nat.
Proof.
  assert (G : forall n s t e k, (length s <= n)%nat -> simple_string s = Some (t, e, k) -> (length k < length s)%nat).
  { induction n as [|n IH]; intros s t e k L H; destruct s as [|c r]; try discriminate; cbn [length] in L; [lia|]. cbn [simple_string] in H.
    destruct (c =? 39).
    - destruct r as [|d r']; [injection H as <- <- <-; cbn; lia|]. destruct (d =? 39); [|injection H as <- <- <-; cbn [length]; lia].
      destruct (simple_string r') as [[[t' e'] k']|] eqn:E; [|discriminate]. injection H as <- <- <-. cbn [length] in *. apply IH in E; lia.
    - destruct (simple_string r) as [[[t' e'] k']|] eqn:E; [|discriminate]. injection H as <- <- <-. cbn [length]. apply IH in E; lia. }
  intros s t e k H. eapply G; [|exact H]. apply le_n.
Qed.
Lemma escape_rest : forall s odd t e k, escape_string odd s = Some (t, e, k) -> (length k < length s)%nat.
Proof.
  induction s as [|c r IH]; intros odd t e k H; [discriminate|]. cbn [escape_string length] in *.
  destruct (c =? 92). { destruct (escape_string (negb odd) r) as [[[t' e'] k']|] eqn:E; [|discriminate]. injection H as <- <- <-. apply IH in E. lia. }
  destruct (_ && _); [injection H as <- <- <-; lia|].
  destruct (escape_string false r) as [[[t' e'] k']|] eqn:E; [|discriminate]. injection H as <- <- <-. apply IH in E. lia.
Qed.
Lemma keyword_rest : forall s, (length (snd (keyword s)) <= length s)%nat.
Proof. induction s as [|c r IH]; [cbn; lia|]. cbn [keyword]. destruct (ends_keyword c); [cbn; lia|]. destruct (keyword r). cbn in *. lia. Qed.
Lemma skip_rest : forall s, (length (skip_blanks s) <= length s)%nat.
Proof. induction s as [|c r IH]; [cbn; lia|]. cbn [skip_blanks]. destruct (is_space c); cbn [length] in *; lia. Qed.
Lemma query_fuel : forall f f' p esc join args types params, (length p < f)%nat -> (length p < f')%nat ->
  query_loop f p esc join args types params = query_loop f' p esc join args types params.
Proof.
  induction f as [|f IH]; intros f' p esc join args types params L L'; [lia|]. destruct f' as [|f']; [lia|]. cbn [query_loop].
  destruct p as [|c r]; [reflexivity|]. cbn [length] in L, L'.
  destruct (c =? 59) eqn:C1; [reflexivity|]. destruct (c =? 34) eqn:C2; [reflexivity|].
  destruct (c =? 39) eqn:C3. { destruct (simple_string r) as [[[t e] k]|] eqn:E; [|reflexivity]. apply simple_rest in E. apply IH; lia. }
  destruct (c =? 36) eqn:C4.
  { destruct (scan_digits r 0) as [v n]. destruct n as [|n]; [reflexivity|]. cbv zeta. destruct (_ || _); [reflexivity|].
    apply IH; rewrite skipn_length; lia. }
  assert (W : (if is_space c then query_loop f r esc join args types params
            else let '(k, rest) := keyword (c :: r) in
                 query_loop f (skip_blanks rest) esc (joins rest) (args ++ [k]) (types ++ [(false, join)]) params)
      = (if is_space c then query_loop f' r esc join args types params
            else let '(k, rest) := keyword (c :: r) in
                 query_loop f' (skip_blanks rest) esc (joins rest) (args ++ [k]) (types ++ [(false, join)]) params)).
  { destruct (is_space c) eqn:Sp; [apply IH; lia|]. cbn [keyword]. unfold ends_keyword. rewrite Sp, C1, C2, C3, C4. cbn [orb].
    pose proof (keyword_rest r) as K. destruct (keyword r) as [k rest]. cbn [snd] in K. pose proof (skip_rest rest) as Q. apply IH; lia. }
  destruct (_ || _); [|exact W]. destruct r as [|q r']; [exact W|]. destruct (q =? 39); [|exact W].
  destruct (escape_string false r') as [[[t e] k]|] eqn:E; [|reflexivity]. apply escape_rest in E. cbn [length] in *. apply IH; lia.
Qed.
