(** Proofs about the Postgres parser. *)
From Verif Require Import Base Types Shard Text IntText IntTextProofs Prog CmdSpec Cmds Reply ReplySpec ReplyProofs Postgres PgSpec.
From Coq Require Import String Lia ZArith NArith List.
Local Open Scope N_scope.
Notation length := List.length.
Notation concat := List.concat.
Ltac ns := unfold bytes in *; change byte with N in *.
Ltac apps := unfold bytes in *; change byte with N; cbn [app]; repeat (rewrite <- app_assoc; cbn [app]); reflexivity.

(** * The text of queries *)
Lemma space_cases : forall c, is_space c = true ->
  (c =? 59) = false /\ (c =? 34) = false /\ (c =? 39) = false /\ (c =? 36) = false /\ (c =? 69) = false /\ (c =? 101) = false.
Proof.
  intros c H. unfold is_space in H. apply orb_true_iff in H. rewrite !N.eqb_neq.
  destruct H as [H|H]; [apply N.eqb_eq in H; subst; repeat split; discriminate|].
  apply andb_true_iff in H. destruct H as [A B]. apply N.leb_le in A, B. lia.
Qed.
Lemma loop_blanks : forall sp, blanks sp -> forall t fuel esc join args types params, (length (sp ++ t) < fuel)%nat ->
  exists fuel', (length t < fuel')%nat /\
    query_loop fuel (sp ++ t) esc join args types params = query_loop fuel' t esc join args types params.
Proof.
  induction sp as [|c sp IH]; intros B t fuel esc join args types params L.
  - exists fuel. auto.
  - inversion B as [|? ? Bc Bs]; subst. destruct fuel as [|f]; [inversion L|].
    destruct (IH Bs t f esc join args types params) as (f' & L' & E); [cbn [app length] in L; ns; lia|].
    exists f'. split; [exact L'|]. rewrite <- E. cbn [app query_loop].
    destruct (space_cases c Bc) as (E1 & E2 & E3 & E4 & E5 & E6). rewrite E1, E2, E3, E4, E5, E6, Bc. reflexivity.
Qed.
Lemma skip_blanks_app : forall sp t, blanks sp -> (forall c r, t = c :: r -> is_space c = false) -> skip_blanks (sp ++ t) = t.
Proof.
  induction sp as [|c sp IH]; intros t B H; cbn [app].
  - destruct t as [|c r]; [reflexivity|]. cbn. rewrite (H c r eq_refl). reflexivity.
  - inversion B; subst. cbn. match goal with X : is_space c = true |- _ => rewrite X end. apply IH; assumption.
Qed.
Lemma skip_blanks_cut : forall s, exists sp, blanks sp /\ s = sp ++ skip_blanks s.
Proof.
  induction s as [|c s (sp & B & E)]; [exists []; split; [constructor|reflexivity]|].
  cbn. destruct (is_space c) eqn:S.
  - exists (c :: sp). split; [constructor; assumption|]. cbn. congruence.
  - exists []. split; [constructor|reflexivity].
Qed.

Definition tok_arg (k : token) : bytes :=
  match token_part k with Bare s | Quoted s | Escaped s _ => s | Param _ => snd (fst k) end.
Definition is_param (p : part) : bool := match p with Param _ => true | _ => false end.
Definition is_nil {A} (l : list A) : bool := match l with [] => true | _ => false end.
Fixpoint tok_types (join : bool) (l : list token) : list argtype :=
  match l with [] => [] | (p, _, sp) :: r => (is_param p, join) :: tok_types (is_nil sp) r end.

Lemma keyword_app : forall s rest, Forall (fun c => ends_keyword c = false) s ->
  (forall c r, rest = c :: r -> ends_keyword c = true) -> keyword (s ++ rest) = (s, rest).
Proof.
  induction s as [|c s IH]; intros rest F H; cbn [app].
  - destruct rest as [|c r]; [reflexivity|]. cbn. rewrite (H c r eq_refl). reflexivity.
  - inversion F; subst. cbn [keyword]. match goal with X : ends_keyword c = false |- _ => rewrite X end.
    rewrite IH by assumption. reflexivity.
Qed.
Lemma bare_keyword : forall c, bare_char c -> ends_keyword c = false.
Proof.
  intros c (A & B & C & D & E & _). unfold ends_keyword. rewrite A. cbn [orb].
  apply N.eqb_neq in B, C, D, E. rewrite B, C, D, E. reflexivity.
Qed.
Lemma simple_string_app : forall s rest, Forall (fun b => b <> 39 /\ b <> 0) s ->
  (forall c r, rest = c :: r -> c <> 39) -> simple_string (s ++ 39 :: rest) = Some (s, false, rest).
Proof.
  induction s as [|c s IH]; intros rest F H; cbn [app].
  - cbn. destruct rest as [|d r]; [reflexivity|]. destruct (N.eqb_spec d 39) as [->|]; [destruct (H 39 r eq_refl eq_refl)|reflexivity].
  - inversion F as [|? ? [F1 _] F2]; subst. cbn [simple_string]. destruct (N.eqb_spec c 39); [congruence|].
    rewrite IH by assumption. reflexivity.
Qed.
Lemma first_part : forall p t, part_text p t -> exists c r, t = c :: r /\ is_space c = false.
Proof.
  intros p t H. destruct H as [s N F|s F|e s t E F|n ds B C].
  - destruct s as [|c r]; [congruence|]. inversion F as [|? ? [S _] _]. eauto.
  - exists 39, (s ++ bs "'"). split; reflexivity.
  - exists e, (bs "'" ++ t ++ bs "'"). split; [reflexivity|]. destruct E; subst; reflexivity.
  - exists 36, ds. split; reflexivity.
Qed.

(** E strings. *)
Lemma hex_tok : forall c x, hex_value c x -> hextok c = x /\ x < 16.
Proof.
  intros c x H. unfold hextok.
  destruct H as [[B ->]|[[B ->]|[B ->]]];
    destruct (N.leb_spec 48 c); destruct (N.leb_spec c 57); cbn [andb]; try lia;
    destruct (N.leb_spec 65 c); destruct (N.leb_spec c 70); cbn [andb]; try lia;
    destruct (N.leb_spec 97 c); destruct (N.leb_spec c 102); cbn [andb]; try lia.
Qed.
Lemma lor_add : forall a b n, b < 2 ^ n -> N.lor (a * 2 ^ n) b = a * 2 ^ n + b.
Proof.
  intros a b n H. rewrite <- N.shiftl_mul_pow2. rewrite <- N.lxor_lor.
  - rewrite N.add_nocarry_lxor; [reflexivity|].
    apply N.bits_inj. intro i. rewrite N.land_spec, N.bits_0. destruct (N.lt_ge_cases i n).
    + rewrite N.shiftl_spec_low by assumption. reflexivity.
    + destruct (N.eq_dec b 0) as [->|Z]; [rewrite N.bits_0; apply andb_false_r|].
      rewrite (N.bits_above_log2 b i); [apply andb_false_r|].
      apply N.lt_le_trans with n; [apply N.log2_lt_pow2; lia|assumption].
  - apply N.bits_inj. intro i. rewrite N.land_spec, N.bits_0. destruct (N.lt_ge_cases i n).
    + rewrite N.shiftl_spec_low by assumption. reflexivity.
    + destruct (N.eq_dec b 0) as [->|Z]; [rewrite N.bits_0; apply andb_false_r|].
      rewrite (N.bits_above_log2 b i); [apply andb_false_r|].
      apply N.lt_le_trans with n; [apply N.log2_lt_pow2; lia|assumption].
Qed.
Lemma decode_hex_num : forall a b c d x y z w, hex_value a x -> hex_value b y -> hex_value c z -> hex_value d w ->
  decode_hex a b c d = x * 4096 + y * 256 + z * 16 + w.
Proof.
  intros a b c d x y z w A B C D. unfold decode_hex. destruct (hex_tok _ _ A) as [-> ?], (hex_tok _ _ B) as [-> ?], (hex_tok _ _ C) as [-> ?], (hex_tok _ _ D) as [-> ?].
  rewrite !N.shiftl_mul_pow2.
  rewrite (lor_add z w 4) by (change (2 ^ 4) with 16; lia).
  replace (x * 2 ^ 12) with ((x * 2 ^ 4) * 2 ^ 8) by (change (2 ^ 4) with 16; change (2 ^ 8) with 256; change (2 ^ 12) with 4096; lia).
  rewrite <- N.lor_assoc.
  assert (E : N.lor (y * 2 ^ 8) (z * 2 ^ 4 + w) = y * 2 ^ 8 + (z * 2 ^ 4 + w)) by (apply lor_add; change (2 ^ 8) with 256; change (2 ^ 4) with 16; lia).
  rewrite E.
  replace (x * 2 ^ 4 * 2 ^ 8) with (x * 2 ^ 12) by (change (2 ^ 4) with 16; change (2 ^ 8) with 256; change (2 ^ 12) with 4096; lia).
  rewrite lor_add by (change (2 ^ 12) with 4096; change (2 ^ 8) with 256; change (2 ^ 4) with 16; lia).
  change (2 ^ 12) with 4096; change (2 ^ 8) with 256; change (2 ^ 4) with 16. lia.
Qed.
Lemma encode_utf8 : forall cp, cp < 65536 -> ~ (55296 <= cp < 57344) -> encode_codepoint cp = utf8 cp.
Proof.
  intros cp B NS. unfold encode_codepoint, utf8. destruct (N.ltb_spec cp 128); [reflexivity|].
  assert (L63 : forall x, N.lor 128 (N.land x 63) = 128 + x mod 64).
  { intro x. change 63 with (N.ones 6). rewrite N.land_ones. change (2 ^ 6) with 64.
    replace 128 with (2 * 2 ^ 6) at 1 by reflexivity. rewrite lor_add; [reflexivity|]. change (2 ^ 6) with 64. apply N.mod_lt. lia. }
  destruct (N.ltb_spec cp 2048).
  - rewrite L63, N.shiftr_div_pow2. change (2 ^ 6) with 64. f_equal.
    assert (cp / 64 < 32) by (apply N.div_lt_upper_bound; lia).
    replace 192 with (6 * 2 ^ 5) at 1 by reflexivity. rewrite lor_add by assumption. change (6 * 2 ^ 5) with 192.
    apply N.mod_small. lia.
  - assert (Sg : is_surrogate cp = false).
    { unfold is_surrogate. destruct (N.ltb_spec 55296 cp); destruct (N.ltb_spec cp 57344); cbn [andb]; try reflexivity. lia. }
    rewrite Sg. destruct (N.ltb_spec 1114111 cp); [lia|]. cbn [orb]. destruct (N.ltb_spec cp 65536); [|lia].
    rewrite !L63, !N.shiftr_div_pow2. change (2 ^ 6) with 64. change (2 ^ 12) with 4096. f_equal.
    assert (cp / 4096 < 16) by (apply N.div_lt_upper_bound; lia).
    replace 224 with (14 * 2 ^ 4) at 1 by reflexivity. rewrite lor_add by assumption. change (14 * 2 ^ 4) with 224.
    apply N.mod_small. lia.
Qed.
Lemma letter_char : forall c x, In (c, x) [(92, 92); (47, 47); (98, 8); (102, 12); (110, 10); (114, 13); (116, 9); (34, 34)] ->
  escape_char c = Some x /\ c <> 117 /\ c <> 39.
Proof.
  intros c x H. cbn [In] in H. repeat (destruct H as [H|H]; [apply pair_equal_spec in H; destruct H as [<- <-]; repeat split; discriminate|]). destruct H.
Qed.
Lemma unescape_spec : forall s t, escapes s t -> unescape_str t = s.
Proof.
  intros s t H. induction H as [|c s t N1 N2 N0 H IH|c x s t I H IH|a b c d x y z w s t A B C D NS H IH].
  - reflexivity.
  - cbn [unescape_str]. destruct (N.eqb_spec c 92); [congruence|]. cbn [negb]. rewrite IH. reflexivity.
  - destruct (letter_char _ _ I) as (E & N1 & _). cbn [unescape_str]. cbn [negb N.eqb Pos.eqb].
    destruct (N.eqb_spec c 117); [congruence|]. rewrite E, IH. reflexivity.
  - cbn [unescape_str]. change (negb (92 =? 92)) with false. change (117 =? 117) with true. cbv iota.
    rewrite (decode_hex_num _ _ _ _ _ _ _ _ A B C D).
    set (cp := x * 4096 + y * 256 + z * 16 + w) in *.
    assert (Bc : cp < 65536).
    { unfold cp. pose proof (proj2 (hex_tok _ _ A)). pose proof (proj2 (hex_tok _ _ B)). pose proof (proj2 (hex_tok _ _ C)). pose proof (proj2 (hex_tok _ _ D)). lia. }
    cbv zeta.
    assert (Sg : is_surrogate cp = false).
    { unfold is_surrogate. destruct (N.ltb_spec 55296 cp); destruct (N.ltb_spec cp 57344); cbn [andb]; try reflexivity. lia. }
    rewrite Sg, (encode_utf8 _ Bc NS), IH. reflexivity.
Qed.
Lemma hex_not : forall c x, hex_value c x -> c <> 39 /\ c <> 92.
Proof. intros c x H. unfold hex_value in H. lia. Qed.
Lemma escape_string_app : forall s t, escapes s t -> forall rest, exists e, escape_string false (t ++ 39 :: rest) = Some (t, e, rest) /\
  (e = false -> unescape_str t = t).
Proof.
  intros s t H. induction H as [|c s t N1 N2 N0 H IH|c x s t I H IH|a b c d x y z w s t A B C D NS H IH]; intros rest; cbn [app].
  - exists false. split; reflexivity.
  - destruct (IH rest) as (e & E & U). exists e. cbn [escape_string]. destruct (N.eqb_spec c 92); [congruence|]. destruct (N.eqb_spec c 39); [congruence|].
    cbn [andb]. rewrite E. split; [reflexivity|]. intro X. cbn [unescape_str]. destruct (N.eqb_spec c 92); [congruence|].
    cbn [negb]. rewrite (U X). reflexivity.
  - destruct (IH rest) as (e & E & U). exists true. split; [|discriminate]. cbn [escape_string].
    change (92 =? 92) with true. cbv iota. cbn [negb].
    assert (S : forall c, c <> 92 -> escape_string true (c :: t ++ 39 :: rest) = Some (c :: t, e, rest)).
    { intros c' Nc. cbn [escape_string]. destruct (N.eqb_spec c' 92); [congruence|]. cbn [negb]. rewrite andb_false_r, E. reflexivity. }
    destruct (N.eqb_spec c 92) as [->|Nc].
    + cbn [negb]. rewrite E. reflexivity.
    + cbn [negb]. rewrite andb_false_r, E. reflexivity.
  - destruct (IH rest) as (e & E & U). exists true. split; [|discriminate].
    assert (P : forall c l r, c <> 39 -> c <> 92 -> escape_string false (l ++ 39 :: rest) = Some r ->
      escape_string false (c :: l ++ 39 :: rest) = Some (c :: fst (fst r), snd (fst r), snd r)).
    { intros c' l r M1 M2 R. cbn [escape_string]. destruct (N.eqb_spec c' 92); [congruence|]. destruct (N.eqb_spec c' 39); [congruence|].
      cbn [andb]. rewrite R. destruct r as [[? ?] ?]. reflexivity. }
    destruct (hex_not _ _ A), (hex_not _ _ B), (hex_not _ _ C), (hex_not _ _ D).
    pose proof (P d t _ ltac:(assumption) ltac:(assumption) E) as P1.
    pose proof (P c (d :: t) _ ltac:(assumption) ltac:(assumption) P1) as P2.
    pose proof (P b (c :: d :: t) _ ltac:(assumption) ltac:(assumption) P2) as P3.
    pose proof (P a (b :: c :: d :: t) _ ltac:(assumption) ltac:(assumption) P3) as P4.
    cbn [app fst snd] in P4.
    change (escape_string false (92 :: 117 :: a :: b :: c :: d :: t ++ 39 :: rest))
      with (match (match escape_string false (a :: b :: c :: d :: t ++ 39 :: rest) with Some (t, e, k) => Some (117 :: t, e, k) | None => None end)
            with Some (t, _, k) => Some (92 :: t, true, k) | None => None end).
    ns. rewrite P4. reflexivity.
Qed.

(** Parameters. *)
Lemma scan_digits_app : forall ds rest acc, Forall (fun d => is_digit d = true) ds ->
  (forall c r, rest = c :: r -> is_digit c = false) ->
  scan_digits (ds ++ rest) acc = (acc * 10 ^ N.of_nat (length ds) + decimal ds, length ds).
Proof.
  induction ds as [|d ds IH]; intros rest acc F H; cbn [app].
  - cbn [length decimal]. change (10 ^ N.of_nat 0) with 1. replace (acc * 1 + 0) with acc by lia.
    destruct rest as [|c r]; [reflexivity|]. cbn. rewrite (H c r eq_refl). reflexivity.
  - inversion F as [|? ? Fd Fs]; subst. cbn [scan_digits]. rewrite Fd, IH by assumption. cbn [length decimal]. f_equal.
    rewrite Nnat.Nat2N.inj_succ, N.pow_succ_r'. ns. lia.
Qed.

Lemma tokens_first : forall l semi c r, tokens l -> Forall (fun b => b = 59) semi -> tokens_text l ++ semi = c :: r ->
  is_space c = false /\ (match l with [] => c = 59 | (p, t, _) :: _ => exists r', t = c :: r' end).
Proof.
  intros l semi c r T S E. destruct T as [|p t sp P B|p t sp q u sq l P B F T].
  - cbn in E. subst semi. inversion S; subst. split; reflexivity.
  - destruct (first_part _ _ P) as (c' & r' & -> & H). unfold tokens_text in E. cbn [map snd fst concat app] in E.
    injection E as -> _. split; [exact H|]. eauto.
  - destruct (first_part _ _ P) as (c' & r' & -> & H). unfold tokens_text in E. cbn [map snd fst concat app] in E.
    injection E as -> _. split; [exact H|]. eauto.
Qed.
Lemma tokens_tail : forall k l, tokens (k :: l) -> tokens l.
Proof. intros k l H. inversion H; subst; [constructor|assumption]. Qed.
Lemma joins_text : forall sp l semi, blanks sp -> tokens l -> Forall (fun b => b = 59) semi -> l <> [] ->
  joins (sp ++ tokens_text l ++ semi) = is_nil sp.
Proof.
  intros sp l semi B T S N. destruct sp as [|c sp]; cbn [app].
  - destruct (tokens_text l ++ semi) as [|c r] eqn:E.
    + exfalso. destruct T as [|p t sp P _|p t sp q u sq l P]; [congruence| |];
        destruct (first_part _ _ P) as (c' & r' & -> & _); discriminate E.
    + cbn. destruct (tokens_first _ _ _ _ T S E) as [H _]. rewrite H. reflexivity.
  - inversion B; subst. cbn. match goal with X : is_space c = true |- _ => rewrite X end. reflexivity.
Qed.
Lemma tok_types_join : forall l a b, l = [] \/ a = b -> tok_types a l = tok_types b l.
Proof. intros l a b [->| ->]; reflexivity. Qed.

Lemma loop_tokens : forall l, tokens l -> forall semi, Forall (fun b => b = 59) semi ->
  forall fuel esc join args types params, (length (tokens_text l ++ semi) < fuel)%nat ->
  query_loop fuel (tokens_text l ++ semi) esc join args types params
  = QOk (args ++ map tok_arg l) (types ++ tok_types join l) (params ++ param_numbers l).
Proof.
  induction l as [|[[p t] sp] l IH]; intros T semi Sm fuel esc join args types params L.
  - cbn [tokens_text map concat app] in *. change (tokens_text []) with (@nil N) in *. cbn [app] in *.
    destruct fuel as [|f]; [inversion L|]. cbn [map tok_types param_numbers flat_map]. rewrite !app_nil_r.
    assert (Q : forallb (fun c => c =? 59) semi = true).
    { clear L. induction Sm as [|c r Hc Hr IHr]; [reflexivity|]. subst. cbn. exact IHr. }
    cbn [query_loop]. destruct semi as [|c r]; [reflexivity|]. inversion Sm; subst.
    change (59 =? 59) with true. cbv iota zeta. unfold query_end. rewrite Q. reflexivity.
  - assert (Tl := tokens_tail _ _ T).
    assert (P : part_text p t /\ blanks sp /\ (forall q u sq l', l = (q, u, sq) :: l' -> sp = [] -> follows p q)).
    { inversion T as [|? ? ? A B C|? ? ? q u sq l' A B C D]; subst; (split; [assumption|]); (split; [assumption|]); intros ? ? ? ? E X.
      - discriminate E.
      - injection E as -> -> -> ->. auto. }
    destruct P as (P & B & Fo). clear T.
    set (rest := sp ++ tokens_text l ++ semi).
    assert (Et : tokens_text ((p, t, sp) :: l) ++ semi = t ++ rest).
    { unfold tokens_text, rest. cbn [map concat fst snd]. ns. rewrite <- !app_assoc. reflexivity. }
    match goal with |- query_loop _ ?x _ _ _ _ _ = _ => replace x with (t ++ rest) in * by (symmetry; exact Et) end. clear Et.
    (* after the part *)
    assert (Go : forall f esc' args' types' params' j', (length rest < f)%nat -> (l = [] \/ j' = is_nil sp) ->
      query_loop f rest esc' j' args' types' params'
      = QOk (args' ++ map tok_arg l) (types' ++ tok_types (is_nil sp) l) (params' ++ param_numbers l)).
    { intros f esc' args' types' params' j' Lf J.
      destruct (loop_blanks sp B (tokens_text l ++ semi) f esc' j' args' types' params' Lf) as (f' & Lf' & E).
      unfold rest. rewrite E, (IH Tl semi Sm f' esc' j' args' types' params' Lf').
      rewrite (tok_types_join l j' (is_nil sp)) by (destruct J; auto). reflexivity. }
    assert (Jr : l = [] \/ joins rest = is_nil sp).
    { destruct l as [|k l]; [left; reflexivity|right]. apply joins_text; [exact B|exact Tl|exact Sm|discriminate]. }
    (* what follows the part *)
    assert (Nx : forall c r, rest = c :: r -> is_space c = true \/ c = 59 \/
      (exists q u sq l' r', l = (q, u, sq) :: l' /\ sp = [] /\ follows p q /\ part_text q u /\ u = c :: r')).
    { intros c r E. unfold rest in E. destruct sp as [|c' sp].
      - cbn [app] in E. destruct (tokens_first _ _ _ _ Tl Sm E) as [_ H]. destruct l as [|[[q u] sq] l].
        + right. left. exact H.
        + right. right. destruct H as [r' ->]. exists q, (c :: r'), sq, l, r'. repeat split; auto.
          * exact (Fo _ _ _ _ eq_refl eq_refl).
          * inversion Tl; assumption.
      - cbn [app] in E. injection E as -> _. left. inversion B; assumption. }
    destruct fuel as [|f]; [inversion L|].
    assert (Lr : (length t + length rest < S f)%nat) by (rewrite app_length in L; exact L).
    destruct P as [s N F|s F|e s u Ee F|n ds Bn C]; cbn [tok_arg token_part fst snd map tok_types is_param param_numbers flat_map app].
    + (* bare *)
      destruct s as [|c s]; [congruence|]. pose proof F as F0. inversion F0 as [|? ? (A1 & A2 & A3 & A4 & A5 & A6) Fs]; subst.
      assert (K : keyword ((c :: s) ++ rest) = (c :: s, rest)).
      { apply keyword_app; [eapply Forall_impl; [|exact F]; exact bare_keyword|].
        intros d r E. destruct (Nx d r E) as [H|[->|(q & u & sq & l' & r' & _ & _ & Fq & Pq & ->)]].
        - unfold ends_keyword. rewrite H. reflexivity.
        - reflexivity.
        - inversion Pq; subst; cbn in Fq; try contradiction; reflexivity. }
      cbn [app query_loop]. apply N.eqb_neq in A2, A3, A4, A5. rewrite A2, A3, A4, A5, A1.
      assert (W : (let '(k, rest0) := keyword (c :: s ++ rest) in
                   query_loop f (skip_blanks rest0) esc (joins rest0) (args ++ [k]) (types ++ [(false, join)]) params)
        = QOk (args ++ (c :: s) :: map tok_arg l) (types ++ (false, join) :: tok_types (is_nil sp) l) (params ++ param_numbers l)).
      { cbn [app] in K. ns. rewrite K. cbn [app].
        replace (skip_blanks rest) with (tokens_text l ++ semi).
        2: { unfold rest. symmetry. apply skip_blanks_app; [exact B|]. intros c' r E. exact (proj1 (tokens_first _ _ _ _ Tl Sm E)). }
        assert (Lt : (length (tokens_text l ++ semi) < f)%nat).
        { unfold rest in Lr. rewrite (app_length sp) in Lr. cbn [length] in Lr. ns. lia. }
        rewrite (IH Tl semi Sm f _ _ _ _ _ Lt). rewrite (tok_types_join l (joins rest) (is_nil sp)) by exact Jr.
        rewrite <- !app_assoc. reflexivity. }
      destruct ((c =? 69) || (c =? 101)) eqn:Ec; [|exact W].
      ns. destruct (s ++ rest) as [|q r'] eqn:Es; [exact W|]. destruct (N.eqb_spec q 39) as [->|]; [|exact W].
      exfalso. destruct s as [|c2 s]; cbn [app] in Es.
      * destruct (Nx _ _ Es) as [H|[H|(q & u & sq & l' & r'' & _ & _ & Fq & Pq & Eu)]]; [discriminate H|discriminate H|].
        inversion Pq; subst; cbn in Fq; try contradiction.
        -- destruct Fq as [F1 F2]. apply orb_true_iff in Ec. destruct Ec as [Ec|Ec]; apply N.eqb_eq in Ec; subst; congruence.
        -- discriminate.
      * injection Es as -> _. inversion Fs as [|? ? (_ & _ & X & _) _]. congruence.
    + (* quoted *)
      change (bs "'") with [39] in *. cbn [app] in Lr |- *.
      replace ((s ++ [39]) ++ rest) with (s ++ 39 :: rest) by (rewrite <- app_assoc; reflexivity).
      cbn [query_loop]. change (39 =? 59) with false. change (39 =? 34) with false. change (39 =? 39) with true. cbv iota.
      rewrite simple_string_app; [|exact F|].
      2: { intros c r E ->. destruct (Nx _ _ E) as [H|[H|(q & u & sq & l' & r'' & _ & _ & Fq & Pq & Eu)]]; [discriminate H|discriminate H|].
           inversion Pq; subst; cbn in Fq; try contradiction; try discriminate.
           - inversion H0 as [|? ? (_ & _ & X & _) _]. congruence.
           - destruct H; subst; discriminate. }
      cbv iota beta. rewrite Go; [|cbn [length] in Lr; rewrite app_length in Lr; cbn [length] in Lr; ns; lia|exact Jr].
      rewrite <- !app_assoc. reflexivity.
    + (* escaped *)
      change (bs "'") with [39] in *. cbn [app] in Lr |- *.
      replace ((u ++ [39]) ++ rest) with (u ++ 39 :: rest) by (rewrite <- app_assoc; reflexivity).
      cbn [query_loop].
      assert (E4 : (e =? 59) = false /\ (e =? 34) = false /\ (e =? 39) = false /\ (e =? 36) = false /\ ((e =? 69) || (e =? 101)) = true)
        by (destruct Ee; subst; repeat split; reflexivity).
      destruct E4 as (-> & -> & -> & -> & ->). change (39 =? 39) with true. cbv iota.
      destruct (escape_string_app _ _ F rest) as (ee & E & U). rewrite E. cbv iota beta zeta.
      assert (V : (if esc || ee then unescape_str u else u) = s).
      { destruct (esc || ee) eqn:Eo; [exact (unescape_spec _ _ F)|].
        apply orb_false_iff in Eo. destruct Eo as [_ ->]. rewrite <- (U eq_refl). exact (unescape_spec _ _ F). }
      ns. rewrite V.
      rewrite Go; [|cbn [length] in Lr; rewrite app_length in Lr; cbn [length] in Lr; ns; lia|exact Jr].
      rewrite <- !app_assoc. reflexivity.
    + (* parameter *)
      change (bs "$") with [36] in *. cbn [app] in Lr |- *. cbn [query_loop].
      change (36 =? 59) with false. change (36 =? 34) with false. change (36 =? 39) with false. change (36 =? 36) with true. cbv iota.
      destruct C as [[Dn Dd] [Dv _]].
      pose proof (scan_digits_app ds rest 0 Dd) as SD. ns. rewrite SD; clear SD.
      2: { intros c r E. destruct (Nx _ _ E) as [H|[->|(q & u & sq & l' & r'' & _ & _ & Fq & Pq & Eu)]].
           - unfold is_digit. unfold is_space in H. apply orb_true_iff in H. destruct H as [H|H]; [apply N.eqb_eq in H; subst; reflexivity|].
             apply andb_true_iff in H. destruct H as [H1 H2]. apply N.leb_le in H1, H2.
             destruct (N.leb_spec 48 c); [lia|reflexivity].
           - reflexivity.
           - inversion Pq; subst.
             + cbn in Fq. exact Fq.
             + match goal with X : _ = c :: _ |- _ => apply (f_equal (hd 0)) in X; change (39 = c) in X; rewrite <- X end. reflexivity.
             + match goal with X : _ = c :: _ |- _ => apply (f_equal (hd 0)) in X; cbn [hd] in X; rewrite <- X end.
               match goal with X : _ = 69 \/ _ |- _ => destruct X as [-> | ->]; reflexivity end.
             + match goal with X : _ = c :: _ |- _ => apply (f_equal (hd 0)) in X; change (36 = c) in X; rewrite <- X end. reflexivity. }
      destruct (length ds) as [|k] eqn:Lds; [destruct ds; [congruence|discriminate]|].
      cbv iota beta. replace (0 * 10 ^ N.of_nat (S k) + decimal ds) with n by (ns; lia).
      replace (N.min n (2 ^ 63 - 1)) with n by lia.
      replace (n =? 0) with false by (symmetry; apply N.eqb_neq; lia).
      replace (65535 <? n) with false by (symmetry; apply N.ltb_ge; lia). cbn [orb].
      replace (firstn (S (S k)) (36 :: ds ++ rest)) with (36 :: ds).
      2: { change (firstn (S (S k)) (36 :: ds ++ rest)) with (36 :: firstn (S k) (ds ++ rest)). f_equal. rewrite firstn_app, <- Lds, firstn_all, Nat.sub_diag. cbn [firstn]. rewrite app_nil_r. reflexivity. }
      replace (skipn (S k) (ds ++ rest)) with rest.
      2: { ns. rewrite skipn_app, <- Lds, skipn_all, Nat.sub_diag. reflexivity. }
      rewrite Go; [|cbn [length] in Lr; ns; lia|exact Jr].
      rewrite <- !app_assoc. reflexivity.
Qed.
