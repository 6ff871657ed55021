(** The arguments that come from Postgres messages, and from any turn of a
    connection. *)
From Verif Require Import Base Types Clamp Entry Hash Map Shard Cache Text IntText IntTextProofs Prog Cmds Resp Memcache Http Reply ReplySpec Postgres PgSpec PgProofs PgProofs2
  Conn ConnSpec ConnProofs ConnProofs2 ConnProofs3 ConnProofs4 PgProofs3 FitProofs.
From Coq Require Import String Lia.
Local Open Scope N_scope.
Notation length := List.length.
Notation concat := List.concat.
Notation map := List.map.

(** *** Strings *)
Lemma lor_small : forall a b k, a < 2 ^ k -> b < 2 ^ k -> N.lor a b < 2 ^ k.
Proof.
  intros a b k A B. apply N.div_small_iff; [apply N.pow_nonzero; discriminate|]. rewrite <- N.shiftr_div_pow2, N.shiftr_lor, !N.shiftr_div_pow2.
  rewrite (N.div_small a), (N.div_small b) by assumption. reflexivity.
Qed.
Lemma tail_byte : forall x, N.lor 128 (N.land x 63) < 256.
Proof.
  intro x. apply (lor_small _ _ 8); [reflexivity|]. change 63 with (N.ones 6). rewrite N.land_ones.
  pose proof (N.mod_lt x (2 ^ 6) ltac:(discriminate)). change (2 ^ 6) with 64 in *. change (2 ^ 8) with 256. lia.
Qed.
Lemma encode_fit : forall cp, bytes_ok (encode_codepoint cp) /\ (length (encode_codepoint cp) <= 4)%nat.
Proof.
  intro cp. unfold encode_codepoint. cbv zeta.
  assert (M : forall x, x mod 256 < 256) by (intro x; apply N.mod_lt; discriminate).
  destruct (N.ltb_spec cp 128) as [H|H]; [split; [constructor; [unfold byte_ok; lia|constructor]|cbn; lia]|].
  destruct (cp <? 2048); [split; [repeat constructor; unfold byte_ok; auto using tail_byte|cbn; lia]|].
  set (cp' := if (1114111 <? cp) || is_surrogate cp then 65533 else cp). clearbody cp'.
  destruct (cp' <? 65536); (split; [repeat constructor; unfold byte_ok; auto using tail_byte|cbn [List.length]; lia]).
Qed.
Lemma escape_char_ok : forall e x, escape_char e = Some x -> x < 256.
Proof.
  intros e x H. unfold escape_char in H.
  repeat match type of H with context [if ?b then _ else _] => destruct b; [injection H as <-; lia|] end. discriminate.
Qed.
Lemma unescape_fit : forall n s, (length s <= n)%nat -> bytes_ok s -> bytes_ok (unescape_str s) /\ (length (unescape_str s) <= length s)%nat.
Proof.
  intro n. induction n as [|n IH]; intros s Hn B; [destruct s; [split; [constructor|apply le_n]|cbn in Hn; lia]|].
  destruct s as [|x r]; [split; [constructor|apply le_n]|]. inversion B as [|? ? Bx Br]; subst. cbn [List.length] in Hn. cbn [unescape_str].
  destruct (negb (x =? 92)).
  { destruct (IH r ltac:(lia) Br) as [A C]. split; [constructor; assumption|cbn [List.length]; lia]. }
  destruct r as [|e r1]; [split; [constructor|cbn; lia]|]. inversion Br as [|? ? Be Br1]; subst. cbn [List.length] in *.
  destruct (e =? 117).
  2:{ destruct (IH r1 ltac:(lia) Br1) as [A C]. destruct (escape_char e) as [y|] eqn:Ee; [|split; [exact A|lia]].
      split; [constructor; [exact (escape_char_ok _ _ Ee)|exact A]|cbn [List.length]; lia]. }
  destruct r1 as [|a [|b [|c' [|d r2]]]]; try (split; [constructor|cbn [List.length]; lia]).
  assert (B2 : bytes_ok r2) by (do 4 (match goal with H : Forall _ (_ :: _) |- _ => inversion H; subst; clear H end); unfold bytes_ok in *;
    repeat match goal with H : bytes_ok (_ :: _) |- _ => inversion H; subst; clear H end; assumption).
  clear B Br Br1. cbn [List.length] in *. destruct (IH r2 ltac:(lia) B2) as [A2 C2]. cbv zeta.
  assert (J : forall cp t, bytes_ok t -> bytes_ok (encode_codepoint cp ++ t) /\ (length (encode_codepoint cp ++ t) <= 4 + length t)%nat).
  { intros cp t Bt. destruct (encode_fit cp) as [X Y]. split; [apply Forall_app; split; assumption|rewrite app_length; lia]. }
  assert (J2 : forall cp, bytes_ok (encode_codepoint cp ++ unescape_str r2) /\ (length (encode_codepoint cp ++ unescape_str r2) <= S (S (S (S (S (S (length r2)))))))%nat).
  { intro cp. destruct (J cp _ A2) as [X Y]. split; [exact X|lia]. }
  destruct (is_surrogate _); [|apply J2].
  destruct r2 as [|b1 [|b2 [|a2 [|b2' [|c2 [|d2 r3]]]]]]; try apply J2.
  destruct ((b1 =? 92) && (b2 =? 117)); [|apply J2].
  assert (B3 : bytes_ok r3) by (unfold bytes_ok in *; repeat match goal with H : Forall _ (_ :: _) |- _ => inversion H; subst; clear H end; assumption).
  cbn [List.length] in *. destruct (IH r3 ltac:(lia) B3) as [A3 C3]. destruct (J (decode_codepoint (decode_hex a b c' d) (decode_hex a2 b2' c2 d2)) _ A3) as [X Y].
  split; [exact X|lia].
Qed.
Lemma simple_unescape : forall s, unescape_simplestr s = [].
Proof. intros [|b s]; reflexivity. Qed.
Lemma simple_fit : forall n s t e k, (length s <= n)%nat -> bytes_ok s -> simple_string s = Some (t, e, k) ->
  bytes_ok t /\ bytes_ok k /\ (length t + length k <= length s)%nat.
Proof.
  intro n. induction n as [|n IH]; intros s t e k Hn B E; [destruct s; [discriminate|cbn in Hn; lia]|].
  destruct s as [|x r]; [discriminate|]. inversion B as [|? ? Bx Br]; subst. cbn [List.length] in *. cbn [simple_string] in E.
  destruct (x =? 39).
  - destruct r as [|d r']; [injection E as <- <- <-; repeat split; try constructor; cbn; lia|].
    inversion Br as [|? ? Bd Br']; subst. cbn [List.length] in *. destruct (d =? 39).
    + destruct (simple_string r') as [[[t1 e1] k1]|] eqn:E1; [|discriminate]. injection E as <- <- <-.
      destruct (IH r' t1 e1 k1 ltac:(lia) Br' E1) as (A & C & D). split; [|split; [exact C|cbn [List.length]; lia]].
      constructor; [unfold byte_ok; lia|constructor; [unfold byte_ok; lia|exact A]].
    + injection E as <- <- <-. split; [constructor|]. split; [exact Br|cbn [List.length]; lia].
  - destruct (simple_string r) as [[[t1 e1] k1]|] eqn:E1; [|discriminate]. injection E as <- <- <-.
    destruct (IH r t1 e1 k1 ltac:(lia) Br E1) as (A & C & D). split; [constructor; assumption|]. split; [exact C|cbn [List.length]; lia].
Qed.
Lemma escape_fit : forall s odd t e k, bytes_ok s -> escape_string odd s = Some (t, e, k) ->
  bytes_ok t /\ bytes_ok k /\ (length t + length k <= length s)%nat.
Proof.
  intro s. induction s as [|x r IH]; intros odd t e k B E; [discriminate|]. inversion B as [|? ? Bx Br]; subst. cbn [escape_string] in E.
  destruct (x =? 92).
  { destruct (escape_string (negb odd) r) as [[[t1 e1] k1]|] eqn:E1; [|discriminate]. injection E as <- <- <-.
    destruct (IH _ _ _ _ Br E1) as (A & C & D). split; [constructor; assumption|]. split; [exact C|cbn [List.length]; lia]. }
  destruct ((x =? 39) && negb odd).
  { injection E as <- <- <-. split; [constructor|]. split; [exact Br|cbn [List.length]; lia]. }
  destruct (escape_string false r) as [[[t1 e1] k1]|] eqn:E1; [|discriminate]. injection E as <- <- <-.
  destruct (IH _ _ _ _ Br E1) as (A & C & D). split; [constructor; assumption|]. split; [exact C|cbn [List.length]; lia].
Qed.
Lemma keyword_cut : forall s k t, keyword s = (k, t) -> s = k ++ t.
Proof.
  intro s. induction s as [|x r IH]; intros k t E; cbn [keyword] in E; [injection E as <- <-; reflexivity|].
  destruct (ends_keyword x); [injection E as <- <-; reflexivity|]. destruct (keyword r) as [k1 t1]. injection E as <- <-.
  cbn [app]. f_equal. apply IH. reflexivity.
Qed.
Lemma blanks_fit : forall s, bytes_ok s -> bytes_ok (skip_blanks s) /\ (length (skip_blanks s) <= length s)%nat.
Proof.
  intros s B. induction B as [|x r Hx Hr IH]; [split; [constructor|apply le_n]|]. cbn [skip_blanks].
  destruct (is_space x); [destruct IH; split; [assumption|cbn [List.length]; lia]|split; [constructor; assumption|apply le_n]].
Qed.

(** *** Queries *)
Fixpoint count_params (types : list argtype) : nat :=
  match types with [] => O | (p, _) :: r => ((if p : bool then 1 else 0) + count_params r)%nat end.
Lemma count_app : forall a b, count_params (a ++ b) = (count_params a + count_params b)%nat.
Proof. induction a as [|[p j] a IH]; intro b; [reflexivity|]. cbn [app count_params]. rewrite IH. lia. Qed.
Lemma query_loop_fit : forall L f p esc join args types params a t q,
  bytes_ok p -> Forall bytes_ok args -> (length (concat args) + length p <= L)%nat -> count_params types = length params ->
  query_loop f p esc join args types params = QOk a t q ->
  Forall bytes_ok a /\ (length (concat a) <= L)%nat /\ count_params t = length q.
Proof.
  intros L f. induction f as [|f IH]; intros p esc join args types params a t q Bp Ba Le Ct H; [discriminate|]. cbn [query_loop] in H.
  assert (QE : forall s, query_end s args types params = QOk a t q -> Forall bytes_ok a /\ (length (concat a) <= L)%nat /\ count_params t = length q).
  { intros s E. unfold query_end in E. destruct (forallb _ s); [|discriminate]. injection E as <- <- <-. split; [exact Ba|]. split; [lia|exact Ct]. }
  assert (GO : forall rest e j2 (ar : bytes) (x : bool) ps, bytes_ok rest -> bytes_ok ar -> (length ar + length rest <= length p)%nat ->
    length ps = (if x then S (length params) else length params) ->
    query_loop f rest e j2 (args ++ [ar]) (types ++ [(x, join)]) ps = QOk a t q -> Forall bytes_ok a /\ (length (concat a) <= L)%nat /\ count_params t = length q).
  { intros rest e j2 ar x ps Br Bar Lr Ps E. eapply IH; [exact Br| | | |exact E].
    - apply Forall_app. split; [exact Ba|]. constructor; [exact Bar|constructor].
    - rewrite concat_app, app_length. cbn [List.concat]. rewrite app_nil_r. lia.
    - rewrite count_app, Ct, Ps. cbn [count_params]. destruct x; lia. }
  destruct p as [|c r]; [exact (QE [] H)|]. inversion Bp as [|? ? Bc Br]; subst. cbn [List.length] in *.
  destruct (c =? 59); [exact (QE _ H)|]. destruct (c =? 34); [discriminate|].
  assert (W : (if is_space c then query_loop f r esc join args types params
            else let '(k, rest) := keyword (c :: r) in
                 query_loop f (skip_blanks rest) esc (joins rest) (args ++ [k]) (types ++ [(false, join)]) params) = QOk a t q ->
     Forall bytes_ok a /\ (length (concat a) <= L)%nat /\ count_params t = length q).
  { intro E. destruct (is_space c); [eapply IH; [exact Br|exact Ba| |exact Ct|exact E]; lia|]. destruct (keyword (c :: r)) as [k rest] eqn:Ek. apply keyword_cut in Ek.
    assert (B2 : bytes_ok (k ++ rest)) by (rewrite <- Ek; exact Bp). apply Forall_app in B2. destruct B2 as [Bk Brest].
    destruct (blanks_fit rest Brest) as [S1 S2].
    assert (Lk : S (length r) = (length k + length rest)%nat) by (rewrite <- app_length, <- Ek; reflexivity).
    refine (GO _ _ _ _ _ _ S1 Bk _ _ E); [lia|reflexivity]. }
  destruct (c =? 39).
  { destruct (simple_string r) as [[[tx e] rest]|] eqn:Es; [|discriminate]. destruct (simple_fit _ _ _ _ _ (le_n _) Br Es) as (A & B & C).
    refine (GO _ _ _ _ _ _ B _ _ _ H); [destruct e; [rewrite simple_unescape; constructor|exact A]| |reflexivity].
    destruct e; [rewrite simple_unescape; cbn [List.length]; lia|lia]. }
  destruct (c =? 36).
  { destruct (scan_digits r 0) as [v n] eqn:Es. destruct (scan_digits_spec _ _ _ _ Es) as (ds & rest & -> & Ln & _). destruct n; [discriminate|].
    cbv zeta in H. destruct (_ || _); [discriminate|].
    refine (GO _ _ _ _ _ _ _ _ _ _ H).
    - apply (fit_skipn (length (ds ++ rest))). split; [exact Br|apply le_n].
    - apply (fit_firstn (length (c :: ds ++ rest))). split; [exact Bp|apply le_n].
    - rewrite firstn_length, skipn_length. cbn [List.length]. rewrite app_length. lia.
    - rewrite app_length. cbn [List.length]. lia. }
  destruct (_ || _); [|exact (W H)]. destruct r as [|q' r']; [exact (W H)|]. destruct (q' =? 39); [|exact (W H)].
  destruct (escape_string false r') as [[[tx e] rest]|] eqn:Es; [|discriminate]. inversion Br as [|? ? _ Br']; subst.
  destruct (escape_fit _ _ _ _ _ Br' Es) as (A & B & C). destruct (unescape_fit _ _ (le_n _) A) as [U1 U2]. cbn [List.length] in *.
  cbv zeta in H. refine (GO _ _ _ _ _ _ B _ _ _ H); [destruct (esc || e); assumption|destruct (esc || e); lia|reflexivity].
Qed.
Lemma query_fits : forall L s a t q, fit L s -> parse_query s = QOk a t q ->
  Forall bytes_ok a /\ (length (concat a) <= L)%nat /\ count_params t = length q.
Proof.
  intros L s a t q [B Le] H. unfold parse_query in H. destruct (query_loop _ _ _ _ _ _ _) as [|a' t' q'] eqn:E; [discriminate|].
  destruct (missing _ _ _); [discriminate|]. injection H as <- <- <-. destruct (blanks_fit s B) as [S1 S2].
  refine (query_loop_fit L _ _ _ _ _ _ _ _ _ _ S1 (Forall_nil _) _ _ E); [cbn; lia|reflexivity].
Qed.

(** *** Messages *)
Definition W : nat := N.to_nat 65535.
Definition stmt_fit (L : nat) (x : bytes * stmt) : Prop :=
  Forall bytes_ok (s_args (snd x)) /\ (length (concat (s_args (snd x))) <= L)%nat /\ count_params (s_types (snd x)) = s_nparams (snd x).
Definition portal_fit (L : nat) (x : bytes * portal) : Prop :=
  Forall (fit L) (p_params (snd x)) /\ (length (p_params (snd x)) <= W)%nat.
Definition fitting (L : nat) (g : pgst) : Prop := Forall (stmt_fit L) (pg_stmts g) /\ Forall (portal_fit L) (pg_portals g).
Lemma exec_fit : forall L args types params acc B r, Forall bytes_ok args -> Forall (fit L) params -> Forall (fit B) acc ->
  exec_args args types params acc = Ok (Some r) -> Forall (fit (B + length (concat args) + count_params types * L)) r.
Proof.
  intros L args. induction args as [|a args IH]; intros types params acc B r Ba Fp Fa E.
  { injection E as <-. eapply Forall_impl; [|exact Fa]. intros x. apply fit_more. lia. }
  destruct types as [|[isp join] types]. { injection E as <-. eapply Forall_impl; [|exact Fa]. intros x. apply fit_more. lia. }
  inversion Ba as [|? ? Bx Bar]; subst. cbn [exec_args] in E. cbn [List.concat count_params]. rewrite app_length.
  set (v := if isp then _ else Some a) in E.
  assert (Hv : forall x, v = Some x -> fit (length a + (if isp then L else 0)) x).
  { intros x X. unfold v in X. destruct isp.
    - assert (In x params).
      { destruct a as [|d ds]; [discriminate|]. destruct (d =? 36); [|discriminate]. destruct (parse_u64 ds); [|discriminate].
        destruct (_ || _); [discriminate|]. exact (nth_error_In _ _ X). }
      rewrite Forall_forall in Fp. apply (fit_more L); [lia|]. apply Fp. assumption.
    - injection X as <-. split; [exact Bx|lia]. }
  destruct v as [x|]; [|discriminate]. specialize (Hv x eq_refl). set (B' := (B + (length a + (if isp then L else 0)))%nat) in *.
  assert (Fx : fit B' x) by (apply (fit_more (length a + (if isp then L else 0))); [unfold B'; lia|exact Hv]).
  assert (Fa' : Forall (fit B') acc) by (eapply Forall_impl; [|exact Fa]; intros y; apply fit_more; unfold B'; lia).
  assert (Fin : forall acc', Forall (fit B') acc' -> exec_args args types params acc' = Ok (Some r) ->
    Forall (fit (B + (length a + length (concat args)) + ((if isp then 1 else 0) + count_params types) * L)) r).
  { intros acc' F' X. apply (IH types params acc' B' r Bar Fp F') in X. eapply Forall_impl; [|exact X]. intros y. apply fit_more.
    unfold B'. destruct isp; lia. }
  destruct join.
  - destruct (rev acc) as [|l before] eqn:Er; [discriminate|].
    assert (Ea : acc = rev before ++ [l]) by (rewrite <- (rev_involutive acc), Er; reflexivity).
    eapply Fin; [|exact E]. rewrite Ea in Fa, Fa'. apply Forall_app in Fa. apply Forall_app in Fa'. destruct Fa as [_ Fl]. destruct Fa' as [Fb _].
    inversion Fl as [|? ? [Bl Ll] _]; subst. apply snoc_fit; [exact Fb|]. destruct Hv as [Bv Lv]. split; [apply Forall_app; split; assumption|].
    rewrite app_length. unfold B'. lia.
  - eapply Fin; [|exact E]. apply snoc_fit; assumption.
Qed.
Lemma cstr_fit : forall L s c r, fit L s -> parse_cstr s = Some (c, r) -> fit L c /\ fit L r.
Proof.
  intros L s c r [B Le] E. assert (G : bytes_ok c /\ bytes_ok r /\ (length c + length r <= length s)%nat).
  { clear Le. revert c r E. induction B as [|x s Hx Hs IH]; intros c r E; [discriminate|]. cbn [parse_cstr] in E.
    destruct (x =? 0); [injection E as <- <-; split; [constructor|]; split; [exact Hs|cbn [List.length]; lia]|].
    destruct (parse_cstr s) as [[c1 r1]|]; [|discriminate]. injection E as <- <-. destruct (IH _ _ eq_refl) as (A & C & D).
    split; [constructor; assumption|]. split; [exact C|cbn [List.length]; lia]. }
  destruct G as (A & C & D). split; split; try assumption; lia.
Qed.
Lemma bytes_fit : forall L n s c r, fit L s -> parse_bytes n s = Some (c, r) -> fit L c /\ fit L r /\ length c = n.
Proof.
  intros L n s c r H E. unfold parse_bytes in E. destruct (Nat.ltb_spec (length s) n) as [X|X]; [discriminate|]. injection E as <- <-.
  split; [apply fit_firstn; exact H|]. split; [apply fit_skipn; exact H|]. rewrite firstn_length. lia.
Qed.
Lemma int32_fit : forall L s z r, fit L s -> parse_int32 s = Some (z, r) -> fit L r.
Proof.
  intros L s z r H E. unfold parse_int32 in E. destruct (parse_bytes 4 s) as [[x r1]|] eqn:E1; [|discriminate]. injection E as _ <-.
  apply (bytes_fit _ _ _ _ _ H E1).
Qed.
Lemma int16_fit : forall L s z r, fit L s -> parse_int16 s = Some (z, r) -> fit L r.
Proof.
  intros L s z r H E. unfold parse_int16 in E. destruct (parse_bytes 2 s) as [[x r1]|] eqn:E1; [|discriminate]. injection E as _ <-.
  apply (bytes_fit _ _ _ _ _ H E1).
Qed.
Lemma formats_fit : forall L n s r, fit L s -> formats n s = Some (Some r) -> fit L r.
Proof.
  intros L n. induction n as [|n IH]; intros s r H E; cbn [formats] in E; [injection E as <-; exact H|].
  destruct (parse_int16 s) as [[f r1]|] eqn:E1; [|discriminate]. destruct (_ || _)%Z; [|discriminate].
  exact (IH _ _ (int16_fit _ _ _ _ H E1) E).
Qed.
Lemma bind_fit : forall L n s acc l r, fit L s -> Forall (fit L) acc -> bind_params n s acc = Some (l, r) ->
  Forall (fit L) l /\ length l = (length acc + n)%nat.
Proof.
  intros L n. induction n as [|n IH]; intros s acc l r H Fa E; cbn [bind_params] in E; [injection E as <- _; split; [exact Fa|lia]|].
  destruct (parse_int32 s) as [[z r1]|] eqn:E1; [|discriminate]. cbv zeta in E. pose proof (int32_fit _ _ _ _ H E1) as H1.
  destruct (parse_bytes _ r1) as [[b r2]|] eqn:E2; [|discriminate]. destruct (bytes_fit _ _ _ _ _ H1 E2) as (A & B & _).
  destruct (IH _ _ _ _ B (snoc_fit _ _ _ Fa A) E) as [X Y]. split; [exact X|]. rewrite Y, app_length. cbn [List.length]. lia.
Qed.
Lemma two_bytes : forall L s, fit L s -> length s = 2%nat -> (N.to_nat (read_be s) <= W)%nat.
Proof.
  intros L s [B _] H. pose proof (number_of_small s B) as U. change (number_of s) with (read_be s) in U. rewrite H in U.
  change (256 ^ N.of_nat 2) with 65536 in U. unfold W. set (x := read_be s) in *. clearbody x. apply Nat.compare_le_iff. rewrite <- N2Nat.inj_compare. apply N.compare_le_iff. lia.
Qed.
Lemma by_name_fit : forall {A} (P : bytes * A -> Prop) name l a, Forall P l -> by_name name l = Some a -> exists n, P (n, a).
Proof. intros A P name l a H E. destruct (by_name_in _ _ _ E) as [n I]. rewrite Forall_forall in H. exists n. apply H. exact I. Qed.
Definition step_fit (L : nat) (x : pg_step) : Prop :=
  match x with PgFail _ => True | PgStep args g => Forall (fit (L + W * L)) args /\ fitting L g end.
Lemma fault_fit : forall L m g, fitting L g -> step_fit L (pg_fault m g).
Proof. intros L m g H. split; [constructor|exact H]. Qed.
Lemma concat_fit : forall L l, Forall bytes_ok l -> (length (concat l) <= L)%nat -> Forall (fit L) l.
Proof.
  intros L l B Le. induction B as [|x l Hx Hl IH]; [constructor|]. cbn [List.concat] in Le. rewrite app_length in Le.
  constructor; [split; [exact Hx|lia]|apply IH; lia].
Qed.
Lemma stmts_fit : forall L pw s g, fit L s -> fitting L g ->
  step_fit L (parseQ s g) /\ step_fit L (parseP s g) /\ step_fit L (parseX s g) /\ step_fit L (parsep pw s g) /\ step_fit L (parseD s g) /\
  step_fit L (parseB s g) /\ step_fit L (parseS s g) /\ (forall x, parseE s g = Ok x -> step_fit L x).
Proof.
  intros L pw s g H G. repeat split.
  - unfold parseQ, field, at_end. destruct (parse_cstr s) as [[q r]|] eqn:E; [|exact I]. destruct (cstr_fit _ _ _ _ H E) as [Hq _].
    destruct r; [|exact I]. destruct (parse_query q) as [m|args t ps] eqn:Eq; [apply fault_fit; exact G|].
    destruct ps; [|apply fault_fit; exact G]. destruct (query_fits _ _ _ _ _ Hq Eq) as (A & B & _). split.
    + apply (Forall_impl _ (fun x => fit_more L (L + W * L) x (Nat.le_add_r _ _))). apply concat_fit; assumption.
    + destruct args; exact G.
  - unfold parseP, field, at_end. destruct (parse_cstr s) as [[name r1]|] eqn:E1; [|exact I]. destruct (cstr_fit _ _ _ _ H E1) as [_ H1].
    destruct (parse_cstr r1) as [[q r2]|] eqn:E2; [|exact I]. destruct (cstr_fit _ _ _ _ H1 E2) as [Hq H2].
    destruct (parse_bytes 2 r2) as [[cnt r3]|]; [|exact I]. destruct (skip_int32 _ r3) as [r4|]; [|exact I]. destruct r4; [|exact I].
    destruct (PGNAMEDATALEN <=? length name)%nat; [apply fault_fit; exact G|].
    destruct (parse_query q) as [m|args t ps] eqn:Eq; [apply fault_fit; exact G|]. destruct (query_fits _ _ _ _ _ Hq Eq) as (A & B & C).
    split; [constructor|]. destruct G as [G1 G2]. split; [|exact G2]. constructor; [|exact G1]. split; [exact A|]. split; [exact B|exact C].
  - unfold parseX, at_end. destruct s; [|exact I]. split; [constructor|exact G].
  - unfold parsep, field, at_end. destruct (parse_cstr s) as [[q r]|]; [|exact I]. destruct r; [|exact I]. destruct (beq q (cstr pw)); [|exact I].
    split; [constructor|exact G].
  - unfold parseD, field, at_end. destruct (has_flag FDescribe g); [exact I|]. destruct (parse_byte s) as [[ty r1]|]; [|exact I].
    destruct (parse_cstr r1) as [[name r2]|]; [|exact I]. destruct r2; [|exact I]. destruct ((ty =? 80) || (ty =? 81)).
    + destruct (by_name name (pg_portals g)); [|apply fault_fit; exact G]. split; [constructor|exact G].
    + destruct (ty =? 83); [|apply fault_fit; exact G]. destruct (by_name name (pg_stmts g)); [|apply fault_fit; exact G]. split; [constructor|exact G].
  - unfold parseB, field, at_end. destruct (parse_cstr s) as [[pn r1]|] eqn:E1; [|exact I]. destruct (cstr_fit _ _ _ _ H E1) as [_ H1].
    destruct (parse_cstr r1) as [[sn r2]|] eqn:E2; [|exact I]. destruct (cstr_fit _ _ _ _ H1 E2) as [_ H2].
    destruct (parse_int16 r2) as [[nf r3]|] eqn:E3; [|exact I]. pose proof (int16_fit _ _ _ _ H2 E3) as H3.
    destruct (formats (Z.to_nat nf) r3) as [[r4|]|] eqn:E4; [|apply fault_fit; exact G|exact I]. pose proof (formats_fit _ _ _ _ H3 E4) as H4.
    destruct (parse_bytes 2 r4) as [[np r5]|] eqn:E5; [|exact I]. destruct (bytes_fit _ _ _ _ _ H4 E5) as (Hn & H5 & Ln).
    destruct (bind_params (N.to_nat (read_be np)) r5 []) as [[ps r6]|] eqn:E6; [|exact I].
    destruct (bind_fit _ _ _ _ _ _ H5 (Forall_nil _) E6) as [F6 L6]. destruct (parse_bytes 2 r6) as [[nr r7]|]; [|exact I].
    destruct (skip_int16 _ r7) as [r8|]; [|exact I]. destruct r8; [|exact I].
    destruct (PGNAMEDATALEN <=? length pn)%nat; [apply fault_fit; exact G|]. destruct (PGNAMEDATALEN <=? length sn)%nat; [apply fault_fit; exact G|].
    split; [constructor|]. destruct G as [G1 G2]. split; [exact G1|]. constructor; [|exact G2]. split; [exact F6|]. cbn [snd p_params]. rewrite L6. cbn [List.length].
    apply (two_bytes L np Hn Ln).
  - unfold parseS, at_end. destruct s; [|exact I]. split; [constructor|exact G].
  - intros x E. unfold parseE in E. destruct (parse_cstr s) as [[pn r1]|]; [|injection E as <-; exact I].
    destruct (parse_int32 r1) as [[z [|]]|]; try (injection E as <-; exact I).
    destruct (by_name pn (pg_portals g)) as [p|] eqn:Ep; [|injection E as <-; apply fault_fit; exact G].
    destruct (by_name (p_stmt p) (pg_stmts g)) as [st|] eqn:Es; [|injection E as <-; apply fault_fit; exact G].
    destruct (Nat.eqb_spec (s_nparams st) (length (p_params p))) as [En|En]; [|injection E as <-; apply fault_fit; exact G]. cbn [negb] in E.
    destruct (exec_args (s_args st) (s_types st) (p_params p) []) as [[args|]|] eqn:Ex; [| |discriminate]; injection E as <-; [|apply fault_fit; exact G].
    split; [|exact G]. destruct G as [G1 G2]. destruct (by_name_fit _ _ _ _ G2 Ep) as [n1 [P1 P2]]. destruct (by_name_fit _ _ _ _ G1 Es) as [n2 (S1 & S2 & S3)].
    cbn [snd] in *. apply (exec_fit L _ _ _ [] 0 _ S1 P1 (Forall_nil _)) in Ex. eapply Forall_impl; [|exact Ex]. intros y. apply fit_more.
    rewrite S3, En. apply (Nat.mul_le_mono_r _ _ L) in P2. lia.
Qed.
Lemma pg_fit : forall L pw data g, fit L data -> fitting L g ->
  match parse_postgres pw data g with
  | Bad _ | Ok PgMore => True
  | Ok (PgWrong _ g') => fitting L g'
  | Ok (PgGot _ args g') => Forall (fit (L + W * L)) args /\ fitting L g'
  end.
Proof.
  intros L pw data g H G0. unfold parse_postgres. assert (G : fitting L (set_err None g)) by exact G0. revert G. generalize (set_err None g). clear g G0. intros g G.
  destruct data as [|b data]; [exact I|]. destruct (N.eqb_spec b 0) as [->|Nb].
  - unfold parse_magic. cbv zeta. repeat match goal with |- context [if ?x then _ else _] => destruct x end; try exact I; try exact G; (split; [constructor|exact G]).
  - rewrite parse_message_do. destruct (_ <? 5)%nat; [exact I|]. cbv zeta. destruct (_ || _); [exact I|]. unfold pg_do. cbv zeta.
    apply fit_cons in H. destruct H as [_ H]. set (body := firstn _ (skipn 4 data)).
    assert (Hb : fit L body) by (apply fit_firstn, fit_skipn; exact H). destruct (stmts_fit L pw body g Hb G) as (Q1 & Q2 & Q3 & Q4 & Q5 & Q6 & Q7 & Q8).
    clearbody body. set (m := signed 32 _). clearbody m.
    assert (St : forall n x, step_fit L x -> match (if (m <? 4)%Z then Bad OutOfBounds
      else match x with PgFail m0 => Ok (PgWrong m0 g) | PgStep args g' => Ok (PgGot n args g') end) with
      | Bad _ | Ok PgMore => True | Ok (PgWrong _ g') => fitting L g' | Ok (PgGot _ args g') => Forall (fit (L + W * L)) args /\ fitting L g' end).
    { intros n x X. destruct (m <? 4)%Z; [exact I|]. destruct x as [m0|args g']; [exact G|exact X]. }
    destruct (b =? 81); [apply St; assumption|]. destruct (b =? 80); [apply St; assumption|]. destruct (b =? 88); [apply St; assumption|].
    destruct (b =? 69); [destruct (parseE body g) as [x|]; [apply St; apply Q8; reflexivity|exact I]|].
    destruct (b =? 112); [apply St; assumption|]. destruct (b =? 68); [apply St; assumption|]. destruct (b =? 66); [apply St; assumption|].
    destruct (b =? 83); [apply St; assumption|]. destruct (m =? -1)%Z; [exact I|]. destruct (m =? 3)%Z; [exact G|split; [constructor|exact G]].
Qed.
Lemma respond_fit : forall L pw v tls g r, fitting L g -> pg_respond pw v tls g = Ok r -> fitting L (r_pg r).
Proof.
  intros L pw v tls g r G E. unfold pg_respond, auth_ok in E.
  repeat match type of E with
  | context [match ?x with _ => _ end] => destruct x
  end; try discriminate; injection E as <-; exact G.
Qed.
Lemma precommand_fit : forall M args g ws g' cmd, Forall (fit M) args -> pg_precommand args g = (ws, g', cmd) ->
  (pg_stmts g' = pg_stmts g /\ pg_portals g' = pg_portals g) /\ (forall l, cmd = Some l -> Forall (fit M) l).
Proof.
  intros M args g ws g' cmd F E. unfold pg_precommand in E.
  destruct args as [|a rest]; [injection E as _ <- <-; split; [split; reflexivity|intros l X; injection X as <-; exact F]|].
  inversion F as [|? ? _ Fr]; subst.
  destruct a as [|c a]; [injection E as _ <- <-; split; [split; reflexivity|intros l X; injection X as <-; exact F]|].
  repeat match type of E with context [if ?b then _ else _] => destruct b end.
  all: try (injection E as _ <- <-; split; [split; reflexivity|intros l X; first [discriminate|injection X as <-; assumption]]).
  all: destruct rest as [|x rest]; injection E as _ <- <-; (split; [split; reflexivity|intros l X; first [discriminate|injection X as <-; assumption]]).
Qed.

(** *** Turns *)
Lemma turn_fit : forall L cf data k t, (10 <= L)%nat -> fit L data -> fitting L (k_pg k) -> conn_turn cf data k = Ok t ->
  fitting L (k_pg (turn_conn t)) /\ (forall n k1 ws args, t = Turn n k1 ws (Some args) -> Forall (fit (L + W * L)) args).
Proof.
  intros L cf data k t HL H G E. rewrite conn_turn_of in E.
  assert (Up : forall l, Forall (fit L) l -> Forall (fit (L + W * L)) l).
  { intros l F. apply (Forall_impl _ (fun x => fit_more L (L + W * L) x (Nat.le_add_r _ _))). exact F. }
  assert (P : match parse_command cf data k with
    | Bad t => True
    | Ok x => fitting L (k_pg (conn_of x)) /\ (forall n args k1, x = CGot n args k1 -> Forall (fit (L + W * L)) args)
    end).
  { assert (By : forall p k0, fitting L (k_pg k0) -> match parse_by cf p data k0 with
    | Bad t => True
    | Ok x => fitting L (k_pg (conn_of x)) /\ (forall n args k1, x = CGot n args k1 -> Forall (fit (L + W * L)) args)
    end).
    { intros p k0 G0. destruct p; cbn [parse_by].
      - destruct (parse_memcache data) as [[| |n b args]|] eqn:Q; cbn [conn_of]; try exact I; (split; [exact G0|intros nn aa kk X; try discriminate]).
        injection X as _ <- _. apply Up. exact (memcache_fit L HL _ _ _ _ H Q).
      - pose proof (pg_fit L (cf_password cf) data (k_pg k0) H G0) as Q.
        destruct (parse_postgres _ _ _) as [[|m g|n args g]|]; cbn [conn_of with_pg k_pg]; try exact I.
        + split; [exact G0|intros; discriminate].
        + split; [exact Q|intros; discriminate].
        + split; [apply Q|]. intros n0 args0 k1 X. injection X as _ <- _. apply Q.
      - destruct (parse_http cf data) as [|m|args] eqn:Q; cbn [conn_of]; (split; [exact G0|intros nn aa kk X; try discriminate]).
        injection X as _ <- _. apply Up. exact (http_fit L HL _ _ _ H Q).
      - destruct (match data with [] => _ | _ => _ end).
        + destruct (parse_resp data) as [[| |n args]|] eqn:Q; cbn [conn_of]; try exact I; (split; [exact G0|intros nn aa kk X; try discriminate]).
          injection X as _ <- _. apply Up. exact (resp_fit L _ _ _ H Q).
        + destruct (parse_resp_telnet data) as [| |n args] eqn:Q; cbn [conn_of]; (split; [exact G0|intros nn aa kk X; try discriminate]).
          injection X as _ <- _. apply Up. exact (telnet_args_fit L _ _ _ H Q). }
    unfold parse_command. destruct (k_proto k) as [p|]; [exact (By p k G)|].
    destruct (sniff_proto data) as [p|]; [exact (By p (with_proto p k) G)|]. cbn [conn_of]. split; [exact G|intros; discriminate]. }
  destruct (parse_command cf data k) as [x|]; [|discriminate]. destruct P as [Gx Ax].
  destruct x as [k1|m n k1|n args k1]; cbn [turn_of conn_of] in *.
  - injection E as <-. split; [exact Gx|intros; discriminate].
  - destruct (k_proto k1) as [[]|]; injection E as <-; (split; [exact Gx|intros; discriminate]).
  - pose proof (Ax _ _ _ eq_refl) as Fa. destruct args as [|a args].
    + destruct (k_proto k1) as [[]|]; try discriminate; try (injection E as <-; split; [exact Gx|intros; discriminate]).
      destruct (pg_respond _ _ _ _) as [r|] eqn:Er; [|discriminate]. cbv zeta in E. pose proof (respond_fit _ _ _ _ _ _ Gx Er) as Gr.
      destruct (r_keep r); injection E as <-; (split; [exact Gr|intros; discriminate]).
    + assert (Fin : forall t0, t0 = Turn n k1 [] (Some (a :: args)) -> fitting L (k_pg (turn_conn t0)) /\ (forall n k1 ws args, t0 = Turn n k1 ws (Some args) -> Forall (fit (L + W * L)) args)).
      { intros t0 ->. split; [exact Gx|]. intros n0 k0 ws l X. injection X as _ _ _ <-. exact Fa. }
      destruct (k_proto k1) as [[]|]; try (injection E as <-; apply Fin; reflexivity).
      destruct (negb _); [injection E as <-; split; [exact Gx|intros; discriminate]|].
      destruct (pg_precommand (a :: args) (k_pg k1)) as [[ws g] cmd] eqn:Ep. injection E as <-.
      destruct (precommand_fit _ _ _ _ _ _ Fa Ep) as [[S1 S2] S3]. split.
      * cbn [turn_conn with_pg k_pg]. unfold fitting. rewrite S1, S2. exact Gx.
      * intros n0 k0 ws0 l X. injection X as _ _ _ ->. apply S3. reflexivity.
Qed.
Lemma fitting_new : forall L tls, fitting L (k_pg (conn_new tls)).
Proof. intros L tls. split; constructor. Qed.
