(** Facts about the HTTP parser. *)
From Verif Require Import Base Types Shard Text IntText CmdTable CmdSpec CmdsProofs RespProofs Prog Cmds Http HttpSpec.
From Coq Require Import String Lia.
Local Open Scope N_scope.
Notation length := List.length.
Notation concat := List.concat.

(** *** The first line *)
Lemma eqb_no : forall (b c : N) l, In c l -> ~ In c (b :: l) -> (b =? c) = false.
Proof. intros b c l A B. exfalso. apply B. right. exact A. Qed.
Lemma until_space_run : forall w d, ~ In 32 w -> ~ In 10 w -> until_space (w ++ 32 :: d) = Some (w, d).
Proof.
  induction w as [|b w IH]; intros d H1 H2; cbn [app until_space].
  - reflexivity.
  - replace (b =? 32) with false by (symmetry; apply N.eqb_neq; intros ->; apply H1; left; reflexivity).
    replace (b =? 10) with false by (symmetry; apply N.eqb_neq; intros ->; apply H2; left; reflexivity).
    rewrite IH; [reflexivity|intro X; apply H1; right; exact X|intro X; apply H2; right; exact X].
Qed.
Lemma split_at_run : forall c w d, ~ In c w -> split_at c (w ++ c :: d) = Some (w, d).
Proof.
  induction w as [|b w IH]; intros d H; cbn [app split_at].
  - rewrite N.eqb_refl. reflexivity.
  - replace (b =? c) with false by (symmetry; apply N.eqb_neq; intros ->; apply H; left; reflexivity).
    rewrite IH; [reflexivity|intro X; apply H; right; exact X].
Qed.
Lemma split_at_none : forall c w, ~ In c w -> split_at c w = None.
Proof.
  induction w as [|b w IH]; intros H; cbn [split_at]; [reflexivity|].
  replace (b =? c) with false by (symmetry; apply N.eqb_neq; intros ->; apply H; left; reflexivity).
  rewrite IH; [reflexivity|intro X; apply H; right; exact X].
Qed.
Lemma http_valid_key : forall k, http_valid k = true <-> http_key k.
Proof.
  intro k. unfold http_valid, http_key. rewrite andb_true_iff, negb_true_iff, orb_false_iff, Nat.eqb_neq, Nat.ltb_ge, forallb_forall, Forall_forall.
  assert (E : forall x, negb ((x <=? 32) || (127 <=? x) || (x =? 37) || (x =? 43) || (x =? 64) || (x =? 36) || (x =? 63) || (x =? 61)) = true
     <-> 32 < x /\ x < 127 /\ ~ In x (bs "%+@$?=")).
  { intro x. rewrite negb_true_iff, !orb_false_iff, !N.leb_gt, !N.eqb_neq.
    change (bs "%+@$?=") with [37; 43; 64; 36; 63; 61]. cbn [In]. split; [|intuition congruence].
    intros (((((((A & B) & C1) & C2) & C3) & C4) & C5) & C6). repeat split; try assumption. intuition congruence. }
  split.
  - intros ((A & B) & C). split; [ns; lia|]. intros x I. apply E. auto.
  - intros (A & C). split; [ns; lia|]. intros x I. apply E. exact (C x I).
Qed.
Lemma digit_range : forall b, is_digit b = true -> 48 <= b <= 57.
Proof. intros b H. unfold is_digit in H. apply andb_true_iff in H. rewrite !N.leb_le in H. lia. Qed.
Lemma version_run : forall a b, version_ok a b -> http_version (bs "HTTP/" ++ [a; 46; b; 13]) = true.
Proof.
  intros a b (A & B & V). change (bs "HTTP/") with [72; 84; 84; 80; 47]. cbn [app http_version]. rewrite A, B. cbn [andb].
  apply digit_range in A, B. apply andb_true_iff. rewrite N.leb_le, N.ltb_lt. lia.
Qed.

(** *** Headers *)
Definition after (d : bytes) (st : hstate) : hdrs_result :=
  match d with
  | 13 :: r' => match r' with 10 :: body => HdrBody st body | _ => HdrBad end
  | _ => headers d (InName []) st
  end.
Lemma after_name : forall b d st, b <> 13 -> after (b :: d) st = headers (b :: d) (InName []) st.
Proof.
  intros b d st H. unfold after. destruct b as [|[[[[]|[]|]|[[]|[]|]|]|[[[]|[]|]|[[]|[]|]|]|]]; try reflexivity. congruence.
Qed.
Lemma hdr_name : forall w d name st, ~ In 58 w -> headers (w ++ d) (InName name) st = headers d (InName (name ++ w)) st.
Proof.
  induction w as [|b w IH]; intros d name st H; cbn [app headers]; [rewrite app_nil_r; reflexivity|].
  replace (b =? 58) with false by (symmetry; apply N.eqb_neq; intros ->; apply H; left; reflexivity).
  rewrite IH by (intro X; apply H; right; exact X). rewrite <- app_assoc. reflexivity.
Qed.
Lemma hdr_spaces : forall n d name st, headers (repeat 32 n ++ d) (InSpaces name) st = headers d (InSpaces name) st.
Proof. induction n as [|n IH]; intros; [reflexivity|]. cbn [repeat app headers]. change (32 =? 32) with true. cbv iota. apply IH. Qed.
Lemma hdr_value : forall w d name v st, ~ In 10 w -> headers (w ++ d) (InValue name v) st = headers d (InValue name (v ++ w)) st.
Proof.
  induction w as [|b w IH]; intros d name v st H; cbn [app headers]; [rewrite app_nil_r; reflexivity|].
  replace (b =? 10) with false by (symmetry; apply N.eqb_neq; intros ->; apply H; left; reflexivity).
  rewrite IH by (intro X; apply H; right; exact X). rewrite <- app_assoc. reflexivity.
Qed.
Lemma snoc_last : forall (w : bytes) b, List.last (w ++ [b]) 0 = b.
Proof. induction w as [|x w IH]; intros; [reflexivity|]. cbn [app List.last]. destruct (w ++ [b]) eqn:E; [destruct w; discriminate|]. rewrite <- E. apply IH. Qed.
Lemma snoc_removelast : forall {A} (w : list A) b, removelast (w ++ [b]) = w.
Proof. intros. rewrite removelast_app by congruence. cbn. apply app_nil_r. Qed.
Lemma hdr_one : forall h d st, header_ok h ->
  headers (header_text h ++ d) (InName []) st =
  match header st (fst (fst h)) (snd h) with None => HdrBad | Some st' => after d st' end.
Proof.
  intros ((name & n) & value) d st (Hn & Fn & Fv & Hv). unfold header_text. cbn [fst snd].
  rewrite <- !app_assoc. rewrite hdr_name by (apply Fn; left; reflexivity). cbn [app].
  cbn [headers]. change (58 =? 58) with true. cbv iota. rewrite hdr_spaces.
  assert (E : forall t, headers (value ++ crlf ++ t) (InSpaces name) st = headers (10 :: t) (InValue name (value ++ [13])) st).
  { intro t. destruct value as [|b v].
    - cbn [app crlf headers]. reflexivity.
    - cbn [app]. cbn [headers]. cbn [hd] in Hv.
      replace (b =? 32) with false by (symmetry; apply N.eqb_neq; exact Hv).
      replace (b =? 10) with false by (symmetry; apply N.eqb_neq; intros ->; apply (Fv 10); left; reflexivity).
      change (v ++ crlf ++ t) with (v ++ ([13] ++ [10]) ++ t). rewrite <- app_assoc, app_assoc. rewrite hdr_value.
      + cbn [app]. reflexivity.
      + rewrite in_app_iff. cbn [In]. intros [X|[X|[]]]; [|discriminate]. apply (Fv 10); [left; reflexivity|right; exact X]. }
  rewrite E. cbn [headers]. change (10 =? 10) with true. cbv iota. rewrite snoc_last. change (13 =? 13) with true. cbv iota.
  rewrite snoc_removelast. reflexivity.
Qed.
Definition headers_fold (hs : list (bytes * nat * bytes)) (st : hstate) : option hstate :=
  fold_left (fun o h => match o with Some s => header s (fst (fst h)) (snd h) | None => None end) hs (Some st).
Lemma header_some : forall h st, (names "content-length" h = true -> exists x, nat_text (snd h) x /\ x <= 536870912) ->
  exists st', header st (fst (fst h)) (snd h) = Some st'.
Proof.
  intros h st H. unfold header. destruct (is_word (fst (fst h)) "content-length") eqn:W.
  - destruct H as (x & Hx & Bx). { unfold names. apply beq_eq. apply is_word_iff. exact W. }
    apply nat_text_parse in Hx. rewrite Hx. replace (x <=? 536870912) with true by (symmetry; apply N.leb_le; exact Bx). eauto.
  - destruct (is_word _ "connection"); [eauto|]. destruct (is_word _ "accept"); [eauto|].
    destruct (is_word _ "authorization"); eauto.
Qed.
Lemma header_text_hd : forall h d, header_ok h -> exists b t, header_text h ++ d = b :: t /\ b <> 13.
Proof.
  intros ((name & n) & value) d (Hn & Fn & _). destruct name as [|b name]; [congruence|]. exists b. eexists. split; [reflexivity|].
  intros ->. apply (Fn 13); [cbn; auto|left; reflexivity].
Qed.
Lemma hdr_all : forall hs d st, hs <> [] -> Forall header_ok hs -> content_lengths_ok hs ->
  exists st', headers_fold hs st = Some st' /\
    headers (concat (map header_text hs) ++ d) (InName []) st = after d st'.
Proof.
  induction hs as [|h hs IH]; intros d st Hn F C; [congruence|]. inversion F as [|? ? Fh Fs]; subst.
  cbn [map concat]. rewrite <- app_assoc. rewrite (hdr_one _ _ _ Fh).
  destruct (header_some h st) as (st1 & E1). { intro X. apply (C h); [left; reflexivity|exact X]. }
  rewrite E1. unfold headers_fold. cbn [fold_left]. rewrite E1. destruct hs as [|h2 hs].
  - exists st1. split; reflexivity.
  - destruct (IH d st1 ltac:(discriminate) Fs) as (st' & A & B). { intros x I. apply C. right. exact I. }
    exists st'. split; [exact A|]. rewrite <- B.
    destruct (header_text_hd h2 (concat (map header_text hs) ++ d)) as (b & t & Et & Eb). { inversion Fs; assumption. }
    cbn [map concat]. rewrite <- app_assoc. rewrite Et. apply after_name. exact Eb.
Qed.
Lemma hdr_wait : forall p m st, ~ In 10 p -> headers p m st = HdrMore.
Proof.
  induction p as [|b p IH]; intros m st H; [reflexivity|]. cbn [headers].
  assert (E : (b =? 10) = false) by (apply N.eqb_neq; intros ->; apply H; left; reflexivity).
  assert (H' : ~ In 10 p) by (intro X; apply H; right; exact X).
  destruct m; rewrite ?E; try (apply IH; exact H'). destruct (b =? 32); apply IH; exact H'.
Qed.
Lemma after_wait : forall p st, hd 0 p <> 13 -> ~ In 10 p -> after p st = HdrMore.
Proof.
  intros p st H N. destruct p as [|b p]; [reflexivity|]. rewrite (after_name b p st H). apply hdr_wait. exact N.
Qed.
Lemma header_text_lf : forall h, header_ok h -> exists t, header_text h = t ++ [10] /\ ~ In 10 t /\ hd 0 t <> 13.
Proof.
  intros ((name & n) & value) (Hn & Fn & Fv & _). exists (name ++ [58] ++ repeat 32 n ++ value ++ [13]). split; [|split].
  - unfold header_text, crlf. rewrite <- !app_assoc. reflexivity.
  - rewrite !in_app_iff. intros [X|[[X|[]]|[X|[X|[X|[]]]]]]; try discriminate.
    + apply (Fn 10); cbn; auto.
    + apply repeat_spec in X. discriminate.
    + apply (Fv 10); cbn; auto.
  - destruct name as [|b name]; [congruence|]. cbn [app hd]. intros ->. apply (Fn 13); cbn; auto.
Qed.
Lemma proper_no_lf : forall t p q, t ++ [10] = p ++ q -> q <> [] -> ~ In 10 t -> ~ In 10 p.
Proof.
  intros t p q E Q H. destruct (app_cut _ _ _ _ E) as [(l & -> & El)|(l & Nl & -> & _)].
  - destruct l as [|x l]; [rewrite app_nil_r; exact H|]. cbn in El. injection El as -> El.
    destruct l; [destruct q; [congruence|discriminate]|discriminate].
  - intro X. apply H. apply in_or_app. left. exact X.
Qed.
(** A proper part of the headers waits. *)
Lemma hdr_prefix : forall hs p q st, Forall header_ok hs -> content_lengths_ok hs ->
  concat (map header_text hs) = p ++ q -> headers p (InName []) st = HdrMore.
Proof.
  induction hs as [|h hs IH]; intros p q st F C E.
  - cbn in E. symmetry in E. apply app_eq_nil in E. destruct E as (-> & _). reflexivity.
  - inversion F as [|? ? Fh Fs]; subst. cbn [map concat] in E.
    destruct (app_cut _ _ _ _ E) as [(l & -> & El)|(l & Nl & Eh & _)].
    + rewrite (hdr_one _ _ _ Fh). destruct (header_some h st) as (st1 & E1). { intro X. apply (C h); [left; reflexivity|exact X]. }
      rewrite E1. assert (X : headers l (InName []) st1 = HdrMore).
      { apply (IH l q st1 Fs); [intros x I; apply C; right; exact I|exact El]. }
      destruct l as [|b l]; [reflexivity|]. rewrite after_name; [exact X|].
      destruct hs as [|h2 hs]; [discriminate El|]. destruct (header_text_hd h2 (concat (map header_text hs))) as (b' & t & Et & Eb).
      { inversion Fs; assumption. }
      cbn [map concat] in El. rewrite Et in El. injection El as <- _. exact Eb.
    + destruct (header_text_lf h Fh) as (t & Et & Nt & _). apply hdr_wait. apply (proper_no_lf t p l); [congruence|exact Nl|exact Nt].
Qed.

(** *** What the headers and the query leave behind *)
Lemma find_app : forall {A} (f : A -> bool) l m, find f (l ++ m) = match find f l with Some x => Some x | None => find f m end.
Proof. induction l as [|x l IH]; intro m; [reflexivity|]. cbn. destruct (f x); [reflexivity|apply IH]. Qed.
Lemma header_facts : forall h st st', header st (fst (fst h)) (snd h) = Some st' ->
  (if names "content-length" h then parse_u64 (snd h) = Some (h_len st') else h_len st' = h_len st) /\
  h_auth st' = (if names "authorization" h then snd h else h_auth st).
Proof.
  intros h st st' H. unfold header, names in *.
  assert (W : forall w, is_word (fst (fst h)) w = beq (lower (fst (fst h))) (bs w)).
  { intro w. destruct (is_word _ w) eqn:E; symmetry; [apply beq_eq, is_word_iff; exact E|apply beq_neq, is_word_no; exact E]. }
  rewrite !W in H.
  assert (D : forall a b, bs a <> bs b -> beq (lower (fst (fst h))) (bs a) = true -> beq (lower (fst (fst h))) (bs b) = false).
  { intros a b Hab X. apply beq_eq in X. rewrite X. apply beq_neq. exact Hab. }
  destruct (beq _ (bs "content-length")) eqn:E1.
  - rewrite (D "content-length"%string "authorization"%string ltac:(discriminate) E1).
    destruct (parse_u64 (snd h)) as [x|]; [|discriminate]. destruct (x <=? 536870912); [|discriminate]. injection H as <-. auto.
  - destruct (beq _ (bs "connection")) eqn:E2.
    { rewrite (D "connection"%string "authorization"%string ltac:(discriminate) E2). injection H as <-. auto. }
    destruct (beq _ (bs "accept")) eqn:E3.
    { rewrite (D "accept"%string "authorization"%string ltac:(discriminate) E3). injection H as <-. auto. }
    destruct (beq _ (bs "authorization")); injection H as <-; auto.
Qed.
Lemma fold_none : forall hs, fold_left (fun o (h : bytes * nat * bytes) => match o with Some s => header s (fst (fst h)) (snd h) | None => None end) hs None = None.
Proof. induction hs as [|h hs IH]; [reflexivity|]. cbn. exact IH. Qed.
Lemma headers_fold_facts : forall hs st st', headers_fold hs st = Some st' ->
  match last_header "content-length" hs with Some t => parse_u64 t = Some (h_len st') | None => h_len st' = h_len st end /\
  h_auth st' = match last_header "authorization" hs with Some t => t | None => h_auth st end.
Proof.
  induction hs as [|h hs IH]; intros st st' H.
  - injection H as <-. split; reflexivity.
  - unfold headers_fold in H. cbn [fold_left] in H. destruct (header st _ _) as [st1|] eqn:E1; [|rewrite fold_none in H; discriminate].
    destruct (IH st1 st' H) as (A & B). destruct (header_facts _ _ _ E1) as (C & D).
    unfold last_header in *. cbn [rev]. rewrite !find_app. cbn [find].
    split.
    + destruct (find (names "content-length") (rev hs)); [exact A|]. destruct (names "content-length" h); [congruence|congruence].
    + destruct (find (names "authorization") (rev hs)); [exact B|]. destruct (names "authorization" h); congruence.
Qed.

Lemma query_run_value : forall v name acc d, ~ In 38 v ->
  query_pairs (v ++ d) name (Some acc) = query_pairs d name (Some (acc ++ v)).
Proof.
  induction v as [|b v IH]; intros name acc d H; cbn [app query_pairs]; [rewrite app_nil_r; reflexivity|].
  replace (b =? 38) with false by (symmetry; apply N.eqb_neq; intros ->; apply H; left; reflexivity).
  rewrite IH by (intro X; apply H; right; exact X). rewrite <- app_assoc. reflexivity.
Qed.
Lemma query_run_name : forall w name d, ~ In 38 w -> ~ In 61 w -> d <> [] ->
  query_pairs (w ++ d) name None = query_pairs d (name ++ w) None.
Proof.
  induction w as [|b w IH]; intros name d H1 H2 Hd; cbn [app query_pairs]; [rewrite app_nil_r; reflexivity|].
  replace (b =? 38) with false by (symmetry; apply N.eqb_neq; intros ->; apply H1; left; reflexivity).
  replace (b =? 61) with false by (symmetry; apply N.eqb_neq; intros ->; apply H2; left; reflexivity).
  destruct (w ++ d) as [|c t] eqn:E; [apply app_eq_nil in E; destruct E; congruence|]. rewrite <- E.
  rewrite IH; [|intro X; apply H1; right; exact X|intro X; apply H2; right; exact X|exact Hd]. rewrite <- app_assoc. reflexivity.
Qed.
Lemma query_one : forall p, pair_ok p -> query_pairs (pair_text p) [] None = [p].
Proof.
  intros (name & value) (Hn & Fn & Fv). unfold pair_text. cbn [fst snd] in *. destruct value as [v|].
  - rewrite query_run_name; [|apply Fn; cbn; auto|apply Fn; cbn; auto|discriminate]. cbn [app query_pairs].
    change (61 =? 61) with true. cbv iota. rewrite <- (app_nil_r v) at 1. rewrite query_run_value by (apply Fv; cbn; auto). reflexivity.
  - rewrite app_nil_r. destruct (exists_last Hn) as (w & b & ->).
    assert (N38 : forall c, In c [61; 38] -> ~ In c (w ++ [b])) by (intros c I; apply Fn; cbn in *; tauto).
    rewrite query_run_name; [|intro X; apply (N38 38); [cbn; auto|apply in_or_app; auto]|intro X; apply (N38 61); [cbn; auto|apply in_or_app; auto]|discriminate].
    cbn [app query_pairs].
    replace (b =? 61) with false by (symmetry; apply N.eqb_neq; intros ->; apply (N38 61); [cbn; auto|apply in_or_app; cbn; auto]). reflexivity.
Qed.
Lemma joined_nonempty : forall p ps, pair_ok p -> joined_by [38] (map pair_text (p :: ps)) <> [].
Proof.
  intros (name & value) ps (Hn & _) E. cbn [fst] in Hn. destruct name as [|b name]; [congruence|]. cbn [map] in E.
  destruct (map pair_text ps); cbn in E; discriminate.
Qed.
Lemma query_all : forall q, Forall pair_ok q -> query_pairs (joined_by [38] (map pair_text q)) [] None = q.
Proof.
  induction 1 as [|p q P F IH]; [reflexivity|]. destruct q as [|p2 q].
  - cbn [map joined_by]. apply query_one. exact P.
  - change (joined_by [38] (map pair_text (p :: p2 :: q))) with (pair_text p ++ [38] ++ joined_by [38] (map pair_text (p2 :: q))).
    pose proof (joined_nonempty p2 q ltac:(inversion F; assumption)) as Jn. set (J := joined_by [38] (map pair_text (p2 :: q))) in *.
    destruct p as (name & value). destruct P as (Hn & Fn & Fv). unfold pair_text. cbn [fst snd] in *. destruct value as [v|].
    + rewrite <- !app_assoc. rewrite query_run_name; [|apply Fn; cbn; auto|apply Fn; cbn; auto|discriminate]. cbn [app query_pairs].
      change (61 =? 61) with true. cbv iota. rewrite query_run_value by (apply Fv; cbn; auto). cbn [app query_pairs].
      change (38 =? 38) with true. cbv iota. rewrite IH. reflexivity.
    + rewrite app_nil_r. rewrite query_run_name; [|apply Fn; cbn; auto|apply Fn; cbn; auto|discriminate]. cbn [app query_pairs].
      change (38 =? 61) with false. cbv iota. destruct J eqn:EJ; [congruence|]. rewrite <- EJ. change (38 =? 38) with true. cbv iota.
      rewrite EJ in *. rewrite IH. reflexivity.
Qed.
Ltac known_beq := repeat match goal with
  | |- context [beq (bs ?a) (bs ?b)] => let v := eval vm_compute in (beq (bs a) (bs b)) in change (beq (bs a) (bs b)) with v
  end.
Lemma query_fold_facts : forall q st, let st' := fold_left query_pair q st in
  let lastv ns d := match find (fun p => existsb (fun n => beq (fst p) (bs n)) ns) (rev q) with Some p => snd p | None => d end in
  q_ex st' = lastv ["ex"%string; "ttl"%string] (q_ex st) /\ q_flags st' = lastv ["flags"%string] (q_flags st) /\
  q_cas st' = lastv ["cas"%string] (q_cas st) /\ q_auth st' = lastv ["auth"%string] (q_auth st) /\
  q_xx st' = (q_xx st || existsb (fun p => beq (fst p) (bs "xx")) q) /\
  q_nx st' = (q_nx st || existsb (fun p => beq (fst p) (bs "nx")) q).
Proof.
  induction q as [|(name & v) q IH]; intros st st' lastv.
  - unfold st', lastv. cbn. rewrite !orb_false_r. repeat split; reflexivity.
  - destruct (IH (query_pair st (name, v))) as (A1 & A2 & A3 & A4 & A5 & A6). unfold st', lastv. cbn [fold_left rev existsb fst].
    rewrite A1, A2, A3, A4, A5, A6. rewrite !find_app. cbn [find existsb fst].
    unfold query_pair.
    destruct (beq name (bs "flags")) eqn:E1.
    { apply beq_eq in E1. subst name. known_beq. cbn [orb q_ex q_flags q_cas q_auth q_xx q_nx snd]. rewrite ?orb_false_l. repeat split; first [reflexivity|ns; match goal with |- match ?o with _ => _ end = _ => destruct o; reflexivity end]. }
    destruct (beq name (bs "ex")) eqn:E2.
    { apply beq_eq in E2. subst name. known_beq. cbn [orb q_ex q_flags q_cas q_auth q_xx q_nx snd]. rewrite ?orb_false_l. repeat split; first [reflexivity|ns; match goal with |- match ?o with _ => _ end = _ => destruct o; reflexivity end]. }
    destruct (beq name (bs "ttl")) eqn:E3.
    { apply beq_eq in E3. subst name. known_beq. cbn [orb q_ex q_flags q_cas q_auth q_xx q_nx snd]. rewrite ?orb_false_l. repeat split; first [reflexivity|ns; match goal with |- match ?o with _ => _ end = _ => destruct o; reflexivity end]. }
    destruct (beq name (bs "cas")) eqn:E4.
    { apply beq_eq in E4. subst name. known_beq. cbn [orb q_ex q_flags q_cas q_auth q_xx q_nx snd]. rewrite ?orb_false_l. repeat split; first [reflexivity|ns; match goal with |- match ?o with _ => _ end = _ => destruct o; reflexivity end]. }
    destruct (beq name (bs "xx")) eqn:E5.
    { apply beq_eq in E5. subst name. known_beq. cbn [orb q_ex q_flags q_cas q_auth q_xx q_nx snd]. rewrite ?orb_true_r, ?orb_false_l. repeat split; first [reflexivity|ns; match goal with |- match ?o with _ => _ end = _ => destruct o; reflexivity end]. }
    destruct (beq name (bs "nx")) eqn:E6.
    { apply beq_eq in E6. subst name. known_beq. cbn [orb q_ex q_flags q_cas q_auth q_xx q_nx snd]. rewrite ?orb_true_r, ?orb_false_l. repeat split; first [reflexivity|ns; match goal with |- match ?o with _ => _ end = _ => destruct o; reflexivity end]. }
    destruct (beq name (bs "auth")) eqn:E7; cbn [orb q_ex q_flags q_cas q_auth q_xx q_nx snd]; rewrite ?orb_false_l; repeat split; first [reflexivity|ns; match goal with |- match ?o with _ => _ end = _ => destruct o; reflexivity end].
Qed.
Lemma query_of_facts : forall q,
  let st := fold_left query_pair q (mkQState None None None None false false) in
  q_ex st = last_value ["ex"%string; "ttl"%string] q /\ q_flags st = last_value ["flags"%string] q /\
  q_cas st = last_value ["cas"%string] q /\ q_auth st = last_value ["auth"%string] q /\
  q_xx st = existsb (fun p => beq (fst p) (bs "xx")) q /\ q_nx st = existsb (fun p => beq (fst p) (bs "nx")) q.
Proof.
  intros q st. destruct (query_fold_facts q (mkQState None None None None false false)) as (A1 & A2 & A3 & A4 & A5 & A6).
  unfold last_value. repeat split; assumption.
Qed.

(** *** Whole requests *)
Definition parse_rest (cf : config) (r : http_req) (x : hdrs_result) : http_result :=
  match x with
  | HdrMore => HMore
  | HdrBad => badreq
  | HdrBody st d4 =>
      if (length d4 <? N.to_nat (h_len st))%nat then HMore
      else http_command cf (r_method r) (r_key r) (fold_left query_pair (r_query r) (mkQState None None None None false false))
             st (firstn (N.to_nat (h_len st)) d4)
  end.
Lemma joined_in : forall q b, In b (joined_by [38] (map pair_text q)) -> b = 38 \/ exists p, In p q /\ In b (pair_text p).
Proof.
  induction q as [|p q IH]; intros b H; [destruct H|]. destruct q as [|p2 q].
  - cbn [map joined_by] in H. right. exists p. split; [left; reflexivity|exact H].
  - change (joined_by [38] (map pair_text (p :: p2 :: q))) with (pair_text p ++ [38] ++ joined_by [38] (map pair_text (p2 :: q))) in H.
    rewrite !in_app_iff in H. destruct H as [H|[[H|[]]|H]].
    + right. exists p. split; [left; reflexivity|exact H].
    + left. symmetry. exact H.
    + destruct (IH b H) as [E|(p' & I & X)]; [left; exact E|right]. exists p'. split; [right; exact I|exact X].
Qed.
Lemma query_text_free : forall q b, Forall pair_ok q -> b = 32 \/ b = 10 -> ~ In b (query_text q).
Proof.
  intros q b F Hb H. unfold query_text in H. destruct q as [|p q]; [destruct H|]. rewrite in_app_iff in H.
  destruct H as [[H|[]]|H]; [subst; destruct Hb; discriminate|].
  destruct (joined_in _ _ H) as [->|(p' & I & X)]; [destruct Hb; discriminate|].
  rewrite Forall_forall in F. destruct (F p' I) as (_ & Fn & Fv). unfold pair_text in X. rewrite in_app_iff in X. destruct X as [X|X].
  - apply (Fn b); [cbn; intuition|exact X].
  - destruct (snd p') as [v|]; [|destruct X]. destruct X as [X|X]; [subst; destruct Hb; discriminate|]. apply (Fv b); [cbn; intuition|exact X].
Qed.
Lemma key_free : forall k b, http_key k -> b = 32 \/ b = 10 \/ b = 63 -> ~ In b k.
Proof.
  intros k b (_ & F) Hb H. rewrite Forall_forall in F. destruct (F b H) as (A & B & C).
  destruct Hb as [-> | [-> | ->]]; [lia|lia|]. apply C. change (bs "%+@$?=") with [37; 43; 64; 36; 63; 61]. cbn. tauto.
Qed.
Lemma parse_head : forall cf r d, req_ok r ->
  parse_http cf (first_line r ++ d) = parse_rest cf r (headers d (InName []) (mkHState 0 false [])).
Proof.
  intros cf r d (M & K & Q & V & _). unfold parse_http, first_line.
  assert (Mf : ~ In 32 (r_method r) /\ ~ In 10 (r_method r)).
  { destruct M as [-> | [-> | ->]]; vm_compute; split; intuition discriminate. }
  rewrite <- !app_assoc. cbn [app]. rewrite until_space_run by apply Mf.
  change (bs " HTTP/") with ([32] ++ bs "HTTP/"). cbn [app].
  match goal with |- context [until_space ?x] =>
    replace x with (([47] ++ r_key r ++ query_text (r_query r)) ++ 32 :: (bs "HTTP/" ++ [r_major r; 46; r_minor r; 13]) ++ 10 :: d)
      by (cbn [app]; rewrite <- !app_assoc; reflexivity) end.
  assert (Uf : forall b, b = 32 \/ b = 10 -> ~ In b ([47] ++ r_key r ++ query_text (r_query r))).
  { intros b Hb. rewrite !in_app_iff. intros [[X|[]]|[X|X]].
    - subst. destruct Hb; discriminate.
    - revert X. apply key_free; tauto.
    - revert X. apply query_text_free; assumption. }
  rewrite until_space_run by (apply Uf; tauto).
  rewrite split_at_run.
  2: { change (bs "HTTP/") with [72; 84; 84; 80; 47]. destruct V as (A & B & _). apply digit_range in A, B. cbn.
       intros X. decompose [or] X; try discriminate; try contradiction; lia. }
  rewrite (version_run _ _ V). cbn [negb]. unfold parse_rest.
  destruct (headers d (InName []) (mkHState 0 false [])) as [| |st d4]; try reflexivity.
  destruct (_ <? _)%nat; [reflexivity|]. cbn [app].
  destruct (r_query r) as [|p q] eqn:Eq.
  - cbn [query_text]. rewrite app_nil_r. rewrite split_at_none by (apply key_free; tauto). reflexivity.
  - unfold query_text. cbn [app].
    rewrite split_at_run by (apply key_free; tauto). unfold query_of. rewrite (query_all _ Q). reflexivity.
Qed.
Lemma header_full : forall r d, req_ok r -> exists st,
  headers (concat (map header_text (r_headers r)) ++ crlf ++ d) (InName []) (mkHState 0 false []) = HdrBody st d /\
  N.to_nat (h_len st) = length (r_body r) /\
  h_auth st = match last_header "authorization" (r_headers r) with Some t => t | None => [] end.
Proof.
  intros r d (_ & _ & _ & _ & Hn & F & C & B).
  destruct (hdr_all (r_headers r) (crlf ++ d) (mkHState 0 false []) Hn F C) as (st & E & H). exists st. rewrite H. split; [reflexivity|].
  destruct (headers_fold_facts _ _ _ E) as (L & A). split; [|exact A]. unfold body_ok in B.
  destruct (last_header "content-length" (r_headers r)) as [t|].
  - apply nat_text_parse in B. rewrite B in L. injection L as <-. apply Nnat.Nat2N.id.
  - cbn [h_len] in L. rewrite L, B. reflexivity.
Qed.
Definition auth_check (useauth : bool) (password : bytes) (r : http_req) (x : http_result) : http_result :=
  let check (v : bytes) := if (useauth || negb (beq v [])) && negb (beq v password) then unauthorized else x in
  match last_value ["auth"%string] (r_query r) with
  | Some (b :: v) => check (b :: v)
  | _ =>
      match match last_header "authorization" (r_headers r) with Some t => t | None => [] end with
      | [] => check []
      | h => if has_prefix (bs "Bearer ") h then check (skipn 7 h) else unauthorized
      end
  end.
Lemma http_full : forall cf r rest, req_ok r ->
  parse_http cf (req_text r ++ rest) = auth_check (cf_useauth cf) (cf_password cf) r (HGot (req_args r)).
Proof.
  intros cf r rest R. unfold req_text, head_text. rewrite <- !app_assoc. rewrite (parse_head cf r _ R).
  destruct (header_full r (r_body r ++ rest) R) as (st & E & L & A). rewrite E. unfold parse_rest. rewrite L.
  rewrite app_length. replace (length (r_body r) + length rest <? length (r_body r))%nat with false by (symmetry; apply Nat.ltb_ge; lia).
  rewrite firstn_app, firstn_all, Nat.sub_diag. cbn [firstn]. rewrite app_nil_r.
  destruct (query_of_facts (r_query r)) as (Q1 & Q2 & Q3 & Q4 & Q5 & Q6).
  set (q := fold_left query_pair (r_query r) (mkQState None None None None false false)) in *.
  assert (X : forall args, http_auth cf st q args = auth_check (cf_useauth cf) (cf_password cf) r (HGot args)).
  { intro args. unfold http_auth, auth_check. rewrite Q4, A. reflexivity. }
  destruct R as (M & K & _). pose proof K as K'. apply http_valid_key in K'.
  assert (At : (hd 0 (r_key r) =? 64) = false).
  { apply N.eqb_neq. intro H. destruct K as ((K1 & _) & F). destruct (r_key r) as [|b k]; [cbn in K1; lia|]. cbn [hd] in H. subst b.
    inversion F as [|? ? (_ & _ & N64) _]; subst. apply N64. change (bs "%+@$?=") with [37; 43; 64; 36; 63; 61]. cbn. tauto. }
  assert (Kn : beq (r_key r) [] = false). { apply beq_neq. intro H. destruct K as ((K1 & _) & _). rewrite H in K1. cbn in K1. lia. }
  unfold http_command, req_args. rewrite At, Kn, K'. cbn [negb]. rewrite !X.
  rewrite Q1, Q2, Q3, Q5, Q6. unfold http_opt, given_opt.
  destruct M as [-> | [-> | ->]]; known_beq; reflexivity.
Qed.
Lemma has_prefix_iff : forall p d, has_prefix p d = true <-> exists t, d = p ++ t.
Proof.
  induction p as [|x p IH]; intro d; cbn [has_prefix app].
  - split; [eauto|reflexivity].
  - destruct d as [|y d]; [split; [discriminate|intros (t & E); discriminate]|]. rewrite andb_true_iff, N.eqb_eq, IH. split.
    + intros (-> & t & ->). eauto.
    + intros (t & E). injection E as -> ->. eauto.
Qed.
Lemma auth_check_yes : forall u pw r x, authorized u pw r -> auth_check u pw r x = x.
Proof.
  intros u pw r x (t & P & W).
  assert (C : (u || negb (beq t [])) && negb (beq t pw) = false).
  { destruct W as [->|(-> & ->)]; [rewrite beq_refl; cbn; apply andb_false_r|reflexivity]. }
  unfold auth_check. destruct P as [t L Hn|t L H|L H].
  - rewrite L. destruct t as [|b t]; [congruence|]. rewrite C. reflexivity.
  - assert (E : match last_value ["auth"%string] (r_query r) with Some (_ :: _) => False | _ => True end) by (destruct L as [->| ->]; exact I).
    rewrite H. destruct (last_value _ _) as [[|? ?]|]; try contradiction.
    + replace (bs "Bearer " ++ t) with (66 :: (tl (bs "Bearer ") ++ t)) by reflexivity.
      replace (has_prefix (bs "Bearer ") (66 :: tl (bs "Bearer ") ++ t)) with true by (symmetry; apply has_prefix_iff; exists t; reflexivity).
      replace (skipn 7 (66 :: tl (bs "Bearer ") ++ t)) with t by reflexivity. rewrite C. reflexivity.
    + replace (bs "Bearer " ++ t) with (66 :: (tl (bs "Bearer ") ++ t)) by reflexivity.
      replace (has_prefix (bs "Bearer ") (66 :: tl (bs "Bearer ") ++ t)) with true by (symmetry; apply has_prefix_iff; exists t; reflexivity).
      replace (skipn 7 (66 :: tl (bs "Bearer ") ++ t)) with t by reflexivity. rewrite C. reflexivity.
  - destruct L as [-> | ->]; destruct H as [-> | ->]; rewrite C; reflexivity.
Qed.
Lemma auth_check_no : forall u pw r x, ~ authorized u pw r -> auth_check u pw r x = unauthorized.
Proof.
  intros u pw r x N. unfold auth_check.
  assert (C : forall t, presents r t -> (if (u || negb (beq t [])) && negb (beq t pw) then unauthorized else x) = unauthorized).
  { intros t P. destruct (beq t pw) eqn:E1.
    - exfalso. apply N. exists t. split; [exact P|]. left. apply beq_eq. exact E1.
    - destruct u; cbn [orb andb negb]; [reflexivity|]. destruct (beq t []) eqn:E2; [|reflexivity].
      exfalso. apply N. exists t. split; [exact P|]. right. split; [reflexivity|apply beq_eq; exact E2]. }
  destruct (last_value ["auth"%string] (r_query r)) as [[|b v]|] eqn:L.
  2: { apply C. apply pr_query; [exact L|discriminate]. }
  1,2: destruct (last_header "authorization" (r_headers r)) as [h|] eqn:H.
  2,4: apply C; apply pr_none; tauto.
  1,2: destruct h as [|c h]; [apply C; apply pr_none; tauto|].
  1,2: destruct (has_prefix (bs "Bearer ") (c :: h)) eqn:P; [|reflexivity].
  1,2: apply has_prefix_iff in P; destruct P as (t & P); rewrite P in H.
  1,2: replace (skipn 7 (c :: h)) with t by (rewrite P; reflexivity).
  1,2: apply C; apply pr_bearer; tauto.
Qed.
Lemma http_short : forall cf r p q, req_ok r -> req_text r = first_line r ++ p ++ q -> q <> [] -> q <> [10] ++ r_body r ->
  parse_http cf (first_line r ++ p) = HMore.
Proof.
  intros cf r p q R E Q1 Q2. unfold req_text, head_text in E. rewrite <- !app_assoc in E. apply app_inv_head in E.
  rewrite (parse_head cf r _ R). destruct (app_cut _ _ _ _ E) as [(l & -> & El)|(l & Nl & Eh & _)].
  - destruct l as [|b1 l].
    + rewrite app_nil_r. destruct R as (_ & _ & _ & _ & _ & F & C & _). rewrite (hdr_prefix _ _ [] _ F C); [reflexivity|].
      rewrite app_nil_r. reflexivity.
    + destruct l as [|b2 l].
      * exfalso. apply Q2. injection El as _ El. symmetry. exact El.
      * injection El as <- <- El. change (13 :: 10 :: l) with (crlf ++ l).
        destruct (header_full r l R) as (st & E' & L & _). rewrite E'. unfold parse_rest. rewrite L.
        replace (length l <? length (r_body r))%nat with true; [reflexivity|]. symmetry. apply Nat.ltb_lt. rewrite El, app_length.
        destruct q; [congruence|]. cbn [length]. lia.
  - destruct R as (_ & _ & _ & _ & _ & F & C & _). rewrite (hdr_prefix _ _ l _ F C Eh). reflexivity.
Qed.

(** *** What is accepted *)
Ltac apps := unfold bytes; change byte with N; cbn [app]; repeat (rewrite <- app_assoc; cbn [app]); reflexivity.
Lemma until_space_inv : forall d w r, until_space d = Some (w, r) -> d = w ++ 32 :: r.
Proof.
  induction d as [|b d IH]; intros w r; cbn [until_space]; [discriminate|].
  destruct (N.eqb_spec b 32) as [->|]; [intro H; injection H as <- <-; reflexivity|].
  destruct (b =? 10); [discriminate|]. destruct (until_space d) as [(w' & q)|]; [|discriminate].
  intro H. injection H as <- <-. rewrite (IH _ _ eq_refl). reflexivity.
Qed.
Lemma split_at_inv : forall c d w r, split_at c d = Some (w, r) -> d = w ++ c :: r.
Proof.
  induction d as [|b d IH]; intros w r; cbn [split_at]; [discriminate|].
  destruct (N.eqb_spec b c) as [->|]; [intro H; injection H as <- <-; reflexivity|].
  destruct (split_at c d) as [(w' & q)|]; [|discriminate].
  intro H. injection H as <- <-. rewrite (IH _ _ eq_refl). reflexivity.
Qed.
Definition mode_text (m : hmode) : bytes := match m with InValue _ v => v | _ => [] end.
Lemma last_removelast : forall (v : bytes) b, v <> [] -> last v 0 = b -> v = removelast v ++ [b].
Proof. intros v b H <-. apply app_removelast_last. exact H. Qed.
Lemma header_auth_inv : forall st name value st', header st name value = Some st' ->
  h_auth st' = h_auth st \/ h_auth st' = value.
Proof.
  intros st name value st'. unfold header. destruct (is_word _ "content-length").
  - destruct (parse_u64 value) as [x|]; [|discriminate]. destruct (x <=? _); [|discriminate]. intro H. injection H as <-. auto.
  - destruct (is_word _ "connection"); [intro H; injection H as <-; auto|].
    destruct (is_word _ "accept"); [intro H; injection H as <-; auto|].
    destruct (is_word _ "authorization"); intro H; injection H as <-; auto.
Qed.
Lemma headers_inv : forall n d m st0 st d4, (length d <= n)%nat -> headers d m st0 = HdrBody st d4 ->
  (exists a, d = a ++ d4) /\
  (h_auth st = h_auth st0 \/ exists a b, mode_text m ++ d = a ++ h_auth st ++ crlf ++ b).
Proof.
  induction n as [|n IH]; intros d m st0 st d4 Ln H; (destruct d as [|b d]; [discriminate H|]); [cbn in Ln; lia|].
  cbn [length] in Ln. cbn [headers] in H. destruct m as [name|name|name value].
  - destruct (IH d _ st0 st d4 ltac:(lia) H) as ((a & ->) & A). split; [exists (b :: a); reflexivity|].
    destruct A as [A|(x & y & E)]; [left; exact A|right]. exists (b :: x), y. cbn [mode_text app]. f_equal.
    destruct (b =? 58); exact E.
  - destruct (b =? 32).
    + destruct (IH d _ st0 st d4 ltac:(lia) H) as ((a & ->) & A). split; [exists (b :: a); reflexivity|].
      destruct A as [A|(x & y & E)]; [left; exact A|right]. exists (b :: x), y. cbn [mode_text app] in *. f_equal. exact E.
    + destruct (b =? 10); [discriminate|].
      destruct (IH d _ st0 st d4 ltac:(lia) H) as ((a & ->) & A). split; [exists (b :: a); reflexivity|].
      destruct A as [A|(x & y & E)]; [left; exact A|right]. exists x, y. exact E.
  - destruct (N.eqb_spec b 10) as [->|Nb].
    + destruct (last value 0 =? 13) eqn:L; [|discriminate]. apply N.eqb_eq in L.
      destruct value as [|v0 value']; [discriminate L|]. remember (v0 :: value') as value eqn:Ev.
      pose proof (last_removelast value 13 ltac:(subst; discriminate) L) as Ev2.
      destruct (header st0 name (removelast value)) as [st1|] eqn:Hd; [|discriminate].
      assert (X : (exists a, d = a ++ d4) /\ (h_auth st = h_auth st1 \/ exists x y, d = x ++ h_auth st ++ crlf ++ y)).
      { destruct d as [|c d']; [discriminate H|].
        destruct (N.eq_dec c 13) as [->|Nc].
        - destruct d' as [|c2 d2]; [discriminate H|]. destruct (N.eq_dec c2 10) as [->|Nc2].
          + injection H as <- <-. split; [exists [13; 10]; reflexivity|left; reflexivity].
          + exfalso. clear -H Nc2. destruct c2 as [|[[[[]|[]|]|[[]|[]|]|]|[[[]|[]|]|[[]|[]|]|]|]]; try discriminate H. congruence.
        - assert (H' : headers (c :: d') (InName []) st1 = HdrBody st d4).
          { destruct c as [|[[[[]|[]|]|[[]|[]|]|]|[[[]|[]|]|[[]|[]|]|]|]]; try exact H. congruence. }
          destruct (IH (c :: d') _ st1 st d4 ltac:(lia) H') as (A & B). split; [exact A|]. destruct B as [B|(x & y & E)]; [left; exact B|right; eauto]. }
      destruct X as ((a & Ed) & X). split; [exists (10 :: a); rewrite Ed; reflexivity|].
      destruct X as [X|(x & y & E)].
      * destruct (header_auth_inv _ _ _ _ Hd) as [Y|Y]; [left; congruence|right].
        exists [], d. cbn [mode_text app]. rewrite X, Y. rewrite Ev2 at 1. apps.
      * right. exists (value ++ 10 :: x), y. cbn [mode_text]. rewrite E at 1. apps.
    + destruct (IH d _ st0 st d4 ltac:(lia) H) as ((a & ->) & A). split; [exists (b :: a); reflexivity|].
      destruct A as [A|(x & y & E)]; [left; exact A|right]. exists x, y. cbn [mode_text] in *. rewrite <- E. apps.
Qed.
Lemma query_pairs_inv : forall q name val n v, In (n, Some v) (query_pairs q name val) ->
  exists a b, name ++ match val with Some x => 61 :: x | None => [] end ++ q = a ++ n ++ [61] ++ v ++ b /\ (b = [] \/ hd 0 b = 38).
Proof.
  induction q as [|c q IH]; intros name val n v H.
  - destruct val as [x|]; [|destruct H]. destruct H as [H|[]]. injection H as -> ->. exists [], []. split; [|auto].
    cbn [app]. rewrite !app_nil_r. reflexivity.
  - cbn [query_pairs] in H. destruct val as [x|].
    + destruct (N.eqb_spec c 38) as [->|Nc].
      * destruct H as [H|H].
        -- injection H as -> ->. exists [], (38 :: q). split; [|auto]. apps.
        -- destruct (IH [] None n v H) as (a & b & E & Hb). exists (name ++ (61 :: x) ++ 38 :: a), b. split; [|exact Hb].
           cbn [app] in E. rewrite E. apps.
      * destruct (IH name (Some (x ++ [c])) n v H) as (a & b & E & Hb). exists a, b. split; [|exact Hb]. rewrite <- E.
        apps.
    + destruct (N.eqb_spec c 61) as [->|Nc].
      * destruct (IH name (Some []) n v H) as (a & b & E & Hb). exists a, b. split; [|exact Hb]. rewrite <- E. reflexivity.
      * destruct q as [|c2 q]; [destruct H as [H|[]]; discriminate|]. destruct (N.eqb_spec c 38) as [->|Nc2].
        -- destruct H as [H|H]; [discriminate|]. destruct (IH [] None n v H) as (a & b & E & Hb). exists (name ++ 38 :: a), b. split; [|exact Hb].
           cbn [app] in *. rewrite E. apps.
        -- destruct (IH (name ++ [c]) None n v H) as (a & b & E & Hb). exists a, b. split; [|exact Hb]. rewrite <- E.
           apps.
Qed.
Lemma q_auth_inv : forall q v, q_auth (query_of q) = Some v ->
  exists a b, q = a ++ bs "auth=" ++ v ++ b /\ (b = [] \/ hd 0 b = 38).
Proof.
  intros q v H. unfold query_of in H. destruct (query_of_facts (query_pairs q [] None)) as (_ & _ & _ & A & _). rewrite A in H.
  unfold last_value in H. destruct (find _ _) as [(n & w)|] eqn:F; [|discriminate]. cbn [snd] in H. subst w.
  apply find_some in F. destruct F as (I & B). apply in_rev in I. cbn [existsb fst] in B. rewrite orb_false_r in B. apply beq_eq in B. subst n.
  destruct (query_pairs_inv _ _ _ _ _ I) as (a & b & E & Hb). exists a, b. split; [|exact Hb]. cbn [app] in E. exact E.
Qed.
Lemma http_auth_inv : forall cf st q args args', http_auth cf st q args = HGot args' -> cf_useauth cf = true -> cf_password cf <> [] ->
  args' = args /\ ((q_auth q = Some (cf_password cf)) \/ h_auth st = bs "Bearer " ++ cf_password cf).
Proof.
  intros cf st q args args' H U P. unfold http_auth in H. rewrite U in H. cbn [orb andb] in H.
  assert (C : forall v, (if negb (beq v (cf_password cf)) then unauthorized else HGot args) = HGot args' -> args' = args /\ v = cf_password cf).
  { intros v X. destruct (beq v (cf_password cf)) eqn:E; [|discriminate X]. injection X as <-. split; [reflexivity|apply beq_eq; exact E]. }
  assert (B : match h_auth st with
      | [] => if negb (beq [] (cf_password cf)) then unauthorized else HGot args
      | h => if has_prefix (bs "Bearer ") h then (if negb (beq (skipn 7 h) (cf_password cf)) then unauthorized else HGot args) else unauthorized
      end = HGot args' -> args' = args /\ h_auth st = bs "Bearer " ++ cf_password cf).
  { intro X. destruct (h_auth st) as [|c h]; [destruct (C _ X); congruence|].
    cbv beta iota zeta in X. destruct (has_prefix (bs "Bearer ") (c :: h)) eqn:Pf; [|discriminate X]. destruct (C _ X) as (E1 & E2). split; [exact E1|].
    apply has_prefix_iff in Pf. destruct Pf as (t & Pf). rewrite Pf in *. f_equal. rewrite <- E2. reflexivity. }
  destruct (q_auth q) as [[|c v]|]; [tauto| |tauto].
  destruct (C _ H) as (E1 & E2). split; [exact E1|]. left. congruence.
Qed.
Lemma http_auth_got : forall cf st q args args', http_auth cf st q args = HGot args' -> args' = args.
Proof.
  intros cf st q args args'. unfold http_auth.
  assert (C : forall v, (if (cf_useauth cf || negb (beq v [])) && negb (beq v (cf_password cf)) then unauthorized else HGot args) = HGot args' -> args' = args).
  { intro v. destruct (_ && _); intro X; [discriminate X|]. injection X as <-. reflexivity. }
  destruct (q_auth q) as [[|c v]|]; try apply C; (destruct (h_auth st) as [|d h]; [apply C|]; destruct (has_prefix _ _); [apply C|discriminate]).
Qed.
Lemma http_command_inv : forall cf method key q st body args, http_command cf method key q st body = HGot args ->
  http_key key /\ http_shape method key body args /\
  (cf_useauth cf = true -> cf_password cf <> [] -> q_auth q = Some (cf_password cf) \/ h_auth st = bs "Bearer " ++ cf_password cf).
Proof.
  intros cf method key q st body args H. unfold http_command in H.
  destruct (beq method (bs "GET")) eqn:M1; [apply beq_eq in M1|destruct (beq method (bs "PUT")) eqn:M2; [apply beq_eq in M2|destruct (beq method (bs "DELETE")) eqn:M3; [apply beq_eq in M3|discriminate H]]];
    (destruct (hd 0 key =? 64); [discriminate H|]).
  - destruct (beq key []); [discriminate H|]. destruct (http_valid key) eqn:V; [|discriminate H]. cbn [negb] in H. apply http_valid_key in V.
    split; [exact V|]. split.
    + left. split; [exact M1|]. exact (http_auth_got _ _ _ _ _ H).
    + intros U P. apply (http_auth_inv _ _ _ _ _ H U P).
  - destruct (http_valid key) eqn:V; [|discriminate H]. cbn [negb] in H. apply http_valid_key in V. split; [exact V|]. split.
    + right. right. split; [exact M2|]. eexists. exact (http_auth_got _ _ _ _ _ H).
    + intros U P. apply (http_auth_inv _ _ _ _ _ H U P).
  - destruct (http_valid key) eqn:V; [|discriminate H]. cbn [negb] in H. apply http_valid_key in V. split; [exact V|]. split.
    + right. left. split; [exact M3|]. exact (http_auth_got _ _ _ _ _ H).
    + intros U P. apply (http_auth_inv _ _ _ _ _ H U P).
Qed.
Lemma http_inv : forall cf s args, parse_http cf s = HGot args ->
  exists method key c rest body, s = method ++ [32; 47] ++ key ++ c :: rest /\ (c = 32 \/ c = 63) /\ http_key key /\
    (exists a b, rest = a ++ body ++ b) /\ http_shape method key body args /\
    (cf_useauth cf = true -> cf_password cf <> [] -> shows s (cf_password cf)).
Proof.
  intros cf s args H. unfold parse_http in H.
  destruct (until_space s) as [(method & d1)|] eqn:E1; [|discriminate]. apply until_space_inv in E1.
  destruct (until_space d1) as [(uri & d2)|] eqn:E2; [|discriminate]. apply until_space_inv in E2.
  destruct (split_at 10 d2) as [(line & d3)|] eqn:E3; [|discriminate]. apply split_at_inv in E3.
  destruct (negb (http_version line)); [discriminate|].
  destruct (headers d3 (InName []) (mkHState 0 false [])) as [| |st d4] eqn:Eh; try discriminate.
  destruct (headers_inv _ _ _ _ _ _ (le_n _) Eh) as ((a4 & E4) & Ha). cbn [mode_text app h_auth] in Ha.
  destruct (_ <? _)%nat; [discriminate|].
  destruct uri as [|b path]; [discriminate|].
  assert (Hb : b = 47). { destruct b as [|[[[[[[]|[]|]|[[]|[]|]|]|[[[]|[]|]|[[]|[]|]|]|]|[[[[]|[]|]|[[]|[]|]|]|[[[]|[]|]|[[]|[]|]|]|]|]|[[[[[]|[]|]|[[]|[]|]|]|[[[]|[]|]|[[]|[]|]|]|]|[[[[]|[]|]|[[]|[]|]|]|[[[]|[]|]|[[]|[]|]|]|]|]|]]; try discriminate H; reflexivity. }
  subst b.
  assert (Bd : forall pre, exists a b, pre ++ line ++ 10 :: a4 ++ d4 = a ++ firstn (N.to_nat (h_len st)) d4 ++ b).
  { intro pre. exists (pre ++ line ++ 10 :: a4), (skipn (N.to_nat (h_len st)) d4). rewrite firstn_skipn. apps. }
  destruct (split_at 63 path) as [(key & q)|] eqn:E5.
  - apply split_at_inv in E5. apply http_command_inv in H. destruct H as (K & Sp & Au).
    exists method, key, 63, (q ++ 32 :: line ++ 10 :: a4 ++ d4), (firstn (N.to_nat (h_len st)) d4).
    assert (Es : s = method ++ [32; 47] ++ key ++ 63 :: q ++ 32 :: line ++ 10 :: a4 ++ d4).
    { rewrite E1, E2, E5, E3, E4. apps. }
    split; [exact Es|]. split; [auto|]. split; [exact K|]. split.
    { destruct (Bd (q ++ [32])) as (a & b & E). exists a, b. rewrite <- E. apps. }
    split; [exact Sp|]. intros U P. destruct (Au U P) as [A|A].
    + destruct (q_auth_inv _ _ A) as (a & b & Eq & Hb). destruct Hb as [->|Hb].
      * exists (method ++ [32; 47] ++ key ++ 63 :: a), (line ++ 10 :: a4 ++ d4). right. exists 32. split; [auto|].
        rewrite Es, Eq. apps.
      * destruct b as [|c b]; [discriminate Hb|]. cbn [hd] in Hb. subst c.
        exists (method ++ [32; 47] ++ key ++ 63 :: a), (b ++ 32 :: line ++ 10 :: a4 ++ d4). right. exists 38. split; [auto|].
        rewrite Es, Eq. apps.
    + destruct Ha as [Ha|(x & y & Ha)]; [rewrite Ha in A; discriminate A|].
      exists (method ++ [32; 47] ++ key ++ 63 :: q ++ 32 :: line ++ 10 :: x), y. left.
      rewrite Es, <- E4, Ha, A. apps.
  - apply http_command_inv in H. destruct H as (K & Sp & Au).
    exists method, path, 32, (line ++ 10 :: a4 ++ d4), (firstn (N.to_nat (h_len st)) d4).
    assert (Es : s = method ++ [32; 47] ++ path ++ 32 :: line ++ 10 :: a4 ++ d4).
    { rewrite E1, E2, E3, E4. apps. }
    split; [exact Es|]. split; [auto|]. split; [exact K|]. split.
    { destruct (Bd []) as (a & b & E). exists a, b. exact E. }
    split; [exact Sp|]. intros U P. destruct (Au U P) as [A|A]; [discriminate A|].
    destruct Ha as [Ha|(x & y & Ha)]; [rewrite Ha in A; discriminate A|].
    exists (method ++ [32; 47] ++ path ++ 32 :: line ++ 10 :: x), y. left.
    rewrite Es, <- E4, Ha, A. apps.
Qed.
