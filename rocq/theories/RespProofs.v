(** Facts about the RESP and telnet parsers. *)
From Verif Require Import Base Types Shard Text IntText IntTextProofs Resp RespSpec.
From Coq Require Import String.
Local Open Scope N_scope.
Notation length := List.length.
Notation concat := List.concat.

Ltac ns := unfold bytes in *; change byte with N in *.
Lemma find_byte_app : forall b t s, ~ In b t -> find_byte b (t ++ b :: s) = Some (length t).
Proof.
  induction t as [|x t IH]; intros s H; cbn [app find_byte length].
  - rewrite N.eqb_refl. reflexivity.
  - replace (x =? b) with false by (symmetry; apply N.eqb_neq; intros ->; apply H; left; reflexivity).
    rewrite IH by (intros I; apply H; right; exact I). reflexivity.
Qed.
Lemma find_byte_none : forall b s, find_byte b s = None <-> ~ In b s.
Proof.
  induction s as [|x s IH]; cbn [find_byte In]; [tauto|].
  destruct (N.eqb_spec x b) as [->|Ne].
  - split; [discriminate|]. intros H. destruct H. left. reflexivity.
  - destruct (find_byte b s) as [p|]; cbn [option_map].
    + split; [discriminate|]. intros H. assert (X : Some p = None) by (apply IH; tauto). discriminate X.
    + split; [|reflexivity]. intros _ [E|I]; [congruence|]. apply (proj1 IH eq_refl). exact I.
Qed.
Lemma find_byte_some : forall b s p, find_byte b s = Some p ->
  s = firstn p s ++ b :: skipn (S p) s /\ ~ In b (firstn p s) /\ length (firstn p s) = p.
Proof.
  induction s as [|x s IH]; intros p H; cbn [find_byte] in H; [discriminate|].
  destruct (N.eqb_spec x b) as [->|Ne].
  - injection H as <-. cbn. split; [reflexivity|]. split; [tauto|reflexivity].
  - destruct (find_byte b s) as [p'|] eqn:E; [|discriminate]. injection H as <-.
    destruct (IH p' eq_refl) as (A & B & L). change (skipn (S (S p')) (x :: s)) with (skipn (S p') s).
    cbn [firstn length app In]. split; [f_equal; exact A|].
    split; [intros [F|F]; [congruence|tauto]|congruence].
Qed.

(** strtoll on a number followed by something that is not a digit. *)
Lemma scan_digits_app : forall ds acc b rest, Forall (fun d => is_digit d = true) ds -> is_digit b = false ->
  scan_digits (ds ++ b :: rest) acc = (acc * 10 ^ N.of_nat (length ds) + decimal ds, length ds).
Proof.
  intros ds acc b rest F B. destruct (scan_digits (ds ++ b :: rest) acc) as [v n] eqn:E.
  destruct (scan_digits_spec _ _ _ _ E) as (ds' & tl & D & L & F' & V & R).
  destruct (split_unique _ is_digit _ _ _ _ D F F') as [<- _].
  - intros x r H. injection H as <- <-. exact B.
  - exact R.
  - subst n v. reflexivity.
Qed.
Lemma head_parts : forall t neg x, reads t neg x -> forall b rest, is_digit b = false ->
  exists sp sg ds, t = sp ++ sg ++ ds /\ digits ds /\ decimal ds = x /\
    skip_spaces (t ++ b :: rest) = length sp /\
    skipn (length sp) (t ++ b :: rest) = sg ++ ds ++ b :: rest /\
    (match sg ++ ds ++ b :: rest with 45 :: _ => (true, 1%nat) | 43 :: _ => (false, 1%nat) | _ => (false, O) end)
      = (neg, length sg).
Proof.
  intros t neg x (sp & sg & ds & -> & FS & SG & [ND FD] & V) b rest B. exists sp, sg, ds.
  assert (HD : exists d r, ds = d :: r /\ is_digit d = true).
  { destruct ds as [|d r]; [congruence|]. inversion FD; subst. eauto. }
  destruct HD as (d0 & r0 & HD & D0).
  split; [reflexivity|]. split; [split; assumption|]. split; [exact V|].
  rewrite <- !app_assoc. rewrite skipn_len. split; [|split; [reflexivity|]].
  - destruct (skip_spaces_spec (sp ++ sg ++ ds ++ b :: rest)) as (sp' & tl & E & L & F & R).
    destruct (split_unique _ is_space _ _ _ _ E FS F) as [-> _]; [|exact R|symmetry; exact L].
    intros y r H. assert (SGC : sg = [] \/ sg = [43] \/ sg = [45]) by (destruct neg; tauto).
    destruct SGC as [-> | [-> | ->]]; cbn [app] in H.
    + rewrite HD in H. injection H as <- _. apply digit_not_space. exact D0.
    + injection H as <- _. reflexivity.
    + injection H as <- _. reflexivity.
  - destruct neg; [subst sg; reflexivity|]. destruct SG as [->| ->]; [|reflexivity]. cbn [app length].
    rewrite HD. cbn [app]. apply is_digit_range in D0. clear - D0.
    destruct d0 as [|p]; [lia|]. do 6 (try destruct p as [p|p|]; try reflexivity); lia.
Qed.
Lemma read_num_reads : forall t neg x b rest min max, reads t neg x -> is_digit b = false ->
  let z := (if neg then - Z.of_N x else Z.of_N x)%Z in
  (INT64_MIN <= z <= INT64_MAX)%Z -> (min <= z <= max)%Z ->
  read_num (t ++ b :: rest) (length t) min max = Ok (Some z).
Proof.
  intros t neg x b rest min max Rd B z Hz Hm. unfold read_num.
  destruct (head_parts t neg x Rd b rest B) as (sp & sg & ds & Et & [ND FD] & V & K & Sk & M).
  cbv zeta. rewrite K, Sk, M. cbv beta iota. rewrite skipn_len.
  match goal with |- context [scan_digits ?d 0] => assert (SD : scan_digits d 0 = _) by exact (scan_digits_app ds 0 b rest FD B) end.
  rewrite SD. ns.
  assert (Lt : (length t = length sp + length sg + length ds)%nat) by (rewrite Et, !app_length; lia).
  rewrite <- Lt. replace (length t =? length (t ++ b :: rest))%nat with false
    by (symmetry; apply Nat.eqb_neq; rewrite app_length; cbn [length]; lia).
  assert (Nz : length ds <> O) by (destruct ds; [congruence|discriminate]).
  destruct (length ds) as [|m]; [congruence|].
  rewrite V. replace (0 * 10 ^ N.of_nat (S m) + x) with x by lia. fold z. rewrite Nat.eqb_refl.
  replace (INT64_MIN <=? z)%Z with true by lia. replace (z <=? INT64_MAX)%Z with true by lia.
  replace (min <=? z)%Z with true by lia. replace (z <=? max)%Z with true by lia. reflexivity.
Qed.
Lemma read_num_inv : forall t rest min max z, ~ In 13 t -> read_num (t ++ rest) (length t) min max = Ok (Some z) ->
  loose_number t z /\ (min <= z <= max)%Z.
Proof.
  intros t rest min max z N13 E. unfold read_num in E.
  destruct (skip_spaces_spec (t ++ rest)) as (sp & r & S & LS & FS & RS). rewrite <- LS in E. rewrite S in E.
  rewrite skipn_len in E.
  pose proof (sign_spec r) as P. cbv zeta in P.
  set (p := match r with 45 :: _ => (true, 1%nat) | 43 :: _ => (false, 1%nat) | _ => (false, O) end) in *.
  clearbody p. destruct p as [ng j]. cbn [fst snd] in P. destruct P as (sg & R & LG & SG).
  destruct (scan_digits (skipn j r) 0) as [w m] eqn:SD.
  destruct (scan_digits_spec _ _ _ _ SD) as (ds & tl & D & LD & FD & V & _).
  destruct (length sp + j + m =? length (sp ++ r))%nat; [discriminate|].
  destruct m as [|m].
  - match type of E with Ok (if ?c then _ else _) = _ => destruct c eqn:C; [|discriminate] end. injection E as <-.
    apply andb_true_iff in C. destruct C as [C1 C2]. apply Nat.eqb_eq in C2.
    split; [left; split; [destruct t; [reflexivity|discriminate]|reflexivity]|lia].
  - match type of E with Ok (if ?c then _ else _) = _ => destruct c eqn:C; [|discriminate] end. injection E as <-.
    apply andb_true_iff in C. destruct C as [C1 C2]. apply Nat.eqb_eq in C2. split; [|lia].
    right. split; [exact N13|]. exists ng, w. split; [|reflexivity].
    assert (Et : t = sp ++ sg ++ ds).
    { assert (Q : t ++ rest = (sp ++ sg ++ ds) ++ tl) by (rewrite S, R, D, <- !app_assoc; reflexivity).
      assert (L : length t = length (sp ++ sg ++ ds)) by (rewrite !app_length; lia).
      clear - Q L. revert L Q. generalize (sp ++ sg ++ ds). induction t as [|x t IH]; intros [|y l] L Q; cbn in *; try discriminate; [reflexivity|].
      injection Q as -> Q. injection L as L. f_equal. apply IH; assumption. }
    exists sp, sg, ds. split; [exact Et|]. split; [exact FS|]. split; [exact SG|]. split.
    + split; [destruct ds; [discriminate|congruence]|exact FD].
    + rewrite V. lia.
Qed.

(** A header line that is there, and one that is cut short. *)
Lemma head_read : forall t x min max msg rest, head_number t x -> (min <= Z.of_N x <= max)%Z -> (max <= INT64_MAX)%Z ->
  read_resp_num (t ++ crlf ++ rest) min max msg = Ok (NGot (Z.of_N x) rest).
Proof.
  intros t x min max msg rest (Rd & N13 & _) H Hm. unfold read_resp_num. change (crlf ++ rest) with (13 :: 10 :: rest).
  rewrite (find_byte_app 13 t _ N13).
  assert (E : nth_error (t ++ 13 :: 10 :: rest) (length t + 1) = Some 10).
  { rewrite nth_error_app2 by lia. replace (length t + 1 - length t)%nat with 1%nat by lia. reflexivity. }
  match goal with |- context [nth_error ?a ?b] => replace (nth_error a b) with (Some 10) by (symmetry; exact E) end.
  cbn [negb N.eqb Pos.eqb].
  match goal with |- context [read_num ?a ?b min max] =>
    replace (read_num a b min max) with (Ok (Some (Z.of_N x))) end.
  2:{ symmetry. apply (read_num_reads t false x 13 (10 :: rest) min max Rd eq_refl); [unfold INT64_MIN; lia|exact H]. }
  f_equal. f_equal. ns. rewrite skipn_app, skipn_all2 by lia.
  replace (length t + 2 - length t)%nat with 2%nat by lia. reflexivity.
Qed.
Lemma head_short : forall t x min max msg p q, head_number t x -> t ++ crlf = p ++ q -> q <> [] -> 
  read_resp_num p min max msg = Ok NMore.
Proof.
  intros t x min max msg p q (Rd & N13 & L) E Q. unfold read_resp_num. ns.
  destruct (find_byte 13 p) as [i|] eqn:F.
  - destruct (find_byte_some _ _ _ F) as (A & B & Li). ns.
    assert (X : firstn i p = t /\ 13 :: skipn (S i) p ++ q = 13 :: [10]).
    { apply (split_unique _ (fun b => negb (b =? 13))).
      - change (13 :: skipn (S i) p ++ q) with ((13 :: skipn (S i) p) ++ q). rewrite app_assoc, <- A. symmetry. exact E.
      - apply Forall_forall. intros y Hy. destruct (N.eqb_spec y 13) as [->|]; [contradiction|reflexivity].
      - apply Forall_forall. intros y Hy. destruct (N.eqb_spec y 13) as [->|]; [contradiction|reflexivity].
      - intros y r H. injection H as <- _. reflexivity.
      - intros y r H. injection H as <- _. reflexivity. }
    destruct X as [X1 X2]. apply (f_equal (@tl N)) in X2. cbn [tl] in X2.
    assert (Sk : skipn (S i) p = []).
    { revert X2. generalize (skipn (S i) p). intros l X2. apply (f_equal (@length N)) in X2. rewrite app_length in X2.
      destruct l; [reflexivity|]. destruct q; [congruence|]. cbn in X2. lia. }
    assert (nth_error p (i + 1) = None) as ->; [|reflexivity].
    apply nth_error_None. rewrite A, Sk, app_length, Li. cbn. lia.
  - replace (32 <? length p)%nat with false; [reflexivity|]. symmetry. apply Nat.ltb_ge.
    assert (Lp : (length p <= length t)%nat); [|lia].
    apply find_byte_none in F.
    destruct (Nat.le_gt_cases (length p) (length t)) as [H|H]; [exact H|]. exfalso. apply F.
    assert (Ep : p = firstn (length p) (t ++ crlf)) by (rewrite E, firstn_app, firstn_all, Nat.sub_diag, app_nil_r; reflexivity).
    rewrite Ep, firstn_app. apply in_or_app. right.
    destruct (length p - length t)%nat as [|d] eqn:Ed; [lia|]. left. reflexivity.
Qed.

Lemma app_cut : forall {A} (a b p q : list A), a ++ b = p ++ q ->
  (exists l, p = a ++ l /\ b = l ++ q) \/ (exists l, l <> [] /\ a = p ++ l /\ q = l ++ b).
Proof.
  induction a as [|x a IH]; intros b p q E; cbn [app] in E.
  - left. exists p. auto.
  - destruct p as [|y p]; cbn [app] in E.
    + right. exists (x :: a). split; [discriminate|]. cbn [app]. auto.
    + injection E as <- E. destruct (IH b p q E) as [(l & -> & ->)|(l & Nl & -> & ->)].
      * left. exists l. auto.
      * right. exists l. auto.
Qed.
Lemma skipn_firstn_len : forall {A} (a b : list A) n, n = length a -> skipn n (a ++ b) = b /\ firstn n (a ++ b) = a.
Proof.
  intros A a b n ->. rewrite skipn_app, skipn_all, firstn_app, firstn_all, Nat.sub_diag. split; [reflexivity|].
  cbn. apply app_nil_r.
Qed.
Lemma head_nonempty : forall t x, head_number t x -> exists b r, t = b :: r.
Proof. intros [|b r] x (Rd & _); [destruct (reads_nonempty _ _ Rd)|eauto]. Qed.
Lemma bulk_full : forall a s m total rest args, bulk a s ->
  resp_args (S m) total (s ++ rest) args = resp_args m total rest (args ++ [a]).
Proof.
  intros a s m total rest args (t & Ht & La & ->). cbn [resp_args app]. change (negb (36 =? 36)) with false. cbv iota.
  destruct (head_nonempty _ _ Ht) as (b & r & Et).
  assert (E : read_resp_num (t ++ crlf ++ (a ++ crlf ++ rest)) 0 MAXARG_SZ "invalid bulk length"
              = Ok (NGot (Z.of_nat (length a)) (a ++ crlf ++ rest))).
  { rewrite (head_read t _ 0 MAXARG_SZ _ _ Ht); [rewrite nat_N_Z; reflexivity| |unfold MAXARG_SZ, INT64_MAX; lia].
    unfold MAXARG_SZ. lia. }
  replace ((t ++ crlf ++ a ++ crlf) ++ rest) with (t ++ crlf ++ (a ++ crlf ++ rest)) by (rewrite <- !app_assoc; reflexivity).
  destruct (t ++ crlf ++ a ++ crlf ++ rest) as [|b' r'] eqn:Q; [rewrite Et in Q; discriminate|].
  rewrite E.
  replace (Z.of_nat (length a) + 2 >? Z.of_nat (length (a ++ crlf ++ rest)))%Z with false
    by (rewrite !app_length; cbn [crlf length]; lia).
  rewrite Nat2Z.id. cbv zeta.
  f_equal.
  - rewrite app_assoc. apply (skipn_firstn_len (a ++ crlf) rest). rewrite app_length. reflexivity.
  - f_equal. f_equal. apply skipn_firstn_len. reflexivity.
Qed.
Lemma bulk_short : forall a s m total p q args, bulk a s -> s = p ++ q -> q <> [] ->
  resp_args (S m) total p args = Ok More.
Proof.
  intros a s m total p q args (t & Ht & La & ->) E Q. cbn [resp_args].
  destruct p as [|c p]; [reflexivity|]. cbn [app] in E. assert (Ec : 36 = c) by congruence. subst c.
  apply (f_equal (@tl N)) in E. cbn [tl] in E.
  change (negb (36 =? 36)) with false. cbv iota. destruct p as [|c p]; [reflexivity|].
  set (p1 := c :: p) in *. clearbody p1. clear c p.
  rewrite app_assoc in E.
  destruct (app_cut _ _ _ _ E) as [(l & -> & El)|(l & Nl & Et & _)].
  - rewrite <- app_assoc. rewrite (head_read t _ 0 MAXARG_SZ _ l Ht); [|unfold MAXARG_SZ; lia|unfold MAXARG_SZ, INT64_MAX; lia].
    replace (Z.of_N (N.of_nat (length a)) + 2 >? Z.of_nat (length l))%Z with true; [reflexivity|].
    symmetry. apply Z.gtb_lt. assert (L : (length (a ++ crlf) = length l + length q)%nat) by (rewrite El, app_length; reflexivity).
    rewrite app_length in L. cbn [crlf length] in L. destruct q; [congruence|]. cbn [length] in L. lia.
  - rewrite (head_short t _ 0 MAXARG_SZ _ p1 l Ht Et Nl). reflexivity.
Qed.
Lemma bulks_full : forall args parts, Forall2 bulk args parts -> forall total rest acc,
  resp_args (length args) total (concat parts ++ rest) acc = Ok (Got (total - length rest) (acc ++ args)).
Proof.
  intros args parts F. induction F as [|a s args parts B F IH]; intros total rest acc.
  - cbn. rewrite app_nil_r. reflexivity.
  - cbn [length concat]. rewrite <- app_assoc, (bulk_full a s _ total _ acc B), IH, <- app_assoc. reflexivity.
Qed.
Lemma bulks_short : forall args parts, Forall2 bulk args parts -> forall total p q acc,
  concat parts = p ++ q -> q <> [] -> resp_args (length args) total p acc = Ok More.
Proof.
  intros args parts F. induction F as [|a s args parts B F IH]; intros total p q acc E Q.
  - destruct p, q; try discriminate. congruence.
  - cbn [length concat] in *. destruct (app_cut _ _ _ _ E) as [(l & -> & El)|(l & Nl & Es & _)].
    + rewrite (bulk_full a s _ total l acc B). exact (IH _ _ _ _ El Q).
    + exact (bulk_short a s _ total p l acc B Es Nl).
Qed.
Lemma parse_full : forall args s rest, request args s -> parse_resp (s ++ rest) = Ok (Got (length s) args).
Proof.
  intros args s rest (t & parts & Ht & L & F & ->). unfold parse_resp. cbn [app]. change (negb (42 =? 42)) with false. cbv iota.
  destruct (head_nonempty _ _ Ht) as (b & r & Et).
  replace ((t ++ crlf ++ concat parts) ++ rest) with (t ++ crlf ++ (concat parts ++ rest)) by (rewrite <- !app_assoc; reflexivity).
  destruct (t ++ crlf ++ concat parts ++ rest) as [|b' r'] eqn:Q; [rewrite Et in Q; discriminate|].
  rewrite <- Q. rewrite (head_read t _ INT64_MIN MAXARGS _ _ Ht); [|unfold MAXARGS, INT64_MIN; lia|unfold MAXARGS, INT64_MAX; lia].
  rewrite <- nat_N_Z, N2Z.id, Nat2N.id || rewrite nat_N_Z, Nat2Z.id.
  rewrite (bulks_full _ _ F). cbn [app]. f_equal. f_equal. cbn [length].
  rewrite !app_length. cbn [length]. lia.
Qed.
Lemma parse_short : forall args s p q, request args s -> s = p ++ q -> q <> [] -> parse_resp p = Ok More.
Proof.
  intros args s p q (t & parts & Ht & L & F & ->) E Q. unfold parse_resp.
  destruct p as [|c p]; [reflexivity|]. cbn [app] in E. assert (Ec : 42 = c) by congruence. subst c.
  apply (f_equal (@tl N)) in E. cbn [tl] in E.
  change (negb (42 =? 42)) with false. cbv iota. destruct p as [|c p]; [reflexivity|].
  set (p1 := c :: p) in *. 
  rewrite app_assoc in E.
  destruct (app_cut _ _ _ _ E) as [(l & El1 & El)|(l & Nl & Et & _)].
  - rewrite El1. rewrite <- app_assoc. rewrite (head_read t _ INT64_MIN MAXARGS _ l Ht); [|unfold MAXARGS, INT64_MIN; lia|unfold MAXARGS, INT64_MAX; lia].
    rewrite nat_N_Z, Nat2Z.id. exact (bulks_short _ _ F _ _ _ _ El Q).
  - rewrite (head_short t _ INT64_MIN MAXARGS _ p1 l Ht Et Nl). reflexivity.
Qed.

(** *** What is accepted *)
Lemma read_resp_inv : forall data min max msg z rest, read_resp_num data min max msg = Ok (NGot z rest) ->
  exists t, data = t ++ crlf ++ rest /\ loose_number t z /\ (min <= z <= max)%Z.
Proof.
  intros data min max msg z rest E. unfold read_resp_num in E.
  destruct (find_byte 13 data) as [p|] eqn:F; [|destruct (32 <? length data)%nat; discriminate].
  destruct (find_byte_some _ _ _ F) as (A & B & Li).
  destruct (nth_error data (p + 1)) as [b|] eqn:Nb; [|discriminate].
  destruct (N.eqb_spec b 10) as [->|]; [|discriminate]. cbn [negb] in E.
  destruct (read_num data p min max) as [[y|]|] eqn:Rn; try discriminate. injection E as -> <-.
  exists (firstn p data). 
  assert (D : data = firstn p data ++ crlf ++ skipn (p + 2) data).
  { rewrite A at 1. f_equal. change (crlf ++ skipn (p + 2) data) with (13 :: 10 :: skipn (p + 2) data). f_equal.
    replace (p + 1)%nat with (S p) in Nb by lia. replace (p + 2)%nat with (S (S p)) by lia. clear - Nb.
    revert p Nb. induction data as [|x d IH]; intros p Nb; [destruct p; discriminate|].
    destruct p as [|p].
    - cbn in Nb |- *. destruct d as [|y d]; [discriminate|]. injection Nb as ->. reflexivity.
    - change (skipn (S (S p)) (x :: d)) with (skipn (S p) d). change (skipn (S (S (S p))) (x :: d)) with (skipn (S (S p)) d).
      apply IH. exact Nb. }
  split; [exact D|].
  apply (read_num_inv (firstn p data) (crlf ++ skipn (p + 2) data)); [exact B|].
  ns. rewrite <- D, Li. exact Rn.
Qed.
Lemma skipn_twice : forall {A} a b (l : list A), skipn a (skipn b l) = skipn (b + a) l.
Proof.
  induction b as [|b IH]; intros l; [reflexivity|]. destruct l; [destruct a; reflexivity|]. cbn [skipn Nat.add]. apply IH.
Qed.
Lemma resp_args_inv : forall m total data args n out, resp_args m total data args = Ok (Got n out) ->
  (length data <= total)%nat ->
  exists more parts rest, out = args ++ more /\ length more = m /\ Forall2 loose_bulk more parts /\
    data = concat parts ++ rest /\ n = (total - length rest)%nat.
Proof.
  induction m as [|m IH]; intros total data args n out E L; cbn [resp_args] in E.
  - injection E as <- <-. exists [], [], data. rewrite app_nil_r. cbn. auto.
  - destruct data as [|c data]; [discriminate|]. destruct (N.eqb_spec c 36) as [->|]; [|discriminate]. cbn [negb] in E.
    destruct data as [|c data]; [discriminate|]. set (d1 := c :: data) in *.
    destruct (read_resp_num d1 0 MAXARG_SZ "invalid bulk length") as [[| |z rest]|] eqn:Rr; try discriminate.
    destruct (read_resp_inv _ _ _ _ _ _ Rr) as (t & D & Ln & Hz).
    destruct (Z.gtb_spec (z + 2) (Z.of_nat (length rest))) as [|Hl]; [discriminate|]. cbv zeta in E.
    set (k := Z.to_nat z) in *. assert (Hk : (k + 2 <= length rest)%nat) by lia.
    assert (Sp : rest = firstn k rest ++ firstn 2 (skipn k rest) ++ skipn (k + 2) rest).
    { rewrite <- (skipn_twice 2 k), firstn_skipn, firstn_skipn. reflexivity. }
    assert (Lx : length (firstn 2 (skipn k rest)) = 2%nat) by (rewrite firstn_length, skipn_length; lia).
    destruct (firstn 2 (skipn k rest)) as [|x [|y [|]]]; try discriminate. clear Lx.
    apply IH in E.
    2:{ assert (length (36%N :: d1) = S (length t + (2 + length rest)))%nat by (rewrite D; cbn [length]; rewrite app_length; reflexivity).
        rewrite skipn_length. lia. }
    destruct E as (more & parts & r & -> & Lm & F & Er & ->).
    exists (firstn k rest :: more), (([36] ++ t ++ crlf ++ firstn k rest ++ [x; y]) :: parts), r.
    split; [rewrite <- app_assoc; reflexivity|]. split; [cbn [length]; congruence|]. split.
    + constructor; [|exact F]. exists t, x, y. split; [|reflexivity].
      rewrite firstn_length_le by lia. unfold k. rewrite Z2Nat.id by lia. exact Ln.
    + split; [|reflexivity]. cbn [concat app]. f_equal. rewrite D, Sp, Er at 1. rewrite <- !app_assoc. cbn [app]. reflexivity.
Qed.
Lemma parse_inv : forall data n args, parse_resp data = Ok (Got n args) ->
  (n <= length data)%nat /\ loose_request args (firstn n data).
Proof.
  intros data n args E. unfold parse_resp in E.
  destruct data as [|c data]; [discriminate|]. destruct (N.eqb_spec c 42) as [->|]; [|discriminate]. cbn [negb] in E.
  destruct data as [|c data]; [discriminate|]. set (d1 := c :: data) in *.
  destruct (read_resp_num d1 INT64_MIN MAXARGS "invalid multibulk length") as [[| |z rest]|] eqn:Rr; try discriminate.
  destruct (read_resp_inv _ _ _ _ _ _ Rr) as (t & D & Ln & Hz).
  apply resp_args_inv in E; [|rewrite D; cbn [length]; rewrite !app_length; cbn [length]; lia].
  destruct E as (more & parts & r & -> & Lm & F & Er & ->). cbn [app].
  split; [lia|]. exists t, z, parts. split; [exact Ln|]. split; [lia|]. split; [exact F|].
  assert (Q : 42 :: d1 = ([42] ++ t ++ crlf ++ concat parts) ++ r) by (rewrite D, Er, <- !app_assoc; reflexivity).
  rewrite Q. apply skipn_firstn_len. rewrite app_length. lia.
Qed.

(** What is accepted stays accepted when more data follows. *)
Lemma skip_spaces_more : forall s more, (skip_spaces s < length s)%nat -> skip_spaces (s ++ more) = skip_spaces s.
Proof.
  induction s as [|b s IH]; intros more H; cbn [skip_spaces length app] in *; [lia|].
  destruct (is_space b); [|reflexivity]. rewrite IH by lia. reflexivity.
Qed.
Lemma scan_digits_more : forall s acc more, (snd (scan_digits s acc) < length s)%nat ->
  scan_digits (s ++ more) acc = scan_digits s acc.
Proof.
  induction s as [|b s IH]; intros acc more H; cbn [scan_digits length app] in *; [cbn in H; lia|].
  destruct (is_digit b); [|reflexivity].
  destruct (scan_digits s (10 * acc + (b - 48))) as [v n] eqn:E. cbn [snd] in H.
  assert (X : scan_digits (s ++ more) (10 * acc + (b - 48)) = (v, n)) by (rewrite IH; [exact E|rewrite E; cbn [snd]; lia]).
  ns. rewrite X. reflexivity.
Qed.
Lemma read_num_more : forall data len min max r more, read_num data len min max = Ok r ->
  read_num (data ++ more) len min max = Ok r.
Proof.
  intros data len min max r more H. unfold read_num in *. cbv zeta in *.
  destruct (skip_spaces_spec data) as (sp & r0 & D & LS & _ & _).
  pose proof (sign_spec r0) as P. cbv zeta in P.
  assert (Sk : skipn (skip_spaces data) data = r0) by (rewrite <- LS, D; apply skipn_len).
  rewrite Sk in H.
  set (p := match r0 with 45 :: _ => (true, 1%nat) | 43 :: _ => (false, 1%nat) | _ => (false, O) end) in *.
  destruct r0 as [|b r1].
  { cbn in p. subst p. cbn in H. rewrite <- LS, D, app_nil_r in H. cbn [length] in H. rewrite !Nat.add_0_r, Nat.eqb_refl in H. discriminate. }
  assert (K : skip_spaces (data ++ more) = skip_spaces data).
  { apply skip_spaces_more. rewrite <- LS. rewrite D, app_length. cbn [length]. lia. }
  rewrite K. 
  assert (Sk2 : skipn (skip_spaces data) (data ++ more) = (b :: r1) ++ more).
  { rewrite <- LS, D, <- app_assoc. apply skipn_len. }
  rewrite Sk2.
  match goal with |- (let '(_, _) := ?m in _) = _ => replace m with p by reflexivity end.
  clearbody p. destruct p as [ng j]. cbn [fst snd] in P. destruct P as (sg & R & LG & SG).
  destruct (scan_digits (skipn j (b :: r1)) 0) as [v n] eqn:SD.
  destruct (Nat.eqb_spec (skip_spaces data + j + n) (length data)) as [|Ne]; [discriminate|].
  assert (Lj : (j <= length (b :: r1))%nat) by (rewrite R, app_length, LG; lia).
  assert (Sj : skipn j ((b :: r1) ++ more) = skipn j (b :: r1) ++ more).
  { rewrite skipn_app. replace (j - length (b :: r1))%nat with O by lia. reflexivity. }
  rewrite Sj.
  destruct (scan_digits_spec _ _ _ _ SD) as (ds & tl0 & Ed & Ld & _ & _).
  assert (Ln : (length data = skip_spaces data + (j + length (skipn j (b :: r1))))%nat).
  { rewrite D at 1. rewrite app_length, LS. f_equal. rewrite R at 1. rewrite app_length, LG. reflexivity. }
  assert (Lt : (n < length (skipn j (b :: r1)))%nat).
  { assert (length (skipn j (b :: r1)) = length ds + length tl0)%nat by (rewrite Ed at 1; apply app_length). lia. }
  rewrite scan_digits_more by (rewrite SD; exact Lt). rewrite SD.
  replace (skip_spaces data + j + n =? length (data ++ more))%nat with false; [exact H|].
  symmetry. apply Nat.eqb_neq. rewrite app_length. lia.
Qed.
Lemma find_byte_more : forall b s p more, find_byte b s = Some p -> find_byte b (s ++ more) = Some p.
Proof.
  induction s as [|x s IH]; intros p more H; cbn [find_byte app] in *; [discriminate|].
  destruct (x =? b); [exact H|]. destruct (find_byte b s) as [k|]; [|discriminate]. rewrite (IH k more eq_refl). exact H.
Qed.
Lemma read_resp_more : forall data min max msg z rest more, read_resp_num data min max msg = Ok (NGot z rest) ->
  read_resp_num (data ++ more) min max msg = Ok (NGot z (rest ++ more)).
Proof.
  intros data min max msg z rest more H. unfold read_resp_num in *.
  destruct (find_byte 13 data) as [p|] eqn:F; [|destruct (32 <? length data)%nat; discriminate].
  rewrite (find_byte_more _ _ _ more F).
  destruct (nth_error data (p + 1)) as [b|] eqn:Nb; [|discriminate].
  assert (Lp : (p + 1 < length data)%nat) by (apply nth_error_Some; ns; congruence).
  rewrite nth_error_app1 by exact Lp. rewrite Nb.
  destruct (negb (b =? 10)); [discriminate|].
  destruct (read_num data p min max) as [[y|]|] eqn:Rn; try discriminate.
  rewrite (read_num_more _ _ _ _ _ more Rn). injection H as -> <-. f_equal. f_equal. rewrite skipn_app.
  replace (p + 2 - length data)%nat with O by lia. reflexivity.
Qed.
Lemma resp_args_more : forall m total data args n out more, resp_args m total data args = Ok (Got n out) ->
  (length data <= total)%nat ->
  resp_args m (total + length more) (data ++ more) args = Ok (Got n out).
Proof.
  induction m as [|m IH]; intros total data args n out more H L; cbn [resp_args] in *.
  - injection H as <- <-. rewrite app_length. f_equal. f_equal. lia.
  - destruct data as [|c data]; [discriminate|]. cbn [app].
    destruct (negb (c =? 36)); [discriminate|].
    destruct data as [|c1 data]; [discriminate|]. cbn [app].
    change (c1 :: data ++ more) with ((c1 :: data) ++ more). set (d1 := c1 :: data) in *.
    destruct (read_resp_num d1 0 MAXARG_SZ "invalid bulk length") as [[| |z rest]|] eqn:Rr; try discriminate.
    rewrite (read_resp_more _ _ _ _ _ _ more Rr).
    destruct (read_resp_inv _ _ _ _ _ _ Rr) as (t & D & _ & Hz).
    destruct (Z.gtb_spec (z + 2) (Z.of_nat (length rest))) as [|Hl]; [discriminate|].
    replace (z + 2 >? Z.of_nat (length (rest ++ more)))%Z with false by (rewrite app_length; lia).
    cbv zeta in *.
    assert (E1 : skipn (Z.to_nat z + 2) (rest ++ more) = skipn (Z.to_nat z + 2) rest ++ more).
    { rewrite skipn_app. replace (Z.to_nat z + 2 - length rest)%nat with O by lia. reflexivity. }
    assert (E2 : firstn (Z.to_nat z) (rest ++ more) = firstn (Z.to_nat z) rest).
    { rewrite firstn_app. replace (Z.to_nat z - length rest)%nat with O by lia. apply app_nil_r. }
    rewrite E1, E2. apply IH; [exact H|].
    rewrite skipn_length. cbn [length] in L. assert (length d1 = length t + S (S (length rest)))%nat
      by (rewrite D, app_length; reflexivity). lia.
Qed.
Lemma parse_more : forall data n args more, parse_resp data = Ok (Got n args) ->
  parse_resp (data ++ more) = Ok (Got n args).
Proof.
  intros data n args more H. unfold parse_resp in *.
  destruct data as [|c data]; [discriminate|]. cbn [app].
  destruct (negb (c =? 42)); [discriminate|].
  destruct data as [|c1 data]; [discriminate|]. cbn [app].
  change (c1 :: data ++ more) with ((c1 :: data) ++ more). set (d1 := c1 :: data) in *.
  destruct (read_resp_num d1 INT64_MIN MAXARGS "invalid multibulk length") as [[| |z rest]|] eqn:Rr; try discriminate.
  rewrite (read_resp_more _ _ _ _ _ _ more Rr).
  destruct (read_resp_inv _ _ _ _ _ _ Rr) as (t & D & _ & Hz).
  replace (length (c :: d1 ++ more)) with (length (c :: d1) + length more)%nat by (cbn [length]; rewrite app_length; reflexivity).
  apply resp_args_more; [exact H|].
  cbn [length]. assert (length d1 = length t + S (S (length rest)))%nat by (rewrite D, app_length; reflexivity). lia.
Qed.
