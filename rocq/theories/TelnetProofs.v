(** Facts about the telnet parser. *)
From Verif Require Import Base Types Shard Text IntText IntTextProofs Resp RespSpec RespProofs.
From Coq Require Import String.
Local Open Scope N_scope.
Notation length := List.length.
Notation concat := List.concat.

(** A decision does not change when more data arrives. *)
Lemma telnet_stable : forall n data i args arg ia more, (length data <= n)%nat ->
  telnet data i args arg ia <> More -> telnet (data ++ more) i args arg ia = telnet data i args arg ia.
Proof.
  induction n as [|n IH]; intros data i args arg ia more L H; destruct data as [|ch data]; cbn [length] in L;
    [destruct ia as [[|]|]; destruct H; reflexivity|lia|destruct ia as [[|]|]; destruct H; reflexivity|].
  cbn [app telnet] in *.
  assert (L1 : (length data <= n)%nat) by lia.
  assert (L2 : forall x d, data = x :: d -> (length d <= n)%nat) by (intros x d ->; cbn [length] in L; lia).
  destruct ia as [[|q]|]; repeat match goal with
  | |- context [if ?b then _ else _] => destruct b; [|]
  end; try reflexivity; try (apply IH; [lia|exact H]).
  - destruct data as [|c1 d2]; [congruence|]. cbn [app].
    change (c1 :: d2 ++ more) with ((c1 :: d2) ++ more).
    destruct (c1 =? 10); [apply IH; [lia|exact H]|]. destruct (is_space c1); [apply IH; [exact (L2 _ _ eq_refl)|exact H]|reflexivity].
  - destruct data as [|c1 d2]; [congruence|]. cbn [app]. destruct (too_big _); [reflexivity|]. apply IH; [exact (L2 _ _ eq_refl)|exact H].
Qed.
Lemma telnet_bound : forall n data i args arg ia k out, (length data <= n)%nat ->
  telnet data i args arg ia = Got k out -> (i < k <= i + length data)%nat.
Proof.
  induction n as [|n IH]; intros data i args arg ia k out L H; destruct data as [|ch data]; cbn [length] in L |- *;
    [destruct ia as [[|]|]; discriminate|lia|destruct ia as [[|]|]; discriminate|].
  cbn [telnet] in H.
  destruct ia as [[|q]|];
  repeat match type of H with
  | (if ?b then _ else _) = _ => destruct b; [|]
  end; try discriminate; try (injection H as <- _; lia); try (apply IH in H; lia).
  - destruct data as [|c1 d2]; [discriminate|]. cbn [length] in *.
    destruct (c1 =? 10); [apply IH in H; cbn [length] in *; lia|]. destruct (is_space c1); [apply IH in H; lia|discriminate].
  - destruct data as [|c1 d2]; [discriminate|]. cbn [length] in *. destruct (too_big _); [discriminate|]. apply IH in H; lia.
Qed.

Lemma big_app : forall a b, too_big (a ++ b) = false -> too_big a = false.
Proof. intros a b H. unfold too_big in *. rewrite app_length in H. apply Z.ltb_ge in H. apply Z.ltb_ge. lia. Qed.
Lemma plain_run : forall a rest i args arg, Forall plain a -> too_big (arg ++ a) = false ->
  telnet (a ++ rest) i args arg (Some 0) = telnet rest (i + length a) args (arg ++ a) (Some 0).
Proof.
  induction a as [|b a IH]; intros rest i args arg F H; cbn [app length].
  - rewrite app_nil_r, Nat.add_0_r. reflexivity.
  - inversion F as [|? ? (P1 & P2 & P3) F']; subst. cbn [telnet].
    replace (b =? 34) with false by lia. replace (b =? 39) with false by lia. rewrite P1. cbn [orb].
    change (b :: a) with ([b] ++ a) in *. rewrite app_assoc in *. pose proof (big_app _ _ H) as Hb.
    ns. rewrite Hb, (IH rest (S i) args _ F' H). f_equal. lia.
Qed.
Lemma quoted_run : forall q, q = 34 \/ q = 39 -> forall a parts, Forall2 (quoted_byte q) a parts -> forall rest i args arg,
  too_big (arg ++ a) = false ->
  telnet (concat parts ++ rest) i args arg (Some q) = telnet rest (i + length (concat parts)) args (arg ++ a) (Some q).
Proof.
  intros q Hq a parts F. induction F as [|b p a parts B F IH]; intros rest i args arg H.
  - cbn. rewrite app_nil_r, Nat.add_0_r. reflexivity.
  - cbn [concat]. rewrite <- app_assoc, app_length.
    change (b :: a) with ([b] ++ a) in *. rewrite app_assoc in *. pose proof (big_app _ _ H) as Hb.
    assert (X : forall ch d, unescape ch = b ->
      telnet (92 :: ch :: d) i args arg (Some q) = telnet d (S (S i)) args (arg ++ [b]) (Some q)).
    { intros ch d <-. cbn [telnet]. ns. destruct Hq as [-> | ->]; cbn [N.eqb Pos.eqb]; rewrite Hb; reflexivity. }
    assert (Y : forall d, b <> 10 -> b <> q -> b <> 92 ->
      telnet (b :: d) i args arg (Some q) = telnet d (S i) args (arg ++ [b]) (Some q)).
    { intros d N1 N2 N3. cbn [telnet]. ns. destruct Hq as [-> | ->]; replace (b =? 10) with false by lia;
        replace (b =? 92) with false by lia; [replace (b =? 34) with false by lia|replace (b =? 39) with false by lia];
        rewrite Hb; reflexivity. }
    destruct B as [b B1 B2 B3|b B1 B2 B3| | |]; cbn [app length].
    + rewrite Y, (IH rest (S i) args _ H) by assumption. f_equal; [lia|rewrite <- app_assoc; reflexivity].
    + rewrite X.
      * rewrite (IH rest (S (S i)) args _ H). f_equal; [lia|rewrite <- app_assoc; reflexivity].
      * unfold unescape. clear - B1 B2 B3. destruct b as [|p]; [reflexivity|].
        do 7 (try destruct p as [p|p|]; try reflexivity); congruence.
    + rewrite X, (IH rest (S (S i)) args _ H) by reflexivity. f_equal; [lia|rewrite <- app_assoc; reflexivity].
    + rewrite X, (IH rest (S (S i)) args _ H) by reflexivity. f_equal; [lia|rewrite <- app_assoc; reflexivity].
    + rewrite X, (IH rest (S (S i)) args _ H) by reflexivity. f_equal; [lia|rewrite <- app_assoc; reflexivity].
Qed.
(** An argument followed by a blank or the line feed. *)
Definition after (b : byte) (data : bytes) (i : nat) (args : list bytes) : parsed :=
  if b =? 10 then Got i args else telnet data i args [] None.
Lemma token_run : forall a t b rest i args, token a t -> is_space b = true -> too_big a = false ->
  too_many (args ++ [a]) = false ->
  telnet (t ++ b :: rest) i args [] None = after b rest (i + length t + 1) (args ++ [a]).
Proof.
  intros a t b rest i args T Sb Hb Hm. ns.
  assert (End : forall j, telnet (b :: rest) j args a (Some 0) = after b rest (j + 1) (args ++ [a])).
  { intros j. cbn [telnet]. ns.
    replace (b =? 34) with false by (unfold is_space in Sb; lia). replace (b =? 39) with false by (unfold is_space in Sb; lia).
    cbn [orb]. rewrite Sb, Hm. unfold after. rewrite Nat.add_1_r. reflexivity. }
  assert (Start : forall x p d, Forall plain (x :: p) -> too_big (x :: p) = false ->
     telnet ((x :: p) ++ d) i args [] None = telnet d (i + length (x :: p)) args (x :: p) (Some 0)).
  { intros x p d F B. inversion F as [|? ? (P1 & P2 & P3) F']; subst. cbn [app telnet].
    pose proof (big_app [x] p B) as B1. ns.
    replace (x =? 10) with false by (unfold is_space in P1; lia). rewrite P1.
    replace (x =? 34) with false by lia. replace (x =? 39) with false by lia. cbn [orb app]. rewrite B1.
    etransitivity; [exact (plain_run p d (S i) args [x] F' B)|]. cbn [length app]. f_equal. ns. lia. }
  destruct T as [a Na Fp|pre q a parts Fp Hq Fq]; ns.
  - destruct a as [|x a]; [congruence|]. rewrite (Start x a (b :: rest) Fp Hb), End. reflexivity.
  - assert (Q : forall j d, telnet (q :: d) j args pre (Some 0) = telnet d (S j) args pre (Some q)).
    { intros j d. cbn [telnet]. destruct Hq as [-> | ->]; reflexivity. }
    assert (Body : telnet (pre ++ [q] ++ (concat parts ++ [q] ++ b :: rest)) i args [] None
       = telnet (concat parts ++ [q] ++ b :: rest) (i + length pre + 1) args pre (Some q)).
    { destruct pre as [|x p].
      - cbn [app length telnet]. destruct Hq as [-> | ->]; cbn; f_equal; lia.
      - rewrite (Start x p _ Fp (big_app _ _ Hb)). cbn [app]. rewrite Q. f_equal. lia. }
    transitivity (telnet ([q] ++ b :: rest) (i + length pre + 1 + length (concat parts)) args (pre ++ a) (Some q)).
    { rewrite <- (quoted_run q Hq a parts Fq _ _ _ _ Hb).
      etransitivity; [|exact Body]. f_equal. rewrite <- !app_assoc. reflexivity. }
    cbn [app telnet]. ns.
    replace (q =? 10) with false by lia. rewrite N.eqb_refl.
    assert (Lt : length (pre ++ q :: concat parts ++ [q]) = (length pre + 1 + length (concat parts) + 1)%nat)
      by (rewrite app_length; cbn [length]; rewrite app_length; cbn [length]; lia).
    destruct q as [|q]; [lia|]. rewrite Hm. rewrite Lt. unfold after. destruct (N.eqb_spec b 10) as [->|N10].
    + cbn [telnet]. f_equal. lia.
    + rewrite Sb. f_equal. lia.
Qed.
Lemma line_run : forall args s, line args s -> Forall (fun a => too_big a = false) args ->
  forall rest i acc, too_many (acc ++ args) = false ->
  telnet (s ++ rest) i acc [] None = Got (i + length s) (acc ++ args).
Proof.
  intros args s L. induction L as [|args b s [B1 B2] L IH|a t T|a t args b s T [B1 B2] L IH]; intros Fb rest i acc Hm.
  - cbn. rewrite app_nil_r, Nat.add_1_r. reflexivity.
  - cbn [app telnet length]. replace (b =? 10) with false by lia. rewrite B1, IH by assumption. f_equal. lia.
  - inversion Fb; subst. rewrite <- app_assoc. cbn [app].
    etransitivity; [apply (token_run a t 10 rest i acc T eq_refl); assumption|]. unfold after. cbn [N.eqb Pos.eqb].
    rewrite app_length. cbn [length]. f_equal. lia.
  - inversion Fb; subst. rewrite <- !app_assoc. cbn [app].
    change (a :: args) with ([a] ++ args) in *. rewrite app_assoc in *.
    etransitivity; [apply (token_run a t b (s ++ rest) i acc T B1); [assumption|]|].
    2:{ unfold after. replace (b =? 10) with false by lia. rewrite IH by assumption.
      f_equal. rewrite app_length. cbn [length]. lia. }
    unfold too_many in *. rewrite app_length in Hm. apply Z.ltb_ge in Hm. apply Z.ltb_ge. lia.
Qed.
Lemma telnet_full : forall args s rest, telnet_line args s -> parse_resp_telnet (s ++ rest) = Got (length s) args.
Proof.
  intros args s rest (L & Hn & Hb). unfold parse_resp_telnet. rewrite (line_run args s L); [reflexivity| |].
  - eapply Forall_impl; [|exact Hb]. intros a Ha. unfold too_big, MAXARG_SZ. apply Z.ltb_ge. cbn beta in Ha. lia.
  - unfold too_many, MAXARGS. cbn [app]. apply Z.ltb_ge. lia.
Qed.
Lemma telnet_short : forall args s p q, telnet_line args s -> s = p ++ q -> q <> [] -> parse_resp_telnet p = More.
Proof.
  intros args s p q L E Q. pose proof (telnet_full args s [] L) as F. rewrite app_nil_r in F.
  destruct (parse_resp_telnet p) as [|m|n out] eqn:P; [reflexivity| |]; unfold parse_resp_telnet in *.
  - rewrite E, (telnet_stable (length p)), P in F; [discriminate|lia|rewrite P; discriminate].
  - rewrite E, (telnet_stable (length p)), P in F; [|lia|rewrite P; discriminate].
    apply (telnet_bound (length p)) in P; [|lia]. injection F as Fn _.
    assert (length s = length p + length q)%nat by (rewrite E; apply app_length).
    destruct q; [congruence|]. cbn [length] in *. rewrite app_length in Fn. cbn [length] in Fn. lia.
Qed.
Lemma quote_ok : forall a, token a (quote a).
Proof.
  intros a. unfold quote. change a with ([] ++ a) at 1.
  assert (P : exists parts, Forall2 (quoted_byte 34) a parts /\ flat_map quote_byte a = concat parts).
  { induction a as [|b a (parts & F & E)]; [exists []; split; [constructor|reflexivity]|].
    exists (quote_byte b :: parts). split; [|cbn [flat_map concat]; rewrite E; reflexivity].
    constructor; [|exact F]. unfold quote_byte.
    destruct (N.eqb_spec b 10) as [->|]; [constructor|]. destruct (N.eqb_spec b 13) as [->|]; [constructor|].
    destruct (N.eqb_spec b 9) as [->|]; [constructor|].
    destruct (N.eqb_spec b 34) as [->|]; [apply qb_escaped; discriminate|].
    destruct (N.eqb_spec b 92) as [->|]; [apply qb_escaped; discriminate|]. apply qb_self; assumption. }
  destruct P as (parts & F & E). rewrite E.
  exact (tk_quoted [] 34 a parts (Forall_nil _) (or_introl eq_refl) F).
Qed.
