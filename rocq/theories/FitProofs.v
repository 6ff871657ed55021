(** The arguments that the parsers pass on are bytes, and not longer than what was
    received (with Postgres, 65536 times that: the parameters of a statement may be
    joined to one argument). *)
From Verif Require Import Base Types Shard Text IntText Prog Cmds Resp Memcache Http Reply Postgres.
From Coq Require Import String Lia.
Local Open Scope N_scope.
Notation length := List.length.
Notation concat := List.concat.
Notation map := List.map.

Definition fit (L : nat) (a : bytes) : Prop := bytes_ok a /\ (length a <= L)%nat.
Lemma fit_skipn : forall L n a, fit L a -> fit L (skipn n a).
Proof.
  intros L n a [B Le]. split; [|rewrite skipn_length; lia]. rewrite <- (firstn_skipn n a) in B. apply Forall_app in B. apply B.
Qed.
Lemma fit_firstn : forall L n a, fit L a -> fit L (firstn n a).
Proof.
  intros L n a [B Le]. split; [|rewrite firstn_length; lia]. rewrite <- (firstn_skipn n a) in B. apply Forall_app in B. apply B.
Qed.
Lemma fit_cons : forall L b a, fit L (b :: a) -> b < 256 /\ fit L a.
Proof. intros L b a [B Le]. inversion B; subst. cbn [List.length] in Le. repeat split; try assumption. lia. Qed.
Lemma fit_nil : forall L, fit L [].
Proof. intro L. split; [constructor|cbn; lia]. Qed.
Lemma fit_bs : forall L s, (10 <= L)%nat -> bytes_okb (bs s) = true -> (length (bs s) <=? 10)%nat = true -> fit L (bs s).
Proof. intros L s H B Le. split; [apply bytes_okb_ok; exact B|]. apply Nat.leb_le in Le. lia. Qed.
Lemma snoc_fit : forall L l a, Forall (fit L) l -> fit L a -> Forall (fit L) (l ++ [a]).
Proof. intros. apply Forall_app. split; [assumption|]. constructor; [assumption|constructor]. Qed.
Lemma fit_more : forall L M a, (L <= M)%nat -> fit L a -> fit M a.
Proof. intros L M a H [B Le]. split; [exact B|lia]. Qed.
Lemma all_fit : forall L a l, fit L a -> Forall (fit L) l -> Forall (fit L) (a :: l).
Proof. intros. constructor; assumption. Qed.
Lemma nth_fit : forall L l i a, Forall (fit L) l -> nth_error l i = Some a -> fit L a.
Proof. intros L l i a H E. rewrite Forall_forall in H. apply H. exact (nth_error_In _ _ E). Qed.
Lemma nthd_fit : forall L l i, Forall (fit L) l -> fit L (nth i l []).
Proof. intros L l i H. destruct (nth_in_or_default i l []) as [I|E]; [rewrite Forall_forall in H; apply H; exact I|rewrite E; apply fit_nil]. Qed.
Lemma skipn_fit : forall L n l, Forall (fit L) l -> Forall (fit L) (skipn n l).
Proof. intros L n l H. rewrite <- (firstn_skipn n l) in H. apply Forall_app in H. apply H. Qed.
Lemma removelast_ok : forall {A} (P : A -> Prop) l, Forall P l -> Forall P (removelast l).
Proof.
  intros A P l H. induction H as [|x l Hx Hl IH]; [constructor|]. cbn [removelast]. destruct l; [constructor|]. constructor; assumption.
Qed.
Lemma removelast_le : forall {A} (l : list A), (length (removelast l) <= length l)%nat.
Proof. intros A l. induction l as [|x l IH]; [cbn; lia|]. cbn [removelast]. destruct l; cbn [List.length] in *; lia. Qed.

(** *** RESP *)
Lemma resp_num_fit : forall L data lo hi e z rest, fit L data -> read_resp_num data lo hi e = Ok (NGot z rest) -> fit L rest.
Proof.
  intros L data lo hi e z rest H E. unfold read_resp_num in E. destruct (find_byte 13 data) as [p|].
  2:{ destruct (32 <? length data)%nat; discriminate. }
  destruct (nth_error data (p + 1)) as [b|]; [|discriminate]. destruct (negb (b =? 10)); [discriminate|].
  destruct (read_num data p lo hi) as [[x|]|]; try discriminate. injection E as _ <-. apply fit_skipn. exact H.
Qed.
Lemma resp_args_fit : forall L m total data args n args', fit L data -> Forall (fit L) args ->
  resp_args m total data args = Ok (Got n args') -> Forall (fit L) args'.
Proof.
  intros L m. induction m as [|m IH]; intros total data args n args' H Ha E; cbn [resp_args] in E.
  { injection E as _ <-. exact Ha. }
  destruct data as [|x data1]; [discriminate|]. apply fit_cons in H. destruct H as [_ H].
  destruct (negb (x =? 36)); [discriminate|]. destruct data1 as [|y data1]; [discriminate|].
  destruct (read_resp_num (y :: data1) 0 MAXARG_SZ "invalid bulk length") as [[| |z data2]|] eqn:E2; try discriminate.
  pose proof (resp_num_fit _ _ _ _ _ _ _ H E2) as H2. destruct (z + 2 >? Z.of_nat (length data2))%Z; [discriminate|].
  apply (IH _ _ _ _ _ (fit_skipn _ _ _ H2)) in E; [exact E|]. apply snoc_fit; [exact Ha|]. apply fit_firstn. exact H2.
Qed.
Lemma resp_fit : forall L data n args, fit L data -> parse_resp data = Ok (Got n args) -> Forall (fit L) args.
Proof.
  intros L data n args H E. unfold parse_resp in E. destruct data as [|x d]; [discriminate|]. pose proof (fit_cons _ _ _ H) as [_ H1].
  destruct (negb (x =? 42)); [discriminate|]. destruct d as [|y d]; [discriminate|].
  destruct (read_resp_num (y :: d) INT64_MIN MAXARGS "invalid multibulk length") as [[| |z data2]|] eqn:E2; try discriminate.
  apply (resp_args_fit L _ _ _ _ _ _ (resp_num_fit _ _ _ _ _ _ _ H1 E2) (Forall_nil _) E).
Qed.
Lemma unescape_ok : forall b, b < 256 -> unescape b < 256.
Proof.
  intros b H. assert (E : unescape b = 10 \/ unescape b = 13 \/ unescape b = 9 \/ unescape b = b).
  { unfold unescape. repeat match goal with |- context [match ?x with _ => _ end] => destruct x; auto end. }
  destruct E as [E|[E|[E|E]]]; rewrite E; lia.
Qed.
Lemma telnet_fit : forall L len data i args arg inarg n args', (length data <= len)%nat ->
  bytes_ok data -> bytes_ok arg -> (length arg + length data <= L)%nat -> Forall (fit L) args ->
  telnet data i args arg inarg = Got n args' -> Forall (fit L) args'.
Proof.
  intros L len. induction len as [|len IH]; intros data i args arg inarg n args' Hl Bd Ba Le Ha E.
  { destruct data; [discriminate|cbn in Hl; lia]. }
  destruct data as [|ch data1]; [discriminate|]. inversion Bd as [|? ? Bc Bd1]; subst. unfold byte_ok in Bc. cbn [List.length] in Hl, Le.
  assert (Fa : fit L arg) by (split; [exact Ba|lia]).
  assert (Sn : forall b, b < 256 -> bytes_ok (arg ++ [b])) by (intros b Hb; apply Forall_app; split; [exact Ba|constructor; [exact Hb|constructor]]).
  assert (Ln : forall b, length (arg ++ [b]) = S (length arg)) by (intro b; rewrite app_length; cbn; lia).
  assert (N0 : Forall (fit L) (args ++ [arg])) by (apply snoc_fit; assumption).
  assert (Bn : bytes_ok []) by constructor.
  cbn [telnet] in E. destruct inarg as [q|].
  - destruct q as [|q].
    + destruct ((ch =? 34) || (ch =? 39)); [eapply IH in E; eauto; lia|].
      destruct (is_space ch).
      * cbv zeta in E. destruct (too_many (args ++ [arg])); [discriminate|]. destruct (ch =? 10).
        { injection E as _ <-. exact N0. }
        eapply IH in E; eauto; cbn; lia.
      * cbv zeta in E. destruct (too_big (arg ++ [ch])); [discriminate|]. eapply IH in E; eauto; try lia. rewrite Ln. lia.
    + destruct (ch =? 10); [discriminate|]. destruct (ch =? N.pos q).
      * cbv zeta in E. destruct (too_many (args ++ [arg])); [discriminate|]. destruct data1 as [|ch1 data2]; [discriminate|].
        inversion Bd1 as [|? ? Bc1 Bd2]; subst. cbn [List.length] in Hl, Le.
        destruct (ch1 =? 10); [eapply IH in E; eauto; cbn [List.length]; lia|].
        destruct (is_space ch1); [|discriminate]. eapply IH in E; eauto; cbn; lia.
      * destruct (ch =? 92).
        { destruct data1 as [|ch1 data2]; [discriminate|]. inversion Bd1 as [|? ? Bc1 Bd2]; subst. cbn [List.length] in Hl, Le. cbv zeta in E.
          destruct (too_big (arg ++ [unescape ch1])); [discriminate|].
          eapply IH in E; eauto; try lia; [apply Sn, unescape_ok; exact Bc1|rewrite Ln; lia]. }
        cbv zeta in E. destruct (too_big (arg ++ [ch])); [discriminate|]. eapply IH in E; eauto; try lia. rewrite Ln. lia.
  - destruct (ch =? 10); [injection E as _ <-; exact Ha|].
    destruct (is_space ch); [eapply IH in E; eauto; lia|].
    destruct ((ch =? 34) || (ch =? 39)); [eapply IH in E; eauto; lia|].
    cbv zeta in E. destruct (too_big (arg ++ [ch])); [discriminate|]. eapply IH in E; eauto; try lia. rewrite Ln. lia.
Qed.
Lemma telnet_args_fit : forall L data n args, fit L data -> parse_resp_telnet data = Got n args -> Forall (fit L) args.
Proof.
  intros L data n args [B H] E. unfold parse_resp_telnet in E.
  apply (telnet_fit L (length data) data 0 [] [] None n args (le_n _) B (Forall_nil _)) in E; [exact E|cbn; lia|constructor].
Qed.

(** *** Memcache *)
Lemma mc_words_fit : forall L data i word last args n args', bytes_ok data -> bytes_ok word ->
  (length word + length data <= L)%nat -> Forall (fit L) args ->
  mc_telnet data i word last args = Ok (Some (n, args')) -> Forall (fit L) args'.
Proof.
  intros L data. induction data as [|ch r IH]; intros i word last args n args' Bd Bw Le Ha E; [discriminate|].
  inversion Bd as [|? ? Bc Br]; subst. cbn [List.length] in Le. cbn [mc_telnet] in E.
  assert (Fw : fit L word) by (split; [exact Bw|lia]). assert (Bn : bytes_ok []) by constructor.
  destruct (ch =? 32). { eapply IH in E; eauto; [cbn; lia|apply snoc_fit; assumption]. }
  destruct (ch =? 10).
  - assert (Fr : fit L (removelast word)).
    { split; [apply removelast_ok; exact Bw|]. pose proof (removelast_le word). lia. }
    destruct (last =? 13).
    + destruct word as [|w0 [|w1 w]]; try discriminate; injection E as _ <-; [exact Ha|]. apply snoc_fit; assumption.
    + destruct word as [|w0 w]; injection E as _ <-; [exact Ha|]. apply snoc_fit; assumption.
  - eapply IH in E; eauto.
    + apply Forall_app. split; [exact Bw|]. constructor; [exact Bc|constructor].
    + rewrite app_length. cbn. lia.
Qed.
Definition mc_good (L : nat) (r : out mc_result) : Prop := forall n b args, r = Ok (McGot n b args) -> Forall (fit L) args.
Lemma good_err : forall L m n, mc_good L (Ok (McErr m n)).
Proof. intros L m n n' b args H. discriminate. Qed.
Lemma good_got : forall L n b args, Forall (fit L) args -> mc_good L (Ok (McGot n b args)).
Proof. intros L n b args H n' b' args' E. injection E as _ _ <-. exact H. Qed.
Lemma arg_good : forall L args i k, Forall (fit L) args -> (forall a, fit L a -> mc_good L (k a)) -> mc_good L (arg_at args i k).
Proof.
  intros L args i k H K. unfold arg_at. destruct (nth_error args i) as [a|] eqn:E; [|intros n b l X; discriminate].
  apply K. exact (nth_fit _ _ _ _ H E).
Qed.
Lemma argi_good : forall L args i ok n k, Forall (fit L) args -> (forall x, mc_good L (k x)) -> mc_good L (argi64 args i ok n k).
Proof.
  intros L args i ok n k H K. unfold argi64. apply arg_good; [exact H|]. intros a _.
  destruct (parse_i64 a) as [x|]; [|apply good_err]. destruct (ok x); [apply K|apply good_err].
Qed.
Lemma key_good : forall L args i n k, Forall (fit L) args -> mc_good L k -> mc_good L (valid_key args i n k).
Proof.
  intros L args i n k H K. unfold valid_key. apply arg_good; [exact H|]. intros a _. destruct (mc_valid a); [exact K|apply good_err].
Qed.
Lemma value_good : forall L data n x k, fit L data -> (forall n' v, fit L v -> mc_good L (Ok (k n' v))) -> mc_good L (mc_value data n x k).
Proof.
  intros L data n x k H K. unfold mc_value. destruct (length data - n <? Z.to_nat x + 2)%nat; [intros n0 b l X; discriminate|].
  cbv zeta. set (v := firstn (Z.to_nat x) (skipn n data)).
  assert (Fv : fit L v) by (apply fit_firstn, fit_skipn; exact H).
  set (n' := (n + Z.to_nat x + 2)%nat). specialize (K n' v Fv).
  assert (G : forall (a b : option byte), mc_good L (Ok (match a, b with Some 13, Some 10 => k n' v | _, _ => McErr BAD_CHUNK n' end))).
  { intros a b. repeat match goal with |- mc_good L (Ok (match ?x with _ => _ end)) => destruct x; try apply good_err end. exact K. }
  apply G.
Qed.
Section M.
Variable L : nat.
Hypothesis HL : (10 <= L)%nat.
Ltac lit := apply fit_bs; [exact HL|reflexivity|reflexivity].
Lemma set_plus_good : forall cmd data n nr args, fit L data -> Forall (fit L) args -> mc_good L (set_plus cmd data n nr args).
Proof.
  intros cmd data n nr args Hd Ha. unfold set_plus. apply key_good; [exact Ha|]. apply argi_good; [exact Ha|]. intros _.
  apply argi_good; [exact Ha|]. intros _. apply argi_good; [exact Ha|]. intro x. cbv zeta.
  assert (G : forall cas, (forall a, cas = Some a -> fit L a) -> mc_good L (mc_value data n x (fun n' value => McGot n' nr
    match cmd with
    | MC_APPEND => [bs "append"; nth 1 args []; value]
    | MC_PREPEND => [bs "prepend"; nth 1 args []; value]
    | _ => [bs "set"; nth 1 args []; value]
            ++ (if is_zero (nth 2 args []) then [] else [bs "flags"; nth 2 args []])
            ++ (if is_zero (nth 3 args []) then [] else [bs "ex"; nth 3 args []])
            ++ (match cmd with MC_ADD => [bs "nx"] | MC_REPLACE => [bs "xx"] | _ => [] end)
            ++ (match cas with Some c => [bs "cas"; c] | None => [] end)
    end))).
  { intros cas Hc. apply value_good; [exact Hd|]. intros n' v Fv. apply good_got.
    assert (T : Forall (fit L) ([bs "set"; nth 1 args []; v]
            ++ (if is_zero (nth 2 args []) then [] else [bs "flags"; nth 2 args []])
            ++ (if is_zero (nth 3 args []) then [] else [bs "ex"; nth 3 args []])
            ++ (match cmd with MC_ADD => [bs "nx"] | MC_REPLACE => [bs "xx"] | _ => [] end)
            ++ (match cas with Some c => [bs "cas"; c] | None => [] end))).
    { repeat (apply Forall_app; split).
      - apply all_fit; [lit|]. apply all_fit; [apply nthd_fit; exact Ha|]. apply all_fit; [exact Fv|constructor].
      - destruct (is_zero _); [constructor|]. apply all_fit; [lit|]. apply all_fit; [apply nthd_fit; exact Ha|constructor].
      - destruct (is_zero _); [constructor|]. apply all_fit; [lit|]. apply all_fit; [apply nthd_fit; exact Ha|constructor].
      - destruct cmd; try apply Forall_nil; (apply all_fit; [lit|constructor]).
      - destruct cas as [a|]; [|constructor]. apply all_fit; [lit|]. apply all_fit; [apply Hc; reflexivity|constructor]. }
    destruct cmd; try exact T; (apply all_fit; [lit|]; apply all_fit; [apply nthd_fit; exact Ha|]; apply all_fit; [exact Fv|constructor]). }
  destruct cmd; try (apply (G None); discriminate). apply arg_good; [exact Ha|]. intros a Fa.
  destruct (parse_u64 a); [|apply good_err]. apply (G (Some a)). intros b E. injection E as <-. exact Fa.
Qed.
Lemma command_good : forall cmd data n args, fit L data -> Forall (fit L) args -> mc_good L (mc_command cmd data n args).
Proof.
  intros cmd data n args0 Hd Ha. unfold mc_command. cbv zeta.
  set (nr := is_noreplyable cmd && arg_is (last args0 []) "noreply").
  assert (Hb : Forall (fit L) (if nr then removelast args0 else args0)) by (destruct nr; [apply removelast_ok|]; exact Ha).
  set (args := if nr then removelast args0 else args0) in *.
  assert (Hs : Forall (fit L) (if nr then args ++ [[]] else args)) by (destruct nr; [apply snoc_fit; [exact Hb|apply fit_nil]|exact Hb]).
  set (slots := if nr then args ++ [[]] else args) in *. clearbody args slots nr.
  destruct (is_store cmd); [apply set_plus_good; assumption|].
  assert (N1 := nthd_fit L args 1 Hb). assert (N2 := nthd_fit L args 2 Hb). assert (S1 := skipn_fit L 1 args Hb).
  destruct cmd; try apply good_err.
  all: repeat match goal with
  | |- mc_good L (if ?b then _ else _) => destruct b
  | |- mc_good L (valid_key _ _ _ _) => apply key_good; [exact Hb|]
  | |- mc_good L (argi64 _ _ _ _ _) => apply argi_good; [exact Hb|intros _]
  | |- mc_good L (Ok (McErr _ _)) => apply good_err
  end.
  all: try (apply good_got; repeat (apply all_fit; [first [lit|assumption]|]); first [constructor|assumption]).
  apply arg_good; [exact Hs|]. intros a Fa. apply good_got. apply all_fit; [lit|]. apply all_fit; [exact Fa|constructor].
Qed.
Lemma memcache_fit : forall data n b args, fit L data -> parse_memcache data = Ok (McGot n b args) -> Forall (fit L) args.
Proof.
  intros data n b args Hd E. revert n b args E. fold (mc_good L (parse_memcache data)). unfold parse_memcache.
  destruct (mc_telnet data 0 [] 0 []) as [[[n args]|]|] eqn:E; try (intros n0 b l X; discriminate).
  assert (Ha : Forall (fit L) args).
  { destruct Hd as [B H]. eapply mc_words_fit in E; [exact E|exact B|constructor|cbn; lia|constructor]. }
  destruct args as [|name rest]; [apply good_got; constructor|]. clear E. set (args := name :: rest) in *.
  assert (Fn : fit L name) by (inversion Ha; assumption).
  destruct ((length args =? 2)%nat && arg_is name "get").
  { apply arg_good; [exact Ha|]. intros a Fa. destruct (mc_valid a); [|apply good_err]. apply good_got.
    apply all_fit; [lit|]. apply all_fit; [exact Fa|constructor]. }
  destruct ((length args =? 5)%nat && arg_is name "set").
  { apply arg_good; [exact Ha|]. intros fl _. destruct (is_zero fl); [|apply set_plus_good; assumption].
    apply arg_good; [exact Ha|]. intros key Fk. destruct (negb (mc_valid key)); [apply good_err|].
    apply arg_good; [exact Ha|]. intros ex Fe. cbv zeta.
    assert (G : forall l, Forall (fit L) l -> mc_good L (argi64 args 4 size_ok n (fun x =>
      mc_value data n x (fun n' value => McGot n' false ([name; key; value] ++ l))))).
    { intros l Hl. apply argi_good; [exact Ha|]. intro x. apply value_good; [exact Hd|]. intros n' v Fv. apply good_got.
      repeat (apply all_fit; [assumption|]). exact Hl. }
    destruct (is_zero ex); [apply G; constructor|]. apply argi_good; [exact Ha|]. intros _. apply G.
    apply all_fit; [lit|]. apply all_fit; [exact Fe|constructor]. }
  destruct (mc_lookup name) as [cmd|]; [|apply good_err]. apply command_good; assumption.
Qed.

(** *** HTTP *)
Lemma until_space_fit : forall d w q, fit L d -> until_space d = Some (w, q) -> fit L w /\ fit L q.
Proof.
  intros d w q [B Le] E. assert (G : bytes_ok w /\ bytes_ok q /\ (length w + length q <= length d)%nat).
  { clear Le. revert w q E. induction B as [|x d Hx Hd IH]; intros w q E; [discriminate|]. cbn [until_space] in E.
    destruct (x =? 32); [injection E as <- <-; repeat split; [constructor|exact Hd|cbn; lia]|].
    destruct (x =? 10); [discriminate|]. destruct (until_space d) as [[w1 q1]|]; [|discriminate]. injection E as <- <-.
    destruct (IH w1 q1 eq_refl) as (A & B & C). repeat split; [constructor; assumption|exact B|cbn [List.length]; lia]. }
  destruct G as (A & C & D). split; split; try assumption; lia.
Qed.
Lemma split_fit : forall x d w q, fit L d -> split_at x d = Some (w, q) -> fit L w /\ fit L q.
Proof.
  intros x d w q [B Le] E. assert (G : bytes_ok w /\ bytes_ok q /\ (length w + length q <= length d)%nat).
  { clear Le. revert w q E. induction B as [|y d Hx Hd IH]; intros w q E; [discriminate|]. cbn [split_at] in E.
    destruct (y =? x); [injection E as <- <-; repeat split; [constructor|exact Hd|cbn; lia]|].
    destruct (split_at x d) as [[w1 q1]|]; [|discriminate]. injection E as <- <-.
    destruct (IH w1 q1 eq_refl) as (A & B & C). repeat split; [constructor; assumption|exact B|cbn [List.length]; lia]. }
  destruct G as (A & C & D). split; split; try assumption; lia.
Qed.
Lemma headers_fit : forall d m st st' rest, fit L d -> headers d m st = HdrBody st' rest -> fit L rest.
Proof.
  intro d. induction d as [|b r IH]; intros m st st' rest H E; [discriminate|]. apply fit_cons in H. destruct H as [_ H]. cbn [headers] in E.
  destruct m as [name|name|name value].
  - exact (IH _ _ _ _ H E).
  - destruct (b =? 32); [exact (IH _ _ _ _ H E)|]. destruct (b =? 10); [discriminate|exact (IH _ _ _ _ H E)].
  - destruct (b =? 10); [|exact (IH _ _ _ _ H E)]. destruct (last value 0 =? 13); [|discriminate].
    destruct (header st name (removelast value)) as [st1|]; [|discriminate].
    assert (G : forall body, (exists l, r = l ++ body) -> fit L body).
    { intros body [l ->]. destruct H as [B Le]. apply Forall_app in B. rewrite app_length in Le. split; [apply B|lia]. }
    assert (K : headers r (InName []) st1 = HdrBody st' rest -> fit L rest) by (intro X; exact (IH _ _ _ _ H X)).
    revert E G K. generalize (headers r (InName []) st1). intros h E G K.
    destruct r as [|a r']; [exact (K E)|].
    destruct (N.eq_dec a 13) as [->|Na].
    + destruct r' as [|a' body]; [discriminate|]. destruct (N.eq_dec a' 10) as [->|Nb].
      * injection E as _ <-. apply G. exists [13; 10]. reflexivity.
      * exfalso. clear - E Nb. repeat match type of E with context [match ?x with _ => _ end] => destruct x; try discriminate; try contradiction end.
    + apply K. rewrite <- E. clear - Na. repeat match goal with |- context [match ?x with _ => _ end] => is_var x; destruct x; try reflexivity; try contradiction end.
Qed.
Definition qfit (p : bytes * option bytes) : Prop := forall v, snd p = Some v -> fit L v.
Lemma pairs_fit : forall q name value, bytes_ok q -> (length q + match value with Some v => length v | None => 0 end <= L)%nat ->
  (forall v, value = Some v -> bytes_ok v) -> Forall qfit (query_pairs q name value).
Proof.
  intro q. induction q as [|b r IH]; intros name value Bq Le Hv; cbn [query_pairs].
  - destruct value as [v|]; [|constructor]. constructor; [|constructor]. intros w E. injection E as <-. split; [apply Hv; reflexivity|cbn in Le; lia].
  - inversion Bq as [|? ? Bb Br]; subst. cbn [List.length] in Le. destruct value as [v|].
    + pose proof (Hv v eq_refl) as Bv. destruct (b =? 38).
      * constructor; [intros w E; injection E as <-; split; [exact Bv|lia]|]. apply IH; [exact Br|lia|discriminate].
      * apply IH; [exact Br|rewrite app_length; cbn; lia|]. intros w E. injection E as <-. apply Forall_app. split; [exact Bv|constructor; [exact Bb|constructor]].
    + destruct (b =? 61).
      { apply IH; [exact Br|cbn; lia|]. intros w E. injection E as <-. constructor. }
      assert (T : forall n0 : bytes, Forall qfit (query_pairs r n0 None)) by (intro n0; apply IH; [exact Br|lia|discriminate]).
      assert (Nn : forall n0 : bytes, qfit (n0, None)) by (intros n0 w X; discriminate).
      destruct r as [|b1 r]; [constructor; [apply Nn|constructor]|].
      destruct (b =? 38); [constructor; [apply Nn|apply T]|apply T].
Qed.
Definition ofit (v : option bytes) : Prop := forall x, v = Some x -> fit L x.
Lemma query_fit : forall q, fit L q -> ofit (q_ex (query_of q)) /\ ofit (q_flags (query_of q)) /\ ofit (q_cas (query_of q)).
Proof.
  intros q [B Le]. unfold query_of.
  assert (P : Forall qfit (query_pairs q [] None)) by (apply pairs_fit; [exact B|lia|discriminate]).
  set (st := mkQState None None None None false false).
  assert (S0 : ofit (q_ex st) /\ ofit (q_flags st) /\ ofit (q_cas st)) by (split; [|split]; intros x X; discriminate).
  revert S0. generalize st. clear st. induction P as [|p l Hp Hl IH]; intros st S0; [exact S0|]. cbn [fold_left]. apply IH.
  destruct p as [name v]. destruct S0 as (A & C & D). unfold qfit in Hp. cbn [snd] in Hp. unfold query_pair.
  repeat match goal with |- context [if ?b then _ else _] => destruct b end; cbn [q_ex q_flags q_cas]; auto.
Qed.
Lemma http_opt_fit : forall s v, bytes_okb (bs s) = true -> (length (bs s) <=? 10)%nat = true -> ofit v -> Forall (fit L) (http_opt s v).
Proof.
  intros s v A B H. destruct v as [x|]; [|constructor]. apply all_fit; [apply fit_bs; assumption|]. apply all_fit; [apply H; reflexivity|constructor].
Qed.
Lemma http_auth_args : forall cf st q args args', http_auth cf st q args = HGot args' -> args' = args.
Proof.
  intros cf st q args args' E. unfold http_auth in E. cbv zeta in E.
  repeat match type of E with context [if ?b then _ else _] => destruct b end;
  repeat match type of E with context [match ?x with _ => _ end] => destruct x end; try discriminate; injection E as <-; reflexivity.
Qed.
Lemma http_fit : forall cf data args, fit L data -> parse_http cf data = HGot args -> Forall (fit L) args.
Proof.
  intros cf data args H E. unfold parse_http in E.
  destruct (until_space data) as [[method d1]|] eqn:E1; [|discriminate]. destruct (until_space_fit _ _ _ H E1) as [_ H1].
  destruct (until_space d1) as [[uri d2]|] eqn:E2; [|discriminate]. destruct (until_space_fit _ _ _ H1 E2) as [Hu H2].
  destruct (split_at 10 d2) as [[line d3]|] eqn:E3; [|discriminate]. destruct (split_fit _ _ _ _ H2 E3) as [_ H3].
  destruct (negb (http_version line)); [discriminate|].
  destruct (headers d3 (InName []) (mkHState 0 false [])) as [| |st d4] eqn:E4; try discriminate.
  pose proof (headers_fit _ _ _ _ _ H3 E4) as H4. destruct (length d4 <? N.to_nat (h_len st))%nat; [discriminate|].
  assert (Hb : fit L (firstn (N.to_nat (h_len st)) d4)) by (apply fit_firstn; exact H4).
  revert E Hb. generalize (firstn (N.to_nat (h_len st)) d4). intros body E Hb.
  assert (K : forall key q, fit L key -> fit L q -> http_command cf method key (query_of q) st body = HGot args -> Forall (fit L) args).
  { intros key q Hk Hq X. destruct (query_fit q Hq) as (Q1 & Q2 & Q3). unfold http_command in X. cbv zeta in X.
    destruct (beq method (bs "GET")).
    { destruct (hd 0 key =? 64); [discriminate|]. destruct (beq key []); [discriminate|]. destruct (negb (http_valid key)); [discriminate|].
      apply http_auth_args in X. subst. apply all_fit; [lit|]. apply all_fit; [exact Hk|constructor]. }
    destruct (beq method (bs "PUT")).
    { destruct (hd 0 key =? 64); [discriminate|]. destruct (negb (http_valid key)); [discriminate|].
      apply http_auth_args in X. subst. repeat (apply Forall_app; split).
      - apply all_fit; [lit|]. apply all_fit; [exact Hk|]. apply all_fit; [exact Hb|constructor].
      - apply http_opt_fit; [reflexivity|reflexivity|exact Q3].
      - apply http_opt_fit; [reflexivity|reflexivity|exact Q1].
      - apply http_opt_fit; [reflexivity|reflexivity|exact Q2].
      - destruct (q_xx _); [|constructor]. apply all_fit; [lit|constructor].
      - destruct (q_nx _); [|constructor]. apply all_fit; [lit|constructor]. }
    destruct (beq method (bs "DELETE")); [|discriminate].
    destruct (hd 0 key =? 64); [discriminate|]. destruct (negb (http_valid key)); [discriminate|].
    apply http_auth_args in X. subst. apply all_fit; [lit|]. apply all_fit; [exact Hk|constructor]. }
  assert (Kp : forall path, fit L path -> match split_at 63 path with
    | None => http_command cf method path (query_of []) st body
    | Some (key, q) => http_command cf method key (query_of q) st body end = HGot args -> Forall (fit L) args).
  { intros path Hp X. destruct (split_at 63 path) as [[key q]|] eqn:E5; [destruct (split_fit _ _ _ _ Hp E5) as [A B]; exact (K _ _ A B X)|].
    exact (K _ _ Hp (fit_nil L) X). }
  destruct uri as [|u path]; [discriminate|]. apply fit_cons in Hu. destruct Hu as [_ Hp]. specialize (Kp path Hp).
  destruct (N.eq_dec u 47) as [->|Nu]; [exact (Kp E)|].
  exfalso. clear - E Nu. repeat match type of E with context [match ?x with _ => _ end] => is_var x; destruct x; try discriminate; try contradiction end.
Qed.
End M.
