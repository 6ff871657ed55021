(** Proofs about connections. *)
From Verif Require Import Base Types Clamp Entry Hash Map Shard Cache Text IntText Prog Cmds Resp RespSpec RespProofs TelnetProofs PropResp Memcache McSpec McProofs PropMc Http Reply ReplySpec ReplyProofs Postgres Conn.
From Coq Require Import String Lia.
Local Open Scope N_scope.
Notation length := List.length.

(** *** The bytes a parser reads *)
Section Mc.
Variables (d : bytes) (n : nat).
Hypothesis Hn : (0 < n <= length d)%nat.
Definition mc_within (r : out mc_result) : Prop :=
  match r with Ok (McErr _ m) | Ok (McGot m _ _) => (0 < m <= length d)%nat | _ => True end.
Lemma within_at : forall args i k, (forall a, mc_within (k a)) -> mc_within (arg_at args i k).
Proof. intros. unfold arg_at. destruct (nth_error args i); [auto|exact I]. Qed.
Lemma within_i64 : forall args i ok k, (forall a, mc_within (k a)) -> mc_within (argi64 args i ok n k).
Proof. intros. unfold argi64. apply within_at. intro a. destruct (parse_i64 a); [|exact Hn]. destruct (ok z); [auto|exact Hn]. Qed.
Lemma within_key : forall args i k, mc_within k -> mc_within (valid_key args i n k).
Proof. intros. unfold valid_key. apply within_at. intro a. destruct (mc_valid a); [assumption|exact Hn]. Qed.
Lemma within_value : forall x k, (forall m v, (0 < m <= length d)%nat -> mc_within (Ok (k m v))) -> mc_within (mc_value d n x k).
Proof.
  intros x k H. unfold mc_value. destruct (Nat.ltb_spec (length d - n) (Z.to_nat x + 2)); [exact I|].
  assert (B : (0 < n + Z.to_nat x + 2 <= length d)%nat) by lia.
  match goal with |- mc_within (Ok ?m) => assert (C : m = McErr BAD_CHUNK (n + Z.to_nat x + 2) \/ exists v, m = k (n + Z.to_nat x + 2)%nat v) end.
  { repeat (match goal with |- context [match ?p with _ => _ end] => destruct p; eauto end). }
  destruct C as [-> | [v ->]]; [exact B|]. apply H. exact B.
Qed.
Lemma within_set_plus : forall cmd r args, mc_within (set_plus cmd d n r args).
Proof.
  intros. unfold set_plus. apply within_key. apply within_i64. intros _. apply within_i64. intros _. apply within_i64. intros x.
  destruct cmd; try (apply within_value; intros; assumption).
  apply within_at. intro a. destruct (parse_u64 a); [|exact Hn]. apply within_value. intros. assumption.
Qed.
Lemma within_command : forall cmd args, mc_within (mc_command cmd d n args).
Proof.
  intros cmd args. unfold mc_command. destruct (is_store cmd); [apply within_set_plus|].
  destruct cmd; try exact Hn;
    repeat match goal with
    | |- mc_within (if ?b then _ else _) => destruct b; try exact Hn
    end; try (apply within_key; exact Hn); try (apply within_at; intros; exact Hn).
  all: apply within_i64; intros; destruct (keys_valid _ _); exact Hn.
Qed.
End Mc.
Lemma mc_telnet_within : forall data i word last args n l, mc_telnet data i word last args = Ok (Some (n, l)) ->
  (i < n <= i + length data)%nat.
Proof.
  induction data as [|c data IH]; intros i word last args n l H; cbn [mc_telnet] in H; [discriminate|].
  cbn [length]. destruct (c =? 32).
  - apply IH in H. lia.
  - destruct (c =? 10).
    + assert (n = S i). { destruct (last =? 13); destruct word as [|? [|? ?]]; congruence. } lia.
    + apply IH in H. lia.
Qed.
Lemma mc_within_all : forall data, mc_within data (parse_memcache data).
Proof.
  intro data. unfold parse_memcache. destruct (mc_telnet data 0 [] 0 []) as [[[n l]|]|] eqn:E; [|exact I|exact I].
  apply mc_telnet_within in E. assert (Hn : (0 < n <= length data)%nat) by lia. clear E.
  destruct l as [|name l]; [exact Hn|].
  destruct (_ && _).
  { apply within_at. intro key. destruct (mc_valid key); exact Hn. }
  destruct (_ && _).
  { apply within_at. intro flags. destruct (is_zero flags); [|apply within_set_plus; exact Hn].
    apply within_at. intro key. destruct (negb _); [exact Hn|]. apply within_at. intro ex.
    destruct (is_zero ex).
    - apply within_i64; [exact Hn|]. intro x. apply within_value; [exact Hn|intros; assumption].
    - apply within_i64; [exact Hn|]. intros _. apply within_i64; [exact Hn|]. intro x. apply within_value; [exact Hn|intros; assumption]. }
  destruct (mc_lookup name); [|exact Hn]. apply within_command. exact Hn.
Qed.

Lemma resp_within : forall data n args, parse_resp data = Ok (Got n args) -> (0 < n <= length data)%nat.
Proof.
  intros data n args H. apply C37_accepted in H. destruct H as (L & t & z & parts & _ & _ & _ & E). split; [|exact L].
  destruct n; [discriminate E|lia].
Qed.
Lemma nonneg_msg : forall msglen len, ((msglen <? -1)%Z || (Z.of_nat len <? msglen + 1)%Z) = false -> (Z.to_nat (msglen + 1) <= len)%nat /\ (-1 <= msglen)%Z.
Proof. intros m l H. apply orb_false_iff in H. destruct H as [A B]. apply Z.ltb_ge in A, B. lia. Qed.
(** What a message does depends on its type and its contents alone. *)
Definition pg_do (password : bytes) (t : byte) (body : bytes) (msglen : Z) (g : pgst) : out pg_result :=
  let n := Z.to_nat (msglen + 1) in
  let step (x : pg_step) : out pg_result :=
    if (msglen <? 4)%Z then Bad OutOfBounds
    else match x with
    | PgFail m => Ok (PgWrong m g)
    | PgStep args g' => Ok (PgGot n args g')
    end in
  if t =? 81 then step (parseQ body g)
  else if t =? 80 then step (parseP body g)
  else if t =? 88 then step (parseX body g)
  else if t =? 69 then
    match parseE body g with Bad x => Bad x | Ok x => step x end
  else if t =? 112 then step (parsep password body g)
  else if t =? 68 then step (parseD body g)
  else if t =? 66 then step (parseB body g)
  else if t =? 83 then step (parseS body g)
  else if (msglen =? -1)%Z then Ok PgMore
  else if (msglen =? 3)%Z then Ok (PgWrong (bs "unknown message '" ++ [t] ++ bs "'") g)
  else Ok (PgGot n [] (set_err (Some (bs "unknown message '" ++ [t] ++ bs "'")) g)).
Lemma parse_message_do : forall pw t rest g, parse_message pw (t :: rest) g =
  if (length (t :: rest) <? 5)%nat then Ok PgMore
  else let msglen := signed 32 (read_be (firstn 4 rest)) in
    if (msglen <? -1)%Z || (Z.of_nat (length (t :: rest)) <? msglen + 1)%Z then Ok PgMore
    else pg_do pw t (firstn (Z.to_nat (msglen - 4)) (skipn 4 rest)) msglen g.
Proof. reflexivity. Qed.
Lemma pg_do_within : forall pw t body msglen g n args g', (-1 <= msglen)%Z -> pg_do pw t body msglen g = Ok (PgGot n args g') ->
  n = Z.to_nat (msglen + 1) /\ (0 < n)%nat.
Proof.
  intros pw t body msglen g n args g' B H. unfold pg_do in H.
  assert (ST : forall x, (if (msglen <? 4)%Z then Bad OutOfBounds
    else match x with PgFail m => Ok (PgWrong m g) | PgStep args g' => Ok (PgGot (Z.to_nat (msglen + 1)) args g') end) = Ok (PgGot n args g') ->
    n = Z.to_nat (msglen + 1) /\ (0 < n)%nat).
  { intros x X. destruct (Z.ltb_spec msglen 4); [discriminate|]. destruct x; [discriminate|]. injection X as <- _ _. lia. }
  repeat match type of H with
  | (if t =? _ then _ else _) = _ => destruct (t =? _); [try exact (ST _ H)|]
  end.
  - destruct (parseE body g); [exact (ST _ H)|discriminate].
  - destruct (Z.eqb_spec msglen (-1)); [discriminate|]. destruct (Z.eqb_spec msglen 3); [discriminate|]. injection H as <- _ _. lia.
Qed.
Lemma firstn_app_le : forall {A} n (l m : list A), (n <= length l)%nat -> firstn n (l ++ m) = firstn n l.
Proof. intros. rewrite firstn_app. replace (n - length l)%nat with O by lia. cbn [firstn]. apply app_nil_r. Qed.
Lemma skipn_app_le : forall {A} n (l m : list A), (n <= length l)%nat -> skipn n (l ++ m) = skipn n l ++ m.
Proof. intros. rewrite skipn_app. replace (n - length l)%nat with O by lia. reflexivity. Qed.
Lemma message_stable : forall pw data more g, parse_message pw data g <> Ok PgMore ->
  parse_message pw (data ++ more) g = parse_message pw data g.
Proof.
  intros pw data more g H. destruct data as [|t rest]; [contradiction H; reflexivity|].
  cbn [app]. rewrite !parse_message_do in *. cbv zeta in *.
  destruct (Nat.ltb_spec (length (t :: rest)) 5) as [|L]; [congruence|]. cbn [length] in L.
  replace (length (t :: rest ++ more) <? 5)%nat with false by (symmetry; apply Nat.ltb_ge; cbn [length]; rewrite app_length; lia).
  rewrite firstn_app_le by lia. set (m := signed 32 (read_be (firstn 4 rest))) in *.
  destruct ((m <? -1)%Z || (Z.of_nat (length (t :: rest)) <? m + 1)%Z) eqn:E; [congruence|].
  destruct (nonneg_msg _ _ E) as [X Y]. cbn [length] in X.
  replace ((m <? -1)%Z || (Z.of_nat (length (t :: rest ++ more)) <? m + 1)%Z) with false.
  2: { symmetry. apply orb_false_iff in E. destruct E as [E1 E2]. rewrite E1. apply Z.ltb_ge in E2. apply Z.ltb_ge. cbn [length] in *. rewrite app_length. lia. }
  f_equal. rewrite skipn_app_le by lia. rewrite firstn_app_le; [reflexivity|]. rewrite skipn_length. lia.
Qed.
Lemma magic_stable : forall data more g, parse_magic data g <> PgMore -> parse_magic (data ++ more) g = parse_magic data g.
Proof.
  intros data more g H. unfold parse_magic in *.
  destruct (Nat.ltb_spec (length data) 4) as [|L]; [congruence|].
  replace (length (data ++ more) <? 4)%nat with false by (symmetry; apply Nat.ltb_ge; rewrite app_length; lia).
  rewrite firstn_app_le by lia. set (m := read_be (firstn 4 data)) in *.
  destruct (65536 <? m); [reflexivity|]. destruct (N.ltb_spec (N.of_nat (length data)) m) as [|L2]; [congruence|].
  replace (N.of_nat (length (data ++ more)) <? m) with false by (symmetry; apply N.ltb_ge; rewrite app_length; lia).
  destruct (N.ltb_spec m 8); [reflexivity|].
  rewrite !skipn_app_le by lia. rewrite !firstn_app_le by (rewrite skipn_length; lia). reflexivity.
Qed.
Lemma pg_stable : forall pw data more g, parse_postgres pw data g <> Ok PgMore ->
  parse_postgres pw (data ++ more) g = parse_postgres pw data g.
Proof.
  intros pw data more g H. destruct data as [|b data]; [contradiction H; reflexivity|].
  unfold parse_postgres in *. cbn [app]. change (b :: data ++ more) with ((b :: data) ++ more).
  destruct (b =? 0).
  - rewrite magic_stable; [reflexivity|]. congruence.
  - apply message_stable. exact H.
Qed.
Lemma pg_within : forall pw data g n args g', parse_postgres pw data g = Ok (PgGot n args g') -> (0 < n <= length data)%nat.
Proof.
  intros pw data g n args g' H. destruct data as [|b data]; [discriminate|]. unfold parse_postgres in H.
  destruct (b =? 0).
  - injection H as H. unfold parse_magic in H. destruct (_ <? 4)%nat; [discriminate|]. cbv zeta in H. set (m := read_be (firstn 4 (b :: data))) in *.
    destruct (65536 <? m); [discriminate|]. destruct (N.ltb_spec (N.of_nat (length (b :: data))) m); [discriminate|].
    destruct (N.ltb_spec m 8); [discriminate|].
    assert (n = N.to_nat m); [|lia].
    repeat match type of H with (if ?c then _ else _) = _ => destruct c end; congruence.
  - rewrite parse_message_do in H. destruct (_ <? 5)%nat; [discriminate|]. cbv zeta in H.
    destruct (_ || _) eqn:E; [discriminate|]. destruct (nonneg_msg _ _ E) as [X Y].
    destruct (pg_do_within _ _ _ _ _ _ _ _ Y H) as [-> P]. split; assumption.
Qed.

(** *** The protocol is settled by the first line *)
Definition sniffable (data : bytes) : Prop := hd 1 data = 42 \/ hd 1 data = 0 \/ In 10 data.
Lemma first_line_app : forall data more i, In 10 data -> first_line_end (data ++ more) i = first_line_end data i /\ (i < first_line_end data i <= i + length data)%nat.
Proof.
  induction data as [|b data IH]; intros more i H; [destruct H|]. cbn [app first_line_end length].
  destruct (N.eqb_spec b 10); [split; [reflexivity|lia]|]. destruct H as [H|H]; [congruence|].
  destruct (IH more (S i) H) as [E B]. split; [exact E|lia].
Qed.
Lemma leading_app : forall data more, In 10 data -> leading_blanks (data ++ more) = leading_blanks data /\ (leading_blanks data < length data)%nat.
Proof.
  induction data as [|b data IH]; intros more H; [destruct H|]. cbn [app leading_blanks length].
  destruct (N.eqb_spec b 32); [|split; [reflexivity|lia]]. subst. destruct H as [H|H]; [discriminate|].
  destruct (IH more H) as [E B]. rewrite E. split; [reflexivity|lia].
Qed.
Lemma sniff_app : forall data more, sniffable data -> sniff_proto (data ++ more) = sniff_proto data.
Proof.
  intros data more H. destruct data as [|b data].
  { unfold sniffable in H. cbn in H. destruct H as [H|[H|[]]]; discriminate. }
  unfold sniffable in H. cbn [hd] in H. unfold sniff_proto. cbn [app].
  destruct (N.eqb_spec b 42); [reflexivity|]. destruct (N.eqb_spec b 0); [reflexivity|].
  destruct H as [H|[H|H]]; [congruence|congruence|].
  change (b :: data ++ more) with ((b :: data) ++ more).
  destruct (first_line_app _ more 0 H) as [E B]. rewrite E. set (m := first_line_end (b :: data) 0) in *.
  destruct (leading_app _ more H) as [E2 B2]. rewrite E2. set (j := leading_blanks (b :: data)) in *.
  rewrite (app_nth1 _ _ 0 B2).
  destruct (Nat.leb_spec 11 m); [|reflexivity].
  rewrite skipn_app_le by lia. rewrite firstn_app_le by (rewrite skipn_length; lia).
  rewrite !app_nth1 by lia. reflexivity.
Qed.

(** *** One turn *)
Lemma parse_by_within : forall cf p data k, data <> [] ->
  match parse_by cf p data k with
  | Ok (CGot n _ k1) => (0 < n <= length data)%nat
  | Ok (CErr _ n k1) => p = MEMCACHE -> (0 < n <= length data)%nat
  | _ => True
  end.
Proof.
  intros cf p data k ND. destruct p; cbn [parse_by].
  - pose proof (mc_within_all data) as W. destruct (parse_memcache data) as [[|m n|n nr args]|]; cbn in *; auto.
  - destruct (parse_postgres _ data _) as [[|m g|n args g]|] eqn:E; auto; [discriminate|]. eapply pg_within; exact E.
  - destruct (parse_http cf data); auto; [discriminate|]. destruct data; [congruence|]. cbn [length]. lia.
  - destruct (match data with [] => false | b :: _ => b =? 42 end).
    + destruct (parse_resp data) as [[|m|n args]|] eqn:E; auto; [discriminate|]. eapply resp_within; exact E.
    + destruct (parse_resp_telnet data) as [|m|n args] eqn:E; auto; [discriminate|].
      apply (telnet_bound (length data)) in E; [|lia]. lia.
Qed.
Lemma with_pg_fields : forall g k, k_proto (with_pg g k) = k_proto k /\ k_packet (with_pg g k) = k_packet k /\ k_closed (with_pg g k) = k_closed k /\ k_auth (with_pg g k) = k_auth k.
Proof. repeat split. Qed.
Definition conn_of (x : command) : conn := match x with CMore k | CErr _ _ k | CGot _ _ k => k end.
Lemma parse_by_conn : forall cf p data k x, parse_by cf p data k = Ok x -> exists g, conn_of x = with_pg g k.
Proof.
  intros cf p data k x H. assert (K : k = with_pg (k_pg k) k) by (destruct k; reflexivity).
  destruct p; cbn [parse_by] in H.
  - destruct (parse_memcache data) as [[|m n|n nr args]|]; try discriminate; injection H as <-; eauto.
  - destruct (parse_postgres _ data _) as [[|m g|n args g]|] eqn:E; try discriminate; injection H as <-; cbn [conn_of]; eauto.
  - injection H as <-. destruct (parse_http cf data); eauto.
  - destruct (match data with [] => false | b :: _ => b =? 42 end).
    + destruct (parse_resp data) as [[|m|n args]|]; try discriminate; injection H as <-; eauto.
    + injection H as <-. destruct (parse_resp_telnet data); eauto.
Qed.
Lemma parse_by_stable : forall cf p data more k, data <> [] -> p <> HTTP ->
  (forall n args k1, parse_by cf p data k = Ok (CGot n args k1) -> parse_by cf p (data ++ more) k = Ok (CGot n args k1)) /\
  (forall m n k1, p = MEMCACHE -> parse_by cf p data k = Ok (CErr m n k1) -> parse_by cf p (data ++ more) k = Ok (CErr m n k1)).
Proof.
  intros cf p data more k ND NH. destruct p; [| |congruence|].
  - assert (S : parse_memcache data <> Ok McMore -> parse_memcache (data ++ more) = parse_memcache data) by apply C39_stable.
    cbn [parse_by]. split; intros; (destruct (parse_memcache data) as [[| |]|]; try discriminate; rewrite S by discriminate; assumption).
  - split; [|intros; discriminate]. intros n args k1 H. cbn [parse_by] in *.
    destruct (parse_postgres (cf_password cf) data (k_pg k)) as [[| |]|] eqn:E; try discriminate.
    rewrite pg_stable by congruence. rewrite E. exact H.
  - split; [|intros; discriminate]. intros n args k1 H. cbn [parse_by] in *.
    destruct data as [|b data]; [congruence|]. cbn [app]. destruct (b =? 42).
    + change (b :: data ++ more) with ((b :: data) ++ more).
      destruct (parse_resp (b :: data)) as [[| |n' args']|] eqn:E; try discriminate. rewrite (C37_stable _ _ _ more E). exact H.
    + change (b :: data ++ more) with ((b :: data) ++ more).
      rewrite C48_stable; [exact H|]. intro X. rewrite X in H. discriminate.
Qed.
Definition settled_proto (data : bytes) (k : conn) : Prop := k_proto k <> None \/ sniffable data.
Lemma command_proto : forall cf data k, settled_proto data k -> 
  (exists p, k_proto (match k_proto k with None => with_proto p k | _ => k end) = Some p /\
    forall more, parse_command cf (data ++ more) k = parse_by cf p (data ++ more) (match k_proto k with None => with_proto p k | _ => k end)) \/
  (k_proto k = None /\ sniff_proto data = None /\ parse_command cf data k = Ok (CErr (bs "ERROR") O k)).
Proof.
  intros cf data k H. unfold parse_command. destruct (k_proto k) as [p|] eqn:E.
  - left. exists p. split; [exact E|]. reflexivity.
  - destruct H as [H|H]; [congruence|]. destruct (sniff_proto data) as [p|] eqn:Q.
    + left. exists p. split; [reflexivity|]. intro more. rewrite sniff_app by exact H. rewrite Q. reflexivity.
    + right. split; [reflexivity|]. split; [reflexivity|]. reflexivity.
Qed.
Definition turn_of (cf : config) (x : command) : out turn :=
  match x with
  | CMore k1 => Ok (Wait k1)
  | CErr m n k1 =>
      match k_proto k1 with
      | Some MEMCACHE => Ok (Turn n k1 [WError m] None)
      | _ => Ok (Shut k1 [WError m])
      end
  | CGot n [] k1 =>
      match k_proto k1 with
      | Some POSTGRES =>
          match pg_respond (cf_password cf) (cf_version cf) (k_tls k1) (k_pg k1) with
          | Bad t => Bad t
          | Ok r =>
              let k2 := with_pg (r_pg r) (if r_auth r then conn_authed k1 else k1) in
              if r_keep r then Ok (Turn n k2 (r_out r) None) else Ok (Shut k2 (r_out r))
          end
      | Some MEMCACHE => Ok (Turn n k1 [WError (bs "ERROR")] None)
      | Some HTTP => Bad AssertFail
      | _ => Ok (Turn n k1 [] None)
      end
  | CGot n args k1 =>
      match k_proto k1 with
      | Some POSTGRES =>
          if negb (pg_ready (k_pg k1)) then Ok (Shut k1 [])
          else let '(ws, g, cmd) := pg_precommand args (k_pg k1) in Ok (Turn n (with_pg g k1) ws cmd)
      | _ => Ok (Turn n k1 [] (Some args))
      end
  end.
Lemma conn_turn_of : forall cf data k, conn_turn cf data k = match parse_command cf data k with Bad t => Bad t | Ok x => turn_of cf x end.
Proof. intros. unfold conn_turn. destruct (parse_command cf data k) as [[| |]|]; reflexivity. Qed.
(** What a turn keeps of the connection. *)
Definition like (k k1 : conn) : Prop := k_proto k1 = k_proto k /\ k_packet k1 = k_packet k /\ k_closed k1 = k_closed k /\ k_tls k1 = k_tls k.
Lemma like_pg : forall g k, like k (with_pg g k).
Proof. repeat split. Qed.
Lemma like_authed : forall k, like k (conn_authed k).
Proof. repeat split. Qed.
Lemma like_trans : forall a b c, like a b -> like b c -> like a c.
Proof. intros a b c (A & B & C & D) (E & F & G & H). repeat split; congruence. Qed.
Definition turn_conn (t : turn) : conn := match t with Wait k | Shut k _ | Turn _ k _ _ => k end.
Lemma turn_of_like : forall cf x t, turn_of cf x = Ok t -> like (conn_of x) (turn_conn t).
Proof.
  intros cf x t H. destruct x as [k1|m n k1|n args k1]; cbn [turn_of conn_of] in *.
  - injection H as <-. repeat split.
  - destruct (k_proto k1) as [[]|]; injection H as <-; repeat split.
  - destruct args as [|a args].
    + destruct (k_proto k1) as [[]|] eqn:E; try discriminate; try (injection H as <-; repeat split).
      destruct (pg_respond _ _ _ _) as [r|]; [|discriminate]. cbv zeta in H.
      assert (L : like k1 (with_pg (r_pg r) (if r_auth r then conn_authed k1 else k1))) by (destruct (r_auth r); repeat split).
      destruct (r_keep r); injection H as <-; exact L.
    + destruct (k_proto k1) as [[]|] eqn:E; try (injection H as <-; repeat split).
      destruct (negb _); [injection H as <-; repeat split|]. destruct (pg_precommand _ _) as [[ws g] cmd]. injection H as <-. repeat split.
Qed.
Lemma turn_of_n : forall cf x n k ws cmd, turn_of cf x = Ok (Turn n k ws cmd) ->
  (exists args k1, x = CGot n args k1) \/ (exists m k1, x = CErr m n k1 /\ k_proto k1 = Some MEMCACHE).
Proof.
  intros cf x n k ws cmd H. destruct x as [k1|m n' k1|n' args k1]; cbn [turn_of] in *; [discriminate| |].
  - right. exists m, k1. destruct (k_proto k1) as [[]|]; try discriminate. injection H as -> _ _ _. auto.
  - left. exists args, k1. destruct args as [|a args].
    + destruct (k_proto k1) as [[]|] eqn:E; try discriminate; try (injection H as -> _ _ _; reflexivity).
      destruct (pg_respond _ _ _ _) as [r|]; [|discriminate]. cbv zeta in H.
      destruct (r_keep r); [injection H as -> _ _ _; reflexivity|discriminate].
    + destruct (k_proto k1) as [[]|] eqn:E; try (injection H as -> _ _ _; reflexivity).
      destruct (negb _); [discriminate|]. destruct (pg_precommand _ _) as [[ws' g] cmd']. injection H as -> _ _ _. reflexivity.
Qed.
Lemma parse_command_by : forall cf data k x, parse_command cf data k = Ok x ->
  (k_proto k = None /\ x = CErr (bs "ERROR") O k) \/
  exists p k0, parse_by cf p data k0 = Ok x /\ k_proto k0 = Some p /\ k_packet k0 = k_packet k /\ k_closed k0 = k_closed k /\ k_tls k0 = k_tls k /\
    k_auth k0 = k_auth k /\ k_pg k0 = k_pg k /\ (k_proto k = Some p \/ k_proto k = None).
Proof.
  intros cf data k x H. unfold parse_command in H. destruct (k_proto k) as [p|] eqn:E.
  - right. exists p, k. repeat split; auto.
  - destruct (sniff_proto data) as [p|]; [|left; split; [reflexivity|congruence]].
    right. exists p, (with_proto p k). repeat split; auto.
Qed.
Lemma turn_within : forall cf data k n k1 ws cmd, data <> [] -> conn_turn cf data k = Ok (Turn n k1 ws cmd) -> (0 < n <= length data)%nat.
Proof.
  intros cf data k n k1 ws cmd ND H. rewrite conn_turn_of in H. destruct (parse_command cf data k) as [x|] eqn:E; [|discriminate].
  destruct (parse_command_by _ _ _ _ E) as [[P ->]|(p & k0 & B & P0 & _)].
  - cbn [turn_of] in H. rewrite P in H. discriminate.
  - pose proof (parse_by_within cf p data k0 ND) as W. rewrite B in W.
    destruct (turn_of_n _ _ _ _ _ _ H) as [(args & k2 & ->)|(m & k2 & -> & P2)]; [exact W|]. apply W.
    destruct (parse_by_conn _ _ _ _ _ B) as [g G]. cbn [conn_of] in G. subst k2. cbn [with_pg k_proto] in P2. congruence.
Qed.
Lemma turn_like : forall cf data k t, conn_turn cf data k = Ok t -> 
  k_packet (turn_conn t) = k_packet k /\ k_closed (turn_conn t) = k_closed k /\ k_tls (turn_conn t) = k_tls k /\
  (k_proto k <> None -> k_proto (turn_conn t) = k_proto k) /\ 
  (match t with Shut _ _ => True | _ => k_proto (turn_conn t) <> None end).
Proof.
  intros cf data k t H. rewrite conn_turn_of in H. destruct (parse_command cf data k) as [x|] eqn:E; [|discriminate].
  pose proof (turn_of_like _ _ _ H) as (A & B & C & D).
  destruct (parse_command_by _ _ _ _ E) as [[P ->]|(p & k0 & PB & P0 & P1 & P2 & P3 & P4 & P5 & P6)].
  - cbn [conn_of] in *. rewrite A, B, C, D. repeat split; try congruence.
    cbn [turn_of] in H. rewrite P in H. injection H as <-. exact I.
  - destruct (parse_by_conn _ _ _ _ _ PB) as [g G]. rewrite G in *. cbn [with_pg k_proto k_packet k_closed k_tls] in *.
    rewrite A, B, C, D. repeat split; try congruence.
    + destruct P6; congruence.
    + destruct t; try exact I; congruence.
Qed.
Lemma turn_stable : forall cf data more k n k1 ws cmd, data <> [] -> settled_proto data k -> k_proto k1 <> Some HTTP ->
  conn_turn cf data k = Ok (Turn n k1 ws cmd) -> conn_turn cf (data ++ more) k = Ok (Turn n k1 ws cmd).
Proof.
  intros cf data more k n k1 ws cmd ND S NH H. rewrite conn_turn_of in H |- *.
  destruct (command_proto cf data k S) as [(p & P & Q)|(P & _ & E)].
  - rewrite Q. specialize (Q []). rewrite app_nil_r in Q. rewrite Q in H. set (k0 := match k_proto k with None => _ | _ => _ end) in *.
    destruct (parse_by cf p data k0) as [x|] eqn:E; [|discriminate].
    pose proof (turn_of_like _ _ _ H) as (L & _). cbn [turn_conn] in L. destruct (parse_by_conn _ _ _ _ _ E) as [g G]. rewrite G in L. cbn [with_pg k_proto] in L.
    assert (Hp : p <> HTTP) by congruence. destruct (parse_by_stable cf p data more k0 ND Hp) as [SG SE].
    destruct (turn_of_n _ _ _ _ _ _ H) as [(args & k2 & ->)|(m & k2 & -> & P2)].
    + rewrite (SG _ _ _ E). exact H.
    + cbn [conn_of] in G. rewrite G in P2. cbn [with_pg k_proto] in P2. rewrite (SE m n k2); [exact H|congruence|exact E].
  - rewrite E in H. cbn [turn_of] in H. rewrite P in H. discriminate.
Qed.
Lemma turn_wait : forall cf data more k kw, settled_proto data k -> conn_turn cf data k = Ok (Wait kw) ->
  conn_turn cf (data ++ more) k = conn_turn cf (data ++ more) kw.
Proof.
  intros cf data more k kw S H. rewrite conn_turn_of in *. rewrite (conn_turn_of cf (data ++ more) kw).
  destruct (command_proto cf data k S) as [(p & P & Q)|(P & _ & E)].
  - rewrite Q. specialize (Q []). rewrite app_nil_r in Q. rewrite Q in H. set (k0 := match k_proto k with None => _ | _ => _ end) in *.
    assert (M : parse_by cf p data k0 = Ok (CMore kw)).
    { destruct (parse_by cf p data k0) as [x|] eqn:E; [|discriminate]. f_equal.
      destruct x as [k2|m n k2|n args k2]; cbn [turn_of] in H; [congruence| |].
      - destruct (k_proto k2) as [[]|]; discriminate.
      - destruct args as [|a args].
        + destruct (k_proto k2) as [[]|]; try discriminate. destruct (pg_respond _ _ _ _) as [r|]; [|discriminate]. cbv zeta in H. destruct (r_keep r); discriminate.
        + destruct (k_proto k2) as [[]|]; try discriminate. destruct (negb _); [discriminate|]. destruct (pg_precommand _ _) as [[? ?] ?]. discriminate. }
    destruct (parse_by_conn _ _ _ _ _ M) as [g G]. cbn [conn_of] in G.
    assert (Kw : parse_by cf p (data ++ more) kw = parse_by cf p (data ++ more) k0).
    { destruct p; cbn [parse_by] in M.
      - destruct (parse_memcache data) as [[|m n|n nr args]|]; try discriminate; injection M as <-. reflexivity.
      - destruct (parse_postgres _ data _) as [[|m g'|n args g']|] eqn:E; try discriminate; injection M as <-.
        cbn [parse_by]. cbn [with_pg k_pg].
        replace (parse_postgres (cf_password cf) (data ++ more) (set_err None (k_pg k0))) with (parse_postgres (cf_password cf) (data ++ more) (k_pg k0)) by reflexivity.
        destruct (parse_postgres _ _ _) as [[| |]|]; reflexivity.
      - destruct (parse_http cf data); try discriminate; injection M as <-. reflexivity.
      - destruct (match data with [] => false | b :: _ => b =? 42 end).
        + destruct (parse_resp data) as [[|m|n args]|]; try discriminate; injection M as <-; reflexivity.
        + destruct (parse_resp_telnet data); try discriminate; injection M as <-. reflexivity. }
    unfold parse_command. replace (k_proto kw) with (Some p) by (rewrite G; symmetry; exact P). rewrite Kw. reflexivity.
  - rewrite E in H. cbn [turn_of] in H. rewrite P in H. discriminate.
Qed.

(** *** The loop *)
Section Loop.
Variables (c : ctx) (cf : config) (orc : nat -> nat -> input).
Notation loop := (conn_loop c cf orc).
Lemma loop_fuel : forall f f' i data k ch, (length data < f)%nat -> (length data < f')%nat -> loop f i data k ch = loop f' i data k ch.
Proof.
  induction f as [|f IH]; intros f' i data k ch L L'; [lia|]. destruct f' as [|f']; [lia|]. cbn [conn_loop].
  destruct data as [|b data]; [reflexivity|]. destruct (conn_turn cf (b :: data) k) as [[k1|k1 ws|n k1 ws cmd]|] eqn:T; try reflexivity.
  assert (ND : b :: data <> []) by discriminate. pose proof (turn_within _ _ _ _ _ _ _ ND T) as W.
  assert (R : forall i' k' ch', loop f i' (skipn n (b :: data)) k' ch' = loop f' i' (skipn n (b :: data)) k' ch').
  { intros. apply IH; rewrite skipn_length; cbn [length] in *; lia. }
  destruct cmd as [args|].
  - destruct (prun _ _ _ _ _) as [[[ch2 es] ev2]|]; [|reflexivity]. cbv zeta.
    destruct (k_closed _); [reflexivity|]. rewrite R. reflexivity.
  - cbv zeta. destruct (k_closed _); [reflexivity|]. rewrite R. reflexivity.
Qed.
Lemma after_like : forall es k, k_proto (after es k) = k_proto k /\ k_packet k = [] -> k_packet (after es k) = [] .
Proof. intros es k [_ H]. unfold after. destruct (existsb _ es); destruct (existsb _ es); cbn; auto. Qed.
Lemma after_proto : forall es k, k_proto (after es k) = k_proto k.
Proof. intros es k. unfold after. destruct (existsb _ es); destruct (existsb _ es); reflexivity. Qed.
Lemma after_packet : forall es k, k_packet k = [] -> k_packet (after es k) = [].
Proof. intros es k H. unfold after. destruct (existsb _ es); destruct (existsb _ es); cbn; auto. Qed.
Lemma with_packet_nil : forall k, k_packet k = [] -> with_packet [] k = k.
Proof. intros [] H. cbn in *. subst. reflexivity. Qed.
(** The result of going on with more data. *)
Definition then_ (r : out (conn * cache * nat * list did * list event)) (next : nat -> conn -> cache -> out (conn * cache * nat * list did * list event)) :=
  match r with
  | Bad t => Bad t
  | Ok (k1, ch1, i1, ds1, ev1) =>
      match next i1 k1 ch1 with
      | Bad t => Bad t
      | Ok (k2, ch2, i2, ds2, ev2) => Ok (k2, ch2, i2, ds1 ++ ds2, ev1 ++ ev2)
      end
  end.
Lemma loop_app : forall f i data k ch k1 ch1 i1 ds evs more f2,
  (length data < f)%nat -> (length (data ++ more) < f2)%nat -> k_packet k = [] -> k_closed k = false ->
  settled_proto data k \/ data = [] ->
  loop f i data k ch = Ok (k1, ch1, i1, ds, evs) -> k_closed k1 = false ->
  loop f2 i (data ++ more) k ch = then_ (Ok (k1, ch1, i1, ds, evs)) (fun i k ch => evdata c cf orc i more k ch).
Proof.
  induction f as [|f IH]; intros i data k ch k1 ch1 i1 ds evs more f2 L L2 Pk Cl St H C1; [lia|].
  destruct data as [|b data].
  - cbn in H. injection H as <- <- <- <- <-. rewrite (with_packet_nil _ Pk) in *. cbn [then_ app]. unfold evdata. rewrite Cl, Pk, (with_packet_nil _ Pk).
    cbn [app]. rewrite (loop_fuel f2 (S (length more))) by (cbn [app] in L2; lia).
    destruct (loop _ _ _ _ _) as [[[[[? ?] ?] ?] ?]|]; reflexivity.
  - destruct St as [St|]; [|discriminate]. cbn [conn_loop] in H.
    assert (ND : b :: data <> []) by discriminate.
    destruct (conn_turn cf (b :: data) k) as [[kw|ks ws|n kt ws cmd]|] eqn:T; [| | |discriminate].
    + injection H as <- <- <- <- <-. destruct (turn_like _ _ _ _ T) as (K1 & K2 & _). cbn [turn_conn] in *.
      assert (E0 : evdata c cf orc i more (with_packet (b :: data) kw) ch = loop (S (length ((b :: data) ++ more))) i ((b :: data) ++ more) kw ch).
      { unfold evdata. change (k_closed (with_packet (b :: data) kw)) with (k_closed kw). rewrite K2, Cl.
        change (k_packet (with_packet (b :: data) kw)) with (b :: data). cbv zeta. f_equal. apply (with_packet_nil kw). congruence. }
      cbn [then_]. rewrite E0.
      rewrite (loop_fuel _ f2 i ((b :: data) ++ more) kw) by lia.
      assert (E : loop f2 i ((b :: data) ++ more) k ch = loop f2 i ((b :: data) ++ more) kw ch).
      { destruct f2 as [|f2]; [lia|]. cbn [conn_loop]. cbn [app]. change (b :: data ++ more) with ((b :: data) ++ more).
        rewrite (turn_wait _ _ more _ _ St T). reflexivity. }
      rewrite E. destruct (loop f2 i ((b :: data) ++ more) kw ch) as [[[[[? ?] ?] ?] ?]|]; reflexivity.
    + exfalso. injection H as <- _ _ _ _. discriminate C1.
    + destruct (turn_like _ _ _ _ T) as (K1 & K2 & _ & K3 & K4). cbn [turn_conn] in *.
      pose proof (turn_within _ _ _ _ _ _ _ ND T) as W.
      assert (NH : k_proto kt <> Some HTTP).
      { intro X. destruct cmd as [args|].
        - destruct (prun _ _ _ _ _) as [[[ch2 es] ev2]|]; [|discriminate]. cbv zeta in H. rewrite after_proto, X in H.
          cbn [k_closed conn_shut] in H. injection H as <- _ _ _ _. discriminate C1.
        - cbv zeta in H. rewrite X in H. cbn [k_closed conn_shut] in H. injection H as <- _ _ _ _. discriminate C1. }
      assert (T2 := turn_stable _ _ more _ _ _ _ _ ND St NH T).
      destruct f2 as [|f2]; [lia|]. cbn [conn_loop]. cbn [app]. change (b :: data ++ more) with ((b :: data) ++ more). rewrite T2.
      assert (F1 : firstn n ((b :: data) ++ more) = firstn n (b :: data)) by (apply firstn_app_le; lia).
      assert (F2 : skipn n ((b :: data) ++ more) = skipn n (b :: data) ++ more) by (apply skipn_app_le; lia).
      assert (Go : forall i' d k' ch' ev', k_proto k' = k_proto kt -> k_packet k' = [] ->
        (let k3 := match k_proto k' with Some HTTP => conn_shut k' | _ => k' end in
         let this := mkDid (firstn n (b :: data)) (proto_of kt) (pgout_of (k_pg kt)) (ws, d) in
         if k_closed k3 then Ok (conn_shut k3, ch', i', [this], ev')
         else match loop f i' (skipn n (b :: data)) k3 ch' with
         | Bad t => Bad t
         | Ok (k4, ch4, i4, ds, evs) => Ok (k4, ch4, i4, this :: ds, ev' ++ evs) end) = Ok (k1, ch1, i1, ds, evs) ->
        (let k3 := match k_proto k' with Some HTTP => conn_shut k' | _ => k' end in
         let this := mkDid (firstn n ((b :: data) ++ more)) (proto_of kt) (pgout_of (k_pg kt)) (ws, d) in
         if k_closed k3 then Ok (conn_shut k3, ch', i', [this], ev')
         else match loop f2 i' (skipn n ((b :: data) ++ more)) k3 ch' with
         | Bad t => Bad t
         | Ok (k4, ch4, i4, ds, evs) => Ok (k4, ch4, i4, this :: ds, ev' ++ evs) end) =
        then_ (Ok (k1, ch1, i1, ds, evs)) (fun i k ch => evdata c cf orc i more k ch)).
      { intros i' d k' ch' ev' Pk' Pa' H'. cbv zeta in *.
        replace (match k_proto k' with Some HTTP => conn_shut k' | _ => k' end) with k' in * by (rewrite Pk'; destruct (k_proto kt) as [[]|]; congruence).
        destruct (k_closed k') eqn:Ck'; [exfalso; injection H' as <- _ _ _ _; discriminate C1|].
        destruct (loop f i' (skipn n (b :: data)) k' ch') as [[[[[k4 ch4] i4] ds4] ev4]|] eqn:E4; [|discriminate].
        injection H' as -> -> -> <- <-. rewrite F1, F2.
        rewrite (IH i' _ k' ch' k1 ch1 i1 ds4 ev4 more f2).
        - cbn [then_]. destruct (evdata _ _ _ _ _ _ _) as [[[[[k5 ch5] i5] ds5] ev5]|]; [|reflexivity]. rewrite app_assoc. reflexivity.
        - rewrite skipn_length. cbn [length] in *. lia.
        - rewrite app_length, skipn_length. rewrite app_length in L2. cbn [length] in *. lia.
        - exact Pa'.
        - exact Ck'.
        - left. left. congruence.
        - exact E4.
        - exact C1. }
      destruct cmd as [args|].
      * destruct (prun _ _ _ _ _) as [[[ch2 es] ev2]|]; [|discriminate]. apply (Go (S i) (Some (args, es)) (after es kt) ch2 ev2); [apply after_proto|apply after_packet; congruence|exact H].
      * apply (Go i None kt ch []); [reflexivity|congruence|exact H].
Qed.
Lemma evdata_app : forall i a b k ch k1 ch1 i1 ds evs,
  settled_proto (k_packet k ++ a) k \/ k_packet k ++ a = [] ->
  evdata c cf orc i a k ch = Ok (k1, ch1, i1, ds, evs) -> k_closed k1 = false ->
  evdata c cf orc i (a ++ b) k ch = then_ (Ok (k1, ch1, i1, ds, evs)) (fun i k ch => evdata c cf orc i b k ch).
Proof.
  intros i a b k ch k1 ch1 i1 ds evs S H C1. unfold evdata in H |- * at 1. destruct (k_closed k) eqn:Ck.
  - injection H as <- <- <- <- <-. congruence.
  - rewrite app_assoc. eapply loop_app; try eassumption; try reflexivity; try lia; auto.
Qed.
End Loop.
