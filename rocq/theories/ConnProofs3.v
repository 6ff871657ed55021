(** Proofs about connections: one request at a time, the first packet, and
    authentication. *)
From Verif Require Import Base Types Clamp Entry Hash Map Shard Cache Text IntText CmdTable CmdSpec CmdsProofs Prog Cmds Resp Memcache Http HttpSpec HttpProofs PropHttp Reply ReplySpec ReplyProofs Postgres PgSpec PgProofs PgProofs2 Conn ConnSpec ConnProofs ConnProofs2.
From Coq Require Import String Lia.
Local Open Scope N_scope.
Notation length := List.length.
Notation concat := List.concat.
Notation map := List.map.

Lemma evdata_turn : forall c cf orc i t k ch k1 ws cmd p, k_closed k = false -> k_packet k = [] -> t <> [] ->
  conn_turn cf t k = Ok (Turn (length t) k1 ws cmd) -> like k k1 -> k_proto k = Some p -> p <> HTTP ->
  evdata c cf orc i t k ch =
  match cmd with
  | None => Ok (k1, ch, i, [mkDid t p (pgout_of (k_pg k1)) (ws, None)], [])
  | Some args =>
      match prun c (orc i) 0 ch (evcommand cf (k_auth k1) p args) with
      | Bad x => Bad x
      | Ok (ch2, es, ev2) => Ok (after es k1, ch2, S i, [mkDid t p (pgout_of (k_pg k1)) (ws, Some (args, es))], ev2)
      end
  end.
Proof.
  intros c cf orc i t k ch k1 ws cmd p Cl Pk Nt T (L1 & L2 & L3 & L4) P Np. unfold evdata. rewrite Cl, Pk, (with_packet_nil _ Pk). cbn [app].
  destruct t as [|x t]; [congruence|]. set (s := x :: t) in *.
  assert (E : forall f i' k2 ch2, (exists f', f = S f') -> k_closed k2 = false -> k_packet k2 = [] -> conn_loop c cf orc f i' (skipn (length s) s) k2 ch2 = Ok (k2, ch2, i', [], [])).
  { intros f i' k2 ch2 [f' ->] _ Pk2. rewrite skipn_all. cbn [conn_loop]. rewrite (with_packet_nil _ Pk2). reflexivity. }
  assert (F : firstn (length s) s = s) by apply firstn_all.
  change (conn_loop c cf orc (S (length s)) i s k ch) with
    (match conn_turn cf s k with
          | Bad t => Bad t
          | Ok (Wait k1) => Ok (with_packet s k1, ch, i, [], [])
          | Ok (Shut k1 ws) => Ok (conn_shut k1, ch, i, [mkDid [] (proto_of k1) (pgout_of (k_pg k1)) (ws, None)], [])
          | Ok (Turn n k1 ws cmd) =>
              let go (i : nat) (d : option (list bytes * list eff)) (k2 : conn) (ch2 : cache) (ev2 : list event) :=
                let k3 := match k_proto k2 with Some HTTP => conn_shut k2 | _ => k2 end in
                let this := mkDid (firstn n s) (proto_of k1) (pgout_of (k_pg k1)) (ws, d) in
                if k_closed k3 then Ok (conn_shut k3, ch2, i, [this], ev2)
                else match conn_loop c cf orc (length s) i (skipn n s) k3 ch2 with
                | Bad t => Bad t
                | Ok (k4, ch4, i4, ds, evs) => Ok (k4, ch4, i4, this :: ds, ev2 ++ evs)
                end in
              match cmd with
              | None => go i None k1 ch []
              | Some args =>
                  match prun c (orc i) 0 ch (evcommand cf (k_auth k1) (proto_of k1) args) with
                  | Bad t => Bad t
                  | Ok (ch2, es, ev2) => go (S i) (Some (args, es)) (after es k1) ch2 ev2
                  end
              end
          end).
  rewrite T. cbv zeta. assert (Pr : proto_of k1 = p) by (unfold proto_of; rewrite L1, P; reflexivity). rewrite Pr, F.
  assert (NH : forall (k2 : conn) A (a b : A), k_proto k2 = Some p -> match k_proto k2 with Some HTTP => a | _ => b end = b).
  { intros k2 A a b H2. rewrite H2. destruct p; congruence. }
  destruct cmd as [args|].
  - destruct (prun _ _ _ _ _) as [[[ch2 es] ev2]|]; [|reflexivity].
    rewrite (NH (after es k1)) by (rewrite after_proto; congruence).
    destruct (k_closed (after es k1)) eqn:C2.
    + assert (conn_shut (after es k1) = after es k1) as ->.
      { unfold after in *. destruct (existsb _ es), (existsb _ es); cbn in *; try reflexivity; congruence. }
      reflexivity.
    + rewrite E; [|exists (length t); reflexivity|exact C2|].
      * rewrite app_nil_r. reflexivity.
      * unfold after in *. destruct (existsb _ es), (existsb _ es); cbn in *; congruence.
  - rewrite NH by congruence. rewrite L3, Cl. rewrite E; [|exists (length t); reflexivity|congruence|congruence]. reflexivity.
Qed.
(** ** Authentication *)
Lemma auth_run : forall pw pr args,
  (exists w, In w refusals /\ forall c orc n ch, prun c orc n ch (cmdAUTH pw pr args) = Ok (ch, [Out w], [])) \/
  (exists w, args = [w; pw] /\ map tolower w = bs "auth").
Proof.
  intros pw pr args. unfold cmdAUTH, error, answer. cbn [puts].
  destruct (is_word (hd [] args) "auth") eqn:W; cbn [negb].
  2: { left. destruct (is_mc pr); cbn [puts prun].
       - eexists. split; [left; reflexivity|reflexivity].
       - eexists. split; [right; left; reflexivity|reflexivity]. }
  destruct args as [|a args]; [discriminate|]. cbn [hd] in W. apply word_is in W.
  destruct args as [|p args]; [left; eexists; split; [right; right; left; reflexivity|reflexivity]|].
  destruct args as [|x args].
  - destruct (beq p pw) eqn:E; [|left; eexists; split; [right; right; right; right; left; reflexivity|reflexivity]].
    apply beq_eq in E. subst p. right. eauto.
  - left. destruct args as [|y args]; [eexists; split; [right; right; right; right; left; reflexivity|reflexivity]|].
    eexists; split; [right; right; right; left; reflexivity|reflexivity].
Qed.
(** What no parser of Postgres messages changes but the one of the password. *)
Definition unsigned_in (g : pgst) : Prop := Postgres.pg_ready g = false /\ has_flag FAuth g = false.
Ltac steps H :=
  repeat (first [discriminate H | match type of H with context [match ?x with _ => _ end] => destruct x eqn:? end]);
  try discriminate H.
Lemma step_locked : forall g s args g', unsigned_in g ->
  parseQ s g = PgStep args g' \/ parseP s g = PgStep args g' \/ parseD s g = PgStep args g' \/ parseB s g = PgStep args g' \/
  parseX s g = PgStep args g' \/ parseE s g = Ok (PgStep args g') \/ parseS s g = PgStep args g' -> unsigned_in g'.
Proof.
  intros g s args g' [A B] H. unfold unsigned_in, has_flag in *.
  destruct H as [H|[H|[H|[H|[H|[H|H]]]]]].
  - unfold parseQ, field, at_end, pg_fault in H. steps H; injection H as <- <-; split; assumption.
  - unfold parseP, field, at_end, pg_fault in H. steps H; injection H as <- <-; split; assumption.
  - unfold parseD, field, at_end, pg_fault in H. steps H; injection H as <- <-; split; assumption.
  - unfold parseB, field, at_end, pg_fault in H. steps H; injection H as <- <-; split; assumption.
  - unfold parseX, field, at_end, pg_fault in H. steps H; injection H as <- <-; split; assumption.
  - unfold parseE, field, at_end, pg_fault in H. steps H; injection H as <- <-; split; assumption.
  - unfold parseS, field, at_end, pg_fault in H. steps H; injection H as <- <-; split; assumption.
Qed.
Lemma cstr_inv : forall s a r, parse_cstr s = Some (a, r) -> s = a ++ 0 :: r.
Proof.
  induction s as [|b s IH]; intros a r H; [discriminate|]. cbn [parse_cstr] in H. destruct (N.eqb_spec b 0) as [->|].
  - injection H as <- <-. reflexivity.
  - destruct (parse_cstr s) as [[a' r']|]; [|discriminate]. injection H as <- <-. cbn [app]. f_equal. apply IH. reflexivity.
Qed.
Lemma cstr_whole : forall s, no_nul s -> cstr s = s.
Proof. induction 1 as [|b s H F IH]; [reflexivity|]. cbn [cstr]. destruct (N.eqb_spec b 0); [congruence|]. rewrite IH. reflexivity. Qed.
Lemma pg_locked : forall pw data g n args g', no_nul pw -> unsigned_in g -> parse_postgres pw data g = Ok (PgGot n args g') ->
  unsigned_in g' \/ exists len, length len = 4%nat /\ firstn n data = [112] ++ len ++ pw ++ [0].
Proof.
  intros pw data g n args g' Np U H. unfold parse_postgres in H. assert (U0 : unsigned_in (set_err None g)) by exact U.
  revert H U0. generalize (set_err None g). clear g U. intros g H U.
  destruct data as [|b data]; [discriminate|]. destruct (N.eqb_spec b 0) as [->|Nb].
  - left. injection H as H. unfold parse_magic in H. steps H; injection H as <- <- <-; exact U.
  - rewrite parse_message_do in H. destruct (Nat.ltb_spec (length (b :: data)) 5) as [|L5]; [discriminate|]. cbv zeta in H.
    set (m := signed 32 (read_be (firstn 4 data))) in *.
    destruct (Z.ltb_spec m (-1)); [discriminate|]. cbn [orb] in H. destruct (Z.ltb_spec (Z.of_nat (length (b :: data))) (m + 1)); [discriminate|].
    unfold pg_do in H. set (body := firstn (Z.to_nat (m - 4)) (skipn 4 data)) in *.
    destruct (Z.ltb_spec m 4) as [|M4].
    { steps H; injection H as <- <- <-; left; exact U. }
    destruct (b =? 81). { left. destruct (parseQ body g) eqn:E; [discriminate|]. injection H as <- <- <-. eapply step_locked; eauto 8. }
    destruct (b =? 80). { left. destruct (parseP body g) eqn:E; [discriminate|]. injection H as <- <- <-. eapply step_locked; eauto 8. }
    destruct (b =? 88). { left. destruct (parseX body g) eqn:E; [discriminate|]. injection H as <- <- <-. eapply step_locked; eauto 8. }
    destruct (b =? 69). { left. destruct (parseE body g) as [[]|] eqn:E; [discriminate| |discriminate]. injection H as <- <- <-. eapply step_locked; eauto 8. }
    destruct (N.eqb_spec b 112) as [->|].
    { right. destruct (parsep pw body g) eqn:E; [discriminate|]. injection H as <- <- <-. unfold parsep, field in E.
      destruct (parse_cstr body) as [[a r]|] eqn:Ec; [|discriminate]. apply cstr_inv in Ec. destruct r; [|discriminate]. cbn [at_end] in E.
      destruct (beq a (cstr pw)) eqn:Ea; [|discriminate]. apply beq_eq in Ea. rewrite (cstr_whole pw Np) in Ea. subst a.
      exists (firstn 4 data). cbn [length] in L5. split; [rewrite firstn_length; lia|].
      replace (Z.to_nat (m + 1)) with (S (4 + Z.to_nat (m - 4)))%nat by lia. cbn [firstn app]. f_equal. rewrite <- Ec. unfold body.
      rewrite <- (firstn_skipn 4 data) at 1. rewrite firstn_app. rewrite firstn_firstn. 
      replace (Nat.min (4 + Z.to_nat (m - 4)) 4) with 4%nat by lia. f_equal. f_equal. rewrite firstn_length. lia. }
    destruct (b =? 68). { left. destruct (parseD body g) eqn:E; [discriminate|]. injection H as <- <- <-. eapply step_locked; eauto 8. }
    destruct (b =? 66). { left. destruct (parseB body g) eqn:E; [discriminate|]. injection H as <- <- <-. eapply step_locked; eauto 8. }
    destruct (b =? 83). { left. destruct (parseS body g) eqn:E; [discriminate|]. injection H as <- <- <-. eapply step_locked; eauto 8. }
    left. steps H; injection H as <- <- <-; exact U.
Qed.
Definition locked (k : conn) : Prop := k_auth k = false /\ unsigned_in (k_pg k).
Lemma respond_locked : forall pw v tls g r, pw <> [] -> no_nul pw -> unsigned_in g -> pg_respond pw v tls g = Ok r -> r_auth r = false /\ unsigned_in (r_pg r).
Proof.
  intros pw v tls g r Ne Np [A B] H. unfold pg_respond in H. rewrite (cstr_whole pw Np) in H. rewrite B in H.
  assert (D : forall f, has_flag FAuth (del_flag f g) = false).
  { intro f. unfold has_flag, del_flag in *. cbn [pg_flags set_flags]. clear H A. induction (pg_flags g) as [|x l IH]; [reflexivity|].
    cbn [existsb] in B. apply orb_false_iff in B. destruct B as [B1 B2]. cbn [List.filter]. destruct (negb _); [|auto]. cbn [existsb]. rewrite B1. auto. }
  steps H; try congruence; injection H as <-; (split; [reflexivity|]); (split; [exact A|]); try exact B; try exact (D _).
Qed.
Definition shown (pw : bytes) (raw : bytes) (p : proto) (cmd : option (list bytes)) : Prop :=
  match p with
  | HTTP => shows raw pw
  | POSTGRES => cmd = None
  | _ => True
  end.
Lemma turn_locked : forall cf data k t, cf_useauth cf = true -> cf_password cf <> [] -> no_nul (cf_password cf) -> locked k -> conn_turn cf data k = Ok t ->
  match t with
  | Wait k1 => locked k1
  | Shut k1 _ => True
  | Turn n k1 ws cmd => (locked k1 /\ shown (cf_password cf) (firstn n data) (proto_of k1) cmd) \/
      (proto_of k1 = POSTGRES /\ exists len, length len = 4%nat /\ firstn n data = [112] ++ len ++ cf_password cf ++ [0])
  end.
Proof.
  intros cf data k t Us Ne Np L H. rewrite conn_turn_of in H. destruct (parse_command cf data k) as [x|] eqn:P; [|discriminate].
  assert (P' : (exists p kp, k_proto kp = Some p /\ k_auth kp = k_auth k /\ k_pg kp = k_pg k /\ parse_by cf p data kp = Ok x) \/
    k_proto k = None /\ x = CErr (bs "ERROR") O k).
  { unfold parse_command in P. destruct (k_proto k) as [p|] eqn:Ep; [left; eauto 8|]. destruct (sniff_proto data) as [p|].
    - left. exists p, (with_proto p k). auto.
    - right. split; congruence. }
  clear P. destruct P' as [(p & kp & Ep & Ea & Eg & P)|[Ek Ex]].
  2: { subst x. cbn [turn_of] in H. rewrite Ek in H. injection H as <-. exact I. }
  assert (L' : locked kp). { destruct L as [La Lg]. split; [congruence|]. rewrite Eg. exact Lg. } clear L.
  destruct p; cbn [parse_by] in P.
  - (* memcache *)
    assert (Cx : conn_of x = kp). { destruct (parse_memcache data) as [[]|]; try discriminate P; injection P as <-; reflexivity. }
    destruct x as [k1|m n k1|n args k1]; cbn [conn_of] in Cx; subst k1; cbn [turn_of] in H.
    + injection H as <-. exact L'.
    + rewrite Ep in H. injection H as <-. left. split; [exact L'|]. unfold proto_of. rewrite Ep. exact I.
    + destruct args; rewrite Ep in H; injection H as <-; left; (split; [exact L'|]); unfold proto_of; rewrite Ep; exact I.
  - (* postgres *)
    destruct (parse_postgres (cf_password cf) data (k_pg kp)) as [[|m g|n args g]|] eqn:Q; [| | |discriminate]; injection P as <-; cbn [turn_of] in H.
    + injection H as <-. exact L'.
    + cbn [with_pg k_proto] in H. rewrite Ep in H. injection H as <-. exact I.
    + destruct L' as [La Lg]. destruct (pg_locked _ _ _ _ _ _ Np Lg Q) as [U|Sh].
      * destruct args as [|a args].
        -- cbn [with_pg k_proto k_pg k_tls] in H. rewrite Ep in H. destruct (pg_respond _ _ _ _) as [r|] eqn:R; [|discriminate].
           destruct (respond_locked _ _ _ _ _ Ne Np U R) as [Ra Rg]. cbv zeta in H. rewrite Ra in H.
           destruct (r_keep r); injection H as <-; [|exact I]. left. split; [split; [exact La|exact Rg]|].
           unfold proto_of. cbn [with_pg k_proto]. rewrite Ep. reflexivity.
        -- cbn [with_pg k_proto k_pg] in H. rewrite Ep in H. rewrite (proj1 U) in H. cbn [negb] in H. injection H as <-. exact I.
      * assert (Lk := turn_of_like cf (CGot n args (with_pg g kp)) t H). destruct t as [k1|k1 ws|n1 k1 ws cmd]; cbn [turn_conn conn_of] in Lk.
        -- destruct args as [|a args]; cbn [with_pg k_proto k_pg k_tls] in H; rewrite Ep in H.
           ++ destruct (pg_respond _ _ _ _) as [r|]; [|discriminate]. cbv zeta in H. destruct (r_keep r); discriminate.
           ++ destruct (negb _); [discriminate|]. destruct (pg_precommand _ _) as [[? ?] ?]. discriminate.
        -- exact I.
        -- right. split; [unfold proto_of; rewrite (proj1 Lk); cbn [with_pg k_proto]; rewrite Ep; reflexivity|].
           assert (n1 = n). { destruct args as [|a args]; cbn [with_pg k_proto k_pg k_tls] in H; rewrite Ep in H.
           ++ destruct (pg_respond _ _ _ _) as [r|]; [|discriminate]. cbv zeta in H. destruct (r_keep r); [|discriminate]. congruence.
           ++ destruct (negb _); [discriminate|]. destruct (pg_precommand _ _) as [[? ?] ?]. congruence. }
           subst n1. exact Sh.
  - (* http *)
    destruct (parse_http cf data) as [|m|args] eqn:Q; injection P as <-; cbn [turn_of] in H.
    + injection H as <-. exact L'.
    + rewrite Ep in H. injection H as <-. exact I.
    + assert (Sh := C34_http cf data args Us Ne Q).
      destruct args as [|a args]; rewrite Ep in H; [discriminate|]. injection H as <-. left. split; [exact L'|].
      unfold proto_of. rewrite Ep. cbn [shown]. rewrite firstn_all. exact Sh.
  - (* resp *)
    assert (Cx : conn_of x = kp).
    { destruct (match data with [] => _ | _ => _ end); [|destruct (parse_resp_telnet data); injection P as <-; reflexivity].
      destruct (parse_resp data) as [[]|]; try discriminate P; injection P as <-; reflexivity. }
    destruct x as [k1|m n k1|n args k1]; cbn [conn_of] in Cx; subst k1; cbn [turn_of] in H.
    + injection H as <-. exact L'.
    + rewrite Ep in H. injection H as <-. exact I.
    + destruct args; rewrite Ep in H; injection H as <-; left; (split; [exact L'|]); unfold proto_of; rewrite Ep; exact I.
Qed.
Section Auth.
Variable cf : config.
Hypothesis Us : cf_useauth cf = true.
Hypothesis Ne : cf_password cf <> [].
Hypothesis Np : no_nul (cf_password cf).
Notation pw := (cf_password cf).
(** Nothing happened, or the password was presented before anything else. *)
Definition guarded (k' : conn) (ch ch' : cache) (ds : list did) (evs : list event) (again : Prop) : Prop :=
  (Forall refused ds /\ ch' = ch /\ evs = [] /\ (k_closed k' = true \/ locked k') /\ again) \/
  (exists ds1 d ds2, ds = ds1 ++ d :: ds2 /\ Forall refused ds1 /\ presents pw d).
Lemma after_out : forall w k, after [Out w] k = k.
Proof. reflexivity. Qed.
Lemma loop_locked : forall c orc fuel i data k ch k' ch' i' ds evs, locked k -> conn_loop c cf orc fuel i data k ch = Ok (k', ch', i', ds, evs) ->
  guarded k' ch ch' ds evs (forall c2 orc2 ch2, conn_loop c2 cf orc2 fuel i data k ch2 = Ok (k', ch2, i', ds, [])).
Proof.
  intros c orc. induction fuel as [|f IH]; intros i data k ch k' ch' i' ds evs L H; [discriminate|].
  cbn [conn_loop] in H. destruct data as [|x data].
  { injection H as <- <- <- <- <-. left. split; [constructor|]. split; [reflexivity|]. split; [reflexivity|]. split; [right; exact L|reflexivity]. }
  set (s := x :: data) in *.
  destruct (conn_turn cf s k) as [[k1|k1 ws|n k1 ws cmd]|] eqn:T; [| | |discriminate].
  - injection H as <- <- <- <- <-. left. assert (L1 := turn_locked _ _ _ _ Us Ne Np L T). cbn in L1.
    split; [constructor|]. split; [reflexivity|]. split; [reflexivity|]. split; [right; exact L1|].
    intros c2 orc2 ch2. cbn [conn_loop]. unfold s in T |- *. rewrite T. reflexivity.
  - injection H as <- <- <- <- <-. left.
    split; [constructor; [intros args es Q; discriminate Q|constructor]|]. split; [reflexivity|]. split; [reflexivity|]. split; [left; reflexivity|].
    intros c2 orc2 ch2. cbn [conn_loop]. unfold s in T |- *. rewrite T. reflexivity.
  - assert (L1 := turn_locked _ _ _ _ Us Ne Np L T). cbn in L1. cbv zeta in H.
    assert (Go : forall d k2 ch2 ev2 i2, locked k2 ->
      (if k_closed (match k_proto k2 with Some HTTP => conn_shut k2 | _ => k2 end) then
         Ok (conn_shut (match k_proto k2 with Some HTTP => conn_shut k2 | _ => k2 end), ch2, i2, [d], ev2)
       else match conn_loop c cf orc f i2 (skipn n s) (match k_proto k2 with Some HTTP => conn_shut k2 | _ => k2 end) ch2 with
         | Bad t => Bad t
         | Ok (k4, ch4, i4, ds, evs) => Ok (k4, ch4, i4, d :: ds, ev2 ++ evs)
         end) = Ok (k', ch', i', ds, evs) ->
      presents pw d \/ (refused d /\ ch2 = ch /\ ev2 = [] ) ->
      guarded k' ch ch' ds evs (forall c3 orc3 ch3, 
        (if k_closed (match k_proto k2 with Some HTTP => conn_shut k2 | _ => k2 end) then
         Ok (conn_shut (match k_proto k2 with Some HTTP => conn_shut k2 | _ => k2 end), ch3, i2, [d], [])
       else match conn_loop c3 cf orc3 f i2 (skipn n s) (match k_proto k2 with Some HTTP => conn_shut k2 | _ => k2 end) ch3 with
         | Bad t => Bad t
         | Ok (k4, ch4, i4, ds, evs) => Ok (k4, ch4, i4, d :: ds, [] ++ evs)
         end) = Ok (k', ch3, i', ds, []))).
    { intros d k2 ch2 ev2 i2 L2 E D. set (k3 := match k_proto k2 with Some HTTP => conn_shut k2 | _ => k2 end) in *.
      assert (L3 : locked k3). { unfold k3. destruct (k_proto k2) as [[]|]; exact L2. }
      destruct (k_closed k3).
      - injection E as <- <- <- <- <-. destruct D as [D|(D1 & D2 & D3)].
        + right. exists [], d, []. split; [reflexivity|]. split; [constructor|exact D].
        + left. split; [constructor; [exact D1|constructor]|]. split; [exact D2|]. split; [exact D3|]. split; [left; reflexivity|]. reflexivity.
      - destruct (conn_loop c cf orc f i2 (skipn n s) k3 ch2) as [[[[[k4 ch4] i4] ds4] evs4]|] eqn:Lp; [|discriminate].
        injection E as <- <- <- <- <-. destruct D as [D|(D1 & D2 & D3)].
        + right. exists [], d, ds4. split; [reflexivity|]. split; [constructor|exact D].
        + subst ch2 ev2. destruct (IH _ _ _ _ _ _ _ _ _ L3 Lp) as [(A & B & C & E & F)|(ds1 & d1 & ds2 & A & B & C)].
          * left. split; [constructor; assumption|]. split; [exact B|]. split; [exact C|]. split; [exact E|].
            intros c3 orc3 ch3. rewrite F. reflexivity.
          * right. exists (d :: ds1), d1, ds2. subst ds4. split; [reflexivity|]. split; [constructor; assumption|exact C]. }
    assert (Fst : forall (d : did) ds0, presents pw d -> ds = d :: ds0 -> guarded k' ch ch' ds evs
      (forall c2 orc2 ch2, conn_loop c2 cf orc2 (S f) i s k ch2 = Ok (k', ch2, i', ds, []))).
    { intros d ds0 D E. right. exists [], d, ds0. split; [exact E|]. split; [constructor|exact D]. }
    assert (Hd : forall d (k3 : conn) ch2 ev2 i2, (if k_closed k3 then Ok (conn_shut k3, ch2, i2, [d], ev2)
       else match conn_loop c cf orc f i2 (skipn n s) k3 ch2 with
         | Bad t => Bad t
         | Ok (k4, ch4, i4, ds, evs) => Ok (k4, ch4, i4, d :: ds, ev2 ++ evs)
         end) = Ok (k', ch', i', ds, evs) -> exists ds0, ds = d :: ds0).
    { intros d k3 ch2 ev2 i2 E. destruct (k_closed k3); [injection E as <- <- <- <- <-; eauto|].
      destruct (conn_loop c cf orc f i2 (skipn n s) k3 ch2) as [[[[[? ?] ?] ?] ?]|]; [injection E as <- <- <- <- <-; eauto|discriminate]. }
    destruct L1 as [[L1 Sh]|[Pp Sh]].
    + destruct cmd as [args|].
      * destruct (prun c (orc i) 0 ch _) as [[[ch2 es] ev2]|] eqn:R; [|discriminate].
        assert (D : proto_of k1 = HTTP \/ proto_of k1 <> HTTP) by (destruct (proto_of k1); (left; reflexivity) || (right; discriminate)).
        destruct D as [Ph|Nh].
        -- destruct (Hd _ _ _ _ _ H) as [ds0 E]. apply (Fst _ _) in E; [exact E|]. unfold presents. cbn [d_proto d_raw]. rewrite Ph in Sh |- *. exact Sh.
        -- assert (Npg : proto_of k1 <> POSTGRES) by (intro Q; rewrite Q in Sh; discriminate Sh).
           assert (Ev : evcommand cf (k_auth k1) (proto_of k1) args = cmdAUTH pw (proto_of k1) args).
           { unfold evcommand. rewrite Us, (proj1 L1). destruct (proto_of k1); try reflexivity. congruence. }
           rewrite Ev in R. destruct (auth_run pw (proto_of k1) args) as [(w & Iw & A)|(w & Ea & W)].
           ++ rewrite A in R. injection R as <- <- <-. rewrite after_out in H.
              eapply Go in H; [| exact L1 | right; split; [|split; reflexivity]].
              ** destruct H as [(A1 & A2 & A3 & A4 & A5)|H]; [left|right; exact H].
                 split; [exact A1|]. split; [exact A2|]. split; [exact A3|]. split; [exact A4|].
                 intros c3 orc3 ch3. cbn [conn_loop]. unfold s in T |- *. rewrite T. cbv zeta. rewrite Ev, A, after_out. apply A5.
              ** intros args0 es0 Q. cbn [d_what snd] in Q. injection Q as <- <-. eauto.
           ++ destruct (Hd _ _ _ _ _ H) as [ds0 E]. apply (Fst _ _) in E; [exact E|]. unfold presents. cbn [d_proto d_what snd].
              subst args. destruct (proto_of k1); try congruence; eauto.
      * destruct (proto_of k1) eqn:Ph.
        3: { destruct (Hd _ _ _ _ _ H) as [ds0 E]. apply (Fst _ _) in E; [exact E|]. unfold presents. cbn [d_proto d_raw]. exact Sh. }
        all: (eapply Go in H; [| exact L1 | right; split; [intros args0 es0 Q; discriminate Q|split; reflexivity]];
          destruct H as [(A1 & A2 & A3 & A4 & A5)|H]; [left|right; exact H];
          split; [exact A1|]; split; [exact A2|]; split; [exact A3|]; split; [exact A4|];
          intros c3 orc3 ch3; cbn [conn_loop]; unfold s in T |- *; rewrite T; cbv zeta; rewrite Ph; apply A5).
    + assert (D : exists d, presents pw d /\ exists ds0, ds = d :: ds0).
      { destruct cmd as [args|].
        - destruct (prun c (orc i) 0 ch _) as [[[ch2 es] ev2]|] eqn:R; [|discriminate]. 
          destruct (Hd _ _ _ _ _ H) as [ds0 E]. eexists. split; [|exists ds0; exact E]. unfold presents. cbn [d_proto d_raw]. rewrite Pp. exact Sh.
        - destruct (Hd _ _ _ _ _ H) as [ds0 E]. eexists. split; [|exists ds0; exact E]. unfold presents. cbn [d_proto d_raw]. rewrite Pp. exact Sh. }
      destruct D as (d & D & ds0 & E). exact (Fst _ _ D E).
Qed.
Lemma packets_locked : forall c orc packets i k ch k' ch' i' ds evs, k_closed k = true \/ locked k ->
  evpackets c cf orc i packets k ch = Ok (k', ch', i', ds, evs) ->
  guarded k' ch ch' ds evs (forall c2 orc2 ch2, evpackets c2 cf orc2 i packets k ch2 = Ok (k', ch2, i', ds, [])).
Proof.
  intros c orc. induction packets as [|x packets IH]; intros i k ch k' ch' i' ds evs L H.
  { injection H as <- <- <- <- <-. left. repeat split; [constructor|exact L]. }
  cbn [evpackets] in H. destruct (evdata c cf orc i x k ch) as [[[[[k1 ch1] i1] ds1] ev1]|] eqn:E; [|discriminate].
  destruct (evpackets c cf orc i1 packets k1 ch1) as [[[[[k2 ch2] i2] ds2] ev2]|] eqn:R; [|discriminate]. injection H as <- <- <- <- <-.
  assert (D : guarded k1 ch ch1 ds1 ev1 (forall c2 orc2 ch2, evdata c2 cf orc2 i x k ch2 = Ok (k1, ch2, i1, ds1, []))).
  { unfold evdata in *. destruct (k_closed k) eqn:C.
    - injection E as <- <- <- <- <-. left. repeat split; [constructor|left; exact C].
    - destruct L as [L|L]; [discriminate L|]. exact (loop_locked _ _ _ _ _ (with_packet [] k) _ _ _ _ _ _ L E). }
  destruct D as [(A1 & A2 & A3 & A4 & A5)|(a & d & b & A1 & A2 & A3)].
  - subst ch1 ev1. destruct (IH _ _ _ _ _ _ _ _ A4 R) as [(B1 & B2 & B3 & B4 & B5)|(a & d & b & B1 & B2 & B3)].
    + left. split; [apply Forall_app; auto|]. split; [exact B2|]. split; [exact B3|]. split; [exact B4|].
      intros c2 orc2 ch3. cbn [evpackets]. rewrite A5, B5. reflexivity.
    + right. exists (ds1 ++ a), d, b. subst ds2. split; [rewrite <- app_assoc; reflexivity|]. split; [apply Forall_app; auto|exact B3].
  - right. exists a, d, (b ++ ds2). subst ds1. split; [rewrite <- app_assoc; reflexivity|]. auto.
Qed.
End Auth.
