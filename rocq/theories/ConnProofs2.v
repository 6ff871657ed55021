(** Proofs about the packets of a connection. *)
From Verif Require Import Base Types Clamp Entry Hash Map Shard Cache Text IntText Prog Cmds Resp RespSpec RespProofs TelnetProofs PropResp Memcache McSpec McProofs PropMc Http Reply ReplySpec ReplyProofs Postgres PgSpec Conn ConnProofs.
From Coq Require Import String Lia.
Local Open Scope N_scope.
Notation length := List.length.
Notation concat := List.concat.

Section Split.
Variables (c : ctx) (cf : config) (orc : nat -> nat -> input) (p : proto).
Hypothesis NotHttp : p <> HTTP.
Notation loop := (conn_loop c cf orc).
(** The text of one request, in any state of the connection. *)
Definition frames (s : bytes) : Prop :=
  s <> [] /\ forall k, k_proto k = Some p ->
    (forall rest, conn_turn cf (s ++ rest) k = conn_turn cf s k) /\
    (forall kw, conn_turn cf s k <> Ok (Wait kw)) /\
    (forall n k1 ws cmd, conn_turn cf s k = Ok (Turn n k1 ws cmd) -> n = length s) /\
    (forall a b, s = a ++ b -> a <> [] -> b <> [] -> exists kw, conn_turn cf a k = Ok (Wait kw)).
Lemma then_assoc : forall r f g, then_ (then_ r f) g = then_ r (fun i k ch => then_ (f i k ch) g).
Proof.
  intros r f g. destruct r as [[[[[k1 ch1] i1] ds1] ev1]|]; [|reflexivity]. cbn [then_].
  destruct (f i1 k1 ch1) as [[[[[k2 ch2] i2] ds2] ev2]|]; [|reflexivity]. cbn [then_].
  destruct (g i2 k2 ch2) as [[[[[k3 ch3] i3] ds3] ev3]|]; [|reflexivity]. rewrite !app_assoc. reflexivity.
Qed.
Lemma evpackets_then : forall i x r k ch, evpackets c cf orc i (x :: r) k ch = then_ (evdata c cf orc i x k ch) (fun i k ch => evpackets c cf orc i r k ch).
Proof. reflexivity. Qed.
Lemma closed_packets : forall packets i k ch, k_closed k = true -> evpackets c cf orc i packets k ch = Ok (k, ch, i, [], []).
Proof.
  induction packets as [|x r IH]; intros i k ch H; [reflexivity|]. rewrite evpackets_then. unfold evdata. rewrite H. cbn [then_].
  rewrite IH by exact H. reflexivity.
Qed.
Lemma then_ok : forall k ch i (f : nat -> conn -> cache -> _), then_ (Ok (k, ch, i, [], [])) f = f i k ch.
Proof. intros. cbn [then_]. destruct (f i k ch) as [[[[[? ?] ?] ?] ?]|]; reflexivity. Qed.
Lemma concat_cut : forall (s data more rest : bytes), data ++ more = s ++ rest ->
  (exists d, data = s ++ d /\ d ++ more = rest) \/ (exists q, s = data ++ q /\ q <> [] /\ more = q ++ rest).
Proof.
  induction s as [|x s IH]; intros data more rest H.
  - left. exists data. auto.
  - destruct data as [|y data]; [right; exists (x :: s); repeat split; [discriminate|exact H]|].
    cbn [app] in H. injection H as -> H. destruct (IH _ _ _ H) as [(d & -> & E)|(q & -> & N & E)].
    + left. exists d. auto.
    + right. exists q. auto.
Qed.
Lemma then_cons : forall this ev' r g, then_ (match r with Bad t => Bad t | Ok (k4, ch4, i4, ds, evs) => Ok (k4, ch4, i4, this :: ds, ev' ++ evs) end) g
  = match then_ r g with Bad t => Bad t | Ok (k4, ch4, i4, ds, evs) => Ok (k4, ch4, i4, this :: ds, ev' ++ evs) end.
Proof.
  intros this ev' r g. destruct r as [[[[[k1 ch1] i1] ds1] ev1]|]; [|reflexivity]. cbn [then_].
  destruct (g i1 k1 ch1) as [[[[[k2 ch2] i2] ds2] ev2]|]; [|reflexivity]. rewrite app_assoc. reflexivity.
Qed.
Lemma loop_text : forall s d k ch i f f', frames s -> k_proto k = Some p -> k_packet k = [] -> k_closed k = false ->
  (length (s ++ d) < f)%nat -> (length d < f')%nat ->
  loop f i (s ++ d) k ch = then_ (evdata c cf orc i s k ch) (fun i1 k1 ch1 => if k_closed k1 then Ok (k1, ch1, i1, [], []) else loop f' i1 d k1 ch1).
Proof.
  intros s d k ch i f f' [Ns Fs] P Pk Cl L L'. destruct (Fs k P) as (F1 & F2 & F3 & F4).
  unfold evdata. rewrite Cl, Pk, (with_packet_nil _ Pk). cbn [app].
  destruct f as [|f]; [lia|]. destruct s as [|b s]; [congruence|]. cbn [conn_loop app]. cbv zeta.
  change (b :: s ++ d) with ((b :: s) ++ d). rewrite F1.
  destruct (conn_turn cf (b :: s) k) as [[kw|ks ws|n kt ws cmd]|] eqn:T; [destruct (F2 kw eq_refl)|reflexivity| |reflexivity].
  assert (Hn : n = length (b :: s)) by exact (F3 _ _ _ _ eq_refl). subst n.
  assert (E1 : firstn (length (b :: s)) ((b :: s) ++ d) = b :: s) by (apply skipn_firstn_len; reflexivity).
  assert (E2 : skipn (length (b :: s)) ((b :: s) ++ d) = d) by (apply skipn_firstn_len; reflexivity).
  assert (E3 : firstn (length (b :: s)) (b :: s) = b :: s) by apply firstn_all.
  assert (E4 : skipn (length (b :: s)) (b :: s) = []) by apply skipn_all.
  destruct (turn_like _ _ _ _ T) as (K1 & K2 & _ & K3 & _). cbn [turn_conn] in *.
  assert (Kp : k_proto kt = Some p) by (rewrite K3; congruence).
  rewrite E1, E2, E3, E4.
  assert (Go : forall i' dd k' ch' ev', k_proto k' = Some p -> k_packet k' = [] ->
   (if k_closed (match k_proto k' with Some HTTP => conn_shut k' | _ => k' end)
    then Ok (conn_shut (match k_proto k' with Some HTTP => conn_shut k' | _ => k' end), ch', i', [mkDid (b :: s) (proto_of kt) (pgout_of (k_pg kt)) (ws, dd)], ev')
    else match loop f i' d (match k_proto k' with Some HTTP => conn_shut k' | _ => k' end) ch' with
     | Bad t => Bad t
     | Ok (k4, ch4, i4, ds, evs) => Ok (k4, ch4, i4, mkDid (b :: s) (proto_of kt) (pgout_of (k_pg kt)) (ws, dd) :: ds, ev' ++ evs) end)
   = then_ (if k_closed (match k_proto k' with Some HTTP => conn_shut k' | _ => k' end)
    then Ok (conn_shut (match k_proto k' with Some HTTP => conn_shut k' | _ => k' end), ch', i', [mkDid (b :: s) (proto_of kt) (pgout_of (k_pg kt)) (ws, dd)], ev')
    else match loop (length (b :: s)) i' [] (match k_proto k' with Some HTTP => conn_shut k' | _ => k' end) ch' with
     | Bad t => Bad t
     | Ok (k4, ch4, i4, ds, evs) => Ok (k4, ch4, i4, mkDid (b :: s) (proto_of kt) (pgout_of (k_pg kt)) (ws, dd) :: ds, ev' ++ evs) end)
     (fun i1 k1 ch1 => if k_closed k1 then Ok (k1, ch1, i1, [], []) else loop f' i1 d k1 ch1)).
  { intros i' dd k' ch' ev' Pk' Pa'.
    replace (match k_proto k' with Some HTTP => conn_shut k' | _ => k' end) with k' by (rewrite Pk'; destruct p; congruence).
    destruct (k_closed k') eqn:Ck.
    - cbn [then_ k_closed conn_shut app]. rewrite app_nil_r. reflexivity.
    - change (length (b :: s)) with (S (length s)). cbn [conn_loop]. rewrite (with_packet_nil _ Pa'). cbn [then_]. rewrite Ck.
      rewrite (loop_fuel _ _ _ f' f) by (cbn [length app] in L; rewrite app_length in L; lia).
      destruct (loop f i' d k' ch') as [[[[[k4 ch4] i4] ds4] ev4]|]; [|reflexivity]. rewrite app_nil_r. reflexivity. }
  destruct cmd as [args|].
  - destruct (prun _ _ _ _ _) as [[[ch2 es] ev2]|]; [|reflexivity]. apply Go; [rewrite after_proto; exact Kp|apply after_packet; congruence].
  - apply Go; congruence.
Qed.
Lemma evdata_text : forall s k ch i k1 ch1 i1 ds evs, frames s -> k_proto k = Some p -> k_packet k = [] -> k_closed k = false ->
  evdata c cf orc i s k ch = Ok (k1, ch1, i1, ds, evs) -> k_closed k1 = false -> k_proto k1 = Some p /\ k_packet k1 = [].
Proof.
  intros s k ch i k1 ch1 i1 ds evs [Ns Fs] P Pk Cl H C1. destruct (Fs k P) as (F1 & F2 & F3 & F4).
  unfold evdata in H. rewrite Cl, Pk, (with_packet_nil _ Pk) in H. cbn [app] in H.
  destruct s as [|b s]; [congruence|]. cbn [conn_loop] in H. cbv zeta in H.
  destruct (conn_turn cf (b :: s) k) as [[kw|ks ws|n kt ws cmd]|] eqn:T; [destruct (F2 kw eq_refl)|injection H as <- _ _ _ _; discriminate C1| |discriminate].
  assert (Hn : n = length (b :: s)) by exact (F3 _ _ _ _ eq_refl). subst n.
  assert (E4 : skipn (length (b :: s)) (b :: s) = []) by apply skipn_all. rewrite E4 in H.
  destruct (turn_like _ _ _ _ T) as (K1 & K2 & _ & K3 & _). cbn [turn_conn] in *.
  assert (Kp : k_proto kt = Some p) by (rewrite K3; congruence).
  assert (Go : forall i' (this : did) k' ch' (ev' : list event), k_proto k' = Some p -> k_packet k' = [] ->
   (if k_closed (match k_proto k' with Some HTTP => conn_shut k' | _ => k' end)
    then Ok (conn_shut (match k_proto k' with Some HTTP => conn_shut k' | _ => k' end), ch', i', [this], ev')
    else match loop (length (b :: s)) i' [] (match k_proto k' with Some HTTP => conn_shut k' | _ => k' end) ch' with
     | Bad t => Bad t
     | Ok (k4, ch4, i4, ds, evs) => Ok (k4, ch4, i4, this :: ds, ev' ++ evs) end) = Ok (k1, ch1, i1, ds, evs) -> k_proto k1 = Some p /\ k_packet k1 = []).
  { intros i' this k' ch' ev' Pk' Pa'.
    replace (match k_proto k' with Some HTTP => conn_shut k' | _ => k' end) with k' by (rewrite Pk'; destruct p; congruence).
    destruct (k_closed k') eqn:Ck; intro X; [injection X as <- _ _ _ _; discriminate C1|].
    change (length (b :: s)) with (S (length s)) in X. cbn [conn_loop] in X. injection X as <- _ _ _ _. auto. }
  destruct cmd as [args|].
  - destruct (prun _ _ _ _ _) as [[[ch2 es] ev2]|]; [|discriminate]. eapply Go; [| |exact H]; [rewrite after_proto; exact Kp|apply after_packet; congruence].
  - eapply Go; [| |exact H]; congruence.
Qed.
Lemma split_run : forall packets texts data k ch i f, Forall frames texts -> k_proto k = Some p -> k_packet k = [] -> k_closed k = false ->
  data ++ concat packets = concat texts -> (length data < f)%nat ->
  then_ (loop f i data k ch) (fun i k ch => evpackets c cf orc i packets k ch) = evpackets c cf orc i texts k ch.
Proof.
  induction packets as [|x packets IHp].
  all: intros texts; induction texts as [|s texts IHt]; intros data k ch i f F P Pk Cl E L.
  - cbn [concat] in E. rewrite app_nil_r in E. subst data. destruct f as [|f]; [lia|]. cbn [conn_loop]. rewrite (with_packet_nil _ Pk). reflexivity.
  - inversion F as [|? ? Fs Ft]; subst.
    cbn [concat] in E. destruct (concat_cut _ _ _ _ E) as [(d & -> & E')|(q & -> & Nq & E')].
    2: { exfalso. destruct q; [congruence|discriminate E']. }
    rewrite (loop_text _ _ _ _ _ _ (S (length d)) Fs P Pk Cl L) by lia. rewrite then_assoc, evpackets_then.
    destruct (evdata c cf orc i s k ch) as [[[[[k1 ch1] i1] ds1] ev1]|] eqn:Ev; [|reflexivity]. cbn [then_].
    destruct (k_closed k1) eqn:C1.
    + rewrite (closed_packets texts) by exact C1. rewrite then_ok. rewrite closed_packets by exact C1. reflexivity.
    + destruct (evdata_text _ _ _ _ _ _ _ _ _ Fs P Pk Cl Ev C1) as [P1 Pa1].
      rewrite (IHt d k1 ch1 i1 (S (length d))); auto.
  - cbn [concat] in E. destruct data; [|discriminate]. destruct f as [|f]; [lia|]. cbn [conn_loop]. rewrite (with_packet_nil _ Pk), then_ok.
    rewrite evpackets_then. unfold evdata. rewrite Cl, Pk, (with_packet_nil _ Pk). cbn [app] in E |- *.
    apply (IHp []); auto.
  - inversion F as [|? ? Fs Ft]; subst.
    cbn [concat] in E. destruct (concat_cut _ _ _ _ E) as [(d & -> & E')|(q & -> & Nq & E')].
    + rewrite (loop_text _ _ _ _ _ _ (S (length d)) Fs P Pk Cl L) by lia. rewrite then_assoc, (evpackets_then i s).
      destruct (evdata c cf orc i s k ch) as [[[[[k1 ch1] i1] ds1] ev1]|] eqn:Ev; [|reflexivity]. cbn [then_].
      destruct (k_closed k1) eqn:C1.
      * rewrite (closed_packets texts) by exact C1. rewrite then_ok. rewrite closed_packets by exact C1. reflexivity.
      * destruct (evdata_text _ _ _ _ _ _ _ _ _ Fs P Pk Cl Ev C1) as [P1 Pa1].
        rewrite (IHt d k1 ch1 i1 (S (length d))); auto.
    + destruct data as [|b data].
      * destruct f as [|f]; [lia|]. cbn [conn_loop]. rewrite (with_packet_nil _ Pk), then_ok.
        rewrite (evpackets_then i x). unfold evdata. rewrite Cl, Pk, (with_packet_nil _ Pk). cbn [app] in E |- *.
        apply (IHp (q :: texts)); auto.
      * destruct Fs as [Ns Fs]. destruct (Fs k P) as (F1 & F2 & F3 & F4).
        destruct (F4 (b :: data) q eq_refl ltac:(discriminate) Nq) as [kw W].
        destruct (turn_like _ _ _ _ W) as (K1 & K2 & _ & K3 & _). cbn [turn_conn] in *.
        destruct f as [|f]; [lia|]. cbn [conn_loop]. rewrite W, then_ok. rewrite (evpackets_then i x).
        assert (E0 : evdata c cf orc i x (with_packet (b :: data) kw) ch = loop (S (length ((b :: data) ++ x))) i ((b :: data) ++ x) kw ch).
        { unfold evdata. change (k_closed (with_packet (b :: data) kw)) with (k_closed kw). rewrite K2, Cl.
          change (k_packet (with_packet (b :: data) kw)) with (b :: data). cbv zeta. f_equal. apply (with_packet_nil kw). congruence. }
        rewrite E0.
        assert (E1 : loop (S (length ((b :: data) ++ x))) i ((b :: data) ++ x) kw ch = loop (S (length ((b :: data) ++ x))) i ((b :: data) ++ x) k ch).
        { cbn [conn_loop]. cbn [app]. change (b :: data ++ x) with ((b :: data) ++ x).
          rewrite (turn_wait cf (b :: data) x k kw); [reflexivity|left; congruence|exact W]. }
        rewrite E1. apply IHp; auto. rewrite <- app_assoc. exact E.
Qed.
Lemma split_packets : forall packets texts k ch i, Forall frames texts -> k_proto k = Some p -> k_packet k = [] -> k_closed k = false ->
  concat packets = concat texts ->
  evpackets c cf orc i packets k ch = evpackets c cf orc i texts k ch.
Proof.
  intros packets texts k ch i F P Pk Cl E. rewrite <- (split_run packets texts [] k ch i 1 F P Pk Cl E) by (cbn [length]; lia).
  cbn [conn_loop]. rewrite (with_packet_nil _ Pk), then_ok. reflexivity.
Qed.
End Split.

(** *** The requests of each protocol *)
Lemma turn_by : forall cf p data k, k_proto k = Some p -> conn_turn cf data k = match parse_by cf p data k with Bad t => Bad t | Ok x => turn_of cf x end.
Proof. intros cf p data k P. rewrite conn_turn_of. unfold parse_command. rewrite P. reflexivity. Qed.
Lemma turn_of_wait : forall cf x kw, turn_of cf x = Ok (Wait kw) -> x = CMore kw.
Proof.
  intros cf x kw H. destruct x as [k2|m n k2|n args k2]; cbn [turn_of] in H; [congruence| |].
  - destruct (k_proto k2) as [[]|]; discriminate.
  - destruct args as [|a args].
    + destruct (k_proto k2) as [[]|]; try discriminate. destruct (pg_respond _ _ _ _) as [r|]; [|discriminate]. cbv zeta in H. destruct (r_keep r); discriminate.
    + destruct (k_proto k2) as [[]|]; try discriminate. destruct (negb _); [discriminate|]. destruct (pg_precommand _ _) as [[? ?] ?]. discriminate.
Qed.
Lemma frames_by : forall cf p s, s <> [] ->
  (forall k rest, parse_by cf p (s ++ rest) k = parse_by cf p s k) ->
  (forall k kw, parse_by cf p s k <> Ok (CMore kw)) ->
  (forall k n args k1, parse_by cf p s k = Ok (CGot n args k1) -> n = length s) ->
  (forall k m n k1, p = MEMCACHE -> parse_by cf p s k = Ok (CErr m n k1) -> n = length s) ->
  (forall k a b, s = a ++ b -> a <> [] -> b <> [] -> exists kw, parse_by cf p a k = Ok (CMore kw)) ->
  frames cf p s.
Proof.
  intros cf p s Ns A B C C2 D. split; [exact Ns|]. intros k P. split; [|split; [|split]].
  - intro rest. rewrite !(turn_by cf p) by exact P. rewrite A. reflexivity.
  - intros kw H. rewrite (turn_by cf p) in H by exact P. destruct (parse_by cf p s k) as [x|] eqn:E; [|discriminate].
    apply turn_of_wait in H. subst x. exact (B k kw E).
  - intros n k1 ws cmd H. rewrite (turn_by cf p) in H by exact P. destruct (parse_by cf p s k) as [x|] eqn:E; [|discriminate].
    destruct (turn_of_n _ _ _ _ _ _ H) as [(args & k2 & ->)|(m & k2 & -> & P2)]; [exact (C _ _ _ _ E)|].
    apply (C2 k m n k2); [|exact E]. destruct (parse_by_conn _ _ _ _ _ E) as [g G]. cbn [conn_of] in G. rewrite G in P2. cbn in P2. congruence.
  - intros a b E Na Nb. rewrite (turn_by cf p) by exact P. destruct (D k a b E Na Nb) as [kw W]. rewrite W. exists kw. reflexivity.
Qed.
Lemma request_head : forall args s, request args s -> exists r, s = 42 :: r.
Proof. intros args s (t & parts & _ & _ & _ & ->). exists (t ++ crlf ++ concat parts). reflexivity. Qed.
Lemma frames_resp : forall cf args s, request args s -> frames cf RESP s.
Proof.
  intros cf args s R. destruct (request_head _ _ R) as [r Es].
  assert (P : forall k rest, parse_by cf RESP (s ++ rest) k = Ok (CGot (length s) args k)).
  { intros k rest. cbn [parse_by]. rewrite Es. cbn [app]. change (42 =? 42) with true. cbv iota.
    change (42 :: r ++ rest) with ((42 :: r) ++ rest). rewrite <- Es, (C37_request _ _ rest R). reflexivity. }
  assert (P0 : forall k, parse_by cf RESP s k = Ok (CGot (length s) args k)) by (intro k; specialize (P k []); rewrite app_nil_r in P; exact P).
  apply frames_by.
  - rewrite Es. discriminate.
  - intros. rewrite P, P0. reflexivity.
  - intros k kw. rewrite P0. discriminate.
  - intros k n a k1. rewrite P0. congruence.
  - intros. discriminate.
  - intros k a b E Na Nb. exists k. cbn [parse_by]. destruct a as [|x a]; [congruence|].
    assert (x = 42) by (rewrite Es in E; cbn [app] in E; congruence). subst x. change (42 =? 42) with true. cbv iota.
    rewrite (C37_prefix _ _ _ _ R E Nb). reflexivity.
Qed.
Lemma frames_telnet : forall cf args s, telnet_line args s -> hd 42 s <> 42 -> frames cf RESP s.
Proof.
  intros cf args s R Hd. destruct s as [|x s]; [destruct Hd; reflexivity|]. cbn [hd] in Hd. apply N.eqb_neq in Hd.
  assert (P : forall k rest, parse_by cf RESP ((x :: s) ++ rest) k = Ok (CGot (length (x :: s)) args k)).
  { intros k rest. cbn [parse_by app]. rewrite Hd. change (x :: s ++ rest) with ((x :: s) ++ rest). rewrite (C48_line _ _ rest R). reflexivity. }
  assert (P0 : forall k, parse_by cf RESP (x :: s) k = Ok (CGot (length (x :: s)) args k)) by (intro k; specialize (P k []); rewrite app_nil_r in P; exact P).
  apply frames_by.
  - discriminate.
  - intros. rewrite P, P0. reflexivity.
  - intros k kw. rewrite P0. discriminate.
  - intros k n a k1. rewrite P0. congruence.
  - intros. discriminate.
  - intros k a b E Na Nb. exists k. cbn [parse_by]. destruct a as [|y a]; [congruence|]. assert (y = x) by (cbn [app] in E; congruence). subst y.
    rewrite Hd. rewrite (C48_prefix _ _ _ _ R E Nb). reflexivity.
Qed.
Lemma frames_mc : forall cf op nr s, mc_request op nr s -> frames cf MEMCACHE s.
Proof.
  intros cf op nr s R.
  assert (P : forall k rest, parse_by cf MEMCACHE (s ++ rest) k = Ok (CGot (length s) (op_args op) k)).
  { intros k rest. cbn [parse_by]. rewrite (C39_request _ _ _ rest R). reflexivity. }
  assert (P0 : forall k, parse_by cf MEMCACHE s k = Ok (CGot (length s) (op_args op) k)) by (intro k; specialize (P k []); rewrite app_nil_r in P; exact P).
  apply frames_by.
  - intros ->. specialize (P0 (conn_new false)). discriminate P0.
  - intros. rewrite P, P0. reflexivity.
  - intros k kw. rewrite P0. discriminate.
  - intros k n a k1. rewrite P0. congruence.
  - intros k m n k1 _. rewrite P0. discriminate.
  - intros k a b E Na Nb. exists k. cbn [parse_by]. rewrite (C39_prefix _ _ _ _ _ R E Nb). reflexivity.
Qed.
Lemma pgs_more : forall cf k s, parse_postgres (cf_password cf) s (k_pg k) = Ok PgMore -> exists kw, parse_by cf POSTGRES s k = Ok (CMore kw).
Proof. intros cf k s H. cbn [parse_by]. rewrite H. eauto. Qed.
Lemma frames_pg : forall cf s, s <> [] ->
  (forall g, parse_postgres (cf_password cf) s g <> Ok PgMore) ->
  (forall g n args g', parse_postgres (cf_password cf) s g = Ok (PgGot n args g') -> n = length s) ->
  (forall g a b, s = a ++ b -> b <> [] -> parse_postgres (cf_password cf) a g = Ok PgMore) ->
  frames cf POSTGRES s.
Proof.
  intros cf s Ns A B C. apply frames_by.
  - exact Ns.
  - intros k rest. cbn [parse_by]. rewrite pg_stable by apply A. reflexivity.
  - intros k kw H. cbn [parse_by] in H. destruct (parse_postgres (cf_password cf) s (k_pg k)) as [[| |]|] eqn:E; try discriminate. exact (A _ E).
  - intros k n args k1 H. cbn [parse_by] in H. destruct (parse_postgres (cf_password cf) s (k_pg k)) as [[| |]|] eqn:E; try discriminate.
    injection H as -> _ _. exact (B _ _ _ _ E).
  - intros. discriminate.
  - intros k a b E Na Nb. apply pgs_more. exact (C _ a b E Nb).
Qed.
Lemma number_of_small : forall s, bytes_ok s -> number_of s < 256 ^ N.of_nat (length s).
Proof.
  intros s. assert (G : forall s acc m, bytes_ok s -> acc < m -> fold_left (fun a b => 256 * a + b) s acc < m * 256 ^ N.of_nat (length s)).
  { intro s0. induction s0 as [|b s0 IH]; intros acc m F L.
    - cbn. lia.
    - inversion F; subst. cbn [fold_left length]. replace (256 ^ N.of_nat (S (length s0))) with (256 * 256 ^ N.of_nat (length s0)).
      2: { rewrite Nat2N.inj_succ, N.pow_succ_r'. reflexivity. }
      rewrite N.mul_assoc. apply IH; [assumption|]. unfold byte_ok in *. lia. }
  intro F. specialize (G s 0 1 F ltac:(lia)). rewrite N.mul_1_l in G. exact G.
Qed.
Lemma signed_small : forall x, x < 2 ^ 31 -> signed 32 x = Z.of_N x.
Proof. intros x H. unfold signed. change (32 - 1) with 31. destruct (N.ltb_spec x (2 ^ 31)); [reflexivity|lia]. Qed.
Lemma message_shape : forall tag body s g pw rest, tag <> 0 -> pg_message tag body s -> N.of_nat (length body) < 2 ^ 31 - 4 ->
  length s = (5 + length body)%nat /\
  parse_postgres pw (s ++ rest) g = pg_do pw tag body (Z.of_nat (length body) + 4) (set_err None g).
Proof.
  intros tag body s g pw rest Nt M B. destruct M as [tag len body L4 Bl Nm].
  split; [cbn [length]; rewrite app_length, L4; reflexivity|].
  unfold parse_postgres. cbn [app]. destruct (N.eqb_spec tag 0); [congruence|]. rewrite parse_message_do. cbv zeta. ns.
  rewrite <- app_assoc.
  assert (F4 : firstn 4 (len ++ body ++ rest) = len /\ skipn 4 (len ++ body ++ rest) = body ++ rest).
  { destruct (skipn_firstn_len len (body ++ rest) 4 (eq_sym L4)) as [X Y]. split; assumption. }
  destruct F4 as [-> ->]. change (read_be len) with (number_of len). rewrite Nm, signed_small by lia.
  replace (length (tag :: len ++ body ++ rest) <? 5)%nat with false.
  2: { symmetry. apply Nat.ltb_ge. cbn [length]. rewrite !app_length, L4. lia. }
  assert (Z4 : Z.of_N (4 + N.of_nat (length body)) = (Z.of_nat (length body) + 4)%Z) by lia. rewrite Z4.
  replace ((Z.of_nat (length body) + 4 <? -1)%Z || (Z.of_nat (length (tag :: len ++ body ++ rest)) <? Z.of_nat (length body) + 4 + 1)%Z) with false.
  2: { symmetry. apply orb_false_iff. split; apply Z.ltb_ge; [lia|]. cbn [length]. rewrite !app_length, L4. lia. }
  f_equal. replace (Z.to_nat (Z.of_nat (length body) + 4 - 4)) with (length body) by lia. apply skipn_firstn_len. reflexivity.
Qed.
Lemma pg_do_more : forall pw t body m g, (4 <= m)%Z -> pg_do pw t body m g <> Ok PgMore.
Proof.
  intros pw t body m g H. unfold pg_do.
  assert (ST : forall x, (if (m <? 4)%Z then Bad OutOfBounds
    else match x with PgFail m => Ok (PgWrong m g) | PgStep args g' => Ok (PgGot (Z.to_nat (m + 1)) args g') end) <> Ok PgMore).
  { intros x. destruct (_ <? _)%Z; [discriminate|]. destruct x; discriminate. }
  repeat match goal with |- (if t =? _ then _ else _) <> _ => destruct (t =? _); [try apply ST|] end.
  - destruct (parseE body g); [apply ST|discriminate].
  - replace (m =? -1)%Z with false by (symmetry; apply Z.eqb_neq; lia). replace (m =? 3)%Z with false by (symmetry; apply Z.eqb_neq; lia). discriminate.
Qed.
Lemma frames_message : forall cf tag body s, tag <> 0 -> pg_message tag body s -> N.of_nat (length body) < 2 ^ 31 - 4 -> frames cf POSTGRES s.
Proof.
  intros cf tag body s Nt M B.
  assert (P0 : forall g, length s = (5 + length body)%nat /\ parse_postgres (cf_password cf) s g = pg_do (cf_password cf) tag body (Z.of_nat (length body) + 4) (set_err None g)).
  { intro g. destruct (message_shape tag body s g (cf_password cf) [] Nt M B) as [L E]. rewrite app_nil_r in E. auto. }
  apply frames_pg.
  - destruct M. discriminate.
  - intros g. destruct (P0 g) as [_ ->]. apply pg_do_more. lia.
  - intros g n args g' H. destruct (P0 g) as [L E]. rewrite E in H. apply pg_do_within in H; [|lia]. rewrite L. lia.
  - intros g a b E Nb. destruct (P0 g) as [L _]. destruct M as [tag len body L4 Bl Nm].
    destruct a as [|x a]; [reflexivity|]. cbn [app] in E. injection E as <- E.
    unfold parse_postgres. destruct (N.eqb_spec tag 0); [congruence|]. rewrite parse_message_do. cbv zeta. ns.
    destruct (Nat.ltb_spec (length (tag :: a)) 5) as [|L5]; [reflexivity|]. cbn [length] in L5.
    assert (La : firstn 4 a = len).
    { transitivity (firstn 4 (len ++ body)); [rewrite E; rewrite firstn_app_le by lia; reflexivity|]. apply (skipn_firstn_len len body 4). congruence. }
    rewrite La. change (read_be len) with (number_of len). rewrite Nm, signed_small by lia.
    replace (Z.of_nat (length (tag :: a)) <? Z.of_N (4 + N.of_nat (length body)) + 1)%Z with true; [rewrite orb_true_r; reflexivity|].
    symmetry. apply Z.ltb_lt. apply (f_equal (@List.length N)) in E. rewrite !app_length in E. cbn [length]. destruct b; [congruence|]. cbn [length] in E. lia.
Qed.
(** The first message of a client: a length, a number and strings. *)
Definition startup_text (s : bytes) : Prop :=
  exists len rest, s = len ++ rest /\ big 4 (N.of_nat (length s)) len /\ 8 <= N.of_nat (length s) <= 65536.
Lemma frames_startup : forall cf s, startup_text s -> frames cf POSTGRES s.
Proof.
  intros cf s (len & rest & Es & (L4 & Bl & Nm) & B).
  destruct len as [|l0 [|l1 [|l2 [|l3 [|]]]]]; try discriminate L4.
  assert (Z0 : l0 = 0).
  { unfold number_of in Nm. cbn [fold_left] in Nm. inversion Bl as [|? ? B0 Bl1]; subst. lia. }
  subst l0.
  assert (PM : forall g more, parse_postgres (cf_password cf) (s ++ more) g = Ok (parse_magic (s ++ more) (set_err None g))).
  { intros. rewrite Es. reflexivity. }
  assert (F4 : firstn 4 s = [0; l1; l2; l3]) by (rewrite Es; reflexivity).
  assert (L : length (0 :: l1 :: l2 :: l3 :: rest) = length s) by (rewrite Es; reflexivity).
  assert (X : forall g, match parse_magic s g with PgMore => False | PgWrong _ _ => True | PgGot n _ _ => n = length s end).
  { intro g. unfold parse_magic. replace (length s <? 4)%nat with false by (symmetry; apply Nat.ltb_ge; lia).
    rewrite F4. change (read_be [0; l1; l2; l3]) with (number_of [0; l1; l2; l3]). rewrite Nm. cbv zeta.
    replace (65536 <? N.of_nat (length s)) with false by (symmetry; apply N.ltb_ge; lia).
    rewrite N.ltb_irrefl. replace (N.of_nat (length s) <? 8) with false by (symmetry; apply N.ltb_ge; lia).
    destruct (_ =? 80877103); [apply Nat2N.id|]. destruct (_ =? 196608); [destruct (_ && _); [exact I|apply Nat2N.id]|].
    destruct (_ =? 4294901760); exact I. }
  apply frames_pg.
  - rewrite Es. discriminate.
  - intros g H. specialize (PM g []). rewrite app_nil_r in PM. rewrite PM in H. specialize (X (set_err None g)).
    injection H as H. rewrite H in X. exact X.
  - intros g n args g' H. specialize (PM g []). rewrite app_nil_r in PM. rewrite PM in H. specialize (X (set_err None g)).
    injection H as H. rewrite H in X. exact X.
  - intros g a b E Nb. destruct a as [|x a]; [reflexivity|].
    assert (x = 0) by (rewrite Es in E; cbn [app] in E; congruence). subst x. unfold parse_postgres. change (0 =? 0) with true. cbv iota. f_equal.
    unfold parse_magic. destruct (Nat.ltb_spec (length (0 :: a)) 4) as [|La]; [reflexivity|].
    assert (Fa : firstn 4 (0 :: a) = [0; l1; l2; l3]).
    { rewrite <- F4, E. rewrite firstn_app_le by exact La. reflexivity. }
    rewrite Fa. change (read_be [0; l1; l2; l3]) with (number_of [0; l1; l2; l3]). rewrite Nm. cbv zeta.
    replace (65536 <? N.of_nat (length s)) with false by (symmetry; apply N.ltb_ge; lia).
    replace (N.of_nat (length (0 :: a)) <? N.of_nat (length s)) with true; [reflexivity|].
    symmetry. apply N.ltb_lt. rewrite E, app_length. destruct b; [congruence|]. cbn [length]. lia.
Qed.
