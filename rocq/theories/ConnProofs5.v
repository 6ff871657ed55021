(** Proofs about connections: requests in RESP, telnet, memcache and HTTP, in any
    packets. *)
From Verif Require Import Base Types Clamp Entry Hash Map Shard Cache Text IntText CmdTable CmdSpec CmdsProofs Prog Cmds Resp RespSpec RespProofs TelnetProofs Memcache McSpec McProofs Http HttpSpec HttpProofs Conn ConnSpec ConnProofs ConnProofs2 ConnProofs3 ConnProofs4.
From Coq Require Import String Lia.
Local Open Scope N_scope.
Notation length := List.length.
Notation concat := List.concat.
Notation map := List.map.

Lemma asked_turn : forall cf p args t, asked p args t -> p <> HTTP /\ frames cf p t /\ forall k, k_proto k = Some p ->
  conn_turn cf t k = Ok (Turn (length t) k [] (match args with [] => None | _ => Some args end)).
Proof.
  intros cf p args t A. destruct A as [args t R|args t R H|op nr t R].
  - split; [discriminate|]. split; [apply (frames_resp cf args); exact R|]. intros k P. rewrite (turn_by cf RESP) by exact P. cbn [parse_by].
    destruct (request_head _ _ R) as [r Er]. pose proof (parse_full _ _ [] R) as E. rewrite app_nil_r in E. rewrite E, Er. change (42 =? 42) with true. cbv iota.
    cbn [turn_of]. rewrite P. destruct args; reflexivity.
  - split; [discriminate|]. split; [apply (frames_telnet cf args); assumption|]. intros k P. rewrite (turn_by cf RESP) by exact P. cbn [parse_by].
    pose proof (telnet_full _ _ [] R) as E. rewrite app_nil_r in E. destruct t as [|b t]; [destruct H; reflexivity|]. cbn [hd] in H. apply N.eqb_neq in H. rewrite H, E.
    cbn [turn_of]. rewrite P. destruct args; reflexivity.
  - split; [discriminate|]. split; [apply (frames_mc cf op nr); exact R|]. intros k P. rewrite (turn_by cf MEMCACHE) by exact P. cbn [parse_by].
    pose proof (mc_full _ _ _ [] R) as E. rewrite app_nil_r in E. rewrite E. cbn [turn_of]. rewrite P.
    destruct (op_args op) eqn:X; [|reflexivity]. exfalso. destruct op as [[]| | | | | | | |[]| | |]; discriminate X.
Qed.

Lemma asked_run : forall c cf orc p argss texts, Forall2 (asked p) argss texts -> forall i k ch k' ch' i' ds evs,
  k_proto k = Some p -> k_packet k = [] -> k_closed k = false ->
  evpackets c cf orc i texts k ch = Ok (k', ch', i', ds, evs) ->
  exists n, map d_raw ds = firstn n texts /\ Forall2 did_command (firstn n argss) ds /\ (n = length argss \/ stopped k' ds).
Proof.
  intros c cf orc p argss texts F. induction F as [|args t argss texts M F IH]; intros i k ch k' ch' i' ds evs P Pk Cl H.
  { injection H as <- <- <- <- <-. exists 0%nat. split; [reflexivity|]. split; [constructor|left; reflexivity]. }
  destruct (asked_turn cf p args t M) as (Np & Fr & T). specialize (T k P).
  rewrite evpackets_then in H.
  rewrite (evdata_turn c cf orc i t k ch k [] _ p Cl Pk (proj1 Fr) T (conj eq_refl (conj eq_refl (conj eq_refl eq_refl))) P Np) in H.
  assert (Next : forall i1 k1 ch1 ev1 d, did_command args d -> d_raw d = t ->
    ((k_closed k1 = true /\ exists args es, snd (d_what d) = Some (args, es) /\ In Closed es) \/ (k_proto k1 = Some p /\ k_packet k1 = [] /\ k_closed k1 = false)) ->
    then_ (Ok (k1, ch1, i1, [d], ev1)) (fun i k ch => evpackets c cf orc i texts k ch) = Ok (k', ch', i', ds, evs) ->
    exists n, map d_raw ds = firstn n (t :: texts) /\ Forall2 did_command (firstn n (args :: argss)) ds /\
    (n = length (args :: argss) \/ stopped k' ds)).
  { intros i1 k1 ch1 ev1 d Da Dr K E. cbn [then_] in E. destruct K as [[K Cs]|(K1 & K2 & K3)].
    - rewrite closed_packets in E by exact K. injection E as <- <- <- <- <-. exists 1%nat. cbn [map firstn app].
      split; [rewrite Dr; reflexivity|]. split; [constructor; [exact Da|constructor]|]. right. split; [exact K|]. destruct Cs as (args0 & es & Cs). exists [], d, args0, es. split; [reflexivity|exact Cs].
    - destruct (evpackets c cf orc i1 texts k1 ch1) as [[[[[k2 ch2] i2] ds2] ev2]|] eqn:E2; [|discriminate]. injection E as <- <- <- <- <-.
      destruct (IH _ _ _ _ _ _ _ _ K1 K2 K3 E2) as (n & A & B & C). exists (S n). cbn [map firstn app].
      split; [rewrite Dr, A; reflexivity|]. split; [constructor; assumption|]. destruct C as [C|(C & ds0 & d0 & args0 & es & Cs & C1)]; [left; cbn [length]; rewrite C; reflexivity|right].
      split; [exact C|]. exists (d :: ds0), d0, args0, es. split; [rewrite Cs; reflexivity|exact C1]. }
  destruct args as [|a args].
  - eapply Next; [| | |exact H]; [split; reflexivity|reflexivity|]. right. auto.
  - destruct (prun _ _ _ _ _) as [[[ch2 es] ev2]|]; [|discriminate]. eapply Next; [| | |exact H]; [split; reflexivity|reflexivity|].
    destruct (k_closed (after es k)) eqn:C2; [left; split; [reflexivity|]|right].
    { exists (a :: args), es. split; [reflexivity|]. unfold after in C2. destruct (existsb (fun e => match e with Closed => true | _ => false end) es) eqn:X.
      - apply existsb_exists in X. destruct X as (e & I & X). destruct e; try discriminate. exact I.
      - exfalso. destruct (existsb _ es) in C2; cbn in C2; congruence. }
    split; [rewrite after_proto; exact P|]. split; [rewrite after_closed by exact C2; exact Pk|reflexivity].
Qed.

Lemma opens_proto : forall c cf orc p packets i k ch, opens p packets -> k_proto k = None -> k_packet k = [] -> k_closed k = false ->
  evpackets c cf orc i packets k ch = evpackets c cf orc i packets (with_proto p k) ch.
Proof.
  intros c cf orc p packets i k ch O P Pk Cl. destruct O as [(s & E & ->)|[(s & E & ->)|(empties & line & rest & more & -> & F & N & Sp)]].
  - apply (fresh_first c cf orc packets i k ch RESP 42 s); auto.
  - apply (fresh_first c cf orc packets i k ch POSTGRES 0 s); auto.
  - apply fresh_packets; auto.
    + destruct line; discriminate.
    + destruct (sniff_line line rest N) as (q & E & Q). rewrite E. f_equal. exact (speaks_unique _ _ _ Q Sp).
Qed.

Lemma asked_full : forall c cf orc p tls ch argss texts packets, Forall2 (asked p) argss texts -> concat packets = concat texts -> opens p packets ->
  forall k' ch' i' ds evs, evpackets c cf orc 0 packets (conn_new tls) ch = Ok (k', ch', i', ds, evs) ->
  exists n, map d_raw ds = firstn n texts /\ Forall2 did_command (firstn n argss) ds /\ (n = length argss \/ stopped k' ds).
Proof.
  intros c cf orc p tls ch argss texts packets F E O k' ch' i' ds evs H.
  rewrite (opens_proto c cf orc p packets 0 (conn_new tls) ch O eq_refl eq_refl eq_refl) in H.
  assert (Np : p <> HTTP).
  { destruct F as [|a t l l' A F]; [|exact (proj1 (asked_turn cf _ _ _ A))]. exfalso. cbn [List.concat] in E.
    destruct O as [(s & Q & _)|[(s & Q & _)|(empties & line & rest & more & -> & _)]]; [congruence|congruence|].
    rewrite concat_app in E. cbn [List.concat] in E. apply app_eq_nil in E. destruct E as [_ E]. destruct line; discriminate E. }
  rewrite (split_packets c cf orc p Np packets texts) in H; [|clear -F; induction F as [|a t l l' A F IH]; constructor; [exact (proj1 (proj2 (asked_turn cf _ _ _ A)))|exact IH]|reflexivity|reflexivity|reflexivity|exact E].
  exact (asked_run c cf orc p argss texts F 0%nat (with_proto p (conn_new tls)) ch _ _ _ _ _ eq_refl eq_refl eq_refl H).
Qed.

(** ** HTTP *)
Lemma first_line_shape : forall r, req_ok r -> exists line, first_line r = line ++ [10] /\ ~ In 10 line /\ speaks line HTTP.
Proof.
  intros r (Rm & (Rk0 & Rk) & Rq & (Va & Vb & _) & _). 
  exists (r_method r ++ [32; 47] ++ r_key r ++ query_text (r_query r) ++ bs " HTTP/" ++ [r_major r; 46; r_minor r; 13]).
  split; [unfold first_line, crlf; cbn [app]; rewrite <- !app_assoc; cbn [app]; rewrite <- !app_assoc; reflexivity|].
  assert (M : ~ In 10 (r_method r)). { intro I. destruct Rm as [E|[E|E]]; rewrite E in I; vm_compute in I; intuition discriminate. }
  assert (K : ~ In 10 (r_key r)). { intro I. rewrite Forall_forall in Rk. destruct (Rk 10 I) as [L _]. lia. }
  assert (Q : ~ In 10 (query_text (r_query r))).
  { unfold query_text. destruct (r_query r) as [|x l] eqn:El; [intros []|]. rewrite <- El in *. clear El x l.
    cbn [app In]. intros [D|I]; [discriminate D|]. revert I. generalize (r_query r) Rq. clear.
    intros l F. assert (Z : forall p, pair_ok p -> ~ In 10 (pair_text p)).
    { intros [a [v|]] (_ & A & B) I; unfold pair_text in I; cbn [fst snd] in *; apply in_app_iff in I; destruct I as [I|I].
      - apply (A 10); [cbn; tauto|exact I].
      - cbn [app] in I. destruct I as [D|I]; [discriminate D|]. apply (B 10); [cbn; tauto|exact I].
      - apply (A 10); [cbn; tauto|exact I].
      - destruct I. }
    induction F as [|p l P F IH]; [intros []|]. cbn [map joined_by]. destruct (map pair_text l) eqn:El; [apply Z; exact P|].
    intro I. apply in_app_iff in I. destruct I as [I|I]; [exact (Z p P I)|]. cbn [app] in I. destruct I as [D|I]; [discriminate D|]. exact (IH I). }
  split.
  - rewrite !in_app_iff. intros [I|[I|[I|[I|[I|I]]]]]; [exact (M I)|vm_compute in I; intuition discriminate|exact (K I)|exact (Q I)|vm_compute in I; intuition discriminate|].
    cbn [In] in I. unfold is_digit in Va, Vb. destruct I as [I|[I|[I|[I|[]]]]]; try discriminate I; rewrite I in *; discriminate.
  - apply speaks_http.
    + destruct Rm as [E|[E|E]]; rewrite E; discriminate.
    + destruct Rm as [E|[E|E]]; rewrite E; discriminate.
    + exists (r_method r ++ [32; 47] ++ r_key r ++ query_text (r_query r)), 47, (r_major r), (r_minor r).
      rewrite <- !app_assoc. reflexivity.
Qed.

Lemma http_turn : forall cf r k, req_ok r -> authorized (cf_useauth cf) (cf_password cf) r -> k_proto k = Some HTTP ->
  conn_turn cf (req_text r) k = Ok (Turn (length (req_text r)) k [] (Some (req_args r))).
Proof.
  intros cf r k R A P. rewrite (turn_by cf HTTP) by exact P. cbn [parse_by].
  pose proof (http_full cf r [] R) as E. rewrite app_nil_r in E. rewrite E, (auth_check_yes _ _ _ _ A). cbn [turn_of]. rewrite P.
  destruct (req_args r) eqn:X; [|reflexivity]. exfalso. unfold req_args in X. destruct (beq _ _); [discriminate|]. destruct (beq _ _); discriminate.
Qed.

Lemma http_run : forall c cf orc r more, req_ok r -> authorized (cf_useauth cf) (cf_password cf) r ->
  forall packets k i ch, k_proto k = Some HTTP -> k_closed k = false ->
  (exists p x y, packets = x :: y /\ k_packet k ++ x = first_line r ++ p) -> k_packet k ++ concat packets = req_text r ->
  (forall a b, packets = a ++ b -> a <> [] -> concat b <> [10] ++ r_body r) ->
  evpackets c cf orc i (packets ++ more) k ch =
  match prun c (orc i) 0 ch (evcommand cf (k_auth k) HTTP (req_args r)) with
  | Bad t => Bad t
  | Ok (ch2, es, ev2) => Ok (conn_shut (after es (with_packet [] k)), ch2, S i, [mkDid (req_text r) HTTP (pgout_of (k_pg k)) ([], Some (req_args r, es))], ev2)
  end.
Proof.
  intros c cf orc r more R A packets. induction packets as [|x0 rest IH]; intros k i ch P Cl (p & x & y & Ey & E1) E2 Cut; [discriminate Ey|].
  injection Ey as <- <-. cbn [app]. rewrite evpackets_then.
  assert (Nf : first_line r <> []). { unfold first_line. destruct R as ([Em|[Em|Em]] & _); rewrite Em; discriminate. }
  unfold evdata. rewrite Cl. rewrite E1. cbn [List.concat] in E2. rewrite app_assoc, E1 in E2.
  destruct (concat rest) as [|b q] eqn:Er.
  - rewrite app_nil_r in E2. rewrite E2. cbn [conn_loop]. destruct (req_text r) as [|b0 t] eqn:Et; [destruct (first_line r); [congruence|discriminate E2]|].
    rewrite <- Et. rewrite (http_turn cf r (with_packet [] k) R A P). unfold proto_of. change (k_proto (with_packet [] k)) with (k_proto k). rewrite P.
    change (k_auth (with_packet [] k)) with (k_auth k). change (k_pg (with_packet [] k)) with (k_pg k).
    destruct (prun _ _ _ _ _) as [[[ch2 es] ev2]|]; [|reflexivity]. rewrite after_proto. change (k_proto (with_packet [] k)) with (k_proto k). rewrite P.
    cbn [conn_shut k_closed]. rewrite firstn_all. cbn [then_]. rewrite closed_packets by reflexivity. rewrite !app_nil_r. reflexivity.
  - assert (W : parse_http cf (first_line r ++ p) = HMore).
    { apply (http_short cf r p (b :: q) R); [rewrite <- E2, <- app_assoc; reflexivity|discriminate|].
      rewrite <- Er. apply (Cut [x0] rest); [reflexivity|discriminate]. }
    destruct (first_line r ++ p) as [|b0 t] eqn:Et; [destruct (first_line r); [congruence|discriminate Et]|]. cbn [conn_loop].
    assert (T : conn_turn cf (b0 :: t) (with_packet [] k) = Ok (Wait (with_packet [] k))).
    { rewrite (turn_by cf HTTP) by exact P. cbn [parse_by]. rewrite W. reflexivity. }
    rewrite T. rewrite then_ok. 
    change (with_packet (b0 :: t) (with_packet [] k)) with (with_packet (b0 :: t) k).
    destruct rest as [|x1 rest]; [discriminate Er|].
    rewrite (IH (with_packet (b0 :: t) k) i ch P Cl).
    + reflexivity.
    + exists (p ++ x1), x1, rest. split; [reflexivity|]. cbn [with_packet k_packet]. rewrite <- Et, <- app_assoc. reflexivity.
    + cbn [with_packet k_packet]. exact E2.
    + intros a b1 E3 Na. apply (Cut (x0 :: a) b1); [rewrite E3; reflexivity|discriminate].
Qed.
