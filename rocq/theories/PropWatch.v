(** C74: what a client that watches with MONITOR can do. *)
From Verif Require Import Base Types Shard Text IntText IntTextProofs Resp RespSpec RespProofs TelnetProofs Prog Cmds CmdsProofs CmdSpec PropResp Watch.
From Coq Require Import String.
Local Open Scope N_scope.
Notation length := List.length.

(** One read brings exactly one request: in RESP, or a line that does not begin with a star. *)
Inductive brings_one (args : list bytes) (pkt : bytes) : Prop :=
| one_request : request args pkt -> brings_one args pkt
| one_line : telnet_line args pkt -> hd 0 pkt <> 42 -> brings_one args pkt.
(** The request asks for a sign of life. *)
Definition pings (args : list bytes) : Prop := exists a r, args = a :: r /\ word a "ping".
(** The answer to it. *)
Definition pong : bytes := bs "+PONG" ++ crlf.
(** What a client that keeps to the rules sends, read by read, and what it gets. *)
Inductive keeps : list bytes -> list bytes -> Prop :=
| keeps_nil : keeps [] []
| keeps_ping : forall args pkt pkts outs, brings_one args pkt -> pings args -> keeps pkts outs -> keeps (pkt :: pkts) (pong :: outs)
| keeps_empty : forall pkt pkts outs, brings_one [] pkt -> keeps pkts outs -> keeps (pkt :: pkts) outs.

Lemma line_nonempty : forall args s, line args s -> s <> [].
Proof. intros args s H. inversion H; try discriminate; intros E; apply app_eq_nil in E; destruct E as [_ E]; discriminate. Qed.
Lemma one_nonempty : forall args pkt, brings_one args pkt -> pkt <> [].
Proof.
  intros args pkt [(t & ps & _ & _ & _ & ->)|(H & _ & _) _]; [discriminate|exact (line_nonempty _ _ H)].
Qed.
(** What the turn does with the result of the parser. *)
Lemma turn_cons : forall pkt, pkt <> [] -> monitor_turn pkt =
  match (if hd 0 pkt =? 42 then parse_resp pkt else Ok (parse_resp_telnet pkt)) with
  | Bad t => Bad t
  | Ok (Got n args) =>
      if negb (Nat.eqb n (length pkt)) then Ok Over
      else match args with [] => Ok Quiet | a :: _ => if is_word a "ping" then Ok Pong else Ok Over end
  | Ok _ => Ok Over
  end.
Proof. intros [|b r] H; [contradiction|reflexivity]. Qed.
Lemma one_more : forall args s more, brings_one args s ->
  (if hd 0 (s ++ more) =? 42 then parse_resp (s ++ more) else Ok (parse_resp_telnet (s ++ more))) = Ok (Got (length s) args).
Proof.
  intros args s more B. pose proof (one_nonempty _ _ B) as NE. destruct B as [R|T H].
  - rewrite <- (C37_request _ _ more R). destruct R as (t & ps & _ & _ & _ & ->). reflexivity.
  - destruct s as [|b r]; [contradiction|]. cbn [hd app] in *. destruct (N.eqb_spec b 42); [contradiction|].
    change (b :: r ++ more) with ((b :: r) ++ more). rewrite (C48_line _ _ more T). reflexivity.
Qed.
Lemma one_cut : forall args s p q, brings_one args s -> s = p ++ q -> p <> [] -> q <> [] ->
  (if hd 0 p =? 42 then parse_resp p else Ok (parse_resp_telnet p)) = Ok More.
Proof.
  intros args s p q B E NP NQ. destruct B as [R|T H].
  - rewrite <- (C37_prefix _ _ p q R E NQ). destruct R as (t & ps & _ & _ & _ & ->).
    destruct p as [|b r]; [contradiction|]. injection E as <- _. reflexivity.
  - destruct p as [|b r]; [contradiction|]. subst s. cbn [hd app] in *. destruct (N.eqb_spec b 42); [contradiction|].
    change (b :: r ++ q) with ((b :: r) ++ q) in T. rewrite (C48_prefix _ _ _ q T eq_refl NQ). reflexivity.
Qed.
Lemma turn_one : forall args s, brings_one args s -> monitor_turn s =
  match args with [] => Ok Quiet | a :: _ => if is_word a "ping" then Ok Pong else Ok Over end.
Proof.
  intros args s B. rewrite (turn_cons _ (one_nonempty _ _ B)).
  pose proof (one_more _ _ [] B) as H. rewrite app_nil_r in H. rewrite H, Nat.eqb_refl. reflexivity.
Qed.

(** Who may watch: MONITOR alone on its line, in RESP. *)
Theorem C74_command : forall pr args work,
  (snd (monitor_command pr args work) = true <-> pr = RESP /\ length args = 1%nat /\ work = true) /\
  (snd (monitor_command pr args work) = true -> fst (monitor_command pr args work) = [WString (bs "OK")]) /\
  (pr <> RESP -> fst (monitor_command pr args work) = [WError (bs "unavailable")]) /\
  (pr = RESP -> length args <> 1%nat -> fst (monitor_command pr args work) = [WError (bs "ERR wrong number of arguments")]).
Proof.
  intros pr args work. destruct pr, args as [|a [|b r]], work; cbn; repeat split; intros; try congruence; try reflexivity;
    repeat match goal with H : _ /\ _ |- _ => destruct H end; try congruence; try discriminate.
Qed.
(** A client that only asks for signs of life, one request in each read, gets one answer for each and goes on watching. *)
Theorem C74_keeps : forall pkts outs rest, keeps pkts outs ->
  monitor_loop (pkts ++ rest) = match monitor_loop rest with Ok (o, e) => Ok (outs ++ o, e) | Bad t => Bad t end.
Proof.
  intros pkts outs rest K. induction K as [|args pkt pkts outs B (a & r & -> & W) K IH|pkt pkts outs B K IH]; cbn [app monitor_loop].
  - destruct (monitor_loop rest) as [[o e]|t]; reflexivity.
  - rewrite (turn_one _ _ B). apply is_word_iff in W. rewrite W, IH. destruct (monitor_loop rest) as [[o e]|t]; reflexivity.
  - rewrite (turn_one _ _ B), IH. reflexivity.
Qed.
(** Any other request ends the watching: it has no answer, and nothing after it is read. *)
Theorem C74_other : forall args pkt pkts outs rest, keeps pkts outs -> brings_one args pkt -> args <> [] -> ~ pings args ->
  monitor_loop (pkts ++ pkt :: rest) = Ok (outs, Some rest).
Proof.
  intros args pkt pkts outs rest K B NE NP. rewrite (C74_keeps _ _ _ K). cbn [monitor_loop]. rewrite (turn_one _ _ B).
  destruct args as [|a r]; [contradiction|]. destruct (is_word a "ping") eqn:W.
  - destruct NP. exists a, r. split; [reflexivity|]. now apply is_word_iff.
  - now rewrite app_nil_r.
Qed.
(** The end of the connection ends it. *)
Theorem C74_closed : forall pkts outs rest, keeps pkts outs -> monitor_loop (pkts ++ [] :: rest) = Ok (outs, Some rest).
Proof. intros pkts outs rest K. rewrite (C74_keeps _ _ _ K). cbn. now rewrite app_nil_r. Qed.
(** A request, be it for a sign of life, that comes in two reads ends it: what came first is not waited for. *)
Theorem C74_cut : forall args p q pkts outs rest, keeps pkts outs -> brings_one args (p ++ q) -> p <> [] -> q <> [] ->
  monitor_loop (pkts ++ p :: q :: rest) = Ok (outs, Some (q :: rest)).
Proof.
  intros args p q pkts outs rest K B NP NQ. rewrite (C74_keeps _ _ _ K). cbn [monitor_loop].
  rewrite (turn_cons _ NP), (one_cut _ _ _ _ B eq_refl NP NQ). now rewrite app_nil_r.
Qed.
(** So does a request with anything after it in the same read. *)
Theorem C74_joined : forall args s more pkts outs rest, keeps pkts outs -> brings_one args s -> more <> [] ->
  monitor_loop (pkts ++ (s ++ more) :: rest) = Ok (outs, Some rest).
Proof.
  intros args s more pkts outs rest K B NM. rewrite (C74_keeps _ _ _ K). cbn [monitor_loop].
  rewrite turn_cons, (one_more _ _ _ B); [|intros E; apply app_eq_nil in E; destruct E; contradiction].
  replace (Nat.eqb (length s) (length (s ++ more))) with false.
  - cbn. now rewrite app_nil_r.
  - symmetry. apply Nat.eqb_neq. rewrite app_length. destruct more; [contradiction|cbn; lia].
Qed.
(** Whatever is sent: nothing but the answer to signs of life is written, at most one for each read, and what was read when it ends is a
    beginning of what was sent. *)
Theorem C74_any : forall pkts outs e, monitor_loop pkts = Ok (outs, e) ->
  Forall (eq pong) outs /\
  exists seen, (length outs <= length seen)%nat /\
    match e with None => pkts = seen | Some rest => exists last, pkts = seen ++ last :: rest end.
Proof.
  induction pkts as [|p r IH]; intros outs e H; cbn [monitor_loop] in H.
  - injection H as <- <-. split; [constructor|]. exists []. split; [cbn; lia|reflexivity].
  - destruct (monitor_turn p) as [[| |]|t]; [| | |discriminate].
    + destruct (IH _ _ H) as (F & seen & L & S). split; [exact F|]. exists (p :: seen). split; [cbn [length]; lia|].
      destruct e as [rest|]; [destruct S as (l & ->); exists l; reflexivity|now rewrite S].
    + destruct (monitor_loop r) as [[o e']|]; [|discriminate]. injection H as <- <-.
      destruct (IH _ _ eq_refl) as (F & seen & L & S). split; [constructor; [reflexivity|exact F]|].
      exists (p :: seen). split; [cbn [length]; lia|].
      destruct e' as [rest|]; [destruct S as (l & ->); exists l; reflexivity|now rewrite S].
    + injection H as <- <-. split; [constructor|]. exists []. split; [cbn; lia|]. exists p. reflexivity.
Qed.

Definition ping_resp : bytes := bs "*1" ++ crlf ++ bs "$4" ++ crlf ++ bs "PinG" ++ crlf.
Definition ping_line : bytes := bs "ping" ++ crlf.
Definition get_line : bytes := bs "get k" ++ crlf.
Lemma ping_resp_one : brings_one [bs "PinG"] ping_resp.
Proof.
  apply one_request. exact (C37_encode u64toa [bs "PinG"] u64toa_canonical ltac:(discriminate) ltac:(repeat constructor; discriminate)).
Qed.
Lemma ping_line_one : brings_one [bs "ping"] ping_line.
Proof.
  apply one_line; [|discriminate]. split; [|split; [discriminate|repeat constructor; discriminate]].
  apply (ln_arg (bs "ping") (bs "ping") [] 13 [10]); [|split; [reflexivity|discriminate]|constructor].
  apply tk_plain; [discriminate|]. repeat constructor; discriminate.
Qed.
Lemma get_line_one : brings_one [bs "get"; bs "k"] get_line.
Proof.
  apply one_line; [|discriminate]. split; [|split; [discriminate|repeat constructor; discriminate]].
  apply (ln_arg (bs "get") (bs "get") _ 32 (bs "k" ++ crlf)); [|split; [reflexivity|discriminate]|].
  { apply tk_plain; [discriminate|]. repeat constructor; discriminate. }
  apply (ln_arg (bs "k") (bs "k") [] 13 [10]); [|split; [reflexivity|discriminate]|constructor].
  apply tk_plain; [discriminate|]. repeat constructor; discriminate.
Qed.
Lemma blank_line_one : brings_one [] crlf.
Proof. apply one_line; [|discriminate]. split; [|split; [discriminate|constructor]]. apply ln_blank; [split; [reflexivity|discriminate]|constructor]. Qed.
(** A request in RESP, an empty line and a line keep it going; a GET ends it. *)
Example C74_case :
  keeps [ping_resp; crlf; ping_line] [pong; pong] /\ brings_one [bs "get"; bs "k"] get_line /\ ~ pings [bs "get"; bs "k"] /\
  monitor_loop [ping_resp; crlf; ping_line] = Ok ([pong; pong], None) /\
  monitor_loop [ping_resp; crlf; ping_line; get_line; ping_line] = Ok ([pong; pong], Some [ping_line]) /\
  snd (monitor_command RESP [bs "monitor"] true) = true.
Proof.
  split; [|split; [exact get_line_one|split; [|repeat split; vm_compute; reflexivity]]].
  - eapply keeps_ping; [exact ping_resp_one|exists (bs "PinG"), []; split; reflexivity|]. apply keeps_empty; [exact blank_line_one|].
    eapply keeps_ping; [exact ping_line_one|exists (bs "ping"), []; split; reflexivity|constructor].
  - intros (a & r & E & W). injection E as <- _. discriminate W.
Qed.
(** "It does not matter how the network cuts what a client sends", which holds for every other connection (C50), is refuted while it watches:
    the same bytes have two answers, one, or none. *)
Theorem C74_packets_refuted : exists s t,
  List.concat [s; t] = List.concat [s ++ t] /\ List.concat [s; t] = List.concat [firstn 3 s; skipn 3 s; t] /\
  monitor_loop [s; t] = Ok ([pong; pong], None) /\
  monitor_loop [s ++ t] = Ok ([], Some []) /\
  monitor_loop [firstn 3 s; skipn 3 s; t] = Ok ([], Some [skipn 3 s; t]).
Proof. exists ping_resp, ping_line. repeat split; vm_compute; reflexivity. Qed.
(** "Whatever is sent, only what was received is looked at" is refuted: after a star and a line end the parser looks at a byte of the buffer
    that this read did not fill (C37). *)
Theorem C74_safe_refuted : exists pkt, pkt <> [] /\ monitor_loop [pkt] = Bad OutOfBounds.
Proof. exists (bs "*" ++ crlf). split; [discriminate|vm_compute; reflexivity]. Qed.
