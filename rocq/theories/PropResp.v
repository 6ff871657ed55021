(** C37 and C48: RESP requests and telnet lines. The grammars are in
    RespSpec.v; the packets of a connection are in PropConn.v. *)
From Verif Require Import Base Types Shard Text IntText IntTextProofs Resp RespSpec RespProofs TelnetProofs.
From Coq Require Import String.
Local Open Scope N_scope.
Notation length := List.length.
Notation concat := List.concat.

(** *** C37 *)
(** A request is read as exactly its arguments, using exactly its bytes,
    whatever follows. *)
Theorem C37_request : forall args s rest, request args s -> parse_resp (s ++ rest) = Ok (Got (length s) args).
Proof. exact parse_full. Qed.
(** The beginning of a request makes the parser wait. *)
Theorem C37_prefix : forall args s p q, request args s -> s = p ++ q -> q <> [] -> parse_resp p = Ok More.
Proof. exact parse_short. Qed.
(** Every list of arguments has a request, in the canonical numbers of any
    printing function [dec]. *)
Theorem C37_encode : forall (dec : N -> bytes) args, (forall x, x < 2 ^ 64 -> canonical (dec x) x) ->
  N.of_nat (length args) <= 100000 -> Forall (fun a => N.of_nat (length a) <= 536870912) args ->
  request args ([42] ++ dec (N.of_nat (length args)) ++ crlf ++
    concat (List.map (fun a => [36] ++ dec (N.of_nat (length a)) ++ crlf ++ a ++ crlf) args)).
Proof.
  intros dec args D Hn F.
  assert (Hd : forall x, x < 2 ^ 64 -> head_number (dec x) x).
  { intros x Hx. pose proof (canonical_length _ _ (D x Hx) Hx) as L. destruct (D x Hx) as (Dg & V & _). split; [|split].
    - exists [], [], (dec x). repeat split; try apply Dg; [constructor|left; reflexivity|exact V].
    - intros I. destruct Dg as [_ Fd]. rewrite Forall_forall in Fd. specialize (Fd 13 I). discriminate.
    - ns. lia. }
  exists (dec (N.of_nat (length args))), (List.map (fun a => [36] ++ dec (N.of_nat (length a)) ++ crlf ++ a ++ crlf) args).
  split; [apply Hd; eapply N.le_lt_trans; [exact Hn|reflexivity]|]. split; [exact Hn|]. split; [|reflexivity].
  induction F as [|a args Ha F IH]; cbn [List.map]; constructor.
  - exists (dec (N.of_nat (length a))). split; [apply Hd; eapply N.le_lt_trans; [exact Ha|reflexivity]|]. split; [exact Ha|reflexivity].
  - apply IH. cbn [length] in Hn. lia.
Qed.
(** Nothing else is accepted than the loose form: in particular every argument
    is a part of the data at the place its header announces. *)
Theorem C37_accepted : forall data n args, parse_resp data = Ok (Got n args) ->
  (n <= length data)%nat /\ loose_request args (firstn n data).
Proof. exact parse_inv. Qed.
(** An accepted command stays the same when more data follows. *)
Theorem C37_stable : forall data n args more, parse_resp data = Ok (Got n args) ->
  parse_resp (data ++ more) = Ok (Got n args).
Proof. exact parse_more. Qed.

Definition get_crlf : bytes := bs "*2" ++ crlf ++ bs "$3" ++ crlf ++ bs "GET" ++ crlf ++ bs "$4" ++ crlf ++ [13; 10; 0; 36] ++ crlf.
Example C37_case :
  request [bs "GET"; [13; 10; 0; 36]] get_crlf /\
  parse_resp (get_crlf ++ bs "*1") = Ok (Got 23 [bs "GET"; [13; 10; 0; 36]]) /\
  parse_resp (firstn 19 get_crlf) = Ok More.
Proof.
  split; [|split; vm_compute; reflexivity].
  exact (C37_encode u64toa [bs "GET"; [13; 10; 0; 36]] u64toa_canonical ltac:(discriminate) ltac:(repeat constructor; discriminate)).
Qed.
(** "The result does not depend on what follows the request" is refuted for an
    empty count: it is 0, an error, or a read beyond the data. *)
Theorem C37_empty_count_refuted :
  parse_resp (bs "*" ++ crlf ++ bs "$") = Ok (Got 3 []) /\
  (exists msg, parse_resp (bs "*" ++ crlf ++ bs "7 ") = Ok (Wrong msg)) /\
  parse_resp (bs "*" ++ crlf) = Bad OutOfBounds.
Proof. split; [|split; [eexists|]]; vm_compute; reflexivity. Qed.
(** "The line end after an argument is required" is refuted. *)
Theorem C37_terminator_refuted :
  parse_resp (bs "*1" ++ crlf ++ bs "$4" ++ crlf ++ bs "PINGxx") = Ok (Got 14 [bs "PING"]).
Proof. vm_compute. reflexivity. Qed.
(** "The result does not depend on the packets" is refuted for numbers longer
    than 32 bytes: complete they are read, cut short they are an error. *)
Theorem C37_long_number_refuted : exists p q msg, 
  parse_resp (p ++ q) = Ok (Got 52 [bs "PING"]) /\ parse_resp p = Ok (Wrong msg).
Proof.
  exists (bs "*" ++ repeat 48 38), (bs "1" ++ crlf ++ bs "$4" ++ crlf ++ bs "PING" ++ crlf). eexists.
  split; vm_compute; reflexivity.
Qed.

(** *** C48 *)
(** A line is read as exactly its arguments, using exactly its bytes. *)
Theorem C48_line : forall args s rest, telnet_line args s -> parse_resp_telnet (s ++ rest) = Got (length s) args.
Proof. exact telnet_full. Qed.
Theorem C48_prefix : forall args s p q, telnet_line args s -> s = p ++ q -> q <> [] -> parse_resp_telnet p = More.
Proof. exact telnet_short. Qed.
(** Every list of arguments, of any bytes, can be written with quotes. *)
Theorem C48_quoted : forall args,
  N.of_nat (length args) <= 100000 -> Forall (fun a => N.of_nat (length a) <= 536870912) args ->
  telnet_line args (concat (List.map (fun a => quote a ++ [32]) args) ++ [10]).
Proof.
  intros args Hn F. split; [|split; assumption]. clear Hn F.
  induction args as [|a args IH]; cbn [List.map List.concat app]; [constructor|].
  rewrite <- !app_assoc. apply ln_arg; [apply quote_ok|split; [reflexivity|discriminate]|exact IH].
Qed.
(** A decision, also an error, is not changed by more data. *)
Theorem C48_stable : forall data more, parse_resp_telnet data <> More ->
  parse_resp_telnet (data ++ more) = parse_resp_telnet data.
Proof. intros data more H. apply (telnet_stable (length data)); [lia|exact H]. Qed.
Definition set_line : bytes := bs "SET key """ ++ bs "a\n\""b" ++ bs """ x'y z'" ++ crlf.
Example C48_case :
  telnet_line [bs "SET"; bs "key"; bs "a" ++ [10] ++ bs """b"; bs "xy z"] set_line /\
  parse_resp_telnet (set_line ++ bs "GET") = Got (length set_line) [bs "SET"; bs "key"; bs "a" ++ [10] ++ bs """b"; bs "xy z"] /\
  parse_resp_telnet (removelast set_line) = More /\
  parse_resp_telnet (bs "GET ""a""b" ++ crlf) = fail_quotes.
Proof.
  split; [|repeat split; vm_compute; reflexivity].
  split; [|split; [discriminate|repeat constructor; discriminate]].
  assert (B32 : blank 32) by (split; [reflexivity|discriminate]).
  assert (B13 : blank 13) by (split; [reflexivity|discriminate]).
  apply (ln_arg (bs "SET") (bs "SET") _ 32 (bs "key ""a\n\""b"" x'y z'" ++ crlf)); [|exact B32|].
  { apply tk_plain; [discriminate|]. repeat constructor; discriminate. }
  apply (ln_arg (bs "key") (bs "key") _ 32 (bs """a\n\""b"" x'y z'" ++ crlf)); [|exact B32|].
  { apply tk_plain; [discriminate|]. repeat constructor; discriminate. }
  apply (ln_arg (bs "a" ++ [10] ++ bs """b") (bs """a\n\""b""") _ 32 (bs "x'y z'" ++ crlf)); [|exact B32|].
  { apply (tk_quoted [] 34 _ [[97]; [92; 110]; [92; 34]; [98]]); [constructor|left; reflexivity|].
    constructor; [apply qb_self; discriminate|]. constructor; [apply qb_lf|].
    constructor; [apply qb_escaped; discriminate|]. constructor; [apply qb_self; discriminate|constructor]. }
  apply (ln_arg (bs "xy z") (bs "x'y z'") [] 13 [10]); [|exact B13|constructor].
  apply (tk_quoted [120] 39 (bs "y z") [[121]; [32]; [122]]); [repeat constructor; discriminate|right; reflexivity|].
  constructor; [apply qb_self; discriminate|]. constructor; [apply qb_self; discriminate|].
  constructor; [apply qb_self; discriminate|constructor].
Qed.
