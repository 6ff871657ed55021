(** C40: HTTP requests map to the right cache operation; and the HTTP part of C34. *)
From Verif Require Import Base Types Shard Text IntText CmdTable CmdSpec CmdsProofs RespProofs Prog Cmds Http HttpSpec HttpProofs.
From Coq Require Import String Lia.
Local Open Scope N_scope.
Notation length := List.length.
Notation concat := List.concat.

(** Every well-formed request that is authorized is turned into the command it
    stands for, with exactly its key, its body and its options, whatever follows. *)
Theorem C40_request : forall cf r rest, req_ok r -> authorized (cf_useauth cf) (cf_password cf) r ->
  parse_http cf (req_text r ++ rest) = HGot (req_args r).
Proof. intros cf r rest R A. rewrite (http_full cf r rest R). apply auth_check_yes. exact A. Qed.
(** One that is not is refused. *)
Theorem C40_unauthorized : forall cf r rest, req_ok r -> ~ authorized (cf_useauth cf) (cf_password cf) r ->
  parse_http cf (req_text r ++ rest) = HErr (bs "Unauthorized").
Proof. intros cf r rest R A. rewrite (http_full cf r rest R). apply auth_check_no. exact A. Qed.
(** A request that is incomplete after its first line waits for the rest, except
    when only the line feed of the empty line and the body are missing. *)
Theorem C40_prefix : forall cf r p q, req_ok r -> req_text r = first_line r ++ p ++ q -> q <> [] -> q <> [10] ++ r_body r ->
  parse_http cf (first_line r ++ p) = HMore.
Proof. exact http_short. Qed.
(** Whatever is accepted is a GET, PUT or DELETE of a valid key, and the value of
    a PUT is a part of the text. *)
Theorem C40_accepted : forall cf s args, parse_http cf s = HGot args ->
  exists method key c rest body, s = method ++ [32; 47] ++ key ++ c :: rest /\ (c = 32 \/ c = 63) /\ http_key key /\
    (exists a b, rest = a ++ body ++ b) /\ http_shape method key body args.
Proof.
  intros cf s args H. destruct (http_inv _ _ _ H) as (m & k & c & rest & body & A & B & C & D & E & _).
  exists m, k, c, rest, body. auto.
Qed.
(** With a password configured, no text that does not contain the password as a
    bearer token or as an "auth" value becomes a command. *)
Theorem C34_http : forall cf s args, cf_useauth cf = true -> cf_password cf <> [] -> parse_http cf s = HGot args ->
  shows s (cf_password cf).
Proof.
  intros cf s args U P H. destruct (http_inv _ _ _ H) as (m & k & c & rest & body & _ & _ & _ & _ & _ & F). exact (F U P).
Qed.

(** *** Cases *)
Definition demo_req : http_req :=
  mkReq (bs "PUT") (bs "my/key") [(bs "ex", Some (bs "10")); (bs "nx", None); (bs "auth", Some (bs "pw")); (bs "ttl", Some (bs "20"))]
    49 49 [(bs "Content-LENGTH", 1%nat, bs "9"); (bs "Host", 0%nat, bs "a:b"); (bs "content-length", 2%nat, bs "4")] [13; 10; 0; 255].
Definition demo_cf : config := mkConfig true (bs "pw") 16 (bs "1") 10.
Ltac fo := intros ? Hin; cbn in Hin; decompose [or] Hin; subst; try contradiction; vm_compute; intuition discriminate.
Example C40_case : req_ok demo_req /\ authorized true (bs "pw") demo_req /\
  req_text demo_req = bs "PUT /my/key?ex=10&nx&auth=pw&ttl=20 HTTP/1.1" ++ crlf ++ bs "Content-LENGTH: 9" ++ crlf ++ bs "Host:a:b" ++ crlf
     ++ bs "content-length:  4" ++ crlf ++ crlf ++ [13; 10; 0; 255] /\
  parse_http demo_cf (req_text demo_req) = HGot [bs "set"; bs "my/key"; [13; 10; 0; 255]; bs "ex"; bs "20"; bs "nx"].
Proof.
  split; [|split; [|split; reflexivity]].
  - split; [tauto|]. split.
    { split; [cbn; lia|]. apply Forall_forall. intros x I. cbn in I. decompose [or] I; subst; try contradiction; vm_compute; repeat split; intuition discriminate. }
    split. { repeat (apply Forall_cons; [split; [discriminate|]; split; [fo|try exact I; fo]|]). apply Forall_nil. }
    split; [split; [reflexivity|]; split; [reflexivity|auto]|]. split; [discriminate|].
    split. { repeat (apply Forall_cons; [split; [discriminate|]; split; [fo|]; split; [fo|vm_compute; discriminate]|]). apply Forall_nil. }
    split.
    + intros h Hin Hn. cbn [demo_req r_headers] in Hin. destruct Hin as [Hin|[Hin|[Hin|[]]]]; subst h.
      * exists 9. split; [apply nat_text_parse; reflexivity|lia].
      * discriminate Hn.
      * exists 4. split; [apply nat_text_parse; reflexivity|lia].
    + unfold body_ok. replace (last_header "content-length" (r_headers demo_req)) with (Some (bs "4")) by reflexivity.
      apply nat_text_parse. reflexivity.
  - exists (bs "pw"). split; [|auto]. apply pr_query; [reflexivity|discriminate].
Qed.
(** The prefix theorem is not vacuous. *)
Example C40_prefix_case : parse_http demo_cf (first_line demo_req ++ bs "Content-") = HMore /\
  parse_http demo_cf (firstn (length (req_text demo_req) - 1) (req_text demo_req)) = HMore.
Proof. split; reflexivity. Qed.
Example C34_http_case : parse_http demo_cf (bs "GET /k HTTP/1.1" ++ crlf ++ bs "Host: a" ++ crlf ++ crlf) = HErr (bs "Unauthorized") /\
  parse_http demo_cf (bs "GET /k HTTP/1.1" ++ crlf ++ bs "AUTHORIZATION: Bearer pw" ++ crlf ++ crlf) = HGot [bs "get"; bs "k"].
Proof. split; reflexivity. Qed.

(** *** What does not hold *)
(** A complete request without header lines is never answered. *)
Theorem C40_no_headers_refuted :
  ~ (forall cf key, http_key key -> cf_useauth cf = false ->
       parse_http cf (bs "GET /" ++ key ++ bs " HTTP/1.1" ++ crlf ++ crlf) = HGot [bs "get"; key]).
Proof.
  intro H. specialize (H (mkConfig false [] 16 [] 10) (bs "k")).
  assert (K : http_key (bs "k")). { split; [cbn; lia|]. repeat constructor; try reflexivity. vm_compute. intuition discriminate. }
  specialize (H K eq_refl). vm_compute in H. discriminate.
Qed.
(** A request split in the middle of the empty line is refused. *)
Theorem C40_split_refuted :
  ~ (forall cf r p q, req_ok r -> req_text r = first_line r ++ p ++ q -> q <> [] -> parse_http cf (first_line r ++ p) = HMore).
Proof.
  intro H. specialize (H demo_cf demo_req (bs "Content-LENGTH: 9" ++ crlf ++ bs "Host:a:b" ++ crlf ++ bs "content-length:  4" ++ crlf ++ [13])
    ([10] ++ r_body demo_req) (proj1 C40_case) eq_refl ltac:(discriminate)).
  vm_compute in H. discriminate.
Qed.
(** No request is ever answered with "Method Not Allowed". *)
Theorem C40_method_never_405 : forall cf s, parse_http cf s <> HErr (bs "Method Not Allowed").
Proof.
  intros cf s. unfold parse_http.
  assert (A : forall st q args, http_auth cf st q args <> HErr (bs "Method Not Allowed")).
  { intros. unfold http_auth. assert (C : forall v, (if (cf_useauth cf || negb (beq v [])) && negb (beq v (cf_password cf)) then unauthorized else HGot args) <> HErr (bs "Method Not Allowed")).
    { intro v. destruct (_ && _); discriminate. }
    destruct (q_auth q) as [[|c v]|]; try apply C; (destruct (h_auth st) as [|d h]; [apply C|]; destruct (has_prefix _ _); [apply C|discriminate]). }
  assert (B : forall m k q st body, http_command cf m k q st body <> HErr (bs "Method Not Allowed")).
  { intros. unfold http_command. destruct (hd 0 k =? 64); repeat match goal with |- context [beq m ?w] => destruct (beq m w) end; try discriminate;
      destruct (beq k []); try (destruct (h_html st); discriminate); destruct (http_valid k); cbn [negb]; try discriminate; apply A. }
  destruct (until_space s) as [(m & d1)|]; [|discriminate]. destruct (until_space d1) as [(u & d2)|]; [|discriminate].
  destruct (split_at 10 d2) as [(l & d3)|]; [|discriminate]. destruct (negb _); [discriminate|].
  destruct (headers _ _ _) as [| |st d4]; try discriminate. destruct (_ <? _)%nat; [discriminate|].
  destruct u as [|b path]; [discriminate|].
  destruct b as [|[[[[[[]|[]|]|[[]|[]|]|]|[[[]|[]|]|[[]|[]|]|]|]|[[[[]|[]|]|[[]|[]|]|]|[[[]|[]|]|[[]|[]|]|]|]|]|[[[[[]|[]|]|[[]|[]|]|]|[[[]|[]|]|[[]|[]|]|]|]|[[[[]|[]|]|[[]|[]|]|]|[[[]|[]|]|[[]|[]|]|]|]|]|]];
    try discriminate; destruct (split_at 63 path) as [(k & q)|]; apply B.
Qed.
(** A trailing "&" makes the option before it disappear. *)
Theorem C40_trailing_and_refuted :
  ~ (forall cf key, http_key key -> cf_useauth cf = false ->
       parse_http cf (bs "PUT /" ++ key ++ bs "?nx& HTTP/1.1" ++ crlf ++ bs "Content-Length: 0" ++ crlf ++ crlf) =
       HGot [bs "set"; key; []; bs "nx"]).
Proof.
  intro H. specialize (H (mkConfig false [] 16 [] 10) (bs "k")).
  assert (K : http_key (bs "k")). { split; [cbn; lia|]. repeat constructor; try reflexivity. vm_compute. intuition discriminate. }
  specialize (H K eq_refl). vm_compute in H. discriminate.
Qed.
