(** C39: the memcache text protocol is parsed exactly. *)
From Verif Require Import Base Types Shard Text IntText CmdSpec CmdsProofs RespProofs Memcache McSpec McProofs.
From Coq Require Import String Lia.
Local Open Scope N_scope.
Notation length := List.length.
Notation concat := List.concat.

(** Every well-formed request is read as the command it stands for, with exactly
    its arguments and its data block, whatever follows. *)
Theorem C39_request : forall op noreply s rest, mc_request op noreply s ->
  parse_memcache (s ++ rest) = Ok (McGot (length s) (silent op noreply) (op_args op)).
Proof. exact mc_full. Qed.

(** An incomplete request waits. *)
Theorem C39_prefix : forall op noreply s p q, mc_request op noreply s -> s = p ++ q -> q <> [] ->
  parse_memcache p = Ok McMore.
Proof. exact mc_short. Qed.

(** An answer, and also a failure, does not depend on what arrives later. *)
Theorem C39_stable : forall s rest, parse_memcache s <> Ok McMore -> parse_memcache (s ++ rest) = parse_memcache s.
Proof. intros s rest H. destruct (parse_settled s rest) as [E|E]; [congruence|contradiction]. Qed.

(** Whatever is accepted is one line and, for a command that stores, one data
    block ended by CRLF which is passed on unchanged; no command has an invalid
    key. *)
Theorem C39_accepted : forall s n noreply args, parse_memcache s = Ok (McGot n noreply args) -> args <> [] ->
  exists l block rest, s = l ++ block ++ rest /\ n = length (l ++ block) /\ one_line l /\
    ((block = [] /\ plain_command args) \/ exists v, block = v ++ crlf /\ block_command v args).
Proof.
  intros s n noreply args H Ha. destruct (mc_inv _ _ _ _ H Ha) as (l & rest & -> & L & blk & rest' & -> & En & X).
  exists l, blk, rest'. auto.
Qed.

(** A data block that does not end where it should is rejected as a whole: the
    next command starts after the announced number of bytes. *)
Theorem C39_bad_chunk : forall k key flags exptime size data l x y rest,
  op_ok (OStore k key flags exptime size data) -> line_of (op_words (OStore k key flags exptime size data)) l ->
  (x, y) <> (13, 10) ->
  parse_memcache (l ++ data ++ [x; y] ++ rest) = Ok (McErr BAD_CHUNK (length (l ++ data ++ [x; y]))).
Proof.
  intros k key flags exptime size data l x y rest K L H.
  pose proof (mct_line _ _ L (data ++ [x; y] ++ rest) 0 0 []) as T. cbn [app Nat.add] in T.
  etransitivity; [apply (parse_store k key flags exptime size data false _ (length l) K); cbn [nr]; rewrite app_nil_r; exact T|].
  apply mc_value_bad. exact H.
Qed.
(** A storage command with an invalid key is rejected. *)
Theorem C39_bad_key : forall k key flags exptime size data l rest,
  ~ mc_key key -> (length size <= 6)%nat -> line_of (op_words (OStore k key flags exptime size data)) l ->
  parse_memcache (l ++ rest) = Ok (McErr BAD_FORMAT (length l)).
Proof.
  intros k key flags exptime size data l rest K Hs L.
  pose proof (mct_line _ _ L rest 0 0 []) as T. cbn [app Nat.add op_words] in T.
  assert (Nn : size <> bs "noreply") by (intros ->; cbn in Hs; lia).
  assert (Kn : key <> []). { destruct L as (_ & F & _). cbn [op_words] in F. inversion F as [|? ? _ F2]; subst. inversion F2 as [|? ? (A & _) _]; subst. exact A. }
  apply invalid_key in K. unfold parse_memcache. rewrite T. cbn [length Nat.eqb andb].
  destruct k; unfold store_name; cbv iota; known; cbn [andb].
  2-5: unfold mc_command; cbn [is_noreplyable andb List.last removelast is_store app];
    rewrite (arg_is_neq _ _ Nn); unfold set_plus, valid_key, arg_at; cbn [nth_error]; rewrite K; reflexivity.
  unfold arg_at. cbn [nth_error]. destruct (is_zero flags).
  - rewrite K. cbn [negb]. destruct key; [congruence|reflexivity].
  - unfold set_plus, valid_key, arg_at. cbn [nth_error]. rewrite K. reflexivity.
Qed.

(** *** Cases *)
Ltac tw := split; [discriminate|]; repeat split; (let X := fresh in vm_compute; intros X; repeat destruct X as [X|X]; try discriminate; try contradiction).
Example C39_case : mc_request (OStore KAdd (bs "k") (bs "7") (bs "-1") (bs "4") [13; 10; 0; 255]) true
  (bs "add k 7 -1 4 noreply" ++ crlf ++ [13; 10; 0; 255; 13; 10]) /\
  op_args (OStore KAdd (bs "k") (bs "7") (bs "-1") (bs "4") [13; 10; 0; 255]) =
  [bs "set"; bs "k"; [13; 10; 0; 255]; bs "flags"; bs "7"; bs "ex"; bs "-1"; bs "nx"].
Proof.
  split; [|reflexivity]. split; [|split; [intros _; exact I|]].
  - split; [split; [cbn; lia|repeat constructor; discriminate]|]. split; [|split; [|split]].
    + exists 7%Z. split; [apply int_text_parse; reflexivity|lia].
    + exists (-1)%Z. apply int_text_parse. reflexivity.
    + apply int_text_parse. reflexivity.
    + vm_compute. discriminate.
  - exists (bs "add k 7 -1 4 noreply" ++ crlf). split; [|reflexivity]. split; [discriminate|]. split; [|right; reflexivity].
    cbn [op_words app]. repeat (apply Forall_cons; [tw|]). apply Forall_nil.
Qed.
Example C39_cas_case : mc_request (OCas (bs "k") (bs "0") (bs "0") (bs "1") (bs "18446744073709551615") [65]) false
  (bs "cas k 0 0 1 18446744073709551615" ++ [10] ++ [65; 13; 10]).
Proof.
  split; [|split; [discriminate|]].
  - split; [split; [cbn; lia|repeat constructor; discriminate]|]. split; [|split; [|split; [split|]]].
    + exists 0%Z. split; [apply int_text_parse; reflexivity|lia].
    + exists 0%Z. apply int_text_parse. reflexivity.
    + apply int_text_parse. reflexivity.
    + vm_compute. discriminate.
    + exists 18446744073709551615. apply nat_text_parse. reflexivity.
  - exists (bs "cas k 0 0 1 18446744073709551615" ++ [10]). split; [|reflexivity]. split; [discriminate|]. split; [|left; reflexivity].
    cbn [op_words app]. repeat (apply Forall_cons; [tw|]). apply Forall_nil.
Qed.
Example C39_bad_case : parse_memcache (bs "set k 0 0 1" ++ crlf ++ bs "abc" ++ bs "get k") = Ok (McErr BAD_CHUNK 16).
Proof. reflexivity. Qed.

(** *** What does not hold *)
(** A storage line with too few words is not rejected: arguments beyond the list
    are read. *)
Theorem C39_short_line_refuted :
  ~ (forall words l, line_of words l -> exists r, parse_memcache l = Ok r).
Proof.
  intro H. destruct (H [bs "set"; bs "k"; bs "0"] (bs "set k 0" ++ crlf)) as (r & E).
  - split; [discriminate|]. split; [|right; reflexivity]. repeat (apply Forall_cons; [tw|]). apply Forall_nil.
  - vm_compute in E. discriminate.
Qed.
(** A line ending in a carriage return, a space and a line feed makes a length
    wrap around. *)
Theorem C39_trailing_space_refuted :
  ~ (forall l, one_line l -> exists r, parse_memcache l = Ok r).
Proof.
  intro H. destruct (H (bs "version" ++ [13; 32; 10])) as (r & E).
  - exists (bs "version" ++ [13; 32]). split; [reflexivity|]. vm_compute. intros X. repeat destruct X as [X|X]; try discriminate; contradiction.
  - vm_compute in E. discriminate.
Qed.
(** "gat exptime key" with a valid expiration time and key is rejected. *)
Theorem C39_gat_refuted :
  ~ (forall e key l, (exists z, int_text e z) -> mc_key key -> line_of [bs "gat"; e; key] l ->
       parse_memcache l = Ok (McGot (length l) false [bs "gat"; e; key])).
Proof.
  intro H. specialize (H (bs "10") (bs "k") (bs "gat 10 k" ++ crlf)).
  assert (X : parse_memcache (bs "gat 10 k" ++ crlf) = Ok (McErr BAD_FORMAT 10)) by reflexivity. rewrite X in H.
  assert (Y : Ok (McErr BAD_FORMAT 10) = Ok (McGot (length (bs "gat 10 k" ++ crlf)) false [bs "gat"; bs "10"; bs "k"])).
  { apply H.
    - exists 10%Z. apply int_text_parse. reflexivity.
    - split; [cbn; lia|repeat constructor; discriminate].
    - split; [discriminate|]. split; [|right; reflexivity]. repeat (apply Forall_cons; [tw|]). apply Forall_nil. }
  discriminate.
Qed.
(** The data block of a rejected storage command is executed as commands. *)
Theorem C39_rejected_block_refuted :
  ~ (forall k key flags exptime size data l n msg, line_of (op_words (OStore k key flags exptime size data)) l ->
       sized size data -> parse_memcache (l ++ data ++ crlf) = Ok (McErr msg n) -> (n >= length (l ++ data))%nat).
Proof.
  intro H. specialize (H KSet (bs "k") (bs "x") (bs "0") (bs "9") (bs "flush_all") (bs "set k x 0 9" ++ crlf) 13%nat BAD_FORMAT).
  assert (X : (13 >= length ((bs "set k x 0 9" ++ crlf) ++ bs "flush_all"))%nat).
  { apply H.
    - split; [discriminate|]. split; [|right; reflexivity]. cbn [op_words store_name]. repeat (apply Forall_cons; [tw|]). apply Forall_nil.
    - split; [apply int_text_parse; reflexivity|vm_compute; discriminate].
    - reflexivity. }
  cbn in X. lia.
Qed.
(** "verbosity" is turned into a command that does not exist. *)
Theorem C39_verbosity_refuted :
  ~ (forall level l, text_word level -> level <> bs "noreply" -> line_of [bs "verbosity"; level] l ->
       parse_memcache l = Ok (McGot (length l) false [bs "verbosity"; level])).
Proof.
  intro H. specialize (H (bs "1") (bs "verbosity 1" ++ crlf)).
  assert (X : parse_memcache (bs "verbosity 1" ++ crlf) = Ok (McGot 13 false [bs "verbosi"; bs "1"])) by reflexivity.
  rewrite X in H.
  assert (Y : Ok (McGot 13 false [bs "verbosi"; bs "1"]) = Ok (McGot (length (bs "verbosity 1" ++ crlf)) false [bs "verbosity"; bs "1"])).
  { apply H; [tw|discriminate|]. split; [discriminate|]. split; [|right; reflexivity]. repeat (apply Forall_cons; [tw|]). apply Forall_nil. }
  discriminate.
Qed.
