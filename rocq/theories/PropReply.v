(** C38: replies are framed unambiguously. *)
From Verif Require Import Base Types Text IntText IntTextProofs Observe Prog CmdSpec CmdSpec2 Cmds Reply ReplySpec ReplyProofs.
From Coq Require Import String Lia.
Local Open Scope N_scope.
Notation length := List.length.
Notation concat := List.concat.

(** Whatever replies a command writes to a client of the Redis protocol, and
    whatever the output buffer already holds, the bytes are those of the
    replies. *)
Theorem C38_resp : forall pg po ws items fill, Forall2 means ws items -> items_text items (emits pg po RESP fill ws).
Proof. exact emits_items. Qed.
(** The client reads exactly these replies, because no other list of replies has
    the same bytes. *)
Theorem C38_resp_unique : forall l m s, items_text l s -> items_text m s -> l = m.
Proof. intros l m s A B. exact (items_unique l s m s A B eq_refl). Qed.
(** A reply ends where its text ends, whatever follows. *)
Theorem C38_resp_stream : forall a s b t x y, item_text a s -> item_text b t -> s ++ x = t ++ y -> a = b /\ s = t /\ x = y.
Proof. exact item_unique. Qed.

(** HTTP: the code, the status and the body can be read back and the announced
    length is the one of the body. *)
Theorem C38_http : forall pg po fill code status body, code < 2 ^ 64 -> N.of_nat (length body) < 2 ^ 64 -> one_line_text status ->
  http_text code status body (emit pg po HTTP fill (WHttp code status body)).
Proof. intros pg po fill. exact http_reply_text. Qed.
Theorem C38_http_unique : forall c st b s c' st' b' t x y, http_text c st b s -> http_text c' st' b' t -> s ++ x = t ++ y ->
  c = c' /\ st = st' /\ b = b' /\ x = y.
Proof. exact http_unique. Qed.

(** Memcache: the items found by "get" and "gets" can be read back, whatever
    their values contain. *)
Theorem C38_memcache : forall dec pg po fill withcas l, prints dec ->
  Forall (fun p => forall v, snd p = Some v -> view_fits v) l ->
  founds_text (finds withcas l) (emits pg po MEMCACHE fill (mget_reply dec MEMCACHE withcas l)).
Proof. exact mget_founds. Qed.
Theorem C38_memcache_unique : forall l s m t x y, founds_text l s -> founds_text m t ->
  Forall (fun a => plain_key (found_key a)) l -> Forall (fun a => plain_key (found_key a)) m -> s ++ x = t ++ y -> l = m /\ x = y.
Proof. exact founds_unique. Qed.

(** Postgres: rows, their descriptions, the ends of commands and errors can be
    read back. *)
Theorem C38_postgres : forall pg po ws items fill, po_execute po = false -> po_oid po < 2 ^ 32 -> Forall2 pmeans ws items ->
  pitems_text (po_oid po) (concat items) (emits pg po POSTGRES fill ws).
Proof. exact emits_pitems. Qed.
Theorem C38_postgres_unique : forall oid l m s, pitems_text oid l s -> pitems_text oid m s -> l = m.
Proof. intros oid l m s A B. exact (pitems_unique oid l s m s A B eq_refl). Qed.

(** * Cases *)
Definition no_pages : pages := mkPages [] [].
Definition text_out : pgout := mkPgout false 25.
Example C38_resp_case : Forall2 means [WArray 3; WBulk (bs "$-1" ++ crlf); WNull; WInt (-5); WUint 7; WError (bs "ERR no")]
  [IArray 3; IBulk (bs "$-1" ++ crlf); INull; IInt (-5); IString (bs "7"); IError (bs "ERR no")].
Proof.
  repeat constructor; unfold i64_ok, INT64_MIN, INT64_MAX; try lia; try (intro Q; discriminate Q).
Qed.
Example C38_resp_bytes : emits no_pages text_out RESP 0 [WArray 2; WBulk (bs "a" ++ crlf); WNull]
  = bs "*2" ++ crlf ++ bs "$3" ++ crlf ++ bs "a" ++ crlf ++ crlf ++ bs "$-1" ++ crlf.
Proof. reflexivity. Qed.
Example C38_http_case : http_text 200 (bs "OK") (crlf ++ crlf) (emit no_pages text_out HTTP 9 (WHttp 200 (bs "OK") (crlf ++ crlf))).
Proof. apply C38_http; [reflexivity|reflexivity|repeat constructor; discriminate]. Qed.
Example C38_memcache_case :
  founds_text [(bs "k", 5, Some 9, bs "END" ++ crlf)]
    (emits no_pages text_out MEMCACHE 0 (mget_reply u64toa MEMCACHE true [(bs "a", None); (bs "k", Some (mkView (bs "END" ++ crlf) 0 5 9))])).
Proof.
  refine (C38_memcache u64toa no_pages text_out 0 true [(bs "a", None); (bs "k", Some (mkView (bs "END" ++ crlf) 0 5 9))] _ _).
  - intros x H. exact (u64toa_canonical x H).
  - constructor; [intros v E; discriminate E|]. constructor; [|constructor].
    intros v E. cbn [snd] in E. assert (Ev : v = mkView (bs "END" ++ crlf) 0 5 9) by congruence. subst v. repeat split.
Qed.
Example C38_postgres_case : Forall2 pmeans [PRowDesc [bs "value"]; PRow [[0; 68; 255]; []]; PComplete (bs "GET 1"); PReady; WError (bs "ERR bad")]
  [[PIRows [bs "value"]]; [PIRow [[0; 68; 255]; []]]; [PIComplete (bs "GET 1")]; [PIReady]; [PIError (bs "bad"); PIReady]].
Proof.
  constructor; [apply pmean_rows; [reflexivity|repeat constructor; discriminate|reflexivity]|].
  constructor; [apply pmean_row; reflexivity|].
  constructor; [apply pmean_complete; [repeat constructor; discriminate|reflexivity]|].
  constructor; [apply pmean_ready|].
  constructor; [apply (pmean_err (bs "bad")); [repeat constructor; discriminate|reflexivity]|constructor].
Qed.
Example C38_postgres_bytes : emits no_pages text_out POSTGRES 0 [PRow [[0; 68; 255]; []]]
  = [68; 0; 0; 0; 17; 0; 2; 0; 0; 0; 3; 0; 68; 255; 0; 0; 0; 0].
Proof. reflexivity. Qed.

(** * What does not hold *)
(** That one reply is one reply to the client, whatever the client asked: the name
    of an unknown command is repeated with its line breaks once the output buffer
    holds more than the message, so the client reads a second reply. *)
Theorem C38_injection_refuted :
  ~ (forall cf name w pg po fill, evcommand cf true RESP [name] = answer [w] ->
     exists i, items_text [i] (emit pg po RESP fill w)).
Proof.
  intro H.
  destruct (H (mkConfig false [] 16 [] 10) (bs "x" ++ crlf ++ bs "+OK")
    (WError (bs "ERR unknown command 'x" ++ crlf ++ bs "+OK'")) no_pages text_out 100%nat eq_refl) as [i I].
  assert (J : items_text [IError (bs "ERR unknown command 'x"); IString (bs "OK'")]
    (emit no_pages text_out RESP 100 (WError (bs "ERR unknown command 'x" ++ crlf ++ bs "+OK'")))).
  { exists [bs "-ERR unknown command 'x" ++ crlf; bs "+OK'" ++ crlf]. split; [|reflexivity].
    constructor; [|constructor; [|constructor]].
    - apply (text_error (bs "ERR unknown command 'x")). repeat constructor; discriminate.
    - apply (text_string (bs "OK'")). repeat constructor; discriminate. }
  discriminate (C38_resp_unique _ _ _ I J).
Qed.
(** Even in an empty buffer the last byte is left as it is. *)
Theorem C38_last_byte_refuted :
  ~ (forall cf name w pg po, evcommand cf true RESP [name] = answer [w] ->
     exists s, emit pg po RESP 0 w = s ++ crlf /\ one_line_text s).
Proof.
  intro H.
  destruct (H (mkConfig false [] 16 [] 10) (repeat 97 233 ++ [10; 10])
    (WError (bs "ERR unknown command '" ++ repeat 97 233 ++ [10])) no_pages text_out eq_refl) as (s & E & L).
  assert (J : exists t, emit no_pages text_out RESP 0 (WError (bs "ERR unknown command '" ++ repeat 97 233 ++ [10])) = t ++ [10] ++ crlf).
  { exists (bs "-ERR unknown command '" ++ repeat 97 233). vm_compute. reflexivity. }
  destruct J as [t J]. rewrite J in E. rewrite app_assoc in E. apply app_inv_tail in E. subst s.
  apply Forall_app in L. destruct L as [_ L]. inversion L as [|? ? [_ N] _]. congruence.
Qed.
