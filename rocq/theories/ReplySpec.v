(** The vocabulary of the properties of replies (C38): the grammars of the
    protocols, independent of the code. *)
From Verif Require Import Base Types Text IntText Observe Prog CmdSpec.
From Coq Require Import String.
Local Open Scope N_scope.
Notation length := List.length.
Notation concat := List.concat.

(** The replies of the Redis protocol. *)
Inductive item :=
| IError (s : bytes) | IString (s : bytes) | INull | IBulk (s : bytes) | IInt (z : Z) | IArray (n : N).
(** A line of text. *)
Definition one_line_text (s : bytes) : Prop := Forall (fun b => b <> 13 /\ b <> 10) s.
(** How they are written; the elements of an array follow its header. *)
Inductive item_text : item -> bytes -> Prop :=
| text_error : forall s, one_line_text s -> item_text (IError s) (bs "-" ++ s ++ crlf)
| text_string : forall s, one_line_text s -> item_text (IString s) (bs "+" ++ s ++ crlf)
| text_null : item_text INull (bs "$-1" ++ crlf)
| text_bulk : forall s n, canonical n (N.of_nat (length s)) -> item_text (IBulk s) (bs "$" ++ n ++ crlf ++ s ++ crlf)
| text_int : forall z n, decimal_text n z -> item_text (IInt z) (bs ":" ++ n ++ crlf)
| text_array : forall k n, canonical n k -> item_text (IArray k) (bs "*" ++ n ++ crlf).
(** A stream of replies. *)
Definition items_text (l : list item) (s : bytes) : Prop :=
  exists texts, Forall2 item_text l texts /\ s = concat texts.

(** No control characters, of which zero would end a string of C. *)
Definition printable (s : bytes) : Prop := Forall (fun b => 32 <= b) s.
(** What each reply of a command stands for. *)
Inductive means : wr -> item -> Prop :=
| mean_error : forall s, printable s -> means (WError s) (IError s)
| mean_string : forall s, printable s -> means (WString s) (IString s)
| mean_null : means WNull INull
| mean_bulk : forall s, N.of_nat (length s) < 2 ^ 64 -> means (WBulk s) (IBulk s)
| mean_int : forall z, i64_ok z -> means (WInt z) (IInt z)
| mean_array : forall n, n < 2 ^ 64 -> means (WArray n) (IArray n)
| mean_uint : forall n ds, n < 2 ^ 64 -> canonical ds n -> means (WUint n) (IString ds).

(** A response of HTTP that announces the length of its body. *)
Inductive http_text : N -> bytes -> bytes -> bytes -> Prop :=
| http_response : forall code status body c n,
    canonical c code -> canonical n (N.of_nat (length body)) -> one_line_text status ->
    http_text code status body
      (bs "HTTP/1.1 " ++ c ++ bs " " ++ status ++ crlf ++ bs "Content-Length: " ++ n ++ crlf
       ++ bs "Connection: Close" ++ crlf ++ crlf ++ body).

(** The value of bytes, highest first. *)
Definition number_of (s : bytes) : N := fold_left (fun a b => 256 * a + b) s 0.
(** A message of Postgres: a letter, the length with its own four bytes, the
    contents. *)
Inductive pg_message : byte -> bytes -> bytes -> Prop :=
| pg_msg : forall tag len body, length len = 4%nat -> bytes_ok len ->
    number_of len = 4 + N.of_nat (length body) -> pg_message tag body (tag :: len ++ body).
(** The columns of a row, each after its length. *)
Inductive pg_columns : list bytes -> bytes -> Prop :=
| pg_no_column : pg_columns [] []
| pg_column : forall c l len rest, length len = 4%nat -> bytes_ok len ->
    number_of len = N.of_nat (length c) -> pg_columns l rest -> pg_columns (c :: l) (len ++ c ++ rest).
(** A row. *)
Definition pg_row (cols : list bytes) (s : bytes) : Prop :=
  exists count rest, length count = 2%nat /\ bytes_ok count /\ number_of count = N.of_nat (length cols) /\
    pg_columns cols rest /\ pg_message 68 (count ++ rest) s.
(** The columns of a description of rows: the name and what is fixed, of which
    [oid] is the type. *)
Inductive pg_fields (oid : N) : list bytes -> bytes -> Prop :=
| pg_no_field : pg_fields oid [] []
| pg_field_ : forall c l ty rest, Forall (fun b => b <> 0) c -> length ty = 4%nat -> bytes_ok ty -> number_of ty = oid ->
    pg_fields oid l rest ->
    pg_fields oid (c :: l) (c ++ [0] ++ [0; 0; 0; 0] ++ [0; 0] ++ ty ++ [255; 255] ++ [255; 255; 255; 255] ++ [0; 1] ++ rest).
Definition pg_description (oid : N) (cols : list bytes) (s : bytes) : Prop :=
  exists count rest, length count = 2%nat /\ bytes_ok count /\ number_of count = N.of_nat (length cols) /\
    pg_fields oid cols rest /\ pg_message 84 (count ++ rest) s.
(** The replies of Postgres that commands write. *)
Inductive pitem :=
| PIRows (cols : list bytes) | PIRow (cols : list bytes) | PIComplete (tag : bytes) | PIReady | PIError (msg : bytes).
Inductive pitem_text (oid : N) : pitem -> bytes -> Prop :=
| ptext_rows : forall cols s, pg_description oid cols s -> pitem_text oid (PIRows cols) s
| ptext_row : forall cols s, pg_row cols s -> pitem_text oid (PIRow cols) s
| ptext_complete : forall tag s, Forall (fun b => b <> 0) tag -> pg_message 67 (tag ++ [0]) s -> pitem_text oid (PIComplete tag) s
| ptext_ready : forall s, pg_message 90 (bs "I") s -> pitem_text oid PIReady s
| ptext_error : forall m s, Forall (fun b => b <> 0) m ->
    pg_message 69 (bs "SERROR" ++ [0] ++ bs "VERROR" ++ [0] ++ bs "C23505" ++ [0] ++ bs "M" ++ m ++ [0; 0]) s ->
    pitem_text oid (PIError m) s.
Definition pitems_text (oid : N) (l : list pitem) (s : bytes) : Prop :=
  exists texts, Forall2 (pitem_text oid) l texts /\ s = concat texts.
Definition no_nul (s : bytes) : Prop := Forall (fun b => b <> 0) s.
(** What each reply of a command stands for. *)
Inductive pmeans : wr -> list pitem -> Prop :=
| pmean_rows : forall cols, N.of_nat (length cols) < 2 ^ 16 -> Forall no_nul cols ->
    N.of_nat (length (concat cols)) + 32 * N.of_nat (length cols) < 2 ^ 31 -> pmeans (PRowDesc cols) [PIRows cols]
| pmean_row : forall cols, N.of_nat (length cols) < 2 ^ 16 ->
    N.of_nat (length (concat cols)) + 8 * N.of_nat (length cols) < 2 ^ 31 -> pmeans (PRow cols) [PIRow cols]
| pmean_complete : forall tag, no_nul tag -> N.of_nat (length tag) < 2 ^ 30 -> pmeans (PComplete tag) [PIComplete tag]
| pmean_ready : pmeans PReady [PIReady]
| pmean_error : forall m, no_nul m -> N.of_nat (length m) < 2 ^ 30 ->
    (forall e, m <> bs "ERR " ++ e) -> pmeans (WError m) [PIError m; PIReady]
| pmean_err : forall m, no_nul m -> N.of_nat (length m) < 2 ^ 30 ->
    pmeans (WError (bs "ERR " ++ m)) [PIError m; PIReady].

(** One item of the answer to "get" and "gets" of memcache: the key, the flags, the
    token of "gets" and the value. *)
Definition found : Type := bytes * N * option N * bytes.
Inductive found_text : found -> bytes -> Prop :=
| found_get : forall key flags val f n, canonical f flags -> canonical n (N.of_nat (length val)) ->
    found_text (key, flags, None, val) (bs "VALUE " ++ key ++ bs " " ++ f ++ bs " " ++ n ++ crlf ++ val ++ crlf)
| found_gets : forall key flags cas val f n c, canonical f flags -> canonical n (N.of_nat (length val)) -> canonical c cas ->
    found_text (key, flags, Some cas, val) (bs "VALUE " ++ key ++ bs " " ++ f ++ bs " " ++ n ++ bs " " ++ c ++ crlf ++ val ++ crlf).
(** The whole answer. *)
Definition founds_text (l : list found) (s : bytes) : Prop :=
  exists texts, Forall2 found_text l texts /\ s = concat texts ++ bs "END" ++ crlf.
(** A key of memcache has no blanks and no control characters. *)
Definition plain_key (k : bytes) : Prop := Forall (fun b => 32 < b) k.
(** The items that a lookup of several keys finds. *)
Definition finds (withcas : bool) (l : list (bytes * option view)) : list found :=
  flat_map (fun p => match snd p with
    | Some v => [(fst p, v_flags v, if withcas then Some (v_cas v) else None, v_val v)]
    | None => []
    end) l.
