(** The grammar of RESP requests and of telnet lines: what C37 and C48 mean. *)
From Verif Require Import Base Text IntText.
Local Open Scope N_scope.
Notation length := List.length.

(** A number [x] in a header line: white space, "+", digits; at most 32 bytes and
    no carriage return. In particular its canonical form. *)
Definition head_number (t : bytes) (x : N) : Prop :=
  reads t false x /\ ~ In 13 t /\ (length t <= 32)%nat.

(** "$length CRLF bytes CRLF", with any bytes. *)
Definition bulk (a s : bytes) : Prop :=
  exists t, head_number t (N.of_nat (length a)) /\ N.of_nat (length a) <= 536870912 /\
    s = [36] ++ t ++ crlf ++ a ++ crlf.
(** "*count CRLF" and the arguments. *)
Definition request (args : list bytes) (s : bytes) : Prop :=
  exists t parts, head_number t (N.of_nat (length args)) /\ N.of_nat (length args) <= 100000 /\
    Forall2 bulk args parts /\ s = [42] ++ t ++ crlf ++ concat parts.

(** What is accepted besides: an empty text for 0, a negative count, and any two
    bytes after an argument. *)
Definition loose_number (t : bytes) (z : Z) : Prop :=
  (t = [] /\ z = 0%Z) \/ (~ In 13 t /\ exists neg x, reads t neg x /\ z = if neg then (- Z.of_N x)%Z else Z.of_N x).
Definition loose_bulk (a s : bytes) : Prop :=
  exists t x y, loose_number t (Z.of_nat (length a)) /\ s = [36] ++ t ++ crlf ++ a ++ [x; y].
Definition loose_request (args : list bytes) (s : bytes) : Prop :=
  exists t z parts, loose_number t z /\ Z.max 0 z = Z.of_nat (length args) /\
    Forall2 loose_bulk args parts /\ s = [42] ++ t ++ crlf ++ concat parts.

(** *** Telnet *)
Definition blank (b : byte) : Prop := is_space b = true /\ b <> 10.
(** A byte that stands for itself outside quotes. *)
Definition plain (b : byte) : Prop := is_space b = false /\ b <> 34 /\ b <> 39.
(** Inside quotes [q]: a byte for itself, or after a backslash, where n, r and t
    stand for line feed, carriage return and tabulator. *)
Inductive quoted_byte (q : byte) : byte -> bytes -> Prop :=
| qb_self : forall b, b <> 10 -> b <> q -> b <> 92 -> quoted_byte q b [b]
| qb_escaped : forall b, b <> 110 -> b <> 114 -> b <> 116 -> quoted_byte q b [92; b]
| qb_lf : quoted_byte q 10 [92; 110]
| qb_cr : quoted_byte q 13 [92; 114]
| qb_tab : quoted_byte q 9 [92; 116].
(** One argument: plain bytes, or plain bytes followed by a quoted part, which
    ends it. *)
Inductive token : bytes -> bytes -> Prop :=
| tk_plain : forall a, a <> [] -> Forall plain a -> token a a
| tk_quoted : forall pre q a parts, Forall plain pre -> q = 34 \/ q = 39 ->
    Forall2 (quoted_byte q) a parts -> token (pre ++ a) (pre ++ [q] ++ concat parts ++ [q]).
(** Arguments, each followed by at least one blank or the line feed. *)
Inductive line : list bytes -> bytes -> Prop :=
| ln_end : line [] [10]
| ln_blank : forall args b s, blank b -> line args s -> line args (b :: s)
| ln_last : forall a t, token a t -> line [a] (t ++ [10])
| ln_arg : forall a t args b s, token a t -> blank b -> line args s -> line (a :: args) (t ++ [b] ++ s).
Definition telnet_line (args : list bytes) (s : bytes) : Prop :=
  line args s /\ N.of_nat (length args) <= 100000 /\ Forall (fun a => N.of_nat (length a) <= 536870912) args.

(** Every argument has a quoted form. *)
Definition quote_byte (b : byte) : bytes :=
  if b =? 10 then [92; 110] else if b =? 13 then [92; 114] else if b =? 9 then [92; 116]
  else if (b =? 34) || (b =? 92) then [92; b] else [b].
Definition quote (a : bytes) : bytes := [34] ++ flat_map quote_byte a ++ [34].
