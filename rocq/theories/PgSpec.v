(** The vocabulary of the properties of the Postgres protocol (C41): the text of
    queries and the layout of messages, independent of the code. *)
From Verif Require Import Base Types Text IntText CmdTable Prog ReplySpec.
From Coq Require Import String.
Local Open Scope N_scope.
Notation length := List.length.
Notation concat := List.concat.

(** * The text of a query *)
Definition blanks (s : bytes) : Prop := Forall (fun b => is_space b = true) s.
(** What may stand in a word without quotes. *)
Definition bare_char (b : byte) : Prop :=
  is_space b = false /\ b <> 59 /\ b <> 39 /\ b <> 34 /\ b <> 36 /\ b <> 0.

(** UTF-8 of the code points that one "\u" escape can name. *)
Definition utf8 (cp : N) : bytes :=
  if cp <? 128 then [cp]
  else if cp <? 2048 then [192 + cp / 64; 128 + cp mod 64]
  else [224 + cp / 4096; 128 + cp / 64 mod 64; 128 + cp mod 64].
(** A hexadecimal digit and its value. *)
Definition hex_value (c : byte) (x : N) : Prop :=
  (48 <= c <= 57 /\ x = c - 48) \/ (97 <= c <= 102 /\ x = c - 97 + 10) \/ (65 <= c <= 70 /\ x = c - 65 + 10).
(** The text between the quotes of an E string and what it stands for. *)
Inductive escapes : bytes -> bytes -> Prop :=
| esc_nil : escapes [] []
| esc_plain : forall c s t, c <> 39 -> c <> 92 -> c <> 0 -> escapes s t -> escapes (c :: s) (c :: t)
| esc_letter : forall c x s t, In (c, x) [(92, 92); (47, 47); (98, 8); (102, 12); (110, 10); (114, 13); (116, 9); (34, 34)] ->
    escapes s t -> escapes (x :: s) (92 :: c :: t)
| esc_unicode : forall a b c d x y z w s t, hex_value a x -> hex_value b y -> hex_value c z -> hex_value d w ->
    ~ (55296 <= x * 4096 + y * 256 + z * 16 + w < 57344) ->
    escapes s t -> escapes (utf8 (x * 4096 + y * 256 + z * 16 + w) ++ s) (92 :: 117 :: a :: b :: c :: d :: t).

(** The parts of words: as they are, in quotes, in quotes after E, and
    parameters. *)
Inductive part :=
| Bare (s : bytes) | Quoted (s : bytes) | Escaped (s text : bytes) | Param (n : N).
Inductive part_text : part -> bytes -> Prop :=
| bare_text : forall s, s <> [] -> Forall bare_char s -> part_text (Bare s) s
| quoted_text : forall s, Forall (fun b => b <> 39 /\ b <> 0) s -> part_text (Quoted s) (bs "'" ++ s ++ bs "'")
| escaped_text : forall e s t, e = 69 \/ e = 101 -> escapes s t -> part_text (Escaped s t) (e :: bs "'" ++ t ++ bs "'")
| param_text : forall n ds, 0 < n < 65536 -> canonical ds n -> part_text (Param n) (bs "$" ++ ds).
(** Which part may follow another without a blank: the text would otherwise be
    read differently. *)
Definition follows (p q : part) : Prop :=
  match p, q with
  | Bare _, Bare _ | Bare _, Escaped _ _ | Quoted _, Quoted _ => False
  | Bare s, Quoted _ => s <> [69] /\ s <> [101]
  | Param _, Bare s => is_digit (hd 0 s) = false
  | _, _ => True
  end.
(** A query: parts, each with its text and with the blanks after it. *)
Definition token : Type := part * bytes * bytes.
Inductive tokens : list token -> Prop :=
| no_token : tokens []
| last_token : forall p t sp, part_text p t -> blanks sp -> tokens [(p, t, sp)]
| more_tokens : forall p t sp q u sq l, part_text p t -> blanks sp -> (sp = [] -> follows p q) ->
    tokens ((q, u, sq) :: l) -> tokens ((p, t, sp) :: (q, u, sq) :: l).
Definition token_part (k : token) : part := fst (fst k).
Definition tokens_text (l : list token) : bytes := concat (map (fun k : token => snd (fst k) ++ snd k) l).
(** The whole text: blanks before, semicolons after. *)
Definition query_text (l : list token) (s : bytes) : Prop :=
  tokens l /\ exists sp semi, blanks sp /\ Forall (fun b => b = 59) semi /\ s = sp ++ tokens_text l ++ semi.

(** What a part stands for, with the values of the parameters. *)
Definition part_value (params : list bytes) (p : part) : bytes :=
  match p with
  | Bare s | Quoted s | Escaped s _ => s
  | Param n => nth (N.to_nat (n - 1)) params []
  end.
(** The words of a query: parts with no blank between them. *)
Fixpoint words (l : list token) : list (list part) :=
  match l with
  | [] => []
  | (p, _, sp) :: r =>
      match sp, words r with
      | [], w :: ws => (p :: w) :: ws
      | _, ws => [p] :: ws
      end
  end.
Definition word_value (params : list bytes) (w : list part) : bytes := concat (map (part_value params) w).
(** The numbers of the parameters, in the order of the text. *)
Definition param_numbers (l : list token) : list N :=
  flat_map (fun k => match token_part k with Param n => [n] | _ => [] end) l.
(** Every number from 1 on occurs, each once. *)
Definition numbered (ns : list N) : Prop :=
  NoDup ns /\ forall i, In i ns <-> 1 <= i <= N.of_nat (length ns).

(** * Messages *)
(** A string with its end. *)
Definition zstr (s t : bytes) : Prop := no_nul s /\ t = s ++ [0].
(** A number of so many bytes. *)
Definition big (n : nat) (x : N) (s : bytes) : Prop := length s = n /\ bytes_ok s /\ number_of s = x.
Definition name_ok (s : bytes) : Prop := no_nul s /\ (length s < 64)%nat.
(** The message "Parse" of a statement. *)
Definition parse_msg (name query s : bytes) : Prop :=
  exists cnt types body, no_nul query /\ name_ok name /\
    big 2 (N.of_nat (length types)) cnt /\ Forall (fun t => length t = 4%nat) types /\
    body = name ++ [0] ++ query ++ [0] ++ cnt ++ concat types /\ N.of_nat (length body) < 2 ^ 30 /\ pg_message 80 body s.
(** The message "Bind" of a portal. *)
Definition bind_msg (portal name : bytes) (params : list bytes) (s : bytes) : Prop :=
  exists nf fs np ps nr rs body, name_ok portal /\ name_ok name /\
    big 2 (N.of_nat (length fs)) nf /\ N.of_nat (length fs) < 2 ^ 15 /\ Forall (fun f => big 2 0 f \/ big 2 1 f) fs /\
    big 2 (N.of_nat (length params)) np /\ pg_columns params ps /\
    big 2 (N.of_nat (length rs)) nr /\ Forall (fun f => length f = 2%nat) rs /\
    body = portal ++ [0] ++ name ++ [0] ++ nf ++ concat fs ++ np ++ ps ++ nr ++ concat rs /\
    N.of_nat (length body) < 2 ^ 30 /\ pg_message 66 body s.
(** The message "Execute". *)
Definition execute_msg (portal s : bytes) : Prop :=
  exists rows, name_ok portal /\ length rows = 4%nat /\ pg_message 69 (portal ++ [0] ++ rows) s.
(** The message "Query". *)
Definition query_msg (query s : bytes) : Prop :=
  no_nul query /\ N.of_nat (length query) < 2 ^ 30 /\ pg_message 81 (query ++ [0]) s.
(** The message "PasswordMessage". *)
Definition password_msg (pw s : bytes) : Prop :=
  no_nul pw /\ N.of_nat (length pw) < 2 ^ 30 /\ pg_message 112 (pw ++ [0]) s.
(** The message "Sync". *)
Definition sync_msg (s : bytes) : Prop := pg_message 83 [] s.
(** The first message: names and values of settings. *)
Definition startup_msg (settings : list (bytes * bytes)) (s : bytes) : Prop :=
  exists len magic, big 4 (N.of_nat (length s)) len /\ big 4 196608 magic /\ N.of_nat (length s) <= 65536 /\
    Forall (fun p => no_nul (fst p) /\ no_nul (snd p) /\ fst p <> [] /\ snd p <> []) settings /\
    s = len ++ magic ++ concat (map (fun p => fst p ++ [0] ++ snd p ++ [0]) settings) ++ [0].

(** * A session *)
Inductive cmsg :=
| MParse (name : bytes) (l : list token) | MBind (portal name : bytes) (params : list bytes)
| MExecute (portal : bytes) | MQuery (l : list token) | MSync.
Definition cmsg_text (m : cmsg) (s : bytes) : Prop :=
  match m with
  | MParse name l => exists q, query_text l q /\ numbered (param_numbers l) /\ l <> [] /\ parse_msg name q s
  | MBind portal name params => bind_msg portal name params s
  | MExecute portal => execute_msg portal s
  | MQuery l => exists q, query_text l q /\ numbered (param_numbers l) /\ query_msg q s
  | MSync => sync_msg s
  end.
(** What the server remembers: the statements and the portals by their names. *)
Record sess := mkSess { ss_stmts : bytes -> option (list token); ss_portals : bytes -> option (bytes * list bytes) }.
Definition no_sess : sess := mkSess (fun _ => None) (fun _ => None).
Definition keep {A} (f : bytes -> option A) (name : bytes) (a : A) : bytes -> option A :=
  fun x => if beq x name then Some a else f x.
(** What it answers. *)
Inductive pg_answer := AParsed | ABound | AEmpty | AReady | AError (msg : bytes) | ACommand (args : list bytes).
Definition sess_step (s : sess) (m : cmsg) : sess * pg_answer :=
  match m with
  | MParse name l => (mkSess (keep (ss_stmts s) name l) (ss_portals s), AParsed)
  | MBind portal name params => (mkSess (ss_stmts s) (keep (ss_portals s) portal (name, params)), ABound)
  | MExecute portal =>
      (s, match ss_portals s portal with
          | None => AError (bs "portal not found")
          | Some (name, params) =>
              match ss_stmts s name with
              | None => AError (bs "statement not found")
              | Some l =>
                  if (length params =? length (param_numbers l))%nat then ACommand (map (word_value params) (words l))
                  else AError (bs "portal params mismatch")
              end
          end)
  | MQuery l =>
      (s, match param_numbers l, l with
          | _ :: _, _ => AError (bs "query cannot have parameters")
          | [], [] => AEmpty
          | [], _ => ACommand (map (fun k => part_value [] (token_part k)) l)
          end)
  | MSync => (s, AReady)
  end.
Fixpoint sess_answers (s : sess) (ms : list cmsg) : list pg_answer :=
  match ms with [] => [] | m :: r => let '(s', a) := sess_step s m in a :: sess_answers s' r end.
(** The commands that the server answers by itself, and the others. *)
Definition plain (args : list bytes) : Prop :=
  match args with
  | [] => False
  | w :: _ => ~ In (map tolower w) [bs "begin"; bs "rollback"; bs "commit"] /\ firstn 2 w <> bs "::"
  end.
(** An answer as replies to write and a command to run. *)
Inductive shows_answer : pg_answer -> list wr -> option (list bytes) -> Prop :=
| show_parsed : shows_answer AParsed [WRaw [49; 0; 0; 0; 4]] None
| show_bound : shows_answer ABound [WRaw [50; 0; 0; 0; 4]] None
| show_empty : shows_answer AEmpty [WRaw [73; 0; 0; 0; 4]; WRaw [90; 0; 0; 0; 5; 73]] None
| show_ready : shows_answer AReady [PReady] None
| show_error : forall m, shows_answer (AError m) [WError m] None
| show_command : forall args, plain args -> shows_answer (ACommand args) [] (Some args)
| show_typed : forall w a args, In (map tolower w) [bs "::text"; bs "::bytea"; bs "::bytes"] ->
    shows_answer (ACommand (w :: a :: args)) [] (Some (a :: args))
| show_untyped : forall w tag, In (map tolower w, tag) [(bs "::text", bs "TEXT"); (bs "::bytea", bs "BYTEA"); (bs "::bytes", bs "BYTEA")] ->
    shows_answer (ACommand [w]) [PComplete tag; PReady] None
| show_block : forall w tag args, In (map tolower w, tag) [(bs "begin", bs "BEGIN"); (bs "rollback", bs "ROLLBACK"); (bs "commit", bs "COMMIT")] ->
    shows_answer (ACommand (w :: args)) [PComplete tag; PReady] None
| show_badtype : forall w ty args, firstn 2 w = bs "::" -> ~ In (map tolower w) [bs "::text"; bs "::bytea"; bs "::bytes"] ->
    shows_answer (ACommand (w :: args)) [WRaw ty; PReady] None.
