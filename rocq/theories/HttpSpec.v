(** HTTP requests and the commands they stand for: what C40 means. *)
From Verif Require Import Base Text IntText CmdTable CmdSpec.
From Coq Require Import String.
Local Open Scope N_scope.
Notation length := List.length.
Notation concat := List.concat.

(** A request: method, key, query pairs, version digits, headers (name, number of
    spaces after the colon, value) and body. *)
Record http_req := mkReq {
  r_method : bytes;
  r_key : bytes;
  r_query : list (bytes * option bytes);
  r_major : byte; r_minor : byte;
  r_headers : list (bytes * nat * bytes);
  r_body : bytes
}.

(** *** Its text *)
Definition pair_text (p : bytes * option bytes) : bytes :=
  fst p ++ match snd p with Some v => [61] ++ v | None => [] end.
Fixpoint joined_by (sep : bytes) (l : list bytes) : bytes :=
  match l with [] => [] | [x] => x | x :: r => x ++ sep ++ joined_by sep r end.
Definition query_text (q : list (bytes * option bytes)) : bytes :=
  match q with [] => [] | _ => [63] ++ joined_by [38] (map pair_text q) end.
Definition header_text (h : bytes * nat * bytes) : bytes :=
  let '(name, spaces, value) := h in name ++ [58] ++ repeat 32 spaces ++ value ++ crlf.
Definition first_line (r : http_req) : bytes :=
  r_method r ++ [32; 47] ++ r_key r ++ query_text (r_query r) ++ bs " HTTP/" ++ [r_major r; 46; r_minor r] ++ crlf.
Definition head_text (r : http_req) : bytes := first_line r ++ concat (map header_text (r_headers r)).
Definition req_text (r : http_req) : bytes := head_text r ++ crlf ++ r_body r.

(** *** Well-formed requests *)
Definition http_key (k : bytes) : Prop :=
  (1 <= length k <= 250)%nat /\
  Forall (fun b => 32 < b /\ b < 127 /\ ~ In b (bs "%+@$?=")) k.
Definition free_of (l : list byte) (s : bytes) : Prop := forall b, In b l -> ~ In b s.
Definition pair_ok (p : bytes * option bytes) : Prop :=
  fst p <> [] /\ free_of [61; 38; 32; 10] (fst p) /\
  match snd p with Some v => free_of [38; 32; 10] v | None => True end.
Definition header_ok (h : bytes * nat * bytes) : Prop :=
  let '(name, _, value) := h in
  name <> [] /\ free_of [58; 10; 13] name /\ free_of [10] value /\ hd 0 value <> 32.
Definition names (w : string) (h : bytes * nat * bytes) : bool := beq (lower (fst (fst h))) (bs w).
Definition content_lengths_ok (hs : list (bytes * nat * bytes)) : Prop :=
  forall h, In h hs -> names "content-length" h = true -> exists x, nat_text (snd h) x /\ x <= 536870912.
(** The last header with a name wins. *)
Definition last_header (w : string) (hs : list (bytes * nat * bytes)) : option bytes :=
  match find (names w) (rev hs) with Some h => Some (snd h) | None => None end.
Definition body_ok (r : http_req) : Prop :=
  match last_header "content-length" (r_headers r) with
  | Some t => nat_text t (N.of_nat (length (r_body r)))
  | None => r_body r = []
  end.
Definition version_ok (a b : byte) : Prop :=
  is_digit a = true /\ is_digit b = true /\ ((a = 48 /\ b = 57) \/ a = 49 \/ a = 50).
Definition req_ok (r : http_req) : Prop :=
  (r_method r = bs "GET" \/ r_method r = bs "PUT" \/ r_method r = bs "DELETE") /\
  http_key (r_key r) /\ Forall pair_ok (r_query r) /\ version_ok (r_major r) (r_minor r) /\
  r_headers r <> [] /\ Forall header_ok (r_headers r) /\ content_lengths_ok (r_headers r) /\ body_ok r.

(** *** What it stands for *)
(** The value of the last pair with one of these names. *)
Definition last_value (ns : list string) (q : list (bytes * option bytes)) : option bytes :=
  match find (fun p => existsb (fun n => beq (fst p) (bs n)) ns) (rev q) with
  | Some p => snd p
  | None => None
  end.
Definition given_opt (name : string) (v : option bytes) : list bytes :=
  match v with Some x => [bs name; x] | None => [] end.
Definition req_args (r : http_req) : list bytes :=
  if beq (r_method r) (bs "GET") then [bs "get"; r_key r]
  else if beq (r_method r) (bs "DELETE") then [bs "del"; r_key r]
  else [bs "set"; r_key r; r_body r]
    ++ given_opt "cas" (last_value ["cas"%string] (r_query r))
    ++ given_opt "ex" (last_value ["ex"%string; "ttl"%string] (r_query r))
    ++ given_opt "flags" (last_value ["flags"%string] (r_query r))
    ++ (if existsb (fun p => beq (fst p) (bs "xx")) (r_query r) then [bs "xx"] else [])
    ++ (if existsb (fun p => beq (fst p) (bs "nx")) (r_query r) then [bs "nx"] else []).

(** The password a request presents: the "auth" value of the query, or else a
    bearer token; empty if there is neither. *)
Inductive presents (r : http_req) : bytes -> Prop :=
| pr_query : forall t, last_value ["auth"%string] (r_query r) = Some t -> t <> [] -> presents r t
| pr_bearer : forall t, (last_value ["auth"%string] (r_query r) = None \/ last_value ["auth"%string] (r_query r) = Some []) ->
    last_header "authorization" (r_headers r) = Some (bs "Bearer " ++ t) -> presents r t
| pr_none : (last_value ["auth"%string] (r_query r) = None \/ last_value ["auth"%string] (r_query r) = Some []) ->
    (last_header "authorization" (r_headers r) = None \/ last_header "authorization" (r_headers r) = Some []) -> presents r [].
(** With a password configured it must be presented; without, a password that is
    presented must be the configured one. *)
Definition authorized (useauth : bool) (password : bytes) (r : http_req) : Prop :=
  exists t, presents r t /\ (t = password \/ (useauth = false /\ t = [])).

(** *** What is accepted *)
(** The password stands in the text, in a bearer token or in the query. *)
Definition shows (s t : bytes) : Prop :=
  exists a b, s = a ++ bs "Bearer " ++ t ++ crlf ++ b \/ exists c, (c = 38 \/ c = 32) /\ s = a ++ bs "auth=" ++ t ++ c :: b.
(** The command of a method. *)
Definition http_shape (method key body : bytes) (args : list bytes) : Prop :=
  (method = bs "GET" /\ args = [bs "get"; key]) \/ (method = bs "DELETE" /\ args = [bs "del"; key]) \/
  (method = bs "PUT" /\ exists opts, args = [bs "set"; key; body] ++ opts).
