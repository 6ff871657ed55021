(** The HTTP protocol (http.c). *)
From Verif Require Import Base Types Shard Text IntText Prog Cmds.
From Coq Require Import String.
Local Open Scope N_scope.
Notation length := List.length.

(** What the parser returns: 0; -1 with a message; or the arguments of a command,
    after reading all the data. The HTTP version and the keep-alive mark are
    stored by the parser but used nowhere, and not modelled. [src/http.c:38-366 parse_http] *)
Inductive http_result :=
| HMore
| HErr (msg : bytes)
| HGot (args : list bytes).
(** [src/http.c:348-366], the labels *)
Definition badreq : http_result := HErr (bs "Bad Request").
(** As above: [src/http.c:348-366]. *)
Definition badkey : http_result := HErr (bs "Invalid Key").
(** As above: [src/http.c:348-366]. *)
Definition unauthorized : http_result := HErr (bs "Unauthorized").
(** As above: [src/http.c:348-366]. *)
Definition showhelp (html : bool) : http_result :=
  HErr (if html then bs "Show Help HTML" else bs "Show Help TEXT").

(** [src/http.c:24-36 http_valid_key]. A char is signed or not, depending on the
    machine; bytes from 128 on are excluded either way. *)
Definition http_valid (key : bytes) : bool :=
  negb ((length key =? 0)%nat || (250 <? length key)%nat)
  && forallb (fun b => negb ((b <=? 32) || (127 <=? b) || (b =? 37) || (b =? 43) || (b =? 64) || (b =? 36)
                             || (b =? 63) || (b =? 61))) key.

(** [src/http.c:59-85], the scans for the method and the path: up to a space, and
    none when a line feed or the end comes first. *)
Fixpoint until_space (d : bytes) : option (bytes * bytes) :=
  match d with
  | [] => None
  | b :: r =>
      if b =? 32 then Some ([], r)
      else if b =? 10 then None
      else match until_space r with Some (w, q) => Some (b :: w, q) | None => None end
  end.
(** [src/http.c:87-110], the scan for the end of the first line; memchr in
    [src/http.c:207] *)
Fixpoint split_at (c : byte) (d : bytes) : option (bytes * bytes) :=
  match d with
  | [] => None
  | b :: r => if b =? c then Some ([], r)
              else match split_at c r with Some (w, q) => Some (b :: w, q) | None => None end
  end.
(** [src/http.c:88-106], the version: "HTTP/", a digit, a period, a digit and a
    carriage return; from 0.9 to 2.9. *)
Definition http_version (line : bytes) : bool :=
  match line with
  | [72; 84; 84; 80; 47; a; 46; b; 13] =>
      is_digit a && is_digit b && let v := (a - 48) * 10 + (b - 48) in (9 <=? v) && (v <? 30)
  | _ => false
  end.

(** What the headers leave behind [src/http.c:48-53]: the length of the body,
    whether HTML is wanted, the value of the authorization header. *)
Record hstate := mkHState { h_len : N; h_html : bool; h_auth : bytes }.
(** memmem in [src/http.c:153] *)
Fixpoint has_prefix (p d : bytes) : bool :=
  match p, d with
  | [], _ => true
  | x :: p', y :: d' => (x =? y) && has_prefix p' d'
  | _, [] => false
  end.
(** As above: [src/http.c:153]. *)
Fixpoint contains (p d : bytes) : bool :=
  has_prefix p d || match d with [] => false | _ :: r => contains p r end.
(** [src/http.c:131-162], one header; [None] is badreq. The connection header only
    sets the keep-alive mark. *)
Definition header (st : hstate) (name value : bytes) : option hstate :=
  if is_word name "content-length" then
    match parse_u64 value with
    | Some x => if x <=? 536870912 then Some (mkHState x (h_html st) (h_auth st)) else None
    | None => None
    end
  else if is_word name "connection" then Some st
  else if is_word name "accept" then
    Some (mkHState (h_len st) (h_html st || contains (bs "text/html") value) (h_auth st))
  else if is_word name "authorization" then Some (mkHState (h_len st) (h_html st) value)
  else Some st.

(** [src/http.c:112-179], the loops over the headers as an automaton: reading a
    name, skipping the spaces after the colon, reading a value. *)
Inductive hmode := InName (name : bytes) | InSpaces (name : bytes) | InValue (name value : bytes).
(** As above: [src/http.c:112-179]. *)
Inductive hdrs_result := HdrMore | HdrBad | HdrBody (st : hstate) (rest : bytes).
(** As above: [src/http.c:112-179]. *)
Fixpoint headers (d : bytes) (m : hmode) (st : hstate) : hdrs_result :=
  match d with
  | [] => HdrMore
  | b :: r =>
      match m with
      | InName name => headers r (if b =? 58 then InSpaces name else InName (name ++ [b])) st
      | InSpaces name =>
          if b =? 32 then headers r (InSpaces name) st
          else if b =? 10 then HdrBad
          else headers r (InValue name [b]) st
      | InValue name value =>
          if b =? 10 then
            if last value 0 =? 13 then
              match header st name (removelast value) with
              | None => HdrBad
              | Some st' =>
                  match r with
                  | 13 :: r' => match r' with 10 :: body => HdrBody st' body | _ => HdrBad end
                  | _ => headers r (InName []) st'
                  end
              end
            else HdrBad
          else headers r (InValue name (value ++ [b])) st
      end
  end.

(** [src/http.c:218-268], the loop over the query string: the pairs of a name and
    a value, if there is one. A name without a value at the end of the string
    takes its last byte with it, even if that is "&". *)
Fixpoint query_pairs (q name : bytes) (value : option bytes) : list (bytes * option bytes) :=
  match q, value with
  | [], None => []
  | [], Some v => [(name, Some v)]
  | b :: r, Some v => if b =? 38 then (name, Some v) :: query_pairs r [] None else query_pairs r name (Some (v ++ [b]))
  | b :: r, None =>
      if b =? 61 then query_pairs r name (Some [])
      else match r with
           | [] => [(name ++ [b], None)]
           | _ => if b =? 38 then (name, None) :: query_pairs r [] None else query_pairs r (name ++ [b]) None
           end
  end.
(** What the query leaves behind [src/http.c:193-203], [233-257]. *)
Record qstate := mkQState { q_ex : option bytes; q_flags : option bytes; q_cas : option bytes; q_auth : option bytes;
  q_xx : bool; q_nx : bool }.
(** As above: [src/http.c:193-203]. *)
Definition query_pair (st : qstate) (p : bytes * option bytes) : qstate :=
  let (name, v) := p in
  if beq name (bs "flags") then mkQState (q_ex st) v (q_cas st) (q_auth st) (q_xx st) (q_nx st)
  else if beq name (bs "ex") || beq name (bs "ttl") then mkQState v (q_flags st) (q_cas st) (q_auth st) (q_xx st) (q_nx st)
  else if beq name (bs "cas") then mkQState (q_ex st) (q_flags st) v (q_auth st) (q_xx st) (q_nx st)
  else if beq name (bs "xx") then mkQState (q_ex st) (q_flags st) (q_cas st) (q_auth st) true (q_nx st)
  else if beq name (bs "nx") then mkQState (q_ex st) (q_flags st) (q_cas st) (q_auth st) (q_xx st) true
  else if beq name (bs "auth") then mkQState (q_ex st) (q_flags st) (q_cas st) v (q_xx st) (q_nx st)
  else st.
(** As above: [src/http.c:193-203]. *)
Definition query_of (q : bytes) : qstate :=
  fold_left query_pair (query_pairs q [] None) (mkQState None None None None false false).

(** [src/http.c:260-345], the options of a command from the query *)
Definition http_opt (name : string) (v : option bytes) : list bytes :=
  match v with Some x => [bs name; x] | None => [] end.
(** [src/http.c:324-346], the authorization check around the arguments *)
Definition http_auth (cf : config) (st : hstate) (q : qstate) (args : list bytes) : http_result :=
  let check (v : bytes) :=
    if (cf_useauth cf || negb (beq v [])) && negb (beq v (cf_password cf)) then unauthorized else HGot args in
  match q_auth q with
  | Some (x :: v) => check (x :: v)
  | _ =>
      match h_auth st with
      | [] => check []
      | h => if has_prefix (bs "Bearer ") h then check (skipn 7 h) else unauthorized
      end
  end.
(** [src/http.c:270-322], the command of a method *)
Definition http_command (cf : config) (method key : bytes) (q : qstate) (st : hstate) (body : bytes) : http_result :=
  let at_sign := hd 0 key =? 64 in
  if beq method (bs "GET") then
    if at_sign then badreq
    else if beq key [] then showhelp (h_html st)
    else if negb (http_valid key) then badkey
    else http_auth cf st q [bs "get"; key]
  else if beq method (bs "PUT") then
    if at_sign then badreq
    else if negb (http_valid key) then badkey
    else http_auth cf st q
      ([bs "set"; key; body] ++ http_opt "cas" (q_cas q) ++ http_opt "ex" (q_ex q) ++ http_opt "flags" (q_flags q)
       ++ (if q_xx q then [bs "xx"] else []) ++ (if q_nx q then [bs "nx"] else []))
  else if beq method (bs "DELETE") then
    if at_sign then badreq
    else if negb (http_valid key) then badkey
    else http_auth cf st q [bs "del"; key]
  else badreq.

(** [src/http.c:38-367 parse_http] *)
Definition parse_http (cf : config) (data : bytes) : http_result :=
  match until_space data with
  | None => badreq
  | Some (method, d1) =>
  match until_space d1 with
  | None => badreq
  | Some (uri, d2) =>
  match split_at 10 d2 with
  | None => badreq
  | Some (line, d3) =>
  if negb (http_version line) then badreq
  else match headers d3 (InName []) (mkHState 0 false []) with
  | HdrMore => HMore
  | HdrBad => badreq
  | HdrBody st d4 =>
      if (length d4 <? N.to_nat (h_len st))%nat then HMore
      else match uri with
      | 47 :: path =>
          let body := firstn (N.to_nat (h_len st)) d4 in
          match split_at 63 path with
          | None => http_command cf method path (query_of []) st body
          | Some (key, q) => http_command cf method key (query_of q) st body
          end
      | _ => badreq
      end
  end end end end.
