(** The memcache text protocol as its documentation describes it: what C39
    means. *)
From Verif Require Import Base Text IntText CmdSpec.
From Coq Require Import String.
Local Open Scope N_scope.
Notation length := List.length.
Notation concat := List.concat.

(** Words separated by single spaces; the line ends in a line feed, with or
    without a carriage return. *)
Definition text_word (w : bytes) : Prop := w <> [] /\ ~ In 32 w /\ ~ In 10 w /\ ~ In 13 w.
Fixpoint spaced (ws : list bytes) : bytes :=
  match ws with [] => [] | [w] => w | w :: r => w ++ [32] ++ spaced r end.
Definition line_of (ws : list bytes) (s : bytes) : Prop :=
  ws <> [] /\ Forall text_word ws /\ (s = spaced ws ++ [10] \/ s = spaced ws ++ [13; 10]).
(** A key: 1 to 250 bytes, no control characters, no spaces. *)
Definition mc_key (k : bytes) : Prop :=
  (1 <= length k <= 250)%nat /\ Forall (fun b => 32 < b /\ b <> 127) k.

(** The requests. [flags], [exptime] and so on are the texts of the numbers. *)
Inductive store_kind := KSet | KAdd | KReplace | KAppend | KPrepend.
Inductive mc_op :=
| OStore (k : store_kind) (key flags exptime size data : bytes)
| OCas (key flags exptime size cas data : bytes)
| OGet (keys : list bytes)
| OGets (keys : list bytes)
| ODelete (key : bytes)
| OIncr (key delta : bytes)
| ODecr (key delta : bytes)
| OTouch (key exptime : bytes)
| OFlush (delay : option bytes)
| OStats (what : list bytes)
| OVersion
| OQuit.
Definition store_name (k : store_kind) : bytes :=
  bs (match k with KSet => "set" | KAdd => "add" | KReplace => "replace" | KAppend => "append" | KPrepend => "prepend" end).

(** The words of the command line and the data block, if there is one. *)
Definition op_words (op : mc_op) : list bytes :=
  match op with
  | OStore k key flags exptime size _ => [store_name k; key; flags; exptime; size]
  | OCas key flags exptime size cas _ => [bs "cas"; key; flags; exptime; size; cas]
  | OGet keys => bs "get" :: keys
  | OGets keys => bs "gets" :: keys
  | ODelete key => [bs "delete"; key]
  | OIncr key d => [bs "incr"; key; d]
  | ODecr key d => [bs "decr"; key; d]
  | OTouch key e => [bs "touch"; key; e]
  | OFlush None => [bs "flush_all"]
  | OFlush (Some d) => [bs "flush_all"; d]
  | OStats what => bs "stats" :: what
  | OVersion => [bs "version"]
  | OQuit => [bs "quit"]
  end.
Definition op_block (op : mc_op) : bytes :=
  match op with
  | OStore _ _ _ _ _ data => data ++ crlf
  | OCas _ _ _ _ _ data => data ++ crlf
  | _ => []
  end.
(** Well-formed: valid keys, numbers where numbers belong, the size of the block
    is the number announced. The word "noreply" at the end of a line that could
    be either is taken as the option. *)
Definition sized (size data : bytes) : Prop :=
  int_text size (Z.of_nat (length data)) /\ N.of_nat (length data) <= 536870912.
Definition op_ok (op : mc_op) : Prop :=
  match op with
  | OStore _ key flags exptime size data =>
      mc_key key /\ (exists f, int_text flags f /\ (0 <= f)%Z) /\ (exists e, int_text exptime e) /\ sized size data
  | OCas key flags exptime size cas data =>
      mc_key key /\ (exists f, int_text flags f /\ (0 <= f)%Z) /\ (exists e, int_text exptime e) /\ sized size data /\
      (exists c, nat_text cas c)
  | OGet keys | OGets keys => keys <> [] /\ Forall mc_key keys
  | ODelete key => mc_key key /\ key <> bs "noreply"
  | OIncr key d | ODecr key d | OTouch key d => mc_key key /\ d <> bs "noreply"
  | OFlush (Some d) => d <> bs "noreply"
  | OFlush None | OStats _ | OVersion | OQuit => True
  end.
(** The commands that change something may be sent with "noreply". *)
Definition may_noreply (op : mc_op) : Prop :=
  match op with OGet _ | OGets _ | OStats _ | OVersion | OQuit => False | _ => True end.

(** The command each request stands for. Zero flags and a zero expiration time
    are left out. *)
Definition given (name : string) (t : bytes) : list bytes :=
  if beq t [48] then [] else [bs name; t].
Definition op_args (op : mc_op) : list bytes :=
  match op with
  | OStore KAppend key _ _ _ data => [bs "append"; key; data]
  | OStore KPrepend key _ _ _ data => [bs "prepend"; key; data]
  | OStore k key flags exptime _ data =>
      [bs "set"; key; data] ++ given "flags" flags ++ given "ex" exptime ++
      match k with KAdd => [bs "nx"] | KReplace => [bs "xx"] | _ => [] end
  | OCas key flags exptime _ cas data =>
      [bs "set"; key; data] ++ given "flags" flags ++ given "ex" exptime ++ [bs "cas"; cas]
  | OGet keys => bs "mget" :: keys
  | OGets keys => bs "mgets" :: keys
  | ODelete key => [bs "del"; key]
  | OIncr key d => [bs "uincrby"; key; d]
  | ODecr key d => [bs "udecrby"; key; d]
  | OTouch key e => [bs "expire"; key; e]
  | OFlush None => [bs "flushall"]
  | OFlush (Some d) => [bs "flushall"; bs "delay"; d]
  | OStats what => bs "stats" :: what
  | OVersion => [bs "version"]
  | OQuit => [bs "quit"]
  end.

(** [s] is the text of the request [op], with or without "noreply". *)
Definition mc_request (op : mc_op) (noreply : bool) (s : bytes) : Prop :=
  op_ok op /\ (noreply = true -> may_noreply op) /\
  exists l, line_of (op_words op ++ if noreply then [bs "noreply"] else []) l /\ s = l ++ op_block op.
(** The mark kept with the command; "quit" always carries it. *)
Definition silent (op : mc_op) (noreply : bool) : bool :=
  match op with OQuit => true | _ => noreply end.

(** *** What is accepted: one line and at most one data block *)
Definition one_line (l : bytes) : Prop := exists t, l = t ++ [10] /\ ~ In 10 t.
(** The commands without and with a data block. Each key in them is valid. *)
Definition plain_command (args : list bytes) : Prop :=
  exists name more, args = bs name :: more /\
    (((name = "mget" \/ name = "mgets") /\ more <> [] /\ Forall mc_key more) \/
     (name = "del" /\ exists key, more = [key] /\ mc_key key) \/
     ((name = "uincrby" \/ name = "udecrby" \/ name = "expire") /\ exists key d, more = [key; d] /\ mc_key key) \/
     ((name = "gat" \/ name = "gats") /\ exists e keys, more = e :: keys /\ keys <> [] /\ Forall mc_key keys) \/
     ((name = "flushall" \/ name = "version" \/ name = "quit" \/ name = "stats" \/ name = "verbosi")))%string.
Definition block_command (v : bytes) (args : list bytes) : Prop :=
  exists name key opts, args = [bs name; key; v] ++ opts /\ mc_key key /\
    ((name = "set" \/ name = "append" \/ name = "prepend"))%string.
