(** The memcache text protocol (memcache.c). *)
From Verif Require Import Base Types Shard Text IntText.
From Coq Require Import String.
Local Open Scope N_scope.
Notation length := List.length.

(** What the parser returns: 0; -1 with the message and where the next command
    starts (parse_lastmc_n); or the number of bytes read, the noreply mark and
    the arguments. [src/memcache.c:94-476 parse_memcache] *)
Inductive mc_result :=
| McMore
| McErr (msg : bytes) (n : nat)
| McGot (n : nat) (noreply : bool) (args : list bytes).

(** [src/conn.h:26-27] *)
Definition BAD_FORMAT : bytes := bs "CLIENT_ERROR bad command line format".
(** As above: [src/conn.h:26-27]. *)
Definition BAD_CHUNK : bytes := bs "CLIENT_ERROR bad data chunk".

(** [src/memcache.c:27-39 mc_valid_key], on a key *)
Definition mc_valid (key : bytes) : bool :=
  negb ((length key =? 0)%nat || (250 <? length key)%nat)
  && forallb (fun b => negb ((b <=? 32) || (b =? 127))) key.

(** [src/memcache.c:63-92 parse_memcache_telnet]. [last] is the last byte that
    was not a space; a line that ends in a carriage return, a space and a line
    feed makes the length of the last word wrap around, which is reported as
    trouble. *)
Fixpoint mc_telnet (data : bytes) (i : nat) (word : bytes) (last : byte) (args : list bytes)
  : out (option (nat * list bytes)) :=
  match data with
  | [] => Ok None
  | ch :: r =>
      if ch =? 32 then mc_telnet r (S i) [] last (args ++ [word])
      else if ch =? 10 then
        if last =? 13 then
          match word with
          | [] => Bad OutOfBounds
          | [_] => Ok (Some (S i, args))
          | _ => Ok (Some (S i, args ++ [removelast word]))
          end
        else match word with
          | [] => Ok (Some (S i, args))
          | _ => Ok (Some (S i, args ++ [word]))
          end
      else mc_telnet r (S i) (word ++ [ch]) ch args
  end.

(** An argument by its index; beyond the arguments of this command there are
    arguments of earlier commands, or the end of the array. [src/memcache.c:94-476], args->bufs[i] *)
Definition arg_at (args : list bytes) (i : nat) (k : bytes -> out mc_result) : out mc_result :=
  match nth_error args i with None => Bad OutOfBounds | Some a => k a end.
(** [src/parse.h:31-36 arg_const_eq] *)
Definition arg_is (a : bytes) (w : string) : bool := beq a (bs w).
(** [src/util.c:340-346 argi64, argu64] *)
Definition argi64 (args : list bytes) (i : nat) (ok : Z -> bool) (n : nat) (k : Z -> out mc_result) : out mc_result :=
  arg_at args i (fun a =>
  match parse_i64 a with
  | Some x => if ok x then k x else Ok (McErr BAD_FORMAT n)
  | None => Ok (McErr BAD_FORMAT n)
  end).
(** [src/memcache.c:94-476], the test of the length of a key *)
Definition valid_key (args : list bytes) (i : nat) (n : nat) (k : out mc_result) : out mc_result :=
  arg_at args i (fun a => if mc_valid a then k else Ok (McErr BAD_FORMAT n)).

(** The data block behind the line [src/memcache.c:143-154, 252-262]. *)
Definition mc_value (data : bytes) (n : nat) (x : Z) (k : nat -> bytes -> mc_result) : out mc_result :=
  let x := Z.to_nat x in
  if (length data - n <? x + 2)%nat then Ok McMore
  else
    let n' := (n + x + 2)%nat in
    Ok (match nth_error data (n' - 2), nth_error data (n' - 1) with
        | Some 13, Some 10 => k n' (firstn x (skipn n data))
        | _, _ => McErr BAD_CHUNK n'
        end).
(** [src/memcache.c:120, 158, 283, 288], the word "0"; [src/memcache.c:139, 231] the
    limits of a size, MAXARGSZ in src/conn.h *)
Definition is_zero (a : bytes) : bool := arg_is a "0".
(** As above: [src/memcache.c:139, 231]. *)
Definition size_ok (x : Z) : bool := negb ((x <? 0) || (x >? 536870912))%Z.

(** [src/memcache.c:41-53 enum mc_cmd] *)
Inductive mc_cmd := MC_SET | MC_ADD | MC_REPLACE | MC_APPEND | MC_PREPEND | MC_CAS | MC_INCR | MC_DECR
  | MC_FLUSH_ALL | MC_DELETE | MC_TOUCH | MC_VERBOSITY | MC_GET | MC_GETS | MC_GAT | MC_GATS
  | MC_VERSION | MC_STATS | MC_QUIT.
(** [src/memcache.c:55-61 is_mc_store_cmd, is_mc_noreplyable] *)
Definition is_store (c : mc_cmd) : bool :=
  match c with MC_SET | MC_ADD | MC_REPLACE | MC_APPEND | MC_PREPEND | MC_CAS => true | _ => false end.
(** As above: [src/memcache.c:55-61 is_mc_store_cmd, is_mc_noreplyable]. *)
Definition is_noreplyable (c : mc_cmd) : bool :=
  match c with
  | MC_GET | MC_GETS | MC_GAT | MC_GATS | MC_VERSION | MC_STATS | MC_QUIT => false
  | _ => true
  end.
(** [src/memcache.c:174-194], the lookup of the command name *)
Definition mc_lookup (a : bytes) : option mc_cmd :=
  if arg_is a "set" then Some MC_SET else if arg_is a "add" then Some MC_ADD
  else if arg_is a "cas" then Some MC_CAS else if arg_is a "replace" then Some MC_REPLACE
  else if arg_is a "get" then Some MC_GET else if arg_is a "delete" then Some MC_DELETE
  else if arg_is a "append" then Some MC_APPEND else if arg_is a "prepend" then Some MC_PREPEND
  else if arg_is a "gets" then Some MC_GETS else if arg_is a "incr" then Some MC_INCR
  else if arg_is a "decr" then Some MC_DECR else if arg_is a "touch" then Some MC_TOUCH
  else if arg_is a "gat" then Some MC_GAT else if arg_is a "gats" then Some MC_GATS
  else if arg_is a "flush_all" then Some MC_FLUSH_ALL else if arg_is a "stats" then Some MC_STATS
  else if arg_is a "version" then Some MC_VERSION else if arg_is a "quit" then Some MC_QUIT
  else if arg_is a "verbosity" then Some MC_VERBOSITY else None.

(** [src/memcache.c:215-302], the label set_plus and the rebuilding of the
    arguments. The condition before the label, [src/memcache.c:209-214], is never
    true. *)
Definition set_plus (cmd : mc_cmd) (data : bytes) (n : nat) (noreply : bool) (args : list bytes) : out mc_result :=
  valid_key args 1 n
  (argi64 args 2 (fun x => negb (x <? 0)%Z) n (fun _ =>
  argi64 args 3 (fun _ => true) n (fun _ =>
  argi64 args 4 size_ok n (fun x =>
  let finish (cas : option bytes) : out mc_result :=
    mc_value data n x (fun n' value =>
      let key := nth 1 args [] in let flags := nth 2 args [] in let exptime := nth 3 args [] in
      McGot n' noreply
        match cmd with
        | MC_APPEND => [bs "append"; key; value]
        | MC_PREPEND => [bs "prepend"; key; value]
        | _ =>
            [bs "set"; key; value]
            ++ (if is_zero flags then [] else [bs "flags"; flags])
            ++ (if is_zero exptime then [] else [bs "ex"; exptime])
            ++ (match cmd with MC_ADD => [bs "nx"] | MC_REPLACE => [bs "xx"] | _ => [] end)
            ++ (match cas with Some c => [bs "cas"; c] | None => [] end)
        end) in
  match cmd with
  | MC_CAS => arg_at args 5 (fun a =>
      match parse_u64 a with
      | None => Ok (McErr BAD_FORMAT n)
      | Some _ => finish (Some a)
      end)
  | _ => finish None
  end)))).

(** All arguments from index [i] on are valid keys [src/memcache.c:309-315]. *)
Definition keys_valid (args : list bytes) (i : nat) : bool := forallb mc_valid (skipn i args).

(** [src/memcache.c:94-476 parse_memcache]. [len] is the number of arguments;
    after a removed "noreply" the slot behind them is empty. *)
Definition mc_command (cmd : mc_cmd) (data : bytes) (n : nat) (args0 : list bytes) : out mc_result :=
  let noreply := is_noreplyable cmd && arg_is (last args0 []) "noreply" in
  let args := if noreply then removelast args0 else args0 in
  let slots := if noreply then args ++ [[]] else args in
  let len := length args in
  let wrong := Ok (McErr (bs "ERROR") n) in
  let bad := Ok (McErr BAD_FORMAT n) in
  let got (l : list bytes) := Ok (McGot n noreply l) in
  if is_store cmd then set_plus cmd data n noreply slots
  else match cmd with
  | MC_GET | MC_GETS =>
      if (len =? 1)%nat then wrong
      else if keys_valid args 1
      then got (bs (match cmd with MC_GET => "mget" | _ => "mgets" end) :: skipn 1 args) else bad
  | MC_DELETE =>
      if (len =? 1)%nat then wrong else if (2 <? len)%nat then bad
      else valid_key args 1 n (got [bs "del"; nth 1 args []])
  | MC_GAT | MC_GATS =>
      if (len <=? 2)%nat then wrong
      else argi64 args 2 (fun _ => true) n (fun _ =>
        if keys_valid args 2
        then got (bs (match cmd with MC_GAT => "gat" | _ => "gats" end) :: skipn 1 args) else bad)
  | MC_STATS => got (bs "stats" :: skipn 1 args)
  | MC_INCR | MC_DECR | MC_TOUCH =>
      if negb (len =? 3)%nat then wrong
      else valid_key args 1 n
        (got [bs (match cmd with MC_INCR => "uincrby" | MC_DECR => "udecrby" | _ => "expire" end);
              nth 1 args []; nth 2 args []])
  | MC_FLUSH_ALL =>
      if (2 <? len)%nat then wrong
      else if (len =? 2)%nat then got [bs "flushall"; bs "delay"; nth 1 args []] else got [bs "flushall"]
  | MC_QUIT => Ok (McGot n true [bs "quit"])
  | MC_VERSION => Ok (McGot n false [bs "version"])
  | MC_VERBOSITY =>
      if (2 <? len)%nat then wrong
      else arg_at slots 1 (fun a => got [bs "verbosi"; a])
  | _ => Ok (McErr [] n)
  end.
(** As above: [src/memcache.c:94-476 parse_memcache]. *)
Definition parse_memcache (data : bytes) : out mc_result :=
  match mc_telnet data 0 [] 0 [] with
  | Bad t => Bad t
  | Ok None => Ok McMore
  | Ok (Some (n, [])) => Ok (McGot n false [])
  | Ok (Some (n, (name :: _) as args)) =>
      if (length args =? 2)%nat && arg_is name "get" then
        arg_at args 1 (fun key =>
        if mc_valid key then Ok (McGot n false [bs "mget"; key])
        else Ok (McErr (match key with [] => [] | _ => BAD_FORMAT end) n))
      else if (length args =? 5)%nat && arg_is name "set" then
        arg_at args 2 (fun flags =>
        if is_zero flags then
          arg_at args 1 (fun key =>
          if negb (mc_valid key) then Ok (McErr (match key with [] => [] | _ => BAD_FORMAT end) n)
          else arg_at args 3 (fun exptime =>
          let size (ex : list bytes) :=
            argi64 args 4 size_ok n (fun x =>
            mc_value data n x (fun n' value => McGot n' false ([name; key; value] ++ ex))) in
          if is_zero exptime then size []
          else argi64 args 3 (fun _ => true) n (fun _ => size [bs "ex"; exptime])))
        else set_plus MC_SET data n false args)
      else match mc_lookup name with
      | None => Ok (McErr (bs "ERROR") n)
      | Some cmd => mc_command cmd data n args
      end
  end.
