(** DEBUG POPULATE and DEBUG DETACH. *)
From Verif Require Import Base Types Clamp Entry Hash Map Shard Cache Text IntText Prog Cmds Main.
From Coq Require Import String.
Local Open Scope N_scope.
Notation length := List.length.

(** What stops the process: xmalloc gives up [src/xmalloc.c:91-96 check_ptr],
    [%] by zero, an int that overflows. *)
Inductive crash := NoMemory | DivByZero | IntOverflow.
(** A result, or the end of the process. For the above, no counterpart in the code. *)
Inductive res (A : Type) := Fine (a : A) | Crash (c : crash).
Arguments Fine {A} a. Arguments Crash {A} c.

(** What is to be stored [src/cmds.c:1300-1311 struct populate_ctx]. *)
Record pop := mkPop { p_count : N; p_prefix : bytes; p_len : N; p_range : option (Z * Z) }.
(** What DEBUG does [src/cmds.c:1463-1477]. *)
Inductive verdict := Reject (msg : bytes) | Populate (p : pop) | Detach.

(** The bytes after the first '-', if there is one: strchr [src/cmds.c:1366-1368]. *)
Fixpoint after_dash (s : bytes) : option bytes :=
  match s with [] => None | b :: r => if b =? 45 then Some r else after_dash r end.
(** [src/cmds.c:1359-1372]: the limits of the random lifetimes. *)
Definition rand_range (s : bytes) : option (Z * Z) :=
  let s := cstr s in
  match after_dash s with None => None | Some r => Some (atoi s, atoi r) end.

(** [src/cmds.c:1339-1372 cmdDEBUG_populate], the arguments. *)
Definition populate_args (args : list bytes) : verdict :=
  let go c pre s range :=
    match parse_i64 c with
    | None => Reject ERR_SYNTAX_ERROR
    | Some count =>
        if (count <? 0)%Z then Reject ERR_SYNTAX_ERROR else
        match parse_i64 s with
        | None => Reject ERR_SYNTAX_ERROR
        | Some len =>
            if (len <? 0)%Z then Reject ERR_SYNTAX_ERROR
            else Populate (mkPop (Z.to_N count) pre (Z.to_N len) range)
        end
    end in
  match args with
  | [_; c; pre; s] => go c pre s None
  | [_; c; pre; s; r] => go c pre s (rand_range r)
  | _ => Reject ERR_WRONG_NUM_ARGS
  end.
(** [src/cmds.c:1463-1477 cmdDEBUG] *)
Definition debug (args : list bytes) : verdict :=
  match args with
  | [] | [_] => Reject ERR_WRONG_NUM_ARGS
  | _ :: a :: r =>
      if is_word a "populate" then populate_args (a :: r)
      else if is_word a "detach" then Detach
      else Reject (bs "ERR unknown subcommand")
  end.

(** [src/cmds.c:1326-1329]: [rnd] is what rand() returns. [int] has 32 bits. *)
Definition is_int (z : Z) : bool := ((- 2 ^ 31 <=? z) && (z <? 2 ^ 31))%Z.
(** As above: [src/cmds.c:1326-1329]. *)
Definition pop_ttl (range : option (Z * Z)) (rnd : N) : res Z :=
  match range with
  | None => Fine 0%Z
  | Some (lo, hi) =>
      let d := (hi - lo)%Z in
      if negb (is_int d) then Crash IntOverflow
      else if (d =? 0)%Z then Crash DivByZero
      else let ex := (Z.rem (Z.of_N rnd) d + lo)%Z in
           if is_int ex then Fine (ex * SECOND)%Z else Crash IntOverflow
  end.
(** [src/cmds.c:1316-1322]: prefix, colon, number. *)
Definition pop_key (prefix : bytes) (i : N) : bytes := prefix ++ [58] ++ i64toa (Z.of_N i).
(** The loop of [src/cmds.c:1313-1333 populate_entry]: [n] keys from [i] on.
    [rnd i] is what rand() returns for key [i]. *)
Fixpoint populate_entry (p : pop) (now : Z) (rnd : N -> N) (n : nat) (i : N) : res (list call) :=
  match n with
  | O => Fine []
  | S n' =>
      match pop_ttl (p_range p) (rnd i) with
      | Crash c => Crash c
      | Fine ttl =>
          match populate_entry p now rnd n' (i + 1) with
          | Crash c => Crash c
          | Fine l => Fine (Store (pop_key (p_prefix p) i) (repeat 0 (N.to_nat (p_len p)))
                              (mkStoreOpts 0 ttl 0 0 false false false false false None) now :: l)
          end
      end
  end.
(** Start and number of the keys of thread [i] of [procs] [src/cmds.c:1382-1391]. *)
Definition pop_part (procs : nat) (count : N) (i : nat) : N * N :=
  let group := count / N.of_nat procs in
  let start := N.of_nat i * group in
  (start, if (S i =? procs)%nat then count - start else group).
(** The threads one after the other; [nows i] is sys_now() in thread [i]. As above: [src/cmds.c:1382-1414]. *)
Fixpoint pop_threads (p : pop) (nows : nat -> Z) (rnd : N -> N) (procs : nat) (is : list nat) : res (list (list call)) :=
  match is with
  | [] => Fine []
  | i :: r =>
      let '(start, n) := pop_part procs (p_count p) i in
      match populate_entry p (nows i) rnd (N.to_nat n) start with
      | Crash c => Crash c
      | Fine l => match pop_threads p nows rnd procs r with Crash c => Crash c | Fine ls => Fine (l :: ls) end
      end
  end.
(** [src/cmds.c:1374-1414 cmdDEBUG_populate]: what each thread stores; [avail]
    tells for which sizes xmalloc finds memory. A thread that cannot be made is
    run by the command itself. *)
Definition populate (avail : N -> bool) (p : pop) (nows : nat -> Z) (rnd : N -> N) (procs : nat) : res (list (list call)) :=
  if negb (avail (p_len p)) then Crash NoMemory
  else pop_threads p nows rnd procs (seq 0 procs).
(** [src/cmds.c:1417-1422] *)
Definition populate_reply (pr : proto) (p : pop) : list wr :=
  if is_pg pr then complete (bs "DEBUG POPULATE " ++ i64toa (Z.of_N (p_count p))) else [WString (bs "OK")].
(** [src/cmds.c:1430-1460 detach_work, detach_done, cmdDEBUG_detach]: the clock in
    the command and in the worker. The text always fits the 128 bytes. *)
Definition detach_reply (pr : proto) (now later : Z) : list wr :=
  let t := i64toa now ++ [58] ++ i64toa later in
  if is_pg pr then simple_row (bs "detach") t (bs "DEBUG DETACH") else [WBulk t].
