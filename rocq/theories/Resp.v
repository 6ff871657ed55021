(** The RESP parser and the telnet-style parser (resp.c). *)
From Verif Require Import Base Types Shard Text IntText.
From Coq Require Import String.
Local Open Scope N_scope.
Notation length := List.length.

(** What a parser returns: more data is needed (0), a protocol error with its
    message (-1), or the number of bytes read and the arguments. [src/resp.c:19-25] *)
Inductive parsed := More | Wrong (msg : bytes) | Got (n : nat) (args : list bytes).

(** [src/parse.h:21-22] *)
Definition MAXARGS : Z := 100000.
(** As above: [src/parse.h:21-22]. *)
Definition MAXARG_SZ : Z := 536870912.

(** memchr: the position of the first [b]. Called in [src/resp.c:147], [src/http.c:206]. *)
Fixpoint find_byte (b : byte) (s : bytes) : option nat :=
  match s with
  | [] => None
  | x :: r => if x =? b then Some O else option_map S (find_byte b r)
  end.

(** [src/resp.c:130-138 read_num]: strtoll runs on [data] up to the end of what
    was received; examining a byte beyond that is out of bounds. errno stays 0
    when there are no digits (glibc). *)
Definition read_num (data : bytes) (len : nat) (min max : Z) : out (option Z) :=
  let k := skip_spaces data in
  let r := skipn k data in
  let '(neg, j) := match r with
    | 45 :: _ => (true, 1%nat)
    | 43 :: _ => (false, 1%nat)
    | _ => (false, O)
    end in
  let '(v, n) := scan_digits (skipn j r) 0 in
  if (k + j + n =? length data)%nat then Bad OutOfBounds
  else
    let '(z, used) := match n with O => (0%Z, O)
      | _ => ((if neg : bool then - Z.of_N v else Z.of_N v)%Z, (k + j + n)%nat) end in
    Ok (if ((INT64_MIN <=? z) && (z <=? INT64_MAX) && (min <=? z) && (z <=? max))%Z && (used =? len)%nat
        then Some z else None).

(** [src/resp.c:140-162 read_resp_num]: the number and the data behind it. *)
Inductive rnum := NMore | NWrong (msg : bytes) | NGot (z : Z) (rest : bytes).
(** As above: [src/resp.c:140-162 read_resp_num]. *)
Definition read_resp_num (data : bytes) (min max : Z) (errmsg : string) : out rnum :=
  match find_byte 13 data with
  | None => Ok (if (32 <? length data)%nat then NWrong (bs "ERR Protocol error: " ++ bs errmsg) else NMore)
  | Some p =>
      match nth_error data (p + 1) with
      | None => Ok NMore
      | Some b =>
          if negb (b =? 10) then Ok (NWrong [])
          else match read_num data p min max with
          | Bad t => Bad t
          | Ok None => Ok (NWrong (bs "ERR Protocol error: " ++ bs errmsg))
          | Ok (Some z) => Ok (NGot z (skipn (p + 2) data))
          end
      end
  end.

(** [src/resp.c:181-206], the loop over the arguments. *)
Fixpoint resp_args (nargs : nat) (total : nat) (data : bytes) (args : list bytes) : out parsed :=
  match nargs with
  | O => Ok (Got (total - length data) args)
  | S m =>
      match data with
      | [] => Ok More
      | c :: data1 =>
          if negb (c =? 36) then Ok (Wrong (bs "ERR Protocol error: expected '$', got '" ++ [c] ++ bs "'"))
          else match data1 with
          | [] => Ok More
          | _ =>
              match read_resp_num data1 0 MAXARG_SZ "invalid bulk length" with
              | Bad t => Bad t
              | Ok NMore => Ok More
              | Ok (NWrong msg) => Ok (Wrong msg)
              | Ok (NGot z data2) =>
                  if (z + 2 >? Z.of_nat (length data2))%Z then Ok More
                  else let n := Z.to_nat z in
                    resp_args m total (skipn (n + 2) data2) (args ++ [firstn n data2])
              end
          end
      end
  end.
(** [src/resp.c:167-209 parse_resp] *)
Definition parse_resp (data : bytes) : out parsed :=
  match data with
  | [] => Ok More
  | c :: data1 =>
      if negb (c =? 42) then Ok (Wrong [])
      else match data1 with
      | [] => Ok More
      | _ =>
          match read_resp_num data1 INT64_MIN MAXARGS "invalid multibulk length" with
          | Bad t => Bad t
          | Ok NMore => Ok More
          | Ok (NWrong msg) => Ok (Wrong msg)
          | Ok (NGot z data2) => resp_args (Z.to_nat z) (length data) data2 []
          end
      end
  end.

(** [src/resp.c:27-128 parse_resp_telnet]. State of the loop: the bytes read so
    far [i], the arguments, the argument being read and, within an argument, its
    quote (0: none). *)
Definition fail_quotes : parsed := Wrong (bs "ERR Protocol error: unbalanced quotes in request").
(** As above: [src/resp.c:27-128 parse_resp_telnet]. *)
Definition fail_nargs : parsed := Wrong (bs "ERR Protocol error: invalid multibulk length").
(** As above: [src/resp.c:27-128 parse_resp_telnet]. *)
Definition fail_argsz : parsed := Wrong (bs "ERR Protocol error: invalid bulk length").
(** As above: [src/resp.c:27-128 parse_resp_telnet]. *)
Definition too_many (args : list bytes) : bool := (MAXARGS <? Z.of_nat (length args))%Z.
(** As above: [src/resp.c:27-128 parse_resp_telnet]. *)
Definition too_big (arg : bytes) : bool := (MAXARG_SZ <? Z.of_nat (length arg))%Z.
(** [src/resp.c:66-70] *)
Definition unescape (ch : byte) : byte :=
  match ch with 110 => 10 | 114 => 13 | 116 => 9 | _ => ch end.
(** [src/resp.c:27-128 parse_resp_telnet] *)
Fixpoint telnet (data : bytes) (i : nat) (args : list bytes) (arg : bytes) (inarg : option byte) {struct data} : parsed :=
  match data with
  | [] => More
  | ch :: data1 =>
      match inarg with
      | Some 0 =>
          if (ch =? 34) || (ch =? 39) then telnet data1 (S i) args arg (Some ch)
          else if is_space ch then
            let args := args ++ [arg] in
            if too_many args then fail_nargs
            else if ch =? 10 then Got (S i) args
            else telnet data1 (S i) args [] None
          else let arg := arg ++ [ch] in
            if too_big arg then fail_argsz else telnet data1 (S i) args arg (Some 0)
      | Some quote =>
          if ch =? 10 then fail_quotes
          else if ch =? quote then
            let args := args ++ [arg] in
            if too_many args then fail_nargs
            else match data1 with
            | [] => More
            | ch1 :: data2 =>
                if ch1 =? 10 then telnet data1 (S i) args [] None
                else if is_space ch1 then telnet data2 (S (S i)) args [] None
                else fail_quotes
            end
          else if ch =? 92 then
            match data1 with
            | [] => More
            | ch1 :: data2 =>
                let arg := arg ++ [unescape ch1] in
                if too_big arg then fail_argsz else telnet data2 (S (S i)) args arg (Some quote)
            end
          else let arg := arg ++ [ch] in
            if too_big arg then fail_argsz else telnet data1 (S i) args arg (Some quote)
      | None =>
          if ch =? 10 then Got (S i) args
          else if is_space ch then telnet data1 (S i) args arg None
          else if (ch =? 34) || (ch =? 39) then telnet data1 (S i) args arg (Some ch)
          else let arg := arg ++ [ch] in
            if too_big arg then fail_argsz else telnet data1 (S i) args arg (Some 0)
      end
  end.
(** [src/resp.c:27-128 parse_resp_telnet] *)
Definition parse_resp_telnet (data : bytes) : parsed := telnet data 0 [] [] None.
