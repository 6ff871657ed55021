(** The connection of a client that watches with MONITOR (cmds.c): what it may send, and when the watching is over. What it is sent is in Monitor. *)
From Verif Require Import Base Types Shard Text Resp Prog Cmds.
From Coq Require Import String.
Local Open Scope N_scope.
Notation length := List.length.

(** What the client gets for the command, [work] is whether a thread could be had, and whether it watches from then on [src/cmds.c:1541-1559 cmdMONITOR]. *)
Definition monitor_command (pr : proto) (args : list bytes) (work : bool) : list wr * bool :=
  match pr with
  | RESP =>
      match args with
      | [_] => if work then ([WString (bs "OK")], true) else ([WString (bs "OK"); WError (bs "ERR failed to do work")], false)
      | _ => ([WError ERR_WRONG_NUM_ARGS], false)
      end
  | _ => ([WError (bs "unavailable")], false)
  end.
(** What comes of one read [src/cmds.c:1506-1527]. *)
Inductive turn := Quiet | Pong | Over.
(** [src/cmds.c:1507-1527]: [pkt] is what conn_read returned, [] at the end of the connection or after an error. args_eq is [src/args.c:28-44],
    which is argeq for the text "ping". *)
Definition monitor_turn (pkt : bytes) : out turn :=
  match pkt with
  | [] => Ok Over
  | b :: _ =>
      match (if b =? 42 then parse_resp pkt else Ok (parse_resp_telnet pkt)) with
      | Bad t => Bad t
      | Ok (Got n args) =>
          if negb (Nat.eqb n (length pkt)) then Ok Over
          else match args with [] => Ok Quiet | a :: _ => if is_word a "ping" then Ok Pong else Ok Over end
      | Ok _ => Ok Over
      end
  end.
(** The loop [src/cmds.c:1506-1528]: what is written, and if it has ended, what was not read. After that the connection leaves the list of
    those that watch and is closed [src/cmds.c:1529-1538]. *)
Fixpoint monitor_loop (pkts : list bytes) : out (list bytes * option (list bytes)) :=
  match pkts with
  | [] => Ok ([], None)
  | p :: r =>
      match monitor_turn p with
      | Bad t => Bad t
      | Ok Over => Ok ([], Some r)
      | Ok Quiet => monitor_loop r
      | Ok Pong => match monitor_loop r with Ok (o, e) => Ok ((bs "+PONG" ++ crlf) :: o, e) | Bad t => Bad t end
      end
  end.
