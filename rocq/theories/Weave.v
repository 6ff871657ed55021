(** Several threads run commands at the same time; calls of the cache are the steps. *)
From Verif Require Import Base Types Clamp Entry Hash Map Shard Cache Text CmdTable Prog Cmds.
Local Open Scope nat_scope.

(** A command as a client sent it: its protocol, whether the client gave the password, its arguments, and what the outside world will say to the thread
    that runs it [src/cmds.c:2379-2410 evcommand]. *)
Record cmd := mkCmd { cm_proto : proto; cm_auth : bool; cm_args : list bytes; cm_orc : nat -> input }.
(** The commands that do all their calls in one batch: INCRBY to PREPEND of the table [src/cmds.c:1668-1769 execINCRDECR, 1885-1934 cmdAPPEND]. *)
Definition in_batch (args : list bytes) : bool := match get_cmd (hd [] args) with Some (Some i) => (24 <=? i) && (i <=? 33) | _ => false end.
(** A thread in the middle of a command: what is left of it, how often it has asked, and what it did so far [src/net.c:889-937 qthread]. *)
Record worker := mkWorker { wk_batch : bool; wk_orc : nat -> input; wk_n : nat; wk_prog : prog; wk_did : list eff }.
(** At the start of the command [src/cmds.c:2379-2410 evcommand]. *)
Definition starting (cf : config) (x : cmd) : worker :=
  mkWorker (in_batch (cm_args x)) (cm_orc x) 0 (evcommand cf (cm_auth x) (cm_proto x) (cm_args x)) [].
(** The command has ended [src/cmds.c:2379-2410 evcommand]. *)
Definition finished (w : worker) : Prop := wk_prog w = Done /\ wk_batch w = false.
Section Weave.
Variable c : ctx.
(** One step of a thread: it asks, writes or calls the cache, as in Prog.prun. A call of the cache is one step because it holds the lock of its shard
    (C24). Simplified: a command that does its calls in one batch is one step from the first to the last (C25 shows that batches act so); a
    call of all shards is one step too, although it locks one shard after the other (the theorems are about calls with a key)
    [src/cmds.c: the command functions, src/pogocache.c:1258-1394]. *)
Definition wstep (ch : cache) (w : worker) : out (cache * worker) :=
  let on p e := mkWorker (wk_batch w) (wk_orc w) (wk_n w) p (wk_did w ++ [e]) in
  if wk_batch w then
    match prun c (wk_orc w) (wk_n w) ch (wk_prog w) with
    | Bad t => Bad t
    | Ok (ch1, es, _) => Ok (ch1, mkWorker false (wk_orc w) (wk_n w) Done (wk_did w ++ es))
    end
  else match wk_prog w with
  | Done => Ok (ch, w)
  | Put x k => Ok (ch, on k (Out x))
  | CloseConn k => Ok (ch, on k Closed)
  | SetAuth k => Ok (ch, on k Authed)
  | Ask k => Ok (ch, mkWorker false (wk_orc w) (S (wk_n w)) (k (wk_orc w (wk_n w))) (wk_did w))
  | Do x k =>
      match step c (in_env (wk_orc w (wk_n w))) ch x with
      | Bad t => Bad t
      | Ok (ch1, r, _) => Ok (ch1, mkWorker false (wk_orc w) (S (wk_n w)) (k r) (wk_did w))
      end
  | Fork d q k => Ok (ch, on k (Forked d q))
  | Fail t => Bad t
  | Unmodelled => Ok (ch, on Done Skipped)
  end.
(** The thread at place [t] of the list is now this one [src/net.c:889-937 qthread]. *)
Fixpoint put_at (ws : list worker) (t : nat) (w : worker) : list worker :=
  match ws, t with
  | [], _ => []
  | _ :: r, O => w :: r
  | x :: r, S t' => x :: put_at r t' w
  end.
(** The threads take steps in the order of the schedule [src/net.c:889-937 qthread]. *)
Fixpoint weave (sched : list nat) (ch : cache) (ws : list worker) : out (cache * list worker) :=
  match sched with
  | [] => Ok (ch, ws)
  | t :: r =>
      match nth_error ws t with
      | None => weave r ch ws
      | Some w => match wstep ch w with Bad x => Bad x | Ok (ch1, w1) => weave r ch1 (put_at ws t w1) end
      end
  end.
End Weave.
