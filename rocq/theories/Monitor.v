(** Watching the commands that the server runs: the MONITOR command (monitor.c). The text of a line, and
    the threads that show lines and the connections that watch. *)
From Verif Require Import Base Types Text CmdTable Prog Cmds.
From Coq Require Import String.
Local Open Scope N_scope.
Notation length := List.length.

(** ** The line *)
(** An upper case hexadecimal digit, as in the format "\x%02X" of [src/monitor.c:88]. *)
Definition hexdig (d : N) : N := if d <? 10 then 48 + d else 55 + d.
(** [src/monitor.c:69-95], what is appended for one byte. The code appends all the 8 bytes of [hex], of which snprintf wrote
    five: [junk] is what the last three held before. *)
Definition mon_char (junk : bytes) (ch : N) : bytes :=
  if ch =? 10 then [92; 110]
  else if ch =? 13 then [92; 114]
  else if ch =? 9 then [92; 116]
  else if ch =? 34 then [92; 34]
  else if ch =? 92 then [92; 92]
  else if (ch <? 32) || (127 <=? ch) then [92; 120; hexdig (ch / 16); hexdig (ch mod 16); 0] ++ junk
  else [ch].
(** [src/monitor.c:65-97], one argument. *)
Definition mon_arg (junk arg : bytes) : bytes := [32; 34] ++ flat_map (mon_char junk) arg ++ [34].
(** [src/monitor.c:59-98]: [stamp] is the text of the time, [addr] the address of the client; the database is 0
    [src/cmds.c:2397]. Both are short enough for the 256 bytes. *)
Definition mon_line (stamp addr junk : bytes) (args : list bytes) : bytes :=
  [43] ++ stamp ++ bs " [0 " ++ addr ++ bs "]" ++ flat_map (mon_arg junk) args ++ [13; 10].
(** [src/monitor.c:54-58]: commands that are not shown. *)
Definition mon_hidden (args : list bytes) : bool :=
  match args with
  | [] => true
  | a :: _ => is_word a "auth" || is_word a "quit" || is_word a "monitor"
  end.

(** ** The threads *)
(** Where a thread that runs commands is [src/cmds.c:2395-2398]: not in a command; waiting for the lock
    [src/monitor.c:100]; writing to the rest of the connections [101-103]; done with showing it, about to run it. *)
Inductive mphase := MIdle | MWait (line : bytes) | MWrite (line : bytes) (todo : list nat) | MRun.
(** [src/monitor.c:19-23]: the watching connections (by number), the counter and the lock; for each thread its
    phase; for each connection what it was sent, how many more bytes its socket takes before a write
    blocks, and whether it is closed (a write fails at once then). *)
Record mstate := mkM {
  mo_conns : list nat; mo_count : Z; mo_lock : option nat; mo_phase : nat -> mphase;
  mo_got : nat -> list bytes; mo_room : nat -> nat; mo_shut : nat -> bool }.
(** [src/monitor.c:19-23], at the start. *)
Definition mstart : mstate := mkM [] 0 None (fun _ => MIdle) (fun _ => []) (fun _ => O) (fun _ => false).
(** What can happen next: a thread calls monitor_cmd; gets the lock; writes to the next connection; leaves; runs the
    command. A connection starts or stops watching [src/cmds.c:1499-1532]. A client reads or goes away. *)
Inductive mact :=
| ABegin (t : nat) (stamp addr junk : bytes) (args : list bytes) | ALock (t : nat) | AWrite (t : nat) | ALeave (t : nat) | ARun (t : nat)
| AStart (c : nat) | AStop (c : nat) | ARead (c n : nat) | AShut (c : nat).
(** What an observer notes. [MCmd] is the moment at which a command counts as shown. *)
Inductive mevent := MBegin (t : nat) (args : list bytes) | MCmd (t : nat) (line : bytes) | MRan (t : nat) | MOn (c : nat) | MOff (c : nat).
(** Assignment to one place [src/monitor.c:19-23]. *)
Definition fset {A} (f : nat -> A) (i : nat) (x : A) : nat -> A := fun j => if (j =? i)%nat then x else f j.
(** [src/monitor.c:38-44]: the last connection takes the place of the one that leaves. *)
Fixpoint swap_out (c : nat) (l : list nat) : list nat :=
  match l with
  | [] => []
  | x :: r => if (x =? c)%nat then match r with [] => [] | _ => last r O :: removelast r end else x :: swap_out c r
  end.
(** One step; [None] if it cannot be taken now. Starting and stopping happen under the lock and do not wait in there: one
    step each [src/monitor.c:25-48]. A connection watches at most once, since the thread that
    started does nothing else until it stops [src/cmds.c:1499-1532]. *)
Definition mstep (s : mstate) (a : mact) : option (mstate * list mevent) :=
  let '(mkM conns count lock phase got room shut) := s in
  match a with
  | ABegin t stamp addr junk args =>
      match phase t with
      | MIdle =>
          let line := mon_line stamp addr junk args in
          if (count =? 0)%Z then
            Some (mkM conns count lock (fset phase t MRun) got room shut,
                  MBegin t args :: if mon_hidden args then [] else [MCmd t line])
          else if mon_hidden args then Some (mkM conns count lock (fset phase t MRun) got room shut, [MBegin t args])
          else Some (mkM conns count lock (fset phase t (MWait line)) got room shut, [MBegin t args])
      | _ => None
      end
  | ALock t =>
      match phase t, lock with
      | MWait line, None => Some (mkM conns count (Some t) (fset phase t (MWrite line conns)) got room shut, [MCmd t line])
      | _, _ => None
      end
  | AWrite t =>
      match phase t with
      | MWrite line (c :: todo) =>
          if shut c then Some (mkM conns count lock (fset phase t (MWrite line todo)) got room shut, [])
          else if (length line <=? room c)%nat then
            Some (mkM conns count lock (fset phase t (MWrite line todo)) (fset got c (got c ++ [line])) (fset room c (room c - length line)%nat) shut, [])
          else None
      | _ => None
      end
  | ALeave t =>
      match phase t with
      | MWrite _ [] => Some (mkM conns count None (fset phase t MRun) got room shut, [])
      | _ => None
      end
  | ARun t =>
      match phase t with
      | MRun => Some (mkM conns count lock (fset phase t MIdle) got room shut, [MRan t])
      | _ => None
      end
  | AStart c =>
      match lock with
      | None => if existsb (Nat.eqb c) conns then None
                else Some (mkM (conns ++ [c]) (count + 1) lock phase got room shut, [MOn c])
      | Some _ => None
      end
  | AStop c =>
      match lock with
      | None => if existsb (Nat.eqb c) conns
                then Some (mkM (swap_out c conns) (count - 1) lock phase got room shut, [MOff c]) else None
      | Some _ => None
      end
  | ARead c n => Some (mkM conns count lock phase got (fset room c (room c + n)%nat) shut, [])
  | AShut c => Some (mkM conns count lock phase got room (fset shut c true), [])
  end.
(** A series of steps [src/monitor.c:25-107]: the state, and everything that was noted. *)
Fixpoint mrun (s : mstate) (l : list mact) : option (mstate * list mevent) :=
  match l with
  | [] => Some (s, [])
  | a :: l =>
      match mstep s a with
      | None => None
      | Some (s, e) => match mrun s l with None => None | Some (s, es) => Some (s, e ++ es) end
      end
  end.
