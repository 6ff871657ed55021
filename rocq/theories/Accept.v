(** Accepting connections (net.c): the limit on connections and the marks of TLS
    connections, which all threads share. *)
From Verif Require Import Base.
Local Open Scope N_scope.

(** [src/net.c:441-452 save_tls_fd], under a lock. *)
Definition save_tls (fd : N) (l : list N) : list N := l ++ [fd].
(** The loop of del_tls_fd: the element is overwritten with the last one. [src/net.c:454-467 del_tls_fd] *)
Fixpoint overwrite (fd last : N) (l : list N) : option (list N) :=
  match l with
  | [] => None
  | x :: l => if x =? fd then Some (last :: l) else match overwrite fd last l with None => None | Some l => Some (x :: l) end
  end.
(** [src/net.c:454-467 del_tls_fd], under a lock: whether it was found. *)
Definition del_tls (fd : N) (l : list N) : bool * list N :=
  match overwrite fd (last l 0) l with None => (false, l) | Some l => (true, removelast l) end.

(** The counter [nconns], the sockets that were accepted and wait for their first event (with the
    port they came from: TLS or plain), the connections that are being turned away and are still
    counted, the marks, the open connections with how they are served (TLS or plain) and the port. [src/net.c:432-440], [581-642] *)
Record gate := mkGate { g_count : N; g_wait : list (N * bool); g_leaving : list N; g_marks : list N; g_open : list (N * (bool * bool)) }.
(** [src/net.c:432-440], at the start *)
Definition gate_new : gate := mkGate 0 [] [] [] [].
(** Descriptors in use. For the statements, no counterpart in the code. *)
Definition g_used (g : gate) : list N := map fst (g_wait g) ++ g_leaving g ++ map fst (g_open g).
(** What threads do, in any order: accept a socket (and put it into an event queue, or fail to); its first
    event (for TLS: the handshake works or not); the last step of turning a connection away;
    closing a connection. For the statements, no counterpart in the code. *)
Inductive gop := GAccept (fd : N) (tls queued : bool) | GEvent (fd : N) (hands : bool) | GTurned (fd : N) | GClose (fd : N).

(** For the statements, no counterpart in the code. *)
Definition without {X : Type} (fd : N) (l : list (N * X)) : list (N * X) := filter (fun p => negb (fst p =? fd)) l.
(** For the statements, no counterpart in the code. *)
Definition pick {X : Type} (fd : N) (l : list (N * X)) : option X := match find (fun p => fst p =? fd) l with Some p => Some (snd p) | None => None end.
(** [src/net.c:576-642 qaccept] and [src/net.c:870-886 qclose]; [None] is an operation
    that cannot happen. *)
Definition gate_step (max : N) (o : gop) (g : gate) : option gate :=
  match o with
  | GAccept fd tls queued =>
    if existsb (N.eqb fd) (g_used g) then None
    else let marks := if tls then save_tls fd (g_marks g) else g_marks g in
      if queued then Some (mkGate (g_count g) (g_wait g ++ [(fd, tls)]) (g_leaving g) marks (g_open g))
      else Some (mkGate (g_count g) (g_wait g) (g_leaving g) (if tls then snd (del_tls fd marks) else marks) (g_open g))
  | GEvent fd hands =>
    match pick fd (g_wait g) with
    | None => None
    | Some port =>
      let wait := without fd (g_wait g) in
      let old := g_count g in
      if max <=? old then Some (mkGate (old + 1) wait (g_leaving g ++ [fd]) (g_marks g) (g_open g))
      else let '(istls, marks) := del_tls fd (g_marks g) in
        if istls && negb hands then Some (mkGate old wait (g_leaving g) marks (g_open g))
        else Some (mkGate (old + 1) wait (g_leaving g) marks (g_open g ++ [(fd, (istls, port))]))
    end
  | GTurned fd =>
    if existsb (N.eqb fd) (g_leaving g) then Some (mkGate (g_count g - 1) (g_wait g) (filter (fun x => negb (x =? fd)) (g_leaving g)) (g_marks g) (g_open g)) else None
  | GClose fd =>
    match pick fd (g_open g) with
    | None => None
    | Some _ => Some (mkGate (g_count g - 1) (g_wait g) (g_leaving g) (g_marks g) (without fd (g_open g)))
    end
  end.
(** For the statements, no counterpart in the code. *)
Fixpoint gate_run (max : N) (os : list gop) (g : gate) : option gate :=
  match os with [] => Some g | o :: os => match gate_step max o g with None => None | Some g => gate_run max os g end end.
