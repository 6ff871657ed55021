(** Specification: what a client may expect of the event loop. *)
From Verif Require Import Base Net.

Section Spec.
Variables A G J : Type.
Variable opened : A.
Variable data : bytes -> A -> G -> hres A G J.
Variable work : J -> G -> J * G.
Variable done : J -> A -> A * bytes * bool.
Notation act := (act G J).
Notation nconn := (nconn A G J).
Notation thread := (thread A G J).

(** The packets that came in, the packets that the handler got. *)
Fixpoint gots (l : list act) : list bytes := match l with [] => [] | Got s :: l => s :: gots l | _ :: l => gots l end.
Fixpoint feds (l : list act) : list bytes := match l with [] => [] | Fed s _ :: l => s :: feds l | _ :: l => feds l end.
(** The bytes that the handlers wrote, the bytes that the system took. *)
Fixpoint saids (l : list act) : bytes := match l with [] => [] | Said s :: l => s ++ saids l | _ :: l => saids l end.
Fixpoint sents (l : list act) : bytes := match l with [] => [] | Sent s _ :: l => s ++ sents l | _ :: l => sents l end.
(** Everything that came in was handled and every answer was sent. *)
Definition tidy (l : list act) : Prop := gots l = feds l /\ sents l = saids l.
(** Nothing more is read before everything that came in was handled and answered. *)
Definition orderly (l : list act) : Prop := forall l1 s l2, l = l1 ++ Got s :: l2 -> tidy l1.
(** A write failed, and what was sent up to then is a beginning of what was written. *)
Definition broken (l : list act) : Prop :=
  exists l1 s l2 rest, l = l1 ++ Sent s false :: l2 /\ saids l1 = sents l1 ++ s ++ rest.
(** A read told that the client has ended the connection, or failed. *)
Definition over (l : list act) : bool := existsb (fun x => match x with Over => true | _ => false end) l.
(** A job is finished, and the handler was not called since. *)
Definition due (l : list act) : bool := fold_left (fun b x => match x with Fed _ _ => false | Worked _ => true | _ => b end) l false.
(** The data of the connection is what its own handler calls made of it; the second component is
    for a refused job. *)
Definition replay_one (aa : A * A) (x : act) : A * A :=
  match x with
  | Fed s g => match data s (fst aa) g with HDone a _ _ _ => (a, a) | HBack a _ _ _ (a2, _, _) => (a, a2) end
  | Refused => (snd aa, snd aa)
  | Worked j => let '(a, _, _) := done j (fst aa) in (a, a)
  | _ => aa
  end.
Definition replay (l : list act) : A := fst (fold_left replay_one l (opened, opened)).

(** An open connection between two rounds of the loop. After a job the handler was called again, with what
    had come in meanwhile or with nothing. *)
Definition served (c : nconn) : Prop :=
  orderly (c_acts c) /\ tidy (c_acts c) /\ c_data c = replay (c_acts c) /\ c_out c = [] /\ c_closed c = false /\ over (c_acts c) = false /\
  due (c_acts c) = false.
(** A connection that was closed. *)
Definition ended (c : nconn) : Prop :=
  orderly (c_acts c) /\ gots (c_acts c) = feds (c_acts c) /\ (sents (c_acts c) = saids (c_acts c) \/ broken (c_acts c)) /\
  c_data c = replay (c_acts c) /\ (c_closed c = true \/ over (c_acts c) = true).

(** What the system and the threads can do: at most [size] events, each descriptor once,
    and for connections only those that the event queue watches; a job ends only if it has a thread
    that has not ended. io_uring completes what was submitted in that order; nothing
    promises that, see C56_uring_refuted. *)
Definition possible (size : nat) (s : nstep G) (t : thread) : Prop :=
  match s with
  | SRound w es => (length es <= size)%nat /\ NoDup (map e_fd es) /\
      (forall c, In c (t_conns t) -> In (c_fd c) (map e_fd es) -> c_watch c <> None) /\
      (forall u, a_uring w = Some u -> forall l, u_reads u l = l /\ u_writes u l = l)
  | SFinish fd => exists c, In c (t_conns t) /\ c_fd c = fd /\ c_thread c = true
  | SOther _ => True
  end.
Fixpoint possible_all (size : nat) (ss : list (nstep G)) (t : thread) : Prop :=
  match ss with
  | [] => True
  | s :: ss => possible size s t /\ forall t', nstep_run opened data work done size s t = NOk t' -> possible_all size ss t'
  end.

(** *** A server that handles one packet at a time *)
(** A connection: the packets that were handled, the answers that were written, the data, the background
    job and whether it is finished, whether the connection has been given up, whether the
    client has ended it, whether the handler is to be called again because a job is finished. *)
Record sconn := mkSconn { s_fd : nat; s_ins : list bytes; s_outs : bytes; s_data : A; s_job : option (J * bool); s_closed : bool; s_over : bool; s_due : bool }.
Record server := mkServer { s_shared : G; s_conns : list sconn; s_gone : list sconn }.
(** The connections to which writes may fail, and those that may end. *)
Variables failing ending : nat -> Prop.
(** What other threads may do to the shared state. *)
Variable meddling : (G -> G) -> Prop.
(** What a connection does, with the shared state before and after: it handles a packet; it handles a packet
    and a job begins; the job is refused because the client cannot be written to any
    more; the job works; the job is finished; a write fails; the client ends the connection. *)
Inductive sact : sconn -> G -> sconn -> G -> Prop :=
  | s_packet : forall fd ins outs a g du s a' g' out cl, data s a g = HDone a' g' out cl ->
      sact (mkSconn fd ins outs a None false false du) g (mkSconn fd (ins ++ [s]) (outs ++ out) a' None cl false false) g'
  | s_begin : forall fd ins outs a g du s a' g' out j no, data s a g = HBack a' g' out j no ->
      sact (mkSconn fd ins outs a None false false du) g (mkSconn fd (ins ++ [s]) (outs ++ out) a' (Some (j, false)) false false false) g'
  | s_refuse : forall fd ins outs a g du s a1 g1 out j a2 g2 out2, failing fd -> data s a g = HBack a1 g1 out j (a2, g2, out2) ->
      sact (mkSconn fd ins outs a None false false du) g (mkSconn fd (ins ++ [s]) (outs ++ out ++ out2) a2 None true false false) g2
  | s_work : forall fd ins outs a g j j' g', work j g = (j', g') ->
      sact (mkSconn fd ins outs a (Some (j, false)) false false false) g (mkSconn fd ins outs a (Some (j', true)) false false false) g'
  | s_done : forall fd ins outs a g j a' out cl, done j a = (a', out, cl) ->
      sact (mkSconn fd ins outs a (Some (j, true)) false false false) g (mkSconn fd ins (outs ++ out) a' None cl false true) g
  | s_fail : forall fd ins outs a g du cl, failing fd -> sact (mkSconn fd ins outs a None cl false du) g (mkSconn fd ins outs a None true false du) g
  | s_end : forall fd ins outs a g du, ending fd -> sact (mkSconn fd ins outs a None false false du) g (mkSconn fd ins outs a None false true du) g.
(** What the server does: a connection is opened, does something, is removed when it was given up or has ended; other threads
    change the shared state. *)
Inductive sstep : server -> server -> Prop :=
  | s_open : forall g l gone fd, ~ In fd (map s_fd l) -> sstep (mkServer g l gone) (mkServer g (mkSconn fd [] [] opened None false false false :: l) gone)
  | s_act : forall g l1 c l2 gone c' g', sact c g c' g' -> sstep (mkServer g (l1 ++ c :: l2) gone) (mkServer g' (l1 ++ c' :: l2) gone)
  | s_remove : forall g l1 c l2 gone, s_closed c = true \/ s_over c = true -> sstep (mkServer g (l1 ++ c :: l2) gone) (mkServer g (l1 ++ l2) (c :: gone))
  | s_other : forall g l gone f, meddling f -> sstep (mkServer g l gone) (mkServer (f g) l gone).
Inductive ssteps : server -> server -> Prop :=
  | ss_refl : forall x, ssteps x x
  | ss_next : forall x y z, sstep x y -> ssteps y z -> ssteps x z.
(** Writes fail and connections end only where they may, and other threads do only what they may. *)
Definition told (s : nstep G) : Prop :=
  match s with
  | SRound w _ => forall fd,
      ((exists k, In WErr (a_write w k fd)) \/ (exists u, a_uring w = Some u /\ u_write u fd = WErr) -> failing fd) /\
      (a_read w fd = REof \/ a_read w fd = RErr -> ending fd) /\ meddling (a_other w fd)
  | SOther f => meddling f
  | SFinish _ => True
  end.
(** What of the event loop is seen there. *)
Definition conn_view (c : nconn) : sconn :=
  mkSconn (c_fd c) (feds (c_acts c)) (saids (c_acts c)) (c_data c)
    match c_bg c with None => None | Some j => Some (j, match c_watch c with None => false | Some _ => true end) end (c_closed c) (over (c_acts c)) (due (c_acts c)).
Definition view (t : thread) : server := mkServer (t_shared t) (map conn_view (t_conns t)) (map conn_view (t_gone t)).
End Spec.
Arguments ss_refl {A G J opened data work done failing ending meddling}. Arguments ss_next {A G J opened data work done failing ending meddling}.
