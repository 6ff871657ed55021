(** Specification: what clients may expect of the server as a whole (C59). *)
From Verif Require Import Base Types Clamp Entry Hash Map Shard Cache Text IntText Prog Cmds Reply Postgres Conn ConnSpec Net NetSpec Server.
From Coq Require Import String.
Local Open Scope N_scope.
Notation length := List.length.
Notation concat := List.concat.
Notation map := List.map.

(** [s] has the elements of the lists, each list in its order. *)
Inductive shuffle {A : Type} : list (list A) -> list A -> Prop :=
| shuffle_nil : forall ls, Forall (fun l => l = []) ls -> shuffle ls []
| shuffle_add : forall a l b s x, shuffle (a ++ l :: b) s -> shuffle (a ++ (l ++ [x]) :: b) (s ++ [x]).

(** Deeds run one after the other on one cache: from [i] commands and the cache [ch] to [i'] commands and
    the cache [ch']. Every command is run with the arguments it came with, and answers what
    it gives on the cache that the deeds before it left. *)
Inductive ran (c : ctx) (cf : config) (orc : nat -> nat -> input) : nat -> cache -> list deed -> nat -> cache -> Prop :=
| ran_end : forall i ch, ran c cf orc i ch [] i ch
| ran_reply : forall i ch e l i' ch', snd (d_what (e_did e)) = None -> ran c cf orc i ch l i' ch' -> ran c cf orc i ch (e :: l) i' ch'
| ran_command : forall i ch e l i' ch' args es w ch1 evs, snd (d_what (e_did e)) = Some (args, es) ->
    prun c (working w (orc i)) 0 ch (evcommand cf (e_auth e) (d_proto (e_did e)) args) = Ok (ch1, es, evs) ->
    ran c cf orc (S i) ch1 l i' ch' -> ran c cf orc i ch (e :: l) i' ch'.
(** A connection starts unauthenticated, and a deed of its own makes it authenticated (with Postgres also
    the password message). *)
Inductive flags : bool -> list deed -> bool -> Prop :=
| flags_end : forall b, flags b [] b
| flags_reply : forall e b1 l b', snd (d_what (e_did e)) = None -> b1 = e_auth e \/ d_proto (e_did e) = POSTGRES ->
    flags b1 l b' -> flags (e_auth e) (e :: l) b'
| flags_command : forall e args es b1 l b', snd (d_what (e_did e)) = Some (args, es) -> (b1 = true <-> e_auth e = true \/ In Authed es) ->
    flags b1 l b' -> flags (e_auth e) (e :: l) b'.

(** What a deed writes, with the protocol and settings that shape it. *)
Definition says_of (p : proto) (po : pgout) (ws : list wr) : list (proto * pgout * wr) := map (fun w => (p, po, w)) ws.
Definition says (e : deed) : list (proto * pgout * wr) :=
  says_of (d_proto (e_did e)) (d_pg (e_did e)) (fst (d_what (e_did e)) ++ match snd (d_what (e_did e)) with Some (_, es) => outs es | None => [] end).
(** The bytes of it, when there are [fill] bytes in the output buffer. *)
Fixpoint emit_all (pg : pages) (fill : nat) (l : list (proto * pgout * wr)) : bytes :=
  match l with
  | [] => []
  | (p, po, w) :: r => let s := emit pg po p fill w in s ++ emit_all pg (fill + length s) r
  end.

Notation sconnection := (nconn cdata shared job).
(** What was done on a connection; its job counts when the work is done. *)
Definition job_deeds (j : option job) : list deed :=
  match j with Some j => match j_effs j with Some es => [job_deed j es] | None => [] end | None => [] end.
Definition done_on (n : sconnection) : list deed := a_did (c_data n) ++ job_deeds (c_bg n).
(** The bytes it read for that and for its job. *)
Definition read_on (n : sconnection) : bytes :=
  concat (map (fun e => d_raw (e_did e)) (a_did (c_data n))) ++ match c_bg n with Some j => j_raw j | None => [] end.
(** What it wrote; a job writes when it is finished. *)
Definition said_on (n : sconnection) : list (proto * pgout * wr) :=
  flat_map says (a_did (c_data n)) ++ match c_bg n with Some j => says_of (j_proto j) (j_pg j) (j_ws j) | None => [] end.

(** Other threads of the server run commands of their own. *)
Definition runs_more (c : ctx) (cf : config) (orc : nat -> nat -> input) (l : list deed) (g g' : shared) : Prop :=
  g_bad g' = g_bad g /\ g_log g' = g_log g ++ l /\ ran c cf orc (g_num g) (g_cache g) l (g_num g') (g_cache g').
Definition polite (c : ctx) (cf : config) (orc : nat -> nat -> input) (s : nstep shared) : Prop :=
  let other f := forall g, exists l, runs_more c cf orc l g (f g) in
  match s with SRound w _ => forall fd, other (a_other w fd) | SFinish _ => True | SOther f => other f end.

Section Server.
Variables (c : ctx) (cf : config) (orc : nat -> nat -> input) (pg : pages).
(** The server, with the handlers of Server. *)
Definition server_run (size : nat) (ss : list (nstep shared)) (t : thread cdata shared job) : nres (thread cdata shared job) :=
  nrun cdata_new (serve c cf orc pg) (job_work c cf orc) (job_done pg) size ss t.
Definition server_possible (size : nat) (ss : list (nstep shared)) (t : thread cdata shared job) : Prop :=
  possible_all cdata shared job cdata_new (serve c cf orc pg) (job_work c cf orc) (job_done pg) size ss t.
End Server.
(** The bytes that came in on a connection and those that were sent. *)
Definition received (n : sconnection) : bytes := concat (gots shared job (c_acts n)).
Definition sent (n : sconnection) : bytes := sents shared job (c_acts n).
(** After what was done on a connection, the next command in its text ended in trouble, on the cache that
    all that was done before left. *)
Definition failed_request (c : ctx) (cf : config) (orc : nat -> nat -> input) (ch : cache) (log : list deed) (n : sconnection) (t : trouble) : Prop :=
  exists ds later l1 l2 rest p args raw authed i ch1 w,
    done_on n = ds ++ later /\ received n = concat (map (fun e => d_raw (e_did e)) ds) ++ rest /\ flags false ds authed /\ reads_as cf rest p args raw /\
    log = l1 ++ l2 /\ ran c cf orc 0 ch l1 i ch1 /\ prun c (working w (orc i)) 0 ch1 (evcommand cf authed p args) = Bad t.
