(** The life of a process: start, load, service, signal, save, exit (main.c), and the file that is handed on to the next process. *)
From Verif Require Import Base Types Entry Hash Map Shard Spec Cache Refine Reach PropCache Text Save SaveSpec SaveFs Lz4.
From Coq Require Import String.
Local Open Scope N_scope.
Notation length := List.length.

(** The name of a work file ends like this [src/save.c:610]. *)
Definition WORK_EXT : bytes := bs ".pogocache.work".
(** [src/save.c:611-612] *)
Definition ends_with (ext s : bytes) : bool := (length ext <=? length s)%nat && beq (skipn (length s - length ext) s) ext.
(** [src/save.c:590-632 cleanwork], the directory could be opened: [un] are the regular files in it that unlink removes. The names are those of
    the file system, with the directory; that makes no difference, as [WORK_EXT] has no slash. *)
Definition clean (un : bytes -> bool) (f : fs) : fs :=
  mkFs (fun p => if un p && ends_with WORK_EXT p then None else fs_names f p) (fs_data f) (fs_next f).

(** How a process ends. [src/main.c:299-330, 421-448]: nothing to save; a second signal; saved; could not save; no directory; could not load. *)
Inductive ending := EIdle | EForced | ESaved | EFailed | ENoDir | ENoLoad.
(** The exit status [src/main.c:304, 317, 324, 327, 427, 436]. *)
Definition status (e : ending) : Z := match e with EFailed | ENoLoad => 1%Z | _ => 0%Z end.
(** Where the main thread is: before [listening]; in it, in load; in the event loops [src/main.c:421-448; src/net.c:1186-1235]. *)
Inductive stage := SStart | SLoad (x : loading) | SServe.
(** A process: [pr_ops] are the calls of the cache it has made for its clients, last first; [pr_save] is the progress of the save that
    sigtermticker calls, if it does. [pr_now] and [pr_unix] are what the clocks show. [src/main.c:289-330] *)
Record proc := mkProc {
  pr_stage : stage; pr_cache : cache; pr_ops : list (env * call); pr_now : Z; pr_unix : Z; pr_fs : fs;
  pr_signal : bool; pr_save : option phase; pr_end : option ending
}.
(** The cache and the clocks, for the save [src/save.c:53-147]. *)
Definition picture (x : proc) : shot := mkShot (pr_cache x) (pr_now x) (pr_unix x).
(** A process that starts, with an empty cache [src/main.c:794-838]. *)
Definition born (ch : cache) (now unix : Z) (f : fs) : proc := mkProc SStart ch [] now unix f false None None.
(** As above, one part changed: for the steps of [src/main.c:299-448]. *)
Definition at_stage (x : proc) (s : stage) (ch : cache) (f : fs) : proc :=
  mkProc s ch (pr_ops x) (pr_now x) (pr_unix x) f (pr_signal x) (pr_save x) (pr_end x).
(** As above [src/main.c:299-448]. *)
Definition ended (x : proc) (e : ending) : proc :=
  mkProc (pr_stage x) (pr_cache x) (pr_ops x) (pr_now x) (pr_unix x) (pr_fs x) (pr_signal x) (pr_save x) (Some e).

Section Life.
Variable o : opts.
(** The --persist option and the name of the work file that the save at the end makes. *)
Variable persist work : bytes.
(** The number of processors; what is in memory that was not written; the environments of the stores of load. *)
Variable nprocs : nat.
Variable junk : N -> bytes.
Variable envs : env -> Prop.

(** One step of a process that has not ended. SAVE and LOAD commands of clients, which may run at the same time, are not among them (C43
    has any number of saves); nor is that save removes the expired items it finds from the cache. *)
Inductive lstep : proc -> proc -> Prop :=
(** time passes; sys_now and sys_unixnow [src/sys.c:164-181] *)
| l_clock : forall x now unix, pr_end x = None -> (pr_now x <= now)%Z -> times_ok now unix ->
    lstep x (mkProc (pr_stage x) (pr_cache x) (pr_ops x) now unix (pr_fs x) (pr_signal x) (pr_save x) None)
(** [src/main.c:424, 447] *)
| l_none : forall x, pr_end x = None -> pr_stage x = SStart -> persist = [] -> lstep x (at_stage x SServe (pr_cache x) (pr_fs x))
(** [src/main.c:425-428] *)
| l_nodir : forall x, pr_end x = None -> pr_stage x = SStart -> persist <> [] -> lstep x (ended x ENoDir)
(** [src/main.c:425, 429] *)
| l_nofile : forall x un, pr_end x = None -> pr_stage x = SStart -> persist <> [] -> content (clean un (pr_fs x)) persist = None ->
    lstep x (at_stage x SServe (pr_cache x) (clean un (pr_fs x)))
(** [src/main.c:425-433] *)
| l_file : forall x un file, pr_end x = None -> pr_stage x = SStart -> persist <> [] -> content (clean un (pr_fs x)) persist = Some file ->
    lstep x (at_stage x (SLoad (load_start file nprocs (pr_cache x))) (pr_cache x) (clean un (pr_fs x)))
(** the threads of load [src/save.c:376-588] *)
| l_load : forall x l l', pr_end x = None -> pr_stage x = SLoad l ->
    load_step (ctx_of o) (lz4_decompress junk) (fun now unix => now = pr_now x /\ unix = pr_unix x) envs l l' ->
    lstep x (at_stage x (SLoad l') (pr_cache x) (pr_fs x))
(** [src/main.c:434-447] *)
| l_loaded : forall x l, pr_end x = None -> pr_stage x = SLoad l -> load_ended l = true -> load_result l = 0%Z ->
    lstep x (at_stage x SServe (ld_cache l) (pr_fs x))
| l_noload : forall x l, pr_end x = None -> pr_stage x = SLoad l -> load_ended l = true -> load_result l <> 0%Z -> lstep x (ended x ENoLoad)
(** a call for a client or for autosweep [src/main.c:368-392]; the event loops run when [listening] has returned [src/net.c:1186-1235] *)
| l_call : forall x en op ch r evs, pr_end x = None -> pr_stage x = SServe ->
    call_ok (ctx_of o) en (cabs (ctx_of o) (pr_cache x)) op -> step (ctx_of o) en (pr_cache x) op = Ok (ch, r, evs) ->
    lstep x (mkProc SServe ch ((en, op) :: pr_ops x) (pr_now x) (pr_unix x) (pr_fs x) (pr_signal x) (pr_save x) None)
(** SIGINT or SIGTERM, the first [src/main.c:306] *)
| l_signal : forall x, pr_end x = None -> pr_signal x = false ->
    lstep x (mkProc (pr_stage x) (pr_cache x) (pr_ops x) (pr_now x) (pr_unix x) (pr_fs x) true (pr_save x) None)
(** the second [src/main.c:301-305] *)
| l_again : forall x, pr_end x = None -> pr_signal x = true -> lstep x (ended x EForced)
(** sigtermticker, nothing to save [src/main.c:312-318] *)
| l_idle : forall x, pr_end x = None -> pr_signal x = true -> pr_save x = None -> pr_stage x <> SServe \/ persist = [] -> lstep x (ended x EIdle)
(** [src/main.c:319-321] *)
| l_begin : forall x, pr_end x = None -> pr_signal x = true -> pr_save x = None -> pr_stage x = SServe -> persist <> [] ->
    lstep x (mkProc SServe (pr_cache x) (pr_ops x) (pr_now x) (pr_unix x) (pr_fs x) true (Some POpen) None)
(** the threads of save, each on the cache and the clocks of its moment [src/save.c:53-225] *)
| l_save : forall x ph f' ph', pr_end x = None -> pr_save x = Some ph ->
    save_step o lz4_compress (fun _ s => s = picture x) nprocs true (mkSaver persist work ph) (pr_fs x) ph f' ph' ->
    lstep x (mkProc (pr_stage x) (pr_cache x) (pr_ops x) (pr_now x) (pr_unix x) f' (pr_signal x) (Some ph') None)
(** [src/main.c:322-327] *)
| l_saved : forall x, pr_end x = None -> pr_save x = Some (PDone true) -> lstep x (ended x ESaved)
| l_failed : forall x, pr_end x = None -> pr_save x = Some (PDone false) -> lstep x (ended x EFailed).

(** The states of a process from its start [b] on, the last first; steps of [src/main.c:299-448]. *)
Inductive life (b : proc) : list proc -> Prop :=
| li_born : life b [b]
| li_step : forall t x y, life b (x :: t) -> lstep x y -> life b (y :: x :: t).
End Life.
