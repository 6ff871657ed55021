(** SAVE and LOAD as commands of clients, while other clients use the cache. *)
From Verif Require Import Base Types Clamp Entry Hash Map Shard Spec Cache Refine Reach PropCache Text Prog Cmds Save SaveSpec SaveFs Lz4.
From Coq Require Import String.
Local Open Scope N_scope.
Notation length := List.length.

(** What is to be done: an error, or work with [load], [fast] and [path] [src/cmds.c:841-846 struct bgsaveloadctx]. *)
Inductive request := Refuse (msg : bytes) | Work (load fast : bool) (path : bytes).
(** The loop of [src/cmds.c:898-914]; [None] is err_syntax. *)
Fixpoint sl_options (load : bool) (args : list bytes) (fast : bool) (path : bytes) : option (bool * bytes) :=
  match args with
  | [] => Some (fast, path)
  | a :: r =>
      if is_word a "fast" then sl_options load r true path
      else if (load && is_word a "from") || (negb load && is_word a "to") then
        match r with [] => None | p :: r' => sl_options load r' fast p end
      else None
  end.
(** [src/cmds.c:893-932 cmdSAVELOAD]: the path is copied and a NUL put behind it, so that what open gets ends at the first NUL. There is
    always an argument 0, the name of the command. *)
Definition saveload (persist : bytes) (args : list bytes) : request :=
  match args with
  | [] => Refuse ERR_SYNTAX_ERROR
  | a :: r =>
      let load := is_word a "load" in
      match sl_options load r false persist with
      | None => Refuse ERR_SYNTAX_ERROR
      | Some (_, []) => Refuse (bs "ERR path not provided")
      | Some (fast, path) => Work load fast (cstr path)
      end
  end.
(** What the client gets [src/cmds.c:869-889 bgsaveloaddone], [ok] is whether save or load returned 0. *)
Definition saveload_reply (pr : proto) (load ok : bool) : list wr :=
  if ok then by_proto pr [WRaw (bs "OK" ++ crlf)]
               (complete (bs (if load then "LOAD" else "SAVE") ++ bs " OK")) [WString (bs "OK")] [WString (bs "OK")]
  else [WError (bs (if load then "load failed" else "save failed"))].
(** The whole command, [status] being what save or load returned [src/cmds.c:855-866, 893-932]; [work] is whether conn_bgwork could be had. *)
Definition saveload_answer (pr : proto) (persist : bytes) (args : list bytes) (work : bool) (status : Z) : list wr :=
  match saveload persist args with
  | Refuse msg => [WError msg]
  | Work load _ _ => if work then saveload_reply pr load (status =? 0)%Z else [WError (bs "ERR failed to do work")]
  end.

(** A lower case hexadecimal digit, and eight of them: "%08x" for a number that is not negative [src/save.c:153]. *)
Definition hex_lower (d : N) : N := if d <? 10 then 48 + d else 87 + d.
(** As above [src/save.c:153]. *)
Fixpoint hex_digits (k : nat) (n : N) : bytes :=
  match k with O => [] | S k' => hex_digits k' (n / 16) ++ [hex_lower (n mod 16)] end.
(** The name of the work file [src/save.c:150-154]. It always fits the buffer. *)
Definition work_name (path : bytes) (seed : N) : bytes :=
  path ++ [46] ++ hex_digits 8 (seed mod 0x7fffffff) ++ bs ".pogocache.work".

(** A save that was asked for, by the command and by what sys_seed returns [src/cmds.c:916-924, src/save.c:149-154]. *)
Record job := mkJob { jb_fast : bool; jb_save : saver }.
(** As above [src/cmds.c:916-924]. *)
Definition job_of (persist : bytes) (args : list bytes) (seed : N) : option job :=
  match saveload persist args with
  | Work false fast path => Some (mkJob fast (mkSaver path (work_name path seed) POpen))
  | _ => None
  end.
(** The server: the cache, the clocks, the files, and the saves that have been or will be asked for. [src/cmds.c:848-932] *)
Record server := mkServer { se_cache : cache; se_now : Z; se_unix : Z; se_fs : fs; se_jobs : list job }.
(** The cache and the clocks, for the saves [src/save.c:53-147]. *)
Definition se_shot (x : server) : shot := mkShot (se_cache x) (se_now x) (se_unix x).

Section Serve.
Variable o : opts.
Variable nprocs : nat.
(** What may happen. Calls of the cache are those of other commands, of LOAD and of autosweep. Not modelled: that save removes the expired
    items it finds. *)
Inductive serve : server -> server -> Prop :=
(** time passes; sys_now and sys_unixnow [src/sys.c:164-181] *)
| se_clock : forall x now unix, (se_now x <= now)%Z -> times_ok now unix ->
    serve x (mkServer (se_cache x) now unix (se_fs x) (se_jobs x))
(** a call of the cache *)
| se_call : forall x en op ch r evs, call_ok (ctx_of o) en (cabs (ctx_of o) (se_cache x)) op -> step (ctx_of o) en (se_cache x) op = Ok (ch, r, evs) ->
    serve x (mkServer ch (se_now x) (se_unix x) (se_fs x) (se_jobs x))
(** a step of a save [src/save.c:53-225]; the first may be any time after the command *)
| se_step : forall x j1 fast sv j2 f' ph', se_jobs x = j1 ++ mkJob fast sv :: j2 ->
    save_step o lz4_compress (fun _ s => s = se_shot x) nprocs fast sv (se_fs x) (sv_phase sv) f' ph' ->
    serve x (mkServer (se_cache x) (se_now x) (se_unix x) f' (j1 ++ mkJob fast (mkSaver (sv_path sv) (sv_work sv) ph') :: j2)).
(** The states of a run from [b] on, the last first; steps as above [src/cmds.c:848-932]. *)
Inductive history (b : server) : list server -> Prop :=
| hi_start : history b [b]
| hi_step : forall t x y, history b (x :: t) -> serve x y -> history b (y :: x :: t).
End Serve.

(** What LOAD does with the file system [f] and the cache [ch], the threads being those of [load_step] and [clocks] what the clocks show
    meanwhile: what load returned, and the cache then [src/cmds.c:848-867, src/save.c:412-588]. *)
Inductive load_command (o : opts) (decompress : bytes -> N -> option bytes) (clocks : Z -> Z -> Prop) (envs : env -> Prop) (nprocs : nat)
  (f : fs) (ch : cache) (fast : bool) (path : bytes) : Z -> cache -> Prop :=
(** [src/save.c:420-423], open may fail at any time *)
| lc_noopen : load_command o decompress clocks envs nprocs f ch fast path (-1) ch
| lc_load : forall file x, content f path = Some file ->
    load_steps (ctx_of o) decompress clocks envs (load_start file (if fast then nprocs else 1%nat) ch) x -> load_ended x = true ->
    load_command o decompress clocks envs nprocs f ch fast path (load_result x) (ld_cache x).
