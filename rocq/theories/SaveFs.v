(** The threads of save and the file system (save.c:53-225). *)
From Verif Require Import Base Types Entry Hash Map Shard Cache Refine Reach PropCache Save SaveSpec.
Local Open Scope N_scope.

(** ** A file system *)
(** Names lead to files, files to their contents; [fs_next] is a file that is not in use. The
    directory and the permissions are not modelled: opening may fail at any time. The operating system as used in [src/save.c:53-225]. *)
Record fs := mkFs { fs_names : bytes -> option nat; fs_data : nat -> bytes; fs_next : nat }.
(** open and rename change what a name means, used in [src/save.c:149-225]. *)
Definition set_name (f : fs) (p : bytes) (x : option nat) : fs :=
  mkFs (fun q => if beq p q then x else fs_names f q) (fs_data f) (fs_next f).
(** write changes a file, used in [src/save.c:53-147]. *)
Definition set_data (f : fs) (i : nat) (d : bytes) : fs :=
  mkFs (fs_names f) (fun j => if (i =? j)%nat then d else fs_data f j) (fs_next f).
(** What reading the file named [p] gives. Reading a file, used in [src/save.c:412-632]. *)
Definition content (f : fs) (p : bytes) : option bytes :=
  match fs_names f p with Some i => Some (fs_data f i) | None => None end.
(** Writing [w] at offset [off] of [d], which has at least [off] bytes. pwrite, used in [src/save.c:53-147]. *)
Definition overwrite (d : bytes) (off : nat) (w : bytes) : bytes := firstn off d ++ w ++ skipn (off + length w) d.

(** ** One call of save *)
(** A thread [src/save.c:120-147 thsave]: the shards it has yet to save; the block that it
    wants to write or is writing, with the lock; its [ok]. *)
Inductive sthread := TSave (l : list nat) | TWait (b : bytes) (l : list nat) | TWrite (b : bytes) (l : list nat) | TEnd (ok : bool).
(** The progress of save [src/save.c:149-225]: before open; while the threads run, with the file
    that is open and the offset; when the threads are joined, before rename; before
    unlink, with [ok]; returned, 0 or -1. *)
Inductive phase := POpen | PRun (file off : nat) (ths : list sthread) | PRename (file : nat) | PClose (ok : bool) | PDone (ok : bool).
(** The arguments and locals of save that matter [src/save.c:149-155]: path and workpath. *)
Record saver := mkSaver { sv_path : bytes; sv_work : bytes; sv_phase : phase }.

Section Fs.
Variable o : opts.
Variable compress : bytes -> bytes.
(** The states in which a shard may be saved. *)
Variable takes : nat -> shot -> Prop.
Variable nprocs : nat.
Variable fast : bool.

(** As above: [src/save.c:149-155]. *)
Definition writing (t : sthread) : bool := match t with TWrite _ _ => true | _ => false end.
(** A step of one thread; the open file is [f], the offset [off] [src/save.c:53-147]. *)
Inductive thread_step (f : bytes) (off : nat) (others : list sthread) : sthread -> bytes -> nat -> sthread -> Prop :=
(** [src/save.c:122-133] and, for a shard without items, [src/save.c:54-57] *)
| ts_none : forall i l s, takes i s -> made_block o s i None -> thread_step f off others (TSave (i :: l)) f off (TSave l)
| ts_block : forall i l s d, takes i s -> made_block o s i (Some d) ->
    thread_step f off others (TSave (i :: l)) f off (TWait (block_text compress d) l)
(** [src/save.c:81] *)
| ts_lock : forall b l, forallb (fun t => negb (writing t)) others = true ->
    thread_step f off others (TWait b l) f off (TWrite b l)
(** [src/save.c:82-89]: write takes any number of bytes that is not 0, or fails *)
| ts_write : forall w b l, w <> [] -> thread_step f off others (TWrite (w ++ b) l) (overwrite f off w) (off + length w) (TWrite b l)
| ts_error : forall b l, b <> [] -> thread_step f off others (TWrite b l) f off (TEnd false)
(** [src/save.c:90-93] *)
| ts_unlock : forall l, thread_step f off others (TWrite [] l) f off (TSave l)
(** [src/save.c:141] *)
| ts_end : thread_step f off others (TSave []) f off (TEnd true).

(** A step of one call of save [src/save.c:149-225]. Making threads does not fail. *)
Inductive save_step (sv : saver) : fs -> phase -> fs -> phase -> Prop :=
(** [src/save.c:158], without O_TRUNC *)
| ss_create : forall f, fs_names f (sv_work sv) = None ->
    save_step sv f POpen (mkFs (fs_names (set_name f (sv_work sv) (Some (fs_next f)))) (fs_data (set_data f (fs_next f) [])) (S (fs_next f)))
      (PRun (fs_next f) 0 (List.map (fun r => TSave (seq (fst r) (snd r))) (save_threads (N.to_nat (c_nshards (ctx_of o))) nprocs fast)))
| ss_reopen : forall f i, fs_names f (sv_work sv) = Some i ->
    save_step sv f POpen f
      (PRun i 0 (List.map (fun r => TSave (seq (fst r) (snd r))) (save_threads (N.to_nat (c_nshards (ctx_of o))) nprocs fast)))
(** [src/save.c:159-161] *)
| ss_noopen : forall f, save_step sv f POpen f (PDone false)
| ss_thread : forall f i off t1 t t2 d off' t',
    thread_step (fs_data f i) off (t1 ++ t2) t d off' t' ->
    save_step sv f (PRun i off (t1 ++ t :: t2)) (set_data f i d) (PRun i off' (t1 ++ t' :: t2))
(** [src/save.c:200-213] *)
| ss_joined : forall f i off ts, (forall t, In t ts -> t = TEnd true) -> save_step sv f (PRun i off ts) f (PRename i)
| ss_failed : forall f i off ts, (forall t, In t ts -> exists ok, t = TEnd ok) -> In (TEnd false) ts ->
    save_step sv f (PRun i off ts) f (PClose false)
(** [src/save.c:215-218] *)
| ss_rename : forall f i, fs_names f (sv_work sv) <> None -> save_step sv f (PRename i)
    (set_name (set_name f (sv_path sv) (fs_names f (sv_work sv))) (sv_work sv) None) (PClose true)
| ss_norename : forall f i, save_step sv f (PRename i) f (PClose false)
(** [src/save.c:220-224]; unlink may fail *)
| ss_unlink : forall f ok, save_step sv f (PClose ok) (set_name f (sv_work sv) None) (PDone ok)
| ss_nounlink : forall f ok, save_step sv f (PClose ok) f (PDone ok).

(** Any number of calls of save at the same time, each by a connection of its own
    [src/cmds.c:848-867,893-932]. *)
Inductive saves_step : fs * list saver -> fs * list saver -> Prop :=
| sas_step : forall f s1 sv s2 f' ph', save_step sv f (sv_phase sv) f' ph' ->
    saves_step (f, s1 ++ sv :: s2) (f', s1 ++ mkSaver (sv_path sv) (sv_work sv) ph' :: s2).
(** Steps of all threads, one after the other [src/save.c:53-225]. *)
Inductive saves_steps : fs * list saver -> fs * list saver -> Prop :=
| sass_refl : forall x, saves_steps x x
| sass_step : forall x y z, saves_steps x y -> saves_step y z -> saves_steps x z.
End Fs.
