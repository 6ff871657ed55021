(** The hash table of the connections of a thread (net.c). *)
From Verif Require Import Base Hash.
Local Open Scope N_scope.

Section Cmap.
(** What is known of a connection besides its descriptor. *)
Variable V : Type.
(** [src/net.c:361-366 struct cmap]: the chain of a bucket is a list, the number of
    buckets is the length of the array. *)
Record cmap := mkCmap { cm_buckets : list (list (N * V)); cm_len : N }.
(** [src/net.c:899-903 qthread] *)
Definition cmap_new : cmap := mkCmap (repeat [] 64) 0.
(** [src/net.c:357-359 hashfd], cut to 32 bits by its callers; and the index of the bucket. *)
Definition cm_index (fd : N) (n : nat) : nat := N.to_nat ((mix13 fd mod 2 ^ 32) mod N.of_nat n).
(** One bucket changes. Assignment to an element of cmap->buckets [src/net.c:361-430]. *)
Fixpoint set_bucket (i : nat) (b : list (N * V)) (bs : list (list (N * V))) : list (list (N * V)) :=
  match bs, i with
  | [], _ => []
  | _ :: bs, O => b :: bs
  | x :: bs, S i => x :: set_bucket i b bs
  end.
(** [src/net.c:393] the table is due to grow. *)
Definition cm_full (m : cmap) : bool := let n := N.of_nat (length (cm_buckets m)) in n - n / 4 <=? cm_len m.
(** [src/net.c:397-400], the end of cmap_insert *)
Definition cm_link (fd : N) (v : V) (m : cmap) : cmap :=
  let i := cm_index fd (length (cm_buckets m)) in
  mkCmap (set_bucket i ((fd, v) :: nth i (cm_buckets m) []) (cm_buckets m)) (cm_len m + 1).
(** [src/net.c:370-387 cmap_grow]: [None] if the new table would have to grow as well
    while it is filled. *)
Definition cmap_grow (m : cmap) : option cmap :=
  fold_left (fun m2 c => match m2 with None => None | Some m2 => if cm_full m2 then None else Some (cm_link (fst c) (snd c) m2) end)
    (concat (cm_buckets m)) (Some (mkCmap (repeat [] (length (cm_buckets m) * 2)) 0)).
(** [src/net.c:389-401 cmap_insert] *)
Definition cmap_insert (fd : N) (v : V) (m : cmap) : option cmap :=
  match (if cm_full m then cmap_grow m else Some m) with None => None | Some m => Some (cm_link fd v m) end.
(** [src/net.c:403-412 cmap_get] *)
Definition cmap_get (fd : N) (m : cmap) : option V :=
  match find (fun c => fst c =? fd) (nth (cm_index fd (length (cm_buckets m))) (cm_buckets m) []) with
  | Some c => Some (snd c)
  | None => None
  end.
(** The loop of cmap_delete on a chain: [None] when the end is reached and the null pointer
    is followed. Connections are told apart by their descriptors. [src/net.c:414-430 cmap_delete] *)
Fixpoint chain_delete (fd : N) (b : list (N * V)) : option (list (N * V)) :=
  match b with
  | [] => None
  | c :: b => if fst c =? fd then Some b else match chain_delete fd b with None => None | Some b => Some (c :: b) end
  end.
(** [src/net.c:414-430 cmap_delete]; the number of connections is not changed. *)
Definition cmap_delete (fd : N) (m : cmap) : option cmap :=
  let i := cm_index fd (length (cm_buckets m)) in
  match chain_delete fd (nth i (cm_buckets m) []) with
  | None => None
  | Some b => Some (mkCmap (set_bucket i b (cm_buckets m)) (cm_len m))
  end.

(** What the thread does: a connection opens or is closed. For the statements, no counterpart in the code. *)
Inductive cop := COpen (fd : N) (v : V) | CClose (fd : N).
(** [src/net.c:376-401 cmap_insert, 414-430 cmap_delete] *)
Definition cop_run (o : cop) (m : cmap) : option cmap :=
  match o with COpen fd v => cmap_insert fd v m | CClose fd => cmap_delete fd m end.
(** For the statements, no counterpart in the code. *)
Fixpoint cops_run (os : list cop) (m : cmap) : option cmap :=
  match os with [] => Some m | o :: os => match cop_run o m with None => None | Some m => cops_run os m end end.
(** Specification: the open connections; only a descriptor that is not in use is opened, only one
    that is in use is closed. *)
Definition cspec (o : cop) (f : N -> option V) : N -> option V :=
  match o with
  | COpen fd v => fun x => if x =? fd then Some v else f x
  | CClose fd => fun x => if x =? fd then None else f x
  end.
(** For the statements, no counterpart in the code. *)
Definition cmay (o : cop) (f : N -> option V) : Prop :=
  match o with COpen fd _ => f fd = None | CClose fd => f fd <> None end.
(** For the statements, no counterpart in the code. *)
Fixpoint cmay_all (os : list cop) (f : N -> option V) : Prop :=
  match os with [] => True | o :: os => cmay o f /\ cmay_all os (cspec o f) end.
End Cmap.
Arguments mkCmap {V}. Arguments cm_buckets {V}. Arguments cm_len {V}. Arguments cmap_new {V}. Arguments set_bucket {V}. Arguments cm_full {V}. Arguments cm_link {V}.
Arguments cmap_grow {V}. Arguments cmap_insert {V}. Arguments cmap_get {V}. Arguments chain_delete {V}. Arguments cmap_delete {V}.
Arguments COpen {V}. Arguments CClose {V}. Arguments cop_run {V}. Arguments cops_run {V}. Arguments cspec {V}. Arguments cmay {V}. Arguments cmay_all {V}.
