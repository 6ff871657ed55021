(** LOAD while other clients use the cache. *)
From Verif Require Import Base Types Clamp Entry Hash Map Shard Spec Cache Refine Reach PropCache Save.
Local Open Scope N_scope.

(** A change of the cache: whether a thread of LOAD made it, what was before and what after [src/cmds.c:848-867, src/save.c:361]. *)
Record change := mkChange { cg_load : bool; cg_before : cache; cg_after : cache }.
(** The same load with another cache: its threads share nothing but the cache with the others [src/save.c:412-588]. *)
Definition with_cache (x : loading) (ch : cache) : loading :=
  mkLoading (ld_left x) (ld_read x) (ld_done x) (ld_queue x) (ld_failure x) (ld_workers x) ch.
Section Live.
Variable c : ctx.
Variable decompress : bytes -> N -> option bytes.
Variable clocks : Z -> Z -> Prop.
Variable envs : env -> Prop.
(** From [x] on, with the changes so far: a step of a thread of LOAD [src/save.c:376-552], which runs in the background [src/cmds.c:855-867, 925], or a
    call of the cache by the command of another client. *)
Inductive live (x : loading) : list change -> loading -> Prop :=
| lv_start : live x [] x
| lv_load : forall t y z, live x t y -> load_step c decompress clocks envs y z ->
    live x (t ++ [mkChange true (ld_cache y) (ld_cache z)]) z
| lv_call : forall t y en op ch r evs, live x t y -> call_ok c en (cabs c (ld_cache y)) op -> step c en (ld_cache y) op = Ok (ch, r, evs) ->
    live x (t ++ [mkChange false (ld_cache y) ch]) (with_cache y ch).
End Live.
