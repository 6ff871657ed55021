(** What the properties of saving and loading are about (C42-C44). Nothing here
    depends on how files are written or read. *)
From Verif Require Import Base Types Clamp Entry Hash Map Shard Spec Cache Refine Reach Observe PropCache CmdSpec Save.
From Coq Require Import Permutation.
Local Open Scope N_scope.

(** Decompressing undoes compressing, up to the size that LZ4 accepts. *)
Definition lz_ok (compress : bytes -> bytes) (decompress : bytes -> N -> option bytes) : Prop :=
  forall s, bytes_ok s -> N.of_nat (length s) <= 0x7E000000 ->
    bytes_ok (compress s) /\ N.of_nat (length (compress s)) < 2 ^ 32 /\
    decompress (compress s) (N.of_nat (length s)) = Some s.

(** Both clocks are 64-bit numbers of nanoseconds. *)
Definition times_ok (now unix : Z) : Prop := (0 < now <= INT64_MAX)%Z /\ (0 <= unix < INT64_MAX)%Z.

(** A picture of a shard: the cache and the clocks when it was saved. *)
Record shot := mkShot { sh_cache : cache; sh_now : Z; sh_unix : Z }.
Definition shot_ok (o : opts) (s : shot) : Prop :=
  reachable (ctx_of o) (sh_cache s) /\ times_ok (sh_now s) (sh_unix s).

(** [made o s i d]: saving shard [i] at [s] makes the block [d], or no block. *)
Definition made_block (o : opts) (s : shot) (i : nat) (d : option bytes) : Prop :=
  exists en ch', shard_data (ctx_of o) en (sh_now s) (sh_unix s) (sh_cache s) i = Ok (ch', d).
(** A file that holds the blocks of all shards, each at its own moment, in any
    order. *)
Definition saved_file (o : opts) (compress : bytes -> bytes) (shots : nat -> shot) (file : bytes) : Prop :=
  exists ds order,
    length ds = N.to_nat (c_nshards (ctx_of o)) /\
    (forall i d, nth_error ds i = Some d -> made_block o (shots i) i d /\
       forall s, d = Some s -> N.of_nat (length s) <= 0x7E000000) /\
    Permutation order (flat_map (fun d => match d with Some s => [s] | None => [] end) ds) /\
    file = List.concat (List.map (block_text compress) order).

(** The moment, on the wall clock, at which the time [e] comes, if the clocks show
    [now] and [unix] at the same moment. *)
Definition instant (now unix e : Z) : Z := (unix + (e - now))%Z.

(** [key] held [v] when its shard was saved at [(now, unix)]. It has been loaded at
    [(now', unix')] into a cache that was [ch0] and is now [ch]. *)
Inductive came_back (o : opts) (ch0 ch : cache) (key : bytes) (v : view) (now unix now' unix' : Z) : Prop :=
| cb_forever : forall tok, v_exp v = 0%Z ->
    holds o ch key (mkView (v_val v) 0 (v_flags v) tok) -> came_back o ch0 ch key v now unix now' unix'
| cb_until : forall e tok, v_exp v <> 0%Z -> (unix' < instant now unix (v_exp v))%Z ->
    (instant now unix (v_exp v) <= INT64_MAX -> now' + (instant now unix (v_exp v) - unix') <= INT64_MAX ->
     instant now' unix' e = instant now unix (v_exp v))%Z ->
    (* beyond the year 2262 times are cut off *)
    (0 < e <= INT64_MAX)%Z ->
    holds o ch key (mkView (v_val v) e (v_flags v) tok) -> came_back o ch0 ch key v now unix now' unix'
| cb_past : v_exp v <> 0%Z -> (instant now unix (v_exp v) < unix')%Z ->
    same_at (ctx_of o) ch0 ch key -> came_back o ch0 ch key v now unix now' unix'
(** loaded at the very instant it expires, an item stays for ever *)
| cb_brink : forall tok, v_exp v <> 0%Z -> instant now unix (v_exp v) = unix' ->
    holds o ch key (mkView (v_val v) 0 (v_flags v) tok) -> came_back o ch0 ch key v now unix now' unix'.

(** There is room in [ch0] for the keys [K]. *)
Definition room_for (o : opts) (ch0 : cache) (K : bytes -> Prop) : Prop :=
  forall m key, (forall k, m k <> None -> cabs (ctx_of o) ch0 k <> None \/ K k) -> K key -> roomy (ctx_of o) m key.
(** Memory can be had. *)
Definition mem_fine (en : env) : Prop :=
  forall s, al_entry (en_mem en s) = true /\ al_table (en_mem en s) = true.

(** [n] steps of the threads of load. *)
Inductive load_many (c : ctx) (decompress : bytes -> N -> option bytes) (clocks : Z -> Z -> Prop) (envs : env -> Prop)
  : nat -> loading -> loading -> Prop :=
| lm_0 : forall x, load_many c decompress clocks envs 0 x x
| lm_S : forall n x y z, load_many c decompress clocks envs n x y -> load_step c decompress clocks envs y z ->
    load_many c decompress clocks envs (S n) x z.

(** ** Corruption *)
(** A block as the format has it: a mark, the checksum of the payload, the length of
    the data, the length of the payload, the payload. *)
Definition framed (crc dlen : N) (z : bytes) : bytes :=
  [80; 79; 71; 79] ++ le_bytes 4 crc ++ le_bytes 4 dlen ++ le_bytes 4 (N.of_nat (length z)) ++ z.
(** A block whose checksum matches. *)
Definition intact (b : bytes) : Prop :=
  exists dlen z, dlen < 2 ^ 32 /\ N.of_nat (length z) < 2 ^ 32 /\ bytes_ok z /\ b = framed (crc32 z) dlen z.
(** Bits of a byte string, in the order of the checksum. *)
Definition data_bit (d : bytes) (i : N) : bool := N.testbit (nth (N.to_nat (i / 8)) d 0) (i mod 8).
(** [a] and [b] differ, and only within 32 bits in a row. *)
Definition burst (a b : bytes) : Prop :=
  length a = length b /\ a <> b /\ exists k, forall i, data_bit a i <> data_bit b i -> k <= i < k + 32.
