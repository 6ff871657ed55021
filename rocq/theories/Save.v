(** Saving and loading (save.c): the bytes of the file, and the threads that load
    it. LZ4 is external: two functions, of which the theorems assume that one
    undoes the other. The statistics of load are not modelled. *)
From Verif Require Import Base Types Clamp Varint Entry Hash Map Shard Cache Text.
From Coq Require Import String.
Local Open Scope N_scope.
Notation length := List.length.

(** * Checksums *)
(** One turn of the loop [src/util.c:234-236]. *)
Definition crc_bit (c : N) : N := if N.odd c then N.lxor 0xedb88320 (N.shiftr c 1) else N.shiftr c 1.
(** An entry of the table [src/util.c:233-237]. *)
Definition crc_table (n : N) : N := crc_bit (crc_bit (crc_bit (crc_bit (crc_bit (crc_bit (crc_bit (crc_bit n))))))).
(** [src/util.c:244] *)
Definition crc_byte (crc b : N) : N := N.lxor (crc_table (N.land (N.lxor crc b) 255)) (N.shiftr crc 8).
(** [src/util.c:228-247 crc32]; [~] is the exclusive or with all ones. *)
Definition crc32 (data : bytes) : N := N.lxor (fold_left crc_byte data 0xFFFFFFFF) 0xFFFFFFFF.

(** * Writing *)
(** [src/save.c:96-118 save_entry]: the bytes appended to the block for an item shown
    by the iteration. A failed assertion of line 109 stops the process. *)
Definition save_entry (time : Z) (key : bytes) (v : view) : out bytes :=
  let head := [0] ++ varint_write_u64 (N.of_nat (length key)) ++ key ++ varint_write_u64 (N.of_nat (length (v_val v))) ++ v_val v in
  let tail := varint_write_u64 (v_flags v) ++ varint_write_u64 (v_cas v) in
  if (0 <? v_exp v)%Z then
    let ttl := (v_exp v - time)%Z in
    if (0 <? ttl)%Z then Ok (head ++ varint_write_u64 (Z.to_N ttl) ++ tail) else Bad AssertFail
  else Ok (head ++ varint_write_u64 0 ++ tail).
(** The calls of save_entry made by one iteration, one after the other [src/save.c:96-118]. *)
Fixpoint save_entries (time : Z) (items : list (bytes * view)) : out bytes :=
  match items with
  | [] => Ok []
  | (k, v) :: r =>
      match save_entry time k v with
      | Bad t => Bad t
      | Ok a => match save_entries time r with Bad t => Bad t | Ok b => Ok (a ++ b) end
      end
  end.
(** [src/save.c:60-79] in flush: the bytes of a block. [compress] stands for
    LZ4_compress_default. *)
Definition block_text (compress : bytes -> bytes) (data : bytes) : bytes :=
  let z := compress data in
  bs "POGO" ++ le_bytes 4 (crc32 z) ++ le_bytes 4 (u32 (N.of_nat (length data))) ++ le_bytes 4 (u32 (N.of_nat (length z))) ++ z.
(** [src/save.c:123-133], one turn of the loop of thsave, on shard [i]: the block buffer, nothing
    if the shard shows no item [src/save.c:54]. [now] and [unix] are the clocks. *)
Definition shard_data (c : ctx) (en : env) (now unix : Z) (ch : cache) (i : nat) : out (cache * option bytes) :=
  match step c en ch (Iter (Some (fun _ _ _ => (false, false))) (Some (Z.of_nat i)) now) with
  | Ok (ch', RStatus _ items, _) =>
      match save_entries now items with
      | Bad t => Bad t
      | Ok data => Ok (ch', match items with [] => None | _ => Some (varint_write_u64 (u64_of_i64 unix) ++ data) end)
      end
  | Ok (_, _, _) => Bad Uninit
  | Bad t => Bad t
  end.
(** The loop of [src/save.c:175-191] in save: the first shard and the number of shards of
    each of the [n] threads that are left to make. *)
Fixpoint save_ranges (nshards per start n : nat) : list (nat * nat) :=
  match n with
  | O => []
  | S n' => let count := if (n' =? 0)%nat then (nshards - start)%nat else per in
            (start, count) :: save_ranges nshards per (start + count) n'
  end.
(** [src/save.c:162-191] in save, with the number of processors. *)
Definition save_threads (nshards nprocs : nat) (fast : bool) : list (nat * nat) :=
  let n := if (nshards <? nprocs)%nat then nshards else nprocs in
  let n := if fast then n else 1%nat in
  save_ranges nshards (nshards / n) 0 n.

(** * Reading *)
(** [src/save.c:228-231 struct cblock] *)
Record cblock := mkBlock { cb_data : bytes; cb_dlen : N }.
(** The loop of [src/save.c:467-542] in load: the blocks that are pushed, and whether the end
    of the file is reached without an error. [fuel] counts blocks. A file is a list of
    bytes; read returns what is left of it up to the number of bytes asked for, and
    does not fail. The crc is read in the byte order of the machine, which is
    taken to be that of write_u32. *)
Fixpoint read_blocks (fuel : nat) (s : bytes) : list cblock * bool :=
  match fuel with
  | O => ([], false)
  | S f =>
      match s with
      | [] => ([], true)
      | _ =>
          if (length s <? 16)%nat then ([], false)
          else if negb (beq (firstn 4 s) (bs "POGO")) then ([], false)
          else
            let crc := le_val (firstn 4 (skipn 4 s)) in
            let dlen := le_val (firstn 4 (skipn 8 s)) in
            let clen := le_val (firstn 4 (skipn 12 s)) in
            let rest := skipn 16 s in
            if N.of_nat (length rest) <? clen then ([], false)
            else
              let z := firstn (N.to_nat clen) rest in
              if negb (crc32 z =? crc) then ([], false)
              else let '(l, ok) := read_blocks f (skipn (N.to_nat clen) rest) in (mkBlock z dlen :: l, ok)
      end
  end.
(** The whole file [src/save.c:467-542]: a block takes a byte at least. *)
Definition read_file (s : bytes) : list cblock * bool := read_blocks (S (length s)) s.

(** The calls of varint_read_u64 in [src/save.c:273-344] with the tests of n: the number at
    the beginning of [s], and what follows it. *)
Definition get_varint (s : bytes) : option (N * bytes) :=
  match varint_read_u64 s with VOk n x => Some (x, skipn n s) | _ => None end.
(** [src/save.c:297-307, 310-320]: a length and that many bytes. *)
Definition get_bytes (s : bytes) : option (bytes * bytes) :=
  match get_varint s with
  | Some (x, r) => if N.of_nat (length r) <? x then None else Some (firstn (N.to_nat x) r, skipn (N.to_nat x) r)
  | None => None
  end.
(** The options of [src/save.c:354-359]. *)
Definition restore_opts (ttl : Z) (flags cas : N) : store_opts := mkStoreOpts 0 ttl cas flags false false false false false None.
(** The fields of an entry [src/save.c:285-344]: key, value, ttl, flags, cas, and what follows. *)
Definition get_entry (s : bytes) : option (bytes * bytes * Z * N * N * bytes) :=
  match s with
  | [] => None
  | kind :: s0 =>
      if negb (kind =? 0) then None
      else match get_bytes s0 with
      | None => None
      | Some (key, s1) =>
          match get_bytes s1 with
          | None => None
          | Some (val, s2) =>
              match get_varint s2 with
              | None => None
              | Some (t, s3) =>
                  if 2 ^ 63 <=? t then None
                  else match get_varint s3 with
                  | None => None
                  | Some (flags, s4) =>
                      if 2 ^ 32 <=? flags then None
                      else match get_varint s4 with
                      | None => None
                      | Some (cas, s5) => Some (key, val, Z.of_N t, flags, cas, s5)
                      end
                  end
              end
          end
      end
  end.
(** [src/save.c:345-361]: the store made for an entry, nothing if it has expired. *)
Definition restore (unixtime unixnow now : Z) (key val : bytes) (ttl : Z) (flags cas : N) : out (list call) :=
  if (0 <? ttl)%Z then
    match int64_add_clamp unixtime ttl with
    | None => Bad Overflow
    | Some e =>
        if (e <? unixnow)%Z then Ok []
        else match i64_chk (e - unixnow) with
        | None => Bad Overflow
        | Some ttl' => Ok [Store key val (restore_opts ttl' flags cas) now]
        end
    end
  else Ok [Store key val (restore_opts ttl flags cas) now].
(** The loop of [src/save.c:284-365] in load_block: the stores it makes, and whether it ends
    without an error. *)
Fixpoint load_entries (fuel : nat) (unixtime unixnow now : Z) (s : bytes) : out (list call * bool) :=
  match fuel with
  | O => Bad Hang
  | S f =>
      match s with
      | [] => Ok ([], true)
      | _ =>
          match get_entry s with
          | None => Ok ([], false)
          | Some (key, val, ttl, flags, cas, r) =>
              match restore unixtime unixnow now key val ttl flags cas with
              | Bad t => Bad t
              | Ok x =>
                  match load_entries f unixtime unixnow now r with
                  | Bad t => Bad t
                  | Ok (l, ok) => Ok (x ++ l, ok)
                  end
              end
          end
      end
  end.
(** [src/save.c:251-374 load_block] but for the effect of the stores. [decompress z n]
    stands for LZ4_decompress_safe into a buffer of [n] bytes: nothing if it returns
    a negative number, else the bytes it wrote. *)
Definition load_block (decompress : bytes -> N -> option bytes) (b : cblock) (now unixnow : Z) : out (list call * bool) :=
  match decompress (cb_data b) (cb_dlen b) with
  | None => Ok ([], false)
  | Some d =>
      if negb (N.of_nat (length d) =? cb_dlen b) then Ok ([], false)
      else match get_varint d with
      | None => Ok ([], false)
      | Some (x, r) =>
          if 2 ^ 63 <=? x then Ok ([], false)
          else load_entries (S (length r)) (Z.of_N x) unixnow now r
      end
  end.

(** ** The threads of load *)
(** A worker [src/save.c:376-409 thload]: it looks for a block, makes the stores of one whose
    end is [fin], or has ended. *)
Inductive worker := WIdle | WRun (stores : list call) (fin : bool) | WEnd.
(** [src/save.c:412-588 load]: the blocks that the reader has yet to push and the outcome of
    the reading; [ok] when the reader has set donereading; the queue; [failure]; the
    workers; the cache. *)
Record loading := mkLoading {
  ld_left : list cblock; ld_read : bool; ld_done : option bool; ld_queue : list cblock;
  ld_failure : bool; ld_workers : list worker; ld_cache : cache
}.
(** [src/save.c:425-466]. A thread that cannot be made is not modelled. *)
Definition load_start (s : bytes) (nprocs : nat) (ch : cache) : loading :=
  mkLoading (fst (read_file s)) (snd (read_file s)) None [] false (List.repeat WIdle nprocs) ch.
Section Load.
Variable c : ctx.
Variable decompress : bytes -> N -> option bytes.
(** The values that sys_now and sys_unixnow may have when a block is loaded. *)
Variable clocks : Z -> Z -> Prop.
(** The environments of the stores. *)
Variable envs : env -> Prop.
(** What a thread may do next, [src/save.c:376-409] and [src/save.c:518-552]. The lock makes the accesses to the queue
    atomic; each store is atomic (C25). Reading and decompressing touch nothing that
    is shared. To wait for the condition is to have no step; that no wake-up is lost
    is a matter of its own. *)
Inductive load_step : loading -> loading -> Prop :=
(** [src/save.c:383-388], a worker takes the last block of the queue *)
| ls_take : forall left rd dn q b ws1 ws2 ch now unixnow l fin,
    clocks now unixnow -> load_block decompress b now unixnow = Ok (l, fin) ->
    load_step (mkLoading left rd dn (q ++ [b]) false (ws1 ++ WIdle :: ws2) ch)
              (mkLoading left rd dn q false (ws1 ++ WRun l fin :: ws2) ch)
(** [src/save.c:361-363] *)
| ls_store : forall left rd dn q fl ws1 ws2 ch en x l fin ch' st sh evs,
    envs en -> step c en ch x = Ok (ch', RStatus st sh, evs) -> st = INSERTED \/ st = REPLACED ->
    load_step (mkLoading left rd dn q fl (ws1 ++ WRun (x :: l) fin :: ws2) ch)
              (mkLoading left rd dn q fl (ws1 ++ WRun l fin :: ws2) ch')
(** [src/save.c:389-396] *)
| ls_next : forall left rd dn q fl ws1 ws2 ch,
    load_step (mkLoading left rd dn q fl (ws1 ++ WRun [] true :: ws2) ch)
              (mkLoading left rd dn q fl (ws1 ++ WIdle :: ws2) ch)
| ls_fail : forall left rd dn q fl ws1 ws2 ch,
    load_step (mkLoading left rd dn q fl (ws1 ++ WRun [] false :: ws2) ch)
              (mkLoading left rd dn q true (ws1 ++ WEnd :: ws2) ch)
(** [src/save.c:380-382, 398-400] *)
| ls_end : forall left rd dn q fl ws1 ws2 ch, fl = true \/ (q = [] /\ dn <> None) ->
    load_step (mkLoading left rd dn q fl (ws1 ++ WIdle :: ws2) ch)
              (mkLoading left rd dn q fl (ws1 ++ WEnd :: ws2) ch)
(** [src/save.c:519-541], the reader pushes a block, or sees a failure and stops *)
| ls_push : forall b left rd q ws ch, (length q < length ws)%nat ->
    load_step (mkLoading (b :: left) rd None q false ws ch) (mkLoading left rd None (q ++ [b]) false ws ch)
| ls_stop : forall b left rd q ws ch,
    load_step (mkLoading (b :: left) rd None q true ws ch) (mkLoading (b :: left) rd (Some false) q true ws ch)
(** [src/save.c:469-517, 549-551], the end of the file or an error *)
| ls_read : forall rd q fl ws ch,
    load_step (mkLoading [] rd None q fl ws ch) (mkLoading [] rd (Some rd) q fl ws ch).
(** Any number of steps of the threads of [src/save.c:412-588]. *)
Inductive load_steps : loading -> loading -> Prop :=
| lss_refl : forall x, load_steps x x
| lss_step : forall x y z, load_steps x y -> load_step y z -> load_steps x z.
End Load.
(** All threads are joined and load returns [src/save.c:555-587]. *)
Definition load_ended (x : loading) : bool :=
  match ld_done x with Some _ => forallb (fun w => match w with WEnd => true | _ => false end) (ld_workers x) | None => false end.
(** What it returns, 0 or -1 [src/save.c:566, 587]. *)
Definition load_result (x : loading) : Z :=
  if match ld_done x with Some d => d | None => false end && negb (ld_failure x) then 0%Z else (-1)%Z.
