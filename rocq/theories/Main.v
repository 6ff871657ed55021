(** The program options and what the server is started with (main.c). *)
From Verif Require Import Base Types Text Entry Cache IntText.
From Coq Require Import String.
Local Open Scope N_scope.
Notation length := List.length.

(** ** The flags *)
(** The variables that flags set [src/main.c:39-66, 459-473]. *)
Inductive var :=
| VPort | VHost | VSock | VVerb | VThreads | VShards | VBacklog | VQueue | VMaxmem | VEvict | VReuse | VUring | VNodelay
| VKeepalive | VQuickack | VTrack | VCas | VMaxconns | VLoad | VSixpack | VSeed | VAuth | VPersist | VNoticker | VSweep
| VWarmup | VAlloc | VTlsport | VTlscert | VTlsca | VTlskey | VMemmb.
(** Equality of variables (no counterpart in the code). *)
Definition var_eqb (a b : var) : bool :=
  match a, b with
  | VPort, VPort | VHost, VHost | VSock, VSock | VVerb, VVerb | VThreads, VThreads | VShards, VShards | VBacklog, VBacklog
  | VQueue, VQueue | VMaxmem, VMaxmem | VEvict, VEvict | VReuse, VReuse | VUring, VUring | VNodelay, VNodelay
  | VKeepalive, VKeepalive | VQuickack, VQuickack | VTrack, VTrack | VCas, VCas | VMaxconns, VMaxconns | VLoad, VLoad
  | VSixpack, VSixpack | VSeed, VSeed | VAuth, VAuth | VPersist, VPersist | VNoticker, VNoticker | VSweep, VSweep
  | VWarmup, VWarmup | VAlloc, VAlloc | VTlsport, VTlsport | VTlscert, VTlscert | VTlsca, VTlsca | VTlskey, VTlskey
  | VMemmb, VMemmb => true
  | _, _ => false
  end.
(** What was set so far; [None]: still the initial value. Numbers are kept as their text, and converted where they are used: the code
    converts them when it sets them [src/main.c:512-526]. *)
Definition settings := var -> option bytes.
(** Assignment to one variable [src/main.c:505-545]. *)
Definition assign (st : settings) (v : var) (x : bytes) : settings := fun w => if var_eqb w v then Some x else st w.

(** The three macros [src/main.c:256-283]: BFLAG, a name that is followed by a value; TFLAG, a name alone, with what it
    assigns; AFLAG, a name after two dashes, followed by a value or by an equals sign and the value. *)
Inductive flagdef := BFLAG (opt : string) (v : var) | TFLAG (opt : string) (v : var) (x : string) | AFLAG (name : string) (v : var).
(** [src/main.c:504-545], in order. Built with OpenSSL. *)
Definition flags : list flagdef :=
  [BFLAG "-p" VPort; BFLAG "-h" VHost; BFLAG "-s" VSock; TFLAG "-v" VVerb "1"; TFLAG "-vv" VVerb "2"; TFLAG "-vvv" VVerb "3";
   AFLAG "port" VPort; AFLAG "threads" VThreads; AFLAG "shards" VShards; AFLAG "backlog" VBacklog; AFLAG "queuesize" VQueue;
   AFLAG "maxmemory" VMaxmem; AFLAG "evict" VEvict; AFLAG "reuseport" VReuse; AFLAG "uring" VUring; AFLAG "tcpnodelay" VNodelay;
   AFLAG "keepalive" VKeepalive; AFLAG "quickack" VQuickack; AFLAG "trackallocs" VTrack; AFLAG "cas" VCas;
   AFLAG "maxconns" VMaxconns; AFLAG "loadfactor" VLoad; AFLAG "sixpack" VSixpack; AFLAG "seed" VSeed; AFLAG "auth" VAuth;
   AFLAG "persist" VPersist; AFLAG "noticker" VNoticker; AFLAG "autosweep" VSweep; AFLAG "warmup" VWarmup;
   AFLAG "allocator" VAlloc; AFLAG "tlsport" VTlsport; AFLAG "tlscert" VTlscert; AFLAG "tlscacert" VTlsca; AFLAG "tlskey" VTlskey;
   BFLAG "-t" VThreads; BFLAG "-m" VMemmb; TFLAG "-M" VEvict "no"].
(** Whether a string starts with another, and the rest after it: [strstr(argv[i], x) == argv[i]] in [src/main.c:279]. *)
Fixpoint after (p s : bytes) : option bytes :=
  match p, s with
  | [], _ => Some s
  | _ :: _, [] => None
  | a :: p, b :: s => if a =? b then after p s else None
  end.
(** What one word turns out to be [src/main.c:256-283]: an option whose value is the next word, or an assignment. *)
Inductive hit := HNext (v : var) | HSet (v : var) (x : bytes).
(** One arm of the chain of tests [src/main.c:256-283]. *)
Definition match_flag (f : flagdef) (a : bytes) : option hit :=
  match f with
  | BFLAG opt v => if beq a (bs opt) then Some (HNext v) else None
  | TFLAG opt v x => if beq a (bs opt) then Some (HSet v (bs x)) else None
  | AFLAG name v =>
      if beq a (bs "--" ++ bs name) then Some (HNext v)
      else match after (bs "--" ++ bs name ++ bs "=") a with Some x => Some (HSet v x) | None => None end
  end.
(** The whole chain [src/main.c:504-546]. *)
Fixpoint find_flag (fs : list flagdef) (a : bytes) : option hit :=
  match fs with
  | [] => None
  | f :: fs => match match_flag f a with Some h => Some h | None => find_flag fs a end
  end.
(** What becomes of the words [src/main.c:493-547]: settings, or the exit status. *)
Inductive parsed := Parsed (st : settings) | PExit (code : Z).
(** One pass over the words [src/main.c:495-547]. Pass 0 ([dry]) only looks for faults. *)
Fixpoint parse_flags (dry : bool) (args : list bytes) (st : settings) : parsed :=
  match args with
  | [] => Parsed st
  | a :: r =>
      if beq a (bs "--help") then PExit 0
      else if beq a (bs "--version") then PExit 0
      else match find_flag flags a with
           | None => PExit 1
           | Some (HSet v x) => parse_flags dry r (if dry then st else assign st v x)
           | Some (HNext v) =>
               match r with
               | [] => PExit 1
               | x :: r => parse_flags dry r (if dry then st else assign st v x)
               end
           end
  end.
(** Both passes [src/main.c:493-547]; the words are those after the name of the program. *)
Definition parse_args (args : list bytes) : parsed :=
  match parse_flags true args (fun _ => None) with
  | PExit n => PExit n
  | Parsed st => parse_flags false args st
  end.

(** ** Numbers *)
(** isspace [src/main.c:512] (inside atoi). *)
Definition is_space (c : N) : bool := (c =? 32) || ((9 <=? c) && (c <=? 13)).
(** The digits at the start of a string (inside atoi and strtoull [src/main.c:512, 528]). *)
Fixpoint lead_num (acc : N) (s : bytes) : N :=
  match s with
  | [] => acc
  | c :: r => if (48 <=? c) && (c <=? 57) then lead_num (10 * acc + (c - 48)) r else acc
  end.
(** Blanks are skipped (inside atoi and strtoull [src/main.c:512, 528]). *)
Fixpoint skip_space (s : bytes) : bytes := match s with [] => [] | c :: r => if is_space c then skip_space r else s end.
(** The sign and the number (inside atoi and strtoull [src/main.c:512, 528]). *)
Definition signed_num (s : bytes) : bool * N :=
  match skip_space s with
  | 45 :: r => (true, lead_num 0 r)
  | 43 :: r => (false, lead_num 0 r)
  | r => (false, lead_num 0 r)
  end.
(** atoi as in glibc, [(int)strtol(s, 0, 10)] [src/main.c:512-524]: cut to 64 bits at the ends, then the low 32 bits. *)
Definition atoi (s : bytes) : Z :=
  let '(neg, n) := signed_num s in
  let l := (if neg then Z.max INT64_MIN (- Z.of_N n) else Z.min INT64_MAX (Z.of_N n))%Z in
  let w := (l mod 2 ^ 32)%Z in
  if (w <? 2 ^ 31)%Z then w else (w - 2 ^ 32)%Z.
(** strtoull [src/main.c:528]. *)
Definition strtoull (s : bytes) : N :=
  let '(neg, n) := signed_num s in
  if two64 <=? n then two64 - 1 else if neg then (two64 - n) mod two64 else n.

(** ** What the server is started with *)
(** [src/main.c:753-762 opts, 814-833 nopts] and the globals of [79-99]; [cf_memlimit] is [None] for no limit. *)
Record config := mkConfig {
  cf_cache : opts; cf_threads : Z; cf_queue : Z; cf_maxconns : Z; cf_backlog : Z;
  cf_evict : bool; cf_reuse : bool; cf_track : bool; cf_nodelay : bool; cf_keepalive : bool; cf_autosweep : bool;
  cf_uring : bool; cf_quickack : bool; cf_sixpack : bool; cf_auth : bytes; cf_persist : bytes;
  cf_port : bytes; cf_tlsport : bytes; cf_sock : bytes; cf_host : bytes; cf_memlimit : option N; cf_warmup : bool }.
(** What becomes of the program [src/main.c:549-833]: it serves, or exits. *)
Inductive started := Started (c : config) | SExit (code : Z).
(** The initial values [src/main.c:39-66] and [487-491] for uring. *)
Definition initial (uring_avail : bool) (v : var) : bytes :=
  match v with
  | VPort => bs "9401" | VHost => bs "127.0.0.1" | VReuse => bs "no" | VNodelay => bs "yes" | VQuickack => bs "no" | VCas => bs "no"
  | VKeepalive => bs "yes" | VShards => bs "4096" | VBacklog => bs "1024" | VQueue => bs "128" | VMaxmem => bs "80%"
  | VEvict => bs "yes" | VLoad => bs "75" | VSixpack => bs "yes" | VTrack => bs "no" | VMaxconns => bs "1024" | VSweep => bs "yes"
  | VWarmup => bs "yes" | VAlloc => bs "mimalloc" | VUring => if uring_avail then bs "yes" else bs "no" | VThreads => bs "0"
  | VVerb => bs "0"
  | VPersist | VSock | VAuth | VTlsport | VTlscert | VTlsca | VTlskey | VNoticker | VSeed | VMemmb => []
  end.
(** The value of a variable after the flags [src/main.c:493-547]. *)
Definition text (uring_avail : bool) (st : settings) (v : var) : bytes :=
  match st v with Some x => x | None => initial uring_avail v end.
(** The tests for yes and no, as in [src/main.c:588-595]. *)
Definition yes_no (s : bytes) : option bool :=
  if beq s (bs "yes") then Some true else if beq s (bs "no") then Some false else None.
(** The port, as in [src/main.c:716-722, 724-734]: [None] if it is refused, empty if there is none. *)
Definition port_of (s : bytes) : option bytes :=
  if (match s with [] => true | _ => false end) || beq s (bs "0") then Some []
  else match parse_u64 s with Some n => if 65535 <? n then None else Some s | None => None end.
(** [src/main.c:549-762, 814-833], from the settings to what the cache and the network get. The outside: whether io_uring is available,
    the number of processors, the random seed, and [memlim], which stands for calc_memlimit [src/main.c:189-228]: [None] if it refuses
    the text, [Some None] for SIZE_MAX. Not modelled: messages, tls_init, setmaxrlimit. *)
Definition start (uring_avail : bool) (nprocs : Z) (seed0 : N) (memlim : bytes -> option (option N)) (args : list bytes) : started :=
  match parse_args args with
  | PExit n => SExit n
  | Parsed st =>
      let tx := text uring_avail st in
      if negb (beq (tx VAlloc) (bs "mimalloc") || beq (tx VAlloc) (bs "jemalloc") || beq (tx VAlloc) (bs "stock")) then SExit 1
      else
      let n := atoi (tx VThreads) in
      let threads := if (n <=? 0)%Z then nprocs else if (4096 <? n)%Z then 4096%Z else n in
      let n := atoi (tx VShards) in
      let shards := if (n <=? 0)%Z then 4096%Z else if (65536 <? n)%Z then 65536%Z else n in
      match yes_no (tx VEvict), yes_no (tx VReuse), yes_no (tx VTrack), yes_no (tx VNodelay), yes_no (tx VKeepalive), yes_no (tx VCas) with
      | Some evict, Some reuse, Some track, Some nodelay, Some keepalive, Some cas =>
          let n := atoi (tx VMaxconns) in
          let maxconns := if (n <=? 0)%Z then 1024%Z else n in
          match (if beq (tx VSweep) (bs "yes") then Some true else if beq (tx VCas) (bs "no") then Some false else None),
                yes_no (tx VUring), yes_no (tx VQuickack), yes_no (tx VSixpack) with
          | Some autosweep, Some uring, Some quickack, Some sixpack =>
              let n := atoi (tx VLoad) in
              let loadfactor := if (n <? 55)%Z then 55%Z else if (95 <? n)%Z then 95%Z else n in
              let n := atoi (tx VQueue) in
              let queue := if (n <? 1)%Z then 1%Z else if (4096 <? n)%Z then 4096%Z else n in
              let maxmem := match st VMemmb with Some mb => mb ++ bs "M" | None => tx VMaxmem end in
              match port_of (tx VPort), port_of (tx VTlsport) with
              | Some port, Some tlsport =>
                  match port, tlsport, tx VSock with
                  | [], [], [] => SExit 1
                  | _, _, _ =>
                      match memlim maxmem with
                      | None => SExit 1
                      | Some limit =>
                          Started (mkConfig
                            (mkOpts cas false false true shards loadfactor (match st VSeed with Some s => strtoull s | None => seed0 end))
                            threads queue maxconns (atoi (tx VBacklog))
                            (match limit with None => false | Some _ => evict end) reuse track nodelay keepalive autosweep
                            (uring && uring_avail) quickack sixpack (tx VAuth) (tx VPersist) port tlsport (tx VSock) (tx VHost) limit
                            (negb (beq (tx VWarmup) (bs "no"))))
                      end
                  end
              | _, _ => SExit 1
              end
          | _, _, _, _ => SExit 1
          end
      | _, _, _, _, _, _ => SExit 1
      end
  end.

(** ** Low memory mode *)
(** One round of memticker once the data is loaded [src/main.c:338-362]: the limit, the mode, and the memory in use. *)
Definition memtick (limit : option N) (lowmem : bool) (rss : N) : bool :=
  match limit with
  | None => lowmem
  | Some lim => if negb lowmem then (if lim <? rss then true else false) else (if rss <? lim then false else true)
  end.
