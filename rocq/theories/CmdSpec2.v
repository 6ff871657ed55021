(** The vocabulary of the properties of commands on several keys (C32), of
    authentication (C34) and of the commands on the whole cache (C50-C53). *)
From Verif Require Import Base Types Clamp Entry Hash Map Shard Spec Cache Refine Reach Observe PropItems
  Text IntText Prog CmdSpec.
From Coq Require Import String.
Local Open Scope N_scope.
Notation length := List.length.

(** [dec] prints numbers of 64 bits in decimal. *)
Definition prints (dec : N -> bytes) : Prop := forall x, x < 2 ^ 64 -> canonical (dec x) x.

(** The marks of the true ones. *)
Definition marks (l : list bool) : N := N.of_nat (length (List.filter (fun b => b) l)).
(** [l] says for each key whether it holds an item. *)
Definition present (o : opts) (ch : cache) (now : Z) (keys : list bytes) (l : list bool) : Prop :=
  Forall2 (fun k b => b = true <-> live o ch now k) keys l.

(** "name dec(n)", the tag of a finished Postgres command. *)
Definition pg_count (dec : N -> bytes) (name : string) (n : N) : list wr :=
  [PComplete (bs name ++ [32] ++ dec n); PReady].

Definition del_reply (dec : N -> bytes) (pr : proto) (n : N) : list wr :=
  match pr with
  | MEMCACHE => [WRaw (bs (if n =? 0 then "NOT_FOUND" else "DELETED") ++ crlf)]
  | POSTGRES => pg_count dec "DEL" n
  | HTTP => if n =? 0 then [WHttp 404 (bs "Not Found") (bs "Not Found" ++ crlf)]
            else [WHttp 200 (bs "OK") (bs "Deleted" ++ crlf)]
  | RESP => [WInt (Z.of_N n)]
  end.
Definition exists_reply (dec : N -> bytes) (pr : proto) (n : N) : list wr :=
  match pr with
  | POSTGRES => [PRowDesc [bs "exists"]; PRow [dec n]; PComplete (bs "EXISTS"); PReady]
  | _ => [WInt (Z.of_N n)]
  end.
Definition touch_reply (dec : N -> bytes) (pr : proto) (n : N) : list wr :=
  match pr with
  | MEMCACHE => [WRaw (bs (if n =? 0 then "NOT_FOUND" else "TOUCHED") ++ crlf)]
  | POSTGRES => pg_count dec "TOUCH" n
  | _ => [WInt (Z.of_N n)]
  end.

(** "VALUE key flags length [cas]", the value. *)
Definition value_line (dec : N -> bytes) (withcas : bool) (key : bytes) (v : view) : bytes :=
  bs "VALUE " ++ key ++ [32] ++ dec (v_flags v) ++ [32] ++ dec (N.of_nat (length (v_val v)))
  ++ (if withcas then [32] ++ dec (v_cas v) else []) ++ crlf ++ v_val v ++ crlf.
Definition get_reply (dec : N -> bytes) (pr : proto) (key : bytes) (old : option view) : list wr :=
  match pr, old with
  | MEMCACHE, Some v => [WRaw (value_line dec false key v)]
  | POSTGRES, Some v => [PRowDesc [bs "value"]; PRow [v_val v]; PComplete (bs "GET 1"); PReady]
  | POSTGRES, None => [PRowDesc [bs "value"]; PComplete (bs "GET 0"); PReady]
  | HTTP, Some v => [WHttp 200 (bs "OK") (v_val v)]
  | HTTP, None => [WHttp 404 (bs "Not Found") (bs "Not Found" ++ crlf)]
  | RESP, Some v => [WBulk (v_val v)]
  | _, None => [WNull]
  end.
(** One key of MGET or, with [withcas], MGETS. *)
Definition mget_one (dec : N -> bytes) (pr : proto) (withcas : bool) (p : bytes * option view) : list wr :=
  match pr, snd p with
  | MEMCACHE, Some v => [WRaw (value_line dec withcas (fst p) v)]
  | POSTGRES, Some v => [PRow (if withcas then [fst p; dec (v_flags v); dec (v_cas v); v_val v]
                               else [fst p; v_val v])]
  | HTTP, Some v => [WHttp 200 (bs "OK") (v_val v)]
  | RESP, Some v => if withcas then [WArray 3; WUint (v_flags v); WUint (v_cas v); WBulk (v_val v)]
                    else [WBulk (v_val v)]
  | RESP, None => [WNull]
  | _, None => []
  end.
Definition mget_reply (dec : N -> bytes) (pr : proto) (withcas : bool) (l : list (bytes * option view)) : list wr :=
  match pr with
  | MEMCACHE => [] | HTTP => []
  | POSTGRES => [PRowDesc (if withcas then [bs "key"; bs "flags"; bs "cas"; bs "value"] else [bs "key"; bs "value"])]
  | RESP => [WArray (N.of_nat (length l))]
  end ++ flat_map (mget_one dec pr withcas) l ++
  match pr with
  | MEMCACHE => [WRaw (bs "END" ++ crlf)]
  | POSTGRES => pg_count dec "MGET" (N.of_nat (length (List.filter (fun p => match snd p with Some _ => true | None => false end) l)))
  | _ => []
  end.
