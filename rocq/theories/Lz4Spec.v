(** The LZ4 block format, from its description at the head of lz4.h and the comments in lz4.c on the end of a block [src/lz4.c:241-262]:
    a block is a row of sequences, each some literals and a match, and last literals. No definition here is part of the model. *)
From Verif Require Import Base.
Local Open Scope nat_scope.
Notation length := List.length.

(** A sequence: some bytes as they are, then [mlen] bytes that repeat what is [off] bytes back. *)
Record seq := { lits : bytes; off : nat; mlen : nat }.
(** The sequences of a block, and its last literals. *)
Definition block : Type := list seq * bytes.

(** What a block stands for. *)
Fixpoint extend (out : bytes) (off k : nat) : bytes :=
  match k with O => out | S k => extend (out ++ [nth (length out - off) out 0%N]) off k end.
Definition expand_seq (out : bytes) (s : seq) : bytes := extend (out ++ lits s) (off s) (mlen s).
Definition expand (b : block) : bytes := fold_left expand_seq (fst b) [] ++ snd b.

(** How many bytes sequences stand for. *)
Fixpoint size (l : list seq) : nat := match l with [] => 0 | s :: l => length (lits s) + mlen s + size l end.
(** The rules: a match has at least 4 bytes; its distance is 1 to 65535 and reaches only what is there; the last 5 bytes are literals; the last match
    begins at least 12 bytes before the end. [n] is how many bytes come before. *)
Fixpoint rules (n : nat) (l : list seq) (last : nat) : Prop :=
  match l with
  | [] => True
  | s :: l =>
      4 <= mlen s /\ 1 <= off s /\ (N.of_nat (off s) <= 65535)%N /\ off s <= n + length (lits s) /\
      5 <= last /\ 12 <= mlen s + size l + last /\
      rules (n + length (lits s) + mlen s) l last
  end.
Definition proper (b : block) : Prop := rules 0 (fst b) (length (snd b)).

(** How it is written: a length from 15 on goes on after the token, 255 at a time. *)
Definition nibble (n : nat) : nat := Nat.min n 15.
Definition more (n : nat) : bytes := if n <? 15 then [] else repeat 255%N ((n - 15) / 255) ++ [N.of_nat ((n - 15) mod 255)].
Definition write_seq (s : seq) : bytes :=
  [N.of_nat (16 * nibble (length (lits s)) + nibble (mlen s - 4))] ++ more (length (lits s)) ++ lits s ++
  [N.of_nat (off s) mod 256; N.of_nat (off s) / 256]%N ++ more (mlen s - 4).
Definition write (b : block) : bytes :=
  flat_map write_seq (fst b) ++ [N.of_nat (16 * nibble (length (snd b)))] ++ more (length (snd b)) ++ snd b.
