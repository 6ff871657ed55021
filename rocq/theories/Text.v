(** Literal text as bytes. *)
From Coq Require Import String Ascii.
From Verif Require Import Base.

(** The bytes of a C string literal, without the terminating zero. String literals, in all files, e.g. [src/conn.h:21-25]. *)
Fixpoint bs (s : string) : bytes :=
  match s with
  | EmptyString => []
  | String a r => N_of_ascii a :: bs r
  end.
(** The line end used by the text protocols. [src/conn.c:230-240 writeln] *)
Definition crlf : bytes := [13; 10]%N.
