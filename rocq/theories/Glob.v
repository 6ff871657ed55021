(** Patterns of KEYS and SCAN (util.c). *)
From Verif Require Import Base.
Local Open Scope N_scope.

(** [src/util.c:405-432 match]. At a star the code calls itself on the rest of
    the pattern and, if that fails, drops a byte of the string and goes on with
    the same pattern: the inner loop [star]. The nesting depth only grows at
    stars. Bytes: 92 backslash, 42 star, 63 question mark. *)
Fixpoint gmatch (pat : bytes) (depth : nat) {struct pat} : bytes -> bool :=
  match pat with
  | [] => fun str => match str with [] => true | _ => false end
  | b :: p =>
      if b =? 92 then
        match p with
        | [] => fun _ => false
        | ch :: p' => fun str => match str with
            | [] => false
            | x :: s => if negb (ch =? 63) && negb (x =? ch) then false else gmatch p' depth s
            end
        end
      else if b =? 42 then
        match p with
        | [] => fun _ => true
        | ch :: _ =>
            if ch =? 42 then gmatch p depth
            else if (depth =? 127)%nat then fun _ => false
            else fix star (str : bytes) : bool :=
              if gmatch p (S depth) str then true
              else match str with [] => false | _ :: s => star s end
        end
      else fun str => match str with
        | [] => false
        | x :: s => if negb (b =? 63) && negb (x =? b) then false else gmatch p depth s
        end
  end.

(** *** Specification: the language of a pattern *)
Inductive lang : bytes -> bytes -> Prop :=
| l_end : lang [] []
| l_lit : forall c p s, c <> 42 -> c <> 63 -> c <> 92 -> lang p s -> lang (c :: p) (c :: s)
| l_any : forall x p s, lang p s -> lang (63 :: p) (x :: s)
| l_esc : forall c p s, lang p s -> lang (92 :: c :: p) (c :: s)
| l_skip : forall p s, lang p s -> lang (42 :: p) s
| l_more : forall x p s, lang (42 :: p) s -> lang (42 :: p) (x :: s).

(** The number of groups of consecutive unescaped stars. For the statements, no counterpart in the code. *)
Fixpoint star_groups (p : bytes) : nat :=
  match p with
  | [] => O
  | b :: r =>
      if b =? 92 then match r with [] => O | _ :: r' => star_groups r' end
      else if b =? 42 then
        match r with
        | 42 :: _ => star_groups r
        | _ => S (star_groups r)
        end
      else star_groups r
  end.

(** No question mark is escaped. For the statements, no counterpart in the code. *)
Fixpoint no_escaped_any (p : bytes) : bool :=
  match p with
  | [] => true
  | b :: r =>
      if b =? 92 then match r with [] => true | c :: r' => negb (c =? 63) && no_escaped_any r' end
      else no_escaped_any r
  end.
