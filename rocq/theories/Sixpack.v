(** Six-bit key packing. *)
From Verif Require Import Base.
Local Open Scope N_scope.

(** [src/pogocache.c:161-170 tosix] (entries 128..255 are zero in C by default
    initialisation). *)
Definition tosix_tbl : list N := [
     0;  0;  0;  0;  0;  0;  0;  0;  0;  0;  0;  0;  0;  0;  0;  0;
     0;  0;  0;  0;  0;  0;  0;  0;  0;  0;  0;  0;  0;  0;  0;  0;
     0;  0;  0;  0;  0;  0;  0;  0;  0;  0;  0;  0;  0;  1;  2;  0;
     3;  4;  5;  6;  7;  8;  9; 10; 11; 12; 13;  0;  0;  0;  0;  0;
     0; 14; 15; 16; 17; 18; 19; 20; 21; 22; 23; 24; 25; 26; 27; 28;
    29;  0; 30; 31; 32; 33; 34; 35; 36; 37;  0;  0;  0;  0;  0; 38;
     0; 39; 40; 41; 42; 43; 44; 45; 46; 47; 48; 49; 50; 51; 52; 53;
    54; 55; 56; 57; 58; 59; 60; 61; 62; 63;  0;  0;  0;  0;  0;  0 ].
(** As above: [src/pogocache.c:161-170 tosix]. *)
Definition tosix (b : N) : N := nth (N.to_nat b) tosix_tbl 0.

(** [src/pogocache.c:172-178 fromsix], characters written as their codes. The
    index is always below 64 (proved for byte input), so the default of [nth]
    is never used. *)
Definition fromsix_tbl : list N := [
      0; 45; 46; 48; 49; 50; 51; 52; 53; 54; 55; 56; 57; 58;
     65; 66; 67; 68; 69; 70; 71; 72; 73; 74; 75; 76; 77; 78;
     79; 80; 82; 83; 84; 85; 86; 87; 88; 89; 95; 97; 98; 99;
    100; 101; 102; 103; 104; 105; 106; 107; 108; 109; 110; 111; 112; 113;
    114; 115; 116; 117; 118; 119; 120; 121 ].
(** As above: [src/pogocache.c:172-178 fromsix]. *)
Definition fromsix (x : N) : N := nth (N.to_nat x) fromsix_tbl 0.

(** [src/pogocache.c:189-210 sixpack]. [dst] is kept reversed, so its head is
    [dst[j-1]]; the result is the filled part of dst in order. A result of
    length 0 is the C return value 0 (not packable, or empty input). *)
Definition or_head (x : N) (dst : bytes) : bytes :=
  match dst with [] => [] | h :: r => N.lor h x :: r end.
(** As above: [src/pogocache.c:189-210 sixpack]. *)
Fixpoint sixpack_loop (data : bytes) (i : N) (dst : bytes) : bytes :=
  match data with
  | [] => rev dst
  | b :: rest =>
      let k6v := tosix b in
      if k6v =? 0 then []
      else
        let dst' :=
          if i mod 4 =? 0 then u8 (N.shiftl k6v 2) :: dst
          else if i mod 4 =? 1 then
            u8 (N.shiftl k6v 4) :: or_head (N.shiftr k6v 4) dst
          else if i mod 4 =? 2 then
            u8 (N.shiftl k6v 6) :: or_head (N.shiftr k6v 2) dst
          else or_head k6v dst in
        sixpack_loop rest (i + 1) dst'
  end.
(** As above: [src/pogocache.c:189-210 sixpack]. *)
Definition sixpack (data : bytes) : bytes := sixpack_loop data 0 [].

(** [src/pogocache.c:216-237 unsixpack]. [prev] is [bytes[i-1]] (used only when
    k > 0), [dst] is kept reversed. *)
Fixpoint unsixpack_loop (data : bytes) (prev : N) (k : N) (dst : bytes)
  : bytes :=
  match data with
  | [] => dst
  | b :: rest =>
      if k =? 0 then
        unsixpack_loop rest b 1 (fromsix (N.shiftr b 2) :: dst)
      else if k =? 1 then
        unsixpack_loop rest b 2
          (fromsix (N.land (N.lor (N.shiftl prev 4) (N.shiftr b 4)) 63) :: dst)
      else
        unsixpack_loop rest b 0
          (fromsix (N.land b 63)
           :: fromsix (N.land (N.lor (N.shiftl prev 2) (N.shiftr b 6)) 63)
           :: dst)
  end.
(** As above: [src/pogocache.c:216-237 unsixpack]. *)
Definition unsixpack (data : bytes) : bytes :=
  match unsixpack_loop data 0 0 [] with
  | [] => []
  | h :: r => if h =? 0 then rev r else rev (h :: r)
  end.
