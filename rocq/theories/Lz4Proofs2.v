(** Proofs about the LZ4 decompressor: what one round does. *)
From Verif Require Import Base Lz4 Lz4Proofs1.
Local Open Scope nat_scope.
Notation length := List.length.

Section Decode.
Variable src : bytes.
Hypothesis SB : bytes_ok src.
Variable osz : nat.
Notation n := (length src).

(** A length that goes on, in the input. *)
Inductive ext_at : nat -> nat -> nat -> Prop :=
| ext_stop ip b : nth_error src ip = Some b -> b <> 255%N -> ext_at ip (N.to_nat b) (S ip)
| ext_more ip v ip' : nth_error src ip = Some 255%N -> ext_at (S ip) v ip' -> ext_at ip (255 + v) ip'.
Lemma ext_at_det ip v ip' : ext_at ip v ip' -> forall w iw, ext_at ip w iw -> v = w /\ ip' = iw.
Proof.
  induction 1 as [ip b E N|ip v ip' E X IH]; intros w iw Y; inversion Y as [? b' E' N'|? v' ? E' X']; subst.
  - rewrite E in E'. injection E' as ->. split; reflexivity.
  - rewrite E in E'. congruence.
  - rewrite E in E'. congruence.
  - destruct (IH _ _ X') as [-> ->]. split; reflexivity.
Qed.
Lemma ext_at_in ip v ip' : ext_at ip v ip' -> ip < ip' <= n.
Proof.
  induction 1 as [ip b E N|ip v ip' E X IH].
  - assert (ip < n) by (apply nth_error_Some; congruence). lia.
  - lia.
Qed.
Definition len_at (ip nib v ip' : nat) : Prop :=
  (nib < 15 /\ v = nib /\ ip' = ip) \/ (nib = 15 /\ exists w, ext_at ip w ip' /\ v = 15 + w).
Lemma len_at_det ip nib v ip' w iw : len_at ip nib v ip' -> len_at ip nib w iw -> v = w /\ ip' = iw.
Proof.
  intros [(A & B & C)|(A & x & B & C)] [(A' & B' & C')|(A' & x' & B' & C')]; try lia.
  destruct (ext_at_det _ _ _ B _ _ B') as [X Y]. lia.
Qed.
Lemma len_at_in ip nib v ip' : len_at ip nib v ip' -> ip <= ip'.
Proof. intros [(A & B & C)|(A & x & B & C)]; [lia|]. apply ext_at_in in B. lia. Qed.

Lemma byte_at_ok ip : ip < n -> exists b, byte_at src ip = Fine b /\ b < 256.
Proof.
  intros H. unfold byte_at. destruct (nth_error src ip) as [b|] eqn:E; [|apply nth_error_None in E; lia].
  exists (N.to_nat b). split; [reflexivity|]. apply nth_error_In in E.
  unfold bytes_ok in SB. rewrite Forall_forall in SB. specialize (SB _ E). unfold byte_ok in SB. lia.
Qed.
Lemma byte_at_in ip b : byte_at src ip = Fine b -> ip < n.
Proof. unfold byte_at. intros H. apply nth_error_Some. destruct (nth_error src ip); congruence. Qed.
Lemma offset_at_ok ip : ip + 2 <= n -> exists o, offset_at src ip = Fine o.
Proof.
  intros H. unfold offset_at. destruct (byte_at_ok ip) as (a & -> & _); [lia|]. destruct (byte_at_ok (S ip)) as (b & -> & _); [lia|].
  cbn [andthen]. eexists. reflexivity.
Qed.
Lemma offset_at_in ip o : offset_at src ip = Fine o -> ip + 2 <= n.
Proof.
  unfold offset_at. destruct (byte_at src ip) as [a|]; [|discriminate]. cbn [andthen].
  destruct (byte_at src (S ip)) as [b|] eqn:E; [|discriminate]. intros _. apply byte_at_in in E. lia.
Qed.

Lemma rvl_loop_ok fuel : forall ip back acc, n < ip + fuel -> ip < n -> 0 < back ->
  (exists v ip', rvl_loop src fuel ip back acc = Fine (Some (acc + v, ip')) /\ ext_at ip v ip' /\ ip' + back <= n) \/
  (rvl_loop src fuel ip back acc = Fine None /\ forall v ip', ext_at ip v ip' -> n < ip' + back).
Proof.
  induction fuel as [|fuel IH]; intros ip back acc F I B; [lia|]. cbn [rvl_loop]. unfold byte_at.
  destruct (nth_error src ip) as [b|] eqn:E; [|apply nth_error_None in E; lia]. cbn [andthen].
  destruct (Nat.ltb_spec n (S ip + back)) as [A|A].
  - right. split; [reflexivity|]. intros v ip' X. apply ext_at_in in X. lia.
  - destruct (Nat.eqb_spec (N.to_nat b) 255) as [C|C].
    + assert (b = 255%N) by lia. subst b. change (N.to_nat 255) with 255 in *.
      destruct (IH (S ip) back (acc + 255)) as [(v & ip' & E' & X & L)|(E' & X)]; [lia..| |].
      * left. exists (255 + v), ip'. split; [rewrite E'; f_equal; f_equal; f_equal; lia|]. split; [|exact L]. apply ext_more; assumption.
      * right. split; [exact E'|]. intros v ip' Y. inversion Y as [? b' E2 N2|? v' ? E2 X2]; subst; [congruence|].
        apply X in X2. exact X2.
    + left. exists (N.to_nat b), (S ip). split; [reflexivity|]. split; [|exact A]. apply ext_stop; [exact E|lia].
Qed.
Lemma rvl_ok ip back check : 0 < back -> (check = true \/ ip < n) ->
  (exists v ip', rvl src ip back check = Fine (Some (v, ip')) /\ ext_at ip v ip' /\ ip' + back <= n) \/
  (rvl src ip back check = Fine None /\ forall v ip', ext_at ip v ip' -> n < ip' + back).
Proof.
  intros B C. unfold rvl. destruct check; cbn [andb].
  - destruct (Nat.leb_spec n (ip + back)) as [A|A].
    + right. split; [reflexivity|]. intros v ip' X. apply ext_at_in in X. lia.
    + apply rvl_loop_ok; lia.
  - destruct C as [C|C]; [discriminate|]. apply rvl_loop_ok; lia.
Qed.

(** ** The match *)
Lemma match_safe_ok mem ip op len o : length mem = osz -> op + 12 <= osz -> 4 <= len ->
  if (o <=? op) && (op + len + 5 <=? osz)
  then exists mem', match_safe osz mem ip op len o = Fine (DGo false mem' ip (op + len)) /\ copied mem mem' op (op + len) o
  else match_safe osz mem ip op len o = Fine DErr.
Proof.
  intros M H L. unfold match_safe. destruct (Nat.leb_spec o op) as [A|A]; cbn [andb].
  2:{ destruct (Nat.ltb_spec op o) as [_|B]; [reflexivity|lia]. }
  destruct (Nat.ltb_spec op o) as [B|_]; [lia|].
  destruct (first8_ok mem op (op - o) o) as (m1 & m & D & E1 & C1 & MD & P & G); [lia..|]. rewrite E1. cbn [andthen].
  pose proof (proj1 C1) as L1. cbv zeta.
  destruct (Nat.ltb_spec osz (op + len + 12)) as [B|B].
  - destruct (Nat.leb_spec (op + len + 5) osz) as [X|X].
    2:{ destruct (Nat.ltb_spec osz (op + len + 5)) as [_|Y]; [reflexivity|lia]. }
    destruct (Nat.ltb_spec osz (op + len + 5)) as [Y|_]; [lia|].
    destruct (Nat.ltb_spec (op + 8 + 7) osz) as [Y|Y].
    + destruct (wild8_ok (S (osz - 7)) m1 (op + 8) m (osz - 7) D) as (m2 & f & E2 & C2 & F1 & F2); [lia..|]. rewrite E2. cbn [andthen].
      pose proof (proj1 C2) as L2. apply copied_shorter with (e := osz - 7) in C2; [|exact F1].
      destruct (bytecopy_ok (op + len - (osz - 7)) m2 (osz - 7) (m + (osz - 7 - (op + 8))) D) as (m3 & E3 & C3); [lia..|].
      rewrite E3. cbn [andthen]. exists m3. split; [reflexivity|].
      apply copied_shorter with (f := osz - 7 + (op + len - (osz - 7))); [|lia]. apply G.
      apply copied_trans with (m1 := m2) (e := osz - 7); [exact C2|exact C3|lia].
    + destruct (bytecopy_ok (op + len - (op + 8)) m1 (op + 8) m D) as (m3 & E3 & C3); [lia..|].
      rewrite E3. cbn [andthen]. exists m3. split; [reflexivity|].
      apply copied_shorter with (f := op + 8 + (op + len - (op + 8))); [|lia]. apply G. exact C3.
  - destruct (Nat.leb_spec (op + len + 5) osz) as [X|X]; [|lia].
    destruct (memcpy_ok m1 (op + 8) m 8 D) as (m2 & E2 & C2); [lia..|]. rewrite E2. cbn [andthen]. pose proof (proj1 C2) as L2.
    destruct (Nat.ltb_spec 16 len) as [Y|Y].
    + destruct (wild8_ok (S (op + len)) m2 (op + 8 + 8) (m + 8) (op + len) D) as (m3 & f & E3 & C3 & F1 & F2); [lia..|]. rewrite E3. cbn [andthen].
      exists m3. split; [reflexivity|]. apply copied_shorter with (f := f); [|exact F1]. apply G.
      apply copied_trans with (m1 := m2) (e := op + 8 + 8); [exact C2|exact C3|lia].
    + exists m2. split; [reflexivity|]. apply copied_shorter with (f := op + 8 + 8); [|lia]. apply G. exact C2.
Qed.

(** What a match part comes to: an error, or [ml] bytes and the input read up to [ip']. *)
Definition mplan : Type := option (bool * nat * nat).
Definition mdoes (p : mplan) (mem : bytes) (op o : nat) (r : lz dres) : Prop :=
  match p with
  | None => r = Fine DErr
  | Some (fast, ml, ip') => exists mem', r = Fine (DGo fast mem' ip' (op + ml)) /\ copied mem mem' op (op + ml) o
  end.
Definition mgood (p : mplan) (ip op nib o : nat) : Prop :=
  match p with
  | None => forall v ip', len_at ip nib v ip' -> o <= op -> op + (v + 4) + 5 <= osz -> ip' + 4 <= n -> False
  | Some (fast, ml, ip') => len_at ip nib (ml - 4) ip' /\ 4 <= ml /\ o <= op /\ op + ml <= osz /\ ip' < n /\ (fast = true -> op + ml + 64 <= osz)
  end.
Lemma match_safe_plan ip0 ip op nib v o : op + 12 <= osz -> len_at ip0 nib v ip -> ip < n ->
  exists p, mgood p ip0 op nib o /\ forall mem, length mem = osz -> mdoes p mem op o (match_safe osz mem ip op (v + 4) o).
Proof.
  intros H LA I. destruct ((o <=? op) && (op + (v + 4) + 5 <=? osz)) eqn:E.
  - exists (Some (false, v + 4, ip)). split.
    + apply andb_prop in E as [E1 E2]. apply Nat.leb_le in E1, E2. cbn. replace (v + 4 - 4) with v by lia.
      split; [exact LA|]. split; [lia|]. split; [lia|]. split; [lia|]. split; [lia|]. discriminate.
    + intros mem M. pose proof (match_safe_ok mem ip op (v + 4) o M H) as X. rewrite E in X. cbn. apply X. lia.
  - exists None. split.
    + cbn. intros v' ip' LA' A B _. destruct (len_at_det _ _ _ _ _ _ LA LA') as [<- _].
      apply andb_false_iff in E as [E|E]; apply Nat.leb_gt in E; lia.
    + intros mem M. pose proof (match_safe_ok mem ip op (v + 4) o M H) as X. rewrite E in X. cbn. apply X. lia.
Qed.
Lemma copy_match_plan ip op nib o : op + 12 <= osz -> nib <= 15 -> ip < n ->
  exists p, mgood p ip op nib o /\ forall mem, length mem = osz -> mdoes p mem op o (copy_match src osz mem ip op nib o).
Proof.
  intros H NB I. unfold copy_match. destruct (Nat.eqb_spec nib 15) as [->|A].
  - destruct (rvl_ok ip 4 false) as [(v & ip' & E & X & L)|(E & X)]; [lia|right; exact I| |]; rewrite E; cbn [andthen].
    + apply match_safe_plan; [exact H| |lia]. right. split; [reflexivity|]. exists v. split; [exact X|reflexivity].
    + exists None. split; [|intros mem M; reflexivity]. cbn. intros v ip' [LA|(_ & w & LA & _)] _ _ L; [lia|].
      apply X in LA. lia.
  - apply match_safe_plan; [exact H| |exact I]. left. lia.
Qed.
Lemma copy18_ok mem op o ml : 8 <= o -> o <= op -> op + 18 <= length mem -> ml <= 18 ->
  exists mem', copy18 mem op (op - o) = Fine mem' /\ copied mem mem' op (op + ml) o.
Proof.
  intros A B C L. unfold copy18.
  destruct (memcpy_ok mem op (op - o) 8 o) as (m1 & E1 & C1); [lia..|]. rewrite E1. cbn [andthen]. pose proof (proj1 C1) as L1.
  destruct (memcpy_ok m1 (op + 8) (op - o + 8) 8 o) as (m2 & E2 & C2); [lia..|]. rewrite E2. cbn [andthen]. pose proof (proj1 C2) as L2.
  destruct (memcpy_ok m2 (op + 16) (op - o + 16) 2 o) as (m3 & E3 & C3); [lia..|]. rewrite E3. exists m3. split; [reflexivity|].
  apply copied_shorter with (f := op + 16 + 2); [|lia].
  apply copied_trans with (m1 := m2) (e := op + 16); [|exact C3|lia]. replace (op + 16) with (op + 8 + 8) by lia.
  apply copied_trans with (m1 := m1) (e := op + 8); [exact C1|exact C2|lia].
Qed.
Lemma match_fast_rest ip0 ip op nib v o : len_at ip0 nib v ip -> ip < n -> op + (v + 4) + 64 < osz ->
  exists p, mgood p ip0 op nib o /\ forall mem, length mem = osz -> mdoes p mem op o (
    if op <? o then Fine DErr
    else
      let cpy := op + (v + 4) in
      mem <- (if o <? 16 then using_offset mem op (op - o) cpy o else wild32 (S cpy) mem op (op - o) cpy);
      Fine (DGo true mem ip cpy)).
Proof.
  intros LA I H. destruct (Nat.ltb_spec op o) as [A|A].
  - exists None. split; [|reflexivity]. cbn. intros. lia.
  - exists (Some (true, v + 4, ip)). split.
    + cbn. replace (v + 4 - 4) with v by lia. split; [exact LA|]. lia.
    + intros mem M. cbv zeta. cbn [mdoes]. destruct (Nat.ltb_spec o 16) as [B|B].
      * destruct (using_offset_ok mem op (op - o) (op + (v + 4)) o) as (m1 & f & E & C & F); [lia..|]. rewrite E. cbn [andthen].
        exists m1. split; [reflexivity|]. apply copied_shorter with (f := f); assumption.
      * destruct (wild32_ok (S (op + (v + 4))) mem op (op - o) (op + (v + 4)) o) as (m1 & f & E & C & F); [lia..|]. rewrite E. cbn [andthen].
        exists m1. split; [reflexivity|]. apply copied_shorter with (f := f); assumption.
Qed.
Lemma match_fast_plan ip op token : op + 32 <= osz -> ip + 2 < n ->
  exists o p, offset_at src ip = Fine o /\ mgood p (ip + 2) op (token mod 16) o /\
    forall mem, length mem = osz -> mdoes p mem op o (match_fast src osz mem ip op token).
Proof.
  intros H I. destruct (offset_at_ok ip) as (o & EO); [lia|]. exists o. unfold match_fast. rewrite EO. cbn [andthen]. cbv zeta.
  assert (NB : token mod 16 <= 15) by lia. set (nib := token mod 16) in *. clearbody nib.
  destruct (Nat.eqb_spec nib 15) as [->|A].
  - destruct (rvl_ok (ip + 2) 4 false) as [(v & ip' & E & X & L)|(E & X)]; [lia|right; lia| |]; rewrite E; cbn [andthen].
    + assert (LA : len_at (ip + 2) 15 (15 + v) ip') by (right; split; [reflexivity|]; exists v; split; [exact X|reflexivity]).
      destruct (Nat.leb_spec osz (op + (15 + v + 4) + 64)) as [B|B].
      * destruct (match_safe_plan (ip + 2) ip' op 15 (15 + v) o) as (p & G & D); [lia|exact LA|lia|]. exists p. split; [reflexivity|]. split; assumption.
      * destruct (match_fast_rest (ip + 2) ip' op 15 (15 + v) o LA) as (p & G & D); [lia|lia|]. exists p. split; [reflexivity|]. split; assumption.
    + exists None. split; [reflexivity|]. split; [|intros mem M; reflexivity]. cbn. intros v ip' [LA|(_ & w & LA & _)] _ _ L; [lia|].
      apply X in LA. lia.
  - assert (LA : len_at (ip + 2) nib nib (ip + 2)) by (left; lia).
    destruct (Nat.leb_spec osz (op + (nib + 4) + 64)) as [B|B].
    + destruct (match_safe_plan (ip + 2) (ip + 2) op nib nib o) as (p & G & D); [lia|exact LA|lia|]. exists p. split; [reflexivity|]. split; assumption.
    + destruct ((o <=? op) && (8 <=? o)) eqn:C.
      * apply andb_prop in C as [C1 C2]. apply Nat.leb_le in C1, C2. exists (Some (true, nib + 4, ip + 2)). split; [reflexivity|]. split.
        -- cbn. replace (nib + 4 - 4) with nib by lia. split; [exact LA|]. lia.
        -- intros mem M. cbn [mdoes]. destruct (copy18_ok mem op o (nib + 4)) as (m1 & E1 & X1); [lia..|]. rewrite E1. cbn [andthen].
           exists m1. split; [reflexivity|exact X1].
      * destruct (match_fast_rest (ip + 2) (ip + 2) op nib nib o LA) as (p & G & D); [lia|lia|]. exists p. split; [reflexivity|]. split; assumption.
Qed.

(** ** A round *)
Inductive plan := PErr | PEnd (s len : nat) | PGo (fast : bool) (s len o ml ip' : nat).
Definition written (mem mem' : bytes) (op s len o ml : nat) : Prop :=
  length mem' = length mem /\ (forall j, j < op -> nth j mem' 0%N = nth j mem 0%N) /\
  (forall j, op <= j < op + len -> nth j mem' 0%N = nth (s + (j - op)) src 0%N) /\
  (forall j, op + len <= j < op + len + ml -> nth j mem' 0%N = if o =? 0 then 0%N else nth (j - o) mem' 0%N).
Definition does (p : plan) (mem : bytes) (op : nat) (r : lz dres) : Prop :=
  match p with
  | PErr => r = Fine DErr
  | PEnd s len => exists mem', r = Fine (DEnd mem' (op + len)) /\ literally src mem mem' op s len
  | PGo fast s len o ml ip' => exists mem', r = Fine (DGo fast mem' ip' (op + len + ml)) /\ written mem mem' op s len o ml
  end.
(** A sequence in the input, and last literals. *)
Definition seq_at (ip s len o ml ip' : nat) : Prop :=
  exists token, byte_at src ip = Fine token /\ len_at (S ip) (token / 16) len s /\ offset_at src (s + len) = Fine o /\
    len_at (s + len + 2) (token mod 16) (ml - 4) ip' /\ 4 <= ml.
Definition last_at (ip s len : nat) : Prop :=
  exists token, byte_at src ip = Fine token /\ len_at (S ip) (token / 16) len s /\ s + len = n.
Definition good (p : plan) (ip op : nat) : Prop :=
  match p with
  | PErr => (forall s len o ml ip', seq_at ip s len o ml ip' -> o <= op + len -> op + len + ml + 5 <= osz -> op + len + 12 <= osz -> ip' + 6 <= n -> False) /\
            (forall s len, last_at ip s len -> op + len <= osz -> False)
  | PEnd s len => last_at ip s len /\ op + len <= osz
  | PGo fast s len o ml ip' => seq_at ip s len o ml ip' /\ o <= op + len /\ op + len + ml <= osz /\ ip < ip' < n /\
                               (fast = true -> op + len + ml + 64 <= osz)
  end.
Lemma then_match (token ip0 ip op len o : nat) (f : bytes -> lz dres) (p : mplan) (lit : bytes -> lz bytes) :
  byte_at src ip0 = Fine token -> len_at (S ip0) (token / 16) len ip -> offset_at src (ip + len) = Fine o ->
  mgood p (ip + len + 2) (op + len) (token mod 16) o -> (forall mem, length mem = osz -> mdoes p mem (op + len) o (f mem)) ->
  (forall mem, length mem = osz -> exists mem', lit mem = Fine mem' /\ literally src mem mem' op ip len) ->
  ip + len < n ->
  exists q, good q ip0 op /\ forall mem, length mem = osz -> does q mem op (andthen (lit mem) f).
Proof.
  intros T LA O G D LT R. pose proof (len_at_in _ _ _ _ LA) as IN. destruct p as [[[fast ml] ip']|]; cbn in G.
  - destruct G as (G1 & G2 & G3 & G4 & G5 & G6). pose proof (len_at_in _ _ _ _ G1) as IN2.
    exists (PGo fast ip len o ml ip'). split.
    + cbn. split; [exists token; split; [exact T|]; split; [exact LA|]; split; [exact O|]; split; [exact G1|exact G2]|].
      split; [exact G3|]. split; [exact G4|]. split; [lia|exact G6].
    + intros mem M. destruct (LT mem M) as (m1 & E1 & (L1 & P1 & C1)). rewrite E1. cbn [andthen].
      destruct (D m1) as (m2 & E2 & (L2 & P2 & C2)); [congruence|]. cbn [does]. exists m2. split; [exact E2|].
      split; [congruence|]. split; [intros j J; rewrite P2, P1 by lia; reflexivity|]. split; [intros j J; rewrite P2 by lia; apply C1; lia|exact C2].
  - exists PErr. split.
    + cbn. split.
      * intros s' len' o' ml' ip' (t & T' & LA' & O' & LM & M4) X1 X2 X3 X4. rewrite T in T'. injection T' as <-.
        destruct (len_at_det _ _ _ _ _ _ LA LA') as [<- <-]. rewrite O in O'. injection O' as <-.
        apply (G (ml' - 4) ip' LM); lia.
      * intros s' len' (t & T' & LA' & E) X. rewrite T in T'. injection T' as <-.
        destruct (len_at_det _ _ _ _ _ _ LA LA') as [<- <-]. lia.
    + intros mem M. destruct (LT mem M) as (m1 & E1 & (L1 & P1 & C1)). rewrite E1. cbn [andthen]. cbn [does]. apply D. congruence.
Qed.
Lemma literal_safe_plan ip0 token ip op len : byte_at src ip0 = Fine token -> len_at (S ip0) (token / 16) len ip -> op <= osz ->
  exists p, good p ip0 op /\ forall mem, length mem = osz -> does p mem op (literal_safe src osz mem ip op token len).
Proof.
  intros T LA H. unfold literal_safe. cbv zeta.
  destruct ((osz <? op + len + 12) || (n <? ip + len + 8)) eqn:E.
  - assert (X : osz < op + len + 12 \/ n < ip + len + 8) by (apply orb_prop in E as [E|E]; apply Nat.ltb_lt in E; lia). clear E.
    destruct (negb (ip + len =? n) || (osz <? op + len)) eqn:E.
    + exists PErr. split; [|intros mem M; reflexivity]. cbn. split.
      * intros s' len' o' ml' ip' (t & T' & LA' & O' & LM & M4) X1 X2 X3 X4. rewrite T in T'. injection T' as <-.
        destruct (len_at_det _ _ _ _ _ _ LA LA') as [<- <-]. pose proof (len_at_in _ _ _ _ LM). lia.
      * intros s' len' (t & T' & LA' & EE) Y. rewrite T in T'. injection T' as <-.
        destruct (len_at_det _ _ _ _ _ _ LA LA') as [<- <-]. apply orb_prop in E as [E|E].
        -- destruct (Nat.eqb_spec (ip + len) n); [discriminate|lia].
        -- apply Nat.ltb_lt in E. lia.
    + apply orb_false_elim in E as [E1 E2]. apply Nat.ltb_ge in E2. destruct (Nat.eqb_spec (ip + len) n) as [E3|]; [|discriminate].
      exists (PEnd ip len). split.
      * cbn. split; [exists token; split; [exact T|]; split; [exact LA|exact E3]|exact E2].
      * intros mem M. destruct (from_src_ok src mem op ip len) as (m1 & E & C); [lia..|]. rewrite E. cbn [andthen does].
        exists m1. split; [reflexivity|exact C].
  - apply orb_false_elim in E as [E1 E2]. apply Nat.ltb_ge in E1, E2.
    destruct (offset_at_ok (ip + len)) as (o & EO); [lia|]. rewrite EO. cbn [andthen].
    destruct (copy_match_plan (ip + len + 2) (op + len) (token mod 16) o) as (p & G & D); [lia..|].
    apply (then_match token ip0 ip op len o (fun mem => copy_match src osz mem (ip + len + 2) (op + len) (token mod 16) o) p
             (fun mem => wild8_src src (S (op + len)) mem op ip (op + len))); try assumption; [|lia].
    intros mem M. destruct (wild8_src_ok src (S (op + len)) mem op ip (op + len)) as (m1 & E & C); [lia..|].
    exists m1. split; [exact E|]. replace (op + len - op) with len in C by lia. exact C.
Qed.
Lemma round_safe_plan ip op : ip < n -> op <= osz ->
  exists p, good p ip op /\ forall mem, length mem = osz -> does p mem op (round_safe src osz mem ip op).
Proof.
  intros I H. unfold round_safe. destruct (byte_at_ok ip I) as (token & T & TB). rewrite T. cbn [andthen]. cbv zeta.
  destruct (negb (token / 16 =? 15) && ((S ip + 16 <? n) && (op + 32 <=? osz))) eqn:E.
  - apply andb_prop in E as [E1 E2]. apply andb_prop in E2 as [E2 E3]. apply Nat.ltb_lt in E2. apply Nat.leb_le in E3.
    destruct (Nat.eqb_spec (token / 16) 15) as [|E4]; [discriminate|]. clear E1.
    assert (LA : len_at (S ip) (token / 16) (token / 16) (S ip)) by (left; lia).
    destruct (offset_at_ok (S ip + token / 16)) as (o & EO); [lia|]. rewrite EO. cbn [andthen].
    assert (LT : forall mem, length mem = osz -> exists mem', from_src src mem op (S ip) 16 = Fine mem' /\ literally src mem mem' op (S ip) (token / 16)).
    { intros mem M. destruct (from_src_ok src mem op (S ip) 16) as (m1 & E & C); [lia..|]. exists m1. split; [exact E|].
      apply literally_shorter with (k := 16); [exact C|lia]. }
    destruct (negb (token mod 16 =? 15) && ((8 <=? o) && (o <=? op + token / 16))) eqn:E.
    + apply andb_prop in E as [X1 X2]. apply andb_prop in X2 as [X2 X3]. apply Nat.leb_le in X2, X3.
      destruct (Nat.eqb_spec (token mod 16) 15) as [|X4]; [discriminate|]. clear X1.
      refine (then_match token ip (S ip) op (token / 16) o (fun mem => mem <- copy18 mem (op + token / 16) (op + token / 16 - o);
               Fine (DGo false mem (S ip + token / 16 + 2) (op + token / 16 + (token mod 16 + 4))))
               (Some (false, token mod 16 + 4, S ip + token / 16 + 2)) _ T LA EO _ _ LT _); [| |lia].
      * unfold mgood. replace (token mod 16 + 4 - 4) with (token mod 16) by lia. split; [left; lia|]. split; [lia|]. split; [lia|]. split; [lia|]. split; [lia|discriminate].
      * intros mem M. cbn [mdoes]. destruct (copy18_ok mem (op + token / 16) o (token mod 16 + 4)) as (m1 & E & C); [lia..|].
        rewrite E. cbn [andthen]. exists m1. split; [reflexivity|exact C].
    + destruct (copy_match_plan (S ip + token / 16 + 2) (op + token / 16) (token mod 16) o) as (p & G & D); [lia..|].
      refine (then_match token ip (S ip) op (token / 16) o _ p _ T LA EO G D LT _). lia.
  - clear E. destruct (Nat.eqb_spec (token / 16) 15) as [E|E].
    + destruct (rvl_ok (S ip) 15 true) as [(v & ip' & R & X & L)|(R & X)]; [lia|left; reflexivity| |]; rewrite R; cbn [andthen].
      * rewrite E. apply literal_safe_plan; [exact T| |exact H]. right. split; [exact E|]. exists v. split; [exact X|reflexivity].
      * exists PErr. split; [|intros mem M; reflexivity]. cbn. split.
        -- intros s' len' o' ml' ip' (t & T' & LA' & O' & LM & M4) X1 X2 X3 X4. rewrite T in T'. injection T' as <-.
           destruct LA' as [LA'|(_ & w & LA' & ->)]; [lia|]. apply X in LA'. pose proof (len_at_in _ _ _ _ LM). lia.
        -- intros s' len' (t & T' & LA' & EE) Y. rewrite T in T'. injection T' as <-.
           destruct LA' as [LA'|(_ & w & LA' & ->)]; [lia|]. apply X in LA'. lia.
    + apply literal_safe_plan; [exact T| |exact H]. left. lia.
Qed.
Lemma round_fast_plan ip op : ip < n -> op + 64 <= osz ->
  exists p, good p ip op /\ forall mem, length mem = osz -> does p mem op (round_fast src osz mem ip op).
Proof.
  intros I H. unfold round_fast. destruct (byte_at_ok ip I) as (token & T & TB). rewrite T. cbn [andthen]. cbv zeta.
  destruct (Nat.eqb_spec (token / 16) 15) as [E|E].
  - destruct (rvl_ok (S ip) 15 true) as [(v & ip' & R & X & L)|(R & X)]; [lia|left; reflexivity| |]; rewrite R; cbn [andthen].
    + rewrite E. assert (LA : len_at (S ip) (token / 16) (15 + v) ip') by (right; split; [exact E|]; exists v; split; [exact X|reflexivity]).
      destruct ((osz <? op + (15 + v) + 32) || (n <? ip' + (15 + v) + 32)) eqn:C.
      * apply literal_safe_plan; [exact T|exact LA|lia].
      * apply orb_false_elim in C as [C1 C2]. apply Nat.ltb_ge in C1, C2.
        destruct (match_fast_plan (ip' + (15 + v)) (op + (15 + v)) token) as (o & p & EO & G & D); [lia..|].
        refine (then_match token ip ip' op (15 + v) o _ p _ T LA EO G D _ _); [|lia].
        intros mem M. destruct (wild32_src_ok src (S (op + (15 + v))) mem op ip' (op + (15 + v))) as (m1 & EE & CC); [lia..|].
        exists m1. split; [exact EE|]. replace (op + (15 + v) - op) with (15 + v) in CC by lia. exact CC.
    + exists PErr. split; [|intros mem M; reflexivity]. cbn. split.
      * intros s' len' o' ml' ip' (t & T' & LA' & O' & LM & M4) X1 X2 X3 X4. rewrite T in T'. injection T' as <-.
        destruct LA' as [LA'|(_ & w & LA' & ->)]; [lia|]. apply X in LA'. pose proof (len_at_in _ _ _ _ LM). lia.
      * intros s' len' (t & T' & LA' & EE) Y. rewrite T in T'. injection T' as <-.
        destruct LA' as [LA'|(_ & w & LA' & ->)]; [lia|]. apply X in LA'. lia.
  - assert (LA : len_at (S ip) (token / 16) (token / 16) (S ip)) by (left; lia).
    destruct (Nat.leb_spec (S ip + 17) n) as [C|C].
    + destruct (match_fast_plan (S ip + token / 16) (op + token / 16) token) as (o & p & EO & G & D); [lia..|].
      refine (then_match token ip (S ip) op (token / 16) o _ p _ T LA EO G D _ _); [|lia].
      intros mem M. destruct (from_src_ok src mem op (S ip) 16) as (m1 & EE & CC); [lia..|]. exists m1. split; [exact EE|].
      apply literally_shorter with (k := 16); [exact CC|lia].
    + apply literal_safe_plan; [exact T|exact LA|lia].
Qed.
Lemma round_plan (fast : bool) ip op : ip < n -> op <= osz -> (fast = true -> op + 64 <= osz) ->
  exists p, good p ip op /\ forall mem, length mem = osz -> does p mem op (if fast then round_fast src osz mem ip op else round_safe src osz mem ip op).
Proof. intros I H F. destruct fast; [apply round_fast_plan; auto|apply round_safe_plan; auto]. Qed.
End Decode.
