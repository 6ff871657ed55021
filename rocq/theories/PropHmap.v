(** C60: a name finds the statement or portal given last under it. *)
From Verif Require Import Base Hash Map MapProofs Hmap HmapProofs HmapRun HmapFull Postgres.
From Coq Require Import Permutation.
Local Open Scope nat_scope.
Notation length := List.length.

(** For the statements, no counterpart in the code. [r] is what was given last under [name] in the series [l],
    or nothing if nothing was. *)
Definition last_given {V} (l : list (bytes * V)) (name : bytes) (r : option V) : Prop :=
  match r with
  | Some v => exists l1 l2, l = l1 ++ (name, v) :: l2 /\ ~ In name (List.map fst l2)
  | None => ~ In name (List.map fst l)
  end.
(** At most [k] different names occur. *)
Definition names_at_most (k : N) (names : list bytes) : Prop :=
  forall ns, NoDup ns -> incl ns names -> (N.of_nat (length ns) <= k)%N.
(** A name the protocol lets a client use: shorter than 64 bytes, without a zero byte. *)
Definition good_name (n : bytes) : Prop := length n < 64 /\ ~ In 0%N n.

Lemma by_name_last : forall V (l : list (bytes * V)) name, last_given l name (by_name name (rev l)).
Proof.
  intros V l name. rewrite <- (rev_involutive l) at 1. generalize (rev l). clear l.
  induction l as [|[k v] l IH]; cbn [rev by_name].
  - intros [].
  - destruct (beq k name) eqn:B.
    + apply beq_eq in B. subst k. exists (rev l), []. split; [reflexivity|intros []].
    + apply beq_neq in B. destruct (by_name name l) as [x|]; cbn [last_given] in *.
      * destruct IH as (l1 & l2 & -> & Hn). exists l1, (l2 ++ [(k, v)]). split; [rewrite <- app_assoc; reflexivity|].
        rewrite map_app. intro I. apply in_app_or in I. destruct I as [I | [I | []]]; [contradiction|]. apply B. exact I.
      * rewrite map_app. intro I. apply in_app_or in I. destruct I as [I | [I | []]]; [contradiction|]. apply B. exact I.
Qed.

Lemma DIBS_big : 2 <= DIBS.
Proof. unfold DIBS. lia. Qed.

Lemma run_all : forall V hash (l : list (bytes * V)), names_at_most 65535 (List.map fst l) ->
  exists m frees, named_run V hash DIBS None l = Some (m, frees) /\ oinv hash DIBS m /\
  (forall n v, In (n, v) (named_free V m) <-> by_name n (rev l) = Some v) /\
  Permutation (frees ++ named_free V m) l.
Proof.
  intros V hash l H. destruct (run_ok hash DIBS DIBS_big l None []) as (m & frees & E & I & L & P).
  - exact I.
  - intros n v. cbn. split; [intros []|discriminate].
  - intros x [].
  - intros ns N I. specialize (H ns N I). unfold DIBS. lia.
  - exists m, frees. auto.
Qed.

(** With no more than 65535 names in use on a connection, every name finds what was given last under it, whatever
    the hash function, the order, and the number of times a name is used again. *)
Theorem C60_name_finds_the_last : forall V (hash : bytes -> N) (l : list (bytes * V)),
  names_at_most 65535 (List.map fst l) -> Forall (fun p => good_name (fst p)) l ->
  exists m frees, named_run V hash DIBS None l = Some (m, frees) /\
  forall name, exists r, named_get V hash m name = Some r /\ last_given l name r.
Proof.
  intros V hash l H G. destruct (run_all V hash l H) as (m & frees & E & I & L & P).
  exists m, frees. split; [exact E|]. intro name.
  destruct (Nat.lt_ge_cases (length name) 64) as [S | S].
  - exists (by_name name (rev l)). split; [|apply by_name_last].
    exact (get_ok hash DIBS DIBS_big m l name I S L).
  - exists None. split.
    + destruct m as [m|]; [|reflexivity]. cbn [named_get].
      replace (64 <=? length name) with true by (symmetry; apply Nat.leb_le; exact S). reflexivity.
    + cbn [last_given]. intro J. apply in_map_iff in J. destruct J as ([k v] & <- & J).
      rewrite Forall_forall in G. destruct (G _ J) as [A _]. cbn [fst] in *. lia.
Qed.

(** What is replaced is freed there and then and what remains is freed when the connection ends: everything given
    is freed once, none twice. *)
Theorem C60_each_is_freed_once : forall V (hash : bytes -> N) (l : list (bytes * V)),
  names_at_most 65535 (List.map fst l) ->
  exists m frees, named_run V hash DIBS None l = Some (m, frees) /\ Permutation (frees ++ named_free V m) l.
Proof.
  intros V hash l H. destruct (run_all V hash l H) as (m & frees & E & _ & _ & P). exists m, frees. auto.
Qed.

(** What is in use is not among the freed: only what was given under the same name before is freed by a new one. *)
Theorem C60_freed_by_its_name : forall V (hash : bytes -> N) (l : list (bytes * V)) name v,
  names_at_most 65535 (List.map fst (l ++ [(name, v)])) ->
  exists m frees m' old, named_run V hash DIBS None l = Some (m, frees) /\
    named_insert V hash DIBS m name v = Some (m', old) /\
    match old with
    | Some (n, x) => n = name /\ last_given l name (Some x)
    | None => last_given l name None
    end.
Proof.
  intros V hash l name v H.
  assert (H0 : names_at_most 65535 (List.map fst l)).
  { intros ns N I. apply H; [exact N|]. intros x X. rewrite map_app. apply in_or_app. left. apply I. exact X. }
  destruct (run_all V hash l H0) as (m & frees & E & I & L & P).
  assert (IL : forall n, In n (List.map fst (named_free V m)) -> In n (List.map fst l)).
  { intros n J. apply in_map_iff in J. destruct J as (p & <- & J). apply in_map. eapply Permutation_in; [exact P|].
    apply in_or_app. right. exact J. }
  pose proof (oinv_nodup hash DIBS m I) as Nd.
  assert (Hs : In name (List.map fst (named_free V m)) /\ length (named_free V m) <= DIBS - 1 \/ length (named_free V m) < DIBS - 1).
  { destruct (in_dec (list_eq_dec N.eq_dec) name (List.map fst (named_free V m))) as [J | J].
    - left. split; [exact J|]. specialize (H0 _ Nd IL). rewrite map_length in H0. unfold DIBS. lia.
    - right. specialize (H (name :: List.map fst (named_free V m))). cbn [length] in H. rewrite map_length in H.
      assert (Q : (N.of_nat (S (length (named_free V m))) <= 65535)%N).
      { apply H; [constructor; assumption|]. intros x [<- | X]; rewrite map_app; apply in_or_app; [right; left; reflexivity|left; apply IL; exact X]. }
      unfold DIBS. lia. }
  destruct (insert_ok hash DIBS DIBS_big m name v I Hs) as (m' & old & E' & _ & R).
  exists m, frees, (Some m'), old. split; [exact E|]. split; [exact E'|].
  destruct old as [[n x]|].
  - destruct R as (En & J & _). cbn [fst] in En. subst n. split; [reflexivity|]. apply L in J. rewrite <- J. apply by_name_last.
  - destruct R as (J & _). pose proof (by_name_last V l name) as B. destruct (by_name name (rev l)) as [x|] eqn:Bn; [|exact B].
    exfalso. apply J. apply L in Bn. apply (in_map fst) in Bn. exact Bn.
Qed.

(** The model of the Postgres protocol keeps the names in a list, newest first: the table finds the same. *)
Theorem C60_table_is_the_list : forall V (hash : bytes -> N) (l : list (bytes * V)),
  names_at_most 65535 (List.map fst l) ->
  exists m frees, named_run V hash DIBS None l = Some (m, frees) /\
  forall name, length name < PGNAMEDATALEN -> named_get V hash m name = Some (by_name name (rev l)).
Proof.
  intros V hash l H. destruct (run_all V hash l H) as (m & frees & E & I & L & P).
  exists m, frees. split; [exact E|]. intros name S. exact (get_ok hash DIBS DIBS_big m l name I S L).
Qed.

(** The limit is real: for every hash function there are 65536 good names such that the one given last is not found,
    and what was given under it is never freed. *)
Theorem C60_any_number_of_names_refuted : forall V (v : V) (hash : bytes -> N),
  exists l name m frees,
    Forall (fun p => good_name (fst p)) (l ++ [(name, v)]) /\ NoDup (List.map fst (l ++ [(name, v)])) /\
    (N.of_nat (length l) = 65535)%N /\
    named_run V hash DIBS None (l ++ [(name, v)]) = Some (m, frees) /\
    named_get V hash m name = Some None /\
    last_given (l ++ [(name, v)]) name (Some v) /\
    ~ In name (List.map fst (frees ++ named_free V m)).
Proof.
  intros V v hash. destruct (collide hash) as (h & names & Nd & Ln & Hn).
  destruct names as [|name names] using rev_ind; [exfalso; revert Ln; unfold DIBS; cbn [length]; lia|]. clear IHnames.
  rewrite app_length in Ln. cbn [length] in Ln.
  set (l := List.map (fun n => (n, v)) names).
  assert (El : List.map fst l = names) by (unfold l; rewrite map_map; apply map_id).
  assert (Ll : length l = DIBS - 1) by (unfold l; rewrite map_length; lia).
  assert (GN : forall n, In n (names ++ [name]) -> good_name n).
  { intros n J. destruct (Hn n J) as (A & B & _). split; [lia|]. intro Z. rewrite Forall_forall in B. specialize (B _ Z).
    vm_compute in B. repeat (destruct B as [B | B]; [discriminate|]). exact B. }
  assert (E1 : List.map fst (l ++ [(name, v)]) = names ++ [name]) by (rewrite map_app, El; reflexivity).
  assert (Nn : ~ In name names /\ NoDup names).
  { apply NoDup_remove in Nd. rewrite app_nil_r in Nd. destruct Nd. auto. }
  destruct Nn as (Nn & Nd').
  destruct (run_all V hash l) as (m & frees & E & I & L & P).
  { intros ns N J. assert (J' : incl ns names) by (intros x X; rewrite <- El; exact (J x X)). pose proof (NoDup_incl_length N J') as Q. assert (length names = DIBS - 1) by lia. unfold DIBS in *. lia. }
  (* nothing was replaced *)
  assert (All : Permutation (named_free V m) l).
  { apply NoDup_Permutation.
    - apply (NoDup_map_inv fst). apply (oinv_nodup hash DIBS m I).
    - apply (NoDup_map_inv fst). rewrite El. exact Nd'.
    - intros [n x]. split; intro J.
      + eapply Permutation_in; [exact P|]. apply in_or_app. right. exact J.
      + apply L. pose proof (by_name_last V l n) as B. destruct (by_name n (rev l)) as [y|]; cbn [last_given] in B.
        * destruct B as (l1 & l2 & B & _). f_equal. apply (NoDup_incl_fst l n); [rewrite El; exact Nd'|rewrite B; apply in_or_app; right; left; reflexivity|exact J].
        * exfalso. apply B. apply (in_map fst) in J. exact J. }
  assert (Fr : frees = []).
  { apply Permutation_length in P. rewrite app_length, (Permutation_length All) in P. destruct frees; [reflexivity|]. cbn [length] in P. lia. }
  subst frees. cbn [app] in P.
  destruct m as [m|]; [|exfalso; apply Permutation_length in All; cbn [named_free length] in All; revert All Ll; unfold DIBS; lia].
  cbn [named_free] in All.
  destruct (set_lost hash DIBS DIBS_big m h name v I) as (m' & S1 & S2 & S3).
  - apply Forall_forall. intros p J. apply (Permutation_in (l' := l)) in J; [|exact All].
    unfold l in J. apply in_map_iff in J. destruct J as (n & <- & J). cbn [fst]. apply Hn. apply in_or_app. left. exact J.
  - apply Hn. apply in_or_app. right. left. reflexivity.
  - intro J. apply (Permutation_in (l' := names)) in J; [contradiction|]. rewrite <- El. apply Permutation_map. exact All.
  - rewrite (Permutation_length All). exact Ll.
  - exists l, name, (Some m'), [].
    split; [|split; [|split; [|split; [|split; [|split]]]]].
    + apply Forall_forall. intros p J. apply GN. rewrite <- E1. apply in_map. exact J.
    + rewrite E1. exact Nd.
    + rewrite Ll. unfold DIBS. lia.
    + assert (App : forall l0 m0 m1 f, named_run V hash DIBS m0 l0 = Some (m1, f) ->
         named_run V hash DIBS m0 (l0 ++ [(name, v)]) = match named_insert V hash DIBS m1 name v with
           | None => None | Some (m2, old) => Some (m2, f ++ match old with Some o => [o] | None => [] end) end).
      { induction l0 as [|[a b] l0 IH]; intros m0 m1 f R; cbn [named_run app] in *.
        - injection R as <- <-. destruct (named_insert V hash DIBS m0 name v) as [[m2 [o|]]|]; reflexivity.
        - destruct (named_insert V hash DIBS m0 a b) as [[m2 old]|]; [|discriminate].
          destruct (named_run V hash DIBS m2 l0) as [[m3 f']|] eqn:R'; [|discriminate]. injection R as <- <-.
          rewrite (IH _ _ _ R'). destruct (named_insert V hash DIBS m3 name v) as [[m4 o]|]; [|reflexivity]. destruct old; reflexivity. }
      rewrite (App _ _ _ _ E). unfold named_insert. rewrite S1. reflexivity.
    + cbn [named_get]. replace (64 <=? length name) with false.
      * rewrite S3. reflexivity.
      * symmetry. apply Nat.leb_gt. apply GN. apply in_or_app. right. left. reflexivity.
    + exists l, []. split; [reflexivity|intros []].
    + cbn [app named_free]. intro J. apply (Permutation_in (l' := names)) in J; [contradiction|]. rewrite <- El. apply Permutation_map.
      eapply perm_trans; [exact S2|exact All].
Qed.

(** ** Cases *)
(** A poor hash function, all names in three classes; thirty names with some used again. *)
Definition case_hash (n : bytes) : N := (N.of_nat (length n) + 281474976710656)%N.
Definition case_series : list (bytes * nat) :=
  flat_map (fun i => [(repeat 65%N (i mod 3) ++ [66; N.of_nat i + 48]%N, i); ([67%N; N.of_nat (i mod 7) + 48]%N, 100 + i)]) (seq 0 30).

Example C60_case_good : Forall (fun p => good_name (fst p)) case_series /\ names_at_most 65535 (List.map fst case_series).
Proof.
  split.
  - apply Forall_forall. intros p I.
    assert (B : forallb (fun p => (length (fst p) <? 64) && forallb (fun c => negb (c =? 0)%N) (fst p)) case_series = true) by (vm_compute; reflexivity).
    rewrite forallb_forall in B. specialize (B p I). apply andb_true_iff in B. destruct B as (B1 & B2).
    split; [apply Nat.ltb_lt; exact B1|]. intro Z. rewrite forallb_forall in B2. specialize (B2 _ Z). discriminate.
  - intros ns N I. pose proof (NoDup_incl_length N I) as L.
    replace (length (List.map fst case_series)) with 60 in L by (vm_compute; reflexivity). lia.
Qed.
Example C60_case_run :
  match named_run nat case_hash DIBS None case_series with
  | Some (Some m, frees) =>
      (length frees, h_nb m, h_count m, named_get nat case_hash (Some m) [67%N; 50%N], named_get nat case_hash (Some m) [67%N; 55%N])
      = (23, 64, 37, Some (Some 123), Some None)
  | _ => False
  end.
Proof. vm_compute. reflexivity. Qed.
