(** C32: commands on several keys, stated with the vocabulary of CmdSpec.v and
    CmdSpec2.v. *)
From Verif Require Import Base Types Clamp Entry EntryProofs Hash Map MapProofs MapInv Shard
  Spec Trace ShardProofs ScanProofs LoopProofs Cache Refine Reach Observe PropCache PropItems
  Text IntText IntTextProofs CmdTable CmdTableProofs Prog CmdSpec CmdSpec2 Cmds CmdsProofs CmdsProofs2 CmdsProofs3
  PropCmds.
From Coq Require Import String.
Local Open Scope N_scope.
Notation length := List.length.

Lemma u64toa_prints : prints u64toa.
Proof. intros x H. apply u64toa_canonical. exact H. Qed.
Lemma sees_some : forall o ch key now, reachable (ctx_of o) ch -> exists old, sees (ctx_of o) ch key now old.
Proof. intros o ch key now R. apply (sees_total _ (opts_load o)). apply reach_cinv. exact R. Qed.
Lemma sees_same : forall o ch key now a b, reachable (ctx_of o) ch ->
  sees (ctx_of o) ch key now a -> sees (ctx_of o) ch key now b -> a = b.
Proof. intros o ch key now a b R. apply (sees_unique _ (opts_load o)). apply reach_cinv. exact R. Qed.
Lemma unchanged_all : forall o now ch ch' key, unchanged o now ch ch' key -> all_same o now ch ch'.
Proof.
  intros o now ch ch' key [A B] k t v Ht. destruct (beq key k) eqn:E.
  - apply beq_eq in E. subst k. exact (A t v Ht).
  - apply B. intros ->. rewrite beq_refl in E. discriminate.
Qed.
Lemma all_same_refl : forall o now ch, all_same o now ch ch.
Proof. intros o now ch k t v _. reflexivity. Qed.
Lemma all_same_trans : forall o now a b d, all_same o now a b -> all_same o now b d -> all_same o now a d.
Proof. intros o now a b d H1 H2 k. eapply same_from_trans; [apply H1|apply H2]. Qed.
Lemma all_same_live : forall o now ch ch' k, all_same o now ch ch' -> (live o ch now k <-> live o ch' now k).
Proof. intros o now ch ch' k H. unfold live. split; intros [v S]; exists v; apply (H k now _ (Z.le_refl _)); exact S. Qed.
Lemma live_of : forall o ch now key old, reachable (ctx_of o) ch -> sees (ctx_of o) ch key now old ->
  (match old with Some _ => true | None => false end = true <-> live o ch now key).
Proof.
  intros o ch now key old R S. split.
  - destruct old as [v|]; [intros _; exists v; exact S|discriminate].
  - intros [v V]. rewrite (sees_same _ _ _ _ _ _ R S V). reflexivity.
Qed.

Definition andthen (ev : list event) (r : out (cache * list eff * list event)) : out (cache * list eff * list event) :=
  match r with Bad t => Bad t | Ok (ch, es, ev2) => Ok (ch, es, ev ++ ev2) end.
Lemma andthen_app : forall a b r, andthen a (andthen b r) = andthen (a ++ b) r.
Proof. intros a b [[[ch es] ev]|t]; cbn; [rewrite app_assoc|]; reflexivity. Qed.
Definition also (ws : list wr) (r : out (cache * list eff * list event)) : out (cache * list eff * list event) :=
  match r with Bad t => Bad t | Ok (ch, es, ev2) => Ok (ch, List.map Out ws ++ es, ev2) end.
Lemma also_andthen : forall ws ev r, also ws (andthen ev r) = andthen ev (also ws r).
Proof. intros ws ev [[[ch es] e]|t]; reflexivity. Qed.
Lemma also_also : forall a b r, also a (also b r) = also (a ++ b) r.
Proof. intros a b [[[ch es] e]|t]; cbn; [rewrite map_app, app_assoc|]; reflexivity. Qed.
Lemma also_nil : forall r, also [] r = r.
Proof. intros [[[ch es] e]|t]; reflexivity. Qed.
Lemma prun_puts' : forall c orc ws n ch k, prun c orc n ch (puts ws k) = also ws (prun c orc n ch k).
Proof. intros. rewrite prun_puts. destruct (prun c orc n ch k) as [[[? ?] ?]|]; reflexivity. Qed.

Lemma Forall2_imp : forall {A B} (P Q : A -> B -> Prop) l l', (forall x y, P x y -> Q x y) -> Forall2 P l l' -> Forall2 Q l l'.
Proof. intros A B P Q l l' H F. induction F; constructor; auto. Qed.
Lemma Forall2_len : forall {A B} (P : A -> B -> Prop) l l', Forall2 P l l' -> length l = length l'.
Proof. intros A B P l l' F. induction F; cbn [length]; congruence. Qed.
Lemma marks_cons : forall b l, marks (b :: l) = (if b then 1 else 0) + marks l.
Proof. intros [] l; unfold marks; cbn [List.filter length]; lia. Qed.
Lemma found_loop_spec : forall o orc b now, (0 < now)%Z -> forall keys n ch cnt k, reachable (ctx_of o) ch ->
  exists ch' ev l, reachable (ctx_of o) ch' /\ all_same o now ch ch' /\ present o ch now keys l /\
    prun (ctx_of o) orc n ch (found_loop b now keys cnt k)
      = andthen ev (prun (ctx_of o) orc (n + length keys) ch' (k (cnt + marks l))).
Proof.
  intros o orc b now P. induction keys as [|key keys IH]; intros n ch cnt k R; cbn [found_loop].
  - exists ch, [], []. split; [exact R|]. split; [apply all_same_refl|]. split; [constructor|].
    cbn [marks]. unfold marks. cbn. rewrite N.add_0_r, Nat.add_0_r. destruct (prun _ _ _ _ _) as [[[? ?] ?]|]; reflexivity.
  - destruct (sees_some o ch key now R) as [old So].
    match goal with |- context [Do _ ?kk] =>
      destruct (load_look o orc n ch key b None now kk old R P (or_introl eq_refl) So) as (ch1 & ev & R1 & K & E) end.
    pose proof (unchanged_all _ _ _ _ _ (kp_same _ _ _ _ _ K)) as Al.
    set (f := match old with Some _ => true | None => false end).
    destruct (IH (S n) ch1 (cnt + if f then 1 else 0) k R1) as (ch2 & ev2 & l & R2 & A2 & P2 & E2).
    exists ch2, (ev ++ ev2), (f :: l). split; [exact R2|]. split; [exact (all_same_trans _ _ _ _ _ Al A2)|]. split.
    + constructor; [apply (live_of o ch now key old R So)|].
      eapply Forall2_imp; [|exact P2]. intros x y H. cbn in H. rewrite H. symmetry. apply all_same_live. exact Al.
    + rewrite E. cbn [length]. rewrite Nat.add_succ_r, <- andthen_app, marks_cons.
      rewrite N.add_assoc. change (S (n + length keys)) with (S n + length keys)%nat. rewrite <- E2.
      unfold f. destruct old; cbv beta iota; [|rewrite N.add_0_r]; unfold andthen;
        destruct (prun _ _ _ _ _) as [[[? ?] ?]|]; reflexivity.
Qed.

(** *** C32 *)
(** EXISTS replies how many arguments name items, and nothing changes. *)
Theorem C32_exists : forall o orc n ch pr a0 keys,
  reachable (ctx_of o) ch -> fine orc -> keys <> [] ->
  exists ch' evs l dec, reachable (ctx_of o) ch' /\ prints dec /\
    present o ch (in_now (orc n)) keys l /\
    prun (ctx_of o) orc n ch (cmdEXISTS pr (a0 :: keys)) = Ok (ch', List.map Out (exists_reply dec pr (marks l)), evs) /\
    all_same o (in_now (orc n)) ch ch'.
Proof.
  intros o orc n ch pr a0 keys R F H. unfold cmdEXISTS. destruct keys as [|k1 keys]; [congruence|]. clear H.
  rewrite prun_ask. cbv beta. cbn [List.tl]. destruct (F n) as [[Hn _] _].
  match goal with |- context [found_loop true _ _ 0 ?kk] =>
    destruct (found_loop_spec o orc true _ (proj1 Hn) (k1 :: keys) (S n) ch 0 kk R) as (ch' & ev & l & R' & A & Pl & E) end.
  exists ch'. eexists. exists l, u64toa. split; [exact R'|]. split; [exact u64toa_prints|]. split; [exact Pl|]. split; [|exact A].
  rewrite E. cbn [N.add]. destruct pr; cbn [is_pg by_proto]; rewrite prun_answer; reflexivity.
Qed.
Theorem C32_touch : forall o orc n ch pr a0 keys,
  reachable (ctx_of o) ch -> fine orc -> keys <> [] ->
  exists ch' evs l dec, reachable (ctx_of o) ch' /\ prints dec /\
    present o ch (in_now (orc n)) keys l /\
    prun (ctx_of o) orc n ch (cmdTOUCH pr (a0 :: keys)) = Ok (ch', List.map Out (touch_reply dec pr (marks l)), evs) /\
    all_same o (in_now (orc n)) ch ch'.
Proof.
  intros o orc n ch pr a0 keys R F H. unfold cmdTOUCH. destruct keys as [|k1 keys]; [congruence|]. clear H.
  rewrite prun_ask. cbv beta. cbn [List.tl]. destruct (F n) as [[Hn _] _].
  match goal with |- context [found_loop false _ _ 0 ?kk] =>
    destruct (found_loop_spec o orc false _ (proj1 Hn) (k1 :: keys) (S n) ch 0 kk R) as (ch' & ev & l & R' & A & Pl & E) end.
  exists ch'. eexists. exists l, u64toa. split; [exact R'|]. split; [exact u64toa_prints|]. split; [exact Pl|]. split; [|exact A].
  rewrite E. change (0 + marks l) with (marks l). rewrite prun_answer. cbn [andthen].
  destruct pr; cbn [by_proto touch_reply raw_line List.map]; try reflexivity.
  unfold raw_line. destruct (N.eqb_spec (marks l) 0) as [->|Ne]; [reflexivity|].
  replace (0 <? marks l) with true by lia. reflexivity.
Qed.

(** GET replies what the key holds, and nothing changes. *)
Theorem C32_get : forall o orc n ch pr a0 key old,
  reachable (ctx_of o) ch -> fine orc -> sees (ctx_of o) ch key (in_now (orc n)) old ->
  exists ch' evs dec, reachable (ctx_of o) ch' /\ prints dec /\
    prun (ctx_of o) orc n ch (cmdGET pr [a0; key]) = Ok (ch', List.map Out (get_reply dec pr key old), evs) /\
    all_same o (in_now (orc n)) ch ch'.
Proof.
  intros o orc n ch pr a0 key old R F So. unfold cmdGET. rewrite prun_ask. cbv beta. destruct (F n) as [[Hn _] _].
  rewrite prun_puts'.
  match goal with |- context [prun _ _ _ ch (Do _ ?kk)] =>
    destruct (load_look o orc (S n) ch key false just_look _ kk old R (proj1 Hn) (or_intror eq_refl) So)
      as (ch1 & ev & R1 & K & E) end.
  exists ch1. eexists. exists u64toa. split; [exact R1|]. split; [exact u64toa_prints|].
  split; [|exact (unchanged_all _ _ _ _ _ (kp_same _ _ _ _ _ K))].
  rewrite E. clear E. unfold just_look. cbv beta iota.
  destruct old as [v|]; cbv beta iota; rewrite prun_puts, prun_answer; cbn [flat_map fst snd app];
    destruct pr; reflexivity.
Qed.

Lemma mget_loop_spec : forall o orc pr b now, (0 < now)%Z -> forall keys n ch cnt k, reachable (ctx_of o) ch ->
  exists ch' ev olds, reachable (ctx_of o) ch' /\ all_same o now ch ch' /\
    Forall2 (fun key old => sees (ctx_of o) ch key now old) keys olds /\
    prun (ctx_of o) orc n ch (mget_loop pr (if b : bool then KIND_MGETS else KIND_MGET) now keys cnt k)
      = andthen ev (also (flat_map (mget_one u64toa pr b) (combine keys olds))
          (prun (ctx_of o) orc (n + length keys) ch'
             (k (cnt + N.of_nat (length (List.filter (fun p : bytes * option view =>
                match snd p with Some _ => true | None => false end) (combine keys olds))))))).
Proof.
  intros o orc pr b now P. induction keys as [|key keys IH]; intros n ch cnt k R; cbn [mget_loop].
  - exists ch, [], []. split; [exact R|]. split; [apply all_same_refl|]. split; [constructor|].
    cbn [combine flat_map List.filter length]. rewrite N.add_0_r, Nat.add_0_r, also_nil.
    destruct (prun _ _ _ _ _) as [[[? ?] ?]|]; reflexivity.
  - destruct (sees_some o ch key now R) as [old So].
    match goal with |- context [Do _ ?kk] =>
      destruct (load_look o orc n ch key false just_look now kk old R P (or_intror eq_refl) So) as (ch1 & ev & R1 & K & E) end.
    pose proof (unchanged_all _ _ _ _ _ (kp_same _ _ _ _ _ K)) as Al.
    destruct (IH (S n) ch1 (cnt + match old with Some _ => 1 | None => 0 end) k R1) as (ch2 & ev2 & olds & R2 & A2 & P2 & E2).
    exists ch2, (ev ++ ev2), (old :: olds). split; [exact R2|]. split; [exact (all_same_trans _ _ _ _ _ Al A2)|]. split.
    + constructor; [exact So|].
      eapply Forall2_imp; [|exact P2]. intros x y H. apply (Al x now y (Z.le_refl _)). exact H.
    + rewrite E. cbn [length combine flat_map List.filter snd]. rewrite Nat.add_succ_r, <- andthen_app.
      change (S (n + length keys)) with (S n + length keys)%nat.
      match goal with |- match ?x with _ => _ end = _ => change (andthen ev x = andthen ev (andthen ev2 (also (mget_one u64toa pr b (key, old) ++ flat_map (mget_one u64toa pr b) (combine keys olds)) (prun (ctx_of o) orc (S n + length keys) ch2 (k (cnt + N.of_nat (length (if match old with Some _ => true | None => false end then (key, old) :: List.filter (fun p : bytes * option view => match snd p with Some _ => true | None => false end) (combine keys olds) else List.filter (fun p : bytes * option view => match snd p with Some _ => true | None => false end) (combine keys olds))))))))) end.
      f_equal. rewrite <- also_also, <- also_andthen. unfold just_look. cbv beta iota.
      destruct old as [v|]; cbv beta iota.
      * rewrite prun_puts'. f_equal.
        { cbn [flat_map fst snd]. rewrite app_nil_r. destruct pr, b; reflexivity. }
        rewrite E2. f_equal. f_equal. f_equal. f_equal. cbn [length]. lia.
      * cbn [flat_map puts]. rewrite prun_puts', N.add_0_r in *. rewrite E2. f_equal. destruct pr, b; reflexivity.
Qed.
Theorem C32_mget : forall o orc n ch pr a0 keys (withcas : bool),
  reachable (ctx_of o) ch -> fine orc -> keys <> [] -> (withcas = true <-> word a0 "mgets") ->
  exists ch' evs olds dec, reachable (ctx_of o) ch' /\ prints dec /\ Forall2 (fun key old => sees (ctx_of o) ch key (in_now (orc n)) old) keys olds /\ prun (ctx_of o) orc n ch (cmdMGET pr (a0 :: keys))
      = Ok (ch', List.map Out (mget_reply dec pr withcas (combine keys olds)), evs) /\ all_same o (in_now (orc n)) ch ch'.
Proof.
  intros o orc n ch pr a0 keys withcas R F H W. unfold cmdMGET. destruct keys as [|k1 keys]; [congruence|]. clear H.
  rewrite prun_ask. cbv beta zeta. cbn [List.tl]. destruct (F n) as [[Hn _] _].
  replace (is_word a0 "mgets") with withcas.
  2:{ destruct (is_word a0 "mgets") eqn:E.
      - apply W. apply is_word_iff. exact E.
      - destruct withcas; [|reflexivity]. apply is_word_no in E. destruct (E (proj1 W eq_refl)). }
  rewrite prun_puts'.
  match goal with |- context [mget_loop pr _ _ _ 0 ?kk] =>
    destruct (mget_loop_spec o orc pr withcas _ (proj1 Hn) (k1 :: keys) (S n) ch 0 kk R) as (ch' & ev & olds & R' & A & Po & E) end.
  exists ch'. eexists. exists olds, u64toa. split; [exact R'|]. split; [exact u64toa_prints|]. split; [exact Po|]. split; [|exact A].
  rewrite E. cbn [N.add]. rewrite prun_answer. cbn [andthen also].
  assert (L : length (combine (k1 :: keys) olds) = length (k1 :: keys))
    by (rewrite combine_length, <- (Forall2_len _ _ _ Po); lia).
  unfold mget_reply. rewrite L. cbn [length]. rewrite !map_app.
  destruct pr, withcas; cbn [by_proto List.map app]; reflexivity.
Qed.

Lemma delete_spec : forall o orc n ch key now k, reachable (ctx_of o) ch -> (0 < now)%Z ->
  exists ch' ev (b : bool) sh, reachable (ctx_of o) ch' /\ (b = true <-> live o ch now key) /\
    gone o ch' key /\ (forall x, x <> key -> same_at (ctx_of o) ch ch' x) /\
    prun (ctx_of o) orc n ch (Do (Delete key None now) k)
      = andthen ev (prun (ctx_of o) orc (S n) ch' (k (RStatus (if b then DELETED else NOTFOUND) sh))).
Proof.
  intros o orc n ch key now k R P.
  destruct (do_delete o orc n ch key now k R P) as (ch' & st & sh & ev & R' & E & m' & A & S).
  destruct (sees_some o ch key now R) as [old So]. pose proof (live_of o ch now key old R So) as L.
  apply sees_item in So; [|exact R].
  exists ch', ev, (match old with Some _ => true | None => false end), sh.
  unfold sp_delete in S.
  assert (Q : (forall x, m' x = aset (cabs (ctx_of o) ch) key None x) /\ st = match old with Some _ => DELETED | None => NOTFOUND end).
  { destruct (live_item (cabs (ctx_of o) ch) key now) as [it|]; cbn [option_map] in So; subst old;
      injection S as <- <- _; split; reflexivity. }
  destruct Q as [Q1 Q2]. split; [exact R'|]. split; [exact L|]. split.
  { apply gone_abs; [exact R'|]. rewrite A, Q1. apply aset_key. }
  split.
  { apply (same_others o ch ch' key None R R'). intros x. rewrite A. apply Q1. }
  rewrite E, Q2. unfold andthen. destruct old; reflexivity.
Qed.
Lemma gone_trans : forall o ch ch' k, gone o ch k -> same_at (ctx_of o) ch ch' k -> gone o ch' k.
Proof. intros o ch ch' k H Sa t. apply Sa. apply H. Qed.
Lemma del_loop_spec : forall o orc now, (0 < now)%Z -> forall keys n ch cnt k, reachable (ctx_of o) ch ->
  exists ch' ev ks, reachable (ctx_of o) ch' /\
    NoDup ks /\ (forall x, In x ks <-> In x keys /\ live o ch now x) /\
    (forall x, In x keys -> gone o ch' x) /\ (forall x, ~ In x keys -> same_at (ctx_of o) ch ch' x) /\
    prun (ctx_of o) orc n ch (del_loop now keys cnt k)
      = andthen ev (prun (ctx_of o) orc (n + length keys) ch' (k (cnt + N.of_nat (length ks)))).
Proof.
  intros o orc now P. induction keys as [|key keys IH]; intros n ch cnt k R; cbn [del_loop].
  - exists ch, [], []. split; [exact R|]. split; [constructor|]. split; [intros x; cbn; tauto|].
    split; [intros x []|]. split; [intros x _ t v; reflexivity|].
    cbn [length]. rewrite N.add_0_r, Nat.add_0_r. destruct (prun _ _ _ _ _) as [[[? ?] ?]|]; reflexivity.
  - match goal with |- context [Do _ ?kk] =>
      destruct (delete_spec o orc n ch key now kk R P) as (ch1 & ev & b & sh & R1 & B & G & Sa & E) end.
    destruct (IH (S n) ch1 (cnt + if b then 1 else 0) k R1) as (ch2 & ev2 & ks & R2 & Nd & Ik & Gk & Sk & E2).
    assert (Nk : ~ In key ks).
    { intros H. apply Ik in H. destruct H as [_ [v V]]. specialize (G now).
      pose proof (sees_same _ _ _ _ _ _ R1 V G). discriminate. }
    assert (Lx : forall x, x <> key -> (live o ch1 now x <-> live o ch now x)).
    { intros x Hx. unfold live. split; intros [v V]; exists v; apply (Sa x Hx now (Some v)); exact V. }
    exists ch2, (ev ++ ev2), (if b then key :: ks else ks). split; [exact R2|].
    split; [destruct b; [constructor; assumption|assumption]|]. split.
    { intros x. destruct (beq key x) eqn:Ex.
      - apply beq_eq in Ex. subst x. split.
        + intros H. split; [left; reflexivity|]. apply B. destruct b; [reflexivity|contradiction].
        + intros [_ H]. apply B in H. rewrite H. left. reflexivity.
      - assert (x <> key) by (intros ->; rewrite beq_refl in Ex; discriminate).
        transitivity (In x ks). { destruct b; cbn [In]; intuition congruence. }
        rewrite Ik, Lx by assumption. cbn [In]. intuition congruence. }
    assert (Dec : forall x, In x keys \/ ~ In x keys).
    { intros x. destruct (in_dec (list_eq_dec N.eq_dec) x keys); auto. }
    split.
    { intros x [<-|H]; [|exact (Gk x H)]. destruct (Dec key) as [D|D]; [exact (Gk _ D)|].
      eapply gone_trans; [exact G|]. exact (Sk key D). }
    split.
    { intros x H. cbn [In] in H. eapply same_at_trans; [apply Sa; intros ->; tauto|apply Sk; tauto]. }
    rewrite E. cbn [length]. rewrite Nat.add_succ_r, <- andthen_app. f_equal.
    change (S (n + length keys)) with (S n + length keys)%nat.
    replace (cnt + N.of_nat (length (if b then key :: ks else ks)))
      with (cnt + (if b then 1 else 0) + N.of_nat (length ks)) by (destruct b; cbn [length]; lia).
    rewrite <- E2. destruct b; cbv beta iota; [|rewrite N.add_0_r]; reflexivity.
Qed.
(** DEL removes exactly the named keys and counts those that held items, each
    once. *)
Theorem C32_del : forall o orc n ch pr a0 keys,
  reachable (ctx_of o) ch -> fine orc -> keys <> [] ->
  exists ch' evs ks dec, reachable (ctx_of o) ch' /\ prints dec /\
    NoDup ks /\ (forall k, In k ks <-> In k keys /\ live o ch (in_now (orc n)) k) /\
    prun (ctx_of o) orc n ch (cmdDEL pr (a0 :: keys))
      = Ok (ch', List.map Out (del_reply dec pr (N.of_nat (length ks))), evs) /\
    (forall k, In k keys -> gone o ch' k) /\
    (forall k, ~ In k keys -> same_at (ctx_of o) ch ch' k).
Proof.
  intros o orc n ch pr a0 keys R F H. unfold cmdDEL. destruct keys as [|k1 keys]; [congruence|]. clear H.
  rewrite prun_ask. cbv beta. cbn [List.tl]. destruct (F n) as [[Hn _] _].
  match goal with |- context [del_loop _ _ 0 ?kk] =>
    destruct (del_loop_spec o orc _ (proj1 Hn) (k1 :: keys) (S n) ch 0 kk R) as (ch' & ev & ks & R' & Nd & Ik & G & Sa & E) end.
  exists ch'. eexists. exists ks, u64toa. split; [exact R'|]. split; [exact u64toa_prints|].
  split; [exact Nd|]. split; [exact Ik|]. split; [|split; [exact G|exact Sa]].
  rewrite E. rewrite N.add_0_l, prun_answer. cbn [andthen].
  destruct pr; cbn [by_proto del_reply]; try reflexivity; unfold raw_line; destruct (N.of_nat (length ks) =? 0); reflexivity.
Qed.

(** Without keys, or for GET with other than one key, there is an error and
    nothing happens. *)
Theorem C32_reject : forall o orc n ch pr f args,
  (In f [cmdEXISTS; cmdTOUCH; cmdDEL; cmdMGET] /\ (length args <= 1)%nat) \/ (f = cmdGET /\ length args <> 2%nat) ->
  exists msg, prun (ctx_of o) orc n ch (f pr args) = Ok (ch, [Out (WError msg)], []).
Proof.
  intros o orc n ch pr f args H. eexists.
  destruct H as [[[<-|[<-|[<-|[<-|[]]]]] L]|[-> L]];
    destruct args as [|a [|b [|d l]]]; cbn [length] in L; try lia; apply prun_error.
Qed.
Example C32_case :
  let ks := [bs "k1"; bs "none"; bs "k3"; bs "k1"] in
  let k1 := mkView (bs "w") 123 5 4 in let k3 := mkView [] 0 0 2 in
  present demo_opts demo_ch 110 ks [true; false; true; true] /\
  outcome (prun demo_c demo_orc 0 demo_ch (cmdEXISTS RESP (bs "EXISTS" :: ks))) = Some [Out (WInt 3)] /\
  outcome (prun demo_c demo_orc 0 demo_ch (cmdTOUCH MEMCACHE (bs "touch" :: ks)))
    = Some [Out (WRaw (bs "TOUCHED" ++ crlf))] /\
  outcome (prun demo_c demo_orc 0 demo_ch (cmdDEL RESP (bs "DEL" :: ks))) = Some [Out (WInt 2)] /\
  outcome (prun demo_c demo_orc 0 demo_ch (cmdMGET RESP (bs "MGET" :: ks)))
    = Some [Out (WArray 4); Out (WBulk (bs "w")); Out WNull; Out (WBulk []); Out (WBulk (bs "w"))] /\
  outcome (prun demo_c demo_orc 0 demo_ch (cmdMGET MEMCACHE [bs "mgets"; bs "k1"]))
    = Some [Out (WRaw (bs "VALUE k1 5 1 4" ++ crlf ++ bs "w" ++ crlf)); Out (WRaw (bs "END" ++ crlf))] /\
  outcome (prun demo_c demo_orc 0 demo_ch (cmdGET HTTP [bs "get"; bs "none"]))
    = Some [Out (WHttp 404 (bs "Not Found") (bs "Not Found" ++ crlf))].
Proof.
  cbv zeta. split.
  - assert (Y : forall k v, sees demo_c demo_ch k 110 (Some v) -> (true = true <-> live demo_opts demo_ch 110 k)).
    { intros k v V. split; [intros _; exists v; exact V|reflexivity]. }
    assert (N : forall k, sees demo_c demo_ch k 110 None -> (false = true <-> live demo_opts demo_ch 110 k)).
    { intros k V. split; [discriminate|]. intros [v W].
      pose proof (sees_same demo_opts demo_ch k 110 _ _ demo_reachable V W). discriminate. }
    repeat constructor; first [eapply Y; apply demo_sees_eq; vm_compute; reflexivity|apply N; apply demo_sees_eq; vm_compute; reflexivity|idtac].
    all: try (intros _; eexists; apply demo_sees_eq; vm_compute; reflexivity).
    all: intros H; try discriminate; try reflexivity.
  - repeat match goal with |- _ /\ _ => split end; vm_compute; reflexivity.
Qed.
