(** C78: what a client stores is there for every client exactly until its time, and what a client deletes is gone for every client. *)
From Verif Require Import Base Types Clamp Entry Hash Map Shard Cache Reach Text IntText IntTextProofs CmdTable CmdSpec CmdSpec3 CmdsProofs CmdsProofs3 CmdsProofs4 Prog Cmds Conn ConnSpec ConnProofs7 PropCache SafeSpec SafeProofs2 PropSafe PropSafe2 PropConn Net NetSpec NetProofs PropNet Server ServerSpec ServerProofs ServerProofs2 ServerProofs3 PropReply Base PropCmds PropCursor PropCmds3  PropSafe2 SafeProofs2  PropServer.
From Verif Require Import Spec Observe CmdSpec2 PropCmds2 CmdTableProofs PropText SafeProofs PropServerSafe FrameSpec FrameProofs PropFrame PropTally.
From Coq Require Import String Lia.
Local Open Scope N_scope.
Notation length := List.length.
Notation concat := List.concat.
Notation map := List.map.

(** A server that was started with the cache [ch] ran the steps [ss] and is now [t]; the clock does not go back from one command to the
    next, memory is not short, and clients send ordinary commands (C59_safe). *)
Record served (o : opts) (cf : config) (orc : nat -> nat -> input) (pg : Reply.pages) (size : nat) (ss : list (nstep shared)) (ch : cache)
  (t : thread cdata shared job) : Prop := {
  sv_possible : server_possible (ctx_of o) cf orc pg size ss (thread_new (shared_new ch));
  sv_polite : Forall (polite (ctx_of o) cf orc) ss;
  sv_run : server_run (ctx_of o) cf orc pg size ss (thread_new (shared_new ch)) = NOk t;
  sv_good : g_bad (t_shared t) = None;
  sv_reach : reachable (ctx_of o) ch;
  sv_shards : cf_nshards cf = shards_of o;
  sv_input : forall j, fine (orc j) /\ manned (orc j) /\ steady (orc j) /\ ample (orc j);
  sv_clock : forall i j a b, (i < j)%nat -> (in_now (orc i a) <= in_now (orc j b))%Z;
  sv_sized : forall l1 l2 i ch1, g_log (t_shared t) = l1 ++ l2 -> ran (ctx_of o) cf orc 0 ch l1 i ch1 -> SafeSpec.sized o (cf_fuel cf) ch1;
  sv_ordinary : forall e args es, In e (g_log (t_shared t)) -> snd (d_what (e_did e)) = Some (args, es) -> ordinary o args }.
(** How many commands are in a part of the log: [orc j] is the input of the command with number [j]. *)
Fixpoint commands (l : list deed) : nat :=
  match l with [] => 0 | e :: l => match snd (d_what (e_did e)) with Some _ => S (commands l) | None => commands l end end.
Lemma ran_commands : forall c cf orc l i ch i' ch', ran c cf orc i ch l i' ch' -> i' = (i + commands l)%nat.
Proof. intros c cf orc l i ch i' ch' R. induction R as [i ch|i ch e l i' ch' E R IH|i ch e l i' ch' args es w ch1 evs E P R IH]; cbn [commands]; [lia|rewrite E; exact IH|rewrite E; lia]. Qed.
(** Two commands of the log: what the second finds under a key is what the first left there, if nothing in between may change the key. *)
Lemma moments : forall o cf orc pg size ss ch t l1 e1 mid e2 l2 args1 es1 args2 es2 key, served o cf orc pg size ss ch t ->
  g_log (t_shared t) = l1 ++ e1 :: mid ++ e2 :: l2 -> snd (d_what (e_did e1)) = Some (args1, es1) -> snd (d_what (e_did e2)) = Some (args2, es2) ->
  (forall e args es, In e mid -> snd (d_what (e_did e)) = Some (args, es) -> ~ writes args key) ->
  let i1 := commands l1 in let i2 := commands (l1 ++ e1 :: mid) in
  (i1 < i2)%nat /\ exists w1 w2 ch1 ch2 ch3 ch4 ev1 ev2, reachable (ctx_of o) ch1 /\ SafeSpec.sized o (cf_fuel cf) ch1 /\ ordinary o args1 /\
    prun (ctx_of o) (working w1 (orc i1)) 0 ch1 (evcommand cf (e_auth e1) (d_proto (e_did e1)) args1) = Ok (ch2, es1, ev1) /\
    reachable (ctx_of o) ch3 /\ same_from o (in_now (orc i2 0%nat)) ch2 ch3 key /\
    prun (ctx_of o) (working w2 (orc i2)) 0 ch3 (evcommand cf (e_auth e2) (d_proto (e_did e2)) args2) = Ok (ch4, es2, ev2).
Proof.
  intros o cf orc pg size ss ch t l1 e1 mid e2 l2 args1 es1 args2 es2 key [Ps Po Er B R Ns H Mono Sz Od] El Q1 Q2 Mid i1' i2'.
  destruct (C59_server _ _ _ _ _ _ _ _ Ps Po Er B) as (Rn & _). rewrite El in Rn, Sz, Od.
  assert (H' : forall j, fine (orc j) /\ manned (orc j) /\ steady (orc j)) by (intro j; destruct (H j) as (x & y & z & _); auto).
  destruct (ran_split _ _ _ _ _ _ _ _ _ Rn) as (i1 & ch1 & Ra & Rb).
  assert (R1 : reachable (ctx_of o) ch1).
  { apply (ran_reachable o cf orc l1 0 ch i1 ch1 Ns H' Ra R).
    - intros a b i ch2 -> Q. apply (Sz a (b ++ e1 :: mid ++ e2 :: l2) i ch2); [rewrite <- app_assoc; reflexivity|exact Q].
    - intros e a s Ie. apply Od. apply in_or_app. left. exact Ie. }
  destruct (ran_first _ _ _ _ _ _ _ _ _ _ _ Rb Q1) as (w1 & ch2 & ev1 & P1 & Rc).
  pose proof (Sz l1 (e1 :: mid ++ e2 :: l2) i1 ch1 eq_refl Ra) as Sz1.
  assert (O1 : ordinary o args1) by (apply (Od e1 _ es1); [apply in_or_app; right; left; reflexivity|exact Q1]).
  destruct (H i1) as (F1 & M1 & St1 & Am1).
  destruct (ordinary_ends o cf (orc i1) w1 ch1 (e_auth e1) (d_proto (e_did e1)) _ Ns F1 M1 St1 R1 Sz1 O1) as (ch2' & es2' & ev2' & P1' & R2).
  rewrite P1 in P1'. injection P1' as <- _ _.
  destruct (ran_split _ _ _ _ _ _ _ _ _ Rc) as (i3 & ch3 & Rd & Re).
  destruct (ran_first _ _ _ _ _ _ _ _ _ _ _ Re Q2) as (w2 & ch4 & ev2 & P2 & Rf).
  assert (Rp : ran (ctx_of o) cf orc 0 ch (l1 ++ [e1]) (S i1) ch2) by (eapply ran_join; [exact Ra|eapply ran_command; [exact Q1|exact P1|constructor]]).
  destruct (mid_kept o cf orc Ns H mid (S i1) ch2 i3 ch3 (in_now (orc i3 0%nat)) key Rd R2) as [K R3].
  { intros a b i c' -> Q. apply (Sz ((l1 ++ [e1]) ++ a) (b ++ e2 :: l2) i c'); [rewrite <- !app_assoc; reflexivity|].
    eapply ran_join; [exact Rp|exact Q]. }
  { intros e args es Ie Qe. split; [|exact (Mid e args es Ie Qe)]. apply (Od e args es); [|exact Qe]. apply in_or_app. right. right. apply in_or_app. left. exact Ie. }
  { intros j Hj n. apply Mono. exact Hj. }
  assert (E1 : i1 = i1') by (rewrite (ran_commands _ _ _ _ _ _ _ _ Ra); reflexivity).
  assert (E3 : i3 = i2').
  { assert (Rq : ran (ctx_of o) cf orc 0 ch ((l1 ++ [e1]) ++ mid) i3 ch3) by (eapply ran_join; eassumption). rewrite <- app_assoc in Rq. rewrite (ran_commands _ _ _ _ _ _ _ _ Rq). reflexivity. }
  assert (Lt : (i1 < i3)%nat) by (apply ran_grows in Rd; lia).
  rewrite E1 in *. rewrite E3 in *. clear E1 E3. split; [exact Lt|]. exists w1, w2, ch1, ch2, ch3, ch4, ev1, ev2. repeat (split; [assumption|]). exact P2.
Qed.

(** What a plain SET (without NX, XX, CAS and KEEPTTL) or a SETEX leaves under its key. *)
Definition plain (os : list opt) : Prop := ~ In Nx os /\ ~ In Xx os /\ ~ In Keepttl os /\ last_cas os = None.
(** The command stores [val] under [key] with end of life [e]; [orc] is its input. *)
Inductive stores (pr : proto) (orc : nat -> input) (key val : bytes) : list bytes -> Z -> N -> Prop :=
| stores_set : forall a0 rest os e, word a0 "set" -> spelled rest os -> valid pr os -> plain os -> new_expiry pr orc (in_now (orc 0%nat)) os None e ->
    stores pr orc key val (a0 :: key :: val :: rest) e (match last_flags os with Some x => x mod 2 ^ 32 | None => 0 end)
| stores_setex : forall a0 ex z, word a0 "setex" -> int_text ex z -> (0 < z)%Z ->
    stores pr orc key val [a0; key; ex; val] (Z.min INT64_MAX (in_now (orc 1%nat) + z * 1000000000)) 0.
Lemma stores_holds : forall o cf orc w ch e key val args ch' es evs, reachable (ctx_of o) ch -> SafeSpec.sized o (cf_fuel cf) ch -> ordinary o args ->
  fine orc -> steady orc -> ample orc -> allowed cf e ->
  (exists a0 rest os, word a0 "set" /\ spelled rest os /\ valid (d_proto (e_did e)) os /\ plain os /\ args = a0 :: key :: val :: rest) \/
  (exists a0 ex z, word a0 "setex" /\ int_text ex z /\ (0 < z)%Z /\ args = [a0; key; ex; val]) ->
  prun (ctx_of o) (working w orc) 0 ch (evcommand cf (e_auth e) (d_proto (e_did e)) args) = Ok (ch', es, evs) ->
  exists x fl tok, stores (d_proto (e_did e)) orc key val args x fl /\ CmdSpec.holds o ch' key (mkView val x fl tok).
Proof.
  intros o cf orc w ch e key val args ch' es evs R Sz [Oa _] F St Am A Ha P.
  assert (Fit : In key args -> In val args -> CmdSpec.fits o ch key val).
  { intros Ik Iv. destruct (proj1 (Forall_forall _ _) Oa key Ik) as [B2 L2]. destruct (proj1 (Forall_forall _ _) Oa val Iv) as [B4 L4].
    apply fits_of; try assumption; [exact (sz_room _ _ _ Sz)|]. change (2 ^ 61) with 2305843009213693952 in L2, L4. change (2 ^ 62) with 4611686018427387904. lia. }
  destruct (sees_some o ch key (in_now (working w orc 0%nat)) R) as [old So].
  destruct Ha as [(a0 & rest & os & W & Sp & V & (Nn & Nx' & Nk & Nc) & ->)|(a0 & ex & z & W & Ie & Hz & ->)].
  - rewrite (allowed_runs cf e (a0 :: key :: val :: rest) 0 A (get_at _ "set" 0%nat W eq_refl)) in P. cbn [cmd_func nth] in P.
    destruct (PropCmds.C28_set o (working w orc) 0 ch (d_proto (e_did e)) a0 key val rest os old R (working_fine w _ F) (fun _ => St) (Fit ltac:(cbn; tauto) ltac:(cbn; tauto)) Sp V So) as (c' & reply & evs' & i & x & _ & P' & (l & ->) & Ne & D).
    rewrite P in P'. injection P' as <- _ _.
    destruct D as (_ & _ & D). rewrite (Am l : in_lowmem (working w orc l) = false) in D.
    destruct (D eq_refl) as (_ & _ & (tok & Hd) & _). { unfold CmdSpec.refused. rewrite Nc. destruct old; assumption. }
    exists x, (match last_flags os with Some x => x mod 2 ^ 32 | None => 0 end), tok. split; [|exact Hd].
    apply stores_set; try assumption; [repeat split; assumption|].
    unfold new_expiry in *. destruct (last_expire os) as [[u z]|]; [exact Ne|]. destruct Ne as [_ Ne]. split; [intro X; contradiction|exact Ne].
  - rewrite (allowed_runs cf e [a0; key; ex; val] 8 A (get_at _ "setex" 8%nat W eq_refl)) in P. cbn [cmd_func nth] in P.
    destruct (PropCmds.C28_setex o (working w orc) 0 ch (d_proto (e_did e)) a0 key ex val z old R (working_fine w _ F) (Fit ltac:(cbn; tauto) ltac:(cbn; tauto)) Ie Hz So) as (c' & reply & evs' & i & _ & P' & (l & ->) & D).
    rewrite P in P'. injection P' as <- _ _.
    destruct D as (_ & _ & D). rewrite (Am l : in_lowmem (working w orc l) = false) in D.
    destruct (D eq_refl) as (_ & _ & (tok & Hd) & _). { unfold CmdSpec.refused. cbn [last_cas]. destruct old; intros [X|[]]; discriminate. }
    eexists _, _, tok. split; [apply stores_setex with (z := z); assumption|exact Hd].
Qed.
Lemma stores_form : forall pr orc key val args x fl, stores pr orc key val args x fl ->
  (exists a0 rest os, word a0 "set" /\ spelled rest os /\ valid pr os /\ plain os /\ args = a0 :: key :: val :: rest) \/
  (exists a0 ex z, word a0 "setex" /\ int_text ex z /\ (0 < z)%Z /\ args = [a0; key; ex; val]).
Proof. intros pr orc key val args x fl [a0 rest os e W Sp V Pl _|a0 ex z W I Hz]; [left; exists a0, rest, os|right; exists a0, ex, z]; auto. Qed.
(** What GET and TTL find when they come after such a command. *)
Lemma found : forall o cf orc pg size ss ch t l1 e1 mid e2 l2 key val args1 es1 args2 es2, served o cf orc pg size ss ch t ->
  g_log (t_shared t) = l1 ++ e1 :: mid ++ e2 :: l2 -> allowed cf e1 ->
  snd (d_what (e_did e1)) = Some (args1, es1) -> (exists x fl, stores (d_proto (e_did e1)) (orc (commands l1)) key val args1 x fl) ->
  snd (d_what (e_did e2)) = Some (args2, es2) ->
  (forall e args es, In e mid -> snd (d_what (e_did e)) = Some (args, es) -> ~ writes args key) ->
  let i2 := commands (l1 ++ e1 :: mid) in let now2 := in_now (orc i2 0%nat) in
  exists x fl tok w ch3 ch4 ev, stores (d_proto (e_did e1)) (orc (commands l1)) key val args1 x fl /\ reachable (ctx_of o) ch3 /\
    sees (ctx_of o) ch3 key now2 (if alive_at x now2 then Some (mkView val x fl tok) else None) /\
    prun (ctx_of o) (working w (orc i2)) 0 ch3 (evcommand cf (e_auth e2) (d_proto (e_did e2)) args2) = Ok (ch4, es2, ev).
Proof.
  intros o cf orc pg size ss ch t l1 e1 mid e2 l2 key val args1 es1 args2 es2 Sv El A1 Q1 (x0 & fl0 & Fo) Q2 Mid i2 now2.
  destruct (moments o cf orc pg size ss ch t l1 e1 mid e2 l2 args1 es1 args2 es2 key Sv El Q1 Q2 Mid) as (Lt & w1 & w2 & ch1 & ch2 & ch3 & ch4 & ev1 & ev2 & R1 & Sz1 & O1 & P1 & R3 & K & P2).
  destruct (sv_input _ _ _ _ _ _ _ _ Sv (commands l1)) as (F & _ & St & Am).
  destruct (stores_holds o cf (orc (commands l1)) w1 ch1 e1 key val args1 ch2 es1 ev1 R1 Sz1 O1 F St Am A1 (stores_form _ _ _ _ _ _ _ Fo) P1) as (x & fl & tok & Fo' & Hd).
  exists x, fl, tok, w2, ch3, ch4, ev2. split; [exact Fo'|]. split; [exact R3|]. split; [|exact P2].
  apply K; [unfold now2, i2; lia|]. exact (Hd now2).
Qed.

(** GET by any client after a client stored a value: the value before its end of life, nothing from then on. *)
Theorem C78_get : forall o cf orc pg size ss ch t l1 e1 mid e2 l2 key val g args1 es1 es2, served o cf orc pg size ss ch t ->
  g_log (t_shared t) = l1 ++ e1 :: mid ++ e2 :: l2 -> allowed cf e1 -> allowed cf e2 ->
  snd (d_what (e_did e1)) = Some (args1, es1) -> (exists x fl, stores (d_proto (e_did e1)) (orc (commands l1)) key val args1 x fl) ->
  word g "get" -> snd (d_what (e_did e2)) = Some ([g; key], es2) ->
  (forall e args es, In e mid -> snd (d_what (e_did e)) = Some (args, es) -> ~ writes args key) ->
  let now2 := in_now (orc (commands (l1 ++ e1 :: mid)) 0%nat) in
  exists x fl, stores (d_proto (e_did e1)) (orc (commands l1)) key val args1 x fl /\
    exists dec tok, prints dec /\ es2 = map Out (get_reply dec (d_proto (e_did e2)) key
      (if (x =? 0)%Z || (now2 <? x)%Z then Some (mkView val x fl tok) else None)).
Proof.
  intros o cf orc pg size ss ch t l1 e1 mid e2 l2 key val g args1 es1 es2 Sv El A1 A2 Q1 Fo W2 Q2 Mid now2.
  destruct (found o cf orc pg size ss ch t l1 e1 mid e2 l2 key val args1 es1 _ es2 Sv El A1 Q1 Fo Q2 Mid) as (x & fl & tok & w & ch3 & ch4 & ev & Fo' & R3 & So & P2).
  exists x, fl. split; [exact Fo'|].
  destruct (sv_input _ _ _ _ _ _ _ _ Sv (commands (l1 ++ e1 :: mid))) as (F & _).
  rewrite (allowed_runs cf e2 [g; key] 1 A2 (get_at _ "get" 1%nat W2 eq_refl)) in P2. cbn [cmd_func nth] in P2.
  destruct (C32_get o (working w (orc (commands (l1 ++ e1 :: mid)))) 0 ch3 (d_proto (e_did e2)) g key _ R3 (working_fine w _ F) So) as (c' & evs & dec & _ & Pd & P & _).
  rewrite P2 in P. injection P as _ -> _. exists dec, tok. split; [exact Pd|reflexivity].
Qed.
(** TTL and PTTL by any client: the whole seconds (milliseconds) left. *)
Theorem C78_ttl : forall o cf orc pg size ss ch t l1 e1 mid e2 l2 key val g (pttl : bool) args1 es1 es2, served o cf orc pg size ss ch t ->
  g_log (t_shared t) = l1 ++ e1 :: mid ++ e2 :: l2 -> allowed cf e1 -> allowed cf e2 ->
  snd (d_what (e_did e1)) = Some (args1, es1) -> (exists x fl, stores (d_proto (e_did e1)) (orc (commands l1)) key val args1 x fl) ->
  word g (if pttl then "pttl" else "ttl") -> snd (d_what (e_did e2)) = Some ([g; key], es2) ->
  (forall e args es, In e mid -> snd (d_what (e_did e)) = Some (args, es) -> ~ writes args key) ->
  let now2 := in_now (orc (commands (l1 ++ e1 :: mid)) 0%nat) in
  exists x fl, stores (d_proto (e_did e1)) (orc (commands l1)) key val args1 x fl /\
    let left := if (x =? 0)%Z then (-1)%Z else ((x - now2) / if pttl then 1000000 else 1000000000)%Z in
    let there := ((x =? 0)%Z || (now2 <? x)%Z)%bool in
    (d_proto (e_did e2) = RESP -> es2 = [Out (WInt (if there then left else -2))]) /\
    (d_proto (e_did e2) = HTTP \/ d_proto (e_did e2) = MEMCACHE -> es2 = if there then [Out (WInt left)] else []) /\
    (d_proto (e_did e2) = POSTGRES -> there = true -> exists s, decimal_text s left /\ In (Out (PRow [s])) es2).
Proof.
  intros o cf orc pg size ss ch t l1 e1 mid e2 l2 key val g pttl args1 es1 es2 Sv El A1 A2 Q1 Fo W2 Q2 Mid now2.
  destruct (found o cf orc pg size ss ch t l1 e1 mid e2 l2 key val args1 es1 _ es2 Sv El A1 Q1 Fo Q2 Mid) as (x & fl & tok & w & ch3 & ch4 & ev & Fo' & R3 & So & P2).
  exists x, fl. split; [exact Fo'|]. cbv zeta.
  destruct (sv_input _ _ _ _ _ _ _ _ Sv (commands (l1 ++ e1 :: mid))) as (F & _).
  assert (P2' : prun (ctx_of o) (working w (orc (commands (l1 ++ e1 :: mid)))) 0 ch3 (cmdTTL (d_proto (e_did e2)) [g; key]) = Ok (ch4, es2, ev)).
  { destruct pttl; [rewrite (allowed_runs cf e2 [g; key] 6 A2 (get_at _ "pttl" 6%nat W2 eq_refl)) in P2|rewrite (allowed_runs cf e2 [g; key] 5 A2 (get_at _ "ttl" 5%nat W2 eq_refl)) in P2]; exact P2. }
  assert (Hp : pttl = true <-> word g "pttl").
  { destruct pttl; [tauto|]. split; [discriminate|]. intro X. unfold word in *. rewrite W2 in X. discriminate X. }
  destruct (C31_ttl o (working w (orc (commands (l1 ++ e1 :: mid)))) 0 ch3 (d_proto (e_did e2)) g key pttl _ Hp R3 (working_fine w _ F) So) as (c' & evs & digits & _ & P & Dg & _).
  rewrite P2' in P. injection P as _ -> _. fold now2 in Dg |- *. change (in_now (working w (orc (commands (l1 ++ e1 :: mid))) 0%nat)) with now2 in *.
  change (alive_at x now2) with ((x =? 0)%Z || (now2 <? x)%Z)%bool in *.
  destruct ((x =? 0)%Z || (now2 <? x)%Z)%bool; (split; [intros ->; reflexivity|]; split; [intros [-> | ->]; reflexivity|]); intros ->; [|discriminate].
  intros _. exists digits. split; [exact (Dg _ eq_refl)|]. cbn. tauto.
Qed.
(** GET by any client after a client deleted the key: nothing. *)
Theorem C78_deleted : forall o cf orc pg size ss ch t l1 e1 mid e2 l2 key d keys g es1 es2, served o cf orc pg size ss ch t ->
  g_log (t_shared t) = l1 ++ e1 :: mid ++ e2 :: l2 -> allowed cf e1 -> allowed cf e2 ->
  word d "del" -> In key keys -> snd (d_what (e_did e1)) = Some (d :: keys, es1) ->
  word g "get" -> snd (d_what (e_did e2)) = Some ([g; key], es2) ->
  (forall e args es, In e mid -> snd (d_what (e_did e)) = Some (args, es) -> ~ writes args key) ->
  exists dec, prints dec /\ es2 = map Out (get_reply dec (d_proto (e_did e2)) key None).
Proof.
  intros o cf orc pg size ss ch t l1 e1 mid e2 l2 key d keys g es1 es2 Sv El A1 A2 W1 Ik Q1 W2 Q2 Mid.
  destruct (moments o cf orc pg size ss ch t l1 e1 mid e2 l2 _ es1 _ es2 key Sv El Q1 Q2 Mid) as (Lt & w1 & w2 & ch1 & ch2 & ch3 & ch4 & ev1 & ev2 & R1 & Sz1 & O1 & P1 & R3 & K & P2).
  destruct (sv_input _ _ _ _ _ _ _ _ Sv (commands l1)) as (F & _).
  destruct (sv_input _ _ _ _ _ _ _ _ Sv (commands (l1 ++ e1 :: mid))) as (F2 & _).
  rewrite (allowed_runs cf e1 (d :: keys) 2 A1 (get_at _ "del" 2%nat W1 eq_refl)) in P1. cbn [cmd_func nth] in P1.
  assert (Ne : keys <> []) by (intros ->; destruct Ik).
  destruct (C32_del o (working w1 (orc (commands l1))) 0 ch1 (d_proto (e_did e1)) d keys R1 (working_fine w1 _ F) Ne) as (c' & evs & ks & dec & _ & _ & _ & _ & P & G & _).
  rewrite P1 in P. injection P as <- _ _.
  rewrite (allowed_runs cf e2 [g; key] 1 A2 (get_at _ "get" 1%nat W2 eq_refl)) in P2. cbn [cmd_func nth] in P2.
  assert (So : sees (ctx_of o) ch3 key (in_now (working w2 (orc (commands (l1 ++ e1 :: mid))) 0%nat)) None).
  { apply K; [cbn; lia|]. exact (G key Ik (in_now (orc (commands (l1 ++ e1 :: mid)) 0%nat))). }
  destruct (C32_get o (working w2 (orc (commands (l1 ++ e1 :: mid)))) 0 ch3 (d_proto (e_did e2)) g key _ R3 (working_fine w2 _ F2) So) as (c' & evs' & dec' & _ & Pd & P & _).
  rewrite P2 in P. injection P as _ -> _. exists dec'. split; [exact Pd|reflexivity].
Qed.

(** *** A case: one client stores a value for one second and deletes k3; another reads 0.6 and 1.2 seconds later *)
Definition span_clock (j : nat) : Z := match j with 0%nat => 110 | 1%nat => 600000110 | _ => 1200000110 end.
Definition span_orc : nat -> nat -> input := fun j _ => mkInput (plenty_env (span_clock j)) (span_clock j) 1700000000000000000 false 4 true.
Definition span_set : list bytes := [bs "SET"; bs "n"; bs "v"; bs "EX"; bs "1"].
Definition span_get : list bytes := [bs "GET"; bs "n"].
Definition span_del : list bytes := [bs "DEL"; bs "k3"].
Definition span_look : list bytes := [bs "GET"; bs "k3"].
Definition line (s : string) : bytes := bs s ++ crlf.
Definition span_steps : list (nstep shared) :=
  [SRound (server_answers (demo_read [(5%nat, RData (line "SET n v EX 1")); (6%nat, RData (line "GET n" ++ line "GET n"))])) [mkEvent 5 true; mkEvent 6 true];
   SRound (server_answers (demo_read [(5%nat, RData (line "DEL k3")); (6%nat, RData (line "GET k3"))])) [mkEvent 5 true; mkEvent 6 true]].
Notation span_run := (server_run demo_c case_cf span_orc no_pages 8).
Definition span_end : thread cdata shared job := Eval vm_compute in end_of (span_run span_steps (thread_new (shared_new demo_ch))).
Lemma span_can : server_possible demo_c case_cf span_orc no_pages 8 span_steps (thread_new (shared_new demo_ch)) /\ Forall (polite demo_c case_cf span_orc) span_steps.
Proof. split; [unfold span_steps; next_round; next_round; exact I|]. constructor; [intros fd g; apply no_others|constructor; [intros fd g; apply no_others|constructor]]. Qed.
Lemma span_ran : span_run span_steps (thread_new (shared_new demo_ch)) = NOk span_end.
Proof. vm_compute. reflexivity. Qed.
Definition then_ (j : nat) (args : list bytes) (ch : cache) : cache :=
  match prun demo_c (span_orc j) 0 ch (evcommand case_cf false RESP args) with Ok (ch', _, _) => ch' | Bad _ => ch end.
Definition span1 : cache := Eval vm_compute in then_ 0 span_set demo_ch.
Definition span2 : cache := Eval vm_compute in then_ 1 span_get span1.
Definition span3 : cache := Eval vm_compute in then_ 2 span_get span2.
Definition span4 : cache := Eval vm_compute in then_ 3 span_del span3.
Definition span5 : cache := Eval vm_compute in then_ 4 span_look span4.
Lemma span_input : forall j, fine (span_orc j) /\ manned (span_orc j) /\ steady (span_orc j) /\ ample (span_orc j).
Proof.
  intro j. destruct j as [|[|j]]; (split; [intros n; split; [split; cbn; unfold INT64_MAX; lia|intros s; split; reflexivity]|]; split; [intro n; cbn; lia|]; split; [intros a b n; cbn; lia|intro n; reflexivity]).
Qed.
Lemma span_next : forall j args ch ch' es evs, prun demo_c (working true (span_orc j)) 0 ch (evcommand case_cf false RESP args) = Ok (ch', es, evs) ->
  reachable demo_c ch -> SafeSpec.sized demo_opts 40 ch -> ordinary demo_opts args -> reachable demo_c ch'.
Proof.
  intros j args ch ch' es evs E R Sz Oa. destruct (span_input j) as (F & M & St & _).
  destruct (ordinary_ends demo_opts case_cf (span_orc j) true ch false RESP args eq_refl F M St R Sz Oa) as (c2 & e2 & v2 & E2 & R2).
  change (ctx_of demo_opts) with demo_c in E2. rewrite E in E2. injection E2 as <- _ _. exact R2.
Qed.
Ltac span_next j H args :=
  let R := fresh "R" in
  match goal with |- reachable _ ?c /\ _ =>
    assert (R : reachable demo_c c) by
      (destruct H as [R0 S0]; eapply (span_next j args); [|exact R0|exact S0|apply ordinary_short; reflexivity]; vm_compute; reflexivity);
    split; [exact R|]; apply small_sized; [exact R|apply cursor_fits_b|apply Nat.leb_le|apply N.leb_le]; vm_compute; reflexivity
  end.
Lemma span1_ok : reachable demo_c span1 /\ SafeSpec.sized demo_opts 40 span1.
Proof. span_next 0%nat (conj demo_reachable demo_sized) span_set. Qed.
Lemma span2_ok : reachable demo_c span2 /\ SafeSpec.sized demo_opts 40 span2.
Proof. span_next 1%nat span1_ok span_get. Qed.
Lemma span3_ok : reachable demo_c span3 /\ SafeSpec.sized demo_opts 40 span3.
Proof. span_next 2%nat span2_ok span_get. Qed.
Lemma span4_ok : reachable demo_c span4 /\ SafeSpec.sized demo_opts 40 span4.
Proof. span_next 3%nat span3_ok span_del. Qed.
Lemma span5_ok : reachable demo_c span5 /\ SafeSpec.sized demo_opts 40 span5.
Proof. span_next 4%nat span4_ok span_look. Qed.
(** The caches that a log goes through. *)
Fixpoint passes (i : nat) (ch : cache) (l : list deed) (cs : list cache) : Prop :=
  match l, cs with
  | [], [] => True
  | e :: l, c' :: cs => (exists args es, snd (d_what (e_did e)) = Some (args, es) /\
      forall w, exists es evs, prun demo_c (working w (span_orc i)) 0 ch (evcommand case_cf (e_auth e) (d_proto (e_did e)) args) = Ok (c', es, evs)) /\ passes (S i) c' l cs
  | _, _ => False
  end.
Lemma passes_ran : forall l cs i ch, passes i ch l cs -> forall l1 l2 i' ch1, l = l1 ++ l2 -> ran demo_c case_cf span_orc i ch l1 i' ch1 -> ch1 = ch \/ In ch1 cs.
Proof.
  intro l. induction l as [|e l IH]; intros cs i ch Fo l1 l2 i' ch1 El Rn.
  - destruct l1; [|discriminate]. left. exact (ran_none _ _ _ _ _ _ _ Rn).
  - destruct cs as [|c' cs]; [destruct Fo|]. destruct Fo as [(args & es & Q & Dt) Fo].
    destruct l1 as [|x l1]; [left; exact (ran_none _ _ _ _ _ _ _ Rn)|]. injection El as <- ->.
    destruct (ran_first _ _ _ _ _ _ _ _ _ _ _ Rn Q) as (w & c2 & evs & P & Rn'). destruct (Dt w) as (es' & evs' & P').
    rewrite P in P'. injection P' as -> _ _.
    right. destruct (IH cs (S i) c' Fo l1 l2 i' ch1 eq_refl Rn') as [->|I1]; [left; reflexivity|right; exact I1].
Qed.
Lemma span_log : exists e1 e2 e3 e4 e5, g_log (t_shared span_end) = [e1; e2; e3; e4; e5] /\
  (forall e, In e [e1; e2; e3; e4; e5] -> e_auth e = false /\ d_proto (e_did e) = RESP) /\
  snd (d_what (e_did e1)) = Some (span_set, [Out (WString (bs "OK"))]) /\
  snd (d_what (e_did e2)) = Some (span_get, [Out (WBulk (bs "v"))]) /\ snd (d_what (e_did e3)) = Some (span_get, [Out WNull]) /\
  snd (d_what (e_did e4)) = Some (span_del, [Out (WInt 1)]) /\ snd (d_what (e_did e5)) = Some (span_look, [Out WNull]).
Proof.
  eexists _, _, _, _, _. split; [vm_compute; reflexivity|]. split; [intros e I; repeat (destruct I as [<-|I]; [split; vm_compute; reflexivity|]); destruct I|].
  repeat split; vm_compute; reflexivity.
Qed.
Lemma span_served : served demo_opts case_cf span_orc no_pages 8 span_steps demo_ch span_end.
Proof.
  destruct span_log as (e1 & e2 & e3 & e4 & e5 & G & Al & W1 & W2 & W3 & W4 & W5).
  split; change (ctx_of demo_opts) with demo_c; [exact (proj1 span_can)|exact (proj2 span_can)|exact span_ran|vm_compute; reflexivity|exact demo_reachable|reflexivity|exact span_input| | |].
  - intros i j a b Hij. cbn. destruct i as [|[|i]], j as [|[|j]]; cbn; lia.
  - rewrite G. intros l1 l2 i ch1 E R.
    assert (Fo : passes 0 demo_ch [e1; e2; e3; e4; e5] [span1; span2; span3; span4; span5]).
    { cbn [passes].
      destruct (Al e1 ltac:(cbn; tauto)) as [A1 P1]. destruct (Al e2 ltac:(cbn; tauto)) as [A2 P2]. destruct (Al e3 ltac:(cbn; tauto)) as [A3 P3].
      destruct (Al e4 ltac:(cbn; tauto)) as [A4 P4]. destruct (Al e5 ltac:(cbn; tauto)) as [A5 P5]. rewrite A1, A2, A3, A4, A5, P1, P2, P3, P4, P5.
      split; [eexists _, _; split; [exact W1|]; intros []; eexists _, _; vm_compute; reflexivity|].
      split; [eexists _, _; split; [exact W2|]; intros []; eexists _, _; vm_compute; reflexivity|].
      split; [eexists _, _; split; [exact W3|]; intros []; eexists _, _; vm_compute; reflexivity|].
      split; [eexists _, _; split; [exact W4|]; intros []; eexists _, _; vm_compute; reflexivity|].
      split; [eexists _, _; split; [exact W5|]; intros []; eexists _, _; vm_compute; reflexivity|exact I]. }
    destruct (passes_ran _ _ _ _ Fo l1 l2 i ch1 E R) as [Q|[Q|[Q|[Q|[Q|[Q|[]]]]]]]; [rewrite Q|rewrite <- Q..].
    + exact demo_sized.
    + exact (proj2 span1_ok).
    + exact (proj2 span2_ok).
    + exact (proj2 span3_ok).
    + exact (proj2 span4_ok).
    + exact (proj2 span5_ok).
  - rewrite G. intros e args es I W. destruct I as [<-|[<-|[<-|[<-|[<-|[]]]]]]; [rewrite W1 in W|rewrite W2 in W|rewrite W3 in W|rewrite W4 in W|rewrite W5 in W]; injection W as <- _; apply ordinary_short; reflexivity.
Qed.
Lemma get_spares : forall k, ~ writes span_get k.
Proof.
  intros k W. remember span_get as l eqn:El. unfold span_get in El. destruct W as [name key rest Hn|name keys key Hn Hi|name rest key Hn]; injection El as E _; rewrite E in Hn.
  - repeat (destruct Hn as [Hn|Hn]; [discriminate Hn|]). exact Hn.
  - discriminate Hn.
  - repeat (destruct Hn as [Hn|Hn]; [discriminate Hn|]). exact Hn.
Qed.
(** The hypotheses of C78_get, with GET as the last command of the log but two, and with another GET in between; and those of C78_deleted. *)
Example C78_case : exists e1 e2 e3 e4 e5,
  served demo_opts case_cf span_orc no_pages 8 span_steps demo_ch span_end /\
  g_log (t_shared span_end) = [] ++ e1 :: [] ++ e2 :: [e3; e4; e5] /\
  g_log (t_shared span_end) = [] ++ e1 :: [e2] ++ e3 :: [e4; e5] /\
  g_log (t_shared span_end) = [e1; e2; e3] ++ e4 :: [] ++ e5 :: [] /\
  (forall e, In e [e1; e2; e3; e4; e5] -> allowed case_cf e) /\
  snd (d_what (e_did e1)) = Some (span_set, [Out (WString (bs "OK"))]) /\
  stores (d_proto (e_did e1)) (span_orc (commands [])) (bs "n") (bs "v") span_set 1000000110 0 /\
  snd (d_what (e_did e2)) = Some (span_get, [Out (WBulk (bs "v"))]) /\ in_now (span_orc (commands [e1]) 0%nat) = 600000110%Z /\
  snd (d_what (e_did e3)) = Some (span_get, [Out WNull]) /\ in_now (span_orc (commands [e1; e2]) 0%nat) = 1200000110%Z /\
  ~ writes span_get (bs "n") /\
  snd (d_what (e_did e4)) = Some (span_del, [Out (WInt 1)]) /\ snd (d_what (e_did e5)) = Some (span_look, [Out WNull]).
Proof.
  destruct span_log as (e1 & e2 & e3 & e4 & e5 & G & Al & W1 & W2 & W3 & W4 & W5). exists e1, e2, e3, e4, e5.
  split; [exact span_served|]. split; [exact G|]. split; [exact G|]. split; [exact G|]. split; [intros e _; left; reflexivity|]. split; [exact W1|].
  split.
  { rewrite (proj2 (Al e1 (or_introl eq_refl))).
    apply (stores_set RESP (span_orc 0) (bs "n") (bs "v") (bs "SET") [bs "EX"; bs "1"] [Expire Ex 1] 1000000110); [reflexivity| | | |].
    - constructor; [reflexivity| |constructor]. split; [cbn; lia|]. split; [unfold i64_ok, INT64_MIN, INT64_MAX; lia|]. right. exists false, 1.
      split; [|reflexivity]. exists [], [], (bs "1"). split; [reflexivity|]. split; [constructor|]. split; [left; reflexivity|]. split; [split; [discriminate|repeat constructor]|reflexivity].
    - split; [intros _ u z [E|[]]; injection E as <- <-; lia|]. split; [intros [E|[]]; discriminate E|]. intros [[E|[]] _]; discriminate E.
    - repeat split; try (intros [E|[]]; discriminate E).
    - reflexivity. }
  split; [exact W2|]. split; [cbn [commands]; rewrite W1; reflexivity|]. split; [exact W3|]. split; [cbn [commands]; rewrite W1, W2; reflexivity|].
  split; [apply get_spares|]. split; assumption.
Qed.
