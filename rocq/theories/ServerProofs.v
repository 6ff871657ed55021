(** Proofs about the server: histories and interleavings. *)
From Verif Require Import Base Types Clamp Entry Hash Map Shard Cache Text IntText Prog Cmds Reply Postgres Conn ConnSpec ConnProofs ConnProofs2 ConnProofs3 ConnProofs4 ConnProofs5 Net NetSpec Server ServerSpec.
From Coq Require Import String Lia Permutation.
Local Open Scope N_scope.
Notation length := List.length.
Notation concat := List.concat.
Notation map := List.map.

(** *** Interleavings *)
Lemma shuffle_perm : forall A (ls : list (list A)) s, shuffle ls s -> forall ls', Permutation ls ls' -> shuffle ls' s.
Proof.
  intros A ls s H. induction H as [ls F|a l b s x H IH]; intros ls' P.
  - apply shuffle_nil. eapply Permutation_Forall; eassumption.
  - assert (I : In (l ++ [x]) ls') by (eapply Permutation_in; [exact P|]; apply in_app_iff; right; left; reflexivity).
    apply in_split in I. destruct I as (a' & b' & ->). apply Permutation_app_inv in P. apply shuffle_add. apply IH. apply Permutation_elt. exact P.
Qed.
Lemma shuffle_more : forall A (ls : list (list A)) s, shuffle ls s -> shuffle ([] :: ls) s.
Proof.
  intros A ls s H. induction H as [ls F|a l b s x H IH]; [apply shuffle_nil; constructor; auto|].
  exact (shuffle_add ([] :: a) l b s x IH).
Qed.
Lemma shuffle_adds : forall A (m : list A) a l b s, shuffle (a ++ l :: b) s -> shuffle (a ++ (l ++ m) :: b) (s ++ m).
Proof.
  intros A m. induction m as [|x m IH] using rev_ind; intros a l b s H; [rewrite !app_nil_r; exact H|].
  rewrite !app_assoc. apply shuffle_add. apply IH. exact H.
Qed.
Lemma shuffle_in : forall A (ls : list (list A)) s, shuffle ls s -> forall l x, In l ls -> In x l -> In x s.
Proof.
  intros A ls s H. induction H as [ls F|a l b s y H IH]; intros l0 x L X.
  - rewrite Forall_forall in F. rewrite (F _ L) in X. exact X.
  - apply in_app_iff in L. apply in_app_iff. destruct L as [L|[<-|L]].
    + left. apply (IH l0 x); [apply in_app_iff; auto|exact X].
    + apply in_app_iff in X. destruct X as [X|X]; [left; apply (IH l x); [apply in_app_iff; right; left; reflexivity|exact X]|right; exact X].
    + left. apply (IH l0 x); [apply in_app_iff; right; right; exact L|exact X].
Qed.

(** *** Histories *)
Lemma ran_app : forall c cf orc i ch l i1 ch1 m i2 ch2, ran c cf orc i ch l i1 ch1 -> ran c cf orc i1 ch1 m i2 ch2 -> ran c cf orc i ch (l ++ m) i2 ch2.
Proof.
  intros c cf orc i ch l i1 ch1 m i2 ch2 H. revert i2 ch2. induction H as [|? ? ? ? ? ? D H IH|? ? ? ? ? ? ? ? ? ? ? D P H IH]; intros i2 ch2 M; [exact M| |].
  - cbn [app]. eapply ran_reply; eauto.
  - cbn [app]. eapply ran_command; eauto.
Qed.
Lemma ran_in : forall c cf orc i ch l i1 ch1, ran c cf orc i ch l i1 ch1 -> forall e args es, In e l -> snd (d_what (e_did e)) = Some (args, es) ->
  exists j w ch2 ch3 evs, prun c (working w (orc j)) 0 ch2 (evcommand cf (e_auth e) (d_proto (e_did e)) args) = Ok (ch3, es, evs).
Proof.
  intros c cf orc i ch l i1 ch1 H. induction H as [|? ? ? ? ? ? D H IH|? ? ? ? ? ? ? ? ? ? ? D P H IH]; intros e0 args0 es0 I Q; [destruct I| |].
  - destruct I as [<-|I]; [congruence|eauto].
  - destruct I as [<-|I]; [|eauto]. rewrite D in Q. injection Q as <- <-. eauto 8.
Qed.
Lemma flags_app : forall b l b1 m b2, flags b l b1 -> flags b1 m b2 -> flags b (l ++ m) b2.
Proof.
  intros b l b1 m b2 H. revert b2. induction H as [|? ? ? ? D E H IH|? ? ? ? ? ? D E H IH]; intros b2 M; [exact M| |]; cbn [app].
  - eapply flags_reply; eauto.
  - eapply flags_command; eauto.
Qed.
Lemma more_nil : forall c cf orc g, runs_more c cf orc [] g g.
Proof. intros. split; [reflexivity|]. split; [rewrite app_nil_r; reflexivity|constructor]. Qed.
Lemma more_trans : forall c cf orc l m g g1 g2, runs_more c cf orc l g g1 -> runs_more c cf orc m g1 g2 -> runs_more c cf orc (l ++ m) g g2.
Proof.
  intros c cf orc l m g g1 g2 (A & B & C) (A1 & B1 & C1). split; [congruence|]. split; [rewrite B1, B, app_assoc; reflexivity|]. eapply ran_app; eassumption.
Qed.
Lemma more_noted : forall c cf orc e g, snd (d_what (e_did e)) = None -> runs_more c cf orc [e] g (noted e g).
Proof. intros c cf orc e g D. split; [reflexivity|]. split; [reflexivity|]. apply ran_reply; [exact D|constructor]. Qed.
Lemma more_ran : forall c cf orc e args es w ch1 evs g, snd (d_what (e_did e)) = Some (args, es) ->
  prun c (working w (orc (g_num g))) 0 (g_cache g) (evcommand cf (e_auth e) (d_proto (e_did e)) args) = Ok (ch1, es, evs) ->
  runs_more c cf orc [e] g (ran_to ch1 e g).
Proof. intros c cf orc e args es w ch1 evs g D P. split; [reflexivity|]. split; [reflexivity|]. eapply ran_command; [exact D|exact P|constructor]. Qed.

(** *** Output *)
Lemma emit_all_app : forall pg a fill b, emit_all pg fill (a ++ b) = emit_all pg fill a ++ emit_all pg (fill + length (emit_all pg fill a)) b.
Proof.
  intro pg. induction a as [|[[p po] w] a IH]; intros fill b; cbn [app emit_all].
  - rewrite Nat.add_0_r. reflexivity.
  - cbv zeta. rewrite IH, app_length, <- app_assoc, Nat.add_assoc. reflexivity.
Qed.
Lemma emits_all : forall pg po p ws fill, emits pg po p fill ws = emit_all pg fill (says_of p po ws).
Proof. intros pg po p. induction ws as [|w ws IH]; intro fill; [reflexivity|]. cbn [emits says_of map emit_all]. cbv zeta. rewrite IH. reflexivity. Qed.
Lemma says_app : forall p po a b, says_of p po (a ++ b) = says_of p po a ++ says_of p po b.
Proof. intros. apply map_app. Qed.

(** *** What a connection does, whatever the cache *)
Section Plays.
Variable cf : config.
(** The packets of the connection, what was done, its state without the unread bytes, the unread
    bytes, and whether it is reading. *)
Inductive plays : list bytes -> list deed -> conn -> bytes -> bool -> Prop :=
| pl_new : plays [] [] (Conn.conn_new false) [] false
| pl_packet : forall ins ds k s b x, plays ins ds k s b -> k_closed k = false -> (b = true -> ds <> []) -> plays (ins ++ [x]) ds k (s ++ x) true
| pl_wait : forall ins ds k s k1, plays ins ds k s true -> k_closed k = false -> s <> [] -> conn_turn cf s k = Ok (Wait k1) -> plays ins ds k1 s false
| pl_empty : forall ins ds k, plays ins ds k [] true -> plays ins ds k [] false
| pl_shut : forall ins ds k s k1 ws, plays ins ds k s true -> k_closed k = false -> s <> [] -> conn_turn cf s k = Ok (Shut k1 ws) ->
    plays ins (ds ++ [mkDeed (k_auth k) (mkDid [] (proto_of k1) (pgout_of (k_pg k1)) (ws, None))]) (conn_shut k1) s true
| pl_turn : forall ins ds k s n k1 ws cmd d k2, plays ins ds k s true -> k_closed k = false -> s <> [] -> conn_turn cf s k = Ok (Turn n k1 ws cmd) ->
    match cmd with
    | None => d = None /\ (k2 = k1 \/ k2 = conn_shut k1)
    | Some args => exists es, d = Some (args, es) /\ (k2 = after es k1 \/ k2 = conn_shut (after es k1))
    end ->
    plays ins (ds ++ [mkDeed (k_auth k) (mkDid (firstn n s) (proto_of k1) (pgout_of (k_pg k1)) (ws, d))]) k2 (skipn n s) true.

Lemma plays_packet : forall ins ds k s b, plays ins ds k s b -> k_packet k = [].
Proof.
  intros ins ds k s b H. induction H as [|? ? ? ? ? ? H IH C D|? ? ? ? ? H IH C N T|? ? ? H IH|? ? ? ? ? ? H IH C N T|? ? ? ? ? ? ? ? ? ? H IH C N T D]; auto.
  - destruct (turn_like _ _ _ _ T) as (K1 & _). cbn [turn_conn] in K1. congruence.
  - destruct (turn_like _ _ _ _ T) as (K1 & _). cbn [turn_conn] in K1.
    assert (K : k_packet k1 = []) by congruence.
    destruct cmd as [args|]; [destruct D as (es & _ & [->| ->])|destruct D as [_ [->| ->]]]; try reflexivity; [apply after_packet; exact K|exact K].
Qed.
Lemma plays_raw : forall ins ds k s b, plays ins ds k s b -> concat ins = concat (map (fun e => d_raw (e_did e)) ds) ++ s.
Proof.
  intros ins ds k s b H. induction H as [|? ? ? ? ? ? H IH C D|? ? ? ? ? H IH C N T|? ? ? H IH|? ? ? ? ? ? H IH C N T|? ? ? ? ? ? ? ? ? ? H IH C N T D]; auto.
  - rewrite concat_app, IH. cbn [List.concat]. rewrite app_nil_r, app_assoc. reflexivity.
  - rewrite IH, map_app, concat_app. cbn. rewrite app_nil_r. reflexivity.
  - rewrite IH, map_app, concat_app. cbn. rewrite app_nil_r, <- app_assoc, firstn_skipn. reflexivity.
Qed.
Lemma plays_flags : forall ins ds k s b, plays ins ds k s b -> flags false ds (k_auth k).
Proof.
  intros ins ds k s b H. induction H as [|? ? ? ? ? ? H IH C D|? ? ? ? ? H IH C N T|? ? ? H IH|? ? ? ? ? ? H IH C N T|? ? ? ? ? ? ? ? ? ? H IH C N T D]; auto.
  - constructor.
  - pose proof (turn_auth _ _ _ _ T) as A. cbn in A. rewrite A. exact IH.
  - eapply flags_app; [exact IH|]. pose proof (turn_auth _ _ _ _ T) as A. cbn in A.
    match goal with |- flags _ [?e] _ => refine (flags_reply e (k_auth (conn_shut k1)) [] _ eq_refl _ (flags_end _)) end. cbn. exact A.
  - eapply flags_app; [exact IH|]. pose proof (turn_auth _ _ _ _ T) as A. cbn in A.
    assert (E : forall k0, k_auth (conn_shut k0) = k_auth k0) by reflexivity.
    destruct cmd as [args|].
    + destruct D as (es & -> & K2). match goal with |- flags _ [?e] _ => refine (flags_command e args es (k_auth k2) [] _ eq_refl _ (flags_end _)) end.
      cbn [e_auth]. rewrite <- A. destruct K2 as [->| ->]; rewrite ?E; apply after_auth.
    + destruct D as [-> K2]. match goal with |- flags _ [?e] _ => refine (flags_reply e (k_auth k2) [] _ eq_refl _ (flags_end _)) end.
      cbn. destruct K2 as [->| ->]; exact A.
Qed.
End Plays.

(** *** The handlers *)
Section Handlers.
Variables (c : ctx) (cf : config) (orc : nat -> nat -> input) (pg : pages).
Notation more := (runs_more c cf orc).
(** Where trouble came from: the text of a connection, or a command. *)
Definition text_trouble (ins : list bytes) (ds : list deed) (t : trouble) : Prop := exists k s, plays cf ins ds k s true /\ s <> [] /\ conn_turn cf s k = Bad t.
Definition cmd_trouble (ins : list bytes) (ds : list deed) (g g' : shared) (t : trouble) : Prop := exists l i ch w k s n k1 ws args,
  g_log g' = g_log g ++ l /\ ran c cf orc (g_num g) (g_cache g) l i ch /\ plays cf ins ds k s true /\ s <> [] /\ conn_turn cf s k = Ok (Turn n k1 ws (Some args)) /\
  prun c (working w (orc i)) 0 ch (evcommand cf (k_auth k) (proto_of k1) args) = Bad t.
Definition troubled_at (ins : list bytes) (ds : list deed) (g g' : shared) : Prop :=
  exists t, g_bad g' = match g_bad g with None => Some t | b => b end /\ (text_trouble ins ds t \/ cmd_trouble ins ds g g' t).
(** The state of an open connection, and of one with a job. *)
Definition open_at (ins : list bytes) (ds : list deed) (a : cdata) (b : bool) : Prop :=
  a_did a = ds /\ exists k s, plays cf ins ds k s b /\ k_closed k = false /\ a_conn a = with_packet s k.
Definition shut_at (ins : list bytes) (ds : list deed) (a : cdata) : Prop :=
  a_did a = ds /\ k_closed (a_conn a) = true /\ exists k s b, plays cf ins ds k s b.
Definition job_at (ins : list bytes) (ds : list deed) (a : cdata) (j : job) : Prop :=
  a_did a = ds /\ exists k s n k1, plays cf ins ds k s true /\ k_closed k = false /\ s <> [] /\ conn_turn cf s k = Ok (Turn n k1 (j_ws j) (Some (j_args j))) /\
    a_conn a = with_packet (skipn n s) k1 /\ j_auth j = k_auth k /\ j_raw j = firstn n s /\ j_proto j = proto_of k1 /\ j_pg j = pgout_of (k_pg k1).
Definition job_says (j : job) : list (proto * pgout * wr) := says_of (j_proto j) (j_pg j) (j_ws j).
Definition job_outs (j : job) (es : list eff) : list (proto * pgout * wr) := says_of (j_proto j) (j_pg j) (outs es).
(** What the handler may give. *)
Definition serves (ins : list bytes) (ds : list deed) (g : shared) (out : bytes) (r : hres cdata shared job) : Prop :=
  match r with
  | HDone a g' out' cl => troubled_at ins (a_did a) g g' \/ exists new, more new g g' /\ out' = out ++ emit_all pg (length out) (flat_map says new) /\
      (if cl then shut_at ins (ds ++ new) a else open_at ins (ds ++ new) a false)
  | HBack a g' out' j (a2, g2, out2) => exists new, more new g g' /\ out' = out ++ emit_all pg (length out) (flat_map says new ++ job_says j) /\
      job_at ins (ds ++ new) a j /\ j_effs j = None /\
      (troubled_at ins (a_did a2) g g2 \/ exists es, more (new ++ [job_deed j es]) g g2 /\ out2 = emit_all pg 0 (job_outs j es) /\ shut_at ins (ds ++ new ++ [job_deed j es]) a2)
  end.
Lemma troubled_more : forall ins ds l g g1 g2, more l g g1 -> troubled_at ins ds g1 g2 -> troubled_at ins ds g g2.
Proof.
  intros ins ds l g g1 g2 (B & Lg & R) (t & E & [H|(l2 & i & ch & w & k & s & n & k1 & ws & args & L2 & R2 & P)]); exists t; rewrite B in E; (split; [exact E|]); [left; exact H|right].
  exists (l ++ l2), i, ch, w, k, s, n, k1, ws, args. split; [rewrite L2, Lg, app_assoc; reflexivity|]. split; [eapply ran_app; eassumption|exact P].
Qed.
Lemma serves_more : forall ins ds new g g1 out l r, more new g g1 -> flat_map says new = l ->
  serves ins (ds ++ new) g1 (out ++ emit_all pg (length out) l) r -> serves ins ds g out r.
Proof.
  intros ins ds new g g1 out l r M L H. destruct r as [a g' out' cl|a g' out' j [[a2 g2] out2]]; cbn [serves] in *.
  - destruct H as [H|(n2 & M2 & O & K)]; [left; eapply troubled_more; eassumption|right]. exists (new ++ n2).
    split; [eapply more_trans; eassumption|]. split; [|rewrite app_assoc; exact K].
    rewrite O, flat_map_app, L, emit_all_app, app_length, app_assoc. reflexivity.
  - destruct H as (n2 & M2 & O & K & J & N). exists (new ++ n2).
    split; [eapply more_trans; eassumption|]. split; [|split; [rewrite app_assoc; exact K|split; [exact J|]]].
    + rewrite O, flat_map_app, L, <- !app_assoc. rewrite (emit_all_app pg l), app_length, app_assoc. reflexivity.
    + destruct N as [N|(es & N1 & N2 & N3)]; [left; eapply troubled_more; eassumption|right]. exists es.
      split; [rewrite <- app_assoc; eapply more_trans; eassumption|]. split; [exact N2|]. rewrite <- !app_assoc in *. exact N3.
Qed.
Lemma failed_at : forall ins ds g t, text_trouble ins ds t \/ cmd_trouble ins ds g (failed t g) t -> troubled_at ins ds g (failed t g).
Proof. intros ins ds g t H. exists t. split; [reflexivity|exact H]. Qed.
Lemma loop_serves : forall ins fuel data k ds g out, plays cf ins ds k data true -> k_closed k = false -> (length data < fuel)%nat ->
  serves ins ds g out (serve_loop c cf orc pg fuel data k ds g out).
Proof.
  intros ins fuel. induction fuel as [|f IH]; intros data k ds g out P C L; [lia|]. cbn [serve_loop].
  destruct data as [|x data].
  { right. exists []. split; [apply more_nil|]. split; [cbn; rewrite app_nil_r; reflexivity|]. rewrite app_nil_r. split; [reflexivity|].
    exists k, []. split; [apply pl_empty; exact P|]. auto. }
  set (s := x :: data) in *. assert (Ns : s <> []) by discriminate.
  destruct (conn_turn cf s k) as [[k1|k1 ws|n k1 ws cmd]|t] eqn:T.
  - right. exists []. split; [apply more_nil|]. split; [cbn; rewrite app_nil_r; reflexivity|]. rewrite app_nil_r. split; [reflexivity|].
    exists k1, s. split; [eapply pl_wait; eassumption|]. split; [|reflexivity]. destruct (turn_like _ _ _ _ T) as (_ & K & _). cbn [turn_conn] in K. congruence.
  - right. eexists. split; [apply more_noted; reflexivity|]. split; [|split; [reflexivity|split; [reflexivity|]]].
    + cbn [flat_map]. rewrite app_nil_r. cbn. rewrite emits_all, app_nil_r. reflexivity.
    + exists (conn_shut k1), s, true. eapply pl_shut; eassumption.
  - assert (W := turn_within _ _ _ _ _ _ _ Ns T). assert (A := turn_auth _ _ _ _ T). cbn in A.
    assert (C1 : k_closed k1 = false) by (destruct (turn_like _ _ _ _ T) as (_ & K & _); cbn [turn_conn] in K; congruence).
    assert (Ls : (length (skipn n s) < f)%nat) by (rewrite skipn_length; subst s; cbn [length] in *; lia).
    cbv zeta.
    assert (Next : forall e k2 g2 out2, (k_closed k2 = true -> conn_shut k2 = k2) -> plays cf ins (ds ++ [e]) k2 (skipn n s) true -> plays cf ins (ds ++ [e]) (conn_shut k2) (skipn n s) true -> more [e] g g2 ->
      out2 = out ++ emit_all pg (length out) (says e) ->
      serves ins ds g out (let k3 := match k_proto k2 with Some HTTP => conn_shut k2 | _ => k2 end in
        if k_closed k3 then HDone (mkCdata (conn_shut k3) (ds ++ [e])) g2 out2 true else serve_loop c cf orc pg f (skipn n s) k3 (ds ++ [e]) g2 out2)).
    { intros e k2 g2 out2 Sh P1 P2 M ->. cbv zeta. set (k3 := match k_proto k2 with Some HTTP => conn_shut k2 | _ => k2 end).
      assert (K3 : k3 = k2 \/ k3 = conn_shut k2) by (subst k3; destruct (k_proto k2) as [[]|]; auto).
      assert (Ls' : says e = flat_map says [e]) by (cbn; rewrite app_nil_r; reflexivity).
      destruct (k_closed k3) eqn:C3.
      - right. exists [e]. split; [exact M|]. split; [rewrite <- Ls'; reflexivity|]. split; [reflexivity|]. split; [reflexivity|].
        exists (conn_shut k2), (skipn n s), true. exact P2.
      - eapply serves_more; [exact M|reflexivity|]. rewrite Ls'. apply IH; [|exact C3|exact Ls]. destruct K3 as [-> | ->]; assumption. }
    destruct cmd as [args|].
    + destruct (goes_back _ _) eqn:Gb.
      * cbn [serves].
        assert (Jn : forall a2 g2 out2, 
          (troubled_at ins (a_did a2) g g2 \/ exists es, more ([] ++ [job_deed (mkJob (k_auth k) (firstn n s) (proto_of k1) (pgout_of (k_pg k1)) ws args None) es]) g g2 /\
             out2 = emit_all pg 0 (job_outs (mkJob (k_auth k) (firstn n s) (proto_of k1) (pgout_of (k_pg k1)) ws args None) es) /\
             shut_at ins (ds ++ [] ++ [job_deed (mkJob (k_auth k) (firstn n s) (proto_of k1) (pgout_of (k_pg k1)) ws args None) es]) a2) ->
          serves ins ds g out (HBack (mkCdata (with_packet (skipn n s) k1) ds) g (out ++ emits pg (pgout_of (k_pg k1)) (proto_of k1) (length out) ws)
             (mkJob (k_auth k) (firstn n s) (proto_of k1) (pgout_of (k_pg k1)) ws args None) (a2, g2, out2))).
        { intros a2 g2 out2 N. exists []. split; [apply more_nil|]. split; [cbn [flat_map app]; rewrite emits_all; reflexivity|].
          split; [|split; [reflexivity|exact N]]. rewrite app_nil_r. split; [reflexivity|]. exists k, s, n, k1. repeat (split; [assumption || reflexivity|]). reflexivity. }
        destruct (prun c (working false (orc (g_num g))) 0 (g_cache g) _) as [[[ch2 es] evs]|t] eqn:R.
        -- apply Jn. right. exists es. split; [|split].
           ++ cbn [app]. eapply more_ran; [reflexivity|]. cbn. rewrite <- A. exact R.
           ++ cbn [app]. rewrite emits_all. reflexivity.
           ++ split; [reflexivity|]. split; [reflexivity|]. exists (conn_shut (after es k1)), (skipn n s), true. cbn [app].
              refine (pl_turn cf ins ds k s n k1 ws (Some args) (Some (args, es)) _ P C Ns T _). exists es. auto.
        -- apply Jn. left. apply failed_at. right. exists [], (g_num g), (g_cache g). do 7 eexists. split; [cbn; rewrite app_nil_r; reflexivity|]. split; [constructor|]. split; [exact P|]. split; [exact Ns|]. split; [exact T|]. rewrite <- A. exact R.
      * destruct (prun c (working true (orc (g_num g))) 0 (g_cache g) _) as [[[ch2 es] evs]|t] eqn:R.
        -- apply Next.
           ++ unfold after. intro Q. destruct (existsb (fun e => match e with Closed => true | _ => false end) es); [reflexivity|].
              exfalso. destruct (existsb _ es); cbn in Q; congruence.
           ++ refine (pl_turn cf ins ds k s n k1 ws (Some args) (Some (args, es)) _ P C Ns T _). exists es. auto.
           ++ refine (pl_turn cf ins ds k s n k1 ws (Some args) (Some (args, es)) _ P C Ns T _). exists es. auto.
           ++ eapply more_ran; [reflexivity|]. cbn. rewrite <- A. exact R.
           ++ unfold says. cbn [e_did d_proto d_pg d_what fst snd]. rewrite !emits_all, says_app, emit_all_app, app_length, app_assoc. reflexivity.
        -- left. apply failed_at. right. exists [], (g_num g), (g_cache g). do 7 eexists. split; [cbn; rewrite app_nil_r; reflexivity|]. split; [constructor|]. split; [exact P|]. split; [exact Ns|]. split; [exact T|]. rewrite <- A. exact R.
    + apply Next.
      * intro Q. congruence.
      * refine (pl_turn cf ins ds k s n k1 ws None None _ P C Ns T _). auto.
      * refine (pl_turn cf ins ds k s n k1 ws None None _ P C Ns T _). auto.
      * apply more_noted. reflexivity.
      * unfold says. cbn [e_did d_proto d_pg d_what fst snd]. rewrite emits_all, app_nil_r. reflexivity.
  - left. apply failed_at. left. exists k, s. auto.
Qed.
End Handlers.
