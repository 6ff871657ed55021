(** Proofs about the server: the requests of a client. *)
From Verif Require Import Base Types Clamp Entry Hash Map Shard Cache Text IntText CmdTable CmdSpec CmdsProofs Prog Cmds Resp Memcache Postgres PgProofs3 Http HttpSpec HttpProofs PropHttp Reply ReplySpec ReplyProofs PgSpec PgProofs PgProofs2 RespSpec RespProofs TelnetProofs McSpec McProofs Conn ConnSpec ConnProofs ConnProofs2 ConnProofs3 ConnProofs4 ConnProofs6 ConnProofs5 ConnProofs7 Net NetSpec Server ServerSpec ServerProofs ServerProofs2.
From Coq Require Import String Lia Permutation.
Local Open Scope N_scope.
Notation length := List.length.
Notation concat := List.concat.
Notation map := List.map.

(** The first packet that is not empty shows the protocol. *)
Definition opens_ok (p : proto) (ins : list bytes) : Prop :=
  forall em x more, ins = em ++ x :: more -> Forall (fun e => e = []) em -> x <> [] -> sniff_proto x = Some p.
Lemma first_only : forall (em em' : list bytes) x x' more more', em ++ x :: more = em' ++ x' :: more' -> Forall (fun e => e = []) em -> Forall (fun e => e = []) em' ->
  x <> [] -> x' <> [] -> x = x'.
Proof.
  induction em as [|e em IH]; intros [|e' em'] x x' more more' E F F' X X'; cbn in E.
  - congruence.
  - injection E as E1 E2. inversion F'; subst. congruence.
  - injection E as E1 E2. inversion F; subst. congruence.
  - injection E as E1 E2. inversion F; inversion F'; subst. eapply IH; eassumption.
Qed.
Lemma opens_sniff : forall p packets, opens p packets -> opens_ok p packets.
Proof.
  intros p packets O em x more E F X. destruct O as [(s & C & ->)|[(s & C & ->)|(em' & line & rest & more' & E' & F' & N & Sp)]].
  - assert (Q : concat packets = x ++ concat more) by (rewrite E, concat_app; cbn; replace (concat em) with (@nil byte); [reflexivity|]; clear -F; induction F as [|e l H F IH]; [reflexivity|cbn; rewrite H; exact IH]).
    destruct x as [|b x]; [congruence|]. cbn in Q. assert (Eb : b = 42%N) by congruence. rewrite Eb. reflexivity.
  - assert (Q : concat packets = x ++ concat more) by (rewrite E, concat_app; cbn; replace (concat em) with (@nil byte); [reflexivity|]; clear -F; induction F as [|e l H F IH]; [reflexivity|cbn; rewrite H; exact IH]).
    destruct x as [|b x]; [congruence|]. cbn in Q. assert (Eb : b = 0%N) by congruence. rewrite Eb. reflexivity.
  - assert (Ex : x = line ++ 10 :: rest) by (refine (first_only em em' _ _ more more' _ F F' X _); [rewrite <- E; exact E'|destruct line; discriminate]).
    destruct (sniff_line line rest N) as (q & Eq & Q). rewrite Ex, Eq. f_equal. exact (speaks_unique _ _ _ Q Sp).
Qed.
Lemma opens_less : forall p a b, opens_ok p (a ++ b) -> opens_ok p a.
Proof. intros p a b H em x more E F X. apply (H em x (more ++ b)); [rewrite E, <- app_assoc; reflexivity|exact F|exact X]. Qed.
Lemma sniff_turn : forall cf p s k, k_proto k = None -> sniff_proto s = Some p -> conn_turn cf s k = conn_turn cf s (with_proto p k).
Proof. intros cf p s k P S. unfold conn_turn, parse_command. rewrite P, S. reflexivity. Qed.
Lemma shut_proto : forall k, k_proto (conn_shut k) = k_proto k.
Proof. reflexivity. Qed.
Lemma skipn_next : forall A (l : list A) m x r, skipn m l = x :: r -> skipn (S m) l = r /\ firstn (S m) l = firstn m l ++ [x] /\ nth_error l m = Some x.
Proof.
  intros A l. induction l as [|a l IH]; intros [|m] x r H; cbn in H; try discriminate.
  - injection H as -> ->. auto.
  - destruct (IH _ _ _ H) as (E1 & E2 & E3). split; [exact E1|]. split; [|exact E3]. change (a :: firstn (S m) l = a :: firstn m l ++ [x]). rewrite E2. reflexivity.
Qed.
Lemma F2_skipn : forall A B (R : A -> B -> Prop) l l', Forall2 R l l' -> forall m, Forall2 R (skipn m l) (skipn m l').
Proof. intros A B R l l' F. induction F as [|a b l l' H F IH]; intros [|m]; cbn; auto. Qed.

Section Asked.
Variables (cf : config) (p : proto) (argss : list (list bytes)) (texts : list bytes).
Hypothesis F : Forall2 (asked p) argss texts.
(** The next turn, when a request has begun. *)
Lemma turn_cases : forall s k m future, s <> [] -> s ++ future = concat (skipn m texts) ->
  k_proto k = Some p \/ (k_proto k = None /\ sniff_proto s = Some p) ->
  exists t ts args rest k0, skipn m texts = t :: ts /\ skipn m argss = args :: rest /\ k_proto k0 = Some p /\
    ((exists d, s = t ++ d /\ d ++ future = concat ts /\ conn_turn cf s k = Ok (Turn (length t) k0 [] (match args with [] => None | _ => Some args end))) \/
     (exists q kw, t = s ++ q /\ q <> [] /\ conn_turn cf s k = Ok (Wait kw))).
Proof.
  intros s k m future Ns E P. pose proof (F2_skipn _ _ _ _ _ F m) as Fm. destruct Fm as [|args t rest ts A Fm].
  { destruct s; [congruence|discriminate E]. }
  destruct (asked_turn cf p args t A) as (Np & (Nt & Fr) & T).
  assert (K : exists k0, k_proto k0 = Some p /\ conn_turn cf s k = conn_turn cf s k0).
  { destruct P as [P|[P S]]; [exists k; auto|]. exists (with_proto p k). split; [reflexivity|]. apply sniff_turn; assumption. }
  destruct K as (k0 & P0 & E0). exists t, ts, args, rest, k0. split; [reflexivity|]. split; [reflexivity|]. split; [exact P0|].
  destruct (Fr k0 P0) as (Fr1 & _ & _ & Fr2). specialize (T k0 P0). cbn in E. destruct (concat_cut _ _ _ _ E) as [(d & Es & Ed)|(q & Et & Nq & _)].
  - left. exists d. split; [exact Es|]. split; [exact Ed|]. rewrite E0, Es, Fr1. exact T.
  - right. destruct (Fr2 s q Et Ns Nq) as [kw W]. exists q, kw. split; [exact Et|]. split; [exact Nq|]. rewrite E0. exact W.
Qed.
Lemma wait_proto : forall s k k1, conn_turn cf s k = Ok (Wait k1) -> k_proto k = Some p \/ (k_proto k = None /\ sniff_proto s = Some p) -> k_proto k1 = Some p.
Proof.
  intros s k k1 T P. clear F.
  assert (G : forall k0, k_proto k0 = Some p -> conn_turn cf s k0 = Ok (Wait k1) -> k_proto k1 = Some p).
  { intros k0 P0 T0. destruct (turn_like _ _ _ _ T0) as (_ & _ & _ & Q & _). cbn [turn_conn] in Q. rewrite Q; congruence. }
  destruct P as [P|[P S]]; [exact (G k P T)|]. rewrite (sniff_turn cf p) in T by assumption. exact (G (with_proto p k) eq_refl T).
Qed.
(** What a client that sends these requests has got done. *)
Lemma plays_asked : forall ins ds k s b, plays cf ins ds k s b -> forall future, opens_ok p ins -> concat ins ++ future = concat texts ->
  exists m, map (fun e => d_raw (e_did e)) ds = firstn m texts /\ Forall2 did_command (firstn m argss) (map e_did ds) /\ s ++ future = concat (skipn m texts) /\ (m <= length texts)%nat /\
    (k_proto k = Some p \/ (k_proto k = None /\ ds = [] /\ concat ins = [] /\ s = []) \/ (k_proto k = None /\ ds = [] /\ sniff_proto s = Some p /\ b = true)) /\
    (b = false -> s = [] \/ exists t ts q, skipn m texts = t :: ts /\ t = s ++ q /\ q <> []).
Proof.
  intros ins ds k s b H. induction H as [|ins ds k s b x H IH C D|ins ds k s k1 H IH C N T|ins ds k H IH|ins ds k s k1 ws H IH C N T|ins ds k s n k1 ws cmd d k2 H IH C N T D]; intros future O E.
  - exists 0%nat. split; [reflexivity|]. split; [constructor|]. split; [exact E|]. split; [lia|]. split; [right; left; auto|left; reflexivity].
  - rewrite concat_app in E. cbn in E. rewrite app_nil_r, <- app_assoc in E. destruct (IH (x ++ future) (opens_less _ _ _ O) E) as (m & A1 & A2 & A3 & A4 & A5 & A6).
    exists m. split; [exact A1|]. split; [exact A2|]. split; [rewrite <- app_assoc; exact A3|]. split; [exact A4|]. split; [|discriminate].
    destruct A5 as [A5|[(P & D0 & I0 & S0)|(P & D0 & S0 & B0)]]; [left; exact A5| |destruct (D B0 D0)].
    right. destruct x as [|y x]; [left; rewrite S0, concat_app, I0; auto|right]. split; [exact P|]. split; [exact D0|]. split; [|reflexivity]. rewrite S0.
    apply (O ins (y :: x) []); [reflexivity| |discriminate]. clear -I0. induction ins as [|e l IH]; [constructor|]. cbn in I0. apply app_eq_nil in I0. destruct I0. constructor; auto.
  - destruct (IH future O E) as (m & A1 & A2 & A3 & A4 & A5 & A6). exists m. split; [exact A1|]. split; [exact A2|]. split; [exact A3|]. split; [exact A4|].
    assert (P : k_proto k = Some p \/ (k_proto k = None /\ sniff_proto s = Some p)) by (destruct A5 as [A5|[(_ & _ & _ & S0)|(P & _ & S0 & _)]]; [auto|contradiction|auto]).
    split; [left; exact (wait_proto _ _ _ T P)|]. intros _. right.
    destruct (turn_cases s k m future N A3 P) as (t & ts & args & rest & k0 & B1 & B2 & B3 & [(dd & B4 & B5 & B6)|(q & kw & B4 & B5 & B6)]); [rewrite B6 in T; discriminate|]. exists t, ts, q. auto.
  - destruct (IH future O E) as (m & A1 & A2 & A3 & A4 & A5 & A6). exists m. split; [exact A1|]. split; [exact A2|]. split; [exact A3|]. split; [exact A4|]. split; [|intros _; left; reflexivity].
    destruct A5 as [A5|[A5|(_ & _ & S0 & _)]]; [auto|auto|discriminate S0].
  - exfalso. destruct (IH future O E) as (m & A1 & A2 & A3 & A4 & A5 & A6).
    assert (P : k_proto k = Some p \/ (k_proto k = None /\ sniff_proto s = Some p)) by (destruct A5 as [A5|[(_ & _ & _ & S0)|(P & _ & S0 & _)]]; [auto|contradiction|auto]).
    destruct (turn_cases s k m future N A3 P) as (t & ts & args & rest & k0 & B1 & B2 & B3 & [(dd & B4 & B5 & B6)|(q & kw & B4 & B5 & B6)]); rewrite B6 in T; discriminate.
  - destruct (IH future O E) as (m & A1 & A2 & A3 & A4 & A5 & A6).
    assert (P : k_proto k = Some p \/ (k_proto k = None /\ sniff_proto s = Some p)) by (destruct A5 as [A5|[(_ & _ & _ & S0)|(P & _ & S0 & _)]]; [auto|contradiction|auto]).
    destruct (turn_cases s k m future N A3 P) as (t & ts & args & rest & k0 & B1 & B2 & B3 & [(dd & B4 & B5 & B6)|(q & kw & B4 & B5 & B6)]); rewrite B6 in T; [|discriminate].
    injection T as <- <- <- <-. destruct (skipn_next _ _ _ _ _ B1) as (C1 & C2 & C3). destruct (skipn_next _ _ _ _ _ B2) as (D1 & D2 & D3).
    assert (Fi : firstn (length t) s = t) by (rewrite B4, firstn_app, firstn_all, Nat.sub_diag; cbn; apply app_nil_r).
    assert (Sk : skipn (length t) s = dd) by (rewrite B4, skipn_app, skipn_all, Nat.sub_diag; reflexivity).
    exists (S m). rewrite C2, D2, C1, Sk, Fi, !map_app, A1. cbn [List.map e_did d_raw]. split; [reflexivity|]. split.
    + apply Forall2_app; [exact A2|]. constructor; [|constructor]. split; [reflexivity|]. cbn. destruct args; [destruct D as [-> _]; reflexivity|destruct D as (es & -> & _); reflexivity].
    + split; [exact B5|]. split; [assert (m < length texts)%nat by (apply nth_error_Some; congruence); lia|]. split; [|discriminate]. left.
      destruct args as [|a args]; [destruct D as [_ [-> | ->]]; exact B3|destruct D as (es & _ & [-> | ->])]; [rewrite after_proto; exact B3|rewrite shut_proto, after_proto; exact B3].
Qed.
(** A job is the next request. *)
Lemma job_asked : forall ins ds a j, job_at cf ins ds a j -> forall future, opens_ok p ins -> concat ins ++ future = concat texts ->
  exists m, map (fun e => d_raw (e_did e)) ds = firstn m texts /\ Forall2 did_command (firstn m argss) (map e_did ds) /\ nth_error texts m = Some (j_raw j) /\ nth_error argss m = Some (j_args j) /\ j_ws j = [] /\ j_args j <> [].
Proof.
  intros ins ds a j (_ & k & s & n & k1 & H & C & N & T & _ & _ & Ja & _ & _) future O E.
  destruct (plays_asked _ _ _ _ _ H future O E) as (m & A1 & A2 & A3 & A4 & A5 & A6).
  assert (P : k_proto k = Some p \/ (k_proto k = None /\ sniff_proto s = Some p)) by (destruct A5 as [A5|[(_ & _ & _ & S0)|(P & _ & S0 & _)]]; [auto|contradiction|auto]).
  destruct (turn_cases s k m future N A3 P) as (t & ts & args & rest & k0 & B1 & B2 & B3 & [(dd & B4 & B5 & B6)|(q & kw & B4 & B5 & B6)]); rewrite B6 in T; [|discriminate].
  injection T as E1 E2 E3 E4. destruct (skipn_next _ _ _ _ _ B1) as (C1 & C2 & C3). destruct (skipn_next _ _ _ _ _ B2) as (D1 & D2 & D3).
  exists m. split; [exact A1|]. split; [exact A2|]. rewrite C3, D3, Ja, <- E1. split; [f_equal; rewrite B4, firstn_app, firstn_all, Nat.sub_diag; cbn; symmetry; apply app_nil_r|].
  destruct args as [|x args]; [discriminate E4|]. injection E4 as <-. split; [reflexivity|]. split; [auto|discriminate].
Qed.
End Asked.

(** ** Authentication *)
Section Locked.
Variables (c : ctx) (cf : config) (orc : nat -> nat -> input).
Hypothesis Us : cf_useauth cf = true.
Hypothesis Ne : cf_password cf <> [].
Hypothesis Np : no_nul (cf_password cf).
Definition harmless (e : deed) : Prop := forall i ch i' ch', ran c cf orc i ch [e] i' ch' -> ch' = ch.
Definition honest (e : deed) : Prop := forall args es, snd (d_what (e_did e)) = Some (args, es) ->
  exists j w ch2 ch3 evs, prun c (working w (orc j)) 0 ch2 (evcommand cf (e_auth e) (d_proto (e_did e)) args) = Ok (ch3, es, evs).
Definition bland (e : deed) : Prop := refused (e_did e) /\ harmless e.
Lemma plain_bland : forall e, snd (d_what (e_did e)) = None -> bland e.
Proof.
  intros e E. split; [intros args es Q; congruence|]. intros i ch i' ch' R. inversion R as [|? ? ? ? ? ? D R'|? ? ? ? ? ? ? ? ? ? ? D P R']; subst; [|congruence].
  inversion R'; subst. reflexivity.
Qed.
Lemma plays_locked : forall ins ds k s b, plays cf ins ds k s b -> Forall honest ds ->
  (Forall bland ds /\ (k_closed k = true \/ locked k)) \/ (exists ds1 e ds2, ds = ds1 ++ e :: ds2 /\ Forall bland ds1 /\ presents (cf_password cf) (e_did e)).
Proof.
  intros ins ds k s b H. induction H as [|ins ds k s b x H IH C D|ins ds k s k1 H IH C N T|ins ds k H IH|ins ds k s k1 ws H IH C N T|ins ds k s n k1 ws cmd d k2 H IH C N T D]; intro Ho; auto.
  - left. split; [constructor|]. right. split; [reflexivity|]. split; reflexivity.
  - destruct (IH Ho) as [(A & L)|R]; [left|right; exact R]. split; [exact A|]. right. destruct L as [L|L]; [congruence|].
    exact (turn_locked _ _ _ _ Us Ne Np L T).
  - apply Forall_app in Ho. destruct (IH (proj1 Ho)) as [(A & L)|(ds1 & e & ds2 & -> & R)]; [left|right; exists ds1, e; eexists; split; [rewrite <- app_assoc; reflexivity|exact R]].
    split; [|left; reflexivity]. apply Forall_app. split; [exact A|]. constructor; [|constructor]. apply plain_bland. reflexivity.
  - apply Forall_app in Ho. destruct Ho as [Ho He]. inversion He as [|? ? He1 _]. subst. clear He.
    destruct (IH Ho) as [(A & L)|(ds1 & e & ds2 & -> & R)]; [|right; exists ds1, e; eexists; split; [rewrite <- app_assoc; reflexivity|exact R]].
    destruct L as [L|L]; [congruence|]. pose proof (turn_locked _ _ _ _ Us Ne Np L T) as L1. cbn in L1.
    set (e := mkDeed (k_auth k) _) in *.
    assert (Pr : presents (cf_password cf) (e_did e) -> exists ds1 e0 ds2, ds ++ [e] = ds1 ++ e0 :: ds2 /\ Forall bland ds1 /\ presents (cf_password cf) (e_did e0)) by (intro P; exists ds, e, []; auto).
    assert (Ok : bland e -> (k_closed k2 = true \/ locked k2) -> Forall bland (ds ++ [e]) /\ (k_closed k2 = true \/ locked k2)).
    { intros B K. split; [|exact K]. apply Forall_app. split; [exact A|]. constructor; [exact B|constructor]. }
    destruct L1 as [[L1 Sh]|[Pp Sh]]; [|right; apply Pr; unfold presents, e; cbn [e_did d_proto d_raw]; rewrite Pp; exact Sh].
    destruct cmd as [args|].
    + destruct D as (es & -> & K2).
      assert (Dc : proto_of k1 = HTTP \/ proto_of k1 <> HTTP) by (destruct (proto_of k1); (left; reflexivity) || (right; discriminate)).
      destruct Dc as [Ph|Nh].
      { right. apply Pr. unfold presents, e. cbn [e_did d_proto d_raw]. rewrite Ph in Sh |- *. exact Sh. }
      assert (Npg : proto_of k1 <> POSTGRES) by (intro Q; rewrite Q in Sh; discriminate Sh).
      assert (Ev : evcommand cf (k_auth k) (proto_of k1) args = cmdAUTH (cf_password cf) (proto_of k1) args).
      { unfold evcommand. rewrite Us, (proj1 L). destruct (proto_of k1); try reflexivity. congruence. }
      destruct (auth_run (cf_password cf) (proto_of k1) args) as [(w & Iw & Au)|(w & Ea & W)].
      * left. destruct (He1 args es eq_refl) as (j & w' & ch2 & ch3 & evs & P). cbn [e e_auth e_did d_proto] in P. rewrite Ev, Au in P. injection P as <- <- <-.
        apply Ok.
        -- split; [intros args0 es0 Q; injection Q as <- <-; eauto|]. intros i ch i' ch' R. inversion R as [|? ? ? ? ? ? D0 R'|? ? ? ? ? ? ? ? ? ? ? D0 P R']; subst; [discriminate D0|].
           inversion R'; subst. injection D0 as <- <-. cbn [e e_auth e_did d_proto] in P. rewrite Ev, Au in P. congruence.
        -- rewrite after_out in K2. destruct K2 as [-> | ->]; [right; exact L1|left; reflexivity].
      * right. apply Pr. unfold presents, e. cbn [e_did d_proto d_what snd]. subst args. destruct (proto_of k1); try congruence; eauto.
    + destruct D as [-> K2]. left. apply Ok; [apply plain_bland; reflexivity|]. destruct K2 as [-> | ->]; [right; exact L1|left; reflexivity].
Qed.
End Locked.

(** ** Trouble *)
Lemma plays_sound : forall cf ins ds k s b, plays cf ins ds k s b -> bytes_ok (concat ins) -> sound (k_pg k) /\ bytes_ok s.
Proof.
  intros cf ins ds k s b H B.
  assert (Bs : bytes_ok s) by (rewrite (plays_raw _ _ _ _ _ _ H) in B; apply Forall_app in B; apply B). split; [|exact Bs]. revert B. clear Bs.
  induction H as [|ins ds k s b x H IH C D|ins ds k s k1 H IH C N T|ins ds k H IH|ins ds k s k1 ws H IH C N T|ins ds k s n k1 ws cmd d k2 H IH C N T D]; intro B; auto.
  - apply sound_new.
  - apply IH. rewrite concat_app in B. apply Forall_app in B. apply B.
  - assert (Bs : bytes_ok s) by (rewrite (plays_raw _ _ _ _ _ _ H) in B; apply Forall_app in B; apply B). pose proof (turn_sound cf s k (IH B) Bs) as Q. rewrite T in Q. exact Q.
  - assert (Bs : bytes_ok s) by (rewrite (plays_raw _ _ _ _ _ _ H) in B; apply Forall_app in B; apply B). pose proof (turn_sound cf s k (IH B) Bs) as Q. rewrite T in Q. exact Q.
  - assert (Bs : bytes_ok s) by (rewrite (plays_raw _ _ _ _ _ _ H) in B; apply Forall_app in B; apply B). pose proof (turn_sound cf s k (IH B) Bs) as Q. rewrite T in Q. cbn [turn_conn] in Q.
    destruct cmd as [args|]; [destruct D as (es & _ & [-> | ->])|destruct D as [_ [-> | ->]]]; try exact Q; cbn [conn_shut k_pg]; rewrite after_pg; exact Q.
Qed.
Lemma text_troubled : forall cf ins ds t, text_trouble cf ins ds t -> bytes_ok (concat ins) -> exists a b, concat ins = a ++ b /\ troubled b.
Proof.
  intros cf ins ds t (k & s & H & N & T) B. destruct (plays_sound _ _ _ _ _ _ H B) as [Sd Bs]. exists (concat (map (fun e => d_raw (e_did e)) ds)), s.
  split; [exact (plays_raw _ _ _ _ _ _ H)|]. exact (turn_troubled cf s k t Sd Bs T).
Qed.
Lemma plays_reached : forall cf ins ds k s b, plays cf ins ds k s b -> bytes_ok (concat ins) -> reached cf k.
Proof.
  intros cf ins ds k s b H.
  induction H as [|ins ds k s b x H IH C D|ins ds k s k1 H IH C N T|ins ds k H IH|ins ds k s k1 ws H IH C N T|ins ds k s n k1 ws cmd d k2 H IH C N T D]; intro B; auto.
  - apply (reached_new _ false). reflexivity.
  - apply IH. rewrite concat_app in B. apply Forall_app in B. apply B.
  - eapply reached_next; [exact (IH B)|exact (proj2 (plays_sound _ _ _ _ _ _ H B))|exact T|reflexivity].
  - eapply reached_next; [exact (IH B)|exact (proj2 (plays_sound _ _ _ _ _ _ H B))|exact T|reflexivity].
  - refine (reached_next _ _ _ _ _ (IH B) (proj2 (plays_sound _ _ _ _ _ _ H B)) T _). cbn [turn_conn].
    destruct cmd as [args|]; [destruct D as (es & _ & [-> | ->])|destruct D as [_ [-> | ->]]]; try reflexivity; cbn [conn_shut k_pg]; apply after_pg.
Qed.

(** ** Connections *)
Section Conns.
Variables (c : ctx) (cf : config) (orc : nat -> nat -> input) (pg : pages).
Notation s_ins := (s_ins cdata job). Notation s_data := (s_data cdata job). Notation s_job := (s_job cdata job).
Lemma cinv_plays : forall x, cinv cf pg x -> exists k s b, plays cf (s_ins x) (sdeeds x) k s b.
Proof.
  intros x (_ & I). unfold sdeeds. destruct (s_job x) as [[j fin]|]; cbn [option_map fst job_deeds].
  - destruct I as ((_ & k & s & n & k1 & P & C & N & T & Ea & J1 & J2 & J3 & J4) & _). destruct (j_effs j) as [es|]; [|rewrite app_nil_r; eauto].
    exists (after es k1), (skipn n s), true. unfold job_deed. rewrite J1, J2, J3, J4.
    refine (pl_turn cf (s_ins x) _ k s n k1 (j_ws j) (Some (j_args j)) (Some (j_args j, es)) _ P C N T _). exists es. auto.
  - rewrite app_nil_r. destruct I as [(b & (_ & k & s & P & _) & _)|[(_ & _ & k & s & b & P) _]]; eauto.
Qed.
Lemma cinv_read : forall x, cinv cf pg x -> exists rest,
  concat (s_ins x) = (concat (map (fun e => d_raw (e_did e)) (a_did (s_data x))) ++ match option_map fst (s_job x) with Some j => j_raw j | None => [] end) ++ rest.
Proof.
  intros x (_ & I). destruct (s_job x) as [[j fin]|]; cbn [option_map fst].
  - destruct I as ((_ & k & s & n & k1 & P & C & N & T & Ea & J1 & J2 & J3 & J4) & _). exists (skipn n s). rewrite (plays_raw _ _ _ _ _ _ P), J2, <- app_assoc, firstn_skipn. reflexivity.
  - destruct I as [(b & (_ & k & s & P & _) & _)|[(_ & _ & k & s & b & P) _]]; exists s; rewrite app_nil_r; exact (plays_raw _ _ _ _ _ _ P).
Qed.
End Conns.
