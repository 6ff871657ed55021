(** C64: TLS connections. *)
From Verif Require Import Base Types Shard Net Tls Text IntText IntTextProofs Resp RespSpec RespProofs PropResp.
From Coq Require Import String.
Local Open Scope nat_scope.
Notation length := List.length.
Notation concat := List.concat.

(** The bytes that a client has sent, by what has arrived. *)
Definition content (l : list arrival) : bytes := flat_map (fun a => match a with Rec r => r | _ => [] end) l.
(** Records have at most [n] bytes; the protocol allows 16384. *)
Definition records (n : nat) (l : list arrival) : Prop := Forall (fun a => match a with Rec r => length r <= n | _ => True end) l.
(** The server waits: nothing will happen on this connection until the client sends something. *)
Definition waits (x : tconn) : Prop := tc_over x = false /\ forall y, ~ tstep x None y.

Lemma content_app a b : content (a ++ b) = content a ++ content b.
Proof. apply flat_map_app. Qed.
Lemma waits_iff x : waits x <-> tc_over x = false /\ tc_sock x = [].
Proof.
  split.
  - intros [H W]. split; [exact H|]. destruct (tc_sock x) as [|a s] eqn:E; [reflexivity|]. exfalso. apply (W (tround x)). apply ts_round.
    unfold reported. rewrite E, H. reflexivity.
  - intros [H E]. split; [exact H|]. intros y S. inversion S as [|? R]; subst. unfold reported in R. rewrite E in R. discriminate.
Qed.
Lemma fetch_cases len sock : forall r kept s, ssl_fetch len sock = (r, kept, s) ->
  exists d, sock = d ++ s /\ (sock <> [] -> d <> []) /\
    match r with
    | SGot g => exists d' c, d = d' ++ [Rec c] /\ content d' = [] /\ c <> [] /\ g = firstn len c /\ kept = skipn len c
    | SWant => kept = [] /\ content d = [] /\ s = []
    | _ => kept = [] /\ content d = []
    end.
Proof.
  induction sock as [|a sock IH]; intros r kept s H; cbn [ssl_fetch] in H.
  - injection H as <- <- <-. exists []. auto.
  - assert (Skip : content [a] = [] -> ssl_fetch len sock = (r, kept, s) -> exists d, a :: sock = d ++ s /\ (a :: sock <> [] -> d <> []) /\
      match r with
      | SGot g => exists d' c, d = d' ++ [Rec c] /\ content d' = [] /\ c <> [] /\ g = firstn len c /\ kept = skipn len c
      | SWant => kept = [] /\ content d = [] /\ s = []
      | _ => kept = [] /\ content d = []
      end).
    { intros C K. destruct (IH _ _ _ K) as (d & E & _ & M). exists (a :: d). split; [cbn; congruence|]. split; [discriminate|].
      change (a :: d) with ([a] ++ d). destruct r.
      - destruct M as (d' & c & -> & M1 & M2). exists ([a] ++ d'), c. rewrite content_app, C, M1. rewrite app_assoc. auto.
      - rewrite content_app, C. destruct M as [M1 M2]. rewrite M2. auto.
      - rewrite content_app, C. destruct M as (M1 & M2 & M3). rewrite M2. auto.
      - rewrite content_app, C. destruct M as [M1 M2]. rewrite M2. auto. }
    destruct a as [|[|b c]| |]; try (apply Skip; [reflexivity|exact H]).
    + injection H as <- <- <-. exists [Rec (b :: c)]. split; [reflexivity|]. split; [discriminate|]. exists [], (b :: c). repeat split; auto. discriminate.
    + injection H as <- <- <-. exists [Bye]. repeat split; auto. discriminate.
    + injection H as <- <- <-. exists [Gone]. repeat split; auto. discriminate.
Qed.
Lemma room_some (c : bytes) : c <> [] -> firstn ROOM c <> [].
Proof. destruct c; [congruence|]. intros _. change ROOM with (S (ROOM - 1)). discriminate. Qed.

(** ** Nothing is lost, doubled or put in another order *)
Theorem C64_in_order : forall l x, truns l x -> concat (tc_packets x) ++ tc_kept x ++ content (tc_sock x) = content l.
Proof.
  intros l x H. induction H as [|l x a y H IH S]; [reflexivity|]. inversion S as [x' a'|x' R]; subst; cbn [tc_packets tc_kept tc_sock].
  - rewrite !content_app, !app_assoc. rewrite <- (app_assoc _ (tc_kept x)), IH. reflexivity.
  - rewrite app_nil_r, <- IH. unfold tround. unfold ssl_read. destruct (tc_kept x) as [|b k] eqn:K.
    + destruct (ssl_fetch ROOM (tc_sock x)) as [[r kept] s] eqn:E. destruct (fetch_cases _ _ _ _ _ E) as (d & -> & _ & M).
      rewrite content_app. destruct r; cbn [tls_result tc_packets tc_kept tc_sock].
      * destruct M as (d' & c & -> & M1 & _ & -> & ->). rewrite content_app, M1. cbn [content flat_map app]. rewrite app_nil_r.
        rewrite concat_app. cbn [concat]. rewrite app_nil_r, <- !app_assoc. f_equal. rewrite app_assoc, firstn_skipn. reflexivity.
      * destruct M as [-> M]. rewrite M. reflexivity.
      * destruct M as (-> & M & _). rewrite M, concat_app. cbn [concat app]. rewrite app_nil_r. reflexivity.
      * destruct M as [-> M]. rewrite M. reflexivity.
    + cbn [tls_result tc_packets tc_kept tc_sock]. rewrite concat_app. cbn [concat]. rewrite app_nil_r, <- !app_assoc. f_equal.
      rewrite app_assoc, firstn_skipn. reflexivity.
Qed.

(** ** When everything has been handed on *)
Lemma kept_small l x n : records n l -> truns l x -> length (tc_kept x) <= n - ROOM /\ records n (tc_sock x).
Proof.
  intros F H. induction H as [|l x a y H IH S]; [split; [cbn [tconn_new tc_kept List.length]; lia|constructor]|].
  apply Forall_app in F. destruct F as [F1 F2]. destruct (IH F1) as [A B]. inversion S as [x' a'|x' R]; subst; cbn [tc_packets tc_kept tc_sock].
  - split; [exact A|]. apply Forall_app. split; assumption.
  - unfold tround, ssl_read. destruct (tc_kept x) as [|b k] eqn:K.
    + destruct (ssl_fetch ROOM (tc_sock x)) as [[r kept] s] eqn:E. destruct (fetch_cases _ _ _ _ _ E) as (d & E' & _ & M).
      rewrite E' in B. apply Forall_app in B. destruct B as [B1 B2].
      destruct r; cbn [tls_result tc_packets tc_kept tc_sock]; (split; [|exact B2]).
      * destruct M as (d' & c & -> & M1 & _ & -> & ->). apply Forall_app in B1. destruct B1 as [_ B1]. inversion B1; subst. rewrite skipn_length. lia.
      * destruct M as [-> _]. cbn [List.length]. lia.
      * destruct M as [-> _]. cbn [List.length]. lia.
      * destruct M as [-> _]. cbn [List.length]. lia.
    + cbn [tls_result tc_packets tc_kept tc_sock]. split; [rewrite skipn_length; lia|exact B].
Qed.
(** If no record has more than 16383 bytes, then whenever the server waits it has handed on all that was sent; with the records that the
    protocol allows, all but one byte. *)
Theorem C64_handed_on : forall l x, truns l x -> waits x ->
  (records ROOM l -> concat (tc_packets x) = content l) /\
  (records (S ROOM) l -> exists k, length k <= 1 /\ content l = concat (tc_packets x) ++ k).
Proof.
  intros l x H W. apply waits_iff in W. destruct W as [_ W]. pose proof (C64_in_order l x H) as O. rewrite W in O. cbn [content flat_map] in O. rewrite app_nil_r in O.
  split; intros R; destruct (kept_small l x _ R H) as [K _].
  - destruct (tc_kept x); [rewrite app_nil_r in O; exact O|cbn [List.length] in K; lia].
  - exists (tc_kept x). split; [lia|symmetry; exact O].
Qed.
(** The server gives a connection up only if the peer has ended it or it has failed. *)
Theorem C64_stays_open : forall l x, truns l x -> tc_over x = true -> In Bye l \/ In Gone l.
Proof.
  assert (K : forall l x, truns l x -> (exists d, l = d ++ tc_sock x) /\ (tc_over x = true -> In Bye l \/ In Gone l)); [|intros l x H; apply (K l x H)].
  intros l x H. induction H as [|l x a y H [(d & E) IH] S]; [split; [exists []; reflexivity|discriminate]|].
  inversion S as [x' a'|x' R]; subst; cbn [tc_packets tc_kept tc_sock tc_over].
  - split; [exists d; apply app_assoc_reverse|]. intro O. destruct (IH O); [left|right]; apply in_or_app; auto.
  - rewrite app_nil_r. unfold tround, ssl_read. destruct (tc_kept x) as [|b k] eqn:Kp.
    + destruct (ssl_fetch ROOM (tc_sock x)) as [[r kept] s] eqn:F.
      assert (G : exists d', tc_sock x = d' ++ s /\ (r = SZero -> In Bye d') /\ (r = SOther -> In Gone d')).
      { clear - F. revert r kept s F. generalize ROOM as room. intro room. induction (tc_sock x) as [|c q IHq]; intros r kept s F; cbn [ssl_fetch] in F.
        - injection F as <- <- <-. exists []. split; [reflexivity|]. split; discriminate.
        - destruct c as [|[|b0 r0]| |].
          + destruct (IHq _ _ _ F) as (d' & -> & A & B). exists (Part :: d'). split; [reflexivity|]. split; intro Z; right; auto.
          + destruct (IHq _ _ _ F) as (d' & -> & A & B). exists (Rec [] :: d'). split; [reflexivity|]. split; intro Z; right; auto.
          + injection F as <- <- <-. exists [Rec (b0 :: r0)]. split; [reflexivity|]. split; discriminate.
          + injection F as <- <- <-. exists [Bye]. split; [reflexivity|]. split; [left; reflexivity|discriminate].
          + injection F as <- <- <-. exists [Gone]. split; [reflexivity|]. split; [discriminate|left; reflexivity]. }
      destruct G as (d' & -> & A & B). destruct r; cbn [tls_result tc_sock tc_over]; (split; [exists (d ++ d'); rewrite app_assoc; reflexivity|]); intro O; try discriminate.
      * left. apply in_or_app. right. apply in_or_app. left. apply A. reflexivity.
      * right. apply in_or_app. right. apply in_or_app. left. apply B. reflexivity.
    + cbn [tls_result tc_sock tc_over]. split; [exists d; reflexivity|discriminate].
Qed.
(** The server comes to wait: rounds cannot go on without end. *)
Fixpoint rounds (n : nat) (x : tconn) (y : tconn) : Prop := match n with O => x = y | S n => exists z, tstep x None z /\ rounds n z y end.
Fixpoint weight (l : list arrival) : nat := match l with [] => 0 | a :: l => match a with Rec r => 1 + length r | _ => 1 end + weight l end.
Definition effort (x : tconn) : nat := length (tc_kept x) + weight (tc_sock x).
Lemma weight_app s t : weight (s ++ t) = weight s + weight t.
Proof. induction s as [|a s IH]; cbn [weight app]; [reflexivity|]. rewrite IH. lia. Qed.
Lemma weight_pos s : s <> [] -> 0 < weight s.
Proof. destruct s as [|a s]; [congruence|]. intros _. cbn [weight]. destruct a; lia. Qed.
Lemma effort_round x : reported x = true -> effort (tround x) < effort x.
Proof.
  intros R. assert (Sk : tc_sock x <> []). { intro E. unfold reported in R. rewrite E in R. discriminate. }
  unfold tround, ssl_read, effort. destruct (tc_kept x) as [|b k] eqn:K.
  - destruct (ssl_fetch ROOM (tc_sock x)) as [[r kept] s] eqn:E. destruct (fetch_cases _ _ _ _ _ E) as (d & E' & Ne & M).
    rewrite E'. rewrite weight_app. specialize (Ne Sk). pose proof (weight_pos d Ne) as P.
    destruct r; cbn [tls_result tc_packets tc_kept tc_sock List.length]; try (destruct M as [-> _]; cbn [List.length]; lia).
    destruct M as (d' & c & -> & _ & _ & _ & ->). rewrite weight_app in *. cbn [weight] in *. rewrite skipn_length. lia.
  - cbn [tls_result tc_packets tc_kept tc_sock]. rewrite skipn_length. cbn [List.length]. unfold ROOM. lia.
Qed.
Theorem C64_settles : forall x n y, rounds n x y -> n <= effort x.
Proof.
  intros x n. revert x. induction n as [|n IH]; intros x y H; [lia|]. destruct H as (z & S & H). specialize (IH _ _ H).
  inversion S as [|? R]; subst. pose proof (effort_round x R). lia.
Qed.

(** ** The standstill *)
Definition big_last (d : list arrival) : Prop := exists d' r, d = d' ++ [Rec r] /\ ROOM < length r.
Lemma big_kept l x : truns l x -> exists d, l = d ++ tc_sock x /\ (tc_sock x = [] -> tc_over x = false -> big_last d -> tc_kept x <> []).
Proof.
  intros H. induction H as [|l x a y H IH S].
  - exists []. split; [reflexivity|]. intros _ _ (d' & r & E & _). destruct d'; discriminate.
  - destruct IH as (d & -> & I). inversion S as [x' a'|x' R]; subst; cbn [tc_packets tc_kept tc_sock].
    + exists d. split; [rewrite app_assoc; reflexivity|]. intros E. destruct (tc_sock x); discriminate.
    + rewrite app_nil_r. assert (Sk : tc_sock x <> []). { intro E. unfold reported in R. rewrite E in R. discriminate. }
      unfold tround, ssl_read. destruct (tc_kept x) as [|b k] eqn:K.
      * destruct (ssl_fetch ROOM (tc_sock x)) as [[r kept] s] eqn:E. destruct (fetch_cases _ _ _ _ _ E) as (e & E' & Ne & M). specialize (Ne Sk).
        exists (d ++ e). rewrite E'. destruct r; cbn [tls_result tc_packets tc_kept tc_sock tc_over].
        -- split; [rewrite app_assoc; reflexivity|]. destruct M as (d' & c & -> & _ & _ & _ & ->). intros _ _ (d2 & r & E2 & Lr).
           rewrite app_assoc in E2. apply app_inj_tail in E2. destruct E2 as [_ E2]. injection E2 as ->. intro X.
           apply (f_equal (@List.length N)) in X. rewrite skipn_length in X. cbn [List.length] in X. lia.
        -- split; [rewrite app_assoc; reflexivity|]. discriminate.
        -- split; [rewrite app_assoc; reflexivity|]. destruct M as (_ & M & _). intros _ _ (d2 & r & E2 & Lr). exfalso.
           destruct (exists_last Ne) as (e' & u & ->). rewrite app_assoc in E2. apply app_inj_tail in E2. destruct E2 as [_ ->].
           rewrite content_app in M. apply app_eq_nil in M. destruct M as [_ M]. cbn [content flat_map] in M. rewrite app_nil_r in M.
           rewrite M in Lr. cbn [List.length] in Lr. lia.
        -- split; [rewrite app_assoc; reflexivity|]. discriminate.
      * cbn [tls_result tc_packets tc_kept tc_sock]. exists d. split; [reflexivity|]. intros E. congruence.
Qed.
(** If the last record that has come has 16384 bytes, as many as the protocol allows, then whenever the server waits it has not handed on the last
    byte. *)
Theorem C64_standstill_refuted : forall l r x, records (S ROOM) l -> length r = S ROOM -> truns (l ++ [Rec r]) x -> waits x ->
  exists b, content (l ++ [Rec r]) = concat (tc_packets x) ++ [b].
Proof.
  intros l r x Rl Lr H W. pose proof W as W'. apply waits_iff in W'. destruct W' as [Ov Em].
  assert (R : records (S ROOM) (l ++ [Rec r])) by (apply Forall_app; split; [exact Rl|constructor; [lia|constructor]]).
  pose proof (C64_in_order _ x H) as O. rewrite Em in O. cbn [content flat_map] in O. rewrite app_nil_r in O.
  destruct (kept_small _ x _ R H) as [K _]. destruct (big_kept _ x H) as (d & E & I). rewrite Em, app_nil_r in E.
  assert (Ne : tc_kept x <> []). { apply I; [exact Em|exact Ov|]. exists l, r. split; [congruence|lia]. }
  destruct (tc_kept x) as [|b [|b' k]]; [congruence| |cbn [List.length] in K; lia].
  exists b. symmetry. exact O.
Qed.
(** So a client that sends a request of 16384 bytes in one record and waits for the reply waits for ever: what the parser has been given is not a
    whole command. *)
Theorem C64_request_waits_refuted : forall args s x, request args s -> length s = S ROOM -> truns [Rec s] x -> waits x ->
  parse_resp (concat (tc_packets x)) = Ok More.
Proof.
  intros args s x Q L H W. destruct (C64_standstill_refuted [] s x (Forall_nil _) L H W) as (b & E). cbn [app content flat_map] in E. rewrite app_nil_r in E.
  apply (C37_prefix args s _ [b] Q E). discriminate.
Qed.
(** The same request on a plain connection. *)
Theorem C64_plain : forall l x, pruns l x -> concat (pc_packets x) ++ pc_sock x = l.
Proof.
  intros l x H. induction H as [|l x s H IH|l x H IH Ne]; [reflexivity| |]; cbn [pc_packets pc_sock pround].
  - rewrite <- IH, app_assoc. reflexivity.
  - rewrite concat_app. cbn [concat]. rewrite app_nil_r, <- app_assoc, firstn_skipn. exact IH.
Qed.

(** ** Replies *)
(** Whatever OpenSSL answers, a write that is to be tried again is tried with the same bytes, and what it takes are whole replies in their order: all of
    them unless the connection is closed. *)
Theorem C64_replies : forall outs o closed, tls_flushes outs (mkSslOut None [] false) = Some (o, closed) ->
  so_bad o = false /\ exists done left, List.map fst outs = done ++ left /\ so_taken o = concat done /\ (closed = false -> left = []).
Proof.
  assert (F : forall answers out o, (so_retry o = None \/ so_retry o = Some out) -> so_bad o = false -> forall o' c, tls_flush out answers o = Some (o', c) ->
    so_bad o' = false /\ (c = false -> (so_retry o' = None \/ out = []) /\ so_taken o' = so_taken o ++ out) /\ (c = true -> so_taken o' = so_taken o)).
  { assert (Nil : forall o l, tls_flush [] l o = Some (o, false)) by (intros o l; destruct l; reflexivity).
    induction answers as [|a l IH]; intros out o R B o' c H; destruct out as [|b out].
    - rewrite Nil in H. injection H as <- <-. rewrite app_nil_r. split; [exact B|]. split; [auto|discriminate].
    - discriminate.
    - rewrite Nil in H. injection H as <- <-. rewrite app_nil_r. split; [exact B|]. split; [auto|discriminate].
    - assert (Ob : forall an, so_bad (ssl_write (b :: out) an o) = false).
      { intros an. unfold ssl_write. rewrite B. destruct R as [-> | ->]; [destruct an; reflexivity|]. rewrite beq_refl. destruct an; reflexivity. }
      destruct a; cbn [tls_flush] in H.
      + rewrite Nil in H. injection H as <- <-. split; [exact (Ob ATook)|]. split; [|discriminate]. intros _. split; [left; reflexivity|reflexivity].
      + destruct (IH (b :: out) (ssl_write (b :: out) AWant o) (or_intror eq_refl) (Ob AWant) o' c H) as (A1 & A2 & A3). split; [exact A1|]. split; assumption.
      + injection H as <- <-. split; [exact (Ob AOther)|]. split; [discriminate|]. reflexivity. }
  assert (G : forall outs o o' closed, so_retry o = None -> so_bad o = false -> tls_flushes outs o = Some (o', closed) ->
    so_bad o' = false /\ exists done left, List.map fst outs = done ++ left /\ so_taken o' = so_taken o ++ concat done /\ (closed = false -> left = [])).
  { induction outs as [|[out l] outs IH]; intros o o' closed R B H; cbn [tls_flushes] in H.
    - injection H as <- <-. split; [exact B|]. exists [], []. split; [reflexivity|]. rewrite app_nil_r. auto.
    - destruct (tls_flush out l o) as [[o1 [|]]|] eqn:E; [| |discriminate].
      + injection H as <- <-. destruct (F _ _ _ (or_introl R) B _ _ E) as (A1 & _ & A2). split; [exact A1|]. exists [], (List.map fst ((out, l) :: outs)).
        split; [reflexivity|]. rewrite app_nil_r. split; [apply A2; reflexivity|discriminate].
      + destruct (F _ _ _ (or_introl R) B _ _ E) as (A1 & A2 & _). destruct (A2 eq_refl) as [A3 A4].
        assert (R1 : so_retry o1 = None).
        { destruct A3 as [A3| ->]; [exact A3|]. destruct l; injection E as <-; exact R. }
        destruct (IH o1 o' closed R1 A1 H) as (B1 & done & left & B2 & B3 & B4). split; [exact B1|]. exists (out :: done), left.
        cbn [List.map fst app concat]. rewrite B2, B3, A4, <- app_assoc. auto. }
  intros outs o closed H. destruct (G outs (mkSslOut None [] false) o closed eq_refl eq_refl H) as (A & done & left & B). split; [exact A|]. exists done, left. exact B.
Qed.

(** *** Cases *)
Definition long_value : bytes := repeat 118%N (128 * 128 - 30).
Definition long_set : bytes := bs "*3" ++ crlf ++ bs "$3" ++ crlf ++ bs "SET" ++ crlf ++ bs "$1" ++ crlf ++ bs "k" ++ crlf ++ bs "$16354" ++ crlf ++ long_value ++ crlf.
(** A request of 16384 bytes; the server takes its record in one round and then waits. *)
Example C64_case_request : request [bs "SET"; bs "k"; long_value] long_set /\ (length long_set =? S ROOM) = true.
Proof.
  split; [|vm_compute; reflexivity].
  exact (C37_encode u64toa [bs "SET"; bs "k"; long_value] u64toa_canonical ltac:(discriminate) ltac:(repeat constructor; vm_compute; discriminate)).
Qed.
Example C64_case_standstill : exists x, truns [Rec long_set] x /\ waits x /\ length (tc_packets x) = 1.
Proof.
  exists (tround (mkTconn [Rec long_set] [] [] false)). split; [|split].
  - apply (tr_step [Rec long_set] (mkTconn [Rec long_set] [] [] false) None).
    + apply (tr_step [] tconn_new (Some (Rec long_set))); [constructor|]. apply (ts_arrive tconn_new).
    + apply ts_round. reflexivity.
  - apply waits_iff. split; reflexivity.
  - reflexivity.
Qed.
(** A short request: everything is handed on. *)
Example C64_case_short : exists x, truns [Part; Rec (bs "PING"); Rec crlf] x /\ waits x /\ concat (tc_packets x) = bs "PING" ++ crlf.
Proof.
  exists (mkTconn [] [] [bs "PING"; crlf] false). split; [|split].
  - apply (tr_step [Part; Rec (bs "PING"); Rec crlf] (mkTconn [Rec crlf] [] [bs "PING"] false) None).
    2: { apply (ts_round (mkTconn [Rec crlf] [] [bs "PING"] false)). reflexivity. }
    apply (tr_step [Part; Rec (bs "PING"); Rec crlf] (mkTconn [Part; Rec (bs "PING"); Rec crlf] [] [] false) None).
    2: { apply (ts_round (mkTconn [Part; Rec (bs "PING"); Rec crlf] [] [] false)). reflexivity. }
    apply (tr_step [Part; Rec (bs "PING")] (mkTconn [Part; Rec (bs "PING")] [] [] false) (Some (Rec crlf))).
    2: apply (ts_arrive (mkTconn [Part; Rec (bs "PING")] [] [] false)).
    apply (tr_step [Part] (mkTconn [Part] [] [] false) (Some (Rec (bs "PING")))).
    2: apply (ts_arrive (mkTconn [Part] [] [] false)).
    apply (tr_step [] tconn_new (Some Part)); [constructor|]. apply (ts_arrive tconn_new).
  - apply waits_iff. split; reflexivity.
  - reflexivity.
Qed.
Example C64_case_replies : exists o, tls_flushes [(bs "+OK", [AWant; AWant; ATook]); (bs "+PONG", [ATook]); (bs "-ERR", [AOther])] (mkSslOut None [] false) = Some (o, true) /\
  so_taken o = bs "+OK+PONG".
Proof. eexists. split; reflexivity. Qed.
Example C64_case_closed : exists x, truns [Bye] x /\ tc_over x = true.
Proof.
  exists (mkTconn [] [] [] true). split; [|reflexivity].
  apply (tr_step [Bye] (mkTconn [Bye] [] [] false) None); [|apply (ts_round (mkTconn [Bye] [] [] false)); reflexivity].
  apply (tr_step [] tconn_new (Some Bye)); [constructor|]. apply (ts_arrive tconn_new).
Qed.
