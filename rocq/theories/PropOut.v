(** C66: replies are written within their buffers. *)
From Coq Require Import String.
From Verif Require Import Base Types Text IntText IntTextProofs Prog Cmds Reply OutBuf OutBufProofs.
Local Open Scope N_scope.
Notation length := List.length.

(** An allocator: it may refuse at any time, and does not grant more than 2^62 bytes. *)
Definition allocator (grant : nat -> N -> bool) : Prop := forall n z, grant n z = true -> z <= 2 ^ 62.
(** The help pages, and the data of calls, are in memory: at most 2^60 bytes. *)
Definition small_pages (pg : pages) : Prop := N.of_nat (length (page_html pg)) <= 2 ^ 60 /\ N.of_nat (length (page_text pg)) <= 2 ^ 60.
Definition small_round (r : pgout * proto * list wr) : Prop := Forall small_wr (snd r).
(** The bytes of the replies of one round. *)
Definition reply_bytes (pg : pages) (r : pgout * proto * list wr) : bytes := emits pg (fst (fst r)) (snd (fst r)) 0 (snd r).

(** Whatever is written in whatever rounds: no byte is read or written outside of a block, none is sent that was not written, no assertion fails,
    and every call returns; what is sent in each round are the replies, whole and in order. Only a lack of memory can end it. Of the blocks that
    were allocated none is left when the connection is freed. *)
Theorem C66_rounds : forall grant pg rs, allocator grant -> small_pages pg -> Forall small_round rs ->
  match out_rounds grant pg oconn_new rs with
  | Fine (sent, c) => sent = map (reply_bytes pg) rs /\ oc_live (out_free c) = 0%nat
  | NoMemory => True
  | Outside | Unset | Asserts | Endless => False
  end.
Proof.
  intros grant pg rs G [P1 P2] L. pose proof (rounds_ok grant G pg 0 rs oconn_new P1 P2) as H.
  assert (H0 : holds 0 oconn_new []) by (split; [reflexivity|split; reflexivity]). specialize (H H0 L).
  destruct (out_rounds grant pg oconn_new rs) as [[sent c]| | | | |]; try exact H. destruct H as [E [_ Hb]]. cbn [fst snd] in *. split; [exact E|].
  unfold out_free. destruct (oc_out c) as [b|]; [destruct Hb as (_ & Li & _)|destruct Hb as (_ & Li)]; cbn [xfree oc_live]; rewrite Li; reflexivity.
Qed.
(** The same for a connection that is closed in the middle of a round, after any of its calls. *)
Theorem C66_closed : forall grant pg rs po pr ws sent c, allocator grant -> small_pages pg -> Forall small_round rs -> Forall small_wr ws ->
  out_rounds grant pg oconn_new rs = Fine (sent, c) ->
  match out_wrs grant pg po pr c ws with
  | Fine c' => oc_live (out_free c') = 0%nat
  | NoMemory => True
  | Outside | Unset | Asserts | Endless => False
  end.
Proof.
  intros grant pg rs po pr ws sent c G [P1 P2] L Lw E. pose proof (rounds_ok grant G pg 0 rs oconn_new P1 P2) as H.
  assert (H0 : holds 0 oconn_new []) by (split; [reflexivity|split; reflexivity]). specialize (H H0 L). rewrite E in H. destruct H as [_ H]. cbn [snd] in H.
  pose proof (wrs_ok grant G pg 0 po pr ws c [] P1 P2 H Lw) as W.
  destruct (out_wrs grant pg po pr c ws) as [c'| | | | |]; try exact W. destruct W as [_ Hb].
  unfold out_free. destruct (oc_out c') as [b|]; [destruct Hb as (_ & Li & _)|destruct Hb as (_ & Li)]; cbn [xfree oc_live]; rewrite Li; reflexivity.
Qed.
(** The messages of the Postgres start. *)
Theorem C66_start : forall grant c e s code key val, allocator grant -> holds e c s -> N.of_nat (length key) + N.of_nat (length val) <= 2 ^ 60 ->
  match bind (out_auth grant c code) (fun c => out_status grant c key val) with
  | Fine c' => holds e c' (s ++ pg_auth code ++ pg_status key val)
  | NoMemory => True
  | Outside | Unset | Asserts | Endless => False
  end.
Proof.
  intros grant c e s code key val G H L.
  assert (K : good (bind (out_auth grant c code) (fun c => out_status grant c key val)) (fun c' => holds e c' (s ++ pg_auth code ++ pg_status key val))).
  { eapply good_bind; [apply (write_ok grant G e c s (pg_auth code) H); apply N.leb_le; vm_compute; reflexivity|]. cbv beta. intros c1 H1.
    rewrite app_assoc. apply (status_ok grant G e c1 (s ++ pg_auth code) key val H1 L). }
  destruct (bind (out_auth grant c code) _); exact K.
Qed.
(** The buffer is not made larger than 16 bytes or twice what has to be in it. *)
Theorem C66_frugal : forall grant c s e amount c', allocator grant -> holds e c s -> amount <= 2 ^ 61 -> ensure grant c amount = Fine c' ->
  cap c' = cap c \/ cap c' <= N.max 16 (2 * (N.of_nat (length s) + amount)).
Proof.
  intros grant c s e amount c' G H A E. pose proof (ensure_frugal grant G e c s amount H A) as O. rewrite E in O. apply O.
Qed.

(** ** Cases *)
Definition no_help : pages := mkPages (bs "<html>") (bs "help").
Definition plenty (n : nat) (z : N) : bool := z <=? 2 ^ 62.
Definition demo_rounds : list (pgout * proto * list wr) :=
  [(mkPgout false 25, RESP, [WString (bs "OK"); WBulk (bs "a value that does not fit into sixteen bytes"); WArray 2; WNull; WInt (-7); WError (bs "ERR no such key")]);
   (mkPgout false 25, MEMCACHE, [WError (bs "ERR no such key"); WUint 12; WRaw (bs "END" ++ crlf)]);
   (mkPgout false 25, POSTGRES, [PRowDesc [bs "key"; bs "value"]; PRow [bs "k"; [0; 1; 2]]; PComplete (bs "GET 1"); PReady]);
   (mkPgout false 25, HTTP, [WError (bs "ERR oops"); WHttp 200 (bs "OK") []])].
Example C66_case : allocator plenty /\ small_pages no_help /\ Forall small_round demo_rounds /\
  exists c, out_rounds plenty no_help oconn_new demo_rounds = Fine (map (reply_bytes no_help) demo_rounds, c) /\ cap c = 256 /\ oc_live c = 1%nat.
Proof.
  split; [intros n z H; apply N.leb_le; exact H|]. split; [split; apply N.leb_le; vm_compute; reflexivity|]. split.
  - unfold demo_rounds, small_round. repeat (apply Forall_cons; [|]); try apply Forall_nil; cbn [snd]; repeat (apply Forall_cons; [|]); try apply Forall_nil;
      cbn [small_wr]; try exact I; try (apply N.leb_le; vm_compute; reflexivity). split; [apply Nat.leb_le; vm_compute; reflexivity|apply N.leb_le; vm_compute; reflexivity].
  - eexists. split; [vm_compute; reflexivity|]. split; vm_compute; reflexivity.
Qed.
(** Without memory. *)
Example C66_case_refused : out_rounds (fun _ _ => false) no_help oconn_new demo_rounds = NoMemory.
Proof. vm_compute. reflexivity. Qed.
Example C66_case_start : exists c, bind (out_auth plenty oconn_new 0) (fun c => out_status plenty c (bs "server_version") (bs "14")) = Fine c /\
  holds 0 c (pg_auth 0 ++ pg_status (bs "server_version") (bs "14")).
Proof.
  pose proof (C66_start plenty oconn_new 0 [] 0 (bs "server_version") (bs "14") ltac:(intros n z H; apply N.leb_le; exact H) ltac:(split; [reflexivity|split; reflexivity])
    ltac:(apply N.leb_le; vm_compute; reflexivity)) as H.
  destruct (bind _ _) as [c| | | | |] eqn:E in H; [exists c; split; [exact E|exact H]|exfalso; vm_compute in E; discriminate| | | |]; contradiction.
Qed.
(** The size is computed modulo 2^64. What [LARGE] excludes: with 2^63 bytes more to write than there is room the capacity becomes 0. *)
Example C66_wraps : grow 66 16 16 (2 ^ 63 + 1) = Fine 0 /\ grow 66 16 0 (2 ^ 63 + 1) = Endless.
Proof. split; vm_compute; reflexivity. Qed.

(** A text that does not fit in its block is cut and still ends with a zero: nothing is written outside of the block, whatever the text. The replies above
    never need the cut. *)
Theorem C66_cut : forall b s, 0 < size b -> ~ In 0 s ->
  exists b', snprintf b s = Fine b' /\ size b' = size b /\ get_cstr b' = Fine (firstn (N.to_nat (size b) - 1) s).
Proof.
  intros b s P Z. unfold snprintf.
  destruct (put_begins b [] (firstn (N.to_nat (size b) - 1) s ++ [0]) 0) as (b' & E & S & B).
  - exists b. reflexivity.
  - reflexivity.
  - rewrite app_length, firstn_length. cbn [List.length]. lia.
  - exists b'. split; [exact E|]. split; [exact S|]. apply get_cstr_begins; [|exact B].
    intro I. apply Z. rewrite <- (firstn_skipn (N.to_nat (size b) - 1) s). apply in_or_app. left. exact I.
Qed.
Example C66_case_cut : snprintf (fresh_block 4) (bs "hello") = Fine [Some 104; Some 101; Some 108; Some 0].
Proof. reflexivity. Qed.
