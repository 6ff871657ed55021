(** Proofs about connections: which data leads to trouble. *)
From Verif Require Import Base Types Clamp Entry Hash Map Shard Cache Text IntText IntTextProofs CmdTable CmdSpec CmdsProofs Prog Cmds Resp RespSpec RespProofs Memcache McSpec McProofs Conn ConnSpec.
From Coq Require Import String Lia.
Local Open Scope N_scope.
Notation length := List.length.
Notation concat := List.concat.
Notation map := List.map.

Definition blank_number (d : bytes) : Prop := exists sp sg ds, d = sp ++ sg ++ ds /\
  Forall (fun b => is_space b = true) sp /\ In 13 sp /\ In sg [[]; [43]; [45]] /\ Forall (fun b => is_digit b = true) ds.
Lemma read_num_bad : forall data p mn mx t, In 13 data -> read_num data p mn mx = Bad t -> t = OutOfBounds /\ blank_number data.
Proof.
  intros data p mn mx t I H. unfold read_num in H.
  destruct (skip_spaces_spec data) as (sp & r & E & L & F & _). rewrite <- L in H. rewrite E in H at 1. rewrite skipn_app, skipn_all, Nat.sub_diag in H. cbn [app skipn] in H.
  assert (G : exists sg r2 neg j, In sg [[]; [43]; [45]] /\ r = sg ++ r2 /\ j = length sg /\ skipn j r = r2 /\
    (match r with 45 :: _ => (true, 1%nat) | 43 :: _ => (false, 1%nat) | _ => (false, O) end) = (neg, j)).
  { assert (Z : exists sg r2, In sg [[]; [43]; [45]] /\ r = sg ++ r2 /\ match r with 45 :: _ | 43 :: _ => sg <> [] | _ => sg = [] end).
    { destruct r as [|b r]; [exists [], []; cbn; auto|].
      destruct (N.eq_dec b 45) as [->|N1]; [exists [45], r; cbn; repeat split; auto; discriminate|].
      destruct (N.eq_dec b 43) as [->|N2]; [exists [43], r; cbn; repeat split; auto; discriminate|].
      exists [], (b :: r). split; [left; reflexivity|]. split; [reflexivity|]. 
      destruct b as [|[[[[[[]|[]|]|[[]|[]|]|]|[[[]|[]|]|[[]|[]|]|]|]|[[[[]|[]|]|[[]|[]|]|]|[[[]|[]|]|[[]|[]|]|]|]|]|[[[[[]|[]|]|[[]|[]|]|]|[[[]|[]|]|[[]|[]|]|]|]|[[[[]|[]|]|[[]|[]|]|]|[[[]|[]|]|[[]|[]|]|]|]|]|]]; try reflexivity; congruence. }
    destruct Z as (sg & r2 & Is & Er & M). exists sg, r2. cbn [In] in Is. destruct Is as [<-|[<-|[<-|[]]]]; cbn [app] in Er; subst r.
    - exists false, 0%nat. split; [cbn; auto|]. split; [reflexivity|]. split; [reflexivity|]. split; [reflexivity|].
      destruct r2 as [|b r2]; [reflexivity|]. 
      destruct b as [|[[[[[[]|[]|]|[[]|[]|]|]|[[[]|[]|]|[[]|[]|]|]|]|[[[[]|[]|]|[[]|[]|]|]|[[[]|[]|]|[[]|[]|]|]|]|]|[[[[[]|[]|]|[[]|[]|]|]|[[[]|[]|]|[[]|[]|]|]|]|[[[[]|[]|]|[[]|[]|]|]|[[[]|[]|]|[[]|[]|]|]|]|]|]]; try reflexivity; exfalso; apply M; reflexivity.
    - exists false, 1%nat. split; [cbn; auto|]. repeat split.
    - exists true, 1%nat. split; [cbn; auto|]. repeat split. }
  destruct G as (sg & r2 & neg & j & Is & Er & Ej & Es & Em). rewrite Em in H. cbv beta iota zeta in H. rewrite E in H at 1. rewrite skipn_app, skipn_all, Nat.sub_diag in H. cbn [app skipn] in H. rewrite Es in H.
  destruct (scan_digits r2 0) as [v n] eqn:Sd.
  destruct (scan_digits_spec _ _ _ _ Sd) as (ds & rest & E2 & L2 & F2 & _).
  destruct (length sp + j + n =? length data)%nat eqn:Q; [|destruct n; discriminate H].
  injection H as <-. split; [reflexivity|]. apply Nat.eqb_eq in Q. subst j r r2. rewrite E, !app_length in Q.
  assert (rest = []) by (destruct rest; [reflexivity|exfalso; cbn [length] in Q; lia]). subst rest. rewrite app_nil_r in E.
  exists sp, sg, ds. split; [exact E|]. split; [exact F|]. split; [|split; assumption].
  rewrite E, !in_app_iff in I. destruct I as [I|[I|I]]; [exact I| |].
  - exfalso. cbn [In] in Is. destruct Is as [<-|[<-|[<-|[]]]]; cbn in I; intuition discriminate.
  - exfalso. rewrite Forall_forall in F2. specialize (F2 13 I). discriminate F2.
Qed.
Lemma read_resp_bad : forall data mn mx msg t, read_resp_num data mn mx msg = Bad t -> t = OutOfBounds /\ blank_number data.
Proof.
  intros data mn mx msg t H. unfold read_resp_num in H. destruct (find_byte 13 data) as [p|] eqn:Ef; [|discriminate].
  destruct (nth_error data (p + 1)); [|discriminate]. destruct (negb (n =? 10)); [discriminate|].
  destruct (read_num data p mn mx) as [[z|]|x] eqn:E; try discriminate. injection H as <-.
  apply (read_num_bad _ _ _ _ _) in E; [exact E|].
  destruct (In_dec N.eq_dec 13 data) as [I|I]; [exact I|]. apply find_byte_none in I. congruence.
Qed.
Lemma resp_args_bad : forall nargs total data args t, resp_args nargs total data args = Bad t ->
  t = OutOfBounds /\ exists a d, data = a ++ 36 :: d /\ blank_number d.
Proof.
  induction nargs as [|m IH]; intros total data args t H; cbn [resp_args] in H; [discriminate|].
  destruct data as [|c data1]; [discriminate|]. destruct (negb (c =? 36)) eqn:Ec; [discriminate|].
  apply negb_false_iff, N.eqb_eq in Ec. subst c. destruct data1 as [|b data1]; [discriminate|].
  destruct (read_resp_num (b :: data1) 0 MAXARG_SZ "invalid bulk length") as [[|msg|z data2]|x] eqn:E; try discriminate.
  - destruct (z + 2 >? Z.of_nat (length data2))%Z; [discriminate|]. destruct (IH _ _ _ _ H) as (Ht & a & d & Ed & B).
    split; [exact Ht|].
    assert (X : exists u, b :: data1 = u ++ data2).
    { unfold read_resp_num in E. destruct (find_byte 13 (b :: data1)) as [p|]; [|destruct (32 <? length (b :: data1))%nat; discriminate].
      destruct (nth_error (b :: data1) (p + 1)); [|discriminate]. destruct (negb _); [discriminate|]. destruct (read_num _ _ _ _) as [[|]|]; try discriminate.
      assert (data2 = skipn (p + 2) (b :: data1)) as -> by congruence. exists (firstn (p + 2) (b :: data1)). symmetry. apply firstn_skipn. }
    destruct X as [u X]. exists (36 :: u ++ firstn (Z.to_nat z + 2) data2 ++ a), d. split; [|exact B].
    rewrite X. cbn [app]. f_equal. rewrite <- app_assoc. f_equal. rewrite <- app_assoc, <- Ed. symmetry. apply firstn_skipn.
  - injection H as <-. destruct (read_resp_bad _ _ _ _ _ E) as [Ht B]. split; [exact Ht|]. exists [], (b :: data1). split; [reflexivity|exact B].
Qed.
Lemma resp_bad : forall data t, parse_resp data = Bad t -> t = OutOfBounds /\ no_number data.
Proof.
  assert (G : forall a m d, m = 42 \/ m = 36 -> blank_number d -> no_number (a ++ m :: d)).
  { intros a m d M (sp & sg & ds & E & B). exists a, m, sp, sg, ds. subst d. auto. }
  intros data t H. unfold parse_resp in H. destruct data as [|c data1]; [discriminate|]. destruct (negb (c =? 42)) eqn:Ec; [discriminate|].
  apply negb_false_iff, N.eqb_eq in Ec. subst c. destruct data1 as [|b data1]; [discriminate|].
  destruct (read_resp_num (b :: data1) _ _ _) as [[|msg|z data2]|x] eqn:E; try discriminate.
  - destruct (resp_args_bad _ _ _ _ _ H) as (Ht & a & d & Ed & B). split; [exact Ht|].
    unfold read_resp_num in E. destruct (find_byte 13 (b :: data1)) as [p|]; [|destruct (32 <? length (b :: data1))%nat; discriminate].
    destruct (nth_error (b :: data1) (p + 1)); [|discriminate]. destruct (negb _); [discriminate|]. destruct (read_num _ _ _ _) as [[|]|]; try discriminate.
    assert (data2 = skipn (p + 2) (b :: data1)) as E2 by congruence.
    rewrite <- (firstn_skipn (p + 2) (b :: data1)), <- E2, Ed.
    change (42 :: firstn (p + 2) (b :: data1) ++ a ++ 36 :: d) with ((42 :: firstn (p + 2) (b :: data1)) ++ a ++ 36 :: d). rewrite app_assoc. apply G; auto.
  - injection H as <-. destruct (read_resp_bad _ _ _ _ _ E) as [Ht B]. split; [exact Ht|]. apply (G [] 42); auto.
Qed.

(** ** Memcache *)
Lemma mct_bad : forall data pre i word l args t, ~ In 10 pre ->
  (l = 13 -> exists a n, pre = a ++ 13 :: repeat 32 n /\ (word = [] -> (0 < n)%nat)) ->
  mc_telnet data i word l args = Bad t -> t = OutOfBounds /\ blank_end (pre ++ data).
Proof.
  induction data as [|b data IH]; intros pre i word l args t N St H; cbn [mc_telnet] in H; [discriminate|].
  destruct (b =? 32) eqn:E1; [|destruct (b =? 10) eqn:E2].
  - apply N.eqb_eq in E1. subst b. replace (pre ++ 32 :: data) with ((pre ++ [32]) ++ data) by (rewrite <- app_assoc; reflexivity).
    apply (IH (pre ++ [32]) _ _ _ _ _) in H; [exact H| |].
    + rewrite in_app_iff. intros [I|[I|[]]]; [exact (N I)|discriminate I].
    + intro El. destruct (St El) as (a & n & -> & _). exists a, (S n). split; [|lia]. rewrite <- app_assoc. cbn [app]. do 2 f_equal.
      clear. induction n as [|n IH]; [reflexivity|cbn [repeat app]; rewrite IH; reflexivity].
  - apply N.eqb_eq in E2. subst b. destruct (l =? 13) eqn:El; [|destruct word; discriminate]. apply N.eqb_eq in El.
    destruct word as [|x [|]]; try discriminate. injection H as <-. split; [reflexivity|]. destruct (St El) as (a & n & -> & Hn).
    specialize (Hn eq_refl). destruct n as [|n]; [lia|]. exists a, n, data. split; [rewrite <- app_assoc; reflexivity|].
    intro I. apply N. apply in_app_iff. left. exact I.
  - replace (pre ++ b :: data) with ((pre ++ [b]) ++ data) by (rewrite <- app_assoc; reflexivity).
    apply (IH (pre ++ [b]) _ _ _ _ _) in H; [exact H| |].
    + rewrite in_app_iff. intros [I|[I|[]]]; [exact (N I)|]. subst b. discriminate E2.
    + intros ->. exists pre, 0%nat. split; [reflexivity|]. intro Q. destruct word; discriminate Q.
Qed.
Lemma mct_words : forall data i word l args n ws, ~ In 32 word -> (word <> [] -> l = List.last word 0) ->
  mc_telnet data i word l args = Ok (Some (n, ws)) ->
  exists t rest wl, data = t ++ [10] ++ rest /\ ~ In 10 t /\ ws = args ++ wl /\ Forall (fun w => ~ In 32 w) wl /\
    exists tail, word ++ t = spaced wl ++ tail /\ In tail (match wl with [] => [[]; [13]] | _ => [[]; [13]; [32]; [32; 13]] end).
Proof.
  induction data as [|b data IH]; intros i word l args n ws N Hl H; cbn [mc_telnet] in H; [discriminate|].
  destruct (b =? 32) eqn:E1; [|destruct (b =? 10) eqn:E2].
  - apply N.eqb_eq in E1. subst b. destruct (IH _ _ _ _ _ _ (fun x : In 32 [] => x) ltac:(congruence) H) as (t & rest & wl & -> & Nt & -> & F & tail & Et & It).
    exists (32 :: t), rest, (word :: wl). split; [reflexivity|]. split; [intros [D|D]; [discriminate D|exact (Nt D)]|]. split; [rewrite <- app_assoc; reflexivity|].
    split; [constructor; assumption|]. cbn [app] in Et. destruct wl as [|w wl].
    + cbn [spaced app] in Et. subst tail. exists (32 :: t). split; [reflexivity|]. cbn [In] in It. destruct It as [<-|[<-|[]]]; cbn; auto 6.
    + exists tail. split; [|exact It]. change (spaced (word :: w :: wl)) with (word ++ [32] ++ spaced (w :: wl)). rewrite <- !app_assoc. cbn [app]. rewrite Et. reflexivity.
  - apply N.eqb_eq in E2. subst b. exists [], data. destruct (l =? 13) eqn:El.
    + apply N.eqb_eq in El. subst l. destruct word as [|x [|y word]]; [discriminate| |].
      * injection H as <- <-. specialize (Hl ltac:(discriminate)). cbn in Hl. subst x. exists []. split; [reflexivity|]. split; [intros []|]. rewrite app_nil_r. split; [reflexivity|].
        split; [constructor|]. exists [13]. cbn; auto.
      * injection H as <- <-. specialize (Hl ltac:(discriminate)). exists [removelast (x :: y :: word)]. split; [reflexivity|]. split; [intros []|]. split; [reflexivity|].
        pose proof (app_removelast_last 0 (l := x :: y :: word) ltac:(discriminate)) as E. rewrite <- Hl in E.
        split; [constructor; [|constructor]; intro I; apply N; rewrite E; apply in_app_iff; left; exact I|].
        exists [13]. cbn [spaced]. split; [rewrite app_nil_r; exact E|cbn; auto].
    + destruct word as [|x word].
      * injection H as <- <-. exists []. split; [reflexivity|]. split; [intros []|]. rewrite app_nil_r. split; [reflexivity|]. split; [constructor|]. exists []. cbn; auto.
      * injection H as <- <-. exists [x :: word]. split; [reflexivity|]. split; [intros []|]. split; [reflexivity|]. split; [constructor; [exact N|constructor]|].
        exists []. cbn [spaced]. rewrite !app_nil_r. split; [reflexivity|cbn; auto].
  - destruct (IH (S i) (word ++ [b]) b args n ws) as (t & rest & wl & -> & Nt & -> & F & tail & Et & It).
    + rewrite in_app_iff. intros [I|[I|[]]]; [exact (N I)|]. subst b. discriminate E1.
    + intros _. rewrite last_last. reflexivity.
    + exact H.
    + exists (b :: t), rest, wl. split; [reflexivity|]. split; [intros [D|D]; [subst b; discriminate E2|exact (Nt D)]|]. split; [reflexivity|]. split; [exact F|].
      exists tail. split; [|exact It]. rewrite <- Et, <- app_assoc. reflexivity.
Qed.
Lemma arg_at_bad : forall args i k t, arg_at args i k = Bad t -> (t = OutOfBounds /\ (length args <= i)%nat) \/ exists a, nth_error args i = Some a /\ k a = Bad t.
Proof.
  intros args i k t H. unfold arg_at in H. destruct (nth_error args i) as [a|] eqn:E; [right; eauto|]. left. injection H as <-. split; [reflexivity|]. apply nth_error_None. exact E.
Qed.
Lemma argi64_bad : forall args i ok n k t, argi64 args i ok n k = Bad t -> (t = OutOfBounds /\ (length args <= i)%nat) \/ exists x, k x = Bad t.
Proof.
  intros args i ok n k t H. unfold argi64 in H. apply arg_at_bad in H. destruct H as [H|(a & _ & H)]; [auto|right].
  destruct (parse_i64 a); [|discriminate]. destruct (ok z); [eauto|discriminate].
Qed.
Lemma key_bad : forall args i n k t, valid_key args i n k = Bad t -> (t = OutOfBounds /\ (length args <= i)%nat) \/ k = Bad t.
Proof.
  intros args i n k t H. unfold valid_key in H. apply arg_at_bad in H. destruct H as [H|(a & _ & H)]; [auto|right]. destruct (mc_valid a); [exact H|discriminate].
Qed.
Lemma value_bad : forall data n x k t, mc_value data n x k <> Bad t.
Proof. intros data n x k t H. unfold mc_value in H. destruct (_ <? _)%nat; discriminate. Qed.
Lemma set_plus_bad : forall cmd data n r args t, set_plus cmd data n r args = Bad t ->
  t = OutOfBounds /\ (length args < match cmd with MC_CAS => 6 | _ => 5 end)%nat.
Proof.
  intros cmd data n r args t H. unfold set_plus in H.
  assert (Lim : (5 <= match cmd with MC_CAS => 6 | _ => 5 end)%nat) by (destruct cmd; repeat constructor).
  apply key_bad in H. destruct H as [[A B]|H]; [split; [exact A|lia]|].
  apply argi64_bad in H. destruct H as [[A B]|(x1 & H)]; [split; [exact A|lia]|].
  apply argi64_bad in H. destruct H as [[A B]|(x2 & H)]; [split; [exact A|lia]|].
  apply argi64_bad in H. destruct H as [[A B]|(x & H)]; [split; [exact A|lia]|]. clear Lim.
  destruct cmd; try (exfalso; exact (value_bad _ _ _ _ _ H)).
  apply arg_at_bad in H. destruct H as [[A B]|(a & _ & H)]; [split; [exact A|lia]|].
  destruct (parse_u64 a); [exfalso; exact (value_bad _ _ _ _ _ H)|discriminate].
Qed.
Definition wants (cmd : mc_cmd) : nat := match cmd with MC_CAS => 6 | MC_VERBOSITY => 2 | _ => 5 end.
Lemma command_bad : forall cmd data n name args t, arg_is name "noreply" = false -> mc_command cmd data n (name :: args) = Bad t ->
  t = OutOfBounds /\ (is_store cmd = true \/ cmd = MC_VERBOSITY) /\ (length (name :: args) < wants cmd)%nat.
Proof.
  intros cmd data n name args0 t Nm H. unfold mc_command in H.
  set (noreply := is_noreplyable cmd && arg_is (last (name :: args0) []) "noreply") in *.
  set (args := if noreply then removelast (name :: args0) else name :: args0) in *.
  set (slots := if noreply then args ++ [[]] else args) in *.
  assert (L : length slots = length (name :: args0)).
  { subst slots args. destruct noreply; [|reflexivity]. rewrite app_length. cbn [length]. 
    pose proof (app_removelast_last [] (l := name :: args0) ltac:(discriminate)) as E. apply (f_equal (@List.length bytes)) in E. rewrite app_length in E. cbn [length] in E. symmetry. exact E. }
  assert (L1 : (1 <= length args)%nat).
  { subst args. destruct noreply eqn:Er; [|cbn; lia]. destruct args0 as [|b args0]; [|cbn; lia]. exfalso. subst noreply. apply andb_true_iff in Er. cbn [last] in Er. destruct Er. congruence. }
  destruct (is_store cmd) eqn:Es.
  { destruct (set_plus_bad _ _ _ _ _ _ H) as [A B]. split; [exact A|]. split; [auto|]. rewrite <- L. destruct cmd; try discriminate Es; exact B. }
  destruct cmd; try discriminate Es; try discriminate H.
  - destruct (length args =? 3)%nat eqn:Q; [|discriminate]. apply Nat.eqb_eq in Q. cbn [negb] in H. apply key_bad in H. destruct H as [[_ B]|H]; [exfalso; lia|discriminate].
  - destruct (length args =? 3)%nat eqn:Q; [|discriminate]. apply Nat.eqb_eq in Q. cbn [negb] in H. apply key_bad in H. destruct H as [[_ B]|H]; [exfalso; lia|discriminate].
  - destruct (2 <? length args)%nat; [discriminate|]. destruct (length args =? 2)%nat; discriminate.
  - destruct (length args =? 1)%nat eqn:Q; [discriminate|]. apply Nat.eqb_neq in Q. destruct (2 <? length args)%nat; [discriminate|].
    apply key_bad in H. destruct H as [[_ B]|H]; [exfalso; lia|discriminate].
  - destruct (length args =? 3)%nat eqn:Q; [|discriminate]. apply Nat.eqb_eq in Q. cbn [negb] in H. apply key_bad in H. destruct H as [[_ B]|H]; [exfalso; lia|discriminate].
  - destruct (2 <? length args)%nat; [discriminate|]. apply arg_at_bad in H. destruct H as [[A B]|(a & _ & H)]; [|discriminate].
    split; [exact A|]. split; [auto|]. rewrite <- L. cbn [wants]. lia.
  - destruct (length args =? 1)%nat; [discriminate|]. destruct (keys_valid args 1); discriminate.
  - destruct (length args =? 1)%nat; [discriminate|]. destruct (keys_valid args 1); discriminate.
  - destruct (length args <=? 2)%nat eqn:Q; [discriminate|]. apply Nat.leb_gt in Q. apply argi64_bad in H. destruct H as [[_ B]|(x & H)]; [exfalso; lia|].
    destruct (keys_valid args 2); discriminate.
  - destruct (length args <=? 2)%nat eqn:Q; [discriminate|]. apply Nat.leb_gt in Q. apply argi64_bad in H. destruct H as [[_ B]|(x & H)]; [exfalso; lia|].
    destruct (keys_valid args 2); discriminate.
Qed.
Lemma lookup_name : forall name cmd, mc_lookup name = Some cmd -> arg_is name "noreply" = false /\
  (is_store cmd = true \/ cmd = MC_VERBOSITY -> In (name, wants cmd) [(bs "set", 5%nat); (bs "add", 5%nat); (bs "replace", 5%nat); (bs "append", 5%nat); (bs "prepend", 5%nat); (bs "cas", 6%nat); (bs "verbosity", 2%nat)]).
Proof.
  intros name cmd H. unfold mc_lookup in H.
  repeat (match type of H with context [arg_is name ?w] => destruct (arg_is name w) eqn:?E end; 
    [match goal with E : arg_is name _ = true |- _ => unfold arg_is in E; apply beq_eq in E; subst name end; injection H as <-;
     split; [reflexivity|]; intros [Q|Q]; try discriminate Q; cbn [wants In]; tauto|]).
  discriminate H.
Qed.
Lemma memcache_bad : forall data t, parse_memcache data = Bad t -> t = OutOfBounds /\ (blank_end data \/ too_few data).
Proof.
  intros data t H. unfold parse_memcache in H. destruct (mc_telnet data 0 [] 0 []) as [[[n ws]|]|x] eqn:E; [|discriminate|].
  2: { injection H as ->. destruct (mct_bad data [] 0 [] 0 [] t (fun x => x) ltac:(intro; discriminate) E) as [A B]. split; [exact A|left; exact B]. }
  destruct ws as [|name args]; [discriminate|].
  destruct (mct_words data 0 [] 0 [] n (name :: args) (fun x => x) ltac:(congruence) E) as (line & rest & wl & Ed & Nl & Ew & F & tail & Et & It).
  cbn [app] in Ew, Et. subst wl.
  assert (G : forall cmd, mc_lookup name = Some cmd -> mc_command cmd data n (name :: args) = Bad t -> t = OutOfBounds /\ (blank_end data \/ too_few data)).
  { intros cmd Lk C. destruct (lookup_name _ _ Lk) as [Nr W]. destruct (command_bad _ _ _ _ _ _ Nr C) as (A & B & L). split; [exact A|right].
    exists (name :: args), line, rest, (wants cmd). split; [exact Ed|]. split; [exact Nl|]. split; [split; [exact F|exists tail; auto]|]. split; [exact (W B)|exact L]. }
  destruct ((length (name :: args) =? 2)%nat && arg_is name "get") eqn:Q.
  { exfalso. apply andb_true_iff in Q. destruct Q as [Q _]. apply Nat.eqb_eq in Q. apply arg_at_bad in H. destruct H as [[_ B]|(a & _ & H)]; [lia|].
    destruct (mc_valid a); discriminate. }
  destruct ((length (name :: args) =? 5)%nat && arg_is name "set") eqn:Q2.
  { exfalso. apply andb_true_iff in Q2. destruct Q2 as [Q2 _]. apply Nat.eqb_eq in Q2.
    apply arg_at_bad in H. destruct H as [[_ B]|(a & _ & H)]; [lia|]. destruct (is_zero a).
    - apply arg_at_bad in H. destruct H as [[_ B]|(b & _ & H)]; [lia|]. destruct (negb (mc_valid b)); [discriminate|].
      apply arg_at_bad in H. destruct H as [[_ B]|(e & _ & H)]; [lia|].
      assert (Z : forall ex, argi64 (name :: args) 4 size_ok n (fun x => mc_value data n x (fun n' value => McGot n' false ([name; b; value] ++ ex))) <> Bad t).
      { intros ex Z. apply argi64_bad in Z. destruct Z as [[_ B]|(x & Z)]; [lia|]. exact (value_bad _ _ _ _ _ Z). }
      destruct (is_zero e); [exact (Z _ H)|]. apply argi64_bad in H. destruct H as [[_ B]|(x & H)]; [lia|]. exact (Z _ H).
    - destruct (set_plus_bad _ _ _ _ _ _ H) as [_ B]. lia. }
  destruct (mc_lookup name) as [cmd|] eqn:Lk; [|discriminate]. exact (G cmd eq_refl H).
Qed.
