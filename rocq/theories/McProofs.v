(** Facts about the memcache parser. *)
From Verif Require Import Base Types Shard Text IntText CmdSpec CmdsProofs RespProofs Memcache McSpec.
From Coq Require Import String Lia.
Local Open Scope N_scope.
Notation length := List.length.
Notation concat := List.concat.

(** *** The line *)
Lemma mct_run : forall w d i word l args, ~ In 32 w -> ~ In 10 w ->
  mc_telnet (w ++ d) i word l args = mc_telnet d (i + length w) (word ++ w) (List.last w l) args.
Proof.
  induction w as [|b w IH]; intros d i word l args H1 H2; cbn [app length].
  - rewrite Nat.add_0_r, app_nil_r. reflexivity.
  - cbn [mc_telnet]. replace (b =? 32) with false by (symmetry; apply N.eqb_neq; intros ->; apply H1; left; reflexivity).
    replace (b =? 10) with false by (symmetry; apply N.eqb_neq; intros ->; apply H2; left; reflexivity).
    rewrite IH; [|intro X; apply H1; right; exact X|intro X; apply H2; right; exact X].
    rewrite <- app_assoc. cbn [app]. replace (S i + length w)%nat with (i + S (length w))%nat by lia.
    f_equal. clear. revert b. induction w as [|c w IH]; intro b; [reflexivity|]. cbn [List.last] in *.
    destruct w; [reflexivity|]. apply (IH b).
Qed.
Lemma last_not : forall (w : bytes) b d, w <> [] -> ~ In b w -> List.last w d <> b.
Proof.
  induction w as [|x w IH]; intros b d H1 H2; [congruence|]. cbn [List.last]. destruct w.
  - intros ->. apply H2. left. reflexivity.
  - apply IH; [congruence|]. intro X. apply H2. right. exact X.
Qed.
Lemma last_snoc : forall (w : bytes) b d, List.last (w ++ [b]) d = b.
Proof. induction w as [|x w IH]; intros; [reflexivity|]. cbn [app List.last]. destruct (w ++ [b]) eqn:E; [destruct w; discriminate|]. rewrite <- E. apply IH. Qed.
Lemma removelast_snoc : forall {A} (w : list A) b, removelast (w ++ [b]) = w.
Proof. intros. rewrite removelast_app by congruence. cbn. apply app_nil_r. Qed.

Lemma mct_line : forall ws s, line_of ws s -> forall rest i l args,
  mc_telnet (s ++ rest) i [] l args = Ok (Some ((i + length s)%nat, args ++ ws)).
Proof.
  intros ws s (Hn & F & E). revert Hn s E.
  induction F as [|w ws (Wn & W32 & W10 & W13) F IH]; intros Hn s E rest i l args; [congruence|].
  destruct ws as [|w2 ws].
  - cbn [spaced] in E. destruct E as [E|E]; subst s; rewrite <- app_assoc.
    + rewrite (mct_run _ _ _ _ _ _ W32 W10). cbn [app mc_telnet].
      change (10 =? 32) with false. change (10 =? 10) with true. cbv iota.
      replace (List.last w l =? 13) with false by (symmetry; apply N.eqb_neq; apply last_not; assumption).
      destruct w; [congruence|]. rewrite app_length. cbn [length]. f_equal. f_equal. f_equal. lia.
    + change (w ++ [13; 10] ++ rest) with (w ++ ([13] ++ [10]) ++ rest). rewrite <- app_assoc, app_assoc.
      rewrite mct_run by (rewrite in_app_iff; cbn [In]; intros [X|[X|[]]]; [auto|discriminate]).
      cbn [app mc_telnet].
      change (10 =? 32) with false. change (10 =? 10) with true. cbv iota.
      rewrite last_snoc. change (13 =? 13) with true. cbv iota.
      destruct (w ++ [13]) as [|a [|b r]] eqn:Ew; [destruct w; discriminate|destruct w as [|? [|? ?]]; try discriminate; congruence|].
      rewrite <- Ew, removelast_snoc. rewrite !app_length. cbn [length]. f_equal. f_equal. f_equal. lia.
  - assert (X : exists s', s = w ++ [32] ++ s' /\ (s' = spaced (w2 :: ws) ++ [10] \/ s' = spaced (w2 :: ws) ++ [13; 10])).
    { change (spaced (w :: w2 :: ws)) with (w ++ [32] ++ spaced (w2 :: ws)) in E.
      destruct E as [E|E]; subst s; eexists; (split; [rewrite <- !app_assoc; reflexivity|]); [left|right]; reflexivity. }
    destruct X as (s' & -> & E'). rewrite <- app_assoc. rewrite (mct_run _ _ _ _ _ _ W32 W10).
    cbn [app mc_telnet]. change (32 =? 32) with true. cbv iota.
    etransitivity; [apply (IH ltac:(congruence) s' E')|]. rewrite <- app_assoc. cbn [app].
    rewrite app_length. cbn [length]. f_equal. f_equal. f_equal. lia.
Qed.
Lemma mct_more : forall p i word l args, ~ In 10 p -> mc_telnet p i word l args = Ok None.
Proof.
  induction p as [|b p IH]; intros i word l args H; [reflexivity|]. cbn [mc_telnet].
  replace (b =? 10) with false by (symmetry; apply N.eqb_neq; intros ->; apply H; left; reflexivity).
  destruct (b =? 32); apply IH; intro X; apply H; right; exact X.
Qed.
Lemma spaced_no_lf : forall ws, Forall text_word ws -> ~ In 10 (spaced ws).
Proof.
  induction 1 as [|w ws (A & B & C & D) F IH]; [intros []|]. destruct ws as [|w2 ws]; [exact C|].
  change (spaced (w :: w2 :: ws)) with (w ++ [32] ++ spaced (w2 :: ws)). rewrite !in_app_iff.
  intros [X|[[X|[]]|X]]; [auto|discriminate|auto].
Qed.
Lemma line_of_lf : forall ws s, line_of ws s -> exists t, s = t ++ [10] /\ ~ In 10 t.
Proof.
  intros ws s (_ & F & [E|E]); pose proof (spaced_no_lf _ F) as L; subst s.
  - eauto.
  - exists (spaced ws ++ [13]). rewrite <- app_assoc. split; [reflexivity|]. rewrite in_app_iff.
    intros [X|[X|[]]]; [auto|discriminate].
Qed.
Lemma before_lf : forall t p q, t ++ [10] = p ++ q -> q <> [] -> ~ In 10 t -> ~ In 10 p.
Proof.
  intros t p q E Q H. destruct (app_cut _ _ _ _ E) as [(l & -> & El)|(l & Nl & -> & _)].
  - destruct l as [|x l]; [rewrite app_nil_r; exact H|]. cbn in El. injection El as -> El.
    destruct l; [destruct q; [congruence|discriminate]|discriminate].
  - intro X. apply H. apply in_or_app. left. exact X.
Qed.

(** *** The pieces *)
Lemma mc_valid_key : forall k, mc_valid k = true <-> mc_key k.
Proof.
  intro k. unfold mc_valid, mc_key. rewrite andb_true_iff, negb_true_iff, orb_false_iff, Nat.eqb_neq, Nat.ltb_ge, forallb_forall, Forall_forall.
  split.
  - intros ((A & B) & C). split; [ns; lia|]. intros x I. specialize (C x I). apply negb_true_iff, orb_false_iff in C.
    rewrite N.leb_gt, N.eqb_neq in C. exact C.
  - intros (A & C). split; [ns; lia|]. intros x I. apply negb_true_iff, orb_false_iff. rewrite N.leb_gt, N.eqb_neq. exact (C x I).
Qed.
Lemma mc_value_full : forall l v rest k,
  mc_value (l ++ (v ++ crlf) ++ rest) (length l) (Z.of_nat (length v)) k = Ok (k (length (l ++ v ++ crlf)) v).
Proof.
  intros l v rest k. unfold mc_value. rewrite Nat2Z.id. rewrite !app_length. cbn [crlf length].
  replace (length l + (length v + 2 + length rest) - length l <? length v + 2)%nat with false
    by (symmetry; apply Nat.ltb_ge; ns; lia).
  assert (E : forall j, nth_error (l ++ (v ++ crlf) ++ rest) (length l + length v + j) = nth_error (crlf ++ rest) j).
  { intro j. rewrite <- (app_assoc v). rewrite app_assoc. rewrite nth_error_app2 by (rewrite app_length; ns; lia).
    f_equal. rewrite app_length. ns. lia. }
  replace (length l + length v + 2 - 2)%nat with (length l + length v + 0)%nat by (ns; lia).
  replace (length l + length v + 2 - 1)%nat with (length l + length v + 1)%nat by (ns; lia).
  rewrite !E. cbn [crlf app nth_error].
  rewrite skipn_app, skipn_all, Nat.sub_diag. cbn [skipn app].
  rewrite <- app_assoc, firstn_app, firstn_all, Nat.sub_diag. cbn [firstn]. rewrite app_nil_r. f_equal. f_equal. ns. lia.
Qed.
Lemma mc_value_short : forall l v p q k, v ++ crlf = p ++ q -> q <> [] ->
  mc_value (l ++ p) (length l) (Z.of_nat (length v)) k = Ok McMore.
Proof.
  intros l v p q k E Q. unfold mc_value. rewrite Nat2Z.id, app_length.
  apply (f_equal (@length N)) in E. rewrite !app_length in E. cbn [crlf length] in E.
  replace (length l + length p - length l <? length v + 2)%nat with true; [reflexivity|].
  symmetry. apply Nat.ltb_lt. destruct q; [congruence|]. cbn [length] in E. ns. lia.
Qed.
Lemma arg_is_neq : forall a w, a <> bs w -> arg_is a w = false.
Proof. intros. unfold arg_is. apply beq_neq. assumption. Qed.

(** *** Whole requests *)
Definition with_data (op : mc_op) (v : bytes) : mc_op :=
  match op with
  | OStore k key flags exptime size _ => OStore k key flags exptime size v
  | OCas key flags exptime size cas _ => OCas key flags exptime size cas v
  | _ => op
  end.
Definition nr (b : bool) : list bytes := if b then [bs "noreply"] else [].
Lemma int_not_noreply : forall t z, int_text t z -> t <> bs "noreply".
Proof. intros t z H E. apply int_text_parse in H. rewrite E in H. vm_compute in H. discriminate. Qed.
Lemma nat_not_noreply : forall t z, nat_text t z -> t <> bs "noreply".
Proof. intros t z H E. apply nat_text_parse in H. rewrite E in H. vm_compute in H. discriminate. Qed.
Lemma size_ok_len : forall n, N.of_nat n <= 536870912 -> size_ok (Z.of_nat n) = true.
Proof.
  intros n H. unfold size_ok. apply negb_true_iff, orb_false_iff. rewrite Z.ltb_ge, Z.gtb_ltb, Z.ltb_ge. lia.
Qed.
Lemma set_plus_store : forall k key flags exptime size cas b d n nrp extra,
  mc_key key -> (exists f, int_text flags f /\ (0 <= f)%Z) -> (exists e, int_text exptime e) -> sized size b ->
  set_plus (match k with KSet => MC_SET | KAdd => MC_ADD | KReplace => MC_REPLACE | KAppend => MC_APPEND | KPrepend => MC_PREPEND end)
    d n nrp (cas :: key :: flags :: exptime :: size :: extra) =
  mc_value d n (Z.of_nat (length b)) (fun n' v => McGot n' nrp (op_args (OStore k key flags exptime size v))).
Proof.
  intros k key flags exptime size cas b d n nrp extra K (f & Hf & Pf) (e & He) (Hs & Bs).
  apply mc_valid_key in K. apply int_text_parse in Hf, He, Hs.
  unfold set_plus, valid_key, argi64, arg_at. cbn [nth_error]. rewrite K, Hf.
  replace (f <? 0)%Z with false by (symmetry; apply Z.ltb_ge; exact Pf). cbn [negb]. rewrite He, Hs, (size_ok_len _ Bs).
  cbn [nth]. unfold is_zero, arg_is, op_args, given. change (bs "0") with [48].
  destruct k; try reflexivity; unfold mc_value; destruct (_ <? _)%nat; try reflexivity;
    destruct (nth_error d _) as [c1|]; try reflexivity; destruct (nth_error d (_ - 1)) as [c2|]; rewrite ?app_nil_r; reflexivity.
Qed.
Lemma set_plus_cas : forall key flags exptime size cas name b d n nrp extra,
  mc_key key -> (exists f, int_text flags f /\ (0 <= f)%Z) -> (exists e, int_text exptime e) -> sized size b ->
  (exists c, nat_text cas c) ->
  set_plus MC_CAS d n nrp (name :: key :: flags :: exptime :: size :: cas :: extra) =
  mc_value d n (Z.of_nat (length b)) (fun n' v => McGot n' nrp (op_args (OCas key flags exptime size cas v))).
Proof.
  intros key flags exptime size cas name b d n nrp extra K (f & Hf & Pf) (e & He) (Hs & Bs) (c & Hc).
  apply mc_valid_key in K. apply int_text_parse in Hf, He, Hs. apply nat_text_parse in Hc.
  unfold set_plus, valid_key, argi64, arg_at. cbn [nth_error]. rewrite K, Hf.
  replace (f <? 0)%Z with false by (symmetry; apply Z.ltb_ge; exact Pf). cbn [negb]. rewrite He, Hs, (size_ok_len _ Bs), Hc.
  cbn [nth]. unfold is_zero, arg_is, op_args, given. change (bs "0") with [48]. reflexivity.
Qed.

Ltac known := repeat match goal with
  | |- context [arg_is (bs ?a) ?b] => let v := eval vm_compute in (arg_is (bs a) b) in change (arg_is (bs a) b) with v
  | |- context [mc_lookup (bs ?a)] => let v := eval vm_compute in (mc_lookup (bs a)) in change (mc_lookup (bs a)) with v
  end; cbv iota.

Lemma parse_store : forall k key flags exptime size b r d n,
  op_ok (OStore k key flags exptime size b) ->
  mc_telnet d 0 [] 0 [] = Ok (Some (n, op_words (OStore k key flags exptime size b) ++ nr r)) ->
  parse_memcache d = mc_value d n (Z.of_nat (length b)) (fun n' v => McGot n' r (op_args (OStore k key flags exptime size v))).
Proof.
  intros k key flags exptime size b r d n (K & F & E & Sz) T. unfold parse_memcache. rewrite T. cbn [op_words app].
  pose proof Sz as (Hs & Bs). pose proof (int_not_noreply _ _ Hs) as Nn.
  destruct r; cbn [nr app length Nat.eqb andb].
  - destruct k; cbn [store_name]; known; unfold mc_command; cbn [is_noreplyable andb List.last removelast is_store app];
      known; cbn [andb app];
      match goal with |- context [OStore ?k _ _ _ _ _] => exact (set_plus_store k key flags exptime size _ b d n true [[]] K F E Sz) end.
  - destruct k; cbn [store_name]; known; cbn [andb].
    2-5: unfold mc_command; cbn [is_noreplyable andb List.last removelast is_store app];
      rewrite (arg_is_neq _ _ Nn);
      match goal with |- context [OStore ?k _ _ _ _ _] => exact (set_plus_store k key flags exptime size _ b d n false [] K F E Sz) end.
    unfold arg_at. cbn [nth_error]. destruct (is_zero flags) eqn:Z.
    + pose proof K as K'. apply mc_valid_key in K'. rewrite K'. cbn [negb].
      destruct E as (e & He). apply int_text_parse in He, Hs. unfold argi64, arg_at. cbn [nth_error].
      rewrite He, Hs, (size_ok_len _ Bs). unfold op_args, given. unfold is_zero, arg_is in *. change (bs "0") with [48] in *.
      rewrite Z. cbn [app]. destruct (beq exptime [48]); reflexivity.
    + exact (set_plus_store KSet key flags exptime size _ b d n false [] K F E Sz).
Qed.
Lemma parse_cas : forall key flags exptime size cas b r d n,
  op_ok (OCas key flags exptime size cas b) ->
  mc_telnet d 0 [] 0 [] = Ok (Some (n, op_words (OCas key flags exptime size cas b) ++ nr r)) ->
  parse_memcache d = mc_value d n (Z.of_nat (length b)) (fun n' v => McGot n' r (op_args (OCas key flags exptime size cas v))).
Proof.
  intros key flags exptime size cas b r d n (K & F & E & Sz & C) T. unfold parse_memcache. rewrite T. cbn [op_words app].
  destruct C as (c & Hc). pose proof (nat_not_noreply _ _ Hc) as Nn.
  destruct r; cbn [nr app length Nat.eqb andb]; known; unfold mc_command; cbn [is_noreplyable andb List.last removelast is_store app].
  - known. exact (set_plus_cas key flags exptime size cas _ b d n true _ K F E Sz (ex_intro _ c Hc)).
  - rewrite (arg_is_neq _ _ Nn). exact (set_plus_cas key flags exptime size cas _ b d n false _ K F E Sz (ex_intro _ c Hc)).
Qed.
Lemma keys_ok : forall a keys, Forall mc_key keys -> keys_valid (a :: keys) 1 = true.
Proof.
  intros a keys F. unfold keys_valid. cbn [skipn]. apply forallb_forall. intros x I. apply mc_valid_key.
  rewrite Forall_forall in F. auto.
Qed.
Definition is_block (op : mc_op) : bool := match op with OStore _ _ _ _ _ _ | OCas _ _ _ _ _ _ => true | _ => false end.
Lemma parse_plain : forall op r d n, is_block op = false -> op_ok op -> (r = true -> may_noreply op) ->
  mc_telnet d 0 [] 0 [] = Ok (Some (n, op_words op ++ nr r)) ->
  parse_memcache d = Ok (McGot n (silent op r) (op_args op)).
Proof.
  intros op r d n B K M T. unfold parse_memcache. rewrite T. clear T.
  destruct op as [| |keys|keys|key|key t|key t|key t|[t|]|what| |]; try discriminate B; cbn [op_words op_ok may_noreply] in *;
    (destruct r; [try (exfalso; apply M; reflexivity)|]); clear M; cbn [app nr silent op_args] in *; rewrite ?app_nil_r.
  (* get, gets *)
  - destruct K as (Kn & F). destruct keys as [|k1 [|k2 ks]]; [congruence| |].
    + cbn [length Nat.eqb andb]. known. unfold arg_at. cbn [nth_error]. inversion F as [|? ? F1 _]; subst.
      apply mc_valid_key in F1. rewrite F1. reflexivity.
    + cbn [length Nat.eqb andb]. known. rewrite !andb_false_r. unfold mc_command. cbn [is_noreplyable is_store andb skipn].
      rewrite (keys_ok _ _ F). reflexivity.
  - destruct K as (Kn & F). destruct keys as [|k1 ks]; [congruence|].
    known. rewrite !andb_false_r. unfold mc_command. cbn [is_noreplyable is_store andb skipn].
    rewrite (keys_ok _ _ F). reflexivity.
  (* delete *)
  - destruct K as (K & Kn). apply mc_valid_key in K. known. unfold mc_command.
    cbn [is_noreplyable is_store andb List.last removelast length Nat.eqb]. known. cbn [length Nat.eqb Nat.ltb Nat.leb negb].
    unfold valid_key, arg_at. cbn [nth_error]. rewrite K. reflexivity.
  - destruct K as (K & Kn). apply mc_valid_key in K. cbn [length Nat.eqb andb]. known. unfold mc_command.
    cbn [is_noreplyable is_store andb List.last]. rewrite (arg_is_neq _ _ Kn). cbn [length Nat.eqb Nat.ltb Nat.leb negb].
    unfold valid_key, arg_at. cbn [nth_error]. rewrite K. reflexivity.
  (* incr, decr, touch *)
  - destruct K as (K & Kn). apply mc_valid_key in K. known. unfold mc_command.
    cbn [is_noreplyable is_store andb List.last removelast length Nat.eqb]. known. cbn [length Nat.eqb Nat.ltb Nat.leb negb].
    unfold valid_key, arg_at. cbn [nth_error]. rewrite K. reflexivity.
  - destruct K as (K & Kn). apply mc_valid_key in K. cbn [length Nat.eqb andb]. known. unfold mc_command.
    cbn [is_noreplyable is_store andb List.last]. rewrite (arg_is_neq _ _ Kn). cbn [length Nat.eqb Nat.ltb Nat.leb negb].
    unfold valid_key, arg_at. cbn [nth_error]. rewrite K. reflexivity.
  - destruct K as (K & Kn). apply mc_valid_key in K. known. unfold mc_command.
    cbn [is_noreplyable is_store andb List.last removelast length Nat.eqb]. known. cbn [length Nat.eqb Nat.ltb Nat.leb negb].
    unfold valid_key, arg_at. cbn [nth_error]. rewrite K. reflexivity.
  - destruct K as (K & Kn). apply mc_valid_key in K. cbn [length Nat.eqb andb]. known. unfold mc_command.
    cbn [is_noreplyable is_store andb List.last]. rewrite (arg_is_neq _ _ Kn). cbn [length Nat.eqb Nat.ltb Nat.leb negb].
    unfold valid_key, arg_at. cbn [nth_error]. rewrite K. reflexivity.
  - destruct K as (K & Kn). apply mc_valid_key in K. known. unfold mc_command.
    cbn [is_noreplyable is_store andb List.last removelast length Nat.eqb]. known. cbn [length Nat.eqb Nat.ltb Nat.leb negb].
    unfold valid_key, arg_at. cbn [nth_error]. rewrite K. reflexivity.
  - destruct K as (K & Kn). apply mc_valid_key in K. cbn [length Nat.eqb andb]. known. unfold mc_command.
    cbn [is_noreplyable is_store andb List.last]. rewrite (arg_is_neq _ _ Kn). cbn [length Nat.eqb Nat.ltb Nat.leb negb].
    unfold valid_key, arg_at. cbn [nth_error]. rewrite K. reflexivity.
  (* flush_all *)
  - reflexivity.
  - cbn [length Nat.eqb andb]. known. unfold mc_command.
    cbn [is_noreplyable is_store andb List.last]. rewrite (arg_is_neq _ _ K). reflexivity.
  - reflexivity.
  - reflexivity.
  - (* stats *) known. rewrite !andb_false_r. reflexivity.
  - reflexivity.
  - reflexivity.
Qed.

Lemma mc_full : forall op r s rest, mc_request op r s ->
  parse_memcache (s ++ rest) = Ok (McGot (length s) (silent op r) (op_args op)).
Proof.
  intros op r s rest (K & M & l & L & ->).
  pose proof (mct_line _ _ L (op_block op ++ rest) 0 0 []) as T. cbn [app Nat.add] in T. rewrite app_assoc in T.
  destruct (is_block op) eqn:B.
  - destruct op; try discriminate B; cbn [silent op_block] in *.
    + rewrite (parse_store _ _ _ _ _ _ r _ _ K T). rewrite <- app_assoc. apply mc_value_full.
    + rewrite (parse_cas _ _ _ _ _ _ r _ _ K T). rewrite <- app_assoc. apply mc_value_full.
  - rewrite (parse_plain op r _ _ B K M T).
    replace (op_block op) with (@nil N) by (destruct op; try reflexivity; discriminate B). rewrite app_nil_r. reflexivity.
Qed.
Lemma mc_short : forall op r s p q, mc_request op r s -> s = p ++ q -> q <> [] -> parse_memcache p = Ok McMore.
Proof.
  intros op r s p q (K & M & l & L & Es) E Q. rewrite Es in E. destruct (app_cut _ _ _ _ E) as [(l' & -> & El)|(l' & Nl & El & _)].
  - pose proof (mct_line _ _ L l' 0 0 []) as T. cbn [app Nat.add] in T.
    destruct op; cbn [op_block] in El; try (symmetry in El; apply app_eq_nil in El; destruct El; congruence).
    + rewrite (parse_store _ _ _ _ _ _ r _ _ K T). exact (mc_value_short _ _ _ _ _ El Q).
    + rewrite (parse_cas _ _ _ _ _ _ r _ _ K T). exact (mc_value_short _ _ _ _ _ El Q).
  - destruct (line_of_lf _ _ L) as (t & Et & Nt). unfold parse_memcache. rewrite mct_more; [reflexivity|].
    apply (before_lf t p l'); [congruence|exact Nl|exact Nt].
Qed.

(** *** More data does not change the answer *)
Lemma mct_stable : forall s rest i word l args x, mc_telnet s i word l args = Ok (Some x) ->
  mc_telnet (s ++ rest) i word l args = Ok (Some x).
Proof.
  induction s as [|b s IH]; intros rest i word l args x; cbn [mc_telnet app]; [discriminate|].
  destruct (b =? 32); [apply IH|]. destruct (b =? 10); [auto|apply IH].
Qed.
Lemma mct_stable_bad : forall s rest i word l args t, mc_telnet s i word l args = Bad t ->
  mc_telnet (s ++ rest) i word l args = Bad t.
Proof.
  induction s as [|b s IH]; intros rest i word l args t; cbn [mc_telnet app]; [discriminate|].
  destruct (b =? 32); [apply IH|]. destruct (b =? 10); [auto|apply IH].
Qed.
Lemma mct_inv : forall s i word l args n ws, mc_telnet s i word l args = Ok (Some (n, ws)) ->
  exists t rest, s = t ++ [10] ++ rest /\ ~ In 10 t /\ n = (i + length t + 1)%nat.
Proof.
  induction s as [|b s IH]; intros i word l args n ws; cbn [mc_telnet]; [discriminate|].
  destruct (b =? 32) eqn:E1.
  - intro H. destruct (IH _ _ _ _ _ _ H) as (t & rest & -> & N & ->). exists (b :: t), rest. apply N.eqb_eq in E1.
    split; [reflexivity|]. split; [|cbn [length]; lia]. intros [X|X]; [subst; discriminate|auto].
  - destruct (b =? 10) eqn:E2.
    + apply N.eqb_eq in E2. subst b. intro H. exists [], s. split; [reflexivity|]. split; [intros []|].
      cbn [length]. destruct (l =? 13); destruct word as [|? [|? ?]]; inversion H; lia.
    + intro H. destruct (IH _ _ _ _ _ _ H) as (t & rest & -> & N & ->). exists (b :: t), rest. apply N.eqb_neq in E2.
      split; [reflexivity|]. split; [|cbn [length]; lia]. intros [X|X]; [congruence|auto].
Qed.
(** Once the line is complete the rest of the data only matters as a block. *)
Definition settled (x : out mc_result) (y : out mc_result) : Prop := x = y \/ x = Ok McMore.
Lemma mc_value_stable : forall d rest n x k, (n <= length d)%nat ->
  settled (mc_value d n x k) (mc_value (d ++ rest) n x k).
Proof.
  intros d rest n x k H. unfold mc_value. destruct (Nat.ltb_spec (length d - n) (Z.to_nat x + 2)) as [L|L]; [right; reflexivity|].
  left. rewrite app_length. replace (length d + length rest - n <? Z.to_nat x + 2)%nat with false by (symmetry; apply Nat.ltb_ge; lia).
  rewrite !nth_error_app1 by lia. rewrite skipn_app. replace (n - length d)%nat with 0%nat by lia. cbn [skipn].
  rewrite firstn_app. replace (Z.to_nat x - length (skipn n d))%nat with 0%nat by (rewrite skipn_length; lia).
  cbn [firstn]. rewrite app_nil_r. reflexivity.
Qed.
Lemma settled_refl : forall x, settled x x.
Proof. left. reflexivity. Qed.
Lemma settled_at : forall args i f g, (forall a, settled (f a) (g a)) -> settled (arg_at args i f) (arg_at args i g).
Proof. intros. unfold arg_at. destruct (nth_error args i); [auto|apply settled_refl]. Qed.
Lemma settled_i64 : forall args i ok n f g, (forall a, settled (f a) (g a)) -> settled (argi64 args i ok n f) (argi64 args i ok n g).
Proof.
  intros. unfold argi64. apply settled_at. intro a. destruct (parse_i64 a); [|apply settled_refl].
  destruct (ok _); [auto|apply settled_refl].
Qed.
Lemma settled_key : forall args i n f g, settled f g -> settled (valid_key args i n f) (valid_key args i n g).
Proof. intros. unfold valid_key. apply settled_at. intro a. destruct (mc_valid a); [auto|apply settled_refl]. Qed.
Lemma set_plus_stable : forall cmd d rest n r args, (n <= length d)%nat ->
  settled (set_plus cmd d n r args) (set_plus cmd (d ++ rest) n r args).
Proof.
  intros. unfold set_plus. apply settled_key. do 3 (apply settled_i64; intro).
  destruct cmd; try (apply mc_value_stable; assumption).
  apply settled_at. intro c. destruct (parse_u64 c); [apply mc_value_stable; assumption|apply settled_refl].
Qed.
Lemma parse_settled : forall s rest, settled (parse_memcache s) (parse_memcache (s ++ rest)).
Proof.
  intros s rest. unfold parse_memcache. destruct (mc_telnet s 0 [] 0 []) as [[(n & ws)|]|t] eqn:T.
  - rewrite (mct_stable _ rest _ _ _ _ _ T). destruct (mct_inv _ _ _ _ _ _ _ T) as (u & w & Es & _ & En).
    assert (Hn : (n <= length s)%nat) by (subst; rewrite !app_length; cbn [length]; lia).
    destruct ws as [|name ws]; [apply settled_refl|].
    destruct (_ && arg_is name "get"); [apply settled_refl|].
    destruct (_ && arg_is name "set").
    + apply settled_at. intro flags. destruct (is_zero flags); [|apply set_plus_stable; exact Hn].
      apply settled_at. intro key. destruct (negb _); [apply settled_refl|]. apply settled_at. intro exptime.
      destruct (is_zero exptime); [|apply settled_i64; intro]; (apply settled_i64; intro; apply mc_value_stable; exact Hn).
    + destruct (mc_lookup name) as [cmd|]; [|apply settled_refl]. unfold mc_command.
      destruct (is_store cmd); [apply set_plus_stable; exact Hn|apply settled_refl].
  - right. reflexivity.
  - rewrite (mct_stable_bad _ rest _ _ _ _ _ T). left. reflexivity.
Qed.

(** *** What is accepted *)
Lemma mc_value_inv : forall l rest x k n r args, mc_value (l ++ rest) (length l) x k = Ok (McGot n r args) ->
  exists v rest', rest = (v ++ crlf) ++ rest' /\ Z.to_nat x = length v /\ k (length (l ++ v ++ crlf)) v = McGot n r args.
Proof.
  intros l rest x k n r args. unfold mc_value. rewrite app_length.
  destruct (Nat.ltb_spec (length l + length rest - length l) (Z.to_nat x + 2)) as [L|L]; [discriminate|].
  intro H. set (v := firstn (Z.to_nat x) rest).
  assert (Lv : length v = Z.to_nat x) by (unfold v; rewrite firstn_length; lia).
  assert (E1 : nth_error (l ++ rest) (length l + Z.to_nat x + 2 - 2) = nth_error (skipn (Z.to_nat x) rest) 0).
  { rewrite nth_error_app2 by lia. rewrite <- (firstn_skipn (Z.to_nat x) rest) at 1. fold v.
    rewrite nth_error_app2 by lia. f_equal. lia. }
  assert (E2 : nth_error (l ++ rest) (length l + Z.to_nat x + 2 - 1) = nth_error (skipn (Z.to_nat x) rest) 1).
  { rewrite nth_error_app2 by lia. rewrite <- (firstn_skipn (Z.to_nat x) rest) at 1. fold v.
    rewrite nth_error_app2 by lia. f_equal. lia. }
  rewrite E1, E2 in H. clear E1 E2.
  rewrite skipn_app, skipn_all, Nat.sub_diag in H. cbn [skipn app] in H. fold v in H.
  destruct (skipn (Z.to_nat x) rest) as [|b1 [|b2 tail]] eqn:Es; cbn [nth_error] in H; try (destruct b1 as [|[[[[]|[]|]|[[]|[]|]|]|[[[]|[]|]|[[]|[]|]|]|]]); try discriminate H.
  assert (Hb : b2 = 10).
  { destruct b2 as [|[[[[]|[]|]|[[]|[]|]|]|[[[]|[]|]|[[]|[]|]|]|]]; try discriminate H; reflexivity. }
  subst b2. exists v, tail. split; [|split; [lia|]].
  - rewrite <- (firstn_skipn (Z.to_nat x) rest). fold v. rewrite Es. unfold crlf. rewrite <- app_assoc. reflexivity.
  - replace (length (l ++ v ++ crlf)) with (length l + Z.to_nat x + 2)%nat; [congruence|].
    rewrite !app_length. cbn [crlf length]. ns. lia.
Qed.
Lemma at_inv : forall args i k r, arg_at args i k = Ok r -> exists a, nth_error args i = Some a /\ k a = Ok r.
Proof. intros args i k r. unfold arg_at. destruct (nth_error args i) as [a|]; [eauto|discriminate]. Qed.
Lemma i64_inv : forall args i ok n k n' r a, argi64 args i ok n k = Ok (McGot n' r a) ->
  exists z, k z = Ok (McGot n' r a).
Proof.
  intros args i ok n k n' r a. unfold argi64. intro H. apply at_inv in H. destruct H as (t & _ & H).
  destruct (parse_i64 t) as [z|]; [|discriminate]. destruct (ok z); [eauto|discriminate].
Qed.
Lemma key_inv : forall args i n k n' r a, valid_key args i n k = Ok (McGot n' r a) ->
  exists key, nth_error args i = Some key /\ mc_key key /\ k = Ok (McGot n' r a).
Proof.
  intros args i n k n' r a. unfold valid_key. intro H. apply at_inv in H. destruct H as (t & E & H).
  destruct (mc_valid t) eqn:V; [|discriminate]. apply mc_valid_key in V. eauto.
Qed.
Definition taken (l rest : bytes) (n : nat) (args : list bytes) : Prop :=
  exists blk rest', rest = blk ++ rest' /\ n = length (l ++ blk) /\
    ((blk = [] /\ plain_command args) \/ exists v, blk = v ++ crlf /\ block_command v args).
Lemma set_plus_inv : forall cmd l rest r0 args n r out, set_plus cmd (l ++ rest) (length l) r0 args = Ok (McGot n r out) ->
  taken l rest n out.
Proof.
  intros cmd l rest r0 args n r out H. unfold set_plus in H. apply key_inv in H. destruct H as (key & Ek & Kk & H).
  apply i64_inv in H. destruct H as (z1 & H). apply i64_inv in H. destruct H as (z2 & H). apply i64_inv in H. destruct H as (x & H).
  cbv zeta in H. assert (Ek' : nth 1 args [] = key) by (apply nth_error_nth; exact Ek).
  assert (X : exists cas, mc_value (l ++ rest) (length l) x (fun n' value => McGot n' r0
        match cmd with
        | MC_APPEND => [bs "append"; key; value]
        | MC_PREPEND => [bs "prepend"; key; value]
        | _ =>
            [bs "set"; key; value]
            ++ (if is_zero (nth 2 args []) then [] else [bs "flags"; nth 2 args []])
            ++ (if is_zero (nth 3 args []) then [] else [bs "ex"; nth 3 args []])
            ++ (match cmd with MC_ADD => [bs "nx"] | MC_REPLACE => [bs "xx"] | _ => [] end)
            ++ (match cas with Some c => [bs "cas"; c] | None => [] end)
        end) = Ok (McGot n r out)).
  { rewrite <- Ek'. destruct cmd; try (exists None; exact H). apply at_inv in H. destruct H as (c & _ & H). destruct (parse_u64 c); [|discriminate].
    exists (Some c). exact H. }
  destruct X as (cas & X). clear H. apply mc_value_inv in X. destruct X as (v & rest' & -> & _ & X).
  apply (f_equal (fun m => match m with McGot a _ b => (a, b) | _ => (0%nat, []) end)) in X. cbv beta iota in X.
  apply pair_equal_spec in X. destruct X as (<- & <-).
  exists (v ++ crlf), rest'. split; [reflexivity|]. split; [reflexivity|]. right. exists v. split; [reflexivity|].
  destruct cmd;
    lazymatch goal with
    | |- context [bs "append"] => exists "append"%string
    | |- context [bs "prepend"] => exists "prepend"%string
    | |- _ => exists "set"%string
    end; exists key; eexists; (split; [cbn [app]; reflexivity|]; split; [exact Kk|tauto]).
Qed.
Lemma keys_valid_inv : forall args i, keys_valid args i = true -> Forall mc_key (skipn i args).
Proof. intros args i H. unfold keys_valid in H. rewrite forallb_forall in H. apply Forall_forall. intros x I. apply mc_valid_key. auto. Qed.
Lemma plain_taken : forall l rest args, plain_command args -> taken l rest (length l) args.
Proof. intros. exists [], rest. rewrite app_nil_r. auto. Qed.
Lemma command_inv : forall cmd l rest args n r out, args <> [] -> mc_command cmd (l ++ rest) (length l) args = Ok (McGot n r out) ->
  taken l rest n out.
Proof.
  intros cmd l rest args n r out Ha H. unfold mc_command in H.
  set (rr := is_noreplyable cmd && arg_is (last args []) "noreply") in *.
  set (as' := if rr then removelast args else args) in *.
  destruct (is_store cmd) eqn:Sc; [exact (set_plus_inv _ _ _ _ _ _ _ _ H)|].
  destruct cmd; try discriminate Sc; cbv iota in H.
  - (* incr *) destruct (negb _); [discriminate|]. apply key_inv in H. destruct H as (key & Ek & Kk & H). injection H as <- _ <-.
    assert (Ek' : nth 1 as' [] = key) by (apply nth_error_nth; exact Ek). rewrite Ek'. apply plain_taken.
    exists "uincrby"%string. eexists. split; [reflexivity|]. do 2 right. left. split; [tauto|]. eauto.
  - destruct (negb _); [discriminate|]. apply key_inv in H. destruct H as (key & Ek & Kk & H). injection H as <- _ <-.
    assert (Ek' : nth 1 as' [] = key) by (apply nth_error_nth; exact Ek). rewrite Ek'. apply plain_taken.
    exists "udecrby"%string. eexists. split; [reflexivity|]. do 2 right. left. split; [tauto|]. eauto.
  - (* flush_all *) destruct (2 <? length as')%nat; [discriminate|].
    destruct (length as' =? 2)%nat; injection H as <- _ <-; apply plain_taken;
      exists "flushall"%string; eexists; (split; [reflexivity|]); do 4 right; tauto.
  - (* delete *) destruct (length as' =? 1)%nat; [discriminate|]. destruct (2 <? length as')%nat; [discriminate|].
    apply key_inv in H. destruct H as (key & Ek & Kk & H). injection H as <- _ <-.
    assert (Ek' : nth 1 as' [] = key) by (apply nth_error_nth; exact Ek). rewrite Ek'. apply plain_taken.
    exists "del"%string. eexists. split; [reflexivity|]. right. left. split; [reflexivity|]. eauto.
  - (* touch *) destruct (negb _); [discriminate|]. apply key_inv in H. destruct H as (key & Ek & Kk & H). injection H as <- _ <-.
    assert (Ek' : nth 1 as' [] = key) by (apply nth_error_nth; exact Ek). rewrite Ek'. apply plain_taken.
    exists "expire"%string. eexists. split; [reflexivity|]. do 2 right. left. split; [tauto|]. eauto.
  - (* verbosity *) destruct (2 <? length as')%nat; [discriminate|]. apply at_inv in H. destruct H as (a & _ & H). injection H as <- _ <-.
    apply plain_taken. exists "verbosi"%string. eexists. split; [reflexivity|]. do 4 right. tauto.
  - (* get *) destruct (length as' =? 1)%nat eqn:L1; [discriminate|]. destruct (keys_valid as' 1) eqn:V; [|discriminate].
    injection H as <- _ <-. apply keys_valid_inv in V. apply plain_taken. exists "mget"%string. eexists. split; [reflexivity|].
    left. split; [tauto|]. split; [|exact V]. destruct as' as [|? [|? ?]] eqn:Ea; cbn; try discriminate.
    exfalso. subst as'. unfold rr in Ea. cbn [is_noreplyable andb] in Ea. congruence.
  - (* gets *) destruct (length as' =? 1)%nat eqn:L1; [discriminate|]. destruct (keys_valid as' 1) eqn:V; [|discriminate].
    injection H as <- _ <-. apply keys_valid_inv in V. apply plain_taken. exists "mgets"%string. eexists. split; [reflexivity|].
    left. split; [tauto|]. split; [|exact V]. destruct as' as [|? [|? ?]] eqn:Ea; cbn; try discriminate.
    exfalso. subst as'. unfold rr in Ea. cbn [is_noreplyable andb] in Ea. congruence.
  - (* gat *) destruct (Nat.leb_spec (length as') 2) as [L1|L1]; [discriminate|]. apply i64_inv in H. destruct H as (z & H).
    destruct (keys_valid as' 2) eqn:V; [|discriminate].
    injection H as <- _ <-. apply keys_valid_inv in V. apply plain_taken. exists "gat"%string.
    destruct as' as [|a [|b [|c m]]]; try (cbn [length] in L1; lia). cbn [skipn] in *. eexists. split; [reflexivity|].
    do 3 right. left. split; [tauto|]. exists b, (c :: m). split; [reflexivity|]. split; [discriminate|exact V].
  - (* gats *) destruct (Nat.leb_spec (length as') 2) as [L1|L1]; [discriminate|]. apply i64_inv in H. destruct H as (z & H).
    destruct (keys_valid as' 2) eqn:V; [|discriminate].
    injection H as <- _ <-. apply keys_valid_inv in V. apply plain_taken. exists "gats"%string.
    destruct as' as [|a [|b [|c m]]]; try (cbn [length] in L1; lia). cbn [skipn] in *. eexists. split; [reflexivity|].
    do 3 right. left. split; [tauto|]. exists b, (c :: m). split; [reflexivity|]. split; [discriminate|exact V].
  - injection H as <- _ <-. apply plain_taken. exists "version"%string. eexists. split; [reflexivity|]. do 4 right. tauto.
  - injection H as <- _ <-. apply plain_taken. exists "stats"%string. eexists. split; [reflexivity|]. do 4 right. tauto.
  - injection H as <- _ <-. apply plain_taken. exists "quit"%string. eexists. split; [reflexivity|]. do 4 right. tauto.
Qed.
Lemma mc_inv : forall s n r args, parse_memcache s = Ok (McGot n r args) -> args <> [] ->
  exists l rest, s = l ++ rest /\ one_line l /\ taken l rest n args.
Proof.
  intros s n r args H Ha. unfold parse_memcache in H. destruct (mc_telnet s 0 [] 0 []) as [[(m & ws)|]|t] eqn:T; try discriminate H.
  destruct (mct_inv _ _ _ _ _ _ _ T) as (t & rest & Es & Nt & Em). rewrite app_assoc in Es.
  assert (Em' : m = length (t ++ [10])) by (rewrite app_length; cbn [length]; ns; lia). clear Em T.
  exists (t ++ [10]), rest. split; [exact Es|]. split; [exists t; auto|]. subst s m.
  destruct ws as [|name ws]; [injection H as _ _ <-; congruence|].
  destruct (_ && arg_is name "get").
  { apply at_inv in H. destruct H as (key & _ & H). destruct (mc_valid key) eqn:V; [|discriminate]. injection H as <- _ <-.
    apply mc_valid_key in V. apply plain_taken. exists "mget"%string. eexists. split; [reflexivity|]. left. split; [tauto|].
    split; [discriminate|]. constructor; [exact V|constructor]. }
  destruct (_ && arg_is name "set") eqn:Es.
  { apply andb_true_iff in Es. destruct Es as (_ & Es). apply beq_eq in Es. subst name.
    apply at_inv in H. destruct H as (flags & _ & H). destruct (is_zero flags); [|exact (set_plus_inv _ _ _ _ _ _ _ _ H)].
    apply at_inv in H. destruct H as (key & _ & H). destruct (mc_valid key) eqn:V; [|discriminate]. cbn [negb] in H.
    apply mc_valid_key in V. apply at_inv in H. destruct H as (e & _ & H).
    assert (X : exists x ex, mc_value ((t ++ [10]) ++ rest) (length (t ++ [10])) x
        (fun n' value => McGot n' false ([bs "set"; key; value] ++ ex)) = Ok (McGot n r args)).
    { destruct (is_zero e); [|apply i64_inv in H; destruct H as (z & H)]; (apply i64_inv in H; destruct H as (x & H); eauto). }
    destruct X as (x & ex & X). apply mc_value_inv in X. destruct X as (v & rest' & -> & _ & X).
    apply (f_equal (fun m => match m with McGot a _ b => (a, b) | _ => (0%nat, []) end)) in X. cbv beta iota in X.
    apply pair_equal_spec in X. destruct X as (<- & <-).
    exists (v ++ crlf), rest'. split; [reflexivity|]. split; [reflexivity|]. right. exists v. split; [reflexivity|].
    exists "set"%string, key, ex. split; [reflexivity|]. split; [exact V|tauto]. }
  destruct (mc_lookup name) as [cmd|]; [|discriminate]. apply (command_inv cmd _ _ (name :: ws) n r args); [discriminate|exact H].
Qed.
Lemma mc_value_bad : forall l v x y rest k, (x, y) <> (13, 10) ->
  mc_value (l ++ v ++ [x; y] ++ rest) (length l) (Z.of_nat (length v)) k = Ok (McErr BAD_CHUNK (length (l ++ v ++ [x; y]))).
Proof.
  intros l v x y rest k H. unfold mc_value. rewrite Nat2Z.id. rewrite !app_length. cbn [length].
  replace (length l + (length v + (2 + length rest)) - length l <? length v + 2)%nat with false
    by (symmetry; apply Nat.ltb_ge; ns; lia).
  assert (E : forall j, nth_error (l ++ v ++ [x; y] ++ rest) (length l + length v + j) = nth_error ([x; y] ++ rest) j).
  { intro j. rewrite app_assoc. rewrite nth_error_app2 by (rewrite app_length; ns; lia).
    f_equal. rewrite app_length. ns. lia. }
  replace (length l + length v + 2 - 2)%nat with (length l + length v + 0)%nat by (ns; lia).
  replace (length l + length v + 2 - 1)%nat with (length l + length v + 1)%nat by (ns; lia).
  rewrite !E. cbn [app nth_error]. replace (length l + length v + 2)%nat with (length l + (length v + 2))%nat by (ns; lia).
  destruct x as [|[[[[]|[]|]|[[]|[]|]|]|[[[]|[]|]|[[]|[]|]|]|]]; try reflexivity.
  destruct y as [|[[[[]|[]|]|[[]|[]|]|]|[[[]|[]|]|[[]|[]|]|]|]]; try reflexivity.
  congruence.
Qed.
Lemma invalid_key : forall k, ~ mc_key k -> mc_valid k = false.
Proof. intros k H. destruct (mc_valid k) eqn:V; [|reflexivity]. apply mc_valid_key in V. contradiction. Qed.
