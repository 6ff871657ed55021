(** Proofs about replies. *)
From Verif Require Import Base Types Text IntText IntTextProofs Observe Prog CmdSpec CmdSpec2 Cmds Reply ReplySpec.
From Coq Require Import String Lia ZArith NArith List.
Local Open Scope N_scope.
Notation length := List.length.
Notation concat := List.concat.
Ltac ns := unfold bytes in *; change byte with N in *.

Lemma cut_at : forall (c : N) a b x y, Forall (fun z => z <> c) a -> Forall (fun z => z <> c) b ->
  a ++ c :: x = b ++ c :: y -> a = b /\ x = y.
Proof.
  induction a as [|p a IH]; intros b x y A B E; destruct b as [|q b]; cbn [app] in E.
  - injection E as E. auto.
  - injection E as E _. inversion B; congruence.
  - injection E as E _. inversion A; congruence.
  - injection E as <- E. inversion A; inversion B; subst. destruct (IH b x y) as [-> ->]; auto.
Qed.
Lemma cut_len : forall (a b x y : list N), length a = length b -> a ++ x = b ++ y -> a = b /\ x = y.
Proof.
  induction a as [|p a IH]; intros [|q b] x y L E; cbn in L; try discriminate; [auto|].
  cbn [app] in E. injection E as <- E. destruct (IH b x y) as [-> ->]; auto.
Qed.
Lemma cut_line : forall a b x y, Forall (fun z => z <> 13) a -> Forall (fun z => z <> 13) b ->
  a ++ crlf ++ x = b ++ crlf ++ y -> a = b /\ x = y.
Proof.
  intros a b x y A B E. unfold crlf in E. cbn [app] in E. apply cut_at in E; [|assumption|assumption].
  destruct E as [-> E]. injection E as ->. auto.
Qed.
Lemma line_13 : forall s, one_line_text s -> Forall (fun z => z <> 13) s.
Proof. intros s H. eapply Forall_impl; [|exact H]. intros a [A _]. exact A. Qed.
Lemma digits_not : forall c ds, digits ds -> is_digit c = false -> Forall (fun z => z <> c) ds.
Proof. intros c ds [_ H] N. eapply Forall_impl; [|exact H]. intros a A ->. congruence. Qed.
Lemma canonical_not : forall c ds x, canonical ds x -> is_digit c = false -> Forall (fun z => z <> c) ds.
Proof. intros c ds x [D _]. exact (digits_not c ds D). Qed.
Lemma canonical_val : forall ds x y, canonical ds x -> canonical ds y -> x = y.
Proof. intros ds x y (_ & A & _) (_ & B & _). congruence. Qed.
Lemma canonical_head : forall ds x c r, canonical ds x -> is_digit c = false -> ds = c :: r -> False.
Proof. intros ds x c r [[_ D] _] N ->. inversion D; congruence. Qed.
Lemma decimal_text_not : forall c ds z, decimal_text ds z -> is_digit c = false -> c <> 45 -> Forall (fun z => z <> c) ds.
Proof.
  intros c ds z D N M. unfold decimal_text in D. destruct (z <? 0)%Z.
  - destruct D as (t & -> & C). constructor; [congruence|]. exact (canonical_not c t _ C N).
  - exact (canonical_not c ds _ D N).
Qed.
Lemma decimal_text_val : forall ds y z, decimal_text ds y -> decimal_text ds z -> y = z.
Proof.
  intros ds y z A B. unfold decimal_text in *.
  destruct (Z.ltb_spec y 0), (Z.ltb_spec z 0).
  - destruct A as (t & -> & A), B as (t' & E & B). injection E as <-. pose proof (canonical_val _ _ _ A B). lia.
  - destruct A as (t & -> & A). destruct (canonical_head _ _ 45 t B eq_refl eq_refl).
  - destruct B as (t & -> & B). destruct (canonical_head _ _ 45 t A eq_refl eq_refl).
  - pose proof (canonical_val _ _ _ A B). lia.
Qed.

(** * The grammar of RESP is unambiguous. *)
Ltac heads E := unfold bs, crlf in E; cbn in E; try discriminate E.
Lemma item_unique : forall a s b t x y, item_text a s -> item_text b t -> s ++ x = t ++ y -> a = b /\ s = t /\ x = y.
Proof.
  assert (Cut : forall c a b x y, Forall (fun z => z <> 13) a -> Forall (fun z => z <> 13) b ->
    (bs c ++ a ++ crlf) ++ x = (bs c ++ b ++ crlf) ++ y -> a = b /\ x = y).
  { intros c a b x y A B E. rewrite <- !app_assoc in E. apply app_inv_head in E.
    unfold crlf in E. cbn [app] in E. apply cut_at in E; [|assumption|assumption]. destruct E as [-> E]. injection E as ->. auto. }
  assert (Nb : forall s n x y, canonical n (N.of_nat (length s)) ->
    (bs "$-1" ++ crlf) ++ x = (bs "$" ++ n ++ crlf ++ s ++ crlf) ++ y -> False).
  { intros s n x y C E. destruct n as [|d n]; [destruct C as [[C _] _]; congruence|].
    assert (d = 45). { apply (f_equal (fun l => nth 1 l 0)) in E. symmetry. exact E. }
    subst d. exact (canonical_head _ _ 45 n C eq_refl eq_refl). }
  intros a s b t x y A B E.
  destruct A as [u P|u P| |u n C|z n C|k n C]; destruct B as [u' P'|u' P'| |u' n' C'|z' n' C'|k' n' C'];
    try (exfalso; apply (f_equal (hd 0)) in E; cbn in E; discriminate E).
  - apply Cut in E; [|apply line_13; assumption|apply line_13; assumption]. destruct E as [-> ->]. auto.
  - apply Cut in E; [|apply line_13; assumption|apply line_13; assumption]. destruct E as [-> ->]. auto.
  - apply app_inv_head in E. auto.
  - destruct (Nb _ _ _ _ C' E).
  - symmetry in E. destruct (Nb _ _ _ _ C E).
  - rewrite <- !app_assoc in E. apply app_inv_head in E. unfold crlf at 1 3 in E. cbn [app] in E.
    apply cut_at in E; [|eapply canonical_not; [eassumption|reflexivity]|eapply canonical_not; [eassumption|reflexivity]].
    destruct E as [-> E]. injection E as E. pose proof (canonical_val _ _ _ C C') as L.
    apply cut_len in E; [|ns; lia]. destruct E as [-> E]. cbn [crlf app] in E. injection E as ->. auto.
  - apply Cut in E; [|eapply decimal_text_not; [eassumption|reflexivity|discriminate]|eapply decimal_text_not; [eassumption|reflexivity|discriminate]].
    destruct E as [-> ->]. rewrite (decimal_text_val _ _ _ C C'). auto.
  - apply Cut in E; [|eapply canonical_not; [eassumption|reflexivity]|eapply canonical_not; [eassumption|reflexivity]].
    destruct E as [-> ->]. rewrite (canonical_val _ _ _ C C'). auto.
Qed.
Lemma item_nonempty : forall a s, item_text a s -> s <> [].
Proof. intros a s H. destruct H; discriminate. Qed.
Lemma items_unique : forall l s m t, items_text l s -> items_text m t -> s = t -> l = m.
Proof.
  intros l s m t (ts & F & ->) (us & G & ->). revert m us G.
  induction F as [|a u l ts A F IH]; intros m us G E.
  - destruct G as [|b v m us B G]; [reflexivity|]. cbn in E. destruct v; [|discriminate]. destruct (item_nonempty _ _ B eq_refl).
  - destruct G as [|b v m us B G]; cbn [concat] in E.
    + destruct u; [|discriminate]. destruct (item_nonempty _ _ A eq_refl).
    + destruct (item_unique _ _ _ _ _ _ A B E) as (-> & _ & E'). rewrite (IH m us G E'). reflexivity.
Qed.

(** * The writers produce the grammar. *)
Lemma tame_printable : forall s, printable s -> map tame s = s.
Proof.
  induction s as [|b s IH]; intros H; [reflexivity|]. inversion H; subst. cbn. rewrite IH by assumption. f_equal.
  unfold tame. destruct (N.ltb_spec b 32); [lia|reflexivity].
Qed.
Lemma writeln_printable : forall fill ch s, printable s -> writeln fill ch s = ch :: s ++ crlf.
Proof.
  intros fill ch s H. unfold writeln. set (k := (length s - (fill + 1))%nat). f_equal.
  rewrite tame_printable. 2: { unfold printable in *. rewrite <- (firstn_skipn k s) in H. apply Forall_app in H. tauto. }
  rewrite app_assoc, firstn_skipn. reflexivity.
Qed.
Lemma cstr_no_nul : forall s, no_nul s -> cstr s = s.
Proof.
  induction s as [|b s IH]; intros H; [reflexivity|]. inversion H; subst. cbn.
  destruct (N.eqb_spec b 0); [congruence|]. rewrite IH by assumption. reflexivity.
Qed.
Lemma printable_no_nul : forall s, printable s -> no_nul s.
Proof. intros s H. eapply Forall_impl; [|exact H]. cbn. intros a A. lia. Qed.
Lemma printable_line : forall s, printable s -> one_line_text s.
Proof. intros s H. eapply Forall_impl; [|exact H]. cbn. intros a A. lia. Qed.
Lemma canonical_printable : forall ds x, canonical ds x -> printable ds.
Proof.
  intros ds x [[_ D] _]. eapply Forall_impl; [|exact D]. cbn. intros a A. unfold is_digit in A.
  apply andb_true_iff in A. destruct A as [A _]. apply N.leb_le in A. lia.
Qed.
Lemma i64toa_text : forall z, i64_ok z -> decimal_text (i64toa z) z.
Proof.
  intros z H. unfold i64_ok, INT64_MIN, INT64_MAX in H. unfold decimal_text, i64toa.
  destruct (Z.ltb_spec z 0).
  - destruct (Z.eqb_spec z INT64_MIN) as [->|N].
    + eexists. split; [reflexivity|]. split; [split; [discriminate|repeat constructor]|]. split; [reflexivity|discriminate].
    + eexists. split; [reflexivity|]. apply u64toa_canonical. unfold INT64_MIN in N. lia.
  - apply u64toa_canonical. lia.
Qed.
Lemma decimal_text_printable : forall s z, decimal_text s z -> printable s.
Proof.
  intros s z H. unfold decimal_text in H. destruct (z <? 0)%Z.
  - destruct H as (ds & -> & C). constructor; [lia|]. exact (canonical_printable _ _ C).
  - exact (canonical_printable _ _ H).
Qed.
Lemma emit_item : forall pg po fill w i, means w i -> item_text i (emit pg po RESP fill w).
Proof.
  intros pg po fill w i H. destruct H as [s P|s P| |s L|z Z|n L|n ds L C]; cbn [emit write_error is_memcache].
  - rewrite cstr_no_nul by (apply printable_no_nul; assumption). rewrite writeln_printable by assumption.
    apply text_error, printable_line, P.
  - rewrite cstr_no_nul by (apply printable_no_nul; assumption). rewrite writeln_printable by assumption.
    apply text_string, printable_line, P.
  - apply text_null.
  - apply (text_bulk s), u64toa_canonical, L.
  - pose proof (i64toa_text z Z) as D. rewrite writeln_printable by exact (decimal_text_printable _ _ D).
    apply text_int, D.
  - pose proof (u64toa_canonical n L) as D. rewrite writeln_printable by exact (canonical_printable _ _ D).
    apply text_array, D.
  - pose proof (u64toa_canonical n L) as D. rewrite writeln_printable by exact (canonical_printable _ _ D).
    rewrite (canonical_unique _ _ _ C D). apply (text_string (u64toa n)), printable_line. exact (canonical_printable _ _ D).
Qed.
Lemma emits_items : forall pg po ws items fill, Forall2 means ws items -> items_text items (emits pg po RESP fill ws).
Proof.
  intros pg po ws items fill F. revert fill. induction F as [|w i ws items M F IH]; intros fill.
  - exists []. split; [constructor|reflexivity].
  - cbn [emits]. destruct (IH (fill + length (emit pg po RESP fill w))%nat) as (texts & T & E).
    exists (emit pg po RESP fill w :: texts). split; [constructor; [apply emit_item; exact M|exact T]|].
    cbn [concat]. rewrite <- E. reflexivity.
Qed.

(** * HTTP *)
Lemma http_reply_text : forall code status body, code < 2 ^ 64 -> N.of_nat (length body) < 2 ^ 64 -> one_line_text status ->
  http_text code status body (http_reply code status body).
Proof.
  intros code status body C L S. unfold http_reply.
  apply http_response; [apply u64toa_canonical; exact C|apply u64toa_canonical; exact L|exact S].
Qed.
Ltac apps E := rewrite <- !app_assoc in E.
Lemma http_unique : forall c st b s c' st' b' t x y, http_text c st b s -> http_text c' st' b' t -> s ++ x = t ++ y ->
  c = c' /\ st = st' /\ b = b' /\ x = y.
Proof.
  intros c st b s c' st' b' t x y A B E.
  destruct A as [c st b d n Cd Cn S]. destruct B as [c' st' b' d' n' Cd' Cn' S'].
  apps E. apply app_inv_head in E. change (bs " ") with [32] in E. cbn [app] in E.
  apply cut_at in E; [|eapply canonical_not; [eassumption|reflexivity]|eapply canonical_not; [eassumption|reflexivity]].
  destruct E as [-> E].
  apply cut_line in E; [|apply line_13; exact S|apply line_13; exact S']. destruct E as [-> E].
  apply app_inv_head in E.
  apply cut_line in E; [|eapply canonical_not; [eassumption|reflexivity]|eapply canonical_not; [eassumption|reflexivity]].
  destruct E as [-> E]. do 3 apply app_inv_head in E.
  pose proof (canonical_val _ _ _ Cn Cn') as L. apply cut_len in E; [|ns; lia]. destruct E as [-> ->].
  rewrite (canonical_val _ _ _ Cd Cd'). auto.
Qed.

(** * Memcache *)
Lemma cut_digits : forall a b c d x y, Forall (fun z => is_digit z = true) a -> Forall (fun z => is_digit z = true) b ->
  is_digit c = false -> is_digit d = false -> a ++ c :: x = b ++ d :: y -> a = b /\ c = d /\ x = y.
Proof.
  induction a as [|p a IH]; intros b c d x y A B C D E; destruct b as [|q b]; cbn [app] in E.
  - injection E as -> ->. auto.
  - injection E as -> _. inversion B; congruence.
  - injection E as -> _. inversion A; congruence.
  - injection E as <- E. inversion A; inversion B; subst. destruct (IH b c d x y) as (-> & -> & ->); auto.
Qed.
Lemma found_unique : forall a s b t x y, found_text a s -> found_text b t ->
  plain_key (fst (fst (fst a))) -> plain_key (fst (fst (fst b))) -> s ++ x = t ++ y -> a = b /\ x = y.
Proof.
  assert (K : forall k, plain_key k -> Forall (fun z => z <> 32) k).
  { intros k H. eapply Forall_impl; [|exact H]. cbn. intros a L. lia. }
  assert (D : forall n x, canonical n x -> Forall (fun z => is_digit z = true) n) by (intros n x [[_ H] _]; exact H).
  intros a s b t x y A B Ka Kb E.
  destruct A as [k f v tf tn Cf Cn|k f c v tf tn tc Cf Cn Cc], B as [k' f' v' tf' tn' Cf' Cn'|k' f' c' v' tf' tn' tc' Cf' Cn' Cc'];
    cbn [fst] in Ka, Kb; rewrite <- !app_assoc in E; apply app_inv_head in E; change (bs " ") with [32] in E; cbn [app] in E;
    (apply cut_at in E; [|apply K; exact Ka|apply K; exact Kb]); destruct E as [-> E];
    (apply cut_at in E; [|eapply canonical_not; [eassumption|reflexivity]|eapply canonical_not; [eassumption|reflexivity]]);
    destruct E as [-> E]; rewrite (canonical_val _ _ _ Cf Cf').
  - apply cut_line in E; [|eapply canonical_not; [eassumption|reflexivity]|eapply canonical_not; [eassumption|reflexivity]].
    destruct E as [-> E]. pose proof (canonical_val _ _ _ Cn Cn') as L. apply cut_len in E; [|ns; lia]. destruct E as [-> E].
    apply app_inv_head in E. auto.
  - cbn [crlf app] in E. apply cut_digits in E; [|eapply D; eassumption|eapply D; eassumption|reflexivity|reflexivity].
    destruct E as (_ & E & _). discriminate.
  - cbn [crlf app] in E. apply cut_digits in E; [|eapply D; eassumption|eapply D; eassumption|reflexivity|reflexivity].
    destruct E as (_ & E & _). discriminate.
  - apply cut_at in E; [|eapply canonical_not; [eassumption|reflexivity]|eapply canonical_not; [eassumption|reflexivity]].
    destruct E as [-> E].
    apply cut_line in E; [|eapply canonical_not; [eassumption|reflexivity]|eapply canonical_not; [eassumption|reflexivity]].
    destruct E as [-> E]. rewrite (canonical_val _ _ _ Cc Cc').
    pose proof (canonical_val _ _ _ Cn Cn') as L. apply cut_len in E; [|ns; lia]. destruct E as [-> E].
    apply app_inv_head in E. auto.
Qed.
Lemma found_first : forall a s x, found_text a s -> hd 0 (s ++ x) = 86.
Proof. intros a s x H. destruct H; reflexivity. Qed.
Definition found_key (a : found) : bytes := fst (fst (fst a)).
Lemma founds_unique : forall l s m t x y, founds_text l s -> founds_text m t ->
  Forall (fun a => plain_key (found_key a)) l -> Forall (fun a => plain_key (found_key a)) m -> s ++ x = t ++ y -> l = m /\ x = y.
Proof.
  intros l s m t x y (ts & F & ->) (us & G & ->). revert m us G.
  induction F as [|a u l ts A F IH]; intros m us G Kl Km E.
  - destruct G as [|b v m us B G].
    + apply app_inv_head in E. auto.
    + exfalso. cbn [concat] in E. rewrite <- !app_assoc in E. apply (f_equal (hd 0)) in E.
      rewrite (found_first _ _ _ B) in E. discriminate E.
  - destruct G as [|b v m us B G].
    + exfalso. cbn [concat] in E. rewrite <- !app_assoc in E. apply (f_equal (hd 0)) in E.
      rewrite (found_first _ _ _ A) in E. discriminate E.
    + inversion Kl; inversion Km; subst. cbn [concat] in E.
      assert (E' : u ++ ((concat ts ++ bs "END" ++ crlf) ++ x) = v ++ ((concat us ++ bs "END" ++ crlf) ++ y))
        by (ns; repeat rewrite <- app_assoc in E; repeat rewrite <- app_assoc; exact E).
      destruct (found_unique _ _ _ _ _ _ A B ltac:(assumption) ltac:(assumption) E') as [-> E2].
      destruct (IH m us G ltac:(assumption) ltac:(assumption) E2) as [-> ->]. auto.
Qed.
(** Views that fit the types of the code. *)
Definition view_fits (v : view) : Prop := v_flags v < 2 ^ 64 /\ v_cas v < 2 ^ 64 /\ N.of_nat (length (v_val v)) < 2 ^ 64.
Lemma mget_founds : forall dec pg po fill withcas l, prints dec ->
  Forall (fun p => forall v, snd p = Some v -> view_fits v) l ->
  founds_text (finds withcas l) (emits pg po MEMCACHE fill (mget_reply dec MEMCACHE withcas l)).
Proof.
  intros dec pg po fill withcas l P F. unfold mget_reply. cbn [app]. revert fill.
  induction F as [|[k o] l H F IH]; intros fill.
  - exists []. split; [constructor|]. reflexivity.
  - cbn [flat_map]. unfold mget_one at 1. cbn [snd fst] in *. destruct o as [v|].
    + cbn [app emits emit]. destruct (IH (fill + length (value_line dec withcas k v))%nat) as (texts & T & E).
      exists (value_line dec withcas k v :: texts). split; [|cbn [concat]; rewrite <- app_assoc; ns; rewrite E; reflexivity].
      unfold finds. cbn [flat_map snd fst app]. destruct (H v eq_refl) as (A & B & C).
      constructor; [|exact T]. unfold value_line. destruct withcas.
      * match goal with |- found_text _ ?s => replace s with
          (bs "VALUE " ++ k ++ bs " " ++ dec (v_flags v) ++ bs " " ++ dec (N.of_nat (length (v_val v))) ++ bs " " ++ dec (v_cas v) ++ crlf ++ v_val v ++ crlf)
          by (change (bs " ") with [32]; rewrite <- !app_assoc; reflexivity) end.
        apply found_gets; apply P; assumption.
      * match goal with |- found_text _ ?s => replace s with
          (bs "VALUE " ++ k ++ bs " " ++ dec (v_flags v) ++ bs " " ++ dec (N.of_nat (length (v_val v))) ++ crlf ++ v_val v ++ crlf)
          by reflexivity end.
        apply found_get; apply P; assumption.
    + cbn [app]. exact (IH fill).
Qed.

(** * Postgres *)
Lemma be32_num : forall x, x < 2 ^ 32 -> number_of (be32 x) = x.
Proof.
  intros x H. unfold number_of, be32. cbn [fold_left].
  change (2 ^ 24) with (256 * (256 * 256)). change (2 ^ 16) with (256 * 256). change (2 ^ 8) with 256. change (2 ^ 32) with (256 * (256 * (256 * 256))) in H.
  rewrite <- !N.div_div by lia.
  pose proof (N.div_mod x 256 ltac:(lia)). pose proof (N.div_mod (x / 256) 256 ltac:(lia)).
  pose proof (N.div_mod (x / 256 / 256) 256 ltac:(lia)).
  assert (x / 256 / 256 / 256 < 256).
  { rewrite !N.div_div by lia. apply N.div_lt_upper_bound; lia. }
  rewrite (N.mod_small (x / 256 / 256 / 256)) by assumption. lia.
Qed.
Lemma be16_num : forall x, x < 2 ^ 16 -> number_of (be16 x) = x.
Proof.
  intros x H. unfold number_of, be16. cbn [fold_left]. change (2 ^ 8) with 256. change (2 ^ 16) with (256 * 256) in H.
  pose proof (N.div_mod x 256 ltac:(lia)).
  rewrite (N.mod_small (x / 256)) by (apply N.div_lt_upper_bound; lia). lia.
Qed.
Lemma be32_ok : forall x, bytes_ok (be32 x).
Proof. intros x. unfold be32. repeat constructor; unfold byte_ok; apply N.mod_lt; discriminate. Qed.
Lemma be16_ok : forall x, bytes_ok (be16 x).
Proof. intros x. unfold be16. repeat constructor; unfold byte_ok; apply N.mod_lt; discriminate. Qed.
Lemma frame_message : forall tag body, N.of_nat (length body) < 2 ^ 32 - 4 -> pg_message tag body (pg_frame tag body).
Proof. intros tag body H. apply pg_msg; [reflexivity|apply be32_ok|apply be32_num; lia]. Qed.
Lemma message_unique : forall g b s g' b' t x y, pg_message g b s -> pg_message g' b' t -> s ++ x = t ++ y ->
  g = g' /\ b = b' /\ x = y.
Proof.
  intros g b s g' b' t x y A B E. destruct A as [g len b L _ V], B as [g' len' b' L' _ V'].
  cbn [app] in E. injection E as <- E. rewrite <- !app_assoc in E. apply cut_len in E; [|congruence]. destruct E as [-> E].
  apply cut_len in E; [|ns; lia]. tauto.
Qed.
Lemma columns_unique : forall l s, pg_columns l s -> forall m t x y, pg_columns m t -> length l = length m -> s ++ x = t ++ y -> l = m.
Proof.
  intros l s H. induction H as [|c l len rest L _ V H IH]; intros m t x y G N E; destruct G as [|c' m len' rest' L' _ V' G]; try discriminate; [reflexivity|].
  rewrite <- !app_assoc in E. apply cut_len in E; [|congruence]. destruct E as [-> E].
  apply cut_len in E; [|ns; lia]. destruct E as [-> E]. f_equal. apply (IH m rest' x y G); [|exact E]. cbn [length] in N. lia.
Qed.
Lemma fields_unique : forall oid l s, pg_fields oid l s -> forall m t x y, pg_fields oid m t -> length l = length m -> s ++ x = t ++ y -> l = m.
Proof.
  intros oid l s H. induction H as [|c l ty rest C L _ V H IH]; intros m t x y G N E; destruct G as [|c' m ty' rest' C' L' _ V' G]; try discriminate; [reflexivity|].
  rewrite <- !app_assoc in E. cbn [app] in E. apply cut_at in E; [|exact C|exact C']. destruct E as [-> E].
  injection E as E. apply cut_len in E; [|congruence]. destruct E as [-> E]. cbn [app] in E. injection E as E.
  f_equal. apply (IH m rest' x y G); [|exact E]. cbn [length] in N. lia.
Qed.
Lemma pitem_unique : forall oid a s b t x y, pitem_text oid a s -> pitem_text oid b t -> s ++ x = t ++ y -> a = b /\ x = y.
Proof.
  intros oid a s b t x y A B E.
  destruct A as [l s (n & r & L & _ & V & C & M)|l s (n & r & L & _ & V & C & M)|g s Z M|s M|g s Z M];
  destruct B as [l' t (n' & r' & L' & _ & V' & C' & M')|l' t (n' & r' & L' & _ & V' & C' & M')|g' t Z' M'|t M'|g' t Z' M'];
    destruct (message_unique _ _ _ _ _ _ _ _ M M' E) as (T & Eb & ->); try discriminate T; (split; [|reflexivity]).
  - apply cut_len in Eb; [|congruence]. destruct Eb as [-> ->]. f_equal.
    apply (fields_unique oid l r' C l' r' [] [] C'); [|reflexivity]. ns; lia.
  - apply cut_len in Eb; [|congruence]. destruct Eb as [-> ->]. f_equal.
    apply (columns_unique l r' C l' r' [] [] C'); [|reflexivity]. ns; lia.
  - apply app_inv_tail in Eb. congruence.
  - reflexivity.
  - do 7 apply app_inv_head in Eb. apply app_inv_tail in Eb. congruence.
Qed.
Lemma pitem_nonempty : forall oid a s, pitem_text oid a s -> s <> [].
Proof.
  intros oid a s H. assert (M : exists g b, pg_message g b s).
  { destruct H as [l s (n & r & L & _ & V & C & M)|l s (n & r & L & _ & V & C & M)|g s Z M|s M|g s Z M]; eauto. }
  destruct M as (g & b & M). destruct M. discriminate.
Qed.
Lemma pitems_unique : forall oid l s m t, pitems_text oid l s -> pitems_text oid m t -> s = t -> l = m.
Proof.
  intros oid l s m t (ts & F & ->) (us & G & ->). revert m us G.
  induction F as [|a u l ts A F IH]; intros m us G E.
  - destruct G as [|b v m us B G]; [reflexivity|]. cbn in E. destruct v; [|discriminate]. destruct (pitem_nonempty _ _ _ B eq_refl).
  - destruct G as [|b v m us B G]; cbn [concat] in E.
    + destruct u; [|discriminate]. destruct (pitem_nonempty _ _ _ A eq_refl).
    + destruct (pitem_unique _ _ _ _ _ _ _ A B E) as (-> & E'). rewrite (IH m us G E'). reflexivity.
Qed.

Lemma row_columns : forall cols, Forall (fun c => N.of_nat (length c) < 2 ^ 32) cols -> pg_columns cols (flat_map (fun c => len32 c ++ c) cols).
Proof.
  intros cols F. induction F as [|c cols L F IH]; [constructor|]. cbn [flat_map]. rewrite <- app_assoc.
  apply pg_column; [reflexivity|apply be32_ok|apply be32_num; exact L|exact IH].
Qed.
Lemma desc_fields : forall po cols, po_oid po < 2 ^ 32 -> Forall no_nul cols -> pg_fields (po_oid po) cols (flat_map (pg_field po) cols).
Proof.
  intros po cols O F. induction F as [|c cols L F IH]; [constructor|]. cbn [flat_map]. unfold pg_field at 1.
  rewrite (cstr_no_nul _ L). rewrite <- !app_assoc.
  apply (pg_field_ (po_oid po) c cols (be32 (po_oid po))); [exact L|reflexivity|apply be32_ok|apply be32_num; exact O|exact IH].
Qed.
Lemma concat_part : forall (cols : list bytes), Forall (fun c => (length c <= length (concat cols))%nat) cols.
Proof.
  induction cols as [|c cols IH]; [constructor|]. cbn [concat]. rewrite app_length. constructor; [lia|].
  eapply Forall_impl; [|exact IH]. cbn. intros a A. ns; lia.
Qed.
Lemma row_length : forall (cols : list bytes), length (flat_map (fun c => len32 c ++ c) cols) = (length (concat cols) + 4 * length cols)%nat.
Proof. induction cols as [|c cols IH]; [reflexivity|]. cbn [flat_map concat length]. rewrite !app_length, IH. cbn [len32 be32 length]. ns; lia. Qed.
Lemma field_length : forall po (cols : list bytes), Forall no_nul cols ->
  length (flat_map (pg_field po) cols) = (length (concat cols) + 19 * length cols)%nat.
Proof.
  intros po cols F. induction F as [|c cols L F IH]; [reflexivity|]. cbn [flat_map concat length]. rewrite !app_length, IH. unfold pg_field.
  rewrite (cstr_no_nul _ L), !app_length. cbn [be32 be16 length]. ns; lia.
Qed.
Lemma starts_app : forall p s, starts p (p ++ s) = true.
Proof. induction p as [|x p IH]; intros s; [reflexivity|]. cbn. rewrite N.eqb_refl. exact (IH s). Qed.
Lemma starts_iff : forall p s, starts p s = true -> exists r, s = p ++ r.
Proof.
  induction p as [|x p IH]; intros [|y s] H; cbn in H; try discriminate; [exists []; reflexivity|exists (y :: s); reflexivity|].
  apply andb_true_iff in H. destruct H as [E H]. apply N.eqb_eq in E. subst y. destruct (IH s H) as [r ->]. exists r. reflexivity.
Qed.
Lemma err_pitems : forall oid po m, po_execute po = false -> no_nul m -> N.of_nat (length m) < 2 ^ 30 ->
  pitems_text oid [PIError m; PIReady] (pg_error m ++ pg_ready po).
Proof.
  intros oid po m X Z L. exists [pg_error m; pg_ready po]. split; [|cbn [concat]; rewrite app_nil_r; reflexivity].
  constructor; [|constructor; [|constructor]].
  - apply ptext_error; [exact Z|]. unfold pg_error. rewrite (cstr_no_nul _ Z). apply frame_message.
    rewrite !app_length. cbn -[N.pow]. ns; lia.
  - apply ptext_ready. unfold pg_ready. rewrite X. apply (frame_message 90 (bs "I")). reflexivity.
Qed.
Lemma emit_pitems : forall pg po fill w l, po_execute po = false -> po_oid po < 2 ^ 32 -> pmeans w l ->
  pitems_text (po_oid po) l (emit pg po POSTGRES fill w).
Proof.
  intros pg po fill w l X O H.
  assert (One : forall i s, pitem_text (po_oid po) i s -> pitems_text (po_oid po) [i] s).
  { intros i s I. exists [s]. split; [constructor; [exact I|constructor]|cbn; rewrite app_nil_r; reflexivity]. }
  destruct H as [cols N F L|cols N L|g Z L| |m Z L Ne|m Z L]; cbn [emit].
  - apply One, ptext_rows. exists (be16 (N.of_nat (length cols))), (flat_map (pg_field po) cols).
    split; [reflexivity|]. split; [apply be16_ok|]. split; [apply be16_num; exact N|]. split; [apply desc_fields; assumption|].
    apply frame_message. rewrite app_length, field_length by exact F. cbn [be16 length]. ns; lia.
  - apply One, ptext_row. exists (be16 (N.of_nat (length cols))), (flat_map (fun c => len32 c ++ c) cols).
    split; [reflexivity|]. split; [apply be16_ok|]. split; [apply be16_num; exact N|]. split.
    + apply row_columns. eapply Forall_impl; [|apply concat_part]. cbn. intros a A. ns; lia.
    + apply frame_message. rewrite app_length, row_length. cbn [be16 length]. ns; lia.
  - apply One, ptext_complete; [exact Z|]. unfold pg_complete. rewrite (cstr_no_nul _ Z). apply frame_message.
    rewrite app_length. cbn [length]. ns; lia.
  - apply One, ptext_ready. unfold pg_ready. rewrite X. apply (frame_message 90 (bs "I")). reflexivity.
  - cbn [write_error]. rewrite (cstr_no_nul _ Z). unfold strip_err. destruct (starts (bs "ERR ") m) eqn:S.
    + destruct (starts_iff _ _ S) as [r E]. destruct (Ne r E).
    + apply err_pitems; assumption.
  - cbn [write_error]. rewrite cstr_no_nul by (apply Forall_app; split; [repeat constructor; discriminate|exact Z]).
    unfold strip_err. rewrite starts_app. change (skipn 4 (bs "ERR " ++ m)) with m. apply err_pitems; assumption.
Qed.
Lemma emits_pitems : forall pg po ws items fill, po_execute po = false -> po_oid po < 2 ^ 32 -> Forall2 pmeans ws items ->
  pitems_text (po_oid po) (concat items) (emits pg po POSTGRES fill ws).
Proof.
  intros pg po ws items fill X O F. revert fill. induction F as [|w i ws items M F IH]; intros fill.
  - exists []. split; [constructor|reflexivity].
  - cbn [emits concat]. destruct (IH (fill + length (emit pg po POSTGRES fill w))%nat) as (texts & T & E).
    destruct (emit_pitems pg po fill w i X O M) as (texts' & T' & E').
    exists (texts' ++ texts). split; [apply Forall2_app; assumption|]. rewrite concat_app, <- E, <- E'. reflexivity.
Qed.
