(** C70: what STATS replies. *)
From Verif Require Import Base Types Clamp Entry EntryProofs Hash Map MapProofs MapInv Shard
  Spec Trace ShardProofs ScanProofs LoopProofs Cache Refine Reach Observe PropCache PropItems PropScan
  Text IntText IntTextProofs Prog CmdSpec CmdSpec2 CmdSpec3 Cmds CmdsProofs CmdsProofs2 CmdsProofs3
  PropCmds PropCmds2 PropCmds3 Stats StatCmd StatReply StatReplySpec.
From Coq Require Import String.
Local Open Scope N_scope.
Notation length := List.length.

(** *** Sums over the shards *)
Lemma sum_maps : forall (f : shard -> N) (g : map entry -> N), (forall s, f s = g (s_map s)) ->
  forall is, exists h : N -> list (map entry) -> N, forall acc ch,
  Forall (fun i => (i < length (ca_shards ch))%nat) is ->
  exists ch', each (add_body f) is acc ch = Ok (ch', h acc (List.map s_map (ca_shards ch)), []) /\
    List.map s_map (ca_shards ch') = List.map s_map (ca_shards ch).
Proof.
  intros f g Hf is. induction is as [|i is [h IH]].
  - exists (fun a _ => a). intros acc ch _. exists ch. split; reflexivity.
  - exists (fun a ms => match nth_error ms i with Some m => h (u64 (a + g m)) ms | None => 0 end).
    intros acc ch F. inversion F; subst. cbn [each]. unfold on_shard.
    destruct (nth_error (ca_shards ch) i) as [s|] eqn:Hs; [|apply nth_error_None in Hs; lia].
    unfold add_body at 1.
    assert (Q : List.map s_map (upd (ca_shards ch) i (mkShard (s_cas s) (s_map s) (ca_next ch))) =
                List.map s_map (ca_shards ch)).
    { clear - Hs. revert i Hs. induction (ca_shards ch) as [|x l IHl]; intros [|i] Hs; cbn in *; try discriminate.
      - injection Hs as ->. reflexivity.
      - f_equal. apply IHl. assumption. }
    rewrite Hf. cbn [s_next s_map].
    destruct (IH (u64 (acc + g (s_map s)))
      (mkCache (ca_next ch) (upd (ca_shards ch) i (mkShard (s_cas s) (s_map s) (ca_next ch))))) as (ch' & E & M).
    { cbn [ca_shards]. rewrite upd_length. assumption. }
    rewrite E. exists ch'. cbn [ca_shards app] in *. rewrite M, Q, nth_error_map, Hs. split; reflexivity.
Qed.

(** *** Texts *)
Lemma split_name : forall n v, ~ In 32 n -> stat_split (n ++ [32] ++ v) = (n, v).
Proof.
  induction n as [|b n IH]; intros v H; cbn [app stat_split]; [reflexivity|].
  destruct (N.eqb_spec b 32) as [->|_]; [exfalso; apply H; left; reflexivity|].
  cbn [app] in IH. rewrite IH; [reflexivity|]. intro K. apply H. right. exact K.
Qed.
Lemma cstr_id : forall s, c_string s -> cstr s = s.
Proof.
  induction s as [|b s IH]; intro H; cbn [cstr]; [reflexivity|].
  destruct (N.eqb_spec b 0) as [->|_]; [exfalso; apply H; left; reflexivity|].
  f_equal. apply IH. intro K. apply H. right. exact K.
Qed.
Lemma printf_ok : forall t, (length t <= 510)%nat -> stats_printf t = Ok t.
Proof.
  intros t H. unfold stats_printf. cbn zeta. destruct (Nat.ltb_spec 512 (length t + 1)); [lia|].
  rewrite firstn_all2 by exact H. reflexivity.
Qed.
Lemma all_ok : forall ts, Forall (fun t => (length t <= 510)%nat) ts -> stats_all ts = Ok ts.
Proof. induction 1; cbn [stats_all]; [reflexivity|]. rewrite printf_ok by assumption. rewrite IHForall. reflexivity. Qed.
Lemma all_bad : forall ts, Exists (fun t => (511 < length t)%nat) ts -> stats_all ts = Bad OutOfBounds.
Proof.
  induction ts as [|t ts IH]; intro H; [inversion H|]. cbn [stats_all]. unfold stats_printf. cbn zeta.
  destruct (Nat.ltb_spec 512 (length t + 1)); [reflexivity|].
  inversion H; subst; [lia|]. rewrite IH by assumption. reflexivity.
Qed.
Lemma mc_line_ok : forall l, (length l <= 504)%nat -> mc_stat l = Ok (bs "STAT " ++ l ++ crlf).
Proof.
  intros l H. unfold mc_stat. cbn zeta.
  assert (L : length (bs "STAT " ++ l ++ crlf) = (7 + length l)%nat) by (rewrite !app_length; cbn [bs length crlf]; cbn; lia).
  rewrite L. destruct (Nat.ltb_spec 512 (7 + length l)); [lia|]. destruct (Nat.ltb_spec (7 + length l) 512); [reflexivity|lia].
Qed.
Lemma mc_ok : forall ls, Forall (fun l => (length l <= 504)%nat) ls ->
  mc_stats ls = Ok (List.map (fun l => WRaw (bs "STAT " ++ l ++ crlf)) ls ++ [WRaw (bs "END" ++ crlf)]).
Proof. induction 1; cbn [mc_stats List.map app]; [reflexivity|]. rewrite mc_line_ok by assumption. rewrite IHForall. reflexivity. Qed.
Lemma mc_bad : forall ls, Exists (fun l => (505 < length l)%nat) ls -> mc_stats ls = Bad OutOfBounds.
Proof.
  induction ls as [|l ls IH]; intro H; [inversion H|]. cbn [mc_stats]. unfold mc_stat. cbn zeta.
  assert (L : length (bs "STAT " ++ l ++ crlf) = (7 + length l)%nat) by (rewrite !app_length; cbn; lia).
  rewrite L. destruct (Nat.ltb_spec 512 (7 + length l)); [reflexivity|].
  inversion H; subst; [lia|]. rewrite IH by assumption. reflexivity.
Qed.

(** A text made of a name without spaces and a value. *)
Definition made (kv : bytes * bytes) : bytes := fst kv ++ [32] ++ snd kv.
Lemma end_ok : forall pr kvs, Forall (fun kv => ~ In 32 (fst kv)) kvs ->
  (pr = MEMCACHE -> Forall (fun kv => (length (made kv) <= 504)%nat) kvs) ->
  stats_end pr (List.map made kvs) = Ok (stats_reply pr kvs (u64toa (N.of_nat (length kvs)))).
Proof.
  intros pr kvs Hs Hm. unfold stats_end. rewrite map_length.
  destruct pr; cbn [is_pg is_mc by_proto stats_reply].
  - rewrite mc_ok.
    + rewrite List.map_map. f_equal. f_equal. apply map_ext. intro kv. unfold made. rewrite <- !app_assoc. reflexivity.
    + specialize (Hm eq_refl). clear - Hm. induction Hm; constructor; assumption.
  - f_equal. cbn [app]. f_equal. f_equal. rewrite List.map_map. clear Hm. induction Hs as [|[k v] l Hk _ IH]; cbn [List.map]; [reflexivity|].
    rewrite IH. unfold made. rewrite split_name by exact Hk. reflexivity.
  - f_equal. f_equal. clear Hm. induction Hs as [|[k v] l Hk _ IH]; cbn [List.map flat_map]; [reflexivity|].
    rewrite IH. unfold made. rewrite split_name by exact Hk. reflexivity.
  - f_equal. f_equal. clear Hm. induction Hs as [|[k v] l Hk _ IH]; cbn [List.map flat_map]; [reflexivity|].
    rewrite IH. unfold made. rewrite split_name by exact Hk. reflexivity.
Qed.

(** The text of a value. *)
Definition val_text (v : value) : bytes :=
  match v with Num x => u64toa x | Txt s => cstr s | Secs s us => secs (s, us) end.
Definition pairs (tbl : list (string * value)) : list (bytes * bytes) :=
  List.map (fun nv => (bs (fst nv), val_text (snd nv))) tbl.
Lemma texts_made : forall rd a b d, stat_texts rd a b d = List.map made (pairs (stat_table rd a b d)).
Proof.
  intros rd a b d. unfold stat_texts, stat_table, pairs. cbn zeta. rewrite !List.map_app.
  f_equal. f_equal. destruct (rd_usage rd) as [[[u1 u2] [s1 s2]]|]; reflexivity.
Qed.
Definition val_fine (v : value) : Prop :=
  match v with Num x => x < 2 ^ 64 | Txt s => c_string s | Secs s us => s < 2 ^ 63 /\ us < 1000000 end.
Lemma decimal_zeros : forall n d, decimal (repeat 48 n ++ d) = decimal d.
Proof. intros n d. induction n as [|n IH]; cbn [repeat app decimal]; [reflexivity|]. rewrite IH. lia. Qed.
Lemma pad6_six : forall x, x < 1000000 -> six (pad6 x) x.
Proof.
  intros x H. unfold pad6. cbn zeta.
  destruct (u64toa_canonical x ltac:(change (2 ^ 64) with 18446744073709551616; lia)) as ((Ne & Fd) & De & Lz) eqn:C. clear C.
  assert (L : (length (u64toa x) <= 6)%nat).
  { destruct (canonical_low (u64toa x) x) as [->|B]; [apply u64toa_canonical; change (2 ^ 64) with 18446744073709551616; lia|cbn; lia|].
    destruct (Nat.le_gt_cases (length (u64toa x)) 6) as [Q|Q]; [exact Q|]. exfalso.
    assert (10 ^ 6 <= 10 ^ N.of_nat (length (u64toa x) - 1)) by (apply N.pow_le_mono_r; lia).
    change (10 ^ 6) with 1000000 in *. lia. }
  split; [|split; [split|]].
  - rewrite app_length, repeat_length. lia.
  - destruct (u64toa x); [congruence|]. intro K. apply app_eq_nil in K. destruct K; discriminate.
  - apply Forall_app. split; [|exact Fd]. apply Forall_forall. intros d Hd. apply repeat_spec in Hd. subst d. reflexivity.
  - rewrite decimal_zeros. exact De.
Qed.
Lemma says_text : forall v, val_fine v -> says v (val_text v).
Proof.
  intros [x|s|s us] H; cbn [says val_text val_fine] in *.
  - apply u64toa_canonical. exact H.
  - apply cstr_id. exact H.
  - exists (u64toa s), (pad6 us). split; [reflexivity|]. split; [apply u64toa_canonical|apply pad6_six; apply H].
    destruct H as [H _]. change (2 ^ 63) with 9223372036854775808 in H. change (2 ^ 64) with 18446744073709551616. lia.
Qed.
Lemma table_fine : forall rd a b d, in_range rd -> c_string (rd_version rd) -> c_string (rd_githash rd) ->
  a < 2 ^ 64 -> b < 2 ^ 64 -> d < 2 ^ 64 -> Forall (fun nv => val_fine (snd nv)) (stat_table rd a b d).
Proof.
  intros rd a b d (H1 & H2 & H3 & H4 & H5 & H6 & H7 & H8 & H9 & H10 & H11) V G A B D.
  assert (P : forall x, x < 2 ^ 31 -> x < 2 ^ 64).
  { intros x Hx. change (2 ^ 31) with 2147483648 in Hx. change (2 ^ 64) with 18446744073709551616. lia. }
  unfold stat_table. cbn zeta. apply Forall_app. split; [|apply Forall_app; split].
  - repeat (apply Forall_cons; [cbn [snd val_fine]; auto|]); [|reflexivity|constructor].
    intro K. cbn in K. repeat (destruct K as [K|K]; [discriminate|]). exact K.
  - destruct (rd_usage rd) as [[[u1 u2] [s1 s2]]|]; [|constructor].
    destruct H11 as (Q1 & Q2 & Q3 & Q4). repeat (apply Forall_cons; [cbn [snd val_fine]; auto|]). constructor.
  - repeat (apply Forall_cons; [cbn [snd val_fine]; auto|]). constructor.
Qed.
(** The names are short, have no space in them and are all different. *)
Lemma table_names : forall rd a b d,
  Forall (fun nv : string * value => ~ In 32 (bs (fst nv)) /\ (length (bs (fst nv)) <= 20)%nat) (stat_table rd a b d).
Proof.
  intros rd a b d.
  assert (F : forall l : list (string * value),
    forallb (fun nv => negb (existsb (N.eqb 32) (bs (fst nv))) && (length (bs (fst nv)) <=? 20)%nat) l = true ->
    Forall (fun nv => ~ In 32 (bs (fst nv)) /\ (length (bs (fst nv)) <= 20)%nat) l).
  { intros l H. apply Forall_forall. intros x Hx. rewrite forallb_forall in H. specialize (H x Hx).
    apply andb_prop in H. destruct H as [Ha Hb]. split; [|apply Nat.leb_le; exact Hb].
    intro K. apply negb_true_iff in Ha. assert (existsb (N.eqb 32) (bs (fst x)) = true) by (apply existsb_exists; exists 32; split; [exact K|reflexivity]).
    congruence. }
  apply F. unfold stat_table. cbn zeta. destruct (rd_usage rd) as [[[u1 u2] [s1 s2]]|]; reflexivity.
Qed.
Theorem C70_names : forall rd a b d, NoDup (List.map fst (stat_table rd a b d)).
Proof.
  intros rd a b d.
  assert (E : List.map fst (stat_table rd a b d) = List.map fst (stat_table
    (mkReadings 0 0 0 [] [] (match rd_usage rd with None => None | Some _ => Some (0, 0, (0, 0)) end) 0 0 0 0 (fun _ => 0) 0 0) 0 0 0)).
  { unfold stat_table. cbn zeta. cbn [rd_usage]. destruct (rd_usage rd) as [[[u1 u2] [s1 s2]]|]; reflexivity. }
  rewrite E. destruct (rd_usage rd) as [p|];
    match goal with |- NoDup ?l => replace l with (nodup string_dec l) by (vm_compute; reflexivity) end;
    apply NoDup_nodup.
Qed.
Lemma s64 : forall s, s < 2 ^ 63 -> s < 2 ^ 64.
Proof. intros s H. change (2 ^ 63) with 9223372036854775808 in H. change (2 ^ 64) with 18446744073709551616. lia. Qed.
Lemma val_length : forall v, val_fine v -> (forall s, v <> Txt s) -> (length (val_text v) <= 27)%nat.
Proof.
  intros [x|s|s us] H T; cbn [val_text val_fine] in *.
  - pose proof (canonical_length _ _ (u64toa_canonical x H) H). lia.
  - destruct (T s). reflexivity.
  - unfold secs. cbn [fst snd]. rewrite !app_length. pose proof (canonical_length _ _ (u64toa_canonical s (s64 s (proj1 H))) (s64 s (proj1 H))). destruct (pad6_six us (proj2 H)) as [L _]. cbn [length]. lia.
Qed.
(** How long a text with a limit for version and githash is. *)
Lemma made_length : forall rd a b d k, in_range rd -> c_string (rd_version rd) -> c_string (rd_githash rd) ->
  a < 2 ^ 64 -> b < 2 ^ 64 -> d < 2 ^ 64 -> (48 <= k)%nat ->
  (length (rd_version rd) + 8 <= k)%nat -> (length (rd_githash rd) + 8 <= k)%nat ->
  Forall (fun kv => (length (made kv) <= k)%nat) (pairs (stat_table rd a b d)).
Proof.
  intros rd a b d k R V G A B D K Lv Lg. pose proof (table_fine rd a b d R V G A B D) as F.
  pose proof (table_names rd a b d) as Nm. unfold pairs. apply Forall_forall. intros kv I. apply in_map_iff in I.
  destruct I as ([n v] & <- & I). unfold made. cbn [fst snd]. rewrite !app_length. change (length [32]) with 1%nat.
  rewrite Forall_forall in F, Nm. specialize (F _ I). specialize (Nm _ I). cbn [fst snd] in *. destruct Nm as [_ Nm].
  destruct v as [x|s|s us]; try (pose proof (val_length _ F ltac:(discriminate)); lia).
  cbn [val_text val_fine] in *. rewrite cstr_id by exact F.
  assert (I' : (n, Txt s) = ("product", Txt (bs "pogocache"))%string \/ (n, Txt s) = ("version"%string, Txt (rd_version rd)) \/ (n, Txt s) = ("githash"%string, Txt (rd_githash rd))).
  { unfold stat_table in I. cbn zeta in I. rewrite !in_app_iff in I. destruct I as [I|[I|I]].
    - cbn [In] in I. repeat (destruct I as [I|I]; [try discriminate I; auto|]). contradiction.
    - destruct (rd_usage rd) as [[[u1 u2] [s1 s2]]|]; cbn [In] in I; repeat (destruct I as [I|I]; [discriminate I|]); contradiction.
    - cbn [In] in I. repeat (destruct I as [I|I]; [discriminate I|]). contradiction. }
  destruct I' as [E|[E|E]]; injection E as -> ->; cbn [bs length]; cbn; lia.
Qed.

(** *** The cache *)
Lemma three_sums : forall o ch (orc : nat -> input) n, reachable (ctx_of o) ch ->
  exists size count total c1 c2 c3,
    Cache.step (ctx_of o) (in_env (orc n)) ch (Size None true) = Ok (c1, RNum size, []) /\
    Cache.step (ctx_of o) (in_env (orc (S n))) c1 (Count None) = Ok (c2, RNum count, []) /\
    Cache.step (ctx_of o) (in_env (orc (S (S n)))) c2 (Total None) = Ok (c3, RNum total, []) /\
    size < 2 ^ 64 /\ count < 2 ^ 64 /\ total < 2 ^ 64 /\
    (forall en, exists c', Cache.step (ctx_of o) en ch (Size None true) = Ok (c', RNum size, [])) /\
    (forall en, exists c', Cache.step (ctx_of o) en ch (Count None) = Ok (c', RNum count, [])) /\
    (forall en, exists c', Cache.step (ctx_of o) en ch (Total None) = Ok (c', RNum total, [])) /\
    reachable (ctx_of o) c3 /\ forall key, same_at (ctx_of o) ch c3 key.
Proof.
  intros o ch orc n R. set (c := ctx_of o) in *.
  pose proof (chosen_lt c (opts_load o) None) as Ch.
  destruct (sum_maps (fun s => sizeop s true) (fun m => u64 (0 + m_entsize m)) ltac:(reflexivity) (chosen c None)) as (h1 & H1).
  destruct (sum_maps countop (fun m => N.of_nat (m_count m)) ltac:(reflexivity) (chosen c None)) as (h2 & H2).
  destruct (sum_maps totalop m_total ltac:(reflexivity) (chosen c None)) as (h3 & H3).
  assert (Fc : forall ch0, List.map s_map (ca_shards ch0) = List.map s_map (ca_shards ch) ->
    Forall (fun i => (i < length (ca_shards ch0))%nat) (chosen c None)).
  { intros ch0 E. apply (f_equal (@List.length _)) in E. rewrite !map_length in E. rewrite E.
    pose proof (reach_cinv o ch R) as I. rewrite (ci_len _ _ I). exact Ch. }
  assert (U : forall f is ch0 acc ch1 r ev, each (add_body f) is acc ch0 = Ok (ch1, r, ev) -> acc < 2 ^ 64 -> r < 2 ^ 64).
  { intros f is. induction is as [|i is IH]; intros ch0 acc ch1 r ev E B; cbn [each] in E; [injection E as _ <- _; exact B|].
    unfold on_shard, add_body at 1 in E. destruct (nth_error (ca_shards ch0) i); [|discriminate].
    destruct (each _ _ _ _) as [[[p q] w]|] eqn:E2; [|discriminate]. injection E as _ <- _.
    eapply IH; [exact E2|]. unfold u64. apply N.mod_lt. discriminate. }
  destruct (H1 0 ch (Fc ch eq_refl)) as (c1 & E1 & M1).
  destruct (H2 0 c1 (Fc c1 M1)) as (c2 & E2 & M2).
  destruct (H3 0 c2 (Fc c2 (eq_trans M2 M1))) as (c3 & E3 & M3).
  assert (S1 : forall en, Cache.step c en ch (Size None true) = Ok (c1, RNum (h1 0 (List.map s_map (ca_shards ch))), [])).
  { intro en. cbn [Cache.step]. unfold cache_sum. rewrite E1. reflexivity. }
  assert (S2 : forall en, Cache.step c en c1 (Count None) = Ok (c2, RNum (h2 0 (List.map s_map (ca_shards ch))), [])).
  { intro en. cbn [Cache.step]. unfold cache_sum. rewrite E2, M1. reflexivity. }
  assert (S3 : forall en, Cache.step c en c2 (Total None) = Ok (c3, RNum (h3 0 (List.map s_map (ca_shards ch))), [])).
  { intro en. cbn [Cache.step]. unfold cache_sum. rewrite E3, M2, M1. reflexivity. }
  exists (h1 0 (List.map s_map (ca_shards ch))), (h2 0 (List.map s_map (ca_shards ch))), (h3 0 (List.map s_map (ca_shards ch))), c1, c2, c3.
  split; [apply S1|]. split; [apply S2|]. split; [apply S3|].
  rewrite M1 in E2. rewrite M2, M1 in E3.
  split; [eapply U; [exact E1|reflexivity]|]. split; [eapply U; [exact E2|reflexivity]|]. split; [eapply U; [exact E3|reflexivity]|].
  split; [intro en; exists c1; apply S1|].
  split. { intro en. destruct (H2 0 ch (Fc ch eq_refl)) as (x & E & _). exists x. cbn [Cache.step]. unfold cache_sum. rewrite E. reflexivity. }
  split. { intro en. destruct (H3 0 ch (Fc ch eq_refl)) as (x & E & _). exists x. cbn [Cache.step]. unfold cache_sum. rewrite E. reflexivity. }
  assert (K : forall en a x r b ev, reachable c a -> Cache.step c en a x = Ok (b, r, ev) ->
    x = Size None true \/ x = Count None \/ x = Total None -> reachable c b /\ forall key, cabs c b key = cabs c a key).
  { intros en a x r b ev Ra E Hx.
    destruct (reachable_step c (opts_load o) (opts_shards o) a en x Ra) as (b' & r' & ev' & E' & Rb & _ & Sp).
    { destruct Hx as [-> |[-> | ->]]; exact Logic.I. }
    rewrite E in E'. injection E' as <- <- <-. split; [exact Rb|]. intro key.
    destruct Hx as [-> |[-> | ->]]; inversion Sp; subst; match goal with H : forall k, w_map _ k = _ |- _ => exact (H key) end. }
  destruct (K _ _ _ _ _ _ R (S1 (in_env (orc n))) ltac:(auto)) as [R1 A1].
  destruct (K _ _ _ _ _ _ R1 (S2 (in_env (orc n))) ltac:(auto)) as [R2 A2].
  destruct (K _ _ _ _ _ _ R2 (S3 (in_env (orc n))) ltac:(auto)) as [R3 A3].
  split; [exact R3|]. intro key. apply (same_at_abs c (opts_load o)); [apply reach_cinv; exact R|apply reach_cinv; exact R3|].
  rewrite A3, A2, A1. reflexivity.
Qed.

(** ** C70 STATS lists every stat with its value *)
(** [size], [count] and [total] are what the cache tells of itself (C17, C16, C67). *)
Definition cache_tells (o : opts) (ch : cache) (size count total : N) : Prop :=
  (forall en, exists ch', Cache.step (ctx_of o) en ch (Size None true) = Ok (ch', RNum size, [])) /\
  (forall en, exists ch', Cache.step (ctx_of o) en ch (Total None) = Ok (ch', RNum total, [])) /\
  exists n, Spec.number (PropScan.holds (ctx_of o) ch) n /\ count = u64 n.

Lemma stats_prun : forall o (orc : nat -> input) n ch pr a0 rd, reachable (ctx_of o) ch ->
  exists size count total c3, cache_tells o ch size count total /\ size < 2 ^ 64 /\ count < 2 ^ 64 /\ total < 2 ^ 64 /\
    prun (ctx_of o) orc n ch (cmdSTATS rd pr [a0]) =
      match stats_all (stat_texts rd size count total) with
      | Bad t => Bad t
      | Ok ls => match stats_end pr ls with Bad t => Bad t | Ok ws => Ok (c3, List.map Out ws, []) end
      end /\ reachable (ctx_of o) c3 /\ forall key, same_at (ctx_of o) ch c3 key.
Proof.
  intros o orc n ch pr a0 rd R.
  destruct (three_sums o ch orc n R) as (size & count & total & c1 & c2 & c3 & E1 & E2 & E3 & B1 & B2 & B3 & P1 & P2 & P3 & R3 & Sm).
  exists size, count, total, c3. split; [|split; [exact B1|split; [exact B2|split; [exact B3|split; [|split; [exact R3|exact Sm]]]]]].
  - split; [exact P1|]. split; [exact P3|].
    destruct (C16_count o ch (in_env (orc n)) None R) as (ch' & m & E & Nm & _).
    destruct (P2 (in_env (orc n))) as (c' & E'). rewrite E in E'. injection E' as _ <-.
    exists m. split; [|reflexivity]. eapply Refine.number_ext; [|exact Nm]. intro k. cbn beta. split; [intros [_ H]; exact H|].
    intro H. split; [exact Logic.I|exact H].
  - unfold cmdSTATS. cbn [prun]. rewrite E1, E2, E3.
    destruct (stats_all _) as [ls|t]; [|reflexivity]. destruct (stats_end pr ls) as [ws|t]; [|reflexivity].
    rewrite (prun_answer (ctx_of o) orc ws). reflexivity.
Qed.

Theorem C70_stats : forall o (orc : nat -> input) n ch pr a0 rd, reachable (ctx_of o) ch -> in_range rd ->
  c_string (rd_version rd) -> c_string (rd_githash rd) ->
  (length (rd_version rd) <= (match pr with MEMCACHE => 496 | _ => 502 end))%nat ->
  (length (rd_githash rd) <= (match pr with MEMCACHE => 496 | _ => 502 end))%nat ->
  exists size count total kvs k ch',
    cache_tells o ch size count total /\
    lists (stat_table rd size count total) kvs /\ canonical k (N.of_nat (length kvs)) /\
    prun (ctx_of o) orc n ch (cmdSTATS rd pr [a0]) = Ok (ch', List.map Out (stats_reply pr kvs k), []) /\
    reachable (ctx_of o) ch' /\ forall key, same_at (ctx_of o) ch ch' key.
Proof.
  intros o orc n ch pr a0 rd R I V G Lv Lg.
  destruct (stats_prun o orc n ch pr a0 rd R) as (size & count & total & c3 & T & B1 & B2 & B3 & E & R3 & Sm).
  exists size, count, total, (pairs (stat_table rd size count total)),
    (u64toa (N.of_nat (length (pairs (stat_table rd size count total))))), c3.
  split; [exact T|]. split.
  { unfold lists, pairs. pose proof (table_fine rd size count total I V G B1 B2 B3) as F. clear - F.
    induction F; cbn [List.map]; constructor; [|assumption]. cbn [fst snd]. split; [reflexivity|apply says_text; assumption]. }
  split.
  { apply u64toa_canonical. unfold pairs. rewrite map_length.
    assert (L : (length (stat_table rd size count total) <= 60)%nat).
    { unfold stat_table. cbn zeta. rewrite !app_length. destruct (rd_usage rd) as [[[u1 u2] [s1 s2]]|]; cbn [length]; lia. }
    change (2 ^ 64) with 18446744073709551616. lia. }
  split; [|split; [exact R3|exact Sm]].
  rewrite E, texts_made. rewrite all_ok.
  - rewrite end_ok; [reflexivity| |].
    + unfold pairs. pose proof (table_names rd size count total) as Nm. clear - Nm. induction Nm; cbn [List.map]; constructor; [apply H|assumption].
    + intros ->. apply made_length; try assumption; cbn; lia.
  - assert (F : Forall (fun kv => (length (made kv) <= 510)%nat) (pairs (stat_table rd size count total))).
    { apply made_length; try assumption; try lia; destruct pr; lia. }
    clear - F. induction F; cbn [List.map]; constructor; assumption.
Qed.

(** A version or hash that is too long is read past the end of the buffer. *)
Theorem C70_trouble : forall o (orc : nat -> input) n ch pr a0 rd, reachable (ctx_of o) ch ->
  c_string (rd_version rd) -> c_string (rd_githash rd) ->
  (length (rd_version rd) > (match pr with MEMCACHE => 497 | _ => 503 end))%nat \/
  (length (rd_githash rd) > (match pr with MEMCACHE => 497 | _ => 503 end))%nat ->
  prun (ctx_of o) orc n ch (cmdSTATS rd pr [a0]) = Bad OutOfBounds.
Proof.
  intros o orc n ch pr a0 rd R V G L.
  destruct (stats_prun o orc n ch pr a0 rd R) as (size & count & total & c3 & T & B1 & B2 & B3 & E & R3 & Sm).
  rewrite E. clear E.
  assert (W : forall k, (length (rd_version rd) > k)%nat \/ (length (rd_githash rd) > k)%nat ->
    Exists (fun t => (k + 8 < length t)%nat) (stat_texts rd size count total)).
  { intros k Hk. apply Exists_exists. destruct Hk as [Hk|Hk].
    - exists (textstat "version" (rd_version rd)). split.
      + unfold stat_texts. apply in_app_iff. left. cbn [In]. tauto.
      + unfold textstat. rewrite cstr_id by exact V. rewrite !app_length. cbn; lia.
    - exists (textstat "githash" (rd_githash rd)). split.
      + unfold stat_texts. apply in_app_iff. left. cbn [In]. tauto.
      + unfold textstat. rewrite cstr_id by exact G. rewrite !app_length. cbn; lia. }
  assert (D : forall ts, (exists ls, stats_all ts = Ok ls /\ ls = List.map (firstn 510) ts) \/ stats_all ts = Bad OutOfBounds).
  { induction ts as [|t ts IH]; [left; exists []; split; reflexivity|]. cbn [stats_all List.map]. unfold stats_printf. cbn zeta.
    destruct (Nat.ltb_spec 512 (length t + 1)); [right; reflexivity|].
    destruct IH as [(ls & -> & ->)| ->]; [left; eexists; split; reflexivity|right; reflexivity]. }
  destruct pr; try (rewrite all_bad by (apply (W 503%nat); exact L); reflexivity).
  destruct (D (stat_texts rd size count total)) as [(ls & -> & ->)| ->]; [|reflexivity].
  unfold stats_end. cbn [is_pg is_mc by_proto]. rewrite mc_bad; [reflexivity|].
  apply Exists_exists. specialize (W 497%nat L). apply Exists_exists in W. destruct W as (t & It & Lt).
  exists (firstn 510 t). split; [apply in_map; exact It|]. rewrite firstn_length. lia.
Qed.

(** With anything after its name STATS is refused and nothing happens. *)
Theorem C70_args : forall c (orc : nat -> input) n ch pr a0 a1 rest rd,
  prun c orc n ch (cmdSTATS rd pr (a0 :: a1 :: rest)) = Ok (ch, [Out (WError (bs "ERR syntax error"))], []).
Proof. reflexivity. Qed.

(** ** A case *)
Definition case_rd : readings := mkReadings 4711 86400 1763340000 (bs "1.3.1") (bs "a1b2c3d")
  (Some (12, 34, (5, 678900))) 1024 3 17 0 (fun c => match c with CStat (SK KGet) => 250 | CFlush => 1 | _ => 0 end) 4 5242880.
Example C70_case :
  reachable demo_c demo_ch /\ in_range case_rd /\ c_string (rd_version case_rd) /\ c_string (rd_githash case_rd) /\
  exists b, List.nth_error (snd (fst b)) 7 = Some (Out (WRaw (bs "STAT rusage_user 12.000034" ++ [13; 10]))) /\
    List.nth_error (snd (fst b)) 13 = Some (Out (WRaw (bs "STAT cmd_get 250" ++ [13; 10]))) /\
    List.length (snd (fst b)) = 37%nat /\
    prun demo_c demo_orc 0 demo_ch (cmdSTATS case_rd MEMCACHE [bs "stats"]) = Ok b.
Proof.
  split; [exact demo_reachable|]. split; [unfold in_range; repeat split; try reflexivity; intros [s| | | |]; try reflexivity; destruct s; try reflexivity; destruct k; reflexivity|].
  split; [intro K; cbn in K; repeat (destruct K as [K|K]; [discriminate|]); exact K|].
  split; [intro K; cbn in K; repeat (destruct K as [K|K]; [discriminate|]); exact K|].
  destruct (prun demo_c demo_orc 0 demo_ch (cmdSTATS case_rd MEMCACHE [bs "stats"])) as [b|t] eqn:E.
  - exists b. split; [|split; [|split; [|reflexivity]]].
    + assert (Q : match prun demo_c demo_orc 0 demo_ch (cmdSTATS case_rd MEMCACHE [bs "stats"]) with Ok b => nth_error (snd (fst b)) 7 | Bad _ => None end =
        Some (Out (WRaw (bs "STAT rusage_user 12.000034" ++ [13; 10])))) by (vm_compute; reflexivity).
      rewrite E in Q. exact Q.
    + assert (Q : match prun demo_c demo_orc 0 demo_ch (cmdSTATS case_rd MEMCACHE [bs "stats"]) with Ok b => nth_error (snd (fst b)) 13 | Bad _ => None end =
        Some (Out (WRaw (bs "STAT cmd_get 250" ++ [13; 10])))) by (vm_compute; reflexivity).
      rewrite E in Q. exact Q.
    + assert (Q : match prun demo_c demo_orc 0 demo_ch (cmdSTATS case_rd MEMCACHE [bs "stats"]) with Ok b => List.length (snd (fst b)) | Bad _ => 0%nat end = 37%nat) by (vm_compute; reflexivity).
      rewrite E in Q. exact Q.
  - assert (Q : match prun demo_c demo_orc 0 demo_ch (cmdSTATS case_rd MEMCACHE [bs "stats"]) with Ok b => true | Bad _ => false end = true) by (vm_compute; reflexivity).
    rewrite E in Q. discriminate Q.
Qed.
