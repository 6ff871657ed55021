(** C02-C10: stores, loads and deletes of single items, stated through what
    later look-ups see. *)
From Verif Require Import Base Types Clamp Entry EntryProofs Hash Map MapProofs MapInv Shard
  Spec Trace ShardProofs ScanProofs LoopProofs Cache Refine Reach Observe PropCache.
Local Open Scope N_scope.

(** Memory is available for the call, or eviction is allowed. *)
Definition plenty (o : opts) (en : env) (key : bytes) (so : store_opts) : Prop :=
  al_table (en_mem en (route (ctx_of o) key)) = true /\ so_lowmem so && op_noevict o = false.

(** The expiration asked for by the options of a store at time [now], 0 for none. *)
Definition asked (so : store_opts) (now : Z) : Z :=
  if (so_expires so >? 0)%Z then so_expires so
  else if (so_ttl so >? 0)%Z then norm (clamp64 (now + so_ttl so)) else 0%Z.

Lemma beq_neq : forall a b, a <> b -> beq a b = false.
Proof. intros a b H. destruct (beq a b) eqn:E; [|reflexivity]. apply beq_eq in E. contradiction. Qed.

(** What a successful store leaves. *)
Lemma sp_store_new : forall uc m cas key val so now m' cas' st sh,
  sp_store uc m cas key val so now = (m', cas', st, sh) -> st = INSERTED \/ st = REPLACED ->
  m' = aset m key (Some (mkItem val (sp_expires m key so now) (so_flags so) (token uc cas') now)).
Proof.
  intros uc m cas key val so now m' cas' st sh H Hs. unfold sp_store in H.
  repeat match type of H with context [match ?x with _ => _ end] => destruct x end;
    injection H as <- <- <- <-; destruct Hs; try discriminate; reflexivity.
Qed.

Lemma store_new_item : forall uc ne at_ same m cas key val so now m' cas' st sh,
  sp_store_step uc ne at_ same m cas key val so now m' cas' st sh ->
  st = INSERTED \/ st = REPLACED ->
  m' key = Some (mkItem val (sp_expires m key so now) (so_flags so) (token uc cas') now).
Proof.
  intros uc ne at_ same m cas key val so now m' cas' st sh H Hs. inversion H; subst.
  - rewrite (sp_store_new _ _ _ _ _ _ _ _ _ _ _ H0 Hs). unfold aset. rewrite beq_refl. reflexivity.
  - rewrite (sp_store_new _ _ _ _ _ _ _ _ _ _ _ H0 Hs). unfold aset. rewrite (beq_neq victim key) by assumption.
    rewrite beq_refl. reflexivity.
  - destruct Hs; discriminate.
  - destruct Hs; discriminate.
Qed.

(** ** C02 Store then load returns what was stored *)
Theorem C02_store_load : forall o ch en key val so time ch' st sh evs,
  reachable (ctx_of o) ch ->
  call_ok (ctx_of o) en (cabs (ctx_of o) ch) (Store key val so time) ->
  step (ctx_of o) en ch (Store key val so time) = Ok (ch', RStatus st sh, evs) ->
  st = INSERTED \/ st = REPLACED ->
  exists exp tok,
    (so_keepttl so = false -> exp = asked so (resolve_now time (en_clock en))) /\
    (forall now, alive_at exp now = true ->
       sees (ctx_of o) ch' key now (Some (mkView val exp (so_flags so) tok))) /\
    (forall now, alive_at exp now = false -> sees (ctx_of o) ch' key now None).
Proof.
  intros o ch en key val so time ch' st sh evs R K E Hs.
  destruct (made_store o ch en key val so time ch' _ evs R K E) as (R' & st1 & sh1 & m' & cas' & Er & S & A & _).
  injection Er as <- <-. apply store_new_item in S; [|assumption]. rewrite <- A in S.
  set (it := mkItem _ _ _ _ _) in S. exists (i_exp it), (i_cas it).
  split; [|split].
  - intro Hk. cbn [it i_exp]. unfold sp_expires, asked. rewrite Hk. reflexivity.
  - intros now Ha. apply (sees_iff _ (opts_load o)); [apply reach_cinv; assumption|].
    unfold live_item. rewrite S. rewrite Ha. reflexivity.
  - intros now Ha. apply (sees_iff _ (opts_load o)); [apply reach_cinv; assumption|].
    unfold live_item. rewrite S. rewrite Ha. reflexivity.
Qed.

Example C02_case : exists ch' evs,
  reachable demo_c demo_ch /\
  call_ok demo_c (plenty_env 110) (cabs demo_c demo_ch) (Store [107; 49] [1; 2; 3] (ttl_store 7) 0) /\
  step demo_c (plenty_env 110) demo_ch (Store [107; 49] [1; 2; 3] (ttl_store 7) 0)
    = Ok (ch', RStatus REPLACED [], evs) /\
  asked (ttl_store 7) 110 = 117%Z.
Proof.
  eexists _, _. split; [exact demo_reachable|]. split; [|split; [vm_compute; reflexivity|reflexivity]].
  apply demo_store_ok; [small_store|reflexivity].
Qed.

(** ** C03 Other keys are not disturbed *)
Definition names (x : call) (key : bytes) : Prop :=
  match x with
  | Store k _ _ _ | Load k _ _ | Delete k _ _ => k = key
  | _ => False
  end.

Theorem C03_frame : forall o ch en x key ch' r evs,
  reachable (ctx_of o) ch -> call_ok (ctx_of o) en (cabs (ctx_of o) ch) x ->
  names x key -> (forall k v so t, x = Store k v so t -> so_lowmem so = false) ->
  step (ctx_of o) en ch x = Ok (ch', r, evs) ->
  forall k, k <> key -> same_at (ctx_of o) ch ch' k.
Proof.
  intros o ch en x key ch' r evs R K Nm Lm E k Hk.
  destruct (made o ch en x ch' r evs R K E) as (R' & _ & _).
  apply (same_at_abs _ (opts_load o)); [apply reach_cinv; assumption|apply reach_cinv; assumption|].
  assert (Hb : beq key k = false) by (apply beq_neq; congruence).
  destruct x; cbn [names] in Nm; try contradiction; subst.
  - destruct (made_store o ch en _ _ _ _ ch' _ evs R K E) as (_ & st1 & sh1 & m' & cas' & _ & S & A & _).
    rewrite A. specialize (Lm _ _ _ _ eq_refl). inversion S; subst.
    + unfold sp_store in H.
      repeat match type of H with context [match ?x with _ => _ end] => destruct x end;
        injection H as <- _ _ _; unfold aset; rewrite ?Hb; reflexivity.
    + congruence.
    + reflexivity.
    + reflexivity.
  - destruct (made_load o ch en _ _ _ ch' _ evs R K E) as (_ & st1 & sh1 & m' & cas' & _ & S & A & _).
    rewrite A. unfold sp_load in S.
      repeat match type of S with context [match ?x with _ => _ end] => destruct x end;
        injection S as <- _ _ _; unfold aset; rewrite ?Hb; reflexivity.
  - destruct (made_delete o ch en _ _ _ ch' _ evs R E) as (_ & st1 & sh1 & m' & _ & S & A & _).
    rewrite A. unfold sp_delete in S.
      repeat match type of S with context [match ?x with _ => _ end] => destruct x end;
        injection S as <- _ _; unfold aset; rewrite ?Hb; reflexivity.
Qed.

(** A low-memory store removes at most one other item. *)
Theorem C03_frame_lowmem : forall o ch en key val so time ch' r evs,
  reachable (ctx_of o) ch ->
  call_ok (ctx_of o) en (cabs (ctx_of o) ch) (Store key val so time) ->
  step (ctx_of o) en ch (Store key val so time) = Ok (ch', r, evs) ->
  exists victim, (forall k, k <> key -> k <> victim -> same_at (ctx_of o) ch ch' k) /\
    (victim <> key -> same_at (ctx_of o) ch ch' victim \/
                      forall now, sees (ctx_of o) ch' victim now None).
Proof.
  intros o ch en key val so time ch' r evs R K E.
  destruct (made_store o ch en _ _ _ _ ch' _ evs R K E) as (R' & st1 & sh1 & m' & cas' & _ & S & A & _).
  assert (I : cinv (ctx_of o) ch) by (apply reach_cinv; assumption).
  assert (I' : cinv (ctx_of o) ch') by (apply reach_cinv; assumption).
  assert (Q : forall m cas m1 cas1 st sh k, sp_store (c_usecas (ctx_of o)) m cas key val so (resolve_now time (en_clock en)) = (m1, cas1, st, sh) ->
    k <> key -> m1 k = m k).
  { intros m cas0 m1 cas1 st sh k X Hk. assert (Hb : beq key k = false) by (apply beq_neq; congruence).
    unfold sp_store in X.
    repeat match type of X with context [match ?x with _ => _ end] => destruct x end;
        injection X as <- _ _ _; unfold aset; rewrite ?Hb; reflexivity. }
  assert (Same : forall k, m' k = cabs (ctx_of o) ch k -> same_at (ctx_of o) ch ch' k).
  { intros k X. apply (same_at_abs _ (opts_load o)); try assumption. rewrite A. exact X. }
  inversion S; subst.
  - exists key. split; [|congruence]. intros k Hk _. apply Same. eapply Q; eassumption.
  - exists victim. split.
    + intros k Hk Hv. apply Same. unfold aset. rewrite (beq_neq victim k) by congruence. eapply Q; eassumption.
    + intros _. right. intro now. apply (sees_iff _ (opts_load o)); [assumption|].
      unfold live_item. rewrite A. unfold aset. rewrite beq_refl. reflexivity.
  - exists key. split; [|congruence]. intros k Hk _. apply Same. reflexivity.
  - exists key. split; [|congruence]. intros k Hk _. apply Same. reflexivity.
Qed.

(** A delete of one key while another is live. *)
Example C03_case : reachable demo_c demo_ch /\
  call_ok demo_c (plenty_env 106) (cabs demo_c demo_ch) (Delete [107; 51] None 0) /\
  (exists ch' evs, step demo_c (plenty_env 106) demo_ch (Delete [107; 51] None 0) = Ok (ch', RStatus DELETED [], evs)) /\
  exists w, sees demo_c demo_ch [107; 49] 106 (Some w).
Proof.
  split; [exact demo_reachable|]. split; [exact Logic.I|]. split.
  - eexists _, _. vm_compute. reflexivity.
  - eexists. apply demo_sees_eq. vm_compute. reflexivity.
Qed.

(** ** C04 Expired items are never presented *)
Theorem C04_never_expired : forall o ch en x ch' r evs,
  reachable (ctx_of o) ch -> call_ok (ctx_of o) en (cabs (ctx_of o) ch) x ->
  step (ctx_of o) en ch x = Ok (ch', r, evs) ->
  forall k v, In (k, v) (presented r) -> v_exp v = 0%Z \/ (call_time en x < v_exp v)%Z.
Proof.
  intros o ch en x ch' r evs R K E k v Hin.
  destruct (made o ch en x ch' r evs R K E) as (_ & _ & S).
  assert (Q : forall m key now it, live_item m key now = Some it ->
    v_exp (shown_of it) = 0%Z \/ (now < v_exp (shown_of it))%Z).
  { intros m key now it L. unfold live_item in L. destruct (m key) as [i|]; [|discriminate].
    destruct (alive_at (i_exp i) now) eqn:Al; [|discriminate]. injection L as <-. cbn.
    unfold alive_at in Al. apply orb_true_iff in Al. destruct Al as [Al|Al];
      [left; apply Z.eqb_eq; assumption|right; apply Z.ltb_lt; assumption]. }
  inversion S; subst; cbn [presented call_time] in *; try (destruct Hin; fail).
  - assert (X : forall m cas m1 cas1 st1 sh1, sp_store (c_usecas (ctx_of o)) m cas key val o0 (resolve_now time (en_clock en)) = (m1, cas1, st1, sh1) ->
      In (k, v) sh1 -> v_exp v = 0%Z \/ (resolve_now time (en_clock en) < v_exp v)%Z).
    { intros m cas0 m1 cas1 st1 sh1 Hs Hi. unfold sp_store in Hs.
      destruct (live_item m key (resolve_now time (en_clock en))) as [it|] eqn:L.
      - apply Q in L.
        repeat match type of Hs with context [match ?x with _ => _ end] => destruct x end;
          injection Hs as _ _ _ <-; first [solve [destruct Hi] | destruct Hi as [Hi|[]]; injection Hi as <- <-; exact L].
      - repeat match type of Hs with context [match ?x with _ => _ end] => destruct x end;
          injection Hs as _ _ _ <-; destruct Hi. }
    inversion H; subst; try (destruct Hin; fail); eapply X; eassumption.
  - unfold sp_load in H. cbn [world_of w_map w_cas] in H.
    destruct (live_item (cabs (ctx_of o) ch) key (resolve_now time (en_clock en))) as [it|] eqn:L.
    + apply Q in L.
      repeat match type of H with context [match ?x with _ => _ end] => destruct x end;
          injection H as _ _ _ <-; first [solve [destruct Hin] | destruct Hin as [Hi|[]]; injection Hi as <- <-; exact L].
    + injection H as _ _ _ <-. destruct Hin.
  - unfold sp_delete in H. cbn [world_of w_map w_cas] in H.
    destruct (live_item (cabs (ctx_of o) ch) key (resolve_now time (en_clock en))) as [it|] eqn:L.
    + apply Q in L.
      repeat match type of H with context [match ?x with _ => _ end] => destruct x end;
          injection H as _ _ <-; first [solve [destruct Hin] | destruct Hin as [Hi|[]]; injection Hi as <- <-; exact L].
    + injection H as _ _ <-. destruct Hin.
  - destruct (it_live _ _ _ _ _ _ _ _ _ _ H k v Hin) as (_ & it & L & ->). eapply Q. exact L.
  - destruct r0 as [[[id k0] v0]|]; [|destruct Hin]. destruct Hin as [Hin|[]]. injection Hin as -> ->.
    destruct (H id k v eq_refl) as (it & L & ->). eapply Q. exact L.
Qed.

(** A store treats an expired item as absent: whatever options and callback it
    is given, it is never presented and the result is the one for an absent
    key. *)
Theorem C04_store_absent : forall o ch en key val so time ch' r evs,
  reachable (ctx_of o) ch ->
  call_ok (ctx_of o) en (cabs (ctx_of o) ch) (Store key val so time) ->
  plenty o en key so ->
  sees (ctx_of o) ch key (resolve_now time (en_clock en)) None ->
  step (ctx_of o) en ch (Store key val so time) = Ok (ch', r, evs) ->
  r = RStatus (if so_xx so || so_casop so then NOTFOUND else INSERTED) [].
Proof.
  intros o ch en key val so time ch' r evs R K [P1 P2] Se E.
  destruct (made_store o ch en _ _ _ _ ch' _ evs R K E) as (R' & st1 & sh1 & m' & cas' & -> & S & A & _).
  apply (sees_iff _ (opts_load o)) in Se; [|apply reach_cinv; assumption].
  destruct (live_item (cabs (ctx_of o) ch) key (resolve_now time (en_clock en))) eqn:L; [discriminate|].
  assert (Q : forall m1 cas1 st2 sh2, sp_store (c_usecas (ctx_of o)) (cabs (ctx_of o) ch) (ccas ch (route (ctx_of o) key)) key val so
     (resolve_now time (en_clock en)) = (m1, cas1, st2, sh2) -> st2 = (if so_xx so || so_casop so then NOTFOUND else INSERTED) /\ sh2 = []).
  { intros m1 cas1 st2 sh2 X. unfold sp_store in X. rewrite L in X.
    destruct (so_xx so || so_casop so); injection X as _ _ <- <-; auto. }
  inversion S; subst.
  - destruct (Q _ _ _ _ H) as [-> ->]. reflexivity.
  - destruct (Q _ _ _ _ H) as [<- ->]. reflexivity.
  - cbn in P2. change (c_noevict (ctx_of o)) with (op_noevict o) in *. rewrite H, H0 in P2. discriminate.
  - congruence.
Qed.

Example C04_case : (* at time 1000 the item k1 of demo_ch has expired *)
  sees demo_c demo_ch [107; 49] 1000 None /\
  sees demo_c demo_ch [107; 49] 110 (Some (mkView [119] 123 5 4)) /\
  exists ch' evs, step demo_c (plenty_env 1000) demo_ch (Store [107; 49] [1] plain_store 0)
    = Ok (ch', RStatus INSERTED [], evs).
Proof.
  split; [|split].
  - apply demo_sees_eq. vm_compute. reflexivity.
  - apply demo_sees_eq. vm_compute. reflexivity.
  - eexists _, _. vm_compute. reflexivity.
Qed.

(** ** C05 Unexpired items are never lost *)

(** The call is not one of those that may end or change the item under [key]:
    a store to it (unless it only wants to create, and the key exists), a
    low-memory store to its shard, a load whose callback updates it, a delete of
    it that is not cancelled, an iteration that asks to delete it, a clear of
    its shard. *)
Definition harmless (o : opts) (key : bytes) (x : call) : Prop :=
  match x with
  | Store k _ so _ => (k = key -> so_nx so = true /\ so_casop so = false) /\
      (so_lowmem so = true -> k <> key -> route (ctx_of o) k <> route (ctx_of o) key)
  | Load k lo _ => k = key -> forall f w, lo_entry lo = Some f -> f w = None
  | Delete k cb _ => k = key -> exists f, cb = Some f /\ forall w, f w = false
  | Iter cb _ _ => forall f h w, cb = Some f -> fst (f h key w) = false
  | Clear one _ _ => exists i, one = Some i /\ i <> Z.of_nat (route (ctx_of o) key)
  | _ => True
  end.

Lemma iter_run_asked : forall S (f : S -> bytes -> view -> S * iter_action) st sh st' del stop,
  iter_run f st sh st' del stop -> forall k, In k del -> exists st0 w, fst (snd (f st0 k w)) = true.
Proof.
  intros S f st sh st' del stop H. induction H; intros x Hx.
  - destruct Hx.
  - destruct del; [destruct Hx as [<-|[]]|destruct Hx]. exists st, w. rewrite H. reflexivity.
  - apply in_app_or in Hx. destruct Hx as [Hx|Hx]; [|auto].
    destruct del; [destruct Hx as [<-|[]]|destruct Hx]. exists st, w. rewrite H. reflexivity.
Qed.

Lemma harmless_step : forall o en w x w' r key it,
  spec_step (op_usecas o) (op_noevict o) (route (ctx_of o)) en w x w' r ->
  harmless o key x -> w_map w key = Some it -> alive_at (i_exp it) (call_time en x) = true ->
  exists it', w_map w' key = Some it' /\ shown_of it' = shown_of it.
Proof.
  intros o en w x w' r key it S Hh M Al.
  assert (L : live_item (w_map w) key (call_time en x) = Some it) by (unfold live_item; rewrite M, Al; reflexivity).
  inversion S; subst; cbn [harmless call_time] in *.
  - rewrite H0. destruct Hh as [Hn Hl].
    assert (Q : forall m1 cas1 st1 sh1, sp_store (op_usecas o) (w_map w) (w_cas w (route (ctx_of o) key0)) key0 val o0
       (resolve_now time (en_clock en)) = (m1, cas1, st1, sh1) -> m1 key = Some it).
    { intros m1 cas1 st1 sh1 X. unfold sp_store in X. destruct (beq key0 key) eqn:B.
      - apply beq_eq in B. subst key0. destruct (Hn eq_refl) as [N1 N2]. rewrite L, N1, N2 in X.
        injection X as <- _ _ _. assumption.
      - repeat match type of X with context [match ?x with _ => _ end] => destruct x end;
          injection X as <- _ _ _; unfold aset; rewrite ?B; assumption. }
    exists it. split; [|reflexivity]. inversion H; subst.
    + eapply Q; eassumption.
    + unfold aset. destruct (beq victim key) eqn:B; [|eapply Q; eassumption].
      apply beq_eq in B. subst victim. exfalso. apply (Hl H3); [congruence|auto].
    + assumption.
    + assumption.
  - rewrite H0. unfold sp_load in H. destruct (beq key0 key) eqn:B.
    + apply beq_eq in B. subst key0. rewrite L in H. specialize (Hh eq_refl).
      destruct (lo_entry o0) as [f|]; [rewrite (Hh f (shown_of it) eq_refl) in H|];
        injection H as <- _ _ _; unfold aset; rewrite beq_refl; eexists; (split; [reflexivity|]); destruct (lo_notouch o0); reflexivity.
    + exists it. split; [|reflexivity].
      repeat match type of H with context [match ?x with _ => _ end] => destruct x end;
          injection H as <- _ _ _; unfold aset; rewrite ?B; assumption.
  - rewrite H0. unfold sp_delete in H. exists it. split; [|reflexivity]. destruct (beq key0 key) eqn:B.
    + apply beq_eq in B. subst key0. rewrite L in H. destruct (Hh eq_refl) as (f & -> & Hf). rewrite Hf in H.
      injection H as <- _ _. assumption.
    + repeat match type of H with context [match ?x with _ => _ end] => destruct x end;
          injection H as <- _ _; unfold aset; rewrite ?B; assumption.
  - exists it. split; [|reflexivity].
    assert (Nd : ~ In key deleted).
    { intro X. pose proof (it_run _ _ _ _ _ _ _ _ _ _ H) as Rn. destruct cb as [f|].
      - destruct Rn as (stopped & Rn & _). destruct (iter_run_asked _ _ _ _ _ _ _ Rn key X) as (h0 & w0 & Y).
        cbn in Y. rewrite (Hh f h0 w0 eq_refl) in Y. discriminate.
      - destruct Rn as (_ & -> & _). destruct X. }
    destruct (it_kept _ _ _ _ _ _ _ _ _ _ H key Nd) as [X|(_ & X & _)]; [congruence|].
    rewrite L in X. discriminate.
  - exists it. split; [|reflexivity]. destruct (H1 key) as [X|[X _]]; [congruence|]. rewrite L in X. discriminate.
  - exists it. split; [|reflexivity]. destruct (H key) as [X1 X2].
    assert (sel (route (ctx_of o)) one key \/ ~ sel (route (ctx_of o)) one key) as [X|X].
    { unfold sel. destruct one as [z|]; [|auto]. destruct (Z.eq_dec (Z.of_nat (route (ctx_of o) key)) z); auto. }
    + rewrite (X1 X). assumption.
    + rewrite (X2 X). assumption.
  - exists it. split; [|reflexivity]. destruct (H key) as [_ X2]. destruct Hh as (i & -> & Hi). rewrite X2; [assumption|].
    cbn. congruence.
  - exists it. split; [|reflexivity]. rewrite H. assumption.
  - exists it. split; [|reflexivity]. rewrite H. assumption.
  - exists it. split; [|reflexivity]. rewrite H. assumption.
  - exists it. split; [|reflexivity]. rewrite H. assumption.
Qed.

Theorem C05_retention : forall o h ch key t v ch' rs evs,
  reachable (ctx_of o) ch -> sensible (ctx_of o) ch h ->
  sees (ctx_of o) ch key t (Some v) ->
  Forall (fun p => harmless o key (snd p) /\
                   alive_at (v_exp v) (call_time (fst p) (snd p)) = true) h ->
  run (ctx_of o) ch h = Ok (ch', rs, evs) ->
  forall now, alive_at (v_exp v) now = true -> sees (ctx_of o) ch' key now (Some v).
Proof.
  intros o h ch key t v ch' rs evs R S Se F E now Al.
  assert (exists it, cabs (ctx_of o) ch key = Some it /\ shown_of it = v) as (it & M & Sh).
  { apply (sees_iff _ (opts_load o)) in Se; [|apply reach_cinv; assumption].
    unfold live_item in Se. destruct (cabs (ctx_of o) ch key) as [it|]; [|discriminate].
    destruct (alive_at (i_exp it) t); [|discriminate]. injection Se as ->. eauto. }
  clear Se. revert ch it R S M Sh ch' rs evs E. induction h as [|[en x] h IH]; intros ch it R S M Sh ch' rs evs E.
  - cbn in E. injection E as <- <- <-. apply (sees_iff _ (opts_load o)); [apply reach_cinv; assumption|].
    unfold live_item. rewrite M. rewrite <- Sh in Al. cbn in Al. rewrite Al. cbn. congruence.
  - inversion F as [|? ? [F1 F2] F3]; subst. cbn [fst snd] in *. cbn [run] in E. cbn [sensible] in S. destruct S as [S1 S2].
    destruct (step (ctx_of o) en ch x) as [[[ch1 r] ev1]|] eqn:E1; [|discriminate].
    destruct (run (ctx_of o) ch1 h) as [[[ch2 rs2] ev2]|] eqn:E2; [|discriminate]. injection E as <- <- <-.
    destruct (made o ch en x ch1 r ev1 R S1 E1) as (R1 & _ & Sp).
    destruct (harmless_step o en _ x _ r key it Sp F1 M F2) as (it' & M' & Sh').
    apply (IH F3 ch1 it' R1 (S2 _ _ _ eq_refl) M' Sh' ch2 rs2 ev2 E2).
Qed.

Example C05_case : exists ch' rs evs h,
  h = [ (plenty_env 110, Store [107; 57] [1] plain_store 0); (plenty_env 111, Sweep None 0);
        (plenty_env 112, Iter (Some (fun _ _ _ => (false, false))) None 0);
        (plenty_env 112, Store [107; 49] [7] (mkStoreOpts 0 0 0 0 false false true false false None) 0);
        (plenty_env 113, Delete [107; 57] None 0) ] /\
  sees demo_c demo_ch [107; 49] 110 (Some (mkView [119] 123 5 4)) /\
  Forall (fun p => harmless demo_opts [107; 49] (snd p) /\
                   alive_at 123 (call_time (fst p) (snd p)) = true) h /\
  run demo_c demo_ch h = Ok (ch', rs, evs).
Proof.
  eexists _, _, _, _. split; [reflexivity|]. split; [apply demo_sees_eq; vm_compute; reflexivity|].
  split; [|vm_compute; reflexivity].
  repeat apply Forall_cons; try apply Forall_nil; (split; [|reflexivity]); cbn [snd harmless].
  - split; intro H; discriminate H.
  - exact Logic.I.
  - intros f h w E. injection E as <-. reflexivity.
  - split; [intros _; split; reflexivity|intro H; discriminate H].
  - intro H; discriminate H.
Qed.

(** ** C06 NX *)
Definition nx_store (so : store_opts) : Prop := so_nx so = true /\ so_casop so = false.

Theorem C06_nx_live : forall o ch en key val so time v ch' r evs,
  reachable (ctx_of o) ch ->
  call_ok (ctx_of o) en (cabs (ctx_of o) ch) (Store key val so time) ->
  nx_store so -> sees (ctx_of o) ch key (resolve_now time (en_clock en)) (Some v) ->
  step (ctx_of o) en ch (Store key val so time) = Ok (ch', r, evs) ->
  (plenty o en key so -> r = RStatus FOUND []) /\
  (r = RStatus FOUND [] \/ r = RStatus NOMEM []) /\
  forall k, same_at (ctx_of o) ch ch' k.
Proof.
  intros o ch en key val so time v ch' r evs R K [Nx Nc] Se E.
  destruct (made_store o ch en _ _ _ _ ch' _ evs R K E) as (R' & st1 & sh1 & m' & cas' & -> & S & A & _).
  assert (I : cinv (ctx_of o) ch) by (apply reach_cinv; assumption).
  assert (I' : cinv (ctx_of o) ch') by (apply reach_cinv; assumption).
  apply (sees_iff _ (opts_load o)) in Se; [|assumption].
  destruct (live_item (cabs (ctx_of o) ch) key (resolve_now time (en_clock en))) as [it|] eqn:L; [|discriminate].
  assert (Q : forall m1 cas1 st2 sh2, sp_store (c_usecas (ctx_of o)) (cabs (ctx_of o) ch) (ccas ch (route (ctx_of o) key)) key val so
     (resolve_now time (en_clock en)) = (m1, cas1, st2, sh2) -> m1 = cabs (ctx_of o) ch /\ st2 = FOUND /\ sh2 = []).
  { intros m1 cas1 st2 sh2 X. unfold sp_store in X. rewrite L, Nx, Nc in X. injection X as <- _ <- <-. auto. }
  assert (Same : (forall k, m' k = cabs (ctx_of o) ch k) -> forall k, same_at (ctx_of o) ch ch' k).
  { intros X k. apply (same_at_abs _ (opts_load o)); try assumption. rewrite A. apply X. }
  inversion S; subst.
  - destruct (Q _ _ _ _ H) as (-> & -> & ->). split; [reflexivity|]. split; [left; reflexivity|]. auto.
  - destruct (Q _ _ _ _ H) as (_ & X & _). discriminate.
  - split; [|split; [right; reflexivity|auto]]. intros [_ P2].
    change (c_noevict (ctx_of o)) with (op_noevict o) in *. rewrite H, H0 in P2. discriminate.
  - split; [|split; [right; reflexivity|auto]]. intros [P1 _]. congruence.
Qed.

(** Without a live item it stores, like C02 says. *)
Theorem C06_nx_absent : forall o ch en key val so time ch' r evs,
  reachable (ctx_of o) ch ->
  call_ok (ctx_of o) en (cabs (ctx_of o) ch) (Store key val so time) ->
  nx_store so -> so_xx so = false -> plenty o en key so ->
  sees (ctx_of o) ch key (resolve_now time (en_clock en)) None ->
  step (ctx_of o) en ch (Store key val so time) = Ok (ch', r, evs) ->
  r = RStatus INSERTED [].
Proof.
  intros o ch en key val so time ch' r evs R K [Nx Nc] Xx P Se E.
  pose proof (C04_store_absent o ch en key val so time ch' r evs R K P Se E) as H.
  rewrite Xx, Nc in H. exact H.
Qed.

Definition nx_opts : store_opts := mkStoreOpts 0 0 0 0 false false true false false None.
Example C06_case :
  sees demo_c demo_ch [107; 51] 110 (Some (mkView [] 0 0 2)) /\
  plenty demo_opts (plenty_env 110) [107; 51] nx_opts /\
  (exists ch' evs, step demo_c (plenty_env 110) demo_ch (Store [107; 51] [9] nx_opts 0)
     = Ok (ch', RStatus FOUND [], evs)) /\
  (exists ch' evs, step demo_c (plenty_env 110) demo_ch (Store [107; 50] [9] nx_opts 0)
     = Ok (ch', RStatus INSERTED [], evs)).
Proof.
  split; [apply demo_sees_eq; vm_compute; reflexivity|]. split; [split; reflexivity|].
  split; eexists _, _; vm_compute; reflexivity.
Qed.

(** ** C07 XX and CAS stores never create *)
Theorem C07_xx_cas_absent : forall o ch en key val so time ch' r evs,
  reachable (ctx_of o) ch ->
  call_ok (ctx_of o) en (cabs (ctx_of o) ch) (Store key val so time) ->
  so_xx so = true \/ so_casop so = true ->
  sees (ctx_of o) ch key (resolve_now time (en_clock en)) None ->
  step (ctx_of o) en ch (Store key val so time) = Ok (ch', r, evs) ->
  (r = RStatus NOTFOUND [] \/ (~ plenty o en key so /\ r = RStatus NOMEM [])) /\
  (r = RStatus NOTFOUND [] -> forall now, sees (ctx_of o) ch' key now None) /\
  (forall k, k <> key -> same_at (ctx_of o) ch ch' k).
Proof.
  intros o ch en key val so time ch' r evs R K Hx Se E.
  destruct (made_store o ch en _ _ _ _ ch' _ evs R K E) as (R' & st1 & sh1 & m' & cas' & -> & S & A & _).
  assert (I : cinv (ctx_of o) ch) by (apply reach_cinv; assumption).
  assert (I' : cinv (ctx_of o) ch') by (apply reach_cinv; assumption).
  apply (sees_iff _ (opts_load o)) in Se; [|assumption].
  destruct (live_item (cabs (ctx_of o) ch) key (resolve_now time (en_clock en))) as [it|] eqn:L; [discriminate|].
  assert (Hx' : so_xx so || so_casop so = true) by (destruct Hx as [-> | ->]; [reflexivity|apply orb_true_r]).
  assert (Q : forall m1 cas1 st2 sh2, sp_store (c_usecas (ctx_of o)) (cabs (ctx_of o) ch) (ccas ch (route (ctx_of o) key)) key val so
     (resolve_now time (en_clock en)) = (m1, cas1, st2, sh2) -> m1 = aset (cabs (ctx_of o) ch) key None /\ st2 = NOTFOUND /\ sh2 = []).
  { intros m1 cas1 st2 sh2 X. unfold sp_store in X. rewrite L, Hx' in X. injection X as <- _ <- <-. auto. }
  assert (Same : forall k, m' k = cabs (ctx_of o) ch k -> same_at (ctx_of o) ch ch' k).
  { intros k X. apply (same_at_abs _ (opts_load o)); try assumption. rewrite A. apply X. }
  inversion S; subst.
  - destruct (Q _ _ _ _ H) as (-> & -> & ->). split; [left; reflexivity|]. split.
    + intros _ now. apply (sees_iff _ (opts_load o)); [assumption|]. unfold live_item. rewrite A.
      unfold aset. rewrite beq_refl. reflexivity.
    + intros k Hk. apply Same. unfold aset. rewrite (beq_neq key k) by congruence. reflexivity.
  - destruct (Q _ _ _ _ H) as (_ & X & _). discriminate.
  - split; [right; split; [|reflexivity]|split; [discriminate|intros; apply Same; reflexivity]]. intros [_ P2].
    change (c_noevict (ctx_of o)) with (op_noevict o) in *. rewrite H, H0 in P2. discriminate.
  - split; [right; split; [|reflexivity]|split; [discriminate|intros; apply Same; reflexivity]].
    intros [P1 _]. congruence.
Qed.

Definition xx_opts : store_opts := mkStoreOpts 0 0 0 0 false false false true false None.
Definition cas_opts (t : N) : store_opts := mkStoreOpts 0 0 t 0 false true false false false None.
Example C07_case :
  sees demo_c demo_ch [107; 50] 110 None /\
  (exists ch' evs, step demo_c (plenty_env 110) demo_ch (Store [107; 50] [9] xx_opts 0)
     = Ok (ch', RStatus NOTFOUND [], evs)) /\
  (exists ch' evs, step demo_c (plenty_env 1000) demo_ch (Store [107; 49] [9] (cas_opts 4) 0)
     = Ok (ch', RStatus NOTFOUND [], evs)).
Proof.
  split; [apply demo_sees_eq; vm_compute; reflexivity|].
  split; eexists _, _; vm_compute; reflexivity.
Qed.

(** ** C08 Compare-and-store and tokens *)

(** With tokens enabled, a compare-and-store on a live item stores iff the token
    given is the one the item reports; otherwise nothing changes. *)
Theorem C08_cas_exact : forall o ch en key val so time v ch' r evs,
  reachable (ctx_of o) ch ->
  call_ok (ctx_of o) en (cabs (ctx_of o) ch) (Store key val so time) ->
  op_usecas o = true -> so_casop so = true -> so_entry so = None -> plenty o en key so ->
  sees (ctx_of o) ch key (resolve_now time (en_clock en)) (Some v) ->
  step (ctx_of o) en ch (Store key val so time) = Ok (ch', r, evs) ->
  (so_cas so = v_cas v -> r = RStatus REPLACED []) /\
  (so_cas so <> v_cas v -> r = RStatus FOUND [] /\ forall k, same_at (ctx_of o) ch ch' k).
Proof.
  intros o ch en key val so time v ch' r evs R K Uc Co Ne [P1 P2] Se E.
  destruct (made_store o ch en _ _ _ _ ch' _ evs R K E) as (R' & st1 & sh1 & m' & cas' & -> & S & A & _).
  assert (I : cinv (ctx_of o) ch) by (apply reach_cinv; assumption).
  assert (I' : cinv (ctx_of o) ch') by (apply reach_cinv; assumption).
  apply (sees_iff _ (opts_load o)) in Se; [|assumption].
  destruct (live_item (cabs (ctx_of o) ch) key (resolve_now time (en_clock en))) as [it|] eqn:L; [|discriminate].
  cbn in Se. injection Se as ->. cbn [v_cas shown_of].
  assert (Q : forall m1 cas1 st2 sh2, sp_store (c_usecas (ctx_of o)) (cabs (ctx_of o) ch) (ccas ch (route (ctx_of o) key)) key val so
     (resolve_now time (en_clock en)) = (m1, cas1, st2, sh2) ->
     (so_cas so = i_cas it -> st2 = REPLACED /\ sh2 = []) /\
     (so_cas so <> i_cas it -> st2 = FOUND /\ sh2 = [] /\ m1 = cabs (ctx_of o) ch)).
  { intros m1 cas1 st2 sh2 X. unfold sp_store in X. rewrite L, Co, Ne in X.
    change (c_usecas (ctx_of o)) with (op_usecas o) in X. rewrite Uc in X. cbn [andb] in X.
    destruct (N.eqb_spec (so_cas so) (i_cas it)) as [Eq|Eq]; cbn [negb] in X; injection X as <- _ <- <-;
      (split; [intro; try contradiction; auto|intro; try contradiction; auto]). }
  inversion S; subst.
  - destruct (Q _ _ _ _ H) as [Q1 Q2]. split.
    + intro X. destruct (Q1 X) as [-> ->]. reflexivity.
    + intro X. destruct (Q2 X) as (-> & -> & ->). split; [reflexivity|]. intro k.
      apply (same_at_abs _ (opts_load o)); try assumption. apply A.
  - destruct (Q _ _ _ _ H) as [Q1 Q2]. split.
    + intro X. destruct (Q1 X) as [X1 _]. discriminate.
    + intro X. destruct (Q2 X) as (X1 & _ & _). discriminate.
  - change (c_noevict (ctx_of o)) with (op_noevict o) in *. rewrite H, H0 in P2. discriminate.
  - congruence.
Qed.

(** Tokens: every token in a shard is at most the shard's counter, the counter
    never goes back, and grows by at most one per call. *)
Section Tokens.
Variable o : opts.
Hypothesis uc : op_usecas o = true.
Notation rt := (route (ctx_of o)).
Definition tok_inv (w : world) : Prop :=
  forall k it, w_map w k = Some it -> i_cas it <= w_cas w (rt k).

(** The call wrote a new item under [key]. *)
Definition wrote (x : call) (r : result) (key : bytes) : Prop :=
  match x, r with
  | Store k _ _ _, RStatus st _ => k = key /\ (st = INSERTED \/ st = REPLACED)
  | Load k lo _, RStatus st sh => k = key /\ st = FOUND /\
      exists f w, lo_entry lo = Some f /\ sh = [(key, w)] /\ f w <> None
  | _, _ => False
  end.

Lemma tok_step : forall en w x w' r, spec_step true (op_noevict o) rt en w x w' r ->
  tok_inv w -> (forall i, w_cas w i + 1 < 2 ^ 64) ->
  tok_inv w' /\ (forall i, w_cas w i <= w_cas w' i <= w_cas w i + 1) /\
  forall key, wrote x r key -> exists it, w_map w' key = Some it /\ i_cas it = w_cas w (rt key) + 1.
Proof.
  intros en w x w' r S T B.
  assert (U : forall i, u64 (w_cas w i + 1) = w_cas w i + 1).
  { intro i. unfold u64. apply N.mod_small. apply B. }
  assert (Keep : (forall k it, w_map w' k = Some it -> exists it0, w_map w k = Some it0 /\ i_cas it = i_cas it0) ->
     (forall i, w_cas w' i = w_cas w i) ->
     tok_inv w' /\ (forall i, w_cas w i <= w_cas w' i <= w_cas w i + 1)).
  { intros X Y. split.
    - intros k it H. rewrite Y. destruct (X k it H) as (it0 & H0 & ->). apply T. assumption.
    - intro i. rewrite Y. lia. }
  inversion S; subst.
  - assert (Q : forall m1 cas1 st1 sh1, sp_store true (w_map w) (w_cas w (rt key)) key val o0 (resolve_now time (en_clock en))
       = (m1, cas1, st1, sh1) -> cas1 = w_cas w (rt key) + 1 /\
         (forall k it, m1 k = Some it -> w_map w k = Some it \/ (k = key /\ i_cas it = w_cas w (rt key) + 1)) /\
         (st1 = INSERTED \/ st1 = REPLACED -> exists it, m1 key = Some it /\ i_cas it = w_cas w (rt key) + 1)).
    { intros m1 cas1 st1 sh1 X. unfold sp_store, token in X. rewrite U in X.
      repeat match type of X with context [match ?y with _ => _ end] => destruct y end;
        injection X as <- <- <- <-; (split; [reflexivity|]); (split;
        [intros k it Y; unfold aset in Y; try (destruct (beq key k) eqn:Bq);
         first [left; assumption | discriminate Y | apply beq_eq in Bq; injection Y as <-; right; split; [congruence|reflexivity]]
        |intros [Z|Z]; try discriminate Z; unfold aset; rewrite beq_refl; eexists; split; reflexivity]). }
    assert (Up : cas' = w_cas w (rt key) + 1 ->
      (forall k it, m' k = Some it -> w_map w k = Some it \/ (k = key /\ i_cas it = w_cas w (rt key) + 1)) ->
      tok_inv w' /\ (forall i, w_cas w i <= w_cas w' i <= w_cas w i + 1)).
    { intros Ec X. split.
      - intros k it Hk. rewrite H0 in Hk. rewrite H1. rewrite Ec.
        destruct (X k it Hk) as [Y|[-> Y]].
        + apply T in Y. destruct (Nat.eqb_spec (rt k) (rt key)) as [Er|]; [rewrite Er in Y|]; lia.
        + rewrite Nat.eqb_refl. lia.
      - intro i. rewrite H1. rewrite Ec. destruct (Nat.eqb_spec i (rt key)) as [->|]; lia. }
    inversion H; subst.
    + destruct (Q _ _ _ _ H2) as (Q1 & Q2 & Q3). destruct (Up Q1 Q2) as [U1 U2]. split; [assumption|]. split; [assumption|].
      intros k [<- Hs]. destruct (Q3 Hs) as (it & X1 & X2). exists it. rewrite H0. auto.
    + destruct (Q _ _ _ _ H2) as (Q1 & Q2 & Q3). destruct (Up Q1) as [U1 U2].
      { intros k it X. unfold aset in X. destruct (beq victim k); [discriminate|]. auto. }
      split; [assumption|]. split; [assumption|].
      intros k [<- Hs]. destruct (Q3 Hs) as (it & X1 & X2). exists it. rewrite H0. unfold aset.
      rewrite (beq_neq victim key) by assumption. auto.
    + destruct (Up (U _)) as [U1 U2]; [intros; left; assumption|]. split; [assumption|]. split; [assumption|].
      intros k [<- [Z|Z]]; discriminate Z.
    + destruct (Up (U _)) as [U1 U2]; [intros; left; assumption|]. split; [assumption|]. split; [assumption|].
      intros k [<- [Z|Z]]; discriminate Z.
  - assert (Q : (forall k it, m' k = Some it -> (exists it0, w_map w k = Some it0 /\ i_cas it = i_cas it0) \/
         (k = key /\ cas' = w_cas w (rt key) + 1 /\ i_cas it = cas')) /\
         (cas' = w_cas w (rt key) \/ cas' = w_cas w (rt key) + 1) /\
         (wrote (Load key o0 time) (RStatus st shown) key -> exists it, m' key = Some it /\ i_cas it = w_cas w (rt key) + 1)).
    { unfold sp_load, token in H. rewrite U in H. unfold live_item in H.
      destruct (w_map w key) as [it|] eqn:M.
      - destruct (alive_at (i_exp it) (resolve_now time (en_clock en))).
        + assert (Tc : forall nt now, i_cas (if nt : bool then it else mkItem (i_val it) (i_exp it) (i_flags it) (i_cas it) now) = i_cas it)
            by (intros [|] now; reflexivity).
          destruct (lo_entry o0) as [f|] eqn:Lo.
          * destruct (f (shown_of it)) as [u|] eqn:Fu.
            -- destruct (al_entry (en_mem en (rt key))); injection H as <- <- <- <-; (split; [|split; [right; reflexivity|]]).
               ++ intros k it1 X. unfold aset in X. destruct (beq key k) eqn:Bq.
                  ** injection X as <-. right. split; [apply beq_eq in Bq; congruence|]. split; reflexivity.
                  ** left. eauto.
               ++ intros _. unfold aset. rewrite beq_refl. eexists. split; reflexivity.
               ++ intros k it1 X. unfold aset in X. destruct (beq key k) eqn:Bq.
                  ** injection X as <-. left. exists it. apply beq_eq in Bq. subst k. rewrite Tc. auto.
                  ** left. eauto.
               ++ intros (_ & X & _). discriminate X.
            -- injection H as <- <- <- <-. split; [|split; [left; reflexivity|]].
               ++ intros k it1 X. unfold aset in X. destruct (beq key k) eqn:Bq.
                  ** injection X as <-. left. exists it. apply beq_eq in Bq. subst k. rewrite Tc. auto.
                  ** left. eauto.
               ++ intros (_ & _ & f' & w0 & X1 & X2 & X3). rewrite Lo in X1. injection X1 as <-. injection X2 as <-. contradiction.
          * injection H as <- <- <- <-. split; [|split; [left; reflexivity|]].
            -- intros k it1 X. unfold aset in X. destruct (beq key k) eqn:Bq.
               ++ injection X as <-. left. exists it. apply beq_eq in Bq. subst k. rewrite Tc. auto.
               ++ left. eauto.
            -- intros (_ & _ & f' & w0 & X1 & X2 & X3). discriminate X2.
        + injection H as <- <- <- <-. split; [|split; [left; reflexivity|intros (_ & X & _); discriminate X]].
          intros k it1 X. unfold aset in X. destruct (beq key k); [discriminate X|left; eauto].
      - injection H as <- <- <- <-. split; [|split; [left; reflexivity|intros (_ & X & _); discriminate X]].
          intros k it1 X. unfold aset in X. destruct (beq key k); [discriminate X|left; eauto]. }
    destruct Q as (Q1 & Q2 & Q3). split; [|split].
    + intros k it Hk. rewrite H0 in Hk. rewrite H1. destruct (Q1 k it Hk) as [(it0 & Y & ->)|(-> & E1 & ->)].
      * apply T in Y. destruct (Nat.eqb_spec (rt k) (rt key)) as [Er|]; [rewrite Er in Y; lia|assumption].
      * rewrite Nat.eqb_refl. lia.
    + intro i. rewrite H1. destruct (Nat.eqb_spec i (rt key)) as [->|]; lia.
    + intros k Hw. assert (k = key) as -> by (destruct Hw; congruence). destruct (Q3 Hw) as (it & X1 & X2).
      exists it. rewrite H0. auto.
  - destruct Keep as [K1 K2]; [|assumption|split; [assumption|split; [assumption|intros k []]]].
    intros k it X. rewrite H0 in X. exists it. split; [|reflexivity]. unfold sp_delete in H.
    repeat match type of H with context [match ?y with _ => _ end] => destruct y end;
      injection H as <- _ _; unfold aset in X; try destruct (beq key k); congruence.
  - destruct Keep as [K1 K2]; [|assumption|split; [assumption|split; [assumption|intros k []]]].
    intros k it X. exists it. split; [|reflexivity].
    destruct (in_dec (list_eq_dec N.eq_dec) k deleted) as [D|D].
    + rewrite (it_gone _ _ _ _ _ _ _ _ _ _ H k D) in X. discriminate X.
    + destruct (it_kept _ _ _ _ _ _ _ _ _ _ H k D) as [Y|(_ & _ & Y)]; congruence.
  - destruct Keep as [K1 K2]; [|assumption|split; [assumption|split; [assumption|intros k []]]].
    intros k it X. exists it. split; [|reflexivity]. destruct (H1 k) as [Y|[_ Y]]; congruence.
  - destruct Keep as [K1 K2]; [|assumption|split; [assumption|split; [assumption|intros k []]]].
    intros k it X. exists it. split; [|reflexivity]. destruct (H k) as [Y1 Y2].
    assert (sel rt one k \/ ~ sel rt one k) as [Z|Z].
    { unfold sel. destruct one as [z|]; [|auto]. destruct (Z.eq_dec (Z.of_nat (rt k)) z); auto. }
    + rewrite (Y1 Z) in X. unfold live_item in X. destruct (w_map w k) as [i|]; [|discriminate].
      destruct (alive_at _ _); congruence.
    + rewrite (Y2 Z) in X. assumption.
  - destruct Keep as [K1 K2]; [|assumption|split; [assumption|split; [assumption|intros k []]]].
    intros k it X. exists it. split; [|reflexivity]. destruct (H k) as [Y1 Y2].
    assert (sel rt one k \/ ~ sel rt one k) as [Z|Z].
    { unfold sel. destruct one as [z|]; [|auto]. destruct (Z.eq_dec (Z.of_nat (rt k)) z); auto. }
    + rewrite (Y1 Z) in X. discriminate X.
    + rewrite (Y2 Z) in X. assumption.
  - destruct Keep as [K1 K2]; [|assumption|split; [assumption|split; [assumption|intros k []]]].
    intros k it X. rewrite H in X. eauto.
  - destruct Keep as [K1 K2]; [|assumption|split; [assumption|split; [assumption|intros k []]]].
    intros k it X. rewrite H in X. eauto.
  - destruct Keep as [K1 K2]; [|assumption|split; [assumption|split; [assumption|intros k []]]].
    intros k it X. rewrite H in X. eauto.
  - destruct Keep as [K1 K2]; [|assumption|split; [assumption|split; [assumption|intros k []]]].
    intros k it X. rewrite H in X. eauto.
Qed.

Lemma tok_run : forall h w w' rs b, spec_run true (op_noevict o) rt w h w' rs ->
  tok_inv w -> (forall i, w_cas w i <= b) -> b + N.of_nat (length h) < 2 ^ 64 ->
  tok_inv w' /\ forall i, w_cas w i <= w_cas w' i <= b + N.of_nat (length h).
Proof.
  intros h w w' rs b H. revert b. induction H as [w|w en x w1 r h w2 rs St _ IH]; intros b T B L.
  - split; [assumption|]. intro i. specialize (B i). cbn [length]. lia.
  - cbn [length] in L. destruct (tok_step _ _ _ _ _ St T) as (T1 & M1 & _).
    { intro i. specialize (B i). lia. }
    destruct (IH (b + 1) T1) as (T2 & M2).
    { intro i. specialize (B i). specialize (M1 i). lia. }
    { lia. }
    split; [assumption|]. intro i. specialize (M1 i). specialize (M2 i). cbn [length]. lia.
Qed.
End Tokens.

(** In a history of fewer than 2^64-3 calls on a fresh cache with tokens
    enabled: an item that is written after another one was seen in the same
    shard gets a larger token. *)
Theorem C08_tokens_grow : forall o al ch0 h1 ch1 rs1 ev1 h2 ch2 rs2 ev2 en x ch3 r ev3 k t v key t' v',
  op_usecas o = true ->
  cache_new (ctx_of o) al = Ok (Some ch0) ->
  sensible (ctx_of o) ch0 h1 -> run (ctx_of o) ch0 h1 = Ok (ch1, rs1, ev1) ->
  sees (ctx_of o) ch1 k t (Some v) ->
  sensible (ctx_of o) ch1 h2 -> run (ctx_of o) ch1 h2 = Ok (ch2, rs2, ev2) ->
  N.of_nat (length h1) + N.of_nat (length h2) < 2 ^ 64 - 3 ->
  call_ok (ctx_of o) en (cabs (ctx_of o) ch2) x ->
  step (ctx_of o) en ch2 x = Ok (ch3, r, ev3) -> wrote x r key ->
  route (ctx_of o) k = route (ctx_of o) key ->
  sees (ctx_of o) ch3 key t' (Some v') ->
  v_cas v < v_cas v'.
Proof.
  intros o al ch0 h1 ch1 rs1 ev1 h2 ch2 rs2 ev2 en x ch3 r ev3 k t v key t' v' Uc Nw S1 R1 Se1 S2 R2 Ln K E W Rt Se3.
  destruct (new_ok _ (opts_load o) (opts_shards o) al ch0 Nw) as (I0 & _ & _ & A0 & C0).
  destruct (run_refines _ (opts_load o) (opts_shards o) h1 ch0 I0 S1) as (x1 & x2 & x3 & E1 & G1 & P1).
  rewrite R1 in E1. injection E1 as <- <- <-. pose proof (cg_inv _ _ _ _ _ G1) as I1.
  destruct (run_refines _ (opts_load o) (opts_shards o) h2 ch1 I1 S2) as (x1 & x2 & x3 & E2 & G2 & P2).
  rewrite R2 in E2. injection E2 as <- <- <-. pose proof (cg_inv _ _ _ _ _ G2) as I2.
  destruct (step_refines _ (opts_load o) en ch2 x I2 K) as (x1 & x2 & x3 & E3 & G3 & P3).
  rewrite E in E3. injection E3 as <- <- <-. pose proof (cg_inv _ _ _ _ _ G3) as I3.
  change (c_usecas (ctx_of o)) with (op_usecas o) in *. rewrite Uc in *.
  change (c_noevict (ctx_of o)) with (op_noevict o) in *.
  assert (T0 : tok_inv o (world_of (ctx_of o) ch0)).
  { intros k0 it X. cbn in X. rewrite A0 in X. discriminate X. }
  destruct (tok_run o h1 _ _ _ 1 P1 T0) as (T1 & M1).
  { intro i. cbn [w_cas world_of]. rewrite C0. unfold empty_world. cbn [w_cas]. destruct (_ <? _)%nat; lia. }
  { lia. }
  destruct (tok_run o h2 _ _ _ (1 + N.of_nat (length h1)) P2 T1) as (T2 & M2).
  { intro i. apply M1. }
  { lia. }
  destruct (tok_step o en _ _ _ _ P3 T2) as (T3 & M3 & Wr).
  { intro i. specialize (M2 i). lia. }
  destruct (Wr key W) as (it & X1 & X2).
  apply (sees_iff _ (opts_load o)) in Se1; [|assumption]. apply (sees_iff _ (opts_load o)) in Se3; [|assumption].
  unfold live_item in Se1, Se3. cbn [w_map world_of] in X1. rewrite X1 in Se3.
  destruct (alive_at (i_exp it) t'); [|discriminate Se3]. injection Se3 as ->. cbn [v_cas shown_of].
  destruct (cabs (ctx_of o) ch1 k) as [it1|] eqn:Ek; [|discriminate Se1].
  destruct (alive_at (i_exp it1) t); [|discriminate Se1]. injection Se1 as ->. cbn [v_cas shown_of].
  pose proof (T1 k it1 Ek) as Q1. specialize (M2 (route (ctx_of o) k)). rewrite Rt in *. rewrite X2. lia.
Qed.

Example C08_case :
  sees demo_c demo_ch [107; 49] 110 (Some (mkView [119] 123 5 4)) /\
  (exists ch' evs, step demo_c (plenty_env 110) demo_ch (Store [107; 49] [9] (cas_opts 4) 0)
     = Ok (ch', RStatus REPLACED [], evs) /\
     wrote (Store [107; 49] [9] (cas_opts 4) 0) (RStatus REPLACED []) [107; 49]) /\
  (exists ch' evs, step demo_c (plenty_env 110) demo_ch (Store [107; 49] [9] (cas_opts 3) 0)
     = Ok (ch', RStatus FOUND [], evs)).
Proof.
  split; [apply demo_sees_eq; vm_compute; reflexivity|]. split.
  - eexists _, _. split; [vm_compute; reflexivity|]. split; [reflexivity|right; reflexivity].
  - eexists _, _; vm_compute; reflexivity.
Qed.

(** ** C09 Cancelling changes nothing *)
Theorem C09_canceled : forall o ch en x ch' sh evs,
  reachable (ctx_of o) ch -> call_ok (ctx_of o) en (cabs (ctx_of o) ch) x ->
  (exists key, names x key) ->
  step (ctx_of o) en ch x = Ok (ch', RStatus CANCELED sh, evs) ->
  forall k, same_at (ctx_of o) ch ch' k.
Proof.
  intros o ch en x ch' sh evs R K (key & Nm) E k.
  destruct (made o ch en x ch' _ evs R K E) as (R' & _ & _).
  apply (same_at_abs _ (opts_load o)); [apply reach_cinv; assumption|apply reach_cinv; assumption|].
  destruct x; cbn [names] in Nm; try contradiction; subst.
  - destruct (made_store o ch en _ _ _ _ ch' _ evs R K E) as (_ & st1 & sh1 & m' & cas' & Er & S & A & _).
    injection Er as <- <-. rewrite A. inversion S; subst. unfold sp_store in H.
    repeat match type of H with context [match ?x with _ => _ end] => destruct x end;
        try discriminate H; injection H as <- _; reflexivity.
  - destruct (made_load o ch en _ _ _ ch' _ evs R K E) as (_ & st1 & sh1 & m' & cas' & Er & S & A & _).
    injection Er as <- <-. unfold sp_load in S.
    repeat match type of S with context [match ?x with _ => _ end] => destruct x end; discriminate S.
  - destruct (made_delete o ch en _ _ _ ch' _ evs R E) as (_ & st1 & sh1 & m' & Er & S & A & _).
    injection Er as <- <-. rewrite A. unfold sp_delete in S.
    repeat match type of S with context [match ?x with _ => _ end] => destruct x end;
        try discriminate S; injection S as <- _; reflexivity.
Qed.

(** When the callback asks for it, the call is cancelled. *)
Theorem C09_store_asked : forall o ch en key val so time v f ch' r evs,
  reachable (ctx_of o) ch ->
  call_ok (ctx_of o) en (cabs (ctx_of o) ch) (Store key val so time) ->
  so_nx so = false -> so_casop so = false -> plenty o en key so ->
  sees (ctx_of o) ch key (resolve_now time (en_clock en)) (Some v) ->
  so_entry so = Some f -> f v = false ->
  step (ctx_of o) en ch (Store key val so time) = Ok (ch', r, evs) ->
  r = RStatus CANCELED [(key, v)].
Proof.
  intros o ch en key val so time v f ch' r evs R K Nx Nc [P1 P2] Se Fe Fv E.
  destruct (made_store o ch en _ _ _ _ ch' _ evs R K E) as (R' & st1 & sh1 & m' & cas' & -> & S & A & _).
  apply (sees_iff _ (opts_load o)) in Se; [|apply reach_cinv; assumption].
  destruct (live_item (cabs (ctx_of o) ch) key (resolve_now time (en_clock en))) as [it|] eqn:L; [|discriminate].
  cbn in Se. injection Se as ->.
  assert (Q : forall m1 cas1 st2 sh2, sp_store (c_usecas (ctx_of o)) (cabs (ctx_of o) ch) (ccas ch (route (ctx_of o) key)) key val so
     (resolve_now time (en_clock en)) = (m1, cas1, st2, sh2) -> st2 = CANCELED /\ sh2 = [(key, shown_of it)]).
  { intros m1 cas1 st2 sh2 X. unfold sp_store in X. rewrite L, Nc, Nx, Fe, Fv in X.
    injection X as _ _ <- <-. auto. }
  inversion S; subst.
  - destruct (Q _ _ _ _ H) as [-> ->]. reflexivity.
  - destruct (Q _ _ _ _ H) as [X _]. discriminate.
  - change (c_noevict (ctx_of o)) with (op_noevict o) in *. rewrite H, H0 in P2. discriminate.
  - congruence.
Qed.
Theorem C09_delete_asked : forall o ch en key f time v ch' r evs,
  reachable (ctx_of o) ch ->
  sees (ctx_of o) ch key (resolve_now time (en_clock en)) (Some v) -> f v = false ->
  step (ctx_of o) en ch (Delete key (Some f) time) = Ok (ch', r, evs) ->
  r = RStatus CANCELED [(key, v)].
Proof.
  intros o ch en key f time v ch' r evs R Se Fv E.
  destruct (made_delete o ch en _ _ _ ch' _ evs R E) as (_ & st1 & sh1 & m' & -> & S & A & _).
  apply (sees_iff _ (opts_load o)) in Se; [|apply reach_cinv; assumption].
  unfold sp_delete in S. destruct (live_item _ _ _) as [it|]; [|discriminate Se]. injection Se as ->.
  rewrite Fv in S. injection S as _ <- <-. reflexivity.
Qed.

Definition cancel_opts : store_opts :=
  mkStoreOpts 0 0 0 0 false false false false false (Some (fun w => (v_flags w =? 9))).
Example C09_case : 
  sees demo_c demo_ch [107; 49] 110 (Some (mkView [119] 123 5 4)) /\
  (exists ch' evs, step demo_c (plenty_env 110) demo_ch (Store [107; 49] [9] cancel_opts 0)
     = Ok (ch', RStatus CANCELED [([107; 49], mkView [119] 123 5 4)], evs)) /\
  (exists ch' evs, step demo_c (plenty_env 110) demo_ch (Delete [107; 49] (Some (fun _ => false)) 0)
     = Ok (ch', RStatus CANCELED [([107; 49], mkView [119] 123 5 4)], evs)).
Proof.
  split; [apply demo_sees_eq; vm_compute; reflexivity|].
  split; eexists _, _; vm_compute; reflexivity.
Qed.

(** ** C10 KEEPTTL *)
Theorem C10_keepttl : forall o ch en key val so time old ch' st sh evs,
  reachable (ctx_of o) ch ->
  call_ok (ctx_of o) en (cabs (ctx_of o) ch) (Store key val so time) ->
  so_keepttl so = true ->
  sees (ctx_of o) ch key (resolve_now time (en_clock en)) old ->
  step (ctx_of o) en ch (Store key val so time) = Ok (ch', RStatus st sh, evs) ->
  st = INSERTED \/ st = REPLACED ->
  exists exp tok,
    exp = match old with Some v => v_exp v | None => asked so (resolve_now time (en_clock en)) end /\
    (forall now, alive_at exp now = true ->
       sees (ctx_of o) ch' key now (Some (mkView val exp (so_flags so) tok))) /\
    (forall now, alive_at exp now = false -> sees (ctx_of o) ch' key now None).
Proof.
  intros o ch en key val so time old ch' st sh evs R K Kt Se E Hs.
  destruct (made_store o ch en key val so time ch' _ evs R K E) as (R' & st1 & sh1 & m' & cas' & Er & S & A & _).
  injection Er as <- <-. apply store_new_item in S; [|assumption]. rewrite <- A in S.
  apply (sees_iff _ (opts_load o)) in Se; [|apply reach_cinv; assumption].
  set (it := mkItem _ _ _ _ _) in S. exists (i_exp it), (i_cas it).
  split; [|split].
  - cbn [it i_exp]. unfold sp_expires. rewrite Kt. subst old.
    destruct (live_item _ _ _); reflexivity.
  - intros now Ha. apply (sees_iff _ (opts_load o)); [apply reach_cinv; assumption|].
    unfold live_item. rewrite S. rewrite Ha. reflexivity.
  - intros now Ha. apply (sees_iff _ (opts_load o)); [apply reach_cinv; assumption|].
    unfold live_item. rewrite S. rewrite Ha. reflexivity.
Qed.

Example C10_case :
  let so := mkStoreOpts 0 1000 0 1 true false false false false None in
  sees demo_c demo_ch [107; 49] 110 (Some (mkView [119] 123 5 4)) /\
  (exists ch' evs, step demo_c (plenty_env 110) demo_ch (Store [107; 49] [8] so 0)
    = Ok (ch', RStatus REPLACED [], evs) /\
    cabs demo_c ch' [107; 49] = Some (mkItem [8] 123 1 5 110)) /\
  (exists ch' evs, step demo_c (plenty_env 123) demo_ch (Store [107; 49] [8] so 0)
    = Ok (ch', RStatus INSERTED [], evs) /\
    cabs demo_c ch' [107; 49] = Some (mkItem [8] 1123 1 5 123)).
Proof.
  split; [apply demo_sees_eq; vm_compute; reflexivity|].
  split; eexists _, _; (split; [vm_compute; reflexivity|vm_compute; reflexivity]).
Qed.
