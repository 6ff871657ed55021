(** C75: FLUSHALL and SWEEP while other clients use the cache. *)
From Verif Require Import Base Types Clamp Entry Hash Map Shard Spec Cache Refine Reach Observe PropCache CmdTable CmdTableProofs CmdSpec CmdsProofs4 Jobs.
From Coq Require Import Permutation.
Local Open Scope N_scope.

(** What the job did to [key] in a history: [P] at one moment, and nothing at any other. *)
Definition once (c : ctx) (P : deed -> Prop) (h : list deed) (key : bytes) : Prop :=
  exists h1 d h2, h = h1 ++ d :: h2 /\ dd_job d = true /\ P d /\
    forall d', In d' (h1 ++ h2) -> dd_job d' = true -> same_at c (dd_before d') (dd_after d') key.
(** The key is gone after it. *)
Definition empties (c : ctx) (key : bytes) (d : deed) : Prop := forall now, sees c (dd_after d) key now None.
(** An item of [key] that has expired at [t] is gone after it, and from [t] on the key shows what it did. *)
Definition tidies (c : ctx) (key : bytes) (t : Z) (d : deed) : Prop :=
  (sees c (dd_before d) key t None -> forall now, sees c (dd_after d) key now None) /\
  (forall now v, (t <= now)%Z -> (sees c (dd_after d) key now v <-> sees c (dd_before d) key now v)).

Section J.
Variable o : opts.
Let c := opts_to_ctx o.

Lemma call_fine : forall kind en ch i t, (match kind with Flushes _ => forall j, al_table (en_mem en j) = true | Sweeps => True end) ->
  call_ok c en (cabs c ch) (work_call kind i t).
Proof. intros [d|] en ch i t H; exact H. Qed.

Lemma same_of_cabs : forall ch ch' key, reachable c ch -> reachable c ch' -> cabs c ch' key = cabs c ch key -> same_at c ch ch' key.
Proof.
  intros ch ch' key R R' E now v. rewrite !(sees_iff c (opts_load o)) by (apply (reach_cinv o); assumption). unfold live_item. rewrite E. reflexivity.
Qed.
(** The effect of a visit on the key of a shard. *)
Lemma visit : forall kind en ch i t ch' r evs key, reachable c ch -> (0 < t)%Z -> call_ok c en (cabs c ch) (work_call kind i t) ->
  step c en ch (work_call kind i t) = Ok (ch', r, evs) ->
  reachable c ch' /\
  (route c key <> i -> cabs c ch' key = cabs c ch key) /\
  (route c key = i -> cabs c ch' key = match kind with Flushes _ => None | Sweeps => live_item (cabs c ch) key t end).
Proof.
  intros kind en ch i t ch' r evs key R T K E.
  destruct (reachable_step c (opts_load o) (opts_shards o) ch en (work_call kind i t) R K) as (ch1 & r1 & ev1 & E1 & R1 & _ & Sp).
  rewrite E in E1. injection E1 as <- <- <-. split; [exact R1|].
  destruct kind as [d|]; cbn [work_call] in *; inversion Sp; subst.
  - match goal with H : sp_clear _ _ _ |- _ => specialize (H key); cbn [world_of w_map] in H; destruct H as [H1 H2] end.
    unfold sel in H1, H2. split; intro Hk.
    + apply H2. intro Y. apply Hk. lia.
    + apply H1. rewrite Hk. reflexivity.
  - match goal with H : sp_sweep _ _ _ _ |- _ => specialize (H key); cbn [world_of w_map] in H; destruct H as [G1 G2] end.
    replace (resolve_now t (en_clock en)) with t in G1 by (unfold resolve_now; destruct (Z.gtb_spec t 0); [reflexivity|lia]).
    unfold sel in G1, G2. split; intro Hk.
    + apply G2. intro Y. apply Hk. lia.
    + apply G1. rewrite Hk. reflexivity.
Qed.
Lemma empties_of : forall key d, reachable c (dd_after d) -> cabs c (dd_after d) key = None -> empties c key d.
Proof. intros key d R E now. apply (sees_iff c (opts_load o)); [apply (reach_cinv o); exact R|]. unfold live_item. rewrite E. reflexivity. Qed.
Lemma live_twice : forall (m m' : amap) key t now, m' key = live_item m key t -> (t <= now)%Z -> live_item m' key now = live_item m key now.
Proof.
  intros m m' key t now E L. unfold live_item at 1. rewrite E. unfold live_item. destruct (m key) as [it|]; [|reflexivity].
  destruct (alive_at (i_exp it) t) eqn:A; [reflexivity|]. destruct (alive_at (i_exp it) now) eqn:B; [|reflexivity]. exfalso.
  unfold alive_at in *. destruct (i_exp it =? 0)%Z eqn:Z0; cbn in *; [discriminate|]. apply Z.ltb_ge in A. apply Z.ltb_lt in B. lia.
Qed.
Lemma tidies_of : forall key t d, reachable c (dd_before d) -> reachable c (dd_after d) ->
  cabs c (dd_after d) key = live_item (cabs c (dd_before d)) key t -> tidies c key t d.
Proof.
  intros key t d R R' E. pose proof (reach_cinv o _ R) as C. pose proof (reach_cinv o _ R') as C'. split.
  - intros X now. apply (sees_iff c (opts_load o)) in X; [|exact C]. apply (sees_iff c (opts_load o)); [exact C'|].
    unfold live_item at 1. rewrite E. destruct (live_item (cabs c (dd_before d)) key t); [discriminate X|reflexivity].
  - intros now v L. rewrite !(sees_iff c (opts_load o)) by assumption. rewrite (live_twice _ _ key t now E L). reflexivity.
Qed.

(** The shards still to be visited. *)
Definition todo (ws : list worker) : list nat := List.concat (List.map wk_left ws).
Lemma todo_visit : forall w1 i left t w2 k, count_occ Nat.eq_dec (todo (w1 ++ mkWorker (i :: left) t :: w2)) k =
  ((if Nat.eq_dec i k then 1 else 0) + count_occ Nat.eq_dec (todo (w1 ++ mkWorker left t :: w2)) k)%nat.
Proof.
  intros. unfold todo. rewrite !List.map_app, !List.concat_app, !count_occ_app. cbn [List.map List.concat wk_left app].
  cbn [count_occ]. destruct (Nat.eq_dec i k); rewrite ?count_occ_app; lia.
Qed.
Lemma todo_start : forall fast procs nshards clock, (0 < procs)%nat -> (0 < nshards)%nat -> todo (job_start fast procs nshards clock) = seq 0 nshards.
Proof.
  intros fast procs nshards clock P N. unfold todo, job_start. destruct fast.
  - rewrite <- (ranges_cover procs nshards P N). unfold covered. rewrite List.map_map.
    assert (G : forall l k, List.concat (List.map (fun x => wk_left (let '(j, (s, n)) := x in mkWorker (seq s n) (clock j))) (combine (seq k (length l)) l)) =
      List.concat (List.map (fun p => seq (fst p) (snd p)) l)).
    { induction l as [|[s n] l IH]; intro k; cbn; [reflexivity|]. rewrite IH. reflexivity. }
    apply G.
  - cbn. apply app_nil_r.
Qed.

Section Run.
Variables (kind : work) (ws0 : list worker) (ch0 : cache).
Hypothesis R0 : reachable c ch0.
Hypothesis T0 : Forall (fun w => (0 < wk_time w)%Z) ws0.
Definition effect (key : bytes) (d : deed) : Prop :=
  match kind with Flushes _ => empties c key d | Sweeps => exists w, In w ws0 /\ tidies c key (wk_time w) d end.
(** What the job did so far to a key of shard [route c key]. *)
Lemma beside_inv : forall h ws ch, beside c kind ws0 ch0 h ws ch ->
  reachable c ch /\ (forall w, In w ws -> exists w', In w' ws0 /\ wk_time w' = wk_time w) /\
  forall key, count_occ Nat.eq_dec (todo ws0) (route c key) = 1%nat ->
    (count_occ Nat.eq_dec (todo ws) (route c key) = 1%nat /\ forall d, In d h -> dd_job d = true -> same_at c (dd_before d) (dd_after d) key) \/
    (count_occ Nat.eq_dec (todo ws) (route c key) = 0%nat /\ once c (effect key) h key).
Proof.
  intros h ws ch H. induction H as [|h ws ch w1 i left t w2 en ch' r evs H IH Ew K E|h ws ch en op ch' r evs H IH K E].
  - split; [exact R0|]. split; [intros w Hw; exists w; auto|]. intros key Hc. left. split; [exact Hc|]. intros d [].
  - destruct IH as (R & W & IH). subst ws.
    destruct (W (mkWorker (i :: left) t)) as (w' & Hw' & Et); [apply in_or_app; right; left; reflexivity|]. cbn [wk_time] in Et.
    assert (T : (0 < t)%Z) by (rewrite <- Et; exact (proj1 (Forall_forall _ _) T0 w' Hw')).
    pose proof (visit kind en ch i t ch' r evs [] R T K E) as (R' & _). split; [exact R'|]. split.
    { intros w Hw. apply in_app_or in Hw. destruct Hw as [Hw|[<-|Hw]].
      - apply W. apply in_or_app. left. exact Hw.
      - exists w'. split; [exact Hw'|exact Et].
      - apply W. apply in_or_app. right. right. exact Hw. }
    intros key Hc. destruct (visit kind en ch i t ch' r evs key R T K E) as (_ & V1 & V2).
    specialize (IH key Hc). rewrite todo_visit in IH. destruct (Nat.eq_dec i (route c key)) as [Ei|Ei].
    + right. destruct IH as [[Hn Q]|[Hn _]]; [|discriminate]. split; [lia|]. exists h, (mkDeed true ch ch'), [].
      split; [reflexivity|]. split; [reflexivity|]. split; [|intros d Hd; rewrite app_nil_r in Hd; exact (Q d Hd)].
      unfold effect. specialize (V2 (eq_sym Ei)). destruct kind as [df|].
      * apply empties_of; [exact R'|exact V2].
      * exists w'. split; [exact Hw'|]. rewrite Et. apply tidies_of; [exact R|exact R'|exact V2].
    + assert (S : same_at c ch ch' key) by (apply same_of_cabs; [exact R|exact R'|apply V1; congruence]).
      destruct IH as [[Hn Q]|[Hn (h1 & d & h2 & -> & J & P & Q)]]; [left|right]; (split; [lia|]).
      * intros d Hd J. apply in_app_or in Hd. destruct Hd as [Hd|[<-|[]]]; [exact (Q d Hd J)|exact S].
      * exists h1, d, (h2 ++ [mkDeed true ch ch']). split; [rewrite <- app_assoc; reflexivity|]. split; [exact J|]. split; [exact P|].
        intros d' Hd J'. rewrite app_assoc in Hd. apply in_app_or in Hd. destruct Hd as [Hd|[<-|[]]]; [exact (Q d' Hd J')|exact S].
  - destruct IH as (R & W & IH).
    destruct (reachable_step c (opts_load o) (opts_shards o) ch en op R K) as (ch1 & r1 & ev1 & E1 & R1 & _).
    rewrite E in E1. injection E1 as <- <- <-. split; [exact R1|]. split; [exact W|]. intros key Hc.
    destruct (IH key Hc) as [[Hn Q]|[Hn (h1 & d & h2 & -> & J & P & Q)]]; [left|right]; (split; [exact Hn|]).
    + intros d Hd J. apply in_app_or in Hd. destruct Hd as [Hd|[<-|[]]]; [exact (Q d Hd J)|discriminate J].
    + exists h1, d, (h2 ++ [mkDeed false ch ch']). split; [rewrite <- app_assoc; reflexivity|]. split; [exact J|]. split; [exact P|].
      intros d' Hd J'. rewrite app_assoc in Hd. apply in_app_or in Hd. destruct Hd as [Hd|[<-|[]]]; [exact (Q d' Hd J')|discriminate J'].
Qed.
(** The deeds follow one another: a key that nothing changes after [d] is as it was then. *)
Lemma beside_from : forall h1 d h2 ws ch key, beside c kind ws0 ch0 (h1 ++ d :: h2) ws ch ->
  (forall d', In d' h2 -> same_at c (dd_before d') (dd_after d') key) -> same_at c (dd_after d) ch key.
Proof.
  intros h1 d h2. induction h2 as [|d2 h2 IH] using rev_ind; intros ws ch key H Q.
  - inversion H as [Eh|h ws' ch' w1 i left t w2 en ch2 r evs H' Ew K E Eh|h ws' ch' en op ch2 r evs H' K E Eh].
    + destruct h1; discriminate Eh.
    + apply app_inj_tail in Eh. destruct Eh as [_ <-]. subst. intros now v. reflexivity.
    + apply app_inj_tail in Eh. destruct Eh as [_ <-]. subst. intros now v. reflexivity.
  - rewrite app_comm_cons, app_assoc in H.
    assert (Q2 : forall d', In d' h2 -> same_at c (dd_before d') (dd_after d') key) by (intros d' Hd; apply Q; apply in_or_app; left; exact Hd).
    assert (Qd : same_at c (dd_before d2) (dd_after d2) key) by (apply Q; apply in_or_app; right; left; reflexivity).
    inversion H as [Eh|h ws' ch' w1 i left t w2 en ch2 r evs H' Ew K E Eh|h ws' ch' en op ch2 r evs H' K E Eh].
    + destruct h1; discriminate Eh.
    + apply app_inj_tail in Eh. destruct Eh as [-> <-]. subst. intros now v. rewrite (IH _ _ key H' Q2 now v). exact (Qd now v).
    + apply app_inj_tail in Eh. destruct Eh as [-> <-]. subst. intros now v. rewrite (IH _ _ key H' Q2 now v). exact (Qd now v).
Qed.
Lemma beside_deeds : forall h ws ch, beside c kind ws0 ch0 h ws ch ->
  (length (List.filter dd_job h) + length (todo ws) = length (todo ws0))%nat.
Proof.
  intros h ws ch H. induction H as [|h ws ch w1 i left t w2 en ch' r evs H IH Ew K E|h ws ch en op ch' r evs H IH K E].
  - reflexivity.
  - rewrite <- IH, filter_app, app_length, Ew. unfold todo. rewrite !List.map_app, !List.concat_app, !app_length.
    cbn [List.map List.concat wk_left List.filter dd_job length app]. rewrite !app_length. cbn [length]. lia.
  - rewrite filter_app, app_length. cbn [List.filter dd_job length]. lia.
Qed.
End Run.

Lemma ended_todo : forall ws, job_ended ws = true <-> todo ws = [].
Proof.
  induction ws as [|[l t] ws IH]; [split; reflexivity|]. unfold job_ended, todo in *. cbn [forallb List.map List.concat wk_left].
  destruct l as [|i l]; [exact IH|]. split; discriminate.
Qed.
Lemma start_times : forall fast procs nshards clock, (forall j, (0 < clock j)%Z) -> Forall (fun w => (0 < wk_time w)%Z) (job_start fast procs nshards clock).
Proof.
  intros fast procs nshards clock C. unfold job_start. destruct fast; [|constructor; [apply C|constructor]].
  apply Forall_forall. intros w Hw. apply in_map_iff in Hw. destruct Hw as ([j [s n]] & <- & _). apply C.
Qed.
Lemma start_clock : forall fast procs nshards clock w, In w (job_start fast procs nshards clock) -> exists j, wk_time w = clock j.
Proof.
  intros fast procs nshards clock w. unfold job_start. destruct fast; [|intros [<-|[]]; exists O; reflexivity].
  intro Hw. apply in_map_iff in Hw. destruct Hw as ([j [s n]] & <- & _). exists j. reflexivity.
Qed.
Lemma start_once : forall ch fast procs clock key, reachable c ch -> (0 < procs)%nat ->
  count_occ Nat.eq_dec (todo (job_start fast procs (N.to_nat (c_nshards c)) clock)) (route c key) = 1%nat.
Proof.
  intros ch fast procs clock key R P. rewrite todo_start; [|exact P|pose proof (opts_shards o) as B; fold c in B; lia].
  apply NoDup_count_occ'; [apply seq_NoDup|]. apply in_seq.
  pose proof (reach_cinv o ch R) as C. pose proof (route_lt c (opts_load o) ch key C). pose proof (ci_len c ch C) as CL. lia.
Qed.
End J.

(** FLUSHALL, with FAST or without, and whatever clients do meanwhile: each key is emptied at one moment between the command and its end, and the
    flush does nothing else to it. *)
Theorem C75_flush : forall o deferfree fast procs clock ch0 h ws ch key,
  reachable (ctx_of o) ch0 -> (0 < procs)%nat -> (forall j, (0 < clock j)%Z) ->
  beside (ctx_of o) (Flushes deferfree) (job_start fast procs (shards_of o) clock) ch0 h ws ch -> job_ended ws = true ->
  once (ctx_of o) (empties (ctx_of o) key) h key.
Proof.
  intros o df fast procs clock ch0 h ws ch key R P C H E.
  destruct (beside_inv o (Flushes df) _ ch0 R (start_times fast procs (shards_of o) clock C) h ws ch H) as (_ & _ & I).
  specialize (I key (start_once o ch0 fast procs clock key R P)). apply ended_todo in E. rewrite E in I.
  destruct I as [[D _]|[_ I]]; [discriminate D|exact I].
Qed.
(** So a key that no client changes meanwhile is gone when the reply is written. *)
Theorem C75_flush_gone : forall o deferfree fast procs clock ch0 h ws ch key,
  reachable (ctx_of o) ch0 -> (0 < procs)%nat -> (forall j, (0 < clock j)%Z) ->
  beside (ctx_of o) (Flushes deferfree) (job_start fast procs (shards_of o) clock) ch0 h ws ch -> job_ended ws = true ->
  (forall d, In d h -> dd_job d = false -> same_at (ctx_of o) (dd_before d) (dd_after d) key) ->
  forall now, sees (ctx_of o) ch key now None.
Proof.
  intros o df fast procs clock ch0 h ws ch key R P C H E Q now.
  destruct (C75_flush o df fast procs clock ch0 h ws ch key R P C H E) as (h1 & d & h2 & -> & J & Em & N).
  apply (beside_from o (Flushes df) _ ch0 h1 d h2 ws ch key H); [|exact (Em now)].
  intros d' Hd. destruct (dd_job d') eqn:J'; [apply N|apply Q]; try exact J'.
  - apply in_or_app. right. exact Hd.
  - apply in_or_app. right. right. exact Hd.
Qed.
(** SWEEP: at one moment an item of the key that has expired is removed, and the sweep does nothing else to it. *)
Theorem C75_sweep : forall o fast procs clock ch0 h ws ch key,
  reachable (ctx_of o) ch0 -> (0 < procs)%nat -> (forall j, (0 < clock j)%Z) ->
  beside (ctx_of o) Sweeps (job_start fast procs (shards_of o) clock) ch0 h ws ch -> job_ended ws = true ->
  once (ctx_of o) (fun d => exists j, tidies (ctx_of o) key (clock j) d) h key.
Proof.
  intros o fast procs clock ch0 h ws ch key R P C H E.
  destruct (beside_inv o Sweeps _ ch0 R (start_times fast procs (shards_of o) clock C) h ws ch H) as (_ & _ & I).
  specialize (I key (start_once o ch0 fast procs clock key R P)). apply ended_todo in E. rewrite E in I.
  destruct I as [[D _]|[_ (h1 & d & h2 & Eh & J & (w & Hw & T) & N)]]; [discriminate D|].
  exists h1, d, h2. split; [exact Eh|]. split; [exact J|]. split; [|exact N].
  destruct (start_clock fast procs (shards_of o) clock w Hw) as (j & Ej). exists j. rewrite <- Ej. exact T.
Qed.
(** Nobody can see a sweep: at every moment, ended or not, what it has done changes no answer from the latest of its clocks on. *)
Theorem C75_sweep_unseen : forall o fast procs clock latest ch0 h ws ch d key now v,
  reachable (ctx_of o) ch0 -> (0 < procs)%nat -> (forall j, (0 < clock j <= latest)%Z) ->
  beside (ctx_of o) Sweeps (job_start fast procs (shards_of o) clock) ch0 h ws ch -> In d h -> dd_job d = true -> (latest <= now)%Z ->
  (sees (ctx_of o) (dd_after d) key now v <-> sees (ctx_of o) (dd_before d) key now v).
Proof.
  intros o fast procs clock latest ch0 h ws ch d key now v R P C H Hd J L.
  destruct (beside_inv o Sweeps _ ch0 R (start_times fast procs (shards_of o) clock (fun j => proj1 (C j))) h ws ch H) as (_ & _ & I).
  destruct (I key (start_once o ch0 fast procs clock key R P)) as [[_ Q]|[_ (h1 & d1 & h2 & -> & J1 & (w & Hw & _ & T) & N)]].
  - symmetry. exact (Q d Hd J now v).
  - apply in_app_or in Hd. destruct Hd as [Hd|[<-|Hd]].
    + symmetry. exact (N d (in_or_app _ _ _ (or_introl Hd)) J now v).
    + apply T. destruct (start_clock fast procs (shards_of o) clock w Hw) as (j & Ej). rewrite Ej. specialize (C j). lia.
    + symmetry. exact (N d (in_or_app _ _ _ (or_intror Hd)) J now v).
Qed.
(** The job ends after as many visits as there are shards, whatever clients do; until then each of its threads that has not ended can go on (with
    memory for an empty table). *)
Theorem C75_ends : forall o kind fast procs clock ch0 h ws ch,
  reachable (ctx_of o) ch0 -> (0 < procs)%nat -> (forall j, (0 < clock j)%Z) ->
  beside (ctx_of o) kind (job_start fast procs (shards_of o) clock) ch0 h ws ch ->
  (length (List.filter dd_job h) <= shards_of o)%nat /\
  (job_ended ws = true <-> length (List.filter dd_job h) = shards_of o) /\
  forall w1 i left t w2 en, ws = w1 ++ mkWorker (i :: left) t :: w2 -> (forall j, al_table (en_mem en j) = true) ->
    exists ch', beside (ctx_of o) kind (job_start fast procs (shards_of o) clock) ch0 (h ++ [mkDeed true ch ch']) (w1 ++ mkWorker left t :: w2) ch'.
Proof.
  intros o kind fast procs clock ch0 h ws ch R P C H.
  pose proof (beside_deeds o kind _ ch0 h ws ch H) as D. rewrite todo_start, seq_length in D;
    [|exact P|pose proof (opts_shards o) as B; unfold shards_of; lia].
  split; [lia|]. split.
  - rewrite ended_todo. split; intro E; [rewrite E in D; cbn in D; lia|]. apply length_zero_iff_nil. lia.
  - intros w1 i left t w2 en Ew M.
    destruct (beside_inv o kind _ ch0 R (start_times fast procs (shards_of o) clock C) h ws ch H) as (Rc & _).
    assert (K : call_ok (ctx_of o) en (cabs (ctx_of o) ch) (work_call kind i t)) by (destruct kind; [exact M|exact I]).
    destruct (reachable_step (ctx_of o) (opts_load o) (opts_shards o) ch en (work_call kind i t) Rc K) as (ch1 & r1 & ev1 & E1 & _).
    exists ch1. subst ws. eapply bs_job; [exact H|reflexivity|exact K|exact E1].
Qed.

(** ** A client beside a flush of the two shards of the demonstration cache: it stores a under 1, the flush visits shard 0, the client stores d (of shard 0)
    and then a again (of shard 1), the flush visits shard 1. *)
Definition torn_calls : list (env * call) :=
  [ (plenty_env 100, Store [97] [49] plain_store 0);
    (plenty_env 101, Clear (Some 0%Z) true 101);
    (plenty_env 102, Store [100] [50] plain_store 0);
    (plenty_env 103, Store [97] [51] plain_store 0);
    (plenty_env 104, Clear (Some 1%Z) true 101) ].
Definition torn_at (k : nat) : cache :=
  match run demo_c demo_new (firstn k torn_calls) with Ok (ch, _, _) => ch | Bad _ => demo_new end.
Lemma torn_sensible : forall k, sensible demo_c demo_new (firstn k torn_calls).
Proof.
  intro k. destruct (new_ok demo_c (opts_load _) (opts_shards _) _ _ demo_is_new) as (I & _ & _ & A & _).
  assert (F : sensible demo_c demo_new torn_calls).
  { apply (few_sensible demo_c (opts_load _) torn_calls demo_new []).
    - exact I.
    - intros x X. destruct (X (A x)).
    - intros i ks Nd H. change 253%nat with (250 + 3)%nat.
      assert (L : (length ks <= length (stored torn_calls))%nat) by (apply NoDup_incl_length; [assumption|]; intros x Hx; apply H; assumption).
      cbn in L. lia.
    - unfold torn_calls. repeat apply Forall_cons; try apply Forall_nil; cbn [fst snd args_fine];
        first [split; [small_store|reflexivity]|intro; reflexivity]. }
  clear - F. revert F. generalize demo_new. generalize torn_calls. clear. revert k. induction k as [|k IH]; intros l ch F; [exact Logic.I|].
  destruct l as [|[en x] l]; [exact Logic.I|]. cbn [firstn sensible] in *. destruct F as [F1 F2]. split; [exact F1|].
  intros ch' r evs E. apply IH. exact (F2 ch' r evs E).
Qed.
Lemma torn_step : forall k, (k < 5)%nat -> exists r evs, step demo_c (fst (nth k torn_calls (plenty_env 0, Count None))) (torn_at k) (snd (nth k torn_calls (plenty_env 0, Count None))) = Ok (torn_at (S k), r, evs).
Proof. intros k K. do 5 (destruct k as [|k]; [eexists _, _; vm_compute; reflexivity|]). lia. Qed.
Lemma torn_run : forall k, (k <= 5)%nat -> exists rs evs, run demo_c demo_new (firstn k torn_calls) = Ok (torn_at k, rs, evs).
Proof. intros k K. do 6 (destruct k as [|k]; [eexists _, _; vm_compute; reflexivity|]). lia. Qed.
Lemma torn_reachable : forall k, (k <= 5)%nat -> reachable demo_c (torn_at k).
Proof.
  intros k K. destruct (torn_run k K) as (rs & evs & E). exists (fun _ => true), demo_new, (firstn k torn_calls), rs, evs.
  split; [exact demo_is_new|]. split; [apply torn_sensible|exact E].
Qed.
Lemma torn_sees : forall k key now v, (k <= 5)%nat -> option_map shown_of (live_item (cabs demo_c (torn_at k)) key now) = v -> sees demo_c (torn_at k) key now v.
Proof.
  intros k key now v K E. apply (sees_iff demo_c (opts_load demo_opts)); [|symmetry; exact E]. apply (reach_cinv demo_opts). exact (torn_reachable k K).
Qed.
Definition torn_deeds : list deed :=
  [mkDeed false (torn_at 0) (torn_at 1); mkDeed true (torn_at 1) (torn_at 2); mkDeed false (torn_at 2) (torn_at 3); mkDeed false (torn_at 3) (torn_at 4);
   mkDeed true (torn_at 4) (torn_at 5)].
Definition torn_clock (_ : nat) : Z := 101.
Lemma torn_ok : forall k, (k < 5)%nat -> call_ok demo_c (fst (nth k torn_calls (plenty_env 0, Count None))) (cabs demo_c (torn_at k)) (snd (nth k torn_calls (plenty_env 0, Count None))).
Proof.
  intros k K. pose proof (torn_sensible (S k)) as S. destruct (torn_run k ltac:(lia)) as (rs & evs & E).
  assert (G : forall l ch k ch1 rs evs, sensible demo_c ch (firstn (Datatypes.S k) l) -> (k < length l)%nat -> run demo_c ch (firstn k l) = Ok (ch1, rs, evs) ->
    call_ok demo_c (fst (nth k l (plenty_env 0, Count None))) (cabs demo_c ch1) (snd (nth k l (plenty_env 0, Count None)))).
  { clear. intros l ch k. revert l ch. induction k as [|k IH]; intros [|[en x] l] ch ch1 rs evs S L E; cbn in L; try lia.
    - cbn in E. injection E as -> _ _. exact (proj1 S).
    - change (firstn (Datatypes.S (Datatypes.S k)) ((en, x) :: l)) with ((en, x) :: firstn (Datatypes.S k) l) in S.
      change (firstn (Datatypes.S k) ((en, x) :: l)) with ((en, x) :: firstn k l) in E. destruct S as [_ S].
      cbn [run] in E. destruct (step demo_c en ch x) as [[[ch' r] ev]|] eqn:E1; [|discriminate].
      destruct (run demo_c ch' (firstn k l)) as [[[ch2 rs2] ev2]|] eqn:E2; [|discriminate]. injection E as <- _ _.
      exact (IH l ch' ch2 rs2 ev2 (S _ _ _ eq_refl) ltac:(lia) E2). }
  apply (G torn_calls demo_new k (torn_at k) rs evs S K E).
Qed.
Lemma torn_beside : exists ws, beside demo_c (Flushes true) (job_start false 1 (shards_of demo_opts) torn_clock) demo_new torn_deeds ws (torn_at 5) /\ job_ended ws = true.
Proof.
  change (job_start false 1 (shards_of demo_opts) torn_clock) with [mkWorker [0; 1]%nat 101].
  assert (B0 : beside demo_c (Flushes true) [mkWorker [0; 1]%nat 101] demo_new [] [mkWorker [0; 1]%nat 101] (torn_at 0)) by apply bs_start.
  destruct (torn_step 0 ltac:(lia)) as (r0 & e0 & S0). pose proof (bs_client _ _ _ _ _ _ _ _ _ _ _ _ B0 (torn_ok 0 ltac:(lia)) S0) as B1.
  destruct (torn_step 1 ltac:(lia)) as (r1 & e1 & S1). pose proof (bs_job _ _ _ _ _ _ _ [] 0%nat [1%nat] 101 [] _ _ _ _ B1 eq_refl (torn_ok 1 ltac:(lia)) S1) as B2.
  destruct (torn_step 2 ltac:(lia)) as (r2 & e2 & S2). pose proof (bs_client _ _ _ _ _ _ _ _ _ _ _ _ B2 (torn_ok 2 ltac:(lia)) S2) as B3.
  destruct (torn_step 3 ltac:(lia)) as (r3 & e3 & S3). pose proof (bs_client _ _ _ _ _ _ _ _ _ _ _ _ B3 (torn_ok 3 ltac:(lia)) S3) as B4.
  destruct (torn_step 4 ltac:(lia)) as (r4 & e4 & S4). pose proof (bs_job _ _ _ _ _ _ _ [] 1%nat [] 101 [] _ _ _ _ B4 eq_refl (torn_ok 4 ltac:(lia)) S4) as B5.
  eexists. split; [exact B5|reflexivity].
Qed.
(** The hypotheses above are met by it: the flush ends, with clients between its visits. *)
Example C75_case : exists ws,
  reachable demo_c demo_new /\ beside demo_c (Flushes true) (job_start false 1 (shards_of demo_opts) torn_clock) demo_new torn_deeds ws (torn_at 5) /\
  job_ended ws = true /\ (0 < torn_clock 0)%Z /\
  sees demo_c (torn_at 4) [97] 200 (Some (mkView [51] 0 0 3)) /\ sees demo_c (torn_at 5) [97] 200 None.
Proof.
  destruct torn_beside as (ws & B & E). exists ws. split; [exact (torn_reachable 0 ltac:(lia))|]. split; [exact B|]. split; [exact E|]. split; [reflexivity|].
  split; (apply torn_sees; [lia|vm_compute; reflexivity]).
Qed.
(** "FLUSHALL empties the cache at one moment": then of two keys that a client stores one after the other the second could not be gone while the first
    is there. It can: the moments of two keys differ. *)
Theorem C75_moment_refuted : exists ws,
  beside demo_c (Flushes true) (job_start false 1 (shards_of demo_opts) torn_clock) demo_new torn_deeds ws (torn_at 5) /\ job_ended ws = true /\
  (exists r evs, step demo_c (plenty_env 102) (torn_at 2) (Store [100] [50] plain_store 0) = Ok (torn_at 3, r, evs)) /\
  (exists r evs, step demo_c (plenty_env 103) (torn_at 3) (Store [97] [51] plain_store 0) = Ok (torn_at 4, r, evs)) /\
  sees demo_c (torn_at 5) [100] 200 (Some (mkView [50] 0 0 2)) /\ sees demo_c (torn_at 5) [97] 200 None.
Proof.
  destruct torn_beside as (ws & B & E). exists ws. split; [exact B|]. split; [exact E|]. split; [exact (torn_step 2 ltac:(lia))|].
  split; [exact (torn_step 3 ltac:(lia))|]. split; (apply torn_sees; [lia|vm_compute; reflexivity]).
Qed.
(** Two threads of SWEEP FAST, the second one first: an item that has expired is gone. *)
Example C75_sweep_case : exists h ch ws,
  reachable demo_c demo_ch /\ beside demo_c Sweeps (job_start true 2 (shards_of demo_opts) (fun _ => 200%Z)) demo_ch h ws ch /\ job_ended ws = true /\
  sees demo_c demo_ch [107; 49] 110 (Some (mkView [119] 123 5 4)) /\ sees demo_c demo_ch [107; 49] 200 None /\ sees demo_c ch [107; 49] 110 None.
Proof.
  assert (B0 : beside demo_c Sweeps (job_start true 2 (shards_of demo_opts) (fun _ => 200%Z)) demo_ch []
    [mkWorker [0%nat] 200; mkWorker [1%nat] 200] demo_ch) by apply bs_start.
  assert (P : (0 < 2)%nat) by lia. assert (C : forall j : nat, (0 < (fun _ => 200%Z) j)%Z) by reflexivity.
  destruct (C75_ends demo_opts Sweeps true 2 (fun _ => 200%Z) demo_ch _ _ _ demo_reachable P C B0) as (_ & _ & N0).
  destruct (N0 [mkWorker [0%nat] 200] 1%nat [] 200%Z [] (plenty_env 200) eq_refl (fun _ => eq_refl)) as (ch1 & B1).
  destruct (C75_ends demo_opts Sweeps true 2 (fun _ => 200%Z) demo_ch _ _ _ demo_reachable P C B1) as (_ & _ & N1).
  destruct (N1 [] 0%nat [] 200%Z [mkWorker [] 200] (plenty_env 200) eq_refl (fun _ => eq_refl)) as (ch2 & B2).
  assert (D : sees demo_c demo_ch [107; 49] 200 None) by (apply demo_sees_eq; vm_compute; reflexivity).
  eexists _, ch2, _. split; [exact demo_reachable|]. split; [exact B2|]. split; [reflexivity|].
  split; [apply demo_sees_eq; vm_compute; reflexivity|]. split; [exact D|].
  destruct (C75_sweep demo_opts true 2 (fun _ => 200%Z) demo_ch _ _ _ [107; 49] demo_reachable P C B2 eq_refl) as (h1 & d & h2 & Eh & J & (j & T & _) & N).
  destruct h1 as [|d1 [|d2 h1]]; cbn in Eh.
  - injection Eh as <- <-. cbn [dd_before dd_after] in T.
    apply (N (mkDeed true ch1 ch2) (or_introl eq_refl) eq_refl). exact (T D 110%Z).
  - injection Eh as <- <- <-. cbn [dd_before dd_after] in T.
    apply T. apply (N (mkDeed true demo_ch ch1) (or_introl eq_refl) eq_refl). exact D.
  - destruct h1; discriminate Eh.
Qed.
