(** Invariants of the life of a process. *)
From Verif Require Import Base Types Clamp Entry Hash Map Shard Spec Cache Refine Reach Observe PropCache Text CmdSpec Save SaveSpec SaveProofs LoadProofs LoadProofs2
  SaveFs SaveFsProofs PropSave Lz4 Proc.
From Coq Require Import String.
Local Open Scope N_scope.
Notation map := List.map.
Notation length := List.length.

Lemma thread_mono : forall o z (tk tk' : nat -> shot -> Prop) f off ot t d off' t', (forall i s, tk i s -> tk' i s) ->
  thread_step o z tk f off ot t d off' t' -> thread_step o z tk' f off ot t d off' t'.
Proof.
  intros o z tk tk' f off ot t d off' t' M H. destruct H.
  - eapply ts_none; eauto.
  - eapply ts_block; eauto.
  - apply ts_lock; assumption.
  - apply ts_write; assumption.
  - apply ts_error; assumption.
  - apply ts_unlock.
  - apply ts_end.
Qed.
Lemma save_mono : forall o z (tk tk' : nat -> shot -> Prop) n fast sv f ph f' ph', (forall i s, tk i s -> tk' i s) ->
  save_step o z tk n fast sv f ph f' ph' -> save_step o z tk' n fast sv f ph f' ph'.
Proof.
  intros o z tk tk' n fast sv f ph f' ph' M H. destruct H.
  - apply ss_create; assumption.
  - apply ss_reopen; assumption.
  - apply ss_noopen.
  - eapply ss_thread. eapply thread_mono; eassumption.
  - apply ss_joined; assumption.
  - apply ss_failed; assumption.
  - apply ss_rename; assumption.
  - apply ss_norename.
  - apply ss_unlink.
  - apply ss_nounlink.
Qed.
Lemma saves_mono : forall o z (tk tk' : nat -> shot -> Prop) n fast x y, (forall i s, tk i s -> tk' i s) ->
  saves_steps o z tk n fast x y -> saves_steps o z tk' n fast x y.
Proof.
  intros o z tk tk' n fast x y M H. induction H as [x|x y w H IH Hs]; [apply sass_refl|]. eapply sass_step; [exact IH|].
  destruct Hs as [f s1 sv s2 f' ph' Hs]. apply sas_step. eapply save_mono; eassumption.
Qed.
Lemma load_mono : forall c d (ck ck' : Z -> Z -> Prop) envs x y, (forall a b, ck a b -> ck' a b) ->
  load_step c d ck envs x y -> load_step c d ck' envs x y.
Proof.
  intros c d ck ck' envs x y M H. destruct H.
  - eapply ls_take; eauto.
  - eapply ls_store; eauto.
  - apply ls_next.
  - apply ls_fail.
  - apply ls_end; assumption.
  - apply ls_push; assumption.
  - apply ls_stop.
  - apply ls_read.
Qed.
Lemma loads_mono : forall c d (ck ck' : Z -> Z -> Prop) envs x y, (forall a b, ck a b -> ck' a b) ->
  load_steps c d ck envs x y -> load_steps c d ck' envs x y.
Proof.
  intros c d ck ck' envs x y M H. induction H as [x|x y w H IH Hs]; [apply lss_refl|]. eapply lss_step; [exact IH|]. eapply load_mono; eassumption.
Qed.

(** ** While a process saves *)
(** The moments of the save at the end: the cache and the clocks after the signal, while save runs. *)
Definition during (t : list proc) (i : nat) (s : shot) : Prop :=
  exists x, In x t /\ pr_signal x = true /\ pr_save x <> None /\ s = picture x.
Lemma during_more : forall x t i s, during t i s -> during (x :: t) i s.
Proof. intros x t i s (y & Hy & H). exists y. split; [right; exact Hy|exact H]. Qed.

Section Inv.
Variable o : opts.
Variable persist work : bytes.
Variable nprocs : nat.
Variable junk : N -> bytes.
Variable envs : env -> Prop.
Variables (ch0 : cache) (now0 unix0 : Z) (f0 : fs).
Hypothesis Ht : times_ok now0 unix0.
Notation b := (born ch0 now0 unix0 f0).
Notation life := (life o persist work nprocs junk envs b).
Definition cleaned (f : fs) : Prop := f = f0 \/ exists un, f = clean un f0.
Definition save_inv (x : proc) (t : list proc) : Prop :=
  match pr_save x with
  | None => cleaned (pr_fs x)
  | Some ph => pr_signal x = true /\ exists fc, cleaned fc /\
      saves_steps o lz4_compress (during (x :: t)) nprocs true (fc, [mkSaver persist work POpen]) (pr_fs x, [mkSaver persist work ph])
  end.
Definition end_inv (x : proc) : Prop :=
  match pr_end x with
  | Some ESaved => pr_save x = Some (PDone true)
  | Some EFailed => pr_save x = Some (PDone false)
  | Some EIdle | Some ENoDir | Some ENoLoad => pr_save x = None
  | _ => True
  end.
(** Also: while a process starts nothing has changed. *)
Definition start_inv (x : proc) : Prop :=
  match pr_stage x with
  | SStart => pr_fs x = f0 /\ pr_cache x = ch0 /\ pr_save x = None /\ pr_ops x = []
  | SLoad _ => pr_save x = None /\ pr_ops x = []
  | SServe => True
  end.

Lemma saves_more : forall x y t fc w, saves_steps o lz4_compress (during (x :: t)) nprocs true fc w ->
  saves_steps o lz4_compress (during (y :: x :: t)) nprocs true fc w.
Proof. intros x y t fc w H. eapply saves_mono; [|exact H]. intros i s. apply during_more. Qed.
Lemma save_keep : forall x y t, save_inv x t -> pr_save y = pr_save x -> pr_fs y = pr_fs x -> (pr_signal x = true -> pr_signal y = true) -> save_inv y (x :: t).
Proof.
  intros x y t Hs E1 E2 E3. unfold save_inv in *. rewrite E1, E2. destruct (pr_save x) as [ph|]; [|exact Hs].
  destruct Hs as (S1 & fc & C & H). split; [apply E3; exact S1|]. exists fc. split; [exact C|]. apply saves_more. exact H.
Qed.

Lemma life_inv : forall x t, life (x :: t) -> save_inv x t /\ end_inv x /\ start_inv x /\ times_ok (pr_now x) (pr_unix x).
Proof.
  intros x t H. remember (x :: t) as l eqn:El. revert x t El. induction H as [|t x y H IH Hs]; intros x' t' El.
  - injection El as <- <-. split; [|split; [|split]].
    + left. reflexivity.
    + exact I.
    + cbn. repeat split.
    + exact Ht.
  - injection El as <- <-. destruct (IH x t eq_refl) as (Sv & En & St & Tm). clear IH.
    assert (KC : forall z, cleaned z -> cleaned z) by auto.
    destruct Hs; unfold at_stage, ended in *.
    + split; [eapply save_keep; eauto; reflexivity|]. split; [exact I|]. split; [exact St|assumption].
    + split; [eapply save_keep; eauto; reflexivity|]. split; [exact En|]. split; [exact I|exact Tm].
    + split; [eapply save_keep; eauto; reflexivity|]. unfold start_inv in St. rewrite H1 in St. destruct St as (S1 & S2 & S3 & S4).
      split; [exact S3|]. split; [unfold start_inv; cbn [pr_stage pr_fs pr_cache pr_save pr_ops]; rewrite H1; auto|exact Tm].
    + unfold start_inv in St. rewrite H1 in St. destruct St as (S1 & S2 & S3 & S4).
      split; [|split; [exact En|split; [exact I|exact Tm]]]. unfold save_inv. cbn [pr_save pr_fs]. rewrite S3. right. exists un. rewrite S1. reflexivity.
    + unfold start_inv in St. rewrite H1 in St. destruct St as (S1 & S2 & S3 & S4).
      split; [|split; [exact En|split; [split; assumption|exact Tm]]]. unfold save_inv. cbn [pr_save pr_fs]. rewrite S3. right. exists un. rewrite S1. reflexivity.
    + unfold start_inv in St. rewrite H1 in St. split; [eapply save_keep; eauto; reflexivity|]. split; [exact En|]. split; [exact St|exact Tm].
    + split; [eapply save_keep; eauto; reflexivity|]. split; [exact En|]. split; [exact I|exact Tm].
    + unfold start_inv in St. rewrite H1 in St. destruct St as (S3 & S4). split; [eapply save_keep; eauto; reflexivity|].
      split; [exact S3|]. split; [unfold start_inv; cbn [pr_stage pr_save pr_ops]; rewrite H1; split; assumption|exact Tm].
    + split; [eapply save_keep; eauto; reflexivity|]. split; [exact I|]. split; [exact I|exact Tm].
    + split; [eapply save_keep; eauto; reflexivity|]. split; [exact I|]. split; [exact St|exact Tm].
    + split; [eapply save_keep; eauto; reflexivity|]. split; [exact I|]. split; [exact St|exact Tm].
    + split; [eapply save_keep; eauto; reflexivity|]. split; [assumption|]. split; [exact St|exact Tm].
    + split; [|split; [exact I|split; [exact I|exact Tm]]]. unfold save_inv in *. cbn [pr_save pr_fs pr_signal]. rewrite H2 in Sv.
      split; [reflexivity|]. exists (pr_fs x). split; [exact Sv|]. apply sass_refl.
    + unfold save_inv in Sv. rewrite H1 in Sv. destruct Sv as (S1 & fc & C & Hr).
      split; [|split; [exact I|split; [|exact Tm]]].
      * unfold save_inv. cbn [pr_save pr_fs pr_signal]. split; [exact S1|]. exists fc. split; [exact C|]. eapply sass_step; [apply saves_more; exact Hr|].
        apply (sas_step _ _ _ _ _ (pr_fs x) [] (mkSaver persist work ph) []). cbn [sv_phase]. eapply save_mono; [|exact H2].
        intros i s ->. exists x. split; [right; left; reflexivity|]. split; [exact S1|]. split; [rewrite H1; discriminate|reflexivity].
      * unfold start_inv in *. cbn [pr_stage pr_save pr_fs pr_cache pr_ops]. destruct (pr_stage x); [| |exact I].
        -- destruct St as (_ & _ & S3 & _). rewrite H1 in S3. discriminate.
        -- destruct St as (S3 & _). rewrite H1 in S3. discriminate.
    + split; [eapply save_keep; eauto; reflexivity|]. split; [assumption|]. split; [exact St|exact Tm].
    + split; [eapply save_keep; eauto; reflexivity|]. split; [assumption|]. split; [exact St|exact Tm].
Qed.

(** A part of a life is a life. *)
Lemma life_tail : forall t x, life t -> In x t -> exists t', life (x :: t') /\ (forall y, In y (x :: t') -> In y t).
Proof.
  intros t x H. induction H as [|t z y H IH Hs]; intros Hin.
  - destruct Hin as [<-|[]]. exists []. split; [constructor|auto].
  - destruct Hin as [<-|Hin].
    + exists (z :: t). split; [econstructor; eassumption|auto].
    + destruct (IH Hin) as (t' & A & B). exists t'. split; [exact A|]. intros w Hw. right. apply B. exact Hw.
Qed.

(** The caches of a process are reachable if those are that it begins to serve with. *)
Lemma life_reach : forall t, life t -> (forall z, In z t -> pr_stage z = SServe -> pr_ops z = [] -> reachable (ctx_of o) (pr_cache z)) ->
  forall z, In z t -> pr_stage z = SServe -> reachable (ctx_of o) (pr_cache z).
Proof.
  intros t H. induction H as [|t x y H IH Hs]; intros F z Hin Hz.
  - destruct Hin as [<-|[]]. discriminate.
  - specialize (IH (fun w Hw => F w (or_intror Hw))). destruct Hin as [<-|Hin]; [|apply IH; assumption].
    assert (IHx : pr_stage x = SServe -> reachable (ctx_of o) (pr_cache x)) by (intro E; apply IH; [left; reflexivity|exact E]).
    destruct (life_inv x t H) as (_ & _ & St & _). unfold start_inv in St.
    assert (Fy : pr_ops y = [] -> reachable (ctx_of o) (pr_cache y)) by (intro E; apply F; [left; reflexivity|exact Hz|exact E]).
    destruct Hs; unfold at_stage, ended in *; cbn [pr_stage pr_cache pr_ops] in *; try discriminate; try (apply IHx; assumption).
    + apply Fy. rewrite H1 in St. apply St.
    + apply Fy. rewrite H1 in St. apply St.
    + apply Fy. rewrite H1 in St. apply St.
    + destruct (made o (pr_cache x) en op ch r evs (IHx H1) H2 H3) as (R & _). exact R.
Qed.
Lemma save_serve : forall x t, life (x :: t) -> pr_save x <> None -> pr_stage x = SServe.
Proof.
  intros x t H Hs. destruct (life_inv x t H) as (_ & _ & St & _). unfold start_inv in St. destruct (pr_stage x); [| |reflexivity].
  - destruct St as (_ & _ & S3 & _). contradiction.
  - destruct St as (S3 & _). contradiction.
Qed.

(** ** What is found at the start *)
Variable file : bytes.
Hypothesis Hne : persist <> [].
Hypothesis Hfile : forall un, content (clean un f0) persist = Some file.
Definition reading (t : list proc) (now unix : Z) : Prop := exists y l, In y t /\ pr_stage y = SLoad l /\ now = pr_now y /\ unix = pr_unix y.
Definition found_inv (x : proc) (t : list proc) : Prop :=
  match pr_stage x with
  | SStart => True
  | SLoad l => load_steps (ctx_of o) (lz4_decompress junk) (reading (x :: t)) envs (load_start file nprocs ch0) l
  | SServe => pr_ops x = [] -> exists l, load_steps (ctx_of o) (lz4_decompress junk) (reading (x :: t)) envs (load_start file nprocs ch0) l /\
      load_ended l = true /\ pr_cache x = ld_cache l
  end.
Lemma reading_more : forall x t now unix, reading t now unix -> reading (x :: t) now unix.
Proof. intros x t now unix (y & l & Hy & H). exists y, l. split; [right; exact Hy|exact H]. Qed.
Lemma loads_more : forall x y t a l, load_steps (ctx_of o) (lz4_decompress junk) (reading (x :: t)) envs a l ->
  load_steps (ctx_of o) (lz4_decompress junk) (reading (y :: x :: t)) envs a l.
Proof. intros x y t a l H. eapply loads_mono; [|exact H]. intros now unix. apply reading_more. Qed.
Lemma found_keep : forall x y t, found_inv x t -> pr_stage y = pr_stage x -> pr_cache y = pr_cache x -> pr_ops y = pr_ops x -> found_inv y (x :: t).
Proof.
  intros x y t F E1 E2 E3. unfold found_inv in *. rewrite E1, E2, E3. destruct (pr_stage x); [exact I|apply loads_more; exact F|].
  intro E. destruct (F E) as (l & A & B). exists l. split; [apply loads_more; exact A|exact B].
Qed.
Lemma found : forall x t, life (x :: t) -> found_inv x t.
Proof.
  intros x t H. remember (x :: t) as l eqn:El. revert x t El. induction H as [|t x y H IH Hs]; intros x' t' El.
  - injection El as <- <-. exact I.
  - injection El as <- <-. specialize (IH x t eq_refl).
    destruct (life_inv x t H) as (_ & _ & St & _). unfold start_inv in St.
    destruct Hs; unfold at_stage, ended in *; try (eapply found_keep; [exact IH|reflexivity|reflexivity|reflexivity]).
    + contradiction.
    + rewrite H1 in St. destruct St as (S1 & _). rewrite S1, Hfile in H3. discriminate.
    + rewrite H1 in St. destruct St as (S1 & S2 & _). rewrite S1, Hfile in H3. injection H3 as <-. unfold found_inv. cbn [pr_stage]. rewrite S2. apply lss_refl.
    + unfold found_inv in *. cbn [pr_stage]. rewrite H1 in IH. eapply lss_step; [apply loads_more; exact IH|]. eapply load_mono; [|exact H2].
      intros a c0 [-> ->]. exists x, l. split; [right; left; reflexivity|]. auto.
    + unfold found_inv in *. cbn [pr_stage pr_ops pr_cache]. rewrite H1 in IH. intros _. exists l. split; [apply loads_more; exact IH|]. auto.
    + unfold found_inv. cbn [pr_stage pr_ops]. discriminate.
    + unfold found_inv in *. cbn [pr_stage pr_ops pr_cache]. rewrite H3 in IH. intro E. destruct (IH E) as (l & A & B). exists l. split; [apply loads_more; exact A|exact B].
Qed.
End Inv.
