(** A call that locks one shard looks at no other. *)
From Verif Require Import Base Types Clamp Varint Sixpack Entry Hash Map MapProofs Shard Conc Cache Threads.

Section Threads.
Variable c : ctx.

(** A result on the cache where the shard is alone, carried over to [l]. *)
Definition carry {A} (l : list shard) (i : nat) (s : shard) (o : out (cache * A * list event))
  : out (cache * A * list event) :=
  match o with
  | Ok (ch, a, evs) => Ok (mkCache (ca_next ch) (upd l i (nth i (ca_shards ch) s)), a, evs)
  | Bad t => Bad t
  end.

Lemma on_shard_local : forall A n l i s (f : shard -> out (shard * A * list event)),
  nth_error l i = Some s -> on_shard (mkCache n l) i f = carry l i s (on_shard (alone n i s) i f).
Proof.
  intros A n l i s f N. unfold on_shard, alone. cbn [ca_shards ca_next]. rewrite N.
  assert (E : nth_error (repeat s (S i)) i = Some s).
  { clear. induction i as [|i IH]; [reflexivity|]. exact IH. }
  rewrite E. destruct (f _) as [[[s' a] evs]|]; [|reflexivity]. cbn [carry ca_next ca_shards].
  rewrite nth_upd_same; [reflexivity|]. rewrite repeat_length. lia.
Qed.

Lemma each_one : forall A (body : nat -> A -> shard -> out (shard * (A * bool) * list event)) i a ch,
  each body [i] a ch = match on_shard ch i (body i a) with
    | Bad t => Bad t | Ok (ch1, (a1, _), ev1) => Ok (ch1, a1, ev1) end.
Proof.
  intros A body i a ch. cbn [each]. destruct (on_shard ch i (body i a)) as [[[ch1 [a1 stop]] ev1]|]; [|reflexivity].
  destruct stop; [reflexivity|]. rewrite app_nil_r. reflexivity.
Qed.

Lemma chosen_one : forall one i, one_shard c one = Some i -> chosen c one = [i].
Proof.
  intros [z|] i; cbn; [|discriminate]. destruct ((z <? 0) || (Z.of_N (c_nshards c) <=? z))%Z; [discriminate|].
  intros E. inversion E. reflexivity.
Qed.

Lemma call_local : forall p n l i s, call_shard c p = Some i -> nth_error l i = Some s ->
  step c (fst p) (mkCache n l) (snd p) = carry l i s (step c (fst p) (alone n i s) (snd p)).
Proof.
  intros [en x] n l i s CS N. unfold call_shard in CS. cbn [fst snd] in *.
  destruct x as [key val o time|key o time|key cb time|cb one time|cursor time|one time|ps time|one df time|one|one|one eo];
    cbn [step].
  - inversion CS; subst. unfold cache_store. rewrite (on_shard_local _ n l _ s) by exact N.
    destruct (on_shard _ _ _) as [[[? ?] ?]|]; reflexivity.
  - inversion CS; subst. unfold cache_load. rewrite (on_shard_local _ n l _ s) by exact N.
    destruct (on_shard _ _ _) as [[[? ?] ?]|]; reflexivity.
  - inversion CS; subst. unfold cache_delete. rewrite (on_shard_local _ n l _ s) by exact N.
    destruct (on_shard _ _ _) as [[[? ?] ?]|]; reflexivity.
  - unfold cache_iter. rewrite (chosen_one _ _ CS), !each_one. rewrite (on_shard_local _ n l _ s) by exact N.
    destruct (on_shard _ _ _) as [[[? [[? ?] ?]] ?]|]; reflexivity.
  - discriminate CS.
  - unfold cache_sweep. rewrite (chosen_one _ _ CS), !each_one. rewrite (on_shard_local _ n l _ s) by exact N.
    destruct (on_shard _ _ _) as [[[? [[? ?] ?]] ?]|]; reflexivity.
  - inversion CS; subst. unfold cache_sweep_poll. rewrite (on_shard_local _ n l _ s) by exact N.
    destruct (on_shard _ _ _) as [[[? [? ?]] ?]|]; reflexivity.
  - unfold cache_clear. rewrite (chosen_one _ _ CS), !each_one. rewrite (on_shard_local _ n l _ s) by exact N.
    destruct (on_shard _ _ _) as [[[? [? ?]] ?]|]; reflexivity.
  - unfold cache_sum. rewrite (chosen_one _ _ CS), !each_one. rewrite (on_shard_local _ n l _ s) by exact N.
    destruct (on_shard _ _ _) as [[[? [? ?]] ?]|]; reflexivity.
  - unfold cache_sum. rewrite (chosen_one _ _ CS), !each_one. rewrite (on_shard_local _ n l _ s) by exact N.
    destruct (on_shard _ _ _) as [[[? [? ?]] ?]|]; reflexivity.
  - unfold cache_sum. rewrite (chosen_one _ _ CS), !each_one. rewrite (on_shard_local _ n l _ s) by exact N.
    destruct (on_shard _ _ _) as [[[? [? ?]] ?]|]; reflexivity.
Qed.

(** Executing such calls one at a time is a history of the cache. *)
Lemma history_of : forall ops n l n' l' ch rs evs, one_by_one (call_sem c) n l ops n' l' ->
  Forall (fun x => call_shard c (snd (fst x)) = Some (fst (fst x))) ops ->
  run c (mkCache n l) (List.map (fun x => snd (fst x)) ops) = Ok (ch, rs, evs) ->
  ch = mkCache n' l' /\ List.map snd ops = List.map Ok rs.
Proof.
  induction ops as [|[[i [en x]] r] ops IH]; intros n l n' l' ch rs evs O F RUN; cbn [List.map fst snd run] in *.
  - inversion O; subst. inversion RUN; subst. auto.
  - inversion F as [|? ? CS F']; subst. cbn [fst snd] in CS.
    inversion O as [|? ? ? ? s g1 s1 ? ? ? ? N E O']; subst.
    unfold call_sem in E. rewrite CS in E. cbn [fst snd] in E.
    pose proof (call_local (en, x) n l i s CS N) as L. cbn [fst snd] in L. rewrite L in RUN.
    destruct (step c en (alone n i s) x) as [[[ch1 r1] ev1]|]; cbn [carry] in RUN; [|discriminate RUN].
    inversion E; subst. destruct (run c _ (List.map _ ops)) as [[[ch2 rs2] ev2]|] eqn:RN; [|discriminate RUN].
    inversion RUN; subst. destruct (IH _ _ _ _ _ _ _ O' F' RN) as [-> ->]. auto.
Qed.
End Threads.
