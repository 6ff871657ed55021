(** C83 for MGET: what it replies for each key stood in the cache at some moment of the command. *)
From Verif Require Import Base Types Clamp Entry Hash Map Shard Spec Cache Refine Reach Observe Text IntText IntTextProofs CmdTable CmdTableProofs CmdSpec CmdSpec2 Prog Cmds CmdsProofs CmdsProofs2 PropCmds PropCmds2 PropCache SafeSpec PropSafe2 PropFrame PropSpan Weave WeaveSpec WeaveProofs WeaveProofs2 PropWeave.
From Coq Require Import String Lia.
Notation length := List.length.
Notation map := List.map.

Section M.
Variable o : opts.
Notation c := (ctx_of o).
Definition hits (l : list (bytes * option Types.view)) : N := N.of_nat (length (List.filter (fun p : bytes * option Types.view => match snd p with Some _ => true | None => false end) l)).

(** The step of the loop: it reads one key. *)
Lemma look_step : forall en ch key now, reachable c ch -> (0 < now)%Z -> forall ch1 r ev,
  step c en ch (Load key (mkLoadOpts false just_look) now) = Ok (ch1, r, ev) ->
  exists old, sees c ch key now old /\ r = match old with Some v => RStatus FOUND [(key, v)] | None => RStatus NOTFOUND [] end.
Proof.
  intros en ch key now R P ch1 r ev E. destruct (sees_some o ch key now R) as [old So]. exists old. split; [exact So|].
  destruct (made_load o ch en key (mkLoadOpts false just_look) now ch1 r ev R (look_ok key false) E) as (_ & st & sh & m' & cas' & -> & S & _ & _).
  rewrite (resolve_pos _ _ P) in S. apply sees_item in So; [|exact R].
  unfold sp_load in S. destruct (live_item (cabs c ch) key now) as [it|] eqn:L; cbn [option_map] in So; subst old; cbn [lo_entry lo_notouch just_look] in S; injection S as _ _ <- <-; reflexivity.
Qed.
Definition moment (sched : list nat) (ch : cache) (ws : list worker) (t : nat) (chi : cache) : Prop :=
  exists A B wsi, sched = A ++ t :: B /\ weave c A ch ws = Ok (chi, wsi).
Lemma moment_later : forall u r ch ws w ch1 w1 t chi, nth_error ws u = Some w -> wstep c ch w = Ok (ch1, w1) -> moment r ch1 (put_at ws u w1) t chi -> moment (u :: r) ch ws t chi.
Proof. intros u r ch ws w ch1 w1 t chi N E (A & B & wsi & -> & X). exists (u :: A), B, wsi. split; [reflexivity|]. cbn [weave]. rewrite N, E. exact X. Qed.
Lemma moment_skip : forall u r ch ws t chi, nth_error ws u = None -> moment r ch ws t chi -> moment (u :: r) ch ws t chi.
Proof. intros u r ch ws t chi N (A & B & wsi & -> & X). exists (u :: A), B, wsi. split; [reflexivity|]. cbn [weave]. rewrite N. exact X. Qed.

(** The end of the command: it only writes. *)
Lemma tail_run : forall t sched ch ws ch' ws' w w' l, weave c sched ch ws = Ok (ch', ws') -> nth_error ws t = Some w -> wk_batch w = false -> wk_prog w = puts l Done ->
  nth_error ws' t = Some w' -> wk_prog w' = Done -> wk_did w' = wk_did w ++ map Out l.
Proof.
  intro t. induction sched as [|u r IH]; intros ch ws ch' ws' w w' l E N B Pw N' D; cbn [weave] in E.
  - injection E as <- <-. rewrite N in N'. injection N' as <-. rewrite D in Pw. destruct l; [|discriminate Pw]. symmetry. apply app_nil_r.
  - destruct (nth_error ws u) as [wu|] eqn:Nu; [|exact (IH _ _ _ _ _ _ _ E N B Pw N' D)].
    destruct (wstep c ch wu) as [[ch1 w1]|] eqn:Es; [|discriminate E].
    destruct (Nat.eq_dec t u) as [<-|Ne].
    + rewrite N in Nu. injection Nu as <-. unfold wstep in Es. rewrite B, Pw in Es. destruct l as [|x l]; cbn [puts] in Es; injection Es as <- <-.
      * exact (IH _ _ _ _ _ _ [] E (put_at_same _ _ _ _ N) B Pw N' D).
      * rewrite (IH _ _ _ _ _ _ l E (put_at_same _ _ _ _ N) eq_refl eq_refl N' D). cbn [wk_did map]. rewrite <- app_assoc. reflexivity.
    + refine (IH _ _ _ _ _ _ _ E _ B Pw N' D). rewrite put_at_other by exact Ne. exact N.
Qed.
Lemma F2_impl : forall (X Y : Type) (P Q : X -> Y -> Prop) a b, (forall x y, P x y -> Q x y) -> Forall2 P a b -> Forall2 Q a b.
Proof. intros X Y P Q a b H F. induction F; constructor; auto. Qed.
Lemma F2_length : forall (X Y : Type) (P : X -> Y -> Prop) a b, Forall2 P a b -> length a = length b.
Proof. intros X Y P a b F. induction F; cbn; congruence. Qed.
Definition kind_of (b : bool) : get_kind := if b then KIND_MGETS else KIND_MGET.
Lemma loop_run : forall t pr b now fin, (0 < now)%Z -> forall sched ch ws ch' ws' w w' rest outs cnt, weave c sched ch ws = Ok (ch', ws') ->
  (forall A B chi wsi, sched = A ++ B -> weave c A ch ws = Ok (chi, wsi) -> reachable c chi) ->
  nth_error ws t = Some w -> wk_batch w = false -> wk_prog w = puts outs (mget_loop pr (kind_of b) now rest cnt (fun n => answer (fin n))) ->
  nth_error ws' t = Some w' -> wk_prog w' = Done ->
  exists olds, Forall2 (fun key old => exists chi, moment sched ch ws t chi /\ sees c chi key now old) rest olds /\
    wk_did w' = wk_did w ++ map Out (outs ++ flat_map (mget_one u64toa pr b) (combine rest olds) ++ fin (cnt + hits (combine rest olds))%N).
Proof.
  intros t pr b now fin Pn. induction sched as [|u r IH]; intros ch ws ch' ws' w w' rest outs cnt E Re N B Pw N' D.
  - cbn [weave] in E. injection E as <- <-. rewrite N in N'. injection N' as <-. rewrite D in Pw. destruct outs; [|discriminate Pw]. cbn [puts] in Pw.
    destruct rest as [|key rest]; [|discriminate Pw]. cbn [mget_loop] in Pw. exists []. split; [constructor|]. cbn [combine flat_map hits List.filter length app].
    change (cnt + hits [])%N with (cnt + 0)%N. rewrite N.add_0_r. unfold answer in Pw. destruct (fin cnt); [|discriminate Pw]. symmetry. apply app_nil_r.
  - pose proof E as E0. cbn [weave] in E. destruct (nth_error ws u) as [wu|] eqn:Nu.
    2:{ destruct (IH _ _ _ _ w w' rest outs cnt E) as (olds & F & Dd); try assumption.
        - intros A B' chi wsi -> X. apply (Re (u :: A) B' chi wsi eq_refl). cbn [weave]. rewrite Nu. exact X.
        - exists olds. split; [|exact Dd]. revert F. apply F2_impl. intros key old (chi & M & S). exists chi. split; [apply moment_skip; assumption|exact S]. }
    destruct (wstep c ch wu) as [[ch1 w1]|] eqn:Es; [|discriminate E].
    assert (Re1 : forall A B chi wsi, r = A ++ B -> weave c A ch1 (put_at ws u w1) = Ok (chi, wsi) -> reachable c chi).
    { intros A B' chi wsi -> X. apply (Re (u :: A) B' chi wsi eq_refl). cbn [weave]. rewrite Nu, Es. exact X. }
    assert (Lat : forall rest olds, Forall2 (fun key old => exists chi, moment r ch1 (put_at ws u w1) t chi /\ sees c chi key now old) rest olds ->
      Forall2 (fun key old => exists chi, moment (u :: r) ch ws t chi /\ sees c chi key now old) rest olds).
    { intros rest0 olds0. apply F2_impl. intros key old (chi & M & S). exists chi. split; [exact (moment_later _ _ _ _ _ _ _ _ _ Nu Es M)|exact S]. }
    destruct (Nat.eq_dec t u) as [<-|Ne].
    2:{ destruct (IH _ _ _ _ w w' rest outs cnt E Re1) as (olds & F & Dd); try assumption; [rewrite put_at_other by exact Ne; exact N|]. exists olds. split; [apply Lat, F|exact Dd]. }
    rewrite N in Nu. injection Nu as <-. pose proof (put_at_same ws t w w1 N) as N1.
    destruct outs as [|x outs].
    2:{ unfold wstep in Es. rewrite B, Pw in Es. cbn [puts] in Es. injection Es as <- <-.
        destruct (IH _ _ _ _ _ w' rest outs cnt E Re1 N1 eq_refl eq_refl N' D) as (olds & F & Dd). exists olds. split; [apply Lat, F|].
        rewrite Dd. cbn [wk_did app map]. rewrite <- app_assoc. reflexivity. }
    destruct rest as [|key rest].
    { exists []. split; [constructor|]. cbn [combine flat_map app]. change (cnt + hits [])%N with (cnt + 0)%N. rewrite N.add_0_r.
      exact (tail_run t _ _ _ _ _ _ _ _ E0 N B Pw N' D). }
    unfold wstep in Es. rewrite B, Pw in Es. cbn [puts mget_loop] in Es.
    destruct (step c (in_env (wk_orc w (wk_n w))) ch _) as [[[ch2 res] ev]|] eqn:St; [|discriminate Es]. injection Es as <- <-.
    assert (R0 : reachable c ch) by (apply (Re [] (t :: r) ch ws eq_refl); reflexivity).
    destruct (look_step _ _ _ _ R0 Pn _ _ _ St) as (old & So & ->).
    assert (Here : exists chi, moment (t :: r) ch ws t chi /\ sees c chi key now old) by (exists ch; split; [exists [], r, ws; split; reflexivity|exact So]).
    destruct old as [v|].
    + edestruct (IH _ _ _ _ _ w' rest (flat_map (fun p => get_entry pr (kind_of b) (fst p) (snd p)) [(key, v)]) (cnt + 1)%N E Re1 N1 eq_refl) as (olds & F & Dd); [reflexivity|exact N'|exact D|]. exists (Some v :: olds).
      split; [constructor; [exact Here|apply Lat, F]|]. rewrite Dd. cbn [wk_did combine flat_map app fst snd]. f_equal. f_equal. rewrite app_nil_r, <- app_assoc. f_equal; [|f_equal; f_equal].
      * destruct pr, b; reflexivity.
      * unfold hits. cbn [List.filter snd length]. lia.
    + edestruct (IH _ _ _ _ _ w' rest (if is_resp pr then [WNull] else []) cnt E Re1 N1 eq_refl) as (olds & F & Dd); [reflexivity|exact N'|exact D|]. exists (None :: olds).
      split; [constructor; [exact Here|apply Lat, F]|]. rewrite Dd. cbn [wk_did combine flat_map app]. f_equal. f_equal. rewrite <- app_assoc. f_equal. destruct pr, b; reflexivity.
Qed.
End M.

(** An MGET or MGETS among any other commands of any other threads: when it has ended, its reply has for each of its keys what the cache showed for
    this key at some moment between its beginning and its end, at the time that it read from the clock when it began. The caches of all moments are taken
    to be caches of sensible histories (Reach.reachable: keys and values of a size C can address). *)
Theorem C83_mget : forall o cf cs sched ch ch' ws t x w a0 keys (withcas : bool),
  (forall A B chi wsi, sched = A ++ B -> weave (ctx_of o) A ch (map (starting cf) cs) = Ok (chi, wsi) -> reachable (ctx_of o) chi) ->
  weave (ctx_of o) sched ch (map (starting cf) cs) = Ok (ch', ws) ->
  nth_error cs t = Some x -> cm_args x = a0 :: keys -> keys <> [] -> word a0 (if withcas then "mgets" else "mget")%string ->
  (cf_useauth cf = false \/ cm_auth x = true \/ cm_proto x = HTTP) -> fine (cm_orc x) ->
  nth_error ws t = Some w -> finished w ->
  exists olds dec, prints dec /\ wk_did w = map Out (mget_reply dec (cm_proto x) withcas (combine keys olds)) /\
    Forall2 (fun key old => exists chi, during (ctx_of o) cf cs ch sched t chi /\ sees (ctx_of o) chi key (in_now (cm_orc x 0%nat)) old) keys olds.
Proof.
  intros o cf cs sched ch ch' ws t x w a0 keys withcas Re E Nx Ea Nk W Al Fi Nw [Dn _].
  assert (Ev : evcommand cf (cm_auth x) (cm_proto x) (cm_args x) = cmdMGET (cm_proto x) (cm_args x) /\ in_batch (cm_args x) = false /\ is_word a0 "mgets" = withcas).
  { unfold evcommand, in_batch. rewrite Ea. cbn [hd].
    replace (cf_useauth cf && negb (cm_auth x) && negb (is_http (cm_proto x))) with false.
    2:{ destruct Al as [-> |[-> | ->]]; [reflexivity|rewrite andb_false_r; reflexivity|cbn; rewrite andb_false_r; reflexivity]. }
    destruct withcas.
    - rewrite (PropFrame.get_at a0 "mgets"%string 4%nat W eq_refl). split; [reflexivity|]. split; [reflexivity|]. apply is_word_iff. exact W.
    - rewrite (PropFrame.get_at a0 "mget"%string 3%nat W eq_refl). split; [reflexivity|]. split; [reflexivity|]. apply Bool.not_true_iff_false. intro X. apply is_word_iff in X. unfold word in W, X. rewrite W in X. discriminate X. }
  destruct Ev as (Ev & Ib & Iw).
  assert (N0 : nth_error (map (starting cf) cs) t = Some (starting cf x)) by (rewrite nth_error_map, Nx; reflexivity).
  destruct (Fi 0%nat) as [[Pn _] _]. apply proj1 in Pn.
  (* the first step of the thread: it asks for the time *)
  assert (G : forall sched ch ws0, weave (ctx_of o) sched ch ws0 = Ok (ch', ws) ->
    (forall A B chi wsi, sched = A ++ B -> weave (ctx_of o) A ch ws0 = Ok (chi, wsi) -> reachable (ctx_of o) chi) ->
    nth_error ws0 t = Some (starting cf x) ->
    exists olds, wk_did w = map Out (mget_reply u64toa (cm_proto x) withcas (combine keys olds)) /\
      Forall2 (fun key old => exists chi, (exists A B wsi, sched = A ++ t :: B /\ In t A /\ weave (ctx_of o) A ch ws0 = Ok (chi, wsi)) /\ sees (ctx_of o) chi key (in_now (cm_orc x 0%nat)) old) keys olds).
  2:{ destruct (G sched ch _ E Re N0) as (olds & Dd & F). exists olds, u64toa. split; [exact u64toa_prints|]. split; [exact Dd|exact F]. }
  clear E Re N0 sched ch. induction sched as [|u r IH]; intros ch ws0 E Re N0.
  - cbn [weave] in E. injection E as <- <-. rewrite N0 in Nw. injection Nw as <-. cbn [starting wk_prog] in Dn. rewrite Ev, Ea in Dn. destruct keys; [congruence|discriminate Dn].
  - cbn [weave] in E. destruct (nth_error ws0 u) as [wu|] eqn:Nu.
    2:{ destruct (IH ch ws0 E) as (olds & Dd & F); [|exact N0|].
        - intros A B chi wsi -> X. apply (Re (u :: A) B chi wsi eq_refl). cbn [weave]. rewrite Nu. exact X.
        - exists olds. split; [exact Dd|]. revert F. apply F2_impl. intros key old (chi & (A & B & wsi & -> & I & X) & S). exists chi. split; [|exact S].
          exists (u :: A), B, wsi. split; [reflexivity|]. split; [right; exact I|]. cbn [weave]. rewrite Nu. exact X. }
    destruct (wstep (ctx_of o) ch wu) as [[ch1 w1]|] eqn:Es; [|discriminate E].
    assert (Re1 : forall A B chi wsi, r = A ++ B -> weave (ctx_of o) A ch1 (put_at ws0 u w1) = Ok (chi, wsi) -> reachable (ctx_of o) chi).
    { intros A B chi wsi -> X. apply (Re (u :: A) B chi wsi eq_refl). cbn [weave]. rewrite Nu, Es. exact X. }
    destruct (Nat.eq_dec t u) as [<-|Ne].
    2:{ destruct (IH ch1 _ E Re1) as (olds & Dd & F); [rewrite put_at_other by exact Ne; exact N0|]. exists olds. split; [exact Dd|]. revert F. apply F2_impl.
        intros key old (chi & (A & B & wsi & -> & I & X) & S). exists chi. split; [|exact S].
        exists (u :: A), B, wsi. split; [reflexivity|]. split; [right; exact I|]. cbn [weave]. rewrite Nu, Es. exact X. }
    rewrite N0 in Nu. injection Nu as <-. pose proof (put_at_same ws0 t _ w1 N0) as N1.
    unfold wstep in Es. cbn [starting wk_batch wk_prog wk_orc wk_n wk_did] in Es. rewrite Ib, Ev, Ea in Es. unfold cmdMGET in Es.
    destruct keys as [|k1 keys]; [congruence|]. rewrite Iw in Es. cbn [List.tl] in Es. injection Es as <- <-.
    match type of E with weave _ _ _ (put_at _ _ (mkWorker _ _ _ (puts ?ou _) _)) = _ =>
      destruct (loop_run o t (cm_proto x) withcas (in_now (cm_orc x 0%nat))
        (fun count => by_proto (cm_proto x) [raw_line "END"] (complete (tag (bs "MGET") (u64toa count))) [] []) Pn _ _ _ _ _ _ w (k1 :: keys) ou 0%N E Re1 N1 eq_refl eq_refl Nw Dn) as (olds & F & Dd) end.
    exists olds. split.
    + rewrite Dd. cbn [wk_did app]. f_equal. unfold mget_reply. pose proof (F2_length _ _ _ _ _ F) as L. rewrite combine_length, <- L, Nat.min_id. cbn [N.add].
      destruct (cm_proto x), withcas; reflexivity.
    + revert F. apply F2_impl. intros key old (chi & (A & B & wsi & -> & X) & S). exists chi. split; [|exact S]. exists (t :: A), B, wsi. split; [reflexivity|]. split; [left; reflexivity|].
      cbn [weave]. rewrite N0. unfold wstep. cbn [starting wk_batch wk_prog wk_orc wk_n wk_did]. rewrite Ib, Ev, Ea. unfold cmdMGET. rewrite Iw. cbn [List.tl]. exact X.
Qed.

(** *** A case: the MGET between two SETs of C83_several_keys_refuted meets all of this *)
Definition torn1 : cache := Eval vm_compute in then_ 0 [bs "GET"; bs "k1"] demo_ch.
Definition torn2 : cache := Eval vm_compute in then_ 1 [bs "SET"; bs "k1"; bs "x"] torn1.
Definition torn3 : cache := Eval vm_compute in then_ 2 [bs "SET"; bs "k3"; bs "y"] torn2.
Definition torn4 : cache := Eval vm_compute in then_ 0 [bs "GET"; bs "k3"] torn3.
Lemma torn1_ok : reachable demo_c torn1 /\ SafeSpec.sized demo_opts 40 torn1.
Proof. span_next 0%nat (conj demo_reachable demo_sized) [bs "GET"; bs "k1"]. Qed.
Lemma torn2_ok : reachable demo_c torn2 /\ SafeSpec.sized demo_opts 40 torn2.
Proof. span_next 1%nat torn1_ok [bs "SET"; bs "k1"; bs "x"]. Qed.
Lemma torn3_ok : reachable demo_c torn3 /\ SafeSpec.sized demo_opts 40 torn3.
Proof. span_next 2%nat torn2_ok [bs "SET"; bs "k3"; bs "y"]. Qed.
Lemma torn4_ok : reachable demo_c torn4 /\ SafeSpec.sized demo_opts 40 torn4.
Proof. span_next 0%nat torn3_ok [bs "GET"; bs "k3"]. Qed.
Definition torn_at (n : nat) : option cache := match weave demo_c (firstn n torn_sched) demo_ch (map (starting case_cf) torn_cmds) with Ok (chi, _) => Some chi | Bad _ => None end.
Definition torn_caches : list (option cache) := [Some demo_ch; Some torn1; Some torn2; Some torn3; Some torn4].
Lemma torn_all : forall n, (n <= 28)%nat -> exists i, (i <= 4)%nat /\ torn_at n = nth i torn_caches None.
Proof.
  intros n L. do 29 (destruct n as [|n]; [clear L; first [exists 0%nat; split; [lia|vm_compute; reflexivity]|exists 1%nat; split; [lia|vm_compute; reflexivity]|exists 2%nat; split; [lia|vm_compute; reflexivity]
    |exists 3%nat; split; [lia|vm_compute; reflexivity]|exists 4%nat; split; [lia|vm_compute; reflexivity]]|]). exfalso. lia.
Qed.
Lemma some_same : forall (X : Type) (a b : X), Some a = Some b -> a = b.
Proof. intros X a b E. injection E as <-. reflexivity. Qed.
Lemma torn_reach : forall A B chi wsi, torn_sched = A ++ B -> weave demo_c A demo_ch (map (starting case_cf) torn_cmds) = Ok (chi, wsi) -> reachable demo_c chi.
Proof.
  intros A B chi wsi Es X.
  assert (L : (length A <= 28)%nat) by (change 28%nat with (length torn_sched); rewrite Es, app_length; lia).
  destruct (torn_all (length A) L) as (i & Li & I). unfold torn_at in I.
  replace (firstn (length A) torn_sched) with A in I by (rewrite Es, firstn_app, Nat.sub_diag, firstn_all, firstn_O, app_nil_r; reflexivity). rewrite X in I.
  destruct i as [|[|[|[|[|i]]]]]; [..|lia]; apply some_same in I; rewrite I; [exact demo_reachable|apply torn1_ok|apply torn2_ok|apply torn3_ok|apply torn4_ok].
Qed.
Example C83_case_mget : (forall A B chi wsi, torn_sched = A ++ B -> weave demo_c A demo_ch (map (starting case_cf) torn_cmds) = Ok (chi, wsi) -> reachable demo_c chi) /\
  (exists ch' ws w, weave demo_c torn_sched demo_ch (map (starting case_cf) torn_cmds) = Ok (ch', ws) /\ nth_error ws 0 = Some w /\ finished w /\
    wk_did w = [Out (WArray 2); Out (WBulk (bs "w")); Out (WBulk (bs "y"))]) /\
  cf_useauth case_cf = false /\ fine (span_orc 0) /\ word (bs "MGET") "mget".
Proof.
  split; [exact torn_reach|]. split; [eexists _, _, _; split; [vm_compute; reflexivity|]; split; [reflexivity|]; split; [split; reflexivity|reflexivity]|].
  split; [reflexivity|]. split; [apply span_input|]. reflexivity.
Qed.
