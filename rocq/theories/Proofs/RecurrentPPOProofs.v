(** Proofs about the recurrent states of PPO (Model/RecurrentPPO.v). *)
From Verif Require Import Base.PyBase Model.Categorical Model.StatelessRecurrent Spec.StatelessRecurrentSpec
  Model.RecurrentDQN Model.RecurrentPPO Spec.RecurrentDQNSpec Proofs.StatelessRecurrentProofs Proofs.RecurrentDQNProofs.
Set Implicit Arguments.

Section P.
Variables U V : Type.
Notation link := (link U V).
Notation rstate := (rstate V).
Notation sst := (sst V).
Notation rop := (rop U V).
Variable m0 : link.
Notation rep := (rep m0).
Notation episode_ok := (episode_ok m0).

Lemma ptest_snoc : forall j (ops : list rop) op, ppo_test_episode j (ops ++ [op]) = ppo_test_step j (ppo_test_episode j ops) op.
Proof. intros j ops op. unfold ppo_test_episode. rewrite fold_left_app. reflexivity. Qed.

Lemma ptest_ok : forall j ops, models_ok m0 ops -> episode_ok (ppo_test_episode j ops).
Proof.
  intros j ops. induction ops as [|op ops IH] using rev_ind; intros H; [constructor|].
  assert (H1 : models_ok m0 ops) by (intros o Ho; apply H, in_or_app; left; exact Ho).
  assert (Hin : In op (ops ++ [op])) by (apply in_or_app; right; left; reflexivity). assert (H2 := H op Hin). specialize (IH H1).
  rewrite ptest_snoc. destruct op; cbn [ppo_test_step test_step]; cbn beta iota in H2; try exact IH.
  - constructor.
  - destruct (nth_error os j); [apply snoc_ok; assumption | exact IH].
  - destruct (nth_error ended j) as [[|]|]; [constructor | exact IH | exact IH].
  - constructor.
Qed.

Definition PTI (mode : tmode) (pre : list rop) (s : rdqn U V) : Prop :=
  match mode with
  | Single inside =>
      rep 1 (train s) (fun j => train_episode j pre) /\
      if inside then exists h' m x, train_episode 0 pre = h' ++ [(m, x)] /\ last s = Some x /\ rep 1 (prev s) (fun _ => h')
      else train_episode 0 pre = [] /\ last s = None /\ prev s = RNone
  | Batch n acted =>
      rep n (train s) (fun j => train_episode j pre) /\
      match blast s with None => True | Some bl => length bl = n end /\
      if acted then exists hs' m os, length os = n /\ blast s = Some (map Some os) /\ rep n (prev s) hs' /\
        forall j o, nth_error os j = Some o -> train_episode j pre = hs' j ++ [(m, o)]
      else prev s = RNone
  end.
Definition PEI (k : option nat) (pre : list rop) (s : rdqn U V) : Prop :=
  match k with
  | None => test s = RNone /\ forall j, ppo_test_episode j pre = []
  | Some n => rep n (test s) (fun j => ppo_test_episode j pre)
  end.

Lemma PTI_same : forall mode pre s pre' s', (forall j, train_episode j pre' = train_episode j pre) ->
  train s' = train s -> prev s' = prev s -> last s' = last s -> blast s' = blast s ->
  PTI mode pre s -> PTI mode pre' s'.
Proof.
  intros mode pre s pre' s' E1 E2 E3 E4 E5 H. destruct mode as [b|n a]; cbn in *; rewrite E2, ?E3, ?E4, ?E5.
  - destruct H as [H1 H2]. split; [eapply rep_ext; [|exact H1]; intros j _; symmetry; apply E1|].
    rewrite E1. exact H2.
  - destruct H as [H1 [HL H2]]. split; [eapply rep_ext; [|exact H1]; intros j _; symmetry; apply E1|]. split; [exact HL|].
    destruct a; [|exact H2]. destruct H2 as [hs' [m [os [A [B [C D]]]]]]. exists hs', m, os.
    repeat (split; [assumption|]). intros j o Ho. rewrite E1. apply D, Ho.
Qed.

Lemma PEI_same : forall k pre s pre' s', (forall j, ppo_test_episode j pre' = ppo_test_episode j pre) ->
  test s' = test s -> PEI k pre s -> PEI k pre' s'.
Proof.
  intros k pre s pre' s' E1 E2 H. destruct k as [n|]; cbn in *; rewrite E2.
  - eapply rep_ext; [|exact H]. intros j _; symmetry; apply E1.
  - split; [apply H|]. intros j. rewrite E1. apply H.
Qed.

Lemma ppo_observe_ok : forall n hs hs' m mx (s : rdqn U V), model_ok m0 m -> rep n (prev s) hs' -> rep n (train s) hs ->
  forall rows os i, length rows = length os -> i + length os = n ->
  (forall j o, nth_error os j = Some o -> hs (i + j) = hs' (i + j) ++ [(mx, o)]) ->
  exists bl ts, ppo_observe_loop m s i rows (map Some os) = Ok (bl, map (@Stored U V) ts) /\ length bl = length rows /\ length ts = length rows /\
    forall j t row, nth_error ts j = Some t -> nth_error rows j = Some row -> good_trans m0 (i + j) (hs (i + j)) (fst row) t.
Proof.
  intros n hs hs' m mx s Hm Rp Rt. induction rows as [|[o e] rows IH]; intros [|x os] i L1 L2 H; cbn in L1, L2; try discriminate.
  - exists [], []. cbn. split; [reflexivity|]. split; [reflexivity|]. split; [reflexivity|]. intros [|j]; discriminate.
  - cbn [map ppo_observe_loop].
    pose proof (H 0 x eq_refl) as H0. rewrite Nat.add_0_r in H0.
    destruct (@store_ok U V m0 n hs hs' m i x o mx s Hm Rp Rt ltac:(lia) H0) as [t [-> Gt]]. cbn [bind].
    destruct (IH os (S i)) as [bl [ts [-> [Lb [Lt Ht]]]]]; [lia | lia | |].
    { intros j o' Ho. specialize (H (S j) o' Ho). replace (S i + j) with (i + S j) by lia. exact H. }
    cbn [bind fst snd]. eexists _, (t :: ts). split; [reflexivity|]. split; [cbn; lia|]. split; [cbn; lia|].
    intros [|j] t' row; cbn; intros E1 E2.
    + injection E1 as <-. injection E2 as <-. rewrite Nat.add_0_r. exact Gt.
    + replace (i + S j) with (S i + j) by lia. apply Ht; assumption.
Qed.

Lemma ppo_step_ok : forall mode k op ops pre s, models_ok m0 pre -> models_ok m0 [op] ->
  tok mode (op :: ops) -> ppo_tests_ok k (op :: ops) -> PTI mode pre s -> PEI k pre s ->
  exists s' evs mode' k', ppo_rstep op s = Ok (s', evs) /\ happens m0 (fun j => ppo_test_episode j pre) pre op evs /\
    PTI mode' (pre ++ [op]) s' /\ PEI k' (pre ++ [op]) s' /\ tok mode' ops /\ ppo_tests_ok k' ops.
Proof.
  intros mode k op ops pre s Hpre Hop Ho Hk T E.
  assert (Hm := Hop op (or_introl eq_refl)).
  assert (Htr : forall j, episode_ok (train_episode j pre)) by (intros j; apply train_ok, Hpre).
  assert (Hte : forall j, episode_ok (ppo_test_episode j pre)) by (intros j; apply ptest_ok, Hpre).
  destruct op as [m o|m o|m os|m rows|m os|m ended|]; cbn beta iota in Hm.
  - (* act_and_train *)
    destruct mode as [b|n a]; [|destruct Ho as [_ []]]. cbn in Ho, Hk. destruct T as [Rt Tb].
    destruct (@rep_call U V m0 1 (train s) (fun j => train_episode j pre) m [o] Hm Rt eq_refl ltac:(discriminate) (fun j _ => Htr j))
      as [out [rs' [Ec [Ge Rs']]]].
    assert (PTI' : forall s' : rdqn U V, train s' = rs' -> prev s' = train s -> last s' = Some o ->
              PTI (Single true) (pre ++ [ActTrain m o]) s').
    { intros s' E1 E2 E3. cbn. rewrite E1, E2, E3. split.
      - eapply rep_ext; [|exact Rs']. intros j Hj. cbn beta. rewrite train_snoc. destruct j; [reflexivity | lia].
      - exists (train_episode 0 pre), m, o. split; [apply train_snoc|]. split; [reflexivity|].
        eapply rep_ext; [|exact Rt]. intros j Hj. cbn beta. replace j with 0 by lia. reflexivity. }
    assert (PEI' : forall s' : rdqn U V, test s' = test s -> PEI k (pre ++ [ActTrain m o]) s').
    { intros s' Es. eapply PEI_same; [|exact Es|exact E]. intros j. rewrite ptest_snoc. reflexivity. }
    cbn [ppo_rstep]. unfold ppo_act_train. destruct b.
    + destruct Tb as [h' [mx [x [Eh [El Rp]]]]].
      destruct (@store_ok U V m0 1 (fun j => train_episode j pre) (fun _ => h') m 0 x o mx s Hm Rp Rt ltac:(lia) Eh) as [t [Et Gt]].
      rewrite El, Et. cbn [bind fst snd]. unfold ppo_eval_train. cbn [prev]. unfold eval_train. cbn [train]. rewrite Ec. cbn [bind fst snd train prev test last blast app].
      eexists _, _, (Single true), k. split; [reflexivity|]. split.
      { cbn [happens]. exists out. split; [exact Ge|]. rewrite Eh in Gt |- *. destruct (h' ++ [(mx, x)]) eqn:Ea; [destruct h'; discriminate Ea|].
        exists t. split; [reflexivity | exact Gt]. }
      split; [apply PTI'; reflexivity|]. split; [apply PEI'; reflexivity|]. split; assumption.
    + destruct Tb as [Eh [El Ep]]. rewrite El. cbn [bind fst snd]. unfold ppo_eval_train. rewrite Ep. unfold eval_train. rewrite Ec.
      cbn [bind fst snd train prev test last blast app].
      eexists _, _, (Single true), k. split; [reflexivity|]. split.
      { cbn [happens]. exists out. split; [exact Ge|]. rewrite Eh. reflexivity. }
      split; [apply PTI'; reflexivity|]. split; [apply PEI'; reflexivity|]. split; assumption.
  - (* stop_episode_and_train *)
    destruct mode as [b|n a]; [|destruct Ho as [_ []]]. cbn in Ho, Hk. destruct Ho as [-> Ho]. destruct T as [Rt [h' [mx [x [Eh [El Rp]]]]]].
    destruct (@store_ok U V m0 1 (fun j => train_episode j pre) (fun _ => h') m 0 x o mx s Hm Rp Rt ltac:(lia) Eh) as [t [Et Gt]].
    cbn [ppo_rstep]. unfold ppo_stop_train. rewrite El, Et. cbn [bind].
    eexists _, _, (Single false), None. split; [reflexivity|]. split; [exists t; split; [reflexivity | exact Gt]|].
    split.
    { cbn. split; [apply rep_none; intros j _; apply train_snoc|]. split; [apply train_snoc | split; reflexivity]. }
    split; [|split; assumption]. split; [reflexivity|]. intros j. rewrite ptest_snoc. reflexivity.
  - (* batch_act_and_train *)
    destruct mode as [b|n a]; [destruct Ho|]. cbn in Ho, Hk. destruct Ho as [Hn [-> [L Ho]]]. destruct T as [Rt [HL Ep]].
    destruct (@rep_call U V m0 n (train s) (fun j => train_episode j pre) m os Hm Rt L ltac:(intros ->; cbn in L; lia) (fun j _ => Htr j))
      as [out [rs' [Ec [Ge Rs']]]].
    cbn [ppo_rstep]. unfold ppo_batch_act_train.
    replace (match blast s with None => true | Some bl => length bl =? length os end) with true
      by (destruct (blast s); [rewrite HL, L, Nat.eqb_refl|]; reflexivity).
    unfold ppo_eval_train. rewrite Ep. unfold eval_train. rewrite Ec. cbn [bind fst snd train prev test last blast].
    eexists _, _, (Batch n true), k. split; [reflexivity|]. split; [exists out; split; [reflexivity | exact Ge]|]. split.
    { cbn [PTI train prev last blast]. split.
      - eapply rep_ext; [|exact Rs']. intros j _. cbn beta. rewrite train_snoc. reflexivity.
      - split; [rewrite map_length; exact L|]. exists (fun j => train_episode j pre), m, os. split; [exact L|]. split; [reflexivity|]. split; [exact Rt|].
        intros j o Hj. rewrite train_snoc. cbn [train_step]. rewrite Hj. reflexivity. }
    split; [|split; [split|]; assumption]. eapply PEI_same; [| |exact E]; [intros j; rewrite ptest_snoc; reflexivity | reflexivity].
  - (* batch_observe_and_train *)
    destruct mode as [b|n a]; [destruct Ho|]. cbn in Ho, Hk. destruct Ho as [Hn [-> [L Ho]]].
    destruct T as [Rt [HL [hs' [mx [os [Lo [Eb [Rp D]]]]]]]].
    destruct (@ppo_observe_ok n (fun j => train_episode j pre) hs' m mx s Hm Rp Rt rows os 0 ltac:(lia) Lo D) as [bl [ts [Eo [Lb [Lt Ht]]]]].
    destruct (@rep_reset U V m0 n (train s) (fun j => train_episode j pre) m (map snd rows) Hm Rt ltac:(rewrite map_length; exact L)) as [rs' [Er Rs']].
    cbn [ppo_rstep]. unfold ppo_batch_observe_train. rewrite Eb, Eo. cbn [bind fst snd]. rewrite Er. cbn [bind].
    eexists _, _, (Batch n false), k. split; [reflexivity|]. split.
    { exists ts. split; [reflexivity|]. split; [exact Lt|]. intros i t row H1 H2. exact (Ht i t row H1 H2). }
    split.
    { cbn [PTI train prev blast]. split; [|split; [lia | reflexivity]]. eapply rep_ext; [|exact Rs']. intros j _. cbn beta.
      rewrite train_snoc. cbn [train_step]. rewrite nth_map. destruct (nth_error rows j) as [[o [|]]|]; reflexivity. }
    split; [|split; [split|]; assumption]. eapply PEI_same; [| |exact E]; [intros j; rewrite ptest_snoc; reflexivity | reflexivity].
  - (* act *)
    assert (Ho' : tok mode ops) by (destruct mode; exact Ho). cbn in Hk. destruct Hk as [Hne [Hk1 Hk2]].
    assert (R : rep (length os) (test s) (fun j => ppo_test_episode j pre)).
    { destruct k as [k|]; cbn in E; [rewrite Hk1; exact E|]. destruct E as [-> E]. apply rep_none. intros j _. apply E. }
    destruct (@rep_call U V m0 (length os) (test s) (fun j => ppo_test_episode j pre) m os Hm R eq_refl Hne (fun j _ => Hte j))
      as [out [rs' [Ec [Ge Rs']]]].
    cbn [ppo_rstep]. unfold eval_test. rewrite Ec. cbn [bind fst snd].
    eexists _, _, mode, (Some (length os)). split; [reflexivity|]. split; [exists out; split; [reflexivity | exact Ge]|].
    split; [eapply PTI_same; [| | | | |exact T]; try reflexivity; intros j; rewrite train_snoc; reflexivity|].
    split; [|split; assumption]. cbn [PEI test]. eapply rep_ext; [|exact Rs']. intros j _. cbn beta. rewrite ptest_snoc. reflexivity.
  - (* observe *)
    assert (Ho' : tok mode ops) by (destruct mode; exact Ho). cbn in Hk. destruct Hk as [Hk1 Hk2].
    assert (R : exists rs', reset_ended m ended (test s) = Ok rs' /\ forall s' : rdqn U V, test s' = rs' -> PEI k (pre ++ [Observe m ended]) s').
    { destruct k as [k|]; cbn in E.
      - destruct (@rep_reset U V m0 k (test s) (fun j => ppo_test_episode j pre) m ended Hm E Hk1) as [rs' [Er Rs']].
        exists rs'. split; [exact Er|]. intros s' Es. cbn [PEI]. rewrite Es. eapply rep_ext; [|exact Rs']. intros j _. cbn beta. rewrite ptest_snoc. reflexivity.
      - destruct E as [-> E]. exists RNone. split; [apply reset_none|]. intros s' Es. split; [exact Es|].
        intros j. rewrite ptest_snoc. cbn [ppo_test_step test_step]. rewrite E. destruct (nth_error ended j) as [[|]|]; reflexivity. }
    destruct R as [rs' [Er R]]. cbn [ppo_rstep]. rewrite Er. cbn [bind].
    eexists _, _, mode, k. split; [reflexivity|]. split; [reflexivity|].
    split; [eapply PTI_same; [| | | | |exact T]; try reflexivity; intros j; rewrite train_snoc; reflexivity|].
    split; [apply R; reflexivity | split; assumption].
  - (* stop_episode *)
    assert (Ho' : tok mode ops) by (destruct mode; exact Ho). cbn in Hk.
    cbn [ppo_rstep]. eexists _, _, mode, None. split; [reflexivity|]. split; [reflexivity|].
    split; [eapply PTI_same; [| | | | |exact T]; try reflexivity; intros j; rewrite train_snoc; reflexivity|].
    split; [|split; assumption]. split; [reflexivity|]. intros j. apply ptest_snoc.
Qed.

Lemma ppo_run_ok : forall ops mode k pre s, models_ok m0 pre -> models_ok m0 ops ->
  tok mode ops -> ppo_tests_ok k ops -> PTI mode pre s -> PEI k pre s ->
  exists s' logs, ppo_rrun ops s = Ok (s', logs) /\ length logs = length ops /\
    forall p op, nth_error ops p = Some op ->
      exists evs, nth_error logs p = Some evs /\ happens m0 (fun j => ppo_test_episode j (pre ++ firstn p ops)) (pre ++ firstn p ops) op evs.
Proof.
  induction ops as [|op ops IH]; intros mode k pre s Hpre Hops Ho Hk T E.
  - exists s, []. split; [reflexivity|]. split; [reflexivity|]. intros [|p]; discriminate.
  - assert (H1 : models_ok m0 [op]) by (intros o [<-|[]]; apply Hops; left; reflexivity).
    assert (H2 : models_ok m0 ops) by (intros o Hi; apply Hops; right; exact Hi).
    destruct (@ppo_step_ok mode k op ops pre s Hpre H1 Ho Hk T E) as [s1 [evs [mode' [k' [Es [Hh [T' [E' [Ho' Hk']]]]]]]]].
    destruct (IH mode' k' (pre ++ [op]) s1) as [s' [logs [Er [Ll Hl]]]]; try assumption.
    { intros o Hi. apply in_app_or in Hi. destruct Hi as [Hi|Hi]; [apply Hpre, Hi | apply H1, Hi]. }
    exists s', (evs :: logs). cbn [ppo_rrun]. rewrite Es. cbn [bind fst snd]. rewrite Er. cbn [bind fst snd].
    split; [reflexivity|]. split; [cbn; lia|]. intros [|p] op' Hp; cbn in Hp.
    + injection Hp as <-. exists evs. split; [reflexivity|]. cbn [firstn]. rewrite app_nil_r. exact Hh.
    + destruct (Hl p op' Hp) as [e [He Hh']]. exists e. split; [exact He|]. cbn [firstn]. rewrite <- app_assoc in Hh'. exact Hh'.
Qed.

Lemma ppo_states : forall ops, models_ok m0 ops -> (single_ok false ops \/ exists n, 0 < n /\ batch_ok n false ops) ->
  ppo_tests_ok None ops ->
  exists s logs, ppo_rrun ops (rdqn_init U V) = Ok (s, logs) /\ length logs = length ops /\
    forall p op, nth_error ops p = Some op ->
      exists evs, nth_error logs p = Some evs /\ happens m0 (fun j => ppo_test_episode j (firstn p ops)) (firstn p ops) op evs.
Proof.
  intros ops Hm Ho Hk.
  assert (M : exists mode, tok mode ops /\ PTI mode [] (rdqn_init U V)).
  { destruct Ho as [Ho|[n [Hn Ho]]].
    - exists (Single false). split; [exact Ho|]. cbn. split; [apply rep_none; reflexivity | auto].
    - exists (Batch n false). split; [split; assumption|]. cbn. split; [apply rep_none; reflexivity | auto]. }
  destruct M as [mode [M1 M2]].
  apply (@ppo_run_ok ops mode None [] (rdqn_init U V)); try assumption.
  - intros o [].
  - split; [reflexivity|]. intros j. reflexivity.
Qed.

Lemma ppo_observe_ext : forall (m : link) (s s' : rdqn U V), train s = train s' -> prev s = prev s' ->
  forall rows i bl, ppo_observe_loop m s i rows bl = ppo_observe_loop m s' i rows bl.
Proof.
  intros m s s' E1 E2. induction rows as [|[o e] rows IH]; intros i bl; [reflexivity|]. cbn.
  destruct bl as [|[x|] bl]; [reflexivity | |rewrite IH; reflexivity].
  rewrite (@store_ext _ _ m i x o s s' E1 E2), IH. reflexivity.
Qed.

Lemma ppo_train_ext : forall op (s s' : rdqn U V) s1 evs, is_training op = true -> same_train s s' -> ppo_rstep op s = Ok (s1, evs) ->
  exists s1', ppo_rstep op s' = Ok (s1', evs) /\ same_train s1 s1'.
Proof.
  intros op [t p e l b] [t' p' e' l' b'] s1 evs Ho [E1 [E2 [E3 E4]]]. cbn in E1, E2, E3, E4. subst t' p' l' b'.
  destruct op as [m o|m o|m os|m rows|m os|m ended|]; try discriminate; cbn [ppo_rstep].
  - unfold ppo_act_train, store, ppo_eval_train, eval_train. cbn [train prev test last blast]. destruct l as [x|]; cbn [bind fst snd train prev test last blast].
    + destruct (get_at m p 0); cbn [bind]; [|discriminate]. destruct (get_at m t 0); cbn [bind fst snd train prev test last blast]; [|discriminate].
      destruct (call_one_step m [o] t) as [[v r]|]; cbn [bind fst snd train prev test last blast]; [|discriminate].
      intros H. injection H as <- <-. eexists. split; [reflexivity|]. repeat (split; [reflexivity|]). reflexivity.
    + destruct p; try discriminate. destruct (call_one_step m [o] t) as [[v r]|]; cbn [bind fst snd train prev test last blast]; [|discriminate].
      intros H. injection H as <- <-. eexists. split; [reflexivity|]. repeat (split; [reflexivity|]). reflexivity.
  - unfold ppo_stop_train, store. cbn [train prev test last blast]. destruct l as [x|]; [|discriminate].
    destruct (get_at m p 0); cbn [bind]; [|discriminate]. destruct (get_at m t 0); cbn [bind]; [|discriminate].
    intros H. injection H as <- <-. eexists. split; [reflexivity|]. repeat (split; [reflexivity|]). reflexivity.
  - unfold ppo_batch_act_train, ppo_eval_train, eval_train. cbn [train prev test last blast].
    destruct (match b with None => true | Some bl => length bl =? length os end); [|discriminate].
    destruct p; try discriminate.
    destruct (call_one_step m os t) as [[v r]|]; cbn [bind fst snd train prev test last blast]; [|discriminate].
    intros H. injection H as <- <-. eexists. split; [reflexivity|]. repeat (split; [reflexivity|]). reflexivity.
  - unfold ppo_batch_observe_train. cbn [train prev test last blast].
    destruct b as [bl|]; [|discriminate].
    rewrite (@ppo_observe_ext m {| train := t; prev := p; test := e; last := l; blast := Some bl |} {| train := t; prev := p; test := e'; last := l; blast := Some bl |} eq_refl eq_refl).
    destruct (ppo_observe_loop m _ 0 rows bl) as [q|]; cbn [bind fst snd]; [|discriminate].
    destruct (reset_ended m (map snd rows) t) as [r|]; cbn [bind]; [|discriminate].
    intros H. injection H as <- <-. eexists. split; [reflexivity|]. repeat (split; [reflexivity|]). reflexivity.
Qed.

Lemma ppo_test_keeps_train : forall op (s : rdqn U V) s1 evs, is_training op = false -> ppo_rstep op s = Ok (s1, evs) -> same_train s1 s.
Proof.
  intros op s s1 evs Ho. destruct op as [m o|m o|m os|m rows|m os|m ended|]; try discriminate; cbn [ppo_rstep].
  - unfold eval_test. destruct (call_one_step m os (test s)) as [[v r]|]; cbn [bind fst snd]; [|discriminate].
    intros H. injection H as <- <-. repeat (split; [reflexivity|]). reflexivity.
  - destruct (reset_ended m ended (test s)) as [r|]; cbn [bind]; [|discriminate].
    intros H. injection H as <- <-. repeat (split; [reflexivity|]). reflexivity.
  - intros H. injection H as <- <-. repeat (split; [reflexivity|]). reflexivity.
Qed.

Lemma ppo_separate : forall ops (s s1 : rdqn U V) s' logs, ppo_rrun ops s = Ok (s', logs) -> same_train s s1 ->
  exists s1', ppo_rrun (filter (@is_training U V) ops) s1 = Ok (s1', done_by (@is_training U V) ops logs).
Proof.
  induction ops as [|op ops IH]; intros s s1 s' logs H E1.
  - cbn in H. injection H as <- <-. cbn. eexists; reflexivity.
  - cbn [ppo_rrun] in H. destruct (ppo_rstep op s) as [[sa evs]|] eqn:Es; cbn [bind fst snd] in H; [|discriminate].
    destruct (ppo_rrun ops sa) as [[sb lg]|] eqn:Er; cbn [bind fst snd] in H; [|discriminate]. injection H as <- <-.
    unfold done_by. cbn [combine filter fst]. destruct (is_training op) eqn:Eo; cbn [map snd].
    + destruct (@ppo_train_ext op s s1 sa evs Eo E1 Es) as [s1' [Es1 E1']].
      destruct (IH sa s1' sb lg Er E1') as [a Ha].
      exists a. cbn [ppo_rrun]. rewrite Es1. cbn [bind fst snd]. rewrite Ha. reflexivity.
    + assert (E1' : same_train sa s1).
      { destruct (@ppo_test_keeps_train op s sa evs Eo Es) as [A [B [C D]]]. destruct E1 as [A1 [B1 [C1 D1]]].
        repeat (split; [congruence|]). congruence. }
      destruct (IH sa s1 sb lg Er E1') as [a Ha]. exists a. exact Ha.
Qed.

Lemma ppo_not_disturbed : forall ops s logs, ppo_rrun ops (rdqn_init U V) = Ok (s, logs) ->
  exists s1, ppo_rrun (filter (@is_training U V) ops) (rdqn_init U V) = Ok (s1, done_by (@is_training U V) ops logs).
Proof.
  intros ops s logs H. apply (@ppo_separate ops _ _ s logs H). repeat (split; [reflexivity|]); reflexivity.
Qed.
End P.
