From Coq Require Import Reals List Bool Lra.
From Verif Require Import Base.PyBase Model.ActEval Spec.ActEvalSpec.
Import ListNotations.

Section P.
Context {Obs Act Out Par Hid Rng Rest Step : Type}.
Variable forward : bool -> Par -> Hid -> Obs -> Rng -> Out * Hid * Par * Rng.
Variable critic : bool -> Par -> Hid -> Obs -> Act -> Rng -> R * Hid * Par * Rng.
Variable most_probable : Out -> Act.
Variable sample : Out -> Rng -> Act * Rng.
Variable max_value : Out -> R.
Variable greedy_random : Out -> Rng -> Act * R * Rng.
Variable fresh : Hid.
Variable flush : list Step -> Rest -> Rest.
Variable decay : R.
Hypothesis FL : forall r, flush [] r = r.
Notation agt := (agent Obs Act Par Hid Rng Rest Step).
Notation ACT := (act forward critic most_probable sample max_value greedy_random decay).
Notation STEP := (eval_step forward critic most_probable sample max_value greedy_random fresh flush decay).
Notation EVAL := (evaluation forward critic most_probable sample max_value greedy_random fresh flush decay).

(** What an evaluation keeps at all times. *)
Definition kept (k : agent_kind) (g : agt) : Par * Hid * option (Obs * Act) * list Step * Rest * option (Hid * Hid) :=
  (g_par g, g_train_hid g, g_last g, g_open g, g_rest g, if own_test_state k || never_recurrent k then Some (g_hid g, g_other g) else None).
Lemma act_kept : forall k det g o, suited k forward critic -> kept k (snd (ACT k det g o)) = kept k g /\ g_other (snd (ACT k det g o)) = g_other g /\ (chooses k det = true -> g_rng (snd (ACT k det g o)) = g_rng g).
Proof.
  intros k det g o ((out & nx & Q) & (q & nq & QC) & NM).
  assert (NM' : never_recurrent k = true -> forall p h o, nx p h o = h) by (intros Hn p h o'; apply (NM Hn p h o' (g_rng g) _ _ _ _ (Q p h o' (g_rng g)))).
  destruct k, det; cbn [test_mode negb] in Q; cbn [never_recurrent] in NM'; cbn [act]; unfold record_q, chosen, sampled, call_test, call_own; rewrite Q; cbn [fst snd g_par g_hid g_other g_rng];
    try (destruct (sample _ _) as [a r] eqn:Es); try (destruct (greedy_random _ _) as [[a qq] r] eqn:Eg); cbn [fst snd set_rng g_par g_hid g_rng]; try rewrite QC; cbn [fst snd];
    unfold kept; cbn; repeat split; try discriminate; try reflexivity; rewrite ?NM' by reflexivity; reflexivity.
Qed.
(** What has to hold for [stop_episode] to change nothing. *)
Definition calm (k : agent_kind) (g : agt) : Prop :=
  match k with
  | DDPG | PGT | SAC | TD3 => g_last g = None /\ g_open g = []
  | ACER | NSQ => g_other g = fresh
  | _ => True
  end.
Lemma stop_kept' : forall k g, calm k g -> kept k (stop_episode fresh flush k g) = kept k g /\ g_other (stop_episode fresh flush k g) = g_other g /\ g_rng (stop_episode fresh flush k g) = g_rng g.
Proof.
  intros k g B. destruct k; cbn [calm] in B; unfold kept; cbn; repeat split; try reflexivity; try (symmetry; exact B); destruct B as [B1 B2]; rewrite ?B1, ?B2, ?FL; reflexivity.
Qed.
Lemma calm_kept : forall k g g', kept k g = kept k g' -> g_other g = g_other g' -> calm k g -> calm k g'.
Proof. intros k g g' E O C. unfold kept in E. injection E as E1 E2 E3 E4 E5 E6. destruct k; cbn [calm] in *; rewrite <- ?E3, <- ?E4, <- ?O; exact C. Qed.
Lemma step_kept : forall k det z op, suited k forward critic -> calm k (snd z) ->
  kept k (snd (STEP k det z op)) = kept k (snd z) /\ g_other (snd (STEP k det z op)) = g_other (snd z) /\ (chooses k det = true -> g_rng (snd (STEP k det z op)) = g_rng (snd z)).
Proof.
  intros k det z [o|] S C; cbn [eval_step].
  - destruct (ACT k det (snd z) o) as [a g] eqn:E. pose proof (act_kept k det (snd z) o S) as K. rewrite E in K. exact K.
  - cbn [snd]. destruct (stop_kept' k (snd z) C) as (A & B & D). auto.
Qed.
Lemma eval_kept : forall k det ops z, suited k forward critic -> calm k (snd z) ->
  let z' := fold_left (STEP k det) ops z in
  kept k (snd z') = kept k (snd z) /\ g_other (snd z') = g_other (snd z) /\ (chooses k det = true -> g_rng (snd z') = g_rng (snd z)).
Proof.
  intros k det ops. induction ops as [|op ops IH]; intros z S C; cbn [fold_left]; [auto|].
  destruct (step_kept k det z op S C) as (A & B & D). destruct (IH (STEP k det z op) S) as (A' & B' & D'); [eapply calm_kept; [symmetry; exact A|symmetry; exact B|exact C]|].
  cbv zeta in *. rewrite A', B'. repeat split; auto. intros H. rewrite (D' H). auto.
Qed.
Lemma between_calm : forall k g, between fresh k g -> calm k g.
Proof. intros k g B. destruct k; cbn [between calm] in *; tauto. Qed.
(** The model's own state after [stop_episode]. *)
Lemma stop_hid : forall k (g : agt), match k with A3C | ACER | PCL | REINFORCE | NSQ | DDPG | PGT => True | _ => False end -> g_hid (stop_episode fresh flush k g) = fresh.
Proof. intros k g H. destruct k; try contradiction H; reflexivity. Qed.
Lemma undisturbed : forall k det ops g, suited k forward critic -> between fresh k g ->
  training_part (snd (EVAL k det (ops ++ [EvStop]) g)) = training_part g /\ (chooses k det = true -> g_rng (snd (EVAL k det (ops ++ [EvStop]) g)) = g_rng g).
Proof.
  intros k det ops g S B. destruct (eval_kept k det (ops ++ [EvStop]) ([], g) S (between_calm k g B)) as (A & O & D). cbv zeta in A, O, D. cbn [snd] in A, O, D. fold (EVAL k det (ops ++ [EvStop]) g) in A, O, D.
  split; [|exact D]. set (g' := snd (EVAL k det (ops ++ [EvStop]) g)) in *.
  assert (H : g_hid g' = g_hid g).
  { destruct (own_test_state k || never_recurrent k) eqn:Ek.
    - unfold kept in A. rewrite Ek in A. injection A. auto.
    - assert (F : g_hid g' = fresh) by (unfold g', evaluation; rewrite fold_left_app; cbn [fold_left eval_step snd]; apply stop_hid; destruct k; cbn in Ek; try discriminate Ek; exact I).
      rewrite F. symmetry. destruct k; cbn in Ek; try discriminate Ek; cbn [between] in B; tauto. }
  unfold kept in A. injection A as A1 A2 A3 A4 A5 A6. unfold training_part. rewrite A1, A2, A3, A4, A5, H, O. reflexivity.
Qed.
(** ... and at any time for the agents with a state for tests. *)
Lemma undisturbed_anytime : forall k det ops g, suited k forward critic -> own_test_state k = true ->
  training_part (snd (EVAL k det ops g)) = training_part g /\ (chooses k det = true -> g_rng (snd (EVAL k det ops g)) = g_rng g).
Proof.
  intros k det ops g S Ek. assert (C : calm k g) by (destruct k; try discriminate Ek; exact I).
  destruct (eval_kept k det ops ([], g) S C) as (A & O & D). cbv zeta in A, O, D. cbn [snd] in A, O, D. fold (EVAL k det ops g) in A, O, D. split; [|exact D].
  unfold kept in A. rewrite Ek in A. cbn [orb] in A. injection A as A1 A2 A3 A4 A5 A6 A7. unfold training_part. rewrite A1, A2, A3, A4, A5, A6, O. reflexivity.
Qed.
Lemma between_state : forall k (g g' : agt), training_state g = training_state g' -> between fresh k g -> between fresh k g'.
Proof. intros k g g' E B. unfold training_state, training_part in E. injection E as E1 E2 E3 E4 E5 E6 E7 E8. destruct k; cbn [between] in *; rewrite <- ?E2, <- ?E3, <- ?E5, <- ?E6; exact B. Qed.
Lemma same_training : forall k det l g g', suited k forward critic -> chooses k det = true -> well_placed (between fresh k) l g -> training_state g' = training_state g ->
  training_state (sessions (fun ops g => snd (EVAL k det ops g)) l g') = training_state (sessions (fun ops g => snd (EVAL k det ops g)) (without_evaluations l) g).
Proof.
  intros k det l. induction l as [|[f|ops] l IH]; intros g g' S C W E; cbn [sessions without_evaluations]; [exact E| |]; cbn [well_placed] in W.
  - destruct W as [W1 W2]. apply (IH (f g) (f g') S C W2). apply W1. exact E.
  - destruct W as (W1 & (ops' & ->) & W3). apply (IH g _ S C W3). rewrite <- E. destruct (undisturbed k det ops' g' S) as [A B]; [eapply between_state; [symmetry; exact E|exact W1]|]. unfold training_state. rewrite A, B by exact C. reflexivity.
Qed.

(** Deterministic evaluation does not depend on the random generators. *)
Definition but_rng (g : agt) := (g_par g, g_hid g, g_other g, g_train_hid g, g_test_hid g, g_last g, g_open g, g_rest g, g_average_q g).
Lemma act_det : forall k det g g' o, suited k forward critic -> chooses k det = true -> but_rng g = but_rng g' -> fst (ACT k det g o) = fst (ACT k det g' o) /\ but_rng (snd (ACT k det g o)) = but_rng (snd (ACT k det g' o)).
Proof.
  intros k det g g' o ((out & nx & Q) & (q & nq & QC) & _) C E. destruct g, g'. unfold but_rng in E. cbn in E. injection E as -> -> -> -> -> -> -> -> ->.
  destruct k, det; try discriminate C; cbn [test_mode negb] in Q; cbn [act]; unfold record_q, chosen, call_test, call_own; rewrite !Q; cbn; rewrite ?QC; cbn; split; reflexivity.
Qed.
Lemma stop_det : forall k g g', but_rng g = but_rng g' -> but_rng (stop_episode fresh flush k g) = but_rng (stop_episode fresh flush k g').
Proof. intros k g g' E. destruct g, g'. unfold but_rng in E. cbn in E. injection E as -> -> -> -> -> -> -> -> ->. destruct k; reflexivity. Qed.
Lemma eval_det : forall k det ops z z', suited k forward critic -> chooses k det = true -> fst z = fst z' -> but_rng (snd z) = but_rng (snd z') ->
  fst (fold_left (STEP k det) ops z) = fst (fold_left (STEP k det) ops z').
Proof.
  intros k det ops. induction ops as [|[o|] ops IH]; intros z z' S C E1 E2; cbn [fold_left eval_step]; [exact E1| |].
  - destruct (act_det k det (snd z) (snd z') o S C E2) as [A B]. destruct (ACT k det (snd z) o) as [a g], (ACT k det (snd z') o) as [a' g']. cbn [fst snd] in *. apply IH; cbn [fst snd]; [assumption|assumption|rewrite E1, A; reflexivity|exact B].
  - apply IH; cbn [fst snd]; [assumption|assumption|exact E1|apply stop_det; exact E2].
Qed.
Lemma repeatable : forall k det ops g r, suited k forward critic -> chooses k det = true -> fst (EVAL k det ops (set_rng g r)) = fst (EVAL k det ops g).
Proof. intros. apply eval_det; auto. Qed.
(** The actions of a deterministic evaluation. *)
Definition state_of (k : agent_kind) (g : agt) : Hid := if own_test_state k then g_test_hid g else g_hid g.
Lemma act_is : forall k det g o (out : Par -> Hid -> Obs -> Out) next, chooses k det = true -> k <> PGT -> (forall p h o r, forward (negb (test_mode k)) p h o r = (out p h o, next p h o, p, r)) ->
  fst (ACT k det g o) = most_probable (out (g_par g) (state_of k g) o) /\ state_of k (snd (ACT k det g o)) = next (g_par g) (state_of k g) o /\ g_par (snd (ACT k det g o)) = g_par g.
Proof.
  intros k det g o out next C NP Q. destruct k, det; try discriminate C; try (exfalso; apply NP; reflexivity); cbn [test_mode negb] in Q; cbn [act]; unfold chosen, call_test, call_own, state_of; cbn [own_test_state];
    rewrite Q; cbn; repeat split; reflexivity.
Qed.
Lemma acts_are : forall k det (out : Par -> Hid -> Obs -> Out) next, chooses k det = true -> k <> PGT -> (forall p h o r, forward (negb (test_mode k)) p h o r = (out p h o, next p h o, p, r)) ->
  forall os l g, exists g', fold_left (STEP k det) (map EvAct os) (l, g) = (l ++ map most_probable (outputs out next (g_par g) (state_of k g) os), g') /\ g_par g' = g_par g /\ ((forall p h o, next p h o = h) -> state_of k g' = state_of k g).
Proof.
  intros k det out next C NP Q. induction os as [|o os IH]; intros l g; [exists g; cbn; rewrite app_nil_r; auto|].
  cbn [map fold_left eval_step fst snd]. destruct (act_is k det g o out next C NP Q) as (A & B & D). destruct (ACT k det g o) as [a g1]. cbn [fst snd] in A, B, D.
  destruct (IH (l ++ [a]) g1) as (g' & E & P & H). exists g'. rewrite E. cbn [outputs map]. rewrite <- app_assoc, A, B, D. cbn [app]. split; [reflexivity|]. split; [congruence|]. intros N. rewrite H, B by assumption. apply N.
Qed.
Lemma stop_fresh : forall k det (g : agt), chooses k det = true -> k <> PGT -> (never_recurrent k = true -> state_of k g = fresh) -> state_of k (stop_episode fresh flush k g) = fresh /\ g_par (stop_episode fresh flush k g) = g_par g.
Proof. intros k det g C NP H. destruct k; try (exfalso; apply NP; reflexivity); try (split; reflexivity); split; try reflexivity; apply (H eq_refl). Qed.
Lemma evaluated_actions : forall k det (out : Par -> Hid -> Obs -> Out) next, chooses k det = true -> k <> PGT -> (forall p h o r, forward (negb (test_mode k)) p h o r = (out p h o, next p h o, p, r)) ->
  (never_recurrent k = true -> forall p h o, next p h o = h) -> forall eps g, starts_fresh fresh k g ->
  fst (EVAL k det (whole_episodes eps) g) = flat_map (fun os => map most_probable (outputs out next (g_par g) fresh os)) eps /\ starts_fresh fresh k (snd (EVAL k det (whole_episodes eps) g)).
Proof.
  intros k det out next C NP Q N eps g F. unfold evaluation.
  enough (G : forall l, let z := fold_left (STEP k det) (whole_episodes eps) (l, g) in fst z = l ++ flat_map (fun os => map most_probable (outputs out next (g_par g) fresh os)) eps /\ starts_fresh fresh k (snd z)) by exact (G []).
  revert g F. induction eps as [|os eps IH]; intros g F l; [cbn; rewrite app_nil_r; auto|]. cbv zeta. unfold whole_episodes. cbn [flat_map]. rewrite <- app_assoc, !fold_left_app. fold (whole_episodes eps).
  destruct (acts_are k det out next C NP Q os l g) as (g1 & E & P & H). rewrite E. change (state_of k g = fresh) in F. rewrite F. cbn [fold_left eval_step fst snd].
  destruct (stop_fresh k det g1 C NP) as [S1 S2]; [intros Hn; rewrite (H (N Hn)); exact F|]. destruct (IH (stop_episode fresh flush k g1) S1 (l ++ map most_probable (outputs out next (g_par g) fresh os))) as [I1 I2].
  split; [|exact I2]. rewrite I1, S2, P, <- app_assoc. reflexivity.
Qed.
Lemma after_episode : forall k (g : agt), between fresh k (end_training_episode fresh flush k g).
Proof. intros k g. destruct k; cbn; auto. Qed.
Lemma starts_training_fresh : forall k (g : agt), never_recurrent k = false -> training_hid k (end_training_episode fresh flush k g) = fresh.
Proof. intros k g H. destruct k; try discriminate H; reflexivity. Qed.
End P.

Lemma trains_while_tested : forall k, test_mode k = false -> exists forward, quiet (forward false) /\ forall det, exists g, between 0 k g /\
  g_par (snd (run_toy forward k det [EvAct 0; EvStop] g)) <> g_par g.
Proof.
  intros k Hk. exists (fun (train : bool) p h o r => (o, h, if train then S p else p, r)). split; [exists (fun _ _ o => o), (fun _ h _ => h); reflexivity|].
  intros det. exists (toy 0 0 [] 0). split; [destruct k; try discriminate Hk; cbn; auto|]. destruct k, det; try discriminate Hk; cbn; discriminate.
Qed.
Lemma disturbed_inside : forall k, own_test_state k = false -> match k with A2C | A2CBatch => False | _ => True end -> exists forward, quiet (forward true) /\ quiet (forward false) /\
  forall det, exists g, training_part (snd (run_toy forward k det [EvAct 0; EvStop] g)) <> training_part g.
Proof.
  intros k Hk Ha. exists (fun (train : bool) p h o r => (o, h, p, r)). split; [|split]; try (exists (fun _ _ o => o), (fun _ h _ => h); reflexivity).
  intros det. exists (toy 0 1 [0] 0). destruct k, det; try discriminate Hk; try contradiction Ha; cbn; discriminate.
Qed.
Lemma random_though_asked : forall k, k = A2CBatch \/ k = DDPG \/ k = TD3 -> exists forward, quiet (forward true) /\ quiet (forward false) /\
  exists g r, fst (run_toy forward k true [EvAct 0] (set_rng g r)) <> fst (run_toy forward k true [EvAct 0] g).
Proof.
  intros k Hk. exists (fun (train : bool) p h o r => (o, h, p, r)). split; [|split]; try (exists (fun _ _ o => o), (fun _ h _ => h); reflexivity).
  exists (toy 0 0 [] 0), 1. destruct Hk as [->|[->| ->]]; cbn; discriminate.
Qed.
