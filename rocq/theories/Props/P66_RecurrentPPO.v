(** C66: recurrent states of a recurrent PPO. *)
From Verif Require Import Base.PyBase Model.Categorical Model.StatelessRecurrent Spec.StatelessRecurrentSpec
  Model.RecurrentDQN Model.RecurrentPPO Spec.RecurrentDQNSpec Proofs.RecurrentPPOProofs.
Set Implicit Arguments.

(** For every history of calls: no call fails; each stored transition carries
    the recurrent states before and after its observation in its own episode;
    the model is evaluated on the observations of the environment's own
    episode.  Evaluation episodes also end with stop_episode_and_train
    ([ppo_test_episode]). *)
Theorem C66_states_partial : forall U V (m0 : link U V) ops, models_ok m0 ops ->
  (single_ok false ops \/ exists n, 0 < n /\ batch_ok n false ops) -> ppo_tests_ok None ops ->
  exists s logs, ppo_rrun ops (rdqn_init U V) = Ok (s, logs) /\ length logs = length ops /\
    forall p op, nth_error ops p = Some op ->
      exists evs, nth_error logs p = Some evs /\ happens m0 (fun j => ppo_test_episode j (firstn p ops)) (firstn p ops) op evs.
Proof. exact ppo_states. Qed.
Print Assumptions C66_states_partial.

Lemma ex_model_ok : model_ok ex_link ex_link.
Proof. split; [reflexivity|]. split; [discriminate|]. cbn. auto 10. Qed.
Example C66_states_case : models_ok ex_link ex_history /\ batch_ok 2 false ex_history /\ ppo_tests_ok None ex_history.
Proof.
  split.
  - intros op H. cbn in H. repeat (destruct H as [<-|H]; [exact ex_model_ok || exact I|]). contradiction.
  - split; cbn; repeat (split; try discriminate; try reflexivity).
Qed.

(** Evaluation calls change nothing in what the training calls do. *)
Theorem C66_training_undisturbed : forall U V ops s logs, ppo_rrun ops (rdqn_init U V) = Ok (s, logs) ->
  exists s1, ppo_rrun (filter (@is_training U V) ops) (rdqn_init U V) = Ok (s1, done_by (@is_training U V) ops logs).
Proof. exact ppo_not_disturbed. Qed.
Print Assumptions C66_training_undisturbed.
Example C66_training_undisturbed_case : exists s logs, ppo_rrun ex_history (rdqn_init Z Z) = Ok (s, logs) /\
  length (done_by (@is_training Z Z) ex_history logs) = 4.
Proof.
  let r := eval vm_compute in (ppo_rrun ex_history (rdqn_init Z Z)) in
  match r with Ok (?s, ?l) => exists s, l end. split; vm_compute; reflexivity.
Qed.

(** The converse fails: stop_episode_and_train clears the evaluation state, so
    the evaluation calls of a history can give other outputs than they would
    alone. *)
Theorem C66_evaluation_undisturbed_refuted : exists (m : link Z Z) ops s logs,
  models_ok m ops /\ single_ok false ops /\ ppo_rrun ops (rdqn_init Z Z) = Ok (s, logs) /\
  exists s2 logs2, ppo_rrun (filter (fun op => negb (is_training op)) ops) (rdqn_init Z Z) = Ok (s2, logs2) /\
    logs2 <> done_by (fun op => negb (is_training op)) ops logs.
Proof.
  exists ex_link, [ActTrain ex_link 1; Act ex_link [5]; StopTrain ex_link 2; Act ex_link [6]]%Z.
  let r := eval vm_compute in (ppo_rrun [ActTrain ex_link 1; Act ex_link [5]; StopTrain ex_link 2; Act ex_link [6]]%Z (rdqn_init Z Z)) in
  match r with Ok (?s, ?l) => exists s, l end. split; [|split; [cbn; auto|split; [vm_compute; reflexivity|]]].
  - intros op H. cbn in H. repeat (destruct H as [<-|H]; [exact ex_model_ok || exact I|]). contradiction.
  - let r := eval vm_compute in (ppo_rrun [Act ex_link [5]; Act ex_link [6]]%Z (rdqn_init Z Z)) in
    match r with Ok (?s, ?l) => exists s, l end. split; [vm_compute; reflexivity|]. vm_compute. discriminate.
Qed.
Print Assumptions C66_evaluation_undisturbed_refuted.
