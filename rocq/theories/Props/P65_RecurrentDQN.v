(** C65: recurrent states of a recurrent DQN. *)
From Verif Require Import Base.PyBase Model.Categorical Model.StatelessRecurrent Spec.StatelessRecurrentSpec
  Model.RecurrentDQN Spec.RecurrentDQNSpec Proofs.RecurrentDQNProofs Proofs.RecurrentResumeProofs.
Set Implicit Arguments.

(** For every history of calls, with one or with any number of environments,
    parameter updates and evaluation in between: no call fails; each stored
    transition carries the recurrent states before and after its observation
    in its own episode; the action values of each call are those of the
    observations of the environment's own episode. *)
Theorem C65_states : forall U V (m0 : link U V) ops, models_ok m0 ops ->
  (single_ok false ops \/ exists n, 0 < n /\ batch_ok n false ops) -> tests_ok None ops ->
  exists s logs, rrun ops (rdqn_init U V) = Ok (s, logs) /\ length logs = length ops /\
    forall p op, nth_error ops p = Some op ->
      exists evs, nth_error logs p = Some evs /\ happens m0 (fun j => test_episode j (firstn p ops)) (firstn p ops) op evs.
Proof. exact dqn_states. Qed.
Print Assumptions C65_states.

Lemma ex_model_ok : model_ok ex_link ex_link.
Proof. split; [reflexivity|]. split; [discriminate|]. cbn. auto 10. Qed.
Example C65_states_batch_case : models_ok ex_link ex_history /\ batch_ok 2 false ex_history /\ tests_ok None ex_history.
Proof.
  split.
  - intros op H. cbn in H. repeat (destruct H as [<-|H]; [exact ex_model_ok || exact I|]). contradiction.
  - split; cbn; repeat (split; try discriminate; try reflexivity).
Qed.
Example C65_states_single_case :
  single_ok false [ActTrain ex_link 1%Z; ActTrain ex_link 2%Z; Act ex_link [5]%Z; StopTrain ex_link 3%Z; ActTrain ex_link 4%Z].
Proof. cbn. auto. Qed.
(** What is stored in that history: environment 0 goes on, environment 1 starts
    again from zeros. *)
Example C65_states_values :
  match rrun ex_history (rdqn_init Z Z) with
  | Ok (_, logs) =>
      map (fun evs => map (fun e => match e with Stored t => [(rt_env t, rt_state t, filled ex_link (rt_rec t))] | _ => [] end) evs)
        (done_by (fun op => match op with BatchObserveTrain _ _ => true | _ => false end) ex_history logs)
      = [[[(0, 1%Z, STup [SLstm 0 0; STup [SGru 0; STup [SGru 0]]]%Z)]; [(1, 10%Z, STup [SLstm 0 0; STup [SGru 0; STup [SGru 0]]]%Z)]];
         [[(0, 2%Z, STup [SLstm 2 1; STup [SGru 2; STup [SGru 2]]]%Z)]; [(1, 20%Z, STup [SLstm 0 0; STup [SGru 0; STup [SGru 0]]]%Z)]]]
  | Raise _ => False
  end.
Proof. vm_compute. reflexivity. Qed.

(** Training calls do the same without the evaluation calls, and the other way
    round. *)
Theorem C65_separate : forall U V ops s logs, rrun ops (rdqn_init U V) = Ok (s, logs) ->
  (exists s1, rrun (filter (@is_training U V) ops) (rdqn_init U V) = Ok (s1, done_by (@is_training U V) ops logs)) /\
  (exists s2, rrun (filter (fun op => negb (is_training op)) ops) (rdqn_init U V)
              = Ok (s2, done_by (fun op => negb (is_training op)) ops logs)).
Proof. exact not_interfering. Qed.
Print Assumptions C65_separate.

(** An update on sampled pieces of episodes evaluates the model on each piece
    from the state in which that piece began, and the outputs are joined in
    the order of the transitions. *)
Theorem C65_replay : forall U V (m0 m : link U V) eps (hs : nat -> episode U V),
  model_ok m0 m -> eps <> [] -> (forall j, episode_ok m0 (hs j)) ->
  (forall j ep, nth_error eps j = Some ep -> exists t rest, ep = t :: rest /\ stands m0 (rt_rec t) (state_after (hs j))) ->
  exists vs v rs, replay_values m eps = Ok (OConcat v, rs) /\ concat_seqs vs = Ok v /\ length vs = length eps /\
    forall j ep, nth_error eps j = Some ep -> nth_error vs j = Some (fst (run1 m (map (@rt_state U V) ep) (state_after (hs j)))).
Proof. exact replay_ok. Qed.
Print Assumptions C65_replay.

(** ... and the target model on the next states, from the next state. *)
Theorem C65_replay_targets : forall U V (m0 m : link U V) eps (hs : nat -> episode U V),
  model_ok m0 m -> eps <> [] -> (forall j, episode_ok m0 (hs j)) ->
  (forall j ep, nth_error eps j = Some ep -> exists t rest, ep = t :: rest /\ stands m0 (rt_nrec t) (state_after (hs j))) ->
  exists vs v rs, replay_next_values m eps = Ok (OConcat v, rs) /\ concat_seqs vs = Ok v /\ length vs = length eps /\
    forall j ep, nth_error eps j = Some ep -> nth_error vs j = Some (fst (run1 m (map (@rt_next U V) ep) (state_after (hs j)))).
Proof. exact replay_next_ok. Qed.
Print Assumptions C65_replay_targets.

(** If the parameters have not changed since, replaying a piece of an episode
    gives at every step what acting gave (compare [good_eval]). *)
Theorem C65_replay_as_acted : forall U V (m0 m : link U V) h xs x, model_ok m0 m -> episode_ok m0 h -> xs <> [] ->
  fst (run1 m (xs ++ [x]) (state_after h)) =
  after (fst (run1 m xs (state_after h))) (fst (run1 m [x] (state_after (h ++ map (pair m) xs)))).
Proof. exact replay_step. Qed.
Print Assumptions C65_replay_as_acted.

Example C65_replay_case :
  let t x o r n := {| rt_env := 0; rt_state := x; rt_next := o; rt_rec := r; rt_nrec := n |} in
  let r1 := STup [SLstm 2 1; STup [SGru 2; STup [SGru 2]]]%Z in
  stands ex_link r1 (state_after [(ex_link, 1%Z)]) /\
  replay_values ex_link [[t 1 2 SNone SNone; t 2 3 r1 SNone]; [t 2 3 r1 SNone]]%Z
  = Ok (OConcat (VArr [4; 16; 16]), RTup [RLstm [5; 5] [2; 2]; RTup [RGru [8; 8]; RTup [RGru [8; 8]]]])%Z.
Proof. split; [split; [cbn; tauto | reflexivity] | reflexivity]. Qed.
