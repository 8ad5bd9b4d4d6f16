(** C36: advantages and returns. *)
From Coq Require Import QArith.
From Verif Require Import Base.PyBase Model.Returns Spec.WrapperSpec Spec.NStepSpec Proofs.ReturnProofs.
Local Open Scope nat_scope.

(** C36: PPO's and TRPO's advantages are the generalized advantage estimates and
    the value targets are advantage plus value. *)
Theorem C36_gae : forall gamma lambd ep,
  length (add_advantage gamma lambd ep) = length ep /\
  forall t x, nth_error ep t = Some x -> exists adv target, nth_error (add_advantage gamma lambd ep) t = Some (adv, target) /\
    (adv == weighted_sum (gamma * lambd) (map (td_error gamma) (skipn t ep)))%Q /\ (target == adv + g_v x)%Q.
Proof. exact gae. Qed.
Print Assumptions C36_gae.

(** C36: with lambda = 1 the value target is the discounted return plus the
    discounted value of the final state, with lambda = 0 the one-step target. *)
Theorem C36_gae_lambda_one : forall gamma ep, consistent ep ->
  forall t x, nth_error ep t = Some x -> exists adv target, nth_error (add_advantage gamma 1 ep) t = Some (adv, target) /\
    (target == weighted_sum gamma (map g_reward (skipn t ep)) + pow gamma (length ep - t) * end_value (skipn t ep))%Q.
Proof. exact gae_lambda_one. Qed.
Print Assumptions C36_gae_lambda_one.

Theorem C36_gae_lambda_zero : forall gamma ep t x, nth_error ep t = Some x ->
  exists adv target, nth_error (add_advantage gamma 0 ep) t = Some (adv, target) /\
    (target == g_reward x + (if g_nonterminal x then gamma * g_next_v x else 0))%Q.
Proof. exact gae_lambda_zero. Qed.
Print Assumptions C36_gae_lambda_zero.

Definition ex_episode : list gtr := [mk_gtr 1 true 5 7; mk_gtr 2 true 7 3; mk_gtr 4 false 3 9].
Example C36_gae_used : consistent ex_episode /\
  map (fun p => Qred (snd p)) (add_advantage (1 # 2) 1 ex_episode) = [3; 4; 4]%Q /\
  map (fun p => Qred (fst p)) (add_advantage (1 # 2) (1 # 2) ex_episode) = [(-21) # 16; (-13) # 4; 1]%Q.
Proof.
  split; [|split; vm_compute; reflexivity].
  intros [|[|[|t]]] x y H1 H2; try discriminate; try (injection H1 as <-; injection H2 as <-; split; reflexivity).
Qed.

(** C36: A2C trains on every complete block of [n] rounds exactly once, in order,
    each state and action with its n-step return (or, with [use_gae], its
    generalized advantage plus value), cut at the ends of episodes. *)
Theorem C36_a2c_returns : forall Obs A (value : nat -> Obs -> Q) use_gae gamma tau n, 0 < n ->
  forall rounds : list (@a2c_round Obs A), exists log s,
    a2c_run value use_gae gamma tau n (a2c_init n) rounds = Ok (log, s) /\
    length log = length rounds / n /\
    forall k b, nth_error log k = Some b ->
      trains_on (block n k rounds) (@r_key Obs A) (a2c_target value use_gae gamma tau k) b.
Proof. exact @a2c_trains. Qed.
Print Assumptions C36_a2c_returns.

Example C36_a2c_returns_used :
  let v (k s : nat) := inject_Z (Z.of_nat (10 * k + s)) in
  let rounds := [(1, 0, (2, 1%Q, false, false)); (2, 1, (3, 2%Q, true, false)); (4, 0, (5, 4%Q, false, false));
                 (5, 0, (6, 8%Q, false, false)); (6, 1, (7, 1%Q, false, true)); (8, 0, (9, 1%Q, false, false)); (9, 0, (1, 5%Q, false, false))] in
  exists s, a2c_run v false (1 # 2) 1 3 (a2c_init 3) rounds = Ok (s) /\
    map (map (fun x => (fst x, Qred (snd x)))) (fst s) =
    [[(1, 0, 2%Q); (2, 1, 2%Q); (4, 0, 13 # 2)]; [(5, 0, 17 # 2); (6, 1, 1%Q); (8, 0, 21 # 2)]].
Proof. eexists. split; vm_compute; reflexivity. Qed.

(** C36: A3C and NSQ train on the steps of the interaction cut after every end of
    an episode and every [t_max] steps, each step with its n-step return, whose
    bootstrap is zero after a terminal state. *)
Theorem C36_async_returns : forall Obs A (value : nat -> Obs -> Q) gamma t_max, 0 < t_max ->
  forall os : list (nstep_op Obs A), stops_follow_actions false os = true ->
  exists log s, nstep_runs value gamma t_max nagent_init os = Ok (log, s) /\
    length log = length (segments t_max [] (steps_of os)) /\
    forall k seg b, nth_error (segments t_max [] (steps_of os)) k = Some seg -> nth_error log k = Some b ->
      trains_on seg st_key (n_step_target gamma (value k)) b.
Proof. exact @nstep_trains. Qed.
Print Assumptions C36_async_returns.

(** C36: that cutting keeps every step, in order, in groups of at most [t_max]
    steps of one episode. *)
Theorem C36_async_segments : forall Obs A t_max, 0 < t_max -> forall (l cur : list (step Obs A)), length cur < t_max ->
  (forall x, In x cur -> st_end x = None) ->
  exists rest, cur ++ l = concat (segments t_max cur l) ++ rest /\ length rest < t_max /\ (forall x, In x rest -> st_end x = None) /\
  forall seg, In seg (segments t_max cur l) -> 0 < length seg <= t_max /\
    (length seg = t_max \/ exists pre x d, seg = pre ++ [x] /\ st_end x = Some d) /\
    forall i x, nth_error seg i = Some x -> S i < length seg -> st_end x = None.
Proof. exact @segments_tile. Qed.
Print Assumptions C36_async_segments.

Example C36_async_returns_used :
  let v (k s : nat) := inject_Z (Z.of_nat (10 * k + s)) in
  let os := [NAct 1 0%Q 0; NAct 2 1%Q 1; NAct 3 2%Q 0; NAct 4 4%Q 0; NStop 5 8%Q true; NAct 6 0%Q 1; NStop 7 2%Q false] in
  stops_follow_actions false os = true /\
  exists s, nstep_runs v (1 # 2) 2 nagent_init os = Ok s /\
    map (map (fun x => (fst x, Qred (snd x)))) (fst s) =
    [[(1, 0, 11 # 4); (2, 1, 7 # 2)]; [(3, 0, 8%Q); (4, 0, 8%Q)]; [(6, 1, 31 # 2)]].
Proof. split; [reflexivity|]. eexists. split; vm_compute; reflexivity. Qed.
