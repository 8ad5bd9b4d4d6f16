(** C27: exploration schedules. *)
From Coq Require Import QArith Floats.
From Verif Require Import Base.PyBase Model.Num Model.Explorers Spec.ScheduleSpec Proofs.ExplorersProofs.
Local Open Scope Q_scope.

(** LinearDecayEpsilonGreedy with a positive number of decay steps, exact
    arithmetic: compute_epsilon never raises, is the straight line from the start
    to the end value, stays between the two, moves in one direction only and is a
    probability. *)
Theorem C27_linear_decay : forall s e n d, decay_init QNum s e n = Ok d -> (0 < n)%Z ->
  exists f, (forall t, compute_epsilon d t = Ok (f t)) /\
    (forall t, f t == line 0 (Z.to_nat n) s e t) /\ moves s e f /\ (forall t, 0 <= f t <= 1).
Proof. exact decay_schedule. Qed.
Print Assumptions C27_linear_decay.

(** Every history of select_action calls (time step, draw, random action, greedy
    action): the random action is returned exactly for draws below the scheduled
    epsilon, and exactly one of the two action functions is called. *)
Theorem C27_epsilon_greedy_history : forall (A : Type) s e n d (calls : list (nat * Q * A * A)),
  decay_init QNum s e n = Ok d -> (0 < n)%Z ->
  exists out d', decay_run d calls = Ok (out, d') /\
    Forall2 (fun c o => match c with (t, u, ra, ga) =>
       (u < line 0 (Z.to_nat n) s e t /\ o = (ra, [CallRandom])) \/
       (line 0 (Z.to_nat n) s e t <= u /\ o = (ga, [CallGreedy])) end) calls out.
Proof. exact decay_history. Qed.
Print Assumptions C27_epsilon_greedy_history.
Example C27_example : exists d, decay_init QNum 1 (1#10) 10 = Ok d /\
  compute_epsilon d 5 = Ok (1 + ((1#10) - 1) * (5 / 10)) /\ compute_epsilon d 11 = Ok (1#10) /\
  exists d', decay_run d [(0%nat, (9#10), true, false); (11%nat, (9#10), true, false)]
             = Ok ([(true, [CallRandom]); (false, [CallGreedy])], d').
Proof. eexists. split; [reflexivity|]. split; [reflexivity|]. split; [reflexivity|]. eexists. reflexivity. Qed.

Theorem C27_constant_epsilon : forall (A : Type) e eps u (ra ga : A), constant_init QNum e = Ok eps ->
  eps = e /\ 0 <= e <= 1 /\
  ((u < e /\ constant_select QNum eps u ra ga = (ra, [CallRandom])) \/
   (e <= u /\ constant_select QNum eps u ra ga = (ga, [CallGreedy]))).
Proof. exact constant_choice. Qed.
Print Assumptions C27_constant_epsilon.
Example C27_constant_example : constant_init QNum (1#3) = Ok (1#3) /\
  constant_select QNum (1#3) (1#3) true false = (false, [CallGreedy]).
Proof. split; reflexivity. Qed.

(** LinearInterpolationHook: the line from start_value at step 1 to stop_value at
    step total_steps; with total_steps = 1 the stop value is used from step 1 on. *)
Theorem C27_interpolation_hook : forall total s e, (1 <= total)%nat ->
  (forall t, (t <> 1 \/ 1 < total)%nat -> hook_value (@mk_hook QNum total s e) t == line 1 total s e t) /\
  ((total = 1)%nat -> hook_value (@mk_hook QNum total s e) 1 = e) /\
  moves s e (hook_value (@mk_hook QNum total s e)).
Proof. exact hook_line. Qed.
Print Assumptions C27_interpolation_hook.
Example C27_hook_example : hook_value (@mk_hook QNum 11 1 0) 6 == 1#2.
Proof. reflexivity. Qed.

(** The schedule is not total: decay_steps = 0 is accepted by the constructor but
    the first call, at t = 0, divides by zero. *)
Theorem C27_zero_steps_refuted : exists d,
  decay_init QNum 1 (1#10) 0 = Ok d /\ compute_epsilon d 0 = Raise ZeroDivisionError.
Proof. eexists. split; reflexivity. Qed.
Print Assumptions C27_zero_steps_refuted.

(** In IEEE doubles the end value is undershot at t = decay_steps: with
    start_epsilon = 1.0, end_epsilon = 0.1 the value is 0.09999999999999998. *)
Theorem C27_float_end_refuted : exists d v,
  decay_init FNum 1%float 0x1.999999999999ap-4%float 4 = Ok d /\ compute_epsilon d 4 = Ok v /\
  PrimFloat.ltb v 0x1.999999999999ap-4%float = true.
Proof. do 2 eexists. split; [vm_compute; reflexivity|]. split; vm_compute; reflexivity. Qed.
Print Assumptions C27_float_end_refuted.
