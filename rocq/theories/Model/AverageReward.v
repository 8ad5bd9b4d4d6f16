(** Model of A3C's average-reward option, use_average_reward (chainerrl/agents/a3c.py), in real arithmetic. *)
From Coq Require Import Reals List.
Import ListNotations.
Local Open Scope R_scope.

(** a3c.py:166-186 with use_average_reward: one round of the loop, for a step with reward [fst x] and value [snd x].  The state is R, the average reward and the pairs
    (R, advantage) used in the losses of the steps after this one; the losses themselves are as in Model/PolicyGradient.v.  past_values are numbers here, their graphs
    being of no concern to the average. *)
Definition average_round (gamma tau : R) (x : R * R) (acc : R * R * list (R * R)) : R * R * list (R * R) :=
  let '(ret, average, used) := acc in
  let ret := ret * gamma in
  let ret := ret + fst x in
  let ret := ret - average in
  let advantage := ret - snd x in
  (ret, average + tau * advantage, (ret, advantage) :: used).
(** a3c.py:159-186: the loop over the steps in reverse.  [bootstrap] is 0 after a terminal state and the value of the next state otherwise. *)
Definition average_update (gamma tau bootstrap average : R) (steps : list (R * R)) : R * list (R * R) :=
  let '(_, average, used) := fold_right (average_round gamma tau) (bootstrap, average, []) steps in (average, used).
(** a3c.py:140 and 171-177 over several updates, each given by its bootstrap value and its steps; the average starts at 0 but is never reset, so any start is allowed. *)
Definition average_after (gamma tau average : R) (updates : list (R * list (R * R))) : R :=
  fold_left (fun a u => fst (average_update gamma tau (fst u) a (snd u))) updates average.
