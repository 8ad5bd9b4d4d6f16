(** Model of the statistics that agents keep for [get_statistics]: moving averages (DQN, DDPG, PGT, A3C, ACER, NSQ, PCL, REINFORCE, A2C) and records of a
    bounded length (PPO, TRPO, TD3, SAC).  Numbers are real; nan is [None].  Agents are reduced to the calls that change a statistic and the numbers that go into it. *)
From Coq Require Import QArith Qreals Reals List.
From Verif Require Import Base.PyBase Model.Distributions Model.PPOLoss Model.LineSearch.
Import ListNotations.
Local Open Scope R_scope.

(** ** Moving averages *)
(** dqn.py:266-267, 285-286, 370-371, 418-419 and 460-461; ddpg.py:208-209, 248-249, 342-343 and 366-367; pgt.py:173-174, 193-194 and 244-245:
    [avg *= decay; avg += (1 - decay) * x]. *)
Definition scaled_average (decay avg x : R) : R := avg * decay + (1 - decay) * x.
(** a2c.py:209-217, a3c.py:261-266, acer.py:383-384 and 624-629, nsq.py:146-147, pcl.py:237-239 and 404-409, reinforce.py:89-91: [avg += (1 - decay) * (x - avg)]. *)
Definition moved_average (decay avg x : R) : R := avg + (1 - decay) * (x - avg).

(** The calls of an off-policy agent that choose actions, with the largest action values (DQN) or the values of the greedy actions (DDPG, PGT) they compute. *)
Inductive acting := Act (q : R) | ActAndTrain (q : R) | BatchAct (qs : list R) | BatchActAndTrain (qs : list R).
(** dqn.py:361-374, 376-428, 444-463 and 465-470: [batch_act] records nothing. *)
Definition dqn_average_q (decay avg : R) (c : acting) : R :=
  match c with
  | Act q | ActAndTrain q => scaled_average decay avg q
  | BatchActAndTrain qs => scaled_average decay avg (np_mean qs)
  | BatchAct _ => avg
  end.
(** ddpg.py:299-347, 349-371 and 373-397: [act_and_train] and [batch_act_and_train] call [act] and [batch_act], which record. *)
Definition ddpg_average_q (decay avg : R) (c : acting) : R :=
  match c with
  | Act q | ActAndTrain q => scaled_average decay avg q
  | BatchAct qs | BatchActAndTrain qs => scaled_average decay avg (np_mean qs)
  end.
(** nsq.py:126-157 [act_and_train] records; nsq.py:159-163 [act] does not; there are no batch calls. *)
Definition nsq_average_q (decay avg : R) (c : acting) : R :=
  match c with ActAndTrain q => moved_average decay avg q | _ => avg end.
(** dqn.py:195, ddpg.py:140 and nsq.py:70: averages start at 0. *)
Definition average_after (f : R -> acting -> R) (cs : list acting) : R := fold_left f cs 0.

(** a2c.py:190-195 and 209-217: an update with the returns and the values it has just computed; [average_value] is given the mean squared error. *)
Record a2c_update := mk_a2c { a2_returns : list R; a2_values : list R }.
Definition a2c_average_value (decay avg : R) (u : a2c_update) : R :=
  moved_average decay avg (np_mean (map (fun rv => (fst rv - snd rv) * (fst rv - snd rv)) (combine (a2_returns u) (a2_values u)))).

(** ** Records *)
(** [collections.deque(maxlen=window)] and its [append] and [extend] (ppo.py:362-367 and trpo.py:220-224); without a window, it is unbounded. *)
Definition dq_append (window : option nat) (d : list R) (x : R) : list R :=
  match window with
  | None => d ++ [x]
  | Some n => if Nat.ltb n (length (d ++ [x])) then tl (d ++ [x]) else d ++ [x]
  end.
Definition dq_extend (window : option nat) (d xs : list R) : list R := fold_left (dq_append window) xs d.
(** ppo.py:14-16. *)
Definition mean_or_nan (xs : list R) : option R := match xs with [] => None | _ => Some (np_mean xs) end.
(** ppo.py:632-633 (one observation) and 738-740 (a batch); td3.py:207-210: what one call appends. *)
Definition record_after (window : option nat) (calls : list (list R)) : list R := fold_left (dq_extend window) calls [].

(** trpo.py:636-637 and 643: a line search records its divergence if it succeeds, and its step size or 0. *)
Definition trpo_kl (window : option nat) (d : list R) (o : outcome) : list R :=
  match o_kl o with Some (Fin kl) => dq_append window d (Q2R kl) | _ => d end.
Definition trpo_step (window : option nat) (d : list R) (o : outcome) : list R := dq_append window d (Q2R (o_step_size o)).
