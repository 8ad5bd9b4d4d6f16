(** Model of how PPO (chainerrl/agents/ppo.py) and TRPO (chainerrl/agents/trpo.py) turn episodes
    into a dataset and the surrogate objectives of that dataset as functions of the parameters, in
    real arithmetic.  As in Model/PolicyGradient.v, [theta] is the position on a line through
    parameter space.  The losses are those of Model/PPOLoss.v.  Observation normalisation, [phi],
    minibatches and advantage standardisation are left out (Model/PPOLoss.v has the last). *)
From Coq Require Import Reals List Arith Bool.
From Verif Require Import Base.PyBase Model.Distributions Model.PPOLoss.
Import ListNotations.
Local Open Scope R_scope.

(** ppo.py:596-602, 665-671 and 771-777 (trpo.py the same): the dict of a transition. *)
Record transition (St : Type) := mk_transition { x_state : St; x_action : nat; x_reward : R; x_next : St; x_nonterminal : bool }.
Arguments mk_transition {St}. Arguments x_state {St}. Arguments x_action {St}. Arguments x_reward {St}. Arguments x_next {St}. Arguments x_nonterminal {St}.

(** ppo.py:102-136 [_add_log_prob_and_value_to_episodes]: what the model at [theta0] adds to a
    transition: log_prob, v_pred and next_v_pred. *)
Record evaluated (St : Type) := mk_evaluated { y_tr : transition St; y_logp : R; y_v : R; y_next_v : R }.
Arguments mk_evaluated {St}. Arguments y_tr {St}. Arguments y_logp {St}. Arguments y_v {St}. Arguments y_next_v {St}.
(** ppo.py:27-38: the advantages of one episode, from the last transition to the first; the
    accumulator is [adv] and the transitions treated so far with their adv and v_teacher. *)
Definition gae_iter {St} (gamma lambd : R) (st : R * list (evaluated St * R * R)) (y : evaluated St) : R * list (evaluated St * R * R) :=
  let (adv, out) := st in
  let nonterminal := if x_nonterminal (y_tr y) then 1 else 0 in
  let td_err := x_reward (y_tr y) + gamma * nonterminal * y_next_v y - y_v y in
  let adv := td_err + gamma * lambd * adv in
  (adv, (y, adv, adv + y_v y) :: out).
Definition gae {St} (gamma lambd : R) (ep : list (evaluated St)) : list (evaluated St * R * R) :=
  snd (fold_left (gae_iter gamma lambd) (rev ep) (0, [])).

Section Surrogate.
  Context {St : Type}.
  Variable n_act : nat.
  Variable pi : R -> St -> nat -> R.
  Variable entropy : R -> St -> R.
  Variable value : R -> St -> R.
  Definition evaluate (theta0 : R) (x : transition St) : evaluated St :=
    mk_evaluated x (ln (pi theta0 (x_state x) (x_action x))) (value theta0 (x_state x)) (value theta0 (x_next x)).
  (** ppo.py:438-476: the arguments of [_lossfun] for a transition when the parameters are [theta]. *)
  Definition sample_at (theta : R) (z : evaluated St * R * R) : sample :=
    let '(y, adv, teacher) := z in
    let x := y_tr y in
    mk_sample (entropy theta (x_state x)) (value theta (x_state x)) (ln (pi theta (x_state x) (x_action x))) (y_v y) (y_logp y) adv teacher.
  (** ppo.py:41-45, 214-230 [_make_dataset]: each episode on its own, then all transitions in one list. *)
  Definition dataset (gamma lambd theta0 : R) (eps : list (list (transition St))) : list (evaluated St * R * R) :=
    flat_map (fun ep => gae gamma lambd (map (evaluate theta0) ep)) eps.
  (** ppo.py:564-589 on the whole dataset, without the value loss, and trpo.py:388-393. *)
  Definition ppo_objective (eps_clip c_e gamma lambd theta0 : R) (eps : list (list (transition St))) (theta : R) : R :=
    let l := map (sample_at theta) (dataset gamma lambd theta0 eps) in loss_policy eps_clip l + c_e * loss_entropy l.
  Definition trpo_objective (c_e gamma lambd theta0 : R) (eps : list (list (transition St))) (theta : R) : R :=
    trpo_gain c_e (map (sample_at theta) (dataset gamma lambd theta0 eps)).
  (** distribution.py:163-165 ([all_log_prob] is the log of [all_prob]). *)
  Definition categorical_kl (p q : nat -> R) : R := fsum (map (fun a => p a * (ln (p a) - ln (q a))) (seq 0 n_act)).
  (** trpo.py:431, 511 and 617: the mean over the dataset. *)
  Definition trpo_kl (theta0 : R) (states : list St) (theta : R) : R := fmean (fun s => categorical_kl (pi theta0 s) (pi theta s)) states.
End Surrogate.
