(** What A2C's update should be: that of A3C on the pieces of experience of each environment. *)
From Coq Require Import Reals List Arith Bool.
From Verif Require Import Base.PyBase Model.PolicyGradient Model.A2CUpdate.
Import ListNotations.
Local Open Scope R_scope.

(** What environment j gave. *)
Definition of_env {X : Type} (j : nat) (rounds : list (list X)) : list X :=
  flat_map (fun row => match nth_error row j with Some x => [x] | None => [] end) rounds.
(** Cut experience after every step that ended an episode.  Each piece comes with the value that
    follows it: 0 after the end of an episode, and [last] for the final piece (which may be empty). *)
Fixpoint pieces {St Act : Type} (l : list (cell St Act)) (last : R) : list (list (cell St Act) * R) :=
  match l with
  | [] => [([], last)]
  | x :: l => if e_done x then ([x], 0) :: pieces l last
              else match pieces l last with [] => [] | (p, v) :: rest => (x :: p, v) :: rest end
  end.
(** A step as A3C remembers it. *)
Definition as_step {St Act : Type} (value : R -> St -> R) (log_prob : R -> St -> Act -> R) (entropy : R -> St -> R) (x : cell St Act) : a3c_step :=
  mk_a3c_step (e_reward x) (fun t => value t (e_state x)) (fun t => log_prob t (e_state x) (e_action x)) (fun t => entropy t (e_state x)).
(** Two configurations with the same objective: A3C halves the squared error of the values and
    multiplies the entropy by the coefficient of the policy loss too. *)
Definition same_objective (c : a2c_conf) (c3 : a3c_conf) : Prop :=
  ac_gamma c3 = a2_gamma c /\ ac_pi_coef c3 = a2_pi_coef c /\ ac_v_coef c3 = 2 * a2_v_coef c /\
  ac_pi_coef c3 * ac_beta c3 = a2_entropy_coef c /\ ac_keep_scale c3 = false /\ ac_normalize c3 = false.
(** n rounds of [cols] environments. *)
Definition rectangular {X : Type} (cols : nat) (rounds : list (list X)) : Prop := forall row, In row rounds -> length row = cols.
