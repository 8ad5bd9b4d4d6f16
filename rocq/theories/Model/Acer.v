(** Model of chainerrl/agents/acer.py: importance weights and bias correction
    (lines 21-105), the trust region (180-219) and the returns of [compute_loss]
    (394-459).  Numbers are reals; networks are replaced by the values they give. *)
From Coq Require Import Reals List.
From Verif Require Import Base.PyBase Model.ConjugateGradient.
Import ListNotations.
Local Open Scope R_scope.

(** ** Importance weights *)
(** What is known about one discrete action: its probabilities under the policy and
    the behaviour, the log-probability (whose gradient is taken) and the Q-value. *)
Record act := mk_act { a_pi : R; a_mu : R; a_lp : R; a_q : R }.

(** acer.py:20-21: division of Python floats; [nan_to_num] only matters for floats
    that are not finite. *)
Definition compute_importance (p m : R) : res R :=
  if Req_EM_T m 0 then Raise ZeroDivisionError else Ok (p / m).

(** acer.py:24-29, one entry: 0/0 becomes 1 and a positive number divided by zero the
    largest float [huge]. *)
Definition full_importance (huge p m : R) : R :=
  if Req_EM_T m 0 then (if Req_EM_T p 0 then 1 else huge) else p / m.

(** acer.py:32-49. *)
Definition correction_weight (huge c : R) (x : act) : R :=
  Rmax (1 - c * full_importance huge (a_mu x) (a_pi x)) 0 * a_pi x.
Definition full_correction (huge c v : R) (acts : list act) : R :=
  - fold_right Rplus 0 (map (fun x => correction_weight huge c x * a_lp x * (a_q x - v)) acts).

(** acer.py:52-74, for the sampled action [x]. *)
Definition sample_correction (c v : R) (x : act) : res R :=
  let! rho_dash_inv := compute_importance (a_mu x) (a_pi x) in
  if Rlt_dec 0 c then
    if Rle_dec (1 / c) rho_dash_inv then Ok 0
    else
      let w := Rmax 0 (1 - c * rho_dash_inv) in
      if Rle_dec w 1 then Ok (- (w * a_lp x * (a_q x - v))) else Raise AssertionError
  else
    let w := Rmax 0 (1 - c * rho_dash_inv) in
    if Rle_dec w 1 then Ok (- (w * a_lp x * (a_q x - v))) else Raise AssertionError.

(** acer.py:77-113 for a categorical distribution and the performed action [x]. *)
Definition policy_gradient_loss (huge : R) (off_policy : bool) (truncation_threshold : option R)
  (acts : list act) (v : R) (x : act) (advantage : R) : res R :=
  if off_policy then
    let! rho := compute_importance (a_pi x) (a_mu x) in
    match truncation_threshold with
    | None => Ok (0 - rho * a_lp x * advantage)
    | Some c => Ok (0 - Rmin c rho * a_lp x * advantage + full_correction huge c v acts)
    end
  else Ok (- a_lp x * advantage).

(** ** Trust region *)
(** acer.py:207-217: [g] and [k] are the gradients with respect to the parameters of
    the distribution, one flattened array per parameter. *)
Fixpoint sum_dots (k g : list vec) : R :=
  match k, g with kp :: k, gp :: g => dot kp gp + sum_dots k g | _, _ => 0 end.
Definition k_factor (g k : list vec) (delta : R) : R :=
  let kg_dot := sum_dots k g in
  let kk_dot := sum_dots k k in
  if Rlt_dec 0 kk_dot then Rmax 0 ((kg_dot - delta) / kk_dot) else 0.
Fixpoint directions (f : R) (g k : list vec) : list vec :=
  match k, g with kp :: k, gp :: g => vsub gp (vscale f kp) :: directions f g k | _, _ => [] end.
(** The gradient of the returned loss with respect to the parameters. *)
Definition kl_constrained_direction (g k : list vec) (delta : R) : list vec := directions (k_factor g k delta) g k.

(** ** Returns *)
(** One step of the history: reward, state value, value of the performed action and
    importance weight (1 on-policy, acer.py:416-421). *)
Record hstep := mk_hstep { h_r : R; h_v : R; h_q : R; h_rho : R }.

(** acer.py:454-457; [dim] is [ba.size]. *)
Definition trace_coef (discrete : bool) (dim : nat) (rho : R) : R :=
  if discrete then Rmin 1 rho
  else Rmin 1 (if Req_EM_T rho 0 then 0 else Rpower rho (1 / INR dim)).

(** acer.py:406-459: the values of [Q_ret] and [Q_opc] used at each step, and those
    left after the loop, which runs backwards from [R]. *)
Fixpoint acer_returns (gamma : R) (discrete : bool) (dim : nat) (last : R) (h : list hstep) : list (R * R) * (R * R) :=
  match h with
  | [] => ([], (last, last))
  | s :: t =>
    let '(out, (q_ret, q_opc)) := acer_returns gamma discrete dim last t in
    let q_ret := h_r s + gamma * q_ret in
    let q_opc := h_r s + gamma * q_opc in
    ((q_ret, q_opc) :: out,
     (trace_coef discrete dim (h_rho s) * (q_ret - h_q s) + h_v s, q_opc - h_q s + h_v s))
  end.
