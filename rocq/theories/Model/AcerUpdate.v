(** Model of the updates of ACER (chainerrl/agents/acer.py:394-474, 513-591) for discrete actions, in real arithmetic: the loss as a function of the parameters, on the
    agent's own history and on a replayed episode. *)
From Coq Require Import Reals List.
From Verif Require Import Base.PyBase Model.Acer.
Import ListNotations.
Local Open Scope R_scope.

(** What the model returns for one observation: the probabilities as numbers, and log-probabilities, action values, state value and entropy as functions of the
    parameters; [theta] is the position on a line through parameter space, [0] the current parameters. *)
Record out := mk_out { o_pi : list R; o_lp : R -> list R; o_q : R -> list R; o_v : R -> R; o_entropy : R -> R }.
(** One step of a history (acer.py:611-621 or 533-544): outputs of the model and of the averaged model, behaviour probabilities (None on-policy), action and reward. *)
Record hist := mk_hist { s_out : out; s_avg : out; s_mu : option (list R); s_action : nat; s_reward : R }.
Record acer_conf := mk_acer_conf { c_gamma : R; c_beta : R; c_pi_coef : R; c_q_coef : R; c_trust : bool; c_truncation : option R; c_use_opc : bool; c_by_steps : bool }.

Section Loss.
  (** [huge] is the largest float (Model/Acer.v); [constrain] is compute_loss_with_kl_constraint, acer.py:180-219, whose gradient is [kl_constrained_direction] there. *)
  Variable huge : R.
  Variable constrain : out -> out -> (R -> res R) -> R -> res R.
  Variable c : acer_conf.

  (** The actions as Model/Acer.v sees them; on-policy the behaviour probabilities are not read. *)
  Definition act_at (s : hist) (theta : R) (a : nat) : act :=
    mk_act (nth a (o_pi (s_out s)) 0) (nth a (match s_mu s with Some mu => mu | None => [] end) 0) (nth a (o_lp (s_out s) theta) 0) (nth a (o_q (s_out s) 0) 0).
  Definition acts_at (s : hist) (theta : R) : list act := map (act_at s theta) (seq 0 (length (o_pi (s_out s)))).
  (** acer.py:416-421. *)
  Definition rho_of (s : hist) : res R :=
    match s_mu s with Some mu => compute_importance (nth (s_action s) (o_pi (s_out s)) 0) (nth (s_action s) mu 0) | None => Ok 1 end.
  (** acer.py:364-390 [compute_one_step_pi_loss], without the average of the divergence. *)
  Definition one_step_pi_loss (s : hist) (advantage theta : R) : res R :=
    let g := fun theta => policy_gradient_loss huge (match s_mu s with Some _ => true | None => false end) (c_truncation c) (acts_at s theta) (o_v (s_out s) 0)
                            (act_at s theta (s_action s)) advantage in
    let! pi_loss := (if c_trust c then constrain (s_out s) (s_avg s) g theta else g theta) in
    Ok (pi_loss - c_beta c * o_entropy (s_out s) theta).
  (** acer.py:399-459, the loop, for discrete actions: (pi_loss, Q_loss, (Q_ret, Q_opc)); [last] is R. *)
  Fixpoint loss_loop (last theta : R) (h : list hist) : res (R * R * (R * R)) :=
    match h with
    | [] => Ok (0, 0, (last, last))
    | s :: t =>
      let! x := loss_loop last theta t in
      let '(pi_loss, q_loss, (q_ret, q_opc)) := x in
      let! rho := rho_of s in
      let q_ret := s_reward s + c_gamma c * q_ret in
      let q_opc := s_reward s + c_gamma c * q_opc in
      let v := o_v (s_out s) 0 in
      let advantage := (if c_use_opc c then q_opc else q_ret) - v in
      let! l := one_step_pi_loss s advantage theta in
      let q := fun theta => nth (s_action s) (o_q (s_out s) theta) 0 in
      Ok (pi_loss + l, q_loss + (q_ret - q theta) ^ 2 / 2, (Rmin 1 rho * (q_ret - q 0) + v, q_opc - q 0 + v))
    end.
  (** acer.py:461-474. *)
  Definition acer_loss (last : R) (h : list hist) (theta : R) : res R :=
    let! x := loss_loop last theta h in
    let '(pi_loss, q_loss, _) := x in
    let pi_loss := pi_loss * c_pi_coef c in
    let q_loss := q_loss * c_q_coef c in
    if c_by_steps c then Ok (pi_loss / INR (length h) + q_loss / INR (length h)) else Ok (pi_loss + q_loss).
End Loss.

(** ** Histories *)
Section History.
  Context {X H : Type}.
  (** The model and the averaged model as functions of their recurrent state and an (already preprocessed) observation; their parameters are fixed within an update. *)
  Variable net avg : H -> X -> out * H.
  (** What happened at one step of the agent: observation, action, reward; acer.py:595-645 [act_and_train]: what the agent remembers of it for its own update, and the
      recurrent states after it. *)
  Fixpoint remember (h ha : H) (steps : list (X * nat * R)) : list hist * (H * H) :=
    match steps with
    | [] => ([], (h, ha))
    | (x, a, r) :: steps =>
      let '(o, h) := net h x in
      let '(oa, ha) := avg ha x in
      let '(rest, hs) := remember h ha steps in
      (mk_hist o oa None a r :: rest, hs)
    end.
  (** acer.py:568-591 [update_on_policy]: the bootstrap value and the history; [next] is the next observation, or None at the end of an episode. *)
  Definition on_policy (h ha : H) (steps : list (X * nat * R)) (next : option X) : R * list hist :=
    let '(hist, (h, _)) := remember h ha steps in
    (match next with None => 0 | Some x => o_v (fst (net h x)) 0 end, hist).

  (** A stored transition (acer.py:647-658, 689-696). *)
  Record stored := mk_stored { t_state : X; t_act : nat; t_rew : R; t_next : X; t_terminal : bool; t_mu : list R }.
  (** acer.py:524-544: the loop over the replayed episode. *)
  Fixpoint replay_loop (h ha : H) (ep : list stored) : list hist * H :=
    match ep with
    | [] => ([], h)
    | t :: ep =>
      let '(o, h) := net h (t_state t) in
      let '(oa, ha) := avg ha (t_state t) in
      let '(rest, h) := replay_loop h ha ep in
      (mk_hist o oa (Some (t_mu t)) (t_act t) (t_rew t) :: rest, h)
    end.
  (** acer.py:522-566 [update_from_replay] after sampling: the recurrent states are reset first ([h0], [ha0]); [episode[-1]] raises on an empty episode. *)
  Definition from_replay (h0 ha0 : H) (ep : list stored) : res (R * list hist) :=
    let '(hist, h) := replay_loop h0 ha0 ep in
    match rev ep with
    | [] => Raise IndexError
    | t :: _ => Ok (if t_terminal t then 0 else o_v (fst (net h (t_next t))) 0, hist)
    end.
  (** acer.py:647-658 and 689-696: the transitions that the agent stores while it acts with [net] from [h]; [last] is the observation after the last step and whether it is
      terminal; mu is the distribution acted from. *)
  Fixpoint store (h : H) (steps : list (X * nat * R)) (last : X) (terminal : bool) : list stored :=
    match steps with
    | [] => []
    | (x, a, r) :: steps =>
      let '(o, h) := net h x in
      mk_stored x a r (match steps with [] => last | (x', _, _) :: _ => x' end) (match steps with [] => terminal | _ => false end) (o_pi o) :: store h steps last terminal
    end.
End History.
