(** The Retrace estimate. *)
From Coq Require Import Reals List.
From Verif Require Import Model.Acer Spec.SumSpec.
Import ListNotations.
Local Open Scope R_scope.

(** The value of the state after step [i]: that of the next step, or the bootstrap. *)
Definition next_value (last : R) (h : list hstep) (i : nat) : R :=
  match nth_error h (S i) with Some s => h_v s | None => last end.
(** The temporal difference error of the action value at step [i]. *)
Definition q_error (gamma last : R) (h : list hstep) (i : nat) : R :=
  match nth_error h i with Some s => h_r s + gamma * next_value last h i - h_q s | None => 0 end.
Definition coef (c : R -> R) (h : list hstep) (i : nat) : R :=
  match nth_error h i with Some s => c (h_rho s) | None => 0 end.
Definition q_at (h : list hstep) (i : nat) : R := match nth_error h i with Some s => h_q s | None => 0 end.

(** Q_t + sum_j gamma^j c_{t+1} ... c_{t+j} delta_{t+j}. *)
Definition retrace (gamma last : R) (c : R -> R) (h : list hstep) (t : nat) : R :=
  q_at h t + sum_below (length h - t) (fun j =>
    gamma ^ j * prod_below j (fun l => coef c h (t + 1 + l)) * q_error gamma last h (t + j)).
