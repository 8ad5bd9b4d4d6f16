(** What the average-reward setting asks for. *)
From Coq Require Import Reals List.
Import ListNotations.
Local Open Scope R_scope.

(** The differential Bellman equation along a trajectory: with average reward [rho], each value is the reward less the average plus the next value, the last next value
    being [last]. *)
Fixpoint differential (rho last : R) (steps : list (R * R)) : Prop :=
  match steps with
  | [] => True
  | (r, v) :: rest => v = r - rho + match rest with [] => last | (_, v') :: _ => v' end /\ differential rho last rest
  end.
(** Discounted sum of what was earned above the given averages, from a bootstrap value. *)
Fixpoint return_above (gamma last : R) (rewards averages : list R) : R :=
  match rewards, averages with r :: rs, a :: as_ => (r - a) + gamma * return_above gamma last rs as_ | _, _ => last end.
(** [k] updates of [n] steps each in a task with one state, whose value is [v], where each step earns [r]. *)
Definition one_state (k n : nat) (r v : R) : list (R * list (R * R)) := repeat (v, repeat (r, v) n) k.
Definition total (l : list R) : R := fold_right Rplus 0 l.
(** The average in force when each step is dealt with, given the advantages of all steps: the steps are dealt with from the last to the first. *)
Definition averages (tau rho : R) (advantages : list R) : list R :=
  map (fun k => rho + tau * total (skipn (S k) advantages)) (seq 0 (length advantages)).
