(** Models of chainerrl/agents/categorical_dqn.py lines 9-66
    (_apply_categorical_projection) and 120-150 (_compute_target_values),
    chainerrl/agents/categorical_double_dqn.py (whole file), and of the parts of
    chainerrl/action_value.py that they use (DistributionalDiscreteActionValue, lines
    97-160).  Exact rationals; a 2-d array is the list of its rows. *)
From Coq Require Import QArith Qround.
From Verif Require Import Base.PyBase.
Set Implicit Arguments.
Local Open Scope nat_scope.

(** np.clip: minimum(maximum(x, lo), hi). *)
Definition qclip (lo hi x : Q) : Q :=
  let x := if Qle_bool lo x then x else lo in
  if Qle_bool x hi then x else hi.

(** np.add.at on a 1-d array: one += per (index, value), in order. *)
Fixpoint scatter_add (arr : list Q) (l : list (Z * Q)) : res (list Q) :=
  match l with
  | [] => Ok arr
  | (i, v) :: l =>
      let! x := py_get arr i in
      let! arr := py_set arr i (x + v)%Q in
      scatter_add arr l
  end.

(** View a flat array as [batch] rows of length [n]. *)
Definition as_rows (n batch : nat) (flat : list Q) : list (list Q) :=
  map (fun b => firstn n (skipn (b * n) flat)) (seq 0 batch).

Definition zq (z : Z) : Q := inject_Z z.

(** categorical_dqn.py:9-66 [_apply_categorical_projection].  A zero [delta_z] (nan in
    numpy) divides by zero here and is excluded in the theorems. *)
Definition categorical_projection (y y_probs : list (list Q)) (z : list Q) : res (list (list Q)) :=
  let n := length z in
  let batch := length y in
  assert! forallb (fun r => length r =? n) y in
  assert! (length y_probs =? batch) && forallb (fun r => length r =? n) y_probs in
  let! z1 := py_get z 1 in
  let! z0 := py_get z 0 in
  let delta_z := (z1 - z0)%Q in
  let v_min := z0 in
  let! v_max := py_get z (-1) in
  let y := map (map (qclip v_min v_max)) y in
  let bj := map (map (fun v => qclip 0 (zq (Z.of_nat n - 1)) ((v - v_min) / delta_z)%Q)) y in
  (* (row number, [(bj, y_prob)]) *)
  let cells := combine (seq 0 batch) (map (fun p => combine (fst p) (snd p)) (combine bj y_probs)) in
  let lower := concat (map (fun r => map (fun c => ((Qfloor (fst c) + Z.of_nat (fst r * n))%Z,
                                                     (snd c * (1 - (fst c - zq (Qfloor (fst c)))))%Q)) (snd r)) cells) in
  let upper := concat (map (fun r => map (fun c => ((Qceiling (fst c) + Z.of_nat (fst r * n))%Z,
                                                     (snd c * (fst c - zq (Qfloor (fst c))))%Q)) (snd r)) cells) in
  let z_probs := repeat 0%Q (batch * n) in
  let! z_probs := scatter_add z_probs lower in
  let! z_probs := scatter_add z_probs upper in
  Ok (as_rows n batch z_probs).

(** numpy's argmax: the first maximum. *)
Fixpoint argmax_from (best : Q) (besti i : nat) (l : list Q) : nat :=
  match l with
  | [] => besti
  | x :: l => if Qle_bool x best then argmax_from best besti (S i) l else argmax_from x i (S i) l
  end.
Definition argmax (l : list Q) : res nat :=
  match l with [] => Raise ValueError | x :: l => Ok (argmax_from x 0 1 l) end.

(** action_value.py:118: q_values of one example: for every action the sum over
    atoms of probability times value. *)
Definition dist_q_values (z : list Q) (q_dist : list (list Q)) : list Q :=
  map (fun d => fold_right Qplus 0%Q (map (fun p => fst p * snd p)%Q (combine d z))) q_dist.
(** action_value.py:123-126 [greedy_actions], 133-143 [max_as_distribution] and
    148-159 [evaluate_actions_as_distribution], of one example. *)
Definition greedy_action (z : list Q) (q_dist : list (list Q)) : res nat := argmax (dist_q_values z q_dist).
Definition action_dist (q_dist : list (list Q)) (a : nat) : res (list Q) :=
  match nth_error q_dist a with Some d => Ok d | None => Raise IndexError end.
Definition max_as_distribution (z : list Q) (q_dist : list (list Q)) : res (list Q) :=
  let! a := greedy_action z q_dist in action_dist q_dist a.

Fixpoint mapM {X Y} (f : X -> res Y) (l : list X) : res (list Y) :=
  match l with
  | [] => Ok []
  | x :: l => let! y := f x in let! ys := mapM f l in Ok (y :: ys)
  end.

(** One example of exp_batch: reward, is_state_terminal, discount. *)
Record cexp := mk_cexp { c_reward : Q; c_terminal : bool; c_discount : Q }.
(** categorical_dqn.py:145-148: Tz of one example. *)
Definition shifted_atoms (z : list Q) (x : cexp) : list Q :=
  map (fun v => c_reward x + (1 - (if c_terminal x then 1 else 0)) * c_discount x * v)%Q z.

(** categorical_dqn.py:122-150 [_compute_target_values]: [next] are the outputs of the
    target network for the next states (already evaluated). *)
Definition categorical_target (z : list Q) (batch : list cexp) (next : list (list (list Q))) : res (list (list Q)) :=
  let! next_q_max := mapM (max_as_distribution z) next in
  categorical_projection (map (shifted_atoms z) batch) next_q_max z.
(** categorical_double_dqn.py:13-46: the greedy actions are those of the online
    network ([online]), the distributions those of the target network. *)
Definition categorical_double_target (z : list Q) (batch : list cexp) (next online : list (list (list Q)))
  : res (list (list Q)) :=
  let! acts := mapM (greedy_action z) online in
  let! next_q_max := mapM (fun p => action_dist (fst p) (snd p)) (combine next acts) in
  categorical_projection (map (shifted_atoms z) batch) next_q_max z.
