(** Model of the discrete action values of chainerrl/action_value.py and of the heads of
    chainerrl/q_functions/dueling_dqn.py, for whole batches, in real arithmetic.  An
    array is a list of rows; the convolutions below the heads are not modelled (their
    outputs are arbitrary), nor are gradients, dtypes and GPU arrays. *)
From Coq Require Import Reals List Arith.
From Verif Require Import Base.PyBase Model.Categorical Model.Distributions Model.Targets.
Import ListNotations.
Local Open Scope R_scope.

(** [array.argmax(axis=1)] of one row; numpy raises ValueError on an empty row. *)
Definition argmax_row (row : list R) : res nat :=
  match row with [] => Raise ValueError | _ => Ok (q_greedy row) end.

(** [F.select_item(x, t)]: chainer's type check wants as many indices as rows (an
    InvalidType, modelled by TypeError); numpy raises IndexError outside a row.  Action
    indices are natural numbers (numpy would let negative ones count from the end). *)
Fixpoint pick_rows {X : Type} (x : list (list X)) (t : list nat) : res (list X) :=
  match x, t with
  | row :: x, a :: t =>
    match nth_error row a with
    | None => Raise IndexError
    | Some v => let! vs := pick_rows x t in Ok (v :: vs)
    end
  | _, _ => Ok []
  end.
Definition select_item {X : Type} (x : list (list X)) (t : list nat) : res (list X) :=
  if Nat.eqb (length x) (length t) then pick_rows x t else Raise TypeError.

(** ** DiscreteActionValue, action_value.py:44-90; the value is its array of Q values. *)
Definition qvalues := list (list R).
(** action_value.py:58-61. *)
Definition av_greedy (q : qvalues) : res (list nat) := mapM argmax_row q.
(** action_value.py:63-66. *)
Definition av_max (q : qvalues) : res (list R) := let! g := av_greedy q in select_item q g.
(** action_value.py:68-69. *)
Definition av_evaluate (q : qvalues) (actions : list nat) : res (list R) := select_item q actions.
(** action_value.py:71-72. *)
Definition av_advantage (q : qvalues) (actions : list nat) : res (list R) :=
  let! e := av_evaluate q actions in let! m := av_max q in Ok (zipr Rminus e m).
(** action_value.py:74-76. *)
Definition av_double_advantage (q : qvalues) (actions argmax_actions : list nat) : res (list R) :=
  let! e := av_evaluate q actions in let! m := av_evaluate q argmax_actions in Ok (zipr Rminus e m).
(** action_value.py:78-79. *)
Definition av_expectation (q : qvalues) (beta : R) : list R := map (fun row => q_expectation row beta) q.
(** action_value.py:89-91 with a slice [i:j]. *)
Definition slice {X : Type} (i j : nat) (l : list X) : list X := firstn (j - i) (skipn i l).
Definition av_getitem (q : qvalues) (i j : nat) : qvalues := slice i j q.

(** ** DistributionalDiscreteActionValue, action_value.py:94-183; [q_dist] is (batch,
    actions, atoms), [z] the values of the atoms. *)
(** action_value.py:107-120: the assertion on the number of atoms and the Q values. *)
Definition dav_qvalues (q_dist : list (list (list R))) (z : list R) : res qvalues :=
  assert! forallb (forallb (fun d => Nat.eqb (length d) (length z))) q_dist in
  Ok (map (map (fun d => fsum (zipr Rmult d z))) q_dist).
(** action_value.py:145-163: [q_dist[arange(batch), actions]]; numpy raises IndexError
    when the two index arrays cannot be broadcast (a single action would be broadcast;
    that is not modelled). *)
Definition dav_evaluate_as_distribution (q_dist : list (list (list R))) (actions : list nat) : res (list (list R)) :=
  if Nat.eqb (length q_dist) (length actions) then pick_rows q_dist actions else Raise IndexError.
(** action_value.py:133-143. *)
Definition dav_max_as_distribution (q_dist : list (list (list R))) (z : list R) : res (list (list R)) :=
  let! q := dav_qvalues q_dist z in let! g := av_greedy q in dav_evaluate_as_distribution q_dist g.

(** ** QuantileDiscreteActionValue, action_value.py:186-236; [quantiles] is (batch, taus,
    actions). *)
(** Sum of rows of width [n]. *)
Definition row_sum (n : nat) (rows : list (list R)) : list R := fold_right (zipr Rplus) (repeat 0 n) rows.
(** action_value.py:202-205: the mean over the second axis. *)
Definition quant_qvalues (n_actions : nat) (quantiles : list (list (list R))) : qvalues :=
  map (fun m => map (fun s => s / INR (length m)) (row_sum n_actions m)) quantiles.
(** action_value.py:207-221: [quantiles[arange(batch), :, actions]]. *)
Definition quant_evaluate (quantiles : list (list (list R))) (actions : list nat) : res (list (list R)) :=
  if Nat.eqb (length quantiles) (length actions)
  then mapM (fun p => pick_rows (fst p) (repeat (snd p) (length (fst p)))) (combine quantiles actions)
  else Raise IndexError.

(** ** Dueling heads *)
(** dueling_dqn.py:44-56: one example; [n_actions] is the constructor argument, which is
    also the width of the advantage stream [ya]; [ys] is the state value. *)
Definition dueling_row (n_actions : nat) (ya : list R) (ys : R) : list R :=
  let mean := fsum ya / INR n_actions in map (fun a => (a - mean) + ys) ya.
Definition dueling_q (n_actions : nat) (h : list (list R * R)) : qvalues :=
  map (fun p => dueling_row n_actions (fst p) (snd p)) h.
(** dueling_dqn.py:104-121: one example; [ya] has one row of atoms per action. *)
Definition dist_dueling_row (n_actions n_atoms : nat) (ya : list (list R)) (ys : list R) : list (list R) :=
  let mean := map (fun s => s / INR n_actions) (row_sum n_atoms ya) in
  map (fun a => softmax (zipr Rplus (zipr Rminus a mean) ys)) ya.
Definition dist_dueling_q (n_actions n_atoms : nat) (h : list (list (list R) * list R)) : list (list (list R)) :=
  map (fun p => dist_dueling_row n_actions n_atoms (fst p) (snd p)) h.
