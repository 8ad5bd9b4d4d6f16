(** Model of chainerrl/functions/lower_triangular_matrix.py, the quadratic head of
    chainerrl/q_functions/state_q_functions.py and QuadraticActionValue of
    chainerrl/action_value.py: one row of a batch, in real arithmetic.  A vector of
    dimension n is a function on indices below n. *)
From Coq Require Import Reals List Arith.
From Verif Require Import Base.PyBase.
Import ListNotations.
Local Open Scope R_scope.

Definition matrix := nat -> nat -> R.
Definition zeros2 : matrix := fun _ _ => 0.
Definition set_entry (y : matrix) (ij : nat * nat) (v : R) : matrix :=
  fun i j => if andb (Nat.eqb i (fst ij)) (Nat.eqb j (snd ij)) then v else y i j.

(** [np.tril_indices(n, -1)] and [np.diag_indices(n)], in numpy's (row major) order. *)
Definition tril_indices (n : nat) : list (nat * nat) := flat_map (fun i => map (fun j => (i, j)) (seq 0 i)) (seq 0 n).
Definition diag_indices (n : nat) : list (nat * nat) := map (fun i => (i, i)) (seq 0 n).

(** [array[rows, cols] = vals]: entry by entry, a single value being broadcast; numpy
    raises ValueError on any other mismatch. *)
Definition set_at (y : matrix) (idx : list (nat * nat)) (vals : list R) : res matrix :=
  let scatter vals := fold_left (fun y z => set_entry y (fst z) (snd z)) (combine idx vals) y in
  if Nat.eqb (length vals) (length idx) then Ok (scatter vals)
  else match vals with [v] => Ok (scatter (repeat v (length idx))) | _ => Raise ValueError end.

(** lower_triangular_matrix.py:16-20, 84-88, 135-143 (the CPU path; the GPU kernels use
    the same index lists). *)
Definition lower_triangular_matrix (diag non_diag : list R) : res matrix :=
  let n := length diag in
  let! y := set_at zeros2 (tril_indices n) non_diag in
  set_at y (diag_indices n) diag.

(** [F.matmul(tril, tril, transb=True)] and a quadratic form, as numpy sums. *)
Fixpoint fsum_below (n : nat) (f : nat -> R) : R := match n with O => 0 | S m => fsum_below m f + f m end.
Definition matmul_transb (n : nat) (a b : matrix) : matrix := fun i j => fsum_below n (fun k => a i k * b j k).

(** state_q_functions.py:202-213: the coefficient matrix from the outputs of the two
    linear layers; [None] when there is no non-diagonal layer (n_dim_action = 1, where
    [expand_dims(mat_diag ** 2)] is a 1 x 1 matrix). *)
Definition coefficient_matrix (diag_out : list R) (non_diag_out : option (list R)) : res matrix :=
  let mat_diag := map exp diag_out in
  match non_diag_out with
  | Some nd => let! tril := lower_triangular_matrix mat_diag nd in Ok (matmul_transb (length diag_out) tril tril)
  | None => Ok (fun i _ => (nth i mat_diag 0) ^ 2)
  end.

(** action_value.py:237-305. *)
Record quadratic := mk_quadratic {
  q_dim : nat; q_mu : nat -> R; q_mat : matrix; q_v : R;
  q_min : option (nat -> R); q_max : option (nat -> R) }.
(** action_value.py:273-282. *)
Definition greedy_actions (q : quadratic) : nat -> R :=
  let a := q_mu q in
  let a := match q_min q with None => a | Some lo => fun i => Rmax (lo i) (a i) end in
  match q_max q with None => a | Some hi => fun i => Rmin (hi i) (a i) end.
(** action_value.py:292-298. *)
Definition evaluate_actions (q : quadratic) (u : nat -> R) : R :=
  let d := fun i => u i - q_mu q i in
  - (1 / 2) * fsum_below (q_dim q) (fun j => fsum_below (q_dim q) (fun i => d i * q_mat q i j) * d j) + q_v q.
(** action_value.py:285-290. *)
Definition q_max_value (q : quadratic) : R :=
  match q_min q, q_max q with None, None => q_v q | _, _ => evaluate_actions q (greedy_actions q) end.
(** action_value.py:300-305. *)
Definition compute_advantage (q : quadratic) (u : nat -> R) : R := evaluate_actions q u - q_max_value q.
Definition compute_double_advantage (q : quadratic) (u w : nat -> R) : R := evaluate_actions q u - evaluate_actions q w.
