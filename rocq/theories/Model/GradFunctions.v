(** Model of the functions of chainerrl/functions that define their own gradients:
    arctanh.py, invert_gradients.py, mul_add.py, scale_grad.py, sum_arrays.py,
    weighted_sum_arrays.py and lower_triangular_matrix.py, on the CPU paths, in real
    arithmetic.  An array is the list of its entries; chainer's type checks (equal shapes,
    float dtype) are the hypotheses on lengths in the theorems. *)
From Coq Require Import Reals List.
From Verif Require Import Base.PyBase Model.Distributions Model.Quadratic.
Import ListNotations.
Local Open Scope R_scope.

(** arctanh.py:19-30. *)
Definition arctanh_forward (x : list R) : list R := map arctanh x.
Definition arctanh_backward (x gy : list R) : list R := zipr (fun x g => 1 / (1 - x ^ 2) * g) x gy.

(** As a function of its tuple of inputs. *)
Definition arctanh_tuple (l : list (list R)) : list R := match l with [x] => arctanh_forward x | _ => [] end.

(** mul_add.py:11-24. *)
Definition muladd_forward (x y z : list R) : list R := zipr Rplus (zipr Rmult x y) z.
Definition muladd_backward (x y z gw : list R) : list R * list R * list R := (zipr Rmult y gw, zipr Rmult x gw, gw).

Definition muladd_tuple (l : list (list R)) : list R := match l with [x; y; z] => muladd_forward x y z | _ => [] end.

(** scale_grad.py:19-23. *)
Definition scale_grad_forward (x : list R) : list R := x.
Definition scale_grad_backward (scale : R) (x gy : list R) : list R := map (fun g => g * scale) gy.

(** sum_arrays.py:15-20; Python's [sum] starts from the number 0, which is broadcast; the
    width [n] is that of the arrays. *)
Definition sum_arrays_forward (n : nat) (inputs : list (list R)) : list R := fold_left (zipr Rplus) inputs (repeat 0 n).
Definition sum_arrays_backward (inputs : list (list R)) (gy : list R) : list (list R) := repeat gy (length inputs).

(** weighted_sum_arrays.py:10-26. *)
Definition weighted_sum_forward (n : nat) (weights : list R) (inputs : list (list R)) : list R :=
  fold_left (zipr Rplus) (map (fun p => map (Rmult (fst p)) (snd p)) (combine weights inputs)) (repeat 0 n).
Definition weighted_sum_backward (weights : list R) (inputs : list (list R)) (gy : list R) : list (list R) :=
  map (fun w => map (Rmult w) gy) weights.

(** lower_triangular_matrix.py:9-13, 77-81, 145-150: one matrix of the batch. *)
Definition lower_triangular_backward (n : nat) (gy : matrix) : list R * list R :=
  (map (fun ij => gy (fst ij) (snd ij)) (diag_indices n), map (fun ij => gy (fst ij) (snd ij)) (tril_indices n)).

(** invert_gradients.py:12-16 and 24-36: one
    entry; [increasing] is 1 for a negative gradient. *)
Definition invert_gradients_init (range_min range_max : R) : res R :=
  let width := range_max - range_min in if Rlt_dec 0 width then Ok width else Raise AssertionError.
Definition invert_gradients_forward (x : R) : R := x.
Definition invert_gradients_backward (range_min range_max : R) (x gy : R) : R :=
  let width := range_max - range_min in
  let increasing := if Rlt_dec gy 0 then 1 else 0 in
  gy * ((range_max - x) / width * increasing + (x - range_min) / width * (1 - increasing)).
