(** C72: the hand-written gradients are the derivatives of their functions. *)
From Coq Require Import Reals List Arith Lia Lra.
From Verif Require Import Base.PyBase Model.Distributions Model.Quadratic Model.GradFunctions Spec.SumSpec Spec.GradientSpec Proofs.GradientProofs.
Import ListNotations.
Local Open Scope R_scope.

(** C72: arctanh inverts tanh on (-1, 1) and its backward pass is its gradient. *)
Theorem C72_arctanh : forall x gy, length gy = length x -> (forall a, In a x -> -1 < a < 1) ->
  is_gradient arctanh_tuple [x] gy [arctanh_backward x gy] /\ map tanh (arctanh_forward x) = x.
Proof. exact arctanh_gradient. Qed.
Print Assumptions C72_arctanh.
Example C72_arctanh_met : length [3; -4] = length [1/2; -1/3] /\ forall a, In a [1/2; -1/3] -> -1 < a < 1.
Proof. split; [reflexivity|]. intros a [<-|[<-|[]]]; lra. Qed.

(** C72: muladd, sum_arrays and weighted_sum_arrays, for any number of arrays of any
    size. *)
Theorem C72_muladd : forall x y z gw n, length x = n -> length y = n -> length z = n -> length gw = n ->
  let '(gx, gy, gz) := muladd_backward x y z gw in is_gradient muladd_tuple [x; y; z] gw [gx; gy; gz].
Proof. exact muladd_gradient. Qed.
Print Assumptions C72_muladd.
Theorem C72_sum_arrays : forall n inputs gy, (forall x, In x inputs -> length x = n) -> length gy = n ->
  is_gradient (sum_arrays_forward n) inputs gy (sum_arrays_backward inputs gy).
Proof. exact sum_gradient. Qed.
Print Assumptions C72_sum_arrays.
Theorem C72_weighted_sum_arrays : forall n weights inputs gy, length weights = length inputs -> (forall x, In x inputs -> length x = n) -> length gy = n ->
  is_gradient (weighted_sum_forward n weights) inputs gy (weighted_sum_backward weights inputs gy).
Proof. exact weighted_gradient. Qed.
Print Assumptions C72_weighted_sum_arrays.
Example C72_sums_met : (forall x, In x [[1; 2]; [3; 4]; [5; 6]] -> length x = 2%nat) /\ weighted_sum_forward 2 [1; 0; 2] [[1; 2]; [3; 4]; [5; 6]] = [11; 14].
Proof. split; [intros x [<-|[<-|[<-|[]]]]; reflexivity|]. cbn. repeat f_equal; lra. Qed.

(** C72: lower_triangular_matrix, of any size. *)
Theorem C72_lower_triangular : forall diag nd gy, length nd = (length diag * (length diag - 1) / 2)%nat ->
  let '(gdiag, gnd) := lower_triangular_backward (length diag) gy in
  length gdiag = length diag /\ length gnd = length nd /\
  forall vd vn, length vd = length diag -> length vn = length nd ->
  exists Y, (forall t, lower_triangular_matrix (move diag vd t) (move nd vn t) = Ok (Y t)) /\
  derivable_pt_lim (fun t => mdot (length diag) gy (Y t)) 0 (dot gdiag vd + dot gnd vn).
Proof. exact lower_gradient. Qed.
Print Assumptions C72_lower_triangular.
Example C72_lower_triangular_met : length [4; 5; 6] = (length [1; 2; 3] * (length [1; 2; 3] - 1) / 2)%nat.
Proof. reflexivity. Qed.

(** C72: scale_grad is the identity and scales every gradient. *)
Theorem C72_scale_grad : forall scale x gy, scale_grad_forward x = x /\ length (scale_grad_backward scale x gy) = length gy /\
  forall v, dot (scale_grad_backward scale x gy) v = scale * dot gy v.
Proof. exact scale_spec. Qed.
Print Assumptions C72_scale_grad.

(** C72: invert_gradients never reverses the gradient of a value in range and never
    enlarges it, points values out of range back towards it, and keeps a value in range
    as long as the step is not larger than the range. *)
Theorem C72_invert_gradients : forall lo hi, lo < hi -> (invert_gradients_init lo hi = Ok (hi - lo)) /\ (forall x, invert_gradients_forward x = x) /\
  (forall x gy, (lo <= x <= hi -> exists c, 0 <= c <= 1 /\ invert_gradients_backward lo hi x gy = c * gy) /\
    (hi < x -> 0 < gy * gy -> 0 < invert_gradients_backward lo hi x gy) /\
    (x < lo -> 0 < gy * gy -> invert_gradients_backward lo hi x gy < 0)) /\
  (forall x gy lr, lo <= x <= hi -> 0 <= lr -> lr * Rabs gy <= hi - lo -> lo <= x - lr * invert_gradients_backward lo hi x gy <= hi).
Proof.
  intros lo hi W. split; [unfold invert_gradients_init; destruct (Rlt_dec 0 (hi - lo)); [reflexivity|lra]|]. split; [reflexivity|].
  split; [exact (invert_direction lo hi W)|exact (invert_stays lo hi W)].
Qed.
Print Assumptions C72_invert_gradients.
Example C72_invert_gradients_met : invert_gradients_backward (-1) 1 0 (-2) = -1.
Proof. unfold invert_gradients_backward. destruct (Rlt_dec (-2) 0); lra. Qed.

(** C72, refuted without a bound on the step ("so that values would be in a given range
    after update"): every larger step leaves the range, from every interior value. *)
Theorem C72_invert_large_step_refuted : forall lo hi, lo < hi -> forall x gy lr, lo < x < hi -> 0 <= lr -> hi - lo < lr * Rabs gy ->
  ~ (lo <= x - lr * invert_gradients_backward lo hi x gy <= hi).
Proof. exact invert_limit. Qed.
Print Assumptions C72_invert_large_step_refuted.
