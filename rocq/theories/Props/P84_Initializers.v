(** C84: the initializers give orthogonal matrices, constants and ranges of the documented size,
    for every shape. *)
From Coq Require Import Reals List Arith String Bool Lia Lra.
From Verif Require Import Base.PyBase Model.Quadratic Model.Initializers Spec.SumSpec Spec.InitializerSpec Proofs.RSumFacts Proofs.InitializerProofs.
Import ListNotations.
Local Open Scope R_scope.

(** Whatever matrix is drawn, if numpy's QR decomposition gives orthonormal columns, then the rows of the
    initialised array, or its columns if there are fewer of them, are orthogonal and have the length
    [scale]; both if it is square. *)
Theorem C84_orthogonal : forall qr coin scale m n rest w, (forall a b, (b <= a)%nat -> columns_orthogonal a b 1 (fst (qr a b))) -> orthogonal qr coin scale m (n :: rest) = Ok w ->
  exists v, w = Rows n (size_of_shape rest) v /\ ((size_of_shape rest <= n)%nat -> columns_orthogonal n (size_of_shape rest) (scale * scale) v) /\ ((n <= size_of_shape rest)%nat -> rows_orthogonal n (size_of_shape rest) (scale * scale) v).
Proof. exact orthogonal_ok. Qed.
(** So a layer never stretches a vector by more than [scale], and scales all lengths equally if
    it has at least as many outputs as inputs. *)
Theorem C84_lengths : forall qr coin scale m n rest w, (forall a b, (b <= a)%nat -> columns_orthogonal a b 1 (fst (qr a b))) -> scale <> 0 -> orthogonal qr coin scale m (n :: rest) = Ok w ->
  exists v, w = Rows n (size_of_shape rest) v /\ forall x, norm2 n (mat_vec (size_of_shape rest) v x) <= scale * scale * norm2 (size_of_shape rest) x /\
    ((size_of_shape rest <= n)%nat -> norm2 n (mat_vec (size_of_shape rest) v x) = scale * scale * norm2 (size_of_shape rest) x).
Proof. exact orthogonal_length. Qed.
(** Which shapes each mode accepts. *)
Theorem C84_modes : forall qr coin scale m n rest, (exists w, orthogonal qr coin scale m (n :: rest) = Ok w) <->
  (0 < n * size_of_shape rest)%nat /\ match m with Auto => True | Projection => (n <= size_of_shape rest)%nat | Embedding => (size_of_shape rest <= n)%nat | Basis => n = size_of_shape rest end.
Proof. exact accepts. Qed.
(** REFUTED: the documentation's "the number of vectors must be equal to or smaller than the dimension".
    By default more vectors are accepted, and they are then not orthogonal. *)
Theorem C84_documented_shape_refuted : forall qr coin scale n rest, (forall a b, (b <= a)%nat -> columns_orthogonal a b 1 (fst (qr a b))) -> scale <> 0 -> (0 < size_of_shape rest < n)%nat ->
  exists v, orthogonal qr coin scale Auto (n :: rest) = Ok (Rows n (size_of_shape rest) v) /\ ~ rows_orthogonal n (size_of_shape rest) (scale * scale) v.
Proof. exact too_many_rows. Qed.
(** The constant initializer: the weights of one output have together the length [scale]. *)
Theorem C84_constant : forall scale shape c, scaling_constant scale shape = Ok c -> (forall n, In n shape -> (0 < n)%nat) ->
  let fan_in := match shape with [n] => n | _ :: rest => size_of_shape rest | [] => 0%nat end in sum_below fan_in (fun _ => c * c) = scale * scale.
Proof. exact constant_norm. Qed.
(** Torch's defaults: weights and biases are spread evenly over the interval of 1 / sqrt(fan_in) around 0; other layers are not touched. *)
Theorem C84_torch : forall u v l, (forall k, 0 <= u k < 1) -> (forall k, 0 <= v k < 1) ->
  match l with
  | OtherLayer => init_layer u v l = (None, None)
  | LinearLayer _ i b | ConvLayer _ i _ _ b =>
    let fan_in := match l with ConvLayer _ i kh kw _ => (i * kh * kw)%nat | _ => i end in
    (0 < fan_in)%nat -> exists w o, init_layer u v l = (Some w, o) /\ (forall k, w k = (2 * u k - 1) / sqrt (INR fan_in) /\ - (1 / sqrt (INR fan_in)) <= w k < 1 / sqrt (INR fan_in)) /\
      (b = false <-> o = None) /\ forall bias, o = Some bias -> forall k, bias k = (2 * v k - 1) / sqrt (INR fan_in) /\ - (1 / sqrt (INR fan_in)) <= bias k < 1 / sqrt (INR fan_in)
  end.
Proof. exact torch_bounds. Qed.
Print Assumptions C84_orthogonal.
Print Assumptions C84_lengths.
Print Assumptions C84_modes.
Print Assumptions C84_documented_shape_refuted.
Print Assumptions C84_constant.
Print Assumptions C84_torch.

(** A decomposition that satisfies the hypothesis: the identity. *)
Definition identity_qr : nat -> nat -> matrix * (nat -> bool) := fun _ _ => (delta, fun j => Nat.eqb j 1).
Example C84_ex_qr : forall a b, (b <= a)%nat -> columns_orthogonal a b 1 (fst (identity_qr a b)).
Proof.
  intros a b H i j Hi Hj. cbn [identity_qr fst]. transitivity (sum_below a (fun r => delta i r * delta r j)); [apply RSumFacts.below_ext; intros r _; unfold delta; rewrite (Nat.eqb_sym r i); reflexivity|rewrite below_delta by lia; ring].
Qed.
Example C84_ex_orthogonal : exists w, orthogonal identity_qr true (-3) Auto [2%nat; 3%nat; 1%nat] = Ok (Rows 2 3 w) /\ w 0%nat 0%nat = 3 /\ w 1%nat 1%nat = -3 /\ w 1%nat 2%nat = 0.
Proof. eexists. split; [reflexivity|]. unfold transposed, copysign, identity_qr, delta. cbn. rewrite Rabs_left by lra. repeat split; lra. Qed.
Example C84_ex_modes : orthogonal identity_qr true 1 Projection [3%nat; 2%nat] = Raise ValueError /\ orthogonal identity_qr true 1 Auto [0%nat; 2%nat] = Raise ValueError.
Proof. split; reflexivity. Qed.
Example C84_ex_constant : scaling_constant 6 [5%nat; 2%nat; 2%nat] = Ok (6 / sqrt (INR 4)).
Proof. reflexivity. Qed.
