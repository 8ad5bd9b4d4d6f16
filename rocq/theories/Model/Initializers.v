(** Models of chainerrl/initializers/orthogonal.py, chainerrl/initializers/constant.py and
    chainerrl/misc/init_like_torch.py, in real arithmetic. *)
From Coq Require Import Reals List Arith String Bool.
From Verif Require Import Base.PyBase Model.Quadratic.
Import ListNotations.
Local Open Scope R_scope.

(** orthogonal.py:15-17 [size_of_shape]. *)
Definition size_of_shape (shape : list nat) : nat := fold_left Nat.mul shape 1%nat.
(** orthogonal.py:20-25 and 63-73: the two checks of a mode. *)
Inductive mode := Auto | Projection | Embedding | Basis.
Definition checks (m : mode) : bool * bool :=
  match m with Auto => (false, false) | Projection => (false, true) | Embedding => (true, false) | Basis => (true, true) end.
Definition mode_of (s : string) : res mode :=
  if String.eqb s "auto" then Ok Auto else if String.eqb s "projection" then Ok Projection
  else if String.eqb s "embedding" then Ok Embedding else if String.eqb s "basis" then Ok Basis else Raise ValueError.
(** [numpy.copysign(scale, x)]: [neg] is the sign bit of x. *)
Definition copysign (scale : R) (neg : bool) : R := if neg then - Rabs scale else Rabs scale.
Definition transposed (m : matrix) : matrix := fun i j => m j i.
(** The initialised array: a number, or a matrix with [out_dim] rows, the entries of each row in the
    order of the flattened remaining axes. *)
Inductive filled := Scalar (v : R) | Rows (out_dim in_dim : nat) (w : matrix).
Section Orthogonal.
  (** What [numpy.linalg.qr] gives for the random matrix with the given numbers of rows and columns
      (at least as many rows as columns): the factor Q and the sign bits of the diagonal of R. *)
  Variable qr : nat -> nat -> matrix * (nat -> bool).
  (** The coin of the 0-dimensional case. *)
  Variable coin : bool.
  (** orthogonal.py:77-107 [Orthogonal.__call__]. *)
  Definition orthogonal (scale : R) (m : mode) (shape : list nat) : res filled :=
    match shape with
    | [] => Ok (Scalar (scale * (if coin then 1 else -1)))
    | out_dim :: rest =>
      if Nat.eqb (size_of_shape shape) 0 then Raise ValueError
      else
        let in_dim := size_of_shape rest in
        if (Nat.ltb out_dim in_dim && fst (checks m)) || (Nat.ltb in_dim out_dim && snd (checks m)) then Raise ValueError
        else
          let transpose := Nat.ltb out_dim in_dim in
          let (q, neg) := if transpose then qr in_dim out_dim else qr out_dim in_dim in
          let q := fun i j => q i j * copysign scale (neg j) in
          Ok (Rows out_dim in_dim (if transpose then transposed q else q))
    end.
End Orthogonal.

(** constant.py:11-20 [VarianceScalingConstant.__call__]; the value every entry gets.  chainer's
    [get_fans] takes [fan_in] from all the axes but the first, and fails for a 0-dimensional array. *)
Definition scaling_constant (scale : R) (shape : list nat) : res R :=
  match shape with
  | [] => Raise ValueError
  | [n] => Ok (scale / sqrt (INR n))
  | _ :: rest => Ok (scale / sqrt (INR (size_of_shape rest)))
  end.

(** init_like_torch.py:5-20: the layers of a link, the random numbers being uniform in [0, 1) and
    mapped to the interval by numpy as [low + (high - low) * u]. *)
Inductive layer := LinearLayer (out_channels in_channels : nat) (bias : bool) | ConvLayer (out_channels in_channels kh kw : nat) (bias : bool) | OtherLayer.
Definition uniform (low high u : R) : R := low + (high - low) * u.
(** The weights (by flat index) and the biases; [None] if they are not touched. *)
Definition init_layer (u v : nat -> R) (l : layer) : option (nat -> R) * option (nat -> R) :=
  match l with
  | LinearLayer _ i b => let s := 1 / sqrt (INR i) in (Some (fun k => uniform (- s) s (u k)), if b then Some (fun k => uniform (- s) s (v k)) else None)
  | ConvLayer _ i kh kw b => let s := 1 / sqrt (INR (i * kh * kw)) in (Some (fun k => uniform (- s) s (u k)), if b then Some (fun k => uniform (- s) s (v k)) else None)
  | OtherLayer => (None, None)
  end.
