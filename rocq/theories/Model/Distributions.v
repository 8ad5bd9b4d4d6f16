(** Model of chainerrl/distribution.py and chainerrl/functions/mellowmax.py: one row of
    a batch, in real arithmetic.  chainer's softmax, log_softmax, logsumexp and
    softplus are the mathematical functions; gradients are not modelled. *)
From Coq Require Import Reals List.
From Verif Require Import Base.PyBase.
Import ListNotations.
Local Open Scope R_scope.

Definition fsum (l : list R) : R := fold_right Rplus 0 l.
Definition logsumexp (l : list R) : R := ln (fsum (map exp l)).
Definition softmax (l : list R) : list R := map (fun x => exp x / fsum (map exp l)) l.
Definition log_softmax (l : list R) : list R := map (fun x => x - logsumexp l) l.
Fixpoint zipr (f : R -> R -> R) (a b : list R) : list R :=
  match a, b with x :: a, y :: b => f x y :: zipr f a b | _, _ => [] end.

(** ** Categorical distributions *)
(** distribution.py:133-165: a categorical distribution is given by [all_prob] and
    [all_log_prob]. *)
Record categorical := mk_categorical { all_prob : list R; all_log_prob : list R }.
Definition cat_entropy (d : categorical) : R := - fsum (zipr Rmult (all_prob d) (all_log_prob d)).
Definition cat_kl (p q : categorical) : R :=
  fsum (zipr Rmult (all_prob p) (zipr Rminus (all_log_prob p) (all_log_prob q))).
(** [np.argmax]: the first index of a maximal entry. *)
Fixpoint argmax_from (i best : nat) (m : R) (l : list R) : nat :=
  match l with
  | [] => best
  | x :: t => if Rlt_dec m x then argmax_from (S i) i x t else argmax_from (S i) best m t
  end.
Definition most_probable (d : categorical) : res nat :=
  match all_prob d with [] => Raise ValueError | x :: t => Ok (argmax_from 1 0 x t) end.

(** distribution.py:168-218. *)
Definition SoftmaxDistribution (logits : list R) (beta min_prob : R) : res categorical :=
  let n := INR (length logits) in
  if Rle_dec (min_prob * n) 1 then
    let sm := softmax (map (Rmult beta) logits) in
    if Rlt_dec 0 min_prob then
      let p := map (fun x => x * (1 - min_prob * n) + min_prob) sm in
      Ok (mk_categorical p (map ln p))
    else Ok (mk_categorical sm (log_softmax (map (Rmult beta) logits)))
  else Raise AssertionError.

(** ** Mellowmax *)
(** mellowmax.py:7-26. *)
Definition mellowmax (omega : R) (values : list R) : R :=
  (logsumexp (map (Rmult omega) values) - ln (INR (length values))) / omega.

(** mellowmax.py:59-60: the function whose root is the inverse temperature. *)
Definition root_function (adv : list R) (y : R) : R := fsum (map (fun a => exp (y * a) * a) adv).

(** mellowmax.py:29-72: [brentq f a b] is scipy's root finder, [None] if it raises
    ValueError.  The parameter [omega] is accepted and not used: line 50 calls
    [mellowmax(values, axis=1)] with the default omega. *)
Definition max_ent_beta (brentq : (R -> R) -> R -> R -> option R) (omega beta_min beta_max : R) (values : list R) : R :=
  let mm := mellowmax 1 values in
  let adv := map (fun v => v - mm) values in
  match brentq (root_function adv) beta_min beta_max with Some b => b | None => 0 end.
Definition maximum_entropy_mellowmax (brentq : (R -> R) -> R -> R -> option R) (omega beta_min beta_max : R) (values : list R) : list R :=
  softmax (map (Rmult (max_ent_beta brentq omega beta_min beta_max values)) values).

(** distribution.py:221-258: [omega] is stored and not passed on (line 241); the
    bracket is the default one. *)
Definition MellowmaxDistribution (brentq : (R -> R) -> R -> R -> option R) (omega : R) (values : list R) : categorical :=
  let p := maximum_entropy_mellowmax brentq 1 (-10) 10 values in
  mk_categorical p (map ln p).

(** ** Gaussian distributions *)
(** distribution.py:275-326: mean and variance of each dimension. *)
Record gaussian := mk_gaussian { g_mean : list R; g_var : list R }.
(** distribution.py:267-272. *)
Definition gaussian_ll (x mean var : R) : R :=
  - (1 / 2) * ln (2 * PI) - 1 / 2 * ln var - (x - mean) ^ 2 / (2 * var).
Fixpoint zip3 (f : R -> R -> R -> R) (a b c : list R) : list R :=
  match a, b, c with x :: a, y :: b, z :: c => f x y z :: zip3 f a b c | _, _, _ => [] end.
Definition gauss_log_prob (d : gaussian) (x : list R) : R := fsum (zip3 gaussian_ll x (g_mean d) (g_var d)).
Definition gauss_entropy (d : gaussian) : R :=
  1 / 2 * INR (length (g_mean d)) * (ln (2 * PI) + 1) + 1 / 2 * fsum (map ln (g_var d)).
(** distribution.py:315-319. *)
Fixpoint kl_terms (pm pv qm qv : list R) : list R :=
  match pm, pv, qm, qv with
  | m :: pm, v :: pv, m' :: qm, v' :: qv => (ln v' - ln v + (v + (m - m') ^ 2) / v' - 1) :: kl_terms pm pv qm qv
  | _, _, _, _ => []
  end.
Definition gauss_kl (p q : gaussian) : R := 1 / 2 * fsum (kl_terms (g_mean p) (g_var p) (g_mean q) (g_var q)).

(** distribution.py:329-333. *)
Definition softplus (x : R) : R := ln (1 + exp x).
Definition tanh_log_det (x : R) : R := 2 * (ln 2 - x - softplus (- 2 * x)).
(** functions/arctanh.py:19-24 ([xp.arctanh]). *)
Definition arctanh (y : R) : R := 1 / 2 * ln ((1 + y) / (1 - y)).
(** distribution.py:355-361: the noise-free part: given the Gaussian sample [x]. *)
Definition squashed_sample (d : gaussian) (x : list R) : list R * R :=
  (map tanh x, fsum (zip3 (fun x m v => gaussian_ll x m v - tanh_log_det x) x (g_mean d) (g_var d))).
(** distribution.py:373-382. *)
Definition squashed_log_prob (d : gaussian) (y : list R) : R :=
  fsum (zip3 (fun x m v => gaussian_ll x m v - tanh_log_det x) (map arctanh y) (g_mean d) (g_var d)).
