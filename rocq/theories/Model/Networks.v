(** Models of the fully connected networks: chainerrl/links/mlp.py, mlp_bn.py, dqn_head.py,
    chainerrl/policies/gaussian_policy.py, deterministic_policy.py, softmax_policy.py,
    chainerrl/q_functions/state_q_functions.py, state_action_q_functions.py and
    chainerrl/v_functions/v_functions.py; one row of a batch, in real arithmetic. *)
From Coq Require Import Reals List Arith Bool.
From Verif Require Import Base.PyBase Model.Quadratic Model.Distributions Model.ActionMaps Spec.SumSpec.
Import ListNotations.
Set Implicit Arguments.
Local Open Scope R_scope.

Notation vec := (list R).
(** chainer's [L.Linear]; [in_size] is [None] if it is taken from the first input. *)
Record affine := mk_affine { a_in : option nat; a_out : nat; a_W : matrix; a_b : nat -> R }.
Definition apply_linear (l : affine) (x : vec) : res vec :=
  let fits := match a_in l with None => true | Some n => Nat.eqb n (length x) end in
  if fits then Ok (map (fun i => sum_below (length x) (fun j => a_W l i j * nth j x 0) + a_b l i) (seq 0 (a_out l)))
  else Raise TypeError.

Section Build.
  (** The initial weights and biases of the layers a constructor makes, in order. *)
  Variable init : nat -> matrix * (nat -> R).
  (** The constructor of [L.Linear]: [Linear(n, None)] means a layer with [n] outputs.  With
      [None] for both, chainer fails at the first use; here the constructor does. *)
  Definition new_linear (k : nat) (in_size out_size : option nat) : res affine :=
    match out_size, in_size with
    | Some o, _ => Ok (mk_affine in_size o (fst (init k)) (snd (init k)))
    | None, Some o => Ok (mk_affine None o (fst (init k)) (snd (init k)))
    | None, None => Raise TypeError
    end.
  (** A list of layers from the list of their sizes, numbered from [k]. *)
  Fixpoint new_linears (k : nat) (sizes : list (option nat * option nat)) : res (list affine) :=
    match sizes with
    | [] => Ok []
    | (i, o) :: sizes => let! l := new_linear k i o in let! ls := new_linears (S k) sizes in Ok (l :: ls)
    end.
  (** mlp.py:10-29: hidden layers and output layer. *)
  Record mlp := mk_mlp { m_hidden : list affine; m_output : affine }.
  Definition build_mlp (in_size out_size : option nat) (hidden_sizes : list (option nat)) : res mlp :=
    match hidden_sizes with
    | h0 :: rest =>
      let! hidden := new_linears 0 ((in_size, h0) :: combine hidden_sizes rest) in
      let! output := new_linear (length hidden) (last hidden_sizes None) out_size in
      Ok (mk_mlp hidden output)
    | [] =>
      let! output := new_linear 0 in_size out_size in
      Ok (mk_mlp [] output)
    end.
End Build.

(** The hidden layers, each followed by the nonlinearity. *)
Fixpoint hidden_forward (act : R -> R) (layers : list affine) (x : vec) : res vec :=
  match layers with
  | [] => Ok x
  | l :: layers => let! h := apply_linear l x in hidden_forward act layers (map act h)
  end.
(** mlp.py:31-37. *)
Definition mlp_forward (act : R -> R) (m : mlp) (x : vec) : res vec :=
  let! h := hidden_forward act (m_hidden m) x in apply_linear (m_output m) h.

(** deterministic_policy.py:37-48, 71-97 [FCDeterministicPolicy]. *)
Definition deterministic_policy (act : R -> R) (bound : option (vec * vec)) (m : mlp) (x : vec) : res vec :=
  let! h := mlp_forward act m x in
  match bound with Some (low, high) => bound_by_tanh h low high | None => Ok h end.

(** gaussian_policy.py:52-90 [FCGaussianPolicy]. *)
Inductive var_type := Spherical | Diagonal.
Definition var_size (t : var_type) (action_size : nat) : nat := match t with Spherical => 1 | Diagonal => action_size end.
Record gauss_policy := mk_gauss { gp_hidden : list affine; gp_mean : affine; gp_var : affine }.
Definition build_gauss (init : nat -> matrix * (nat -> R)) (n_in action_size n_hidden_layers : nat) (n_hidden : option nat) (t : var_type) : res gauss_policy :=
  match n_hidden_layers with
  | S n =>
    let! hidden := new_linears init 0 ((Some n_in, n_hidden) :: repeat (n_hidden, n_hidden) n) in
    let! m := new_linear init (S n) n_hidden (Some action_size) in
    let! v := new_linear init (S (S n)) n_hidden (Some (var_size t action_size)) in
    Ok (mk_gauss hidden m v)
  | O =>
    let! m := new_linear init 0 (Some n_in) (Some action_size) in
    let! v := new_linear init 1 (Some n_in) (Some (var_size t action_size)) in
    Ok (mk_gauss [] m v)
  end.
(** [F.broadcast_to] of one row. *)
Definition broadcast_to (x : vec) (n : nat) : res vec :=
  if Nat.eqb (length x) n then Ok x else match x with [v] => Ok (repeat v n) | _ => Raise TypeError end.
(** gaussian_policy.py:92-101. *)
Definition gauss_forward (act : R -> R) (bound : option (vec * vec)) (min_var : R) (p : gauss_policy) (x : vec) : res (vec * vec) :=
  let! h := hidden_forward act (gp_hidden p) x in
  let! y := apply_linear (gp_mean p) h in
  let! mean := match bound with Some (low, high) => bound_by_tanh y low high | None => Ok y end in
  let! v := apply_linear (gp_var p) h in
  let! var := broadcast_to (map softplus v) (length mean) in
  Ok (mean, map (fun s => s + min_var) var).

(** gaussian_policy.py:131-171 [FCGaussianPolicyWithStateIndependentCovariance]: the layers of
    its [Sequence] from the input to the mean.  [range(n_hidden_layers - 1)] is empty for 0
    and for 1. *)
Definition build_independent (init : nat -> matrix * (nat -> R)) (n_in action_size n_hidden_layers : nat) (n_hidden : option nat) : res mlp :=
  let! hidden := new_linears init 0 ((Some n_in, n_hidden) :: repeat (n_hidden, n_hidden) (n_hidden_layers - 1)) in
  let! output := new_linear init (length hidden) n_hidden (Some action_size) in
  Ok (mk_mlp hidden output).
(** gaussian_policy.py:173-176 and 266-294: the variance is [var_func] of a parameter; the mean is
    that of the sequence. *)
Definition independent_forward (act : R -> R) (bound : option (vec * vec)) (var_func : R -> R) (param : vec) (m : mlp) (x : vec) : res (vec * vec) :=
  let! mean := deterministic_policy act bound m x in
  let! var := broadcast_to (map var_func param) (length mean) in
  Ok (mean, var).
(** gaussian_policy.py:198-247 [FCGaussianPolicyWithFixedCovariance]: the layers. *)
Definition build_fixed (init : nat -> matrix * (nat -> R)) (n_in action_size n_hidden_layers : nat) (n_hidden : option nat) : res mlp :=
  match n_hidden_layers with
  | S n =>
    let! hidden := new_linears init 0 ((Some n_in, n_hidden) :: repeat (n_hidden, n_hidden) n) in
    let! output := new_linear init (length hidden) n_hidden (Some action_size) in
    Ok (mk_mlp hidden output)
  | O => let! output := new_linear init 0 (Some n_in) (Some action_size) in Ok (mk_mlp [] output)
  end.

(** state_action_q_functions.py:44-61 [FCSAQFunction]: the action is appended to the state. *)
Definition sa_forward (act : R -> R) (m : mlp) (s a : vec) : res vec := mlp_forward act m (s ++ a).
(** state_action_q_functions.py:216-243 [FCLateActionSAQFunction]. *)
Record late_q := mk_late { lq_obs : mlp; lq_mlp : mlp }.
Definition build_late (init init' : nat -> matrix * (nat -> R)) (n_obs n_action n_hidden n_hidden_layers : nat) : res late_q :=
  assert! Nat.leb 1 n_hidden_layers in
  let! o := build_mlp init (Some n_obs) (Some n_hidden) [] in
  let! m := build_mlp init' (Some (n_hidden + n_action)%nat) (Some 1%nat) (repeat (Some n_hidden) (n_hidden_layers - 1)) in
  Ok (mk_late o m).
Definition late_forward (act : R -> R) (q : late_q) (s a : vec) : res vec :=
  let! h := mlp_forward act (lq_obs q) s in mlp_forward act (lq_mlp q) (map act h ++ a).

(** state_q_functions.py:103-118 [DistributionalFCStateQFunctionWithDiscreteAction]: the output
    of the network is cut into one row of atoms for each action. *)
Fixpoint reshape (n_rows width : nat) (x : vec) : list vec :=
  match n_rows with O => [] | S n => firstn width x :: reshape n width (skipn width x) end.
(** [np.linspace(v_min, v_max, n)] for n >= 2. *)
Definition linspace (lo hi : R) (n : nat) : vec := map (fun i => lo + INR i * ((hi - lo) / INR (n - 1))) (seq 0 n).
Definition build_distributional (init : nat -> matrix * (nat -> R)) (n_obs n_actions n_atoms : nat) (v_min v_max : R) (n_hidden n_hidden_layers : nat) : res (mlp * vec) :=
  assert! Nat.leb 2 n_atoms in
  if Rlt_dec v_min v_max then
    let! m := build_mlp init (Some n_obs) (Some (n_actions * n_atoms)%nat) (repeat (Some n_hidden) n_hidden_layers) in
    Ok (m, linspace v_min v_max n_atoms)
  else Raise AssertionError.
Definition distributional_forward (act : R -> R) (n_actions n_atoms : nat) (m : mlp) (x : vec) : res (list vec) :=
  let! y := mlp_forward act m x in Ok (map softmax (reshape n_actions n_atoms y)).
(** action_value.py:106-118: the action value of a row of atoms. *)
Definition atom_mean (z : vec) (p : vec) : R := fsum (zipr Rmult p z).

(** mlp_bn.py, outside training: [L.BatchNormalization] with its running averages. *)
Record bn := mk_bn { bn_gamma : nat -> R; bn_beta : nat -> R; bn_mean : nat -> R; bn_var : nat -> R; bn_eps : R }.
Fixpoint indexed {X Y} (f : nat -> X -> Y) (k : nat) (l : list X) : list Y := match l with [] => [] | x :: l => f k x :: indexed f (S k) l end.
Definition apply_bn (b : bn) (x : vec) : vec :=
  indexed (fun i v => bn_gamma b i * ((v - bn_mean b i) / sqrt (bn_var b i + bn_eps b)) + bn_beta b i) 0 x.
(** mlp_bn.py:40-83; with [normalize_output] false.  The input normalisation is optional. *)
Record mlpbn := mk_mlpbn { mb_input : option bn; mb_hidden : list (affine * bn); mb_output : affine }.
Fixpoint hidden_bn_forward (act : R -> R) (layers : list (affine * bn)) (x : vec) : res vec :=
  match layers with
  | [] => Ok x
  | (l, b) :: layers => let! h := apply_linear l x in hidden_bn_forward act layers (map act (apply_bn b h))
  end.
Definition mlpbn_forward (act : R -> R) (m : mlpbn) (x : vec) : res vec :=
  let x := match mb_input m with Some b => apply_bn b x | None => x end in
  let! h := hidden_bn_forward act (mb_hidden m) x in apply_linear (mb_output m) h.
(** state_q_functions.py:232-268 [FCBNQuadraticStateQFunction]: an [MLPBN] with one hidden layer
    less; no nonlinearity follows its output (line 259).  [v] and the unscaled [mu]. *)
Record bnq := mk_bnq { nq_hidden : mlpbn; nq_v : affine; nq_mu : affine }.
Definition bnq_forward (act : R -> R) (q : bnq) (x : vec) : res (vec * vec) :=
  let! h := mlpbn_forward act (nq_hidden q) x in
  let! v := apply_linear (nq_v q) h in
  let! mu := apply_linear (nq_mu q) h in
  Ok (v, mu).

(** dqn_head.py: chainer's [get_conv_outsize] without padding, and the sizes of the feature maps;
    a linear layer takes the flattened map.  [None]: the convolution does not fit. *)
Definition conv_out (size k stride : nat) : option nat := if Nat.leb k size then Some ((size - k) / stride + 1)%nat else None.
Definition conv_map (k stride : nat) (s : option (nat * nat)) : option (nat * nat) :=
  match s with
  | Some (h, w) => match conv_out h k stride, conv_out w k stride with Some h, Some w => Some (h, w) | _, _ => None end
  | None => None
  end.
(** dqn_head.py:10-25 [NatureDQNHead]: the last linear layer accepts 3136 values. *)
Definition nature_accepts (h w : nat) : bool :=
  match conv_map 3 1 (conv_map 4 2 (conv_map 8 4 (Some (h, w)))) with
  | Some (h, w) => Nat.eqb (64 * (h * w)) 3136
  | None => false
  end.
(** dqn_head.py:35-49 [NIPSDQNHead]: 2592 values. *)
Definition nips_accepts (h w : nat) : bool :=
  match conv_map 4 2 (conv_map 8 4 (Some (h, w))) with
  | Some (h, w) => Nat.eqb (32 * (h * w)) 2592
  | None => false
  end.
