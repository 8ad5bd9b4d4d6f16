(** C80: the ready-made fully connected networks, policies and Q-functions have the layers they
    were asked for and compute what is documented, for all sizes and weights. *)
From Coq Require Import Reals List Arith Bool Lia Lra.
From Verif Require Import Base.PyBase Model.Quadratic Model.Distributions Model.ActionMaps Model.Networks Spec.SumSpec Spec.ActionSpec Spec.DistributionSpec Spec.NetworkSpec Proofs.NetworkProofs.
Import ListNotations.
Local Open Scope R_scope.

(** A multilayer perceptron of any sizes: the hidden layers have the given widths, each takes
    what the previous one gives, and the network computes the perceptron of its layers. *)
Theorem C80_mlp : forall init n o hs, exists m, build_mlp init (Some n) (Some o) (map Some hs) = Ok m /\ chain n (layers_of m) o /\ map a_out (m_hidden m) = hs /\
  forall act x, (length x = n -> mlp_forward act m x = Ok (perceptron act (layers_of m) x) /\ length (perceptron act (layers_of m) x) = o) /\
    (length x <> n -> mlp_forward act m x = Raise TypeError).
Proof. exact mlp_ok. Qed.
(** With bounds, a deterministic policy only gives actions strictly inside them. *)
Theorem C80_deterministic : forall act low high m n x, Forall2 Rlt low high -> chain n (layers_of m) (length low) -> length x = n ->
  exists y, deterministic_policy act (Some (low, high)) m x = Ok y /\ in_box Rlt low high y.
Proof. exact deterministic_ok. Qed.
(** A Gaussian policy has the given number of hidden layers; its mean and its variance have
    one entry for each dimension of the action, the mean is inside the bounds, every variance
    is above [min_var]; without bounds the mean is the perceptron of the layers. *)
Theorem C80_gaussian : forall init n_in a n h t, exists p, build_gauss init n_in a n (Some h) t = Ok p /\ map a_out (gp_hidden p) = repeat h n /\
  forall act bound min_var x, bounds_ok bound a -> length x = n_in ->
  exists mean var, gauss_forward act bound min_var p x = Ok (mean, var) /\ length mean = a /\ length var = a /\ within_bounds bound mean /\ (forall v, In v var -> min_var < v) /\
    (bound = None -> mean = perceptron act (gp_hidden p ++ [gp_mean p]) x).
Proof. exact gauss_built. Qed.
(** The same for a variance that does not depend on the state, if at least one hidden layer
    is asked for. *)
Theorem C80_independent_partial : forall init n_in a n h, exists m, build_independent init n_in a (S n) (Some h) = Ok m /\ map a_out (m_hidden m) = repeat h (S n) /\
  forall act bound var_func param t x, length param = var_size t a -> (forall z, 0 < var_func z) -> bounds_ok bound a -> length x = n_in ->
  exists mean var, independent_forward act bound var_func param m x = Ok (mean, var) /\ length mean = a /\ length var = a /\ within_bounds bound mean /\ (forall v, In v var -> 0 < v) /\
    (bound = None -> mean = perceptron act (layers_of m) x).
Proof. exact independent_built. Qed.
(** And for a fixed variance, with any number of hidden layers. *)
Theorem C80_fixed : forall init n_in a n h, exists m, build_fixed init n_in a n (Some h) = Ok m /\ map a_out (m_hidden m) = repeat h n /\
  forall act bound x, bounds_ok bound a -> length x = n_in ->
  exists mean, deterministic_policy act bound m x = Ok mean /\ length mean = a /\ within_bounds bound mean /\ (bound = None -> mean = perceptron act (layers_of m) x).
Proof. exact fixed_built. Qed.
(** Without hidden layers the mean of a Gaussian policy is affine in the state, whatever
    [n_hidden_channels] is. *)
Theorem C80_no_hidden_layers : forall init n_in a h t act min_var, exists p, build_gauss init n_in a 0 h t = Ok p /\
  forall x y s, length x = n_in -> length y = n_in -> exists mx vx my vy vb, gauss_forward act None min_var p x = Ok (mx, vx) /\ gauss_forward act None min_var p y = Ok (my, vy) /\
    gauss_forward act None min_var p (blend s x y) = Ok (blend s mx my, vb).
Proof. exact gauss_none_affine. Qed.
(** REFUTED for the policy with a state-independent variance: with the default arguments
    (no hidden layers) it silently has a hidden layer as wide as the input, and its mean is
    not affine. *)
Theorem C80_independent_refuted : (forall init n_in a, exists m l, build_independent init n_in a 0 None = Ok m /\ m_hidden m = [l] /\ a_out l = n_in) /\
  exists init m, build_independent init 1 1 0 None = Ok m /\ ~ affine_function 1 (mlp_forward (Rmax 0) m).
Proof. exact independent_default. Qed.
(** A distributional Q-function gives, for every action, a probability distribution over the
    atoms, so every action value is between [v_min] and [v_max]. *)
Theorem C80_distributional : forall act init n_obs n_actions n_atoms v_min v_max h n, (2 <= n_atoms)%nat -> v_min < v_max ->
  exists m z, build_distributional init n_obs n_actions n_atoms v_min v_max h n = Ok (m, z) /\
    (length z = n_atoms /\ nth 0 z 0 = v_min /\ nth (n_atoms - 1) z 0 = v_max /\ forall i, (S i < n_atoms)%nat -> nth (S i) z 0 - nth i z 0 = (v_max - v_min) / INR (n_atoms - 1)) /\
  forall x, length x = n_obs -> exists rows, distributional_forward act n_actions n_atoms m x = Ok rows /\ length rows = n_actions /\
    forall r, In r rows -> length r = n_atoms /\ probability r /\ (forall p, In p r -> 0 < p) /\ v_min <= atom_mean z r <= v_max.
Proof. exact distributional_built. Qed.
(** A network with batch normalisation, outside training: its input is normalised if asked for, then every
    linear layer but the last is followed by a normalisation and the nonlinearity, in this order. *)
Theorem C80_mlp_bn : forall act m n o x, chain n (map fst (mb_hidden m) ++ [mb_output m]) o -> (forall l b, In (l, b) (mb_hidden m) -> forall i, 0 < bn_var b i + bn_eps b) ->
  (forall b, mb_input m = Some b -> forall i, 0 < bn_var b i + bn_eps b) -> length x = n ->
  exists x' z, match mb_input m with None => x' = x | Some b => standardised b x x' end /\ normalised_run act (mb_hidden m) x' z /\ mlpbn_forward act m x = Ok (lin (mb_output m) z) /\ length (lin (mb_output m) z) = o.
Proof. exact mlpbn_ok. Qed.
(** A Q-function of states and actions gives one value, the perceptron of the state followed by the action. *)
Theorem C80_state_action : forall init n_obs n_action hs, exists m, build_mlp init (Some (n_obs + n_action)%nat) (Some 1%nat) (map Some hs) = Ok m /\
  forall act s a, length s = n_obs -> length a = n_action -> exists v, sa_forward act m s a = Ok [v] /\ [v] = perceptron act (layers_of m) (s ++ a).
Proof. exact sa_built. Qed.
(** A Q-function with late actions gives one value for every state and action, with any
    number of hidden layers from 1, and refuses to be made with none. *)
Theorem C80_late : forall act init init' n_obs n_action h, build_late init init' n_obs n_action h 0 = Raise AssertionError /\
  forall n, exists q, build_late init init' n_obs n_action h (S n) = Ok q /\
  forall s a, length s = n_obs -> length a = n_action -> exists v, late_forward act q s a = Ok [v] /\ [v] = perceptron act (layers_of (lq_mlp q)) (map act (perceptron act (layers_of (lq_obs q)) s) ++ a).
Proof. exact late_built. Qed.
(** REFUTED: that with one hidden layer, which the documentation allows, such a Q-function can
    prefer different actions in different states.  The difference between the values of two
    actions is the same in all states. *)
Theorem C80_late_one_layer_refuted : forall act init init' n_obs n_action h q s s' a a', build_late init init' n_obs n_action h 1 = Ok q ->
  length s = n_obs -> length s' = n_obs -> length a = n_action -> length a' = n_action ->
  exists v1 v2 v3 v4, late_forward act q s a = Ok [v1] /\ late_forward act q s a' = Ok [v2] /\ late_forward act q s' a = Ok [v3] /\ late_forward act q s' a' = Ok [v4] /\ v1 - v2 = v3 - v4.
Proof. exact late_one. Qed.
(** REFUTED: that the quadratic Q-function with batch normalisation has a nonlinearity after
    every hidden layer.  With one hidden layer, outside training, its value and its greedy
    action before scaling are affine in the state. *)
Theorem C80_bn_quadratic_refuted : forall act q n k a, mb_hidden (nq_hidden q) = [] -> a_in (mb_output (nq_hidden q)) = Some n -> a_out (mb_output (nq_hidden q)) = k ->
  a_in (nq_v q) = Some k -> a_in (nq_mu q) = Some k -> a_out (nq_mu q) = a ->
  forall x y t, length x = n -> length y = n -> exists vx mx vy my, bnq_forward act q x = Ok (vx, mx) /\ bnq_forward act q y = Ok (vy, my) /\ bnq_forward act q (blend t x y) = Ok (blend t vx vy, blend t mx my).
Proof. exact bnq_one. Qed.
(** REFUTED: the documented formula of the bounded mean, [min + tanh(y) * (max - min) / 2]. *)
Theorem C80_documented_mean_refuted : forall y low high, low < high -> exists mean, bound_by_tanh [y] [low] [high] = Ok [mean] /\ low < mean < high /\ mean <> low + tanh y * (high - low) / 2.
Proof. exact documented_mean_differs. Qed.
(** The convolutional heads accept square images exactly of the sides 84 to 91. *)
Theorem C80_heads : forall s, (nature_accepts s s = true <-> (84 <= s <= 91)%nat) /\ (nips_accepts s s = true <-> (84 <= s <= 91)%nat).
Proof. intros s. split; [exact (nature_square s)|exact (nips_square s)]. Qed.
Print Assumptions C80_mlp.
Print Assumptions C80_deterministic.
Print Assumptions C80_gaussian.
Print Assumptions C80_independent_partial.
Print Assumptions C80_fixed.
Print Assumptions C80_no_hidden_layers.
Print Assumptions C80_independent_refuted.
Print Assumptions C80_distributional.
Print Assumptions C80_mlp_bn.
Print Assumptions C80_state_action.
Print Assumptions C80_late.
Print Assumptions C80_late_one_layer_refuted.
Print Assumptions C80_bn_quadratic_refuted.
Print Assumptions C80_documented_mean_refuted.
Print Assumptions C80_heads.

(** A network with two hidden layers; weights 1, biases -1. *)
Definition ones : nat -> matrix * (nat -> R) := fun _ => (fun _ _ => 1, fun _ => -1).
Example C80_ex_mlp : exists m, build_mlp ones (Some 2%nat) (Some 1%nat) [Some 3%nat; Some 2%nat] = Ok m /\ length (m_hidden m) = 2%nat /\ mlp_forward (fun x => x) m [1; 2] = Ok [9] /\
  mlp_forward (fun x => x) m [1] = Raise TypeError.
Proof. eexists. split; [reflexivity|]. cbn. split; [reflexivity|]. split; [f_equal; f_equal; ring|reflexivity]. Qed.
Example C80_ex_gauss : exists p v, build_gauss ones 1 2 0 None Spherical = Ok p /\ gauss_forward (fun x => x) None 1 p [3] = Ok ([2; 2], [v; v]).
Proof. eexists _, _. split; [reflexivity|]. cbn. f_equal. f_equal. f_equal; [|f_equal]; ring. Qed.
Example C80_ex_bounds : bounds_ok (Some ([-1; 0], [1; 5])) 2.
Proof. split; [repeat constructor; lra|reflexivity]. Qed.
Example C80_ex_independent : exists m v, build_independent ones 1 1 0 None = Ok m /\ independent_forward (Rmax 0) None softplus [0] m [0] = Ok ([-1], [v]).
Proof. eexists _, _. split; [reflexivity|]. cbn. f_equal. f_equal. f_equal. rewrite Rmax_left by lra. ring. Qed.
Example C80_ex_distributional : linspace (-1) 1 3 = [-1; 0; 1].
Proof. cbn. repeat f_equal; field. Qed.
Example C80_ex_late : exists q, build_late ones ones 1 1 1 2 = Ok q /\ late_forward (fun x => x) q [3] [5] = Ok [5].
Proof. eexists. split; [reflexivity|]. cbn. f_equal. f_equal. ring. Qed.
Example C80_ex_bnq : bnq_forward (fun x => x) (mk_bnq (mk_mlpbn None [] (mk_affine (Some 1%nat) 1 (fun _ _ => 2) (fun _ => 1))) (mk_affine (Some 1%nat) 1 (fun _ _ => 1) (fun _ => 0)) (mk_affine (Some 1%nat) 1 (fun _ _ => 3) (fun _ => 0))) [4] = Ok ([9], [27]).
Proof. cbn. repeat f_equal; ring. Qed.
Example C80_ex_heads : nature_accepts 84 84 = true /\ nature_accepts 92 92 = false /\ nips_accepts 83 83 = false.
Proof. repeat split; reflexivity. Qed.

(** A network with one normalised hidden layer. *)
Definition ex_bn : mlpbn := mk_mlpbn None [(mk_affine (Some 1%nat) 1 (fun _ _ => 2) (fun _ => 1), mk_bn (fun _ => 3) (fun _ => 1) (fun _ => 1) (fun _ => 3) 1)] (mk_affine (Some 1%nat) 1 (fun _ _ => 5) (fun _ => 0)).
Example C80_ex_bn : chain 1 (map fst (mb_hidden ex_bn) ++ [mb_output ex_bn]) 1 /\ (forall l b, In (l, b) (mb_hidden ex_bn) -> forall i, 0 < bn_var b i + bn_eps b).
Proof. split; [repeat constructor|]. intros l b [H|[]]. injection H as <- <-. intros i. cbn. lra. Qed.
