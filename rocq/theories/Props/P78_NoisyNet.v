(** C78: converting a network to a noisy network replaces exactly its linear layers, and a
    noisy layer computes the linear layer of its means plus factorised zero-mean noise. *)
From Coq Require Import Reals List Arith String Bool Lia Lra FunctionalExtensionality.
From Verif Require Import Base.PyBase Model.Quadratic Model.NoisyNet Spec.SumSpec Spec.NoisyNetSpec Proofs.NoisyNetProofs.
Import ListNotations.
Set Implicit Arguments.

(** Every tree of links without sharing is converted without failure: each linear link
    below the root becomes a noisy one with the same sizes and with or without bias as
    before, everything else stays the same object in the same place, the layers used by a
    [Sequence] are its new children, and no other object changes. *)
Theorem C78_convert : forall (P F : Type) (fresh : nat -> P) (t : tree P F), is_lin t = false ->
  forall fuel (h : heap P F), rep h t -> NoDup (ids t) -> height t <= fuel ->
  exists h' t', to_factorized_noisy fresh fuel h (root t) = Ok h' /\ root t' = root t /\ converted fresh h t t' h'.
Proof. exact convert_ok. Qed.
(** If the network had no noisy layers, it has one for each linear layer afterwards, each
    with two sets of newly initialised parameters; the old weights are dropped. *)
Theorem C78_parameters : forall (P F : Type) (fresh : nat -> P) (t : tree P F), is_lin t = false -> noisy_layers t = [] ->
  forall fuel (h : heap P F), rep h t -> NoDup (ids t) -> height t <= fuel ->
  exists h' t', to_factorized_noisy fresh fuel h (root t) = Ok h' /\ root t' = root t /\ rep h' t' /\
    List.length (noisy_layers t') = List.length (linear_layers t) /\
    forall z, In z (noisy_layers t') -> exists m s, noisy_params h' z = Ok (fresh m, fresh s).
Proof. exact convert_params. Qed.

(** A [Sequence] of two linear links with a function between them, inside a chain. *)
Definition C78_tree : tree nat nat :=
  T 3 (LChain ["model"%string]) [T 2 (LSeq [None; Some 7; None]) [T 0 (LLin (Some 4) 5 false 10) []; T 1 (LLin None 6 true 11) []]].
Definition C78_heap : heap nat nat :=
  [NLinear (Some 4) 5 false 10; NLinear None 6 true 11; NSeq [0; 1] [inr 0; inl 7; inr 1]; NChain [("model"%string, 2)]].
Example C78_example : is_lin C78_tree = false /\ noisy_layers C78_tree = [] /\ rep C78_heap C78_tree /\ NoDup (ids C78_tree) /\ height C78_tree <= 4 /\
  to_factorized_noisy (fun n => 100 + n) 4 C78_heap 3 = Ok
    [NLinear (Some 4) 5 false 10; NLinear None 6 true 11; NSeq [6; 9] [inr 6; inl 7; inr 9]; NChain [("model"%string, 2)];
     NLinear (Some 4) 5 false 104; NLinear (Some 4) 5 false 105; NNoisy 5 false 4 5;
     NLinear None 6 true 107; NLinear None 6 true 108; NNoisy 6 true 7 8].
Proof.
  split; [reflexivity|]. split; [reflexivity|]. split; [repeat constructor|]. split; [|split; [cbn; lia|reflexivity]].
  repeat (constructor; [cbn; intuition lia|]). constructor.
Qed.

(** A linear link by itself is left as it is. *)
Theorem C78_bare_link_refuted : forall (P F : Type) (fresh : nat -> P) fuel (h : heap P F) i a b c w,
  nth_error h i = Some (NLinear a b c w) -> to_factorized_noisy fresh (S fuel) h i = Ok h.
Proof. exact bare_linear. Qed.
(** A policy whose forward pass reads plain attributes, as the Gaussian and the deterministic
    policies do, still uses the old linear links with their old weights: the conversion has
    no effect on what it computes. *)
Theorem C78_policy_refuted : forall (P F : Type) (fresh : nat -> P) i attrs k fuel (h : heap P F),
  rep h (T i (LPolicy attrs) k) -> NoDup (ids (T i (LPolicy attrs) k)) -> height (T i (LPolicy attrs) k) <= fuel ->
  exists h' kids', to_factorized_noisy fresh fuel h i = Ok h' /\ nth_error h' i = Some (NPolicy kids' attrs) /\
    forall a x y z w, In a attrs -> nth_error h a = Some (NLinear x y z w) -> nth_error h' a = Some (NLinear x y z w).
Proof. exact policy_unaffected. Qed.
Example C78_policy_example : let t := T 2 (LPolicy [0; 1]) [T 0 (LLin (Some 4) 5 false 10) []; T 1 (LLin (Some 4) 5 false 11) []] in
  let h := [NLinear (Some 4) 5 false 10; NLinear (Some 4) 5 false 11; NPolicy [0; 1] [0; 1]] : heap nat nat in
  rep h t /\ NoDup (ids t) /\ height t <= 2 /\ match to_factorized_noisy (fun n => n) 2 h 2 with Ok h' => nth_error h' 2 = Some (NPolicy [5; 8] [0; 1]) | Raise _ => False end.
Proof.
  cbv zeta. split; [repeat constructor|]. split; [|split; [cbn; lia|reflexivity]]. repeat (constructor; [cbn; intuition lia|]). constructor.
Qed.
(** Converting a network a second time makes the means and scales themselves noisy: every
    noisy layer then fails when it is used. *)
Theorem C78_twice_refuted : forall (P F : Type) (fresh : nat -> P) (t : tree P F), is_lin t = false -> noisy_layers t = [] ->
  forall fuel (h : heap P F), rep h t -> NoDup (ids t) -> S (height t) <= fuel ->
  exists h1 h2 t1, to_factorized_noisy fresh fuel h (root t) = Ok h1 /\ rep h1 t1 /\ root t1 = root t /\ List.length (noisy_layers t1) = List.length (linear_layers t) /\
    to_factorized_noisy fresh fuel h1 (root t) = Ok h2 /\ forall z, In z (noisy_layers t1) -> noisy_params h2 z = Raise AttributeError.
Proof. exact convert_twice. Qed.
Example C78_twice_example : height C78_tree < 4 /\ List.length (linear_layers C78_tree) = 2.
Proof. split; [cbn; lia|reflexivity]. Qed.
(** So does a single conversion of a network that contains the same chain at two places. *)
Theorem C78_shared_refuted : exists (h h' : heap nat nat), h = [NLinear (Some 4) 4 false 0; NList [0]; NSeq [1; 1] [inr 1; inr 1]] /\
  to_factorized_noisy (fun n => n) 5 h 2 = Ok h' /\ nth_error h' 1 = Some (NList [5]) /\ noisy_params h' 5 = Raise AttributeError.
Proof. eexists _, _. split; [reflexivity|]. split; [reflexivity|]. split; reflexivity. Qed.
(** A [Sequence] that applies the same linear link twice makes the conversion fail. *)
Theorem C78_repeated_refuted : to_factorized_noisy (fun n => n) 5 ([NLinear (Some 4) 4 false 0; NSeq [0; 0] [inr 0; inr 0]] : heap nat nat) 1 = Raise AssertionError.
Proof. reflexivity. Qed.

Local Open Scope R_scope.
(** The noise function keeps the sign and takes the root of the size. *)
Theorem C78_noise : forall r, noise_function r * noise_function r = Rabs r /\ noise_function (- r) = - noise_function r /\ 0 <= r * noise_function r.
Proof. intros r. exact (conj (noise_sq r) (conj (noise_odd r) (noise_sign r))). Qed.
(** What a noisy layer computes: the linear layer of the means, plus the output noise times
    the linear layer of the scales applied to the input with the input noise. *)
Theorem C78_forward : forall n mu sigma r x i, same_bias mu sigma ->
  noisy_forward n mu sigma r x i =
    linear n (lp_W mu) (lp_b mu) x i + noise_function (r (n + i)%nat) * linear n (lp_W sigma) (lp_b sigma) (fun j => noise_function (r j) * x j) i.
Proof. exact forward_ok. Qed.
(** Averaged over any draws that are symmetric in the coordinate used for the output, in
    particular over independent standard normal ones, the output is the linear layer of the means. *)
Theorem C78_mean : forall E n mu sigma x i, averaging E -> (forall f, E (fun r => f (flip (n + i) r)) = E f) -> same_bias mu sigma ->
  E (fun r => noisy_forward n mu sigma r x i) = linear n (lp_W mu) (lp_b mu) x i.
Proof. exact mean_ok. Qed.
Example C78_mean_example : let E := fun f => / 2 * (f (fun _ => 4) + f (flip 1 (fun _ => 4))) : R in
  averaging E /\ (forall f, E (fun r => f (flip (1 + 0) r)) = E f) /\
  let mu := mk_lin (fun _ _ => 2) (Some (fun _ => 3)) in let sigma := mk_lin (fun _ _ => 5) (Some (fun _ => 7)) in
  noisy_forward 1 mu sigma (fun _ => 4) (fun _ => 1) 0 = 2 + 3 + 2 * (5 * 2 + 7) /\ noisy_forward 1 mu sigma (flip 1 (fun _ => 4)) (fun _ => 1) 0 = 2 + 3 - 2 * (5 * 2 + 7) /\
  E (fun r => noisy_forward 1 mu sigma r (fun _ => 1) 0) = 2 + 3.
Proof.
  assert (S4 : noise_function 4 = 2). { unfold noise_function. destruct (Rlt_dec 4 0); [lra|]. rewrite Rabs_pos_eq by lra. replace 4 with (2 * 2) by ring. apply sqrt_square. lra. }
  assert (S4' : noise_function (- (4)) = -2) by (rewrite noise_odd, S4; ring).
  cbv zeta. split; [|split].
  - split; [intros f g H; rewrite !H; reflexivity|]. repeat split; intros; field.
  - intros f. cbn [Nat.add]. replace (flip 1 (flip 1 (fun _ => 4))) with (fun _ : nat => 4); [field|].
    apply FunctionalExtensionality.functional_extensionality. intros j. unfold flip. destruct (Nat.eqb j 1); ring.
  - unfold noisy_forward, linear, flip. cbn. rewrite S4, S4'. repeat split; field.
Qed.
(** The initial scales: the squares of the weights of one output add up to the square of the
    given scale, and so do the squares of all the biases together. *)
Theorem C78_initial_scale : forall scale n_out n_in i, (0 < n_in)%nat -> (0 < n_out)%nat ->
  sum_below n_in (fun j => scaling_weight scale n_out n_in i j * scaling_weight scale n_out n_in i j) = scale * scale /\
  sum_below n_out (fun j => scaling_bias scale n_out j * scaling_bias scale n_out j) = scale * scale.
Proof. intros scale n_out n_in i H1 H2. exact (conj (scaling_weight_ok scale n_out i H1) (scaling_bias_ok scale H2)). Qed.

Print Assumptions C78_convert.
Print Assumptions C78_parameters.
Print Assumptions C78_bare_link_refuted.
Print Assumptions C78_policy_refuted.
Print Assumptions C78_twice_refuted.
Print Assumptions C78_shared_refuted.
Print Assumptions C78_repeated_refuted.
Print Assumptions C78_noise.
Print Assumptions C78_forward.
Print Assumptions C78_mean.
Print Assumptions C78_initial_scale.
