(** The network and the loss of IQN for whole batches: chainerrl/agents/iqn.py, in real arithmetic.  An array is a list of rows, or of lists of rows.  The layers below ([psi],
    also a recurrent one, C44) give arbitrary rows; a layer above ([f]) and the linear layer treat every row alike (C80).  A batch of size one is not broadcast. *)
From Coq Require Import Reals List Arith.
From Verif Require Import Base.PyBase Model.Categorical Model.Distributions Model.Targets Model.ActionValue.
Import ListNotations.
Local Open Scope R_scope.

(** iqn.py:11-27, one number. *)
Definition cosine_basis (n : nat) (x : R) : list R := map (fun i => cos (x * (INR i * PI))) (seq 1 n).

(** [shape[1]] of an array. *)
Definition shape1 {X} (a : list (list X)) : nat := match a with [] => O | r :: _ => length r end.
(** [F.reshape(h, (b, n, -1))] of a list of rows. *)
Fixpoint split_rows {X} (b n : nat) (l : list X) : list (list X) :=
  match b with O => [] | S b => firstn n l :: split_rows b n (skipn n l) end.

(** iqn.py:46-59: CosineBasisLinear for an array of (batch, taus); [lin] is its linear layer. *)
Definition cosine_linear (n_basis : nat) (lin : list R -> list R) (taus : list (list R)) : list (list (list R)) :=
  let h := map (map (cosine_basis n_basis)) taus in
  let h := concat h in
  let out := map lin h in
  split_rows (length taus) (shape1 taus) out.

(** iqn.py:62-81; [psi_x] is (batch, hidden). *)
Definition evaluate_taus (phi : list (list R) -> list (list (list R))) (f : list R -> list R) (psi_x taus : list (list R)) : res (list (list (list R))) :=
  let batch := length psi_x in
  let hidden := shape1 psi_x in
  assert! (length taus =? batch)%nat in
  let n_taus := shape1 taus in
  let phi_taus := phi taus in
  assert! ((length phi_taus =? batch)%nat && forallb (fun m => (length m =? n_taus)%nat && forallb (fun r => (length r =? hidden)%nat) m) phi_taus) in
  let h := map (fun z => map (zipr Rmult (fst z)) (snd z)) (combine psi_x phi_taus) in
  let h := concat h in
  assert! (length h =? batch * n_taus)%nat in
  let h := map f h in
  Ok (split_rows batch n_taus h).

(** iqn.py:179-216: (batch, N, N'). *)
Definition eltwise_loss (y t taus : list (list R)) : res (list (list (list R))) :=
  assert! ((length y =? length taus)%nat && forallb (fun z => (length (fst z) =? length (snd z))%nat) (combine y taus)) in
  Ok (map (fun z => let '(ys, us, ts) := z in map (fun w => map (quantile_loss 1 (snd w) (fst w)) ts) (combine ys us)) (combine (combine y taus) t)).

Definition amean (l : list R) : R := fsum l / INR (length l).
(** [F.mean(e, axis=(0, 2))]. *)
Definition mean_0_2 (e : list (list (list R))) : list R :=
  map (fun s => s / INR (length e * match e with [] => 0 | m :: _ => shape1 m end)) (row_sum (shape1 e) (map (map fsum) e)).
(** iqn.py:220-240. *)
Definition iqn_value_loss (e : list (list (list R))) (acc : accumulator) : R :=
  match acc with
  | Sum => fsum (map fsum (map (map amean) e))
  | Mean => fsum (mean_0_2 e)
  end.
(** iqn.py:243-265. *)
Definition iqn_weighted_value_loss (e : list (list (list R))) (w : list R) (acc : accumulator) : R :=
  let loss_sum := fsum (zipr Rmult (map fsum (map (map amean) e)) w) in
  match acc with Mean => loss_sum / INR (length e) | Sum => loss_sum end.
(** iqn.py:383-386: [F.mean(e, axis=(1, 2))], the errors for a prioritized buffer. *)
Definition iqn_errors (e : list (list (list R))) : list R := map (fun m => fsum (map fsum m) / INR (length m * shape1 m)) e.

(** iqn.py:411-417: [xp.linspace(0, 1, num=K)]. *)
Definition linspace01 (K : nat) : list R :=
  match K with
  | O => []
  | 1%nat => [0]
  | _ => map (fun i => INR i / INR (K - 1)) (seq 0 K)
  end.
(** iqn.py:397-422: the thresholds of act when [act_deterministically]. *)
Definition deterministic_taus (K batch : nat) : list (list R) := repeat (linspace01 K) batch.
