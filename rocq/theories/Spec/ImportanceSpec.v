(** The average of what is learnt from a prioritized replay buffer. *)
From Coq Require Import QArith Qreals Reals List.
From Verif Require Import Base.PyBase Model.Num Model.Random Model.TreeQueue Model.PrioritizedBuffer Model.PriorityWeight.
From Verif Require Import Spec.SumSpec Spec.PrioritySpec Spec.PrioritizedBufferSpec Spec.FairSpec.
Import ListNotations.
Local Open Scope R_scope.

Section Importance.
  Context {X : Type}.
  Variable b : pb QNum X.
  Variable w : pwe.
  (** A quantity of the items, such as the gradient of their loss. *)
  Variable f : X -> R.
  (** The sum of [f] over a sample of [n] items, with the importance weights. *)
  Definition weighted (n : nat) (ur : Q) (d : draws QNum) : R :=
    match pb_sample b n ur d with
    | Ok (xs, probs, mp, _) =>
      match weights_from_probabilities w (length (pb_data b)) (map Q2R probs) (Q2R mp) with
      | Ok (ws, _) => total_of (fun p => fst p * f (snd p)) (combine ws xs)
      | Raise _ => 0
      end
    | Raise _ => 0
    end.
  Definition no_rng : rng := mk_rng [] (fun _ => []).
  (** Its average over the draws 0, 1/M, ..., (M-1)/M of np.random.uniform for a single item by priority, *)
  Definition mean_prioritized (ur : Q) (M : nat) : R :=
    total_of (fun j => weighted 1 ur (mk_draws QNum 0 0 no_rng (fun _ => Z.of_nat j # Pos.of_nat M))) (seq 0 M) / INR M.
  (** over all draws of a single uniform item, *)
  Definition mean_uniform (ur : Q) (B : nat) : R :=
    total_of (fun r => weighted 1 ur (mk_draws QNum 1 0 r (fun _ => 0%Q))) (ensemble (length (pb_data b)) 1 B)
    / INR (length (ensemble (length (pb_data b)) 1 B)).
  (** and over both, as np.random.binomial(1, uniform_ratio) decides between them. *)
  Definition mean_weighted (ur : Q) (M B : nat) : R := Q2R ur * mean_uniform ur B + (1 - Q2R ur) * mean_prioritized ur M.
End Importance.

(** The weight of an item that is drawn alone, with probability [p]; [least] is the least probability, [len] the number of items. *)
Definition single_weight (w : pwe) (len : nat) (least p : R) : R :=
  match w_norm w with
  | NormFalse => py_pow (INR len * p) (- w_beta w)
  | NormBatch => 1
  | _ => py_pow (p / least) (- w_beta w)
  end.
(** What an item [e] with its priority contributes if it is drawn alone, or with all others; [mn] is the least priority. *)
Definition single_share {X : Type} (w : pwe) (f : X -> R) (ur : Q) (l : list (X * Q)) (mn : Q) (e : X * Q) : R :=
  single_weight w (length l) (Q2R (sel_prob ur (map snd l) mn)) (Q2R (sel_prob ur (map snd l) (snd e))) * f (fst e).
(** Two items with priorities 1 and 3. *)
Definition two_items : list (use nat) := [UAppend 0%nat (Some 1%Q); UAppend 1%nat (Some 3%Q)].
