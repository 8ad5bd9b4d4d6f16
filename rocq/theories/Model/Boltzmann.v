(** Model of chainerrl/explorers/boltzmann.py, in real arithmetic. *)
From Coq Require Import Reals List Arith.
From Verif Require Import Base.PyBase Model.Distributions.
Import ListNotations.
Local Open Scope R_scope.

(** What the agent passes as [action_value]: nothing, an action value that is not discrete, or a
    discrete one with its q-values (a list of rows). *)
Inductive action_value_arg := NoValue | OtherValue | DiscreteValue (q_values : list (list R)).

(** [np.cumsum]. *)
Fixpoint cumsum_from (acc : R) (p : list R) : list R := match p with [] => [] | x :: p => (acc + x) :: cumsum_from (acc + x) p end.
Definition leb_R (a b : R) : bool := if Rle_dec a b then true else false.
(** numpy's legacy [choice(a, p=p)] for one draw: the sizes must agree, the probabilities are summed,
    divided by the total, and a uniform number [u] in [0, 1) is looked up with
    [searchsorted(u, side='right')], the number of entries that are at most [u]. *)
Definition choice (n : nat) (p : list R) (u : R) : res nat :=
  if Nat.eqb (length p) n then
    let cdf := cumsum_from 0 p in
    let cdf := map (fun c => c / last cdf 0) cdf in
    Ok (length (filter (fun c => leb_R c u) cdf))
  else Raise ValueError.
(** boltzmann.py:19-28 [select_action].  A temperature of 0 makes all the probabilities NaN, which
    [choice] rejects. *)
Definition select_action (T : R) (av : action_value_arg) (u : R) : res nat :=
  match av with
  | NoValue => Raise AssertionError
  | OtherValue => Raise AssertionError
  | DiscreteValue rows =>
    let n_actions := length (hd [] rows) in
    if Req_EM_T T 0 then Raise ValueError
    else let probs := concat (map (fun row => softmax (map (fun q => q / T) row)) rows) in
         choice n_actions probs u
  end.
