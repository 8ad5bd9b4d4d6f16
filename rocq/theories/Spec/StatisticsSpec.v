(** What an exponentially weighted average and a window of samples are. *)
From Coq Require Import QArith Qreals Reals List.
From Verif Require Import Base.PyBase Model.Distributions Model.LineSearch Spec.LineSearchSpec Model.Statistics.
Import ListNotations.
Local Open Scope R_scope.

(** The [n] samples [xs], the newest last, are weighted by [1 - decay], [(1 - decay) decay], [(1 - decay) decay^2], ... from the newest on. *)
Fixpoint weighted_newest_first (decay : R) (ys : list R) : R :=
  match ys with [] => 0 | y :: ys => (1 - decay) * y + decay * weighted_newest_first decay ys end.
Definition exponential_average (decay : R) (xs : list R) : R := weighted_newest_first decay (rev xs).
Definition all_within (l u : R) (xs : list R) : Prop := Forall (fun x => l <= x <= u) xs.
(** The last [n] samples. *)
Definition newest (window : option nat) (xs : list R) : list R := match window with None => xs | Some n => skipn (length xs - n) xs end.

(** The samples of a history of calls that choose actions: those of DQN, of DDPG and PGT, and those of training only. *)
Definition dqn_samples (c : acting) : list R :=
  match c with Act q | ActAndTrain q => [q] | BatchActAndTrain qs => [fsum qs / INR (length qs)] | BatchAct _ => [] end.
Definition ddpg_samples (c : acting) : list R :=
  match c with Act q | ActAndTrain q => [q] | BatchActAndTrain qs | BatchAct qs => [fsum qs / INR (length qs)] end.
Definition training_samples (c : acting) : list R := match c with ActAndTrain q => [q] | _ => [] end.
Definition is_training (c : acting) : bool := match c with ActAndTrain _ | BatchActAndTrain _ => true | _ => false end.

(** Outcomes of line searches. *)
Definition is_search_outcome (max_kl : Q) (max_backtrack : nat) (o : outcome) : Prop :=
  exists evaluate gain params step, Forall well_formed params /\ length step = length (flatten params) /\
    line_search evaluate gain max_kl max_backtrack params step = Ok o.
Definition accepted_kls (os : list outcome) : list R :=
  flat_map (fun o => match o_kl o with Some (Fin kl) => [Q2R kl] | _ => [] end) os.
