(** Pieces of sequences, and the datasets PPO must train on. *)
From Coq Require Import QArith Permutation.
From Verif Require Import Base.PyBase Model.Returns Model.PPODataset Spec.NStepSpec.
Set Implicit Arguments.
Local Open Scope nat_scope.

(** [p] is a non-empty run of consecutive elements of [l]. *)
Definition fragment {X} (p l : list X) : Prop := p <> [] /\ exists a b, l = a ++ p ++ b.

(** [g] is [s] cut into consecutive pieces of [max_len], the last one possibly shorter. *)
Definition cut_of {X} (max_len : nat) (s : list X) (g : list (list X)) : Prop :=
  concat g = s /\ exists pre lastp, g = pre ++ [lastp] /\ Forall (fun p => length p = max_len) pre /\ 0 < length lastp <= max_len.

Section S.
  Context {Obs A : Type}.

  (** What is stored for a step. *)
  Definition transition_of (x : step Obs A) : ptr Obs A :=
    mk_ptr (fst (st_key x)) (snd (st_key x)) (st_reward x) (st_next x)
           (match st_end x with Some true => false | _ => true end).

  (** Consecutive steps of one episode. *)
  Definition within_episode (l : list (step Obs A)) : Prop :=
    l <> [] /\ forall i x, nth_error l i = Some x -> S i < length l -> st_end x = None.

  (** The calls of single mode are those of [NStepSpec]. *)
  Definition single_call (o : nstep_op Obs A) : pop Obs A :=
    match o with NAct s r a => PAct s r a | NStop s r d => PStop s r d end.

  (** Batch mode: a round gives for each environment the observation and action,
      and what followed. *)
  Definition env_row := ((Obs * A) * brow (Obs := Obs))%type.
  Definition step_of_row (x : env_row) : step Obs A :=
    let '(key, (next, r, done, reset)) := x in
    mk_step key r next (if done then Some true else if reset then Some false else None).
  Definition round_calls (r : list env_row) : list (pop Obs A) :=
    [PBAct (map (fun x => fst (fst x)) r) (map (fun x => snd (fst x)) r); PBObs (map snd r)].
  (** The steps of environment [i]. *)
  Definition column (i : nat) (rounds : list (list env_row)) : list (step Obs A) :=
    flat_map (fun r => match nth_error r i with Some x => [step_of_row x] | None => [] end) rounds.
End S.
