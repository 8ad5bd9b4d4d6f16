(** What vectorised training needs of a vector environment. *)
From Coq Require Import QArith.
From Verif Require Import Base.PyBase Model.GymEnv Model.VectorEnv.
Set Implicit Arguments.
Local Open Scope nat_scope.

Section S.
  Context {A O X : Type}.
  Variable V : venv A O X.
  (** One answer per environment. *)
  Definition sized (n : nat) : Prop :=
    (forall v acts v' ss, v_step V v acts = Ok (v', ss) -> length ss = n) /\
    (forall v m v' obs, v_reset V v m = Ok (v', obs) -> length obs = n).
  (** An environment that is not reset goes on from the observation of the step. *)
  Definition keeps : Prop := forall v acts v1 ss mask v2 obs j,
    v_step V v acts = Ok (v1, ss) -> v_reset V v1 (Some mask) = Ok (v2, obs) ->
    nth_error mask j = Some true -> nth_error obs j = option_map (@so_obs O X) (nth_error ss j).
End S.
