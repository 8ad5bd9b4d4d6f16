(** What synchronising a target network means. *)
From Coq Require Import QArith.
From Verif Require Import Base.PyBase Model.CopyParam.
Set Implicit Arguments.
Local Open Scope nat_scope.

(** The target has an initialised parameter of the same size for every source
    parameter, and a BatchNormalization of the same size for every one of the
    source; names are distinct. *)
Definition matches (dst : link) (src : source) : Prop :=
  NoDup (map fst (s_params src)) /\ NoDup (map fst (s_bns src)) /\
  (forall k s, In (k, s) (s_params src) ->
     exists d, lookup (l_params dst) k = Some (Some d) /\ length d = length s) /\
  (forall k s, In (k, s) (s_bns src) ->
     exists d, lookup (l_bns dst) k = Some d /\ length (fst d) = length (fst s) /\ length (snd d) = length (snd s)).

(** Corresponding numbers of two links: entry [j] of a parameter or statistic. *)
Inductive place := InParam (k j : nat) | InMean (k j : nat) | InVar (k j : nat).

Definition at_link (l : link) (p : place) : option Q :=
  match p with
  | InParam k j => match lookup (l_params l) k with Some (Some d) => nth_error d j | _ => None end
  | InMean k j => match lookup (l_bns l) k with Some d => nth_error (fst d) j | None => None end
  | InVar k j => match lookup (l_bns l) k with Some d => nth_error (snd d) j | None => None end
  end.

Definition at_source (s : source) (p : place) : option Q :=
  match p with
  | InParam k j => match lookup (s_params s) k with Some d => nth_error d j | None => None end
  | InMean k j => match lookup (s_bns s) k with Some d => nth_error (fst d) j | None => None end
  | InVar k j => match lookup (s_bns s) k with Some d => nth_error (snd d) j | None => None end
  end.

(** The mixture after [n] soft updates. *)
Definition mixture (tau : Q) (n : nat) (t s : Q) : Q :=
  ((1 - tau) ^ Z.of_nat n * t + (1 - (1 - tau) ^ Z.of_nat n) * s)%Q.

(** [x] lies between [a] and [b]. *)
Definition between (a x b : Q) : Prop := (a <= x /\ x <= b \/ b <= x /\ x <= a)%Q.

(** The places of the target whose name is a parameter or statistic of the source. *)
Definition shared_place (s : source) (p : place) : Prop :=
  match p with
  | InParam k _ => In k (map fst (s_params s))
  | InMean k _ | InVar k _ => In k (map fst (s_bns s))
  end.
