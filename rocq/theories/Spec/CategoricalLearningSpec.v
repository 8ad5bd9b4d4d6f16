(** Repeated exact fitting of return distributions, on processes with rational probabilities and rewards (the
    projection of Model/Categorical.v is exact over the rationals). *)
From Coq Require Import QArith Qreals Reals List Arith.
From Verif Require Import Base.PyBase Model.Categorical Model.Distributions Model.CategoricalLoss Spec.SumSpec Spec.WrapperSpec Spec.CategoricalSpec Spec.PolicyGradientSpec Spec.BellmanSpec.
Import ListNotations.
Local Open Scope nat_scope.

(** Outcomes are probability, reward and the next state, or [None] for the end of the episode. *)
Record qmdp (St : Type) := mk_qmdp { q_actions : nat; q_outcomes : St -> nat -> list (Q * Q * option St) }.
Arguments mk_qmdp {St}. Arguments q_actions {St}. Arguments q_outcomes {St}.
(** The same process with real numbers. *)
Definition real {St} (m : qmdp St) : mdp St :=
  mk_mdp (q_actions m) (fun s a => map (fun o => (Q2R (fst (fst o)), Q2R (snd (fst o)), snd o)) (q_outcomes m s a)).

(** The average of rows of [n] entries. *)
Definition mixture (n : nat) (ps : list Q) (rows : list (list Q)) : list Q :=
  map (fun i => qsum (map (fun pr => fst pr * nth i (snd pr) 0)%Q (combine ps rows))) (seq 0 n).

Section Fit.
  Context {St : Type}.
  Variable m : qmdp St.
  Variable z : list Q.
  Variable gamma : Q.
  (** What is observed when an episode has ended. *)
  Variable final : St.
  (** A transition as the agent stores it. *)
  Definition experience (o : Q * Q * option St) : cexp :=
    mk_cexp (snd (fst o)) (match snd o with None => true | Some _ => false end) gamma.
  Definition lands (o : Q * Q * option St) : St := match snd o with None => final | Some s' => s' end.
  (** The targets of a batch with every outcome of [a] in [s], when the target network has the distributions [D]. *)
  Definition targets (D : St -> list (list Q)) (s : St) (a : nat) : res (list (list Q)) :=
    categorical_target z (map experience (q_outcomes m s a)) (map (fun o => D (lands o)) (q_outcomes m s a)).
  (** The distributions that fit the targets of all transitions: their averages. *)
  Definition fit (D : St -> list (list Q)) (s : St) : list (list Q) :=
    map (fun a => match targets D s a with
                  | Ok rows => mixture (length z) (map (fun o => fst (fst o)) (q_outcomes m s a)) rows
                  | Raise _ => []
                  end) (seq 0 (q_actions m)).
  Fixpoint refit (k : nat) (D : St -> list (list Q)) : St -> list (list Q) :=
    match k with O => D | S k => fit (refit k D) end.

  (** A distribution over the atoms for every action. *)
  Definition prob_row (d : list Q) : Prop := length d = length z /\ (forall p, In p d -> (0 <= p)%Q) /\ (qsum d == 1)%Q.
  Definition dist_table (D : St -> list (list Q)) : Prop := forall s, length (D s) = q_actions m /\ forall d, In d (D s) -> prob_row d.
  (** Their means, which are the action values the agent acts on. *)
  Definition means (D : St -> list (list Q)) (s : St) : list R := map (fun d => Q2R (meanv z d)) (D s).
  (** Returns that start from an atom stay between the ends of the support. *)
  Definition closed_support (lo hi : Q) : Prop :=
    forall s a o v, a < q_actions m -> In o (q_outcomes m s a) -> In v z ->
    (lo <= CategoricalSpec.backup (experience o) v /\ CategoricalSpec.backup (experience o) v <= hi)%Q.
  (** Probabilities of outcomes. *)
  Definition q_proper : Prop := 0 < q_actions m /\ forall s a,
    (qsum (map (fun o => fst (fst o)) (q_outcomes m s a)) == 1)%Q /\ forall o, In o (q_outcomes m s a) -> (0 <= fst (fst o))%Q.
  (** The loss of predicting [y] for action [a] in [s], averaged over the outcomes. *)
  Definition average_loss (D : St -> list (list Q)) (s : St) (a : nat) (y : list R) : R :=
    match targets D s a with
    | Ok rows => total_of (fun pr => (Q2R (fst pr) * row_cross_entropy y (map Q2R (snd pr)))%R)
                   (combine (map (fun o => fst (fst o)) (q_outcomes m s a)) rows)
    | Raise _ => 0%R
    end.
End Fit.
(** One decision: a fair bet between 2 and 0, or 3/4 for sure. *)
Definition bet : qmdp unit :=
  mk_qmdp 2 (fun _ a => match a with O => [(1 # 2, 2%Q, None); (1 # 2, 0%Q, None)] | _ => [(1%Q, 3 # 4, None)] end).
