(** What DDPG should minimise when it learns from episodes: every transition is judged by networks that have seen exactly
    what came before it in its own episode. *)
From Coq Require Import Reals List Arith Bool.
From Verif Require Import Base.PyBase Model.RecurrentDDPG Spec.SumSpec.
Import ListNotations.
Local Open Scope R_scope.

(** What a network answers to [x] after it has seen the inputs [past] since it was new. *)
Definition remembers {P H X Y} (n : net P H X Y) (theta : P) (past : list X) : H :=
  if n_rec n then fold_left (fun h x => fst (n_step n theta h x)) past (n_init n) else n_init n.
Definition answer {P H X Y} (n : net P H X Y) (theta : P) (past : list X) (x : X) : Y := snd (n_step n theta (remembers n theta past) x).

Section Spec.
  Context {O A Pq Hq Pp Hp : Type}.
  Notation dtrans := (dtrans O A).
  Definition pairs (e : list dtrans) : list (O * A) := map (fun x => (d_s x, d_a x)) e.
  Definition observed (e : list dtrans) : list O := map d_s e.
  (** Consecutive transitions; every one carries a next action, as all from [act_and_train] and [stop_episode_and_train] do. *)
  Definition chained (e : list dtrans) : Prop :=
    (forall i x y, nth_error e i = Some x -> nth_error e (S i) = Some y -> d_next x = d_s y /\ d_na x = Some (d_a y)) /\
    forall x, In x e -> d_na x <> None.
  Definition playable (eps : list (list dtrans)) : Prop := eps <> [] /\ forall e, In e eps -> e <> [] /\ chained e.

  Variable gamma : R.
  Variable q : net Pq Hq (O * A) R.
  Variable p : net Pp Hp O A.
  (** The target of transition number [i], [x], of episode [e]. *)
  Definition td_target (tq : Pq) (tp : Pp) (e : list dtrans) (i : nat) (x : dtrans) : R :=
    d_r x + gamma * if d_term x then 0 else answer q tq (firstn (S i) (pairs e)) (d_next x, answer p tp (firstn (S i) (observed e)) (d_next x)).
  Definition squared_error (tq : Pq) (tp : Pp) (theta : Pq) (e : list dtrans) (i : nat) (x : dtrans) : R :=
    (td_target tq tp e i x - answer q theta (firstn i (pairs e)) (d_s x, d_a x)) ^ 2.
  (** What the policy's action is worth. *)
  Definition own_value (theta : Pq) (phi : Pp) (e : list dtrans) (i : nat) (x : dtrans) : R :=
    answer q theta (firstn i (pairs e)) (d_s x, answer p phi (firstn i (observed e)) (d_s x)).
  (** The same, by a Q-function that has seen the first observation twice: first with the policy's action. *)
  Definition own_value_twice (theta : Pq) (phi : Pp) (e : list dtrans) (i : nat) (x : dtrans) : R :=
    let past := match i, e with S _, y :: _ => (d_s y, answer p phi [] (d_s y)) :: firstn i (pairs e) | _, _ => [] end in
    answer q theta past (d_s x, answer p phi (firstn i (observed e)) (d_s x)).

  (** The average over the steps of the average over the episodes that reach that step. *)
  Definition longest (eps : list (list dtrans)) : nat := fold_right Nat.max 0%nat (map (@length _) eps).
  Definition reaching (i : nat) (eps : list (list dtrans)) : nat := length (filter (fun e => Nat.ltb i (length e)) eps).
  Definition at_step (f : list dtrans -> nat -> dtrans -> R) (i : nat) (e : list dtrans) : R := match nth_error e i with None => 0 | Some x => f e i x end.
  Definition per_step (f : list dtrans -> nat -> dtrans -> R) (eps : list (list dtrans)) : R :=
    sum_below (longest eps) (fun i => total_of (at_step f i) eps / INR (reaching i eps)) / INR (longest eps).
  (** The average over all transitions. *)
  Definition per_transition (f : list dtrans -> nat -> dtrans -> R) (eps : list (list dtrans)) : R :=
    total_of (fun e => sum_below (length e) (fun i => at_step f i e)) eps / INR (length (concat eps)).
  Definition critic_objective (tq : Pq) (tp : Pp) (eps : list (list dtrans)) (theta : Pq) : R := per_step (squared_error tq tp theta) eps.
  Definition actor_objective (theta : Pq) (eps : list (list dtrans)) (phi : Pp) : R := - per_step (own_value theta phi) eps.
  Definition actor_objective_twice (theta : Pq) (eps : list (list dtrans)) (phi : Pp) : R := - per_step (own_value_twice theta phi) eps.

  (** Acting on the observations of an episode. *)
  Fixpoint act_all (w : ddpg) (os : list O) : res (list A * ddpg (Pq := Pq) (Hq := Hq) (Pp := Pp) (Hp := Hp)) :=
    match os with [] => Ok ([], w) | o :: os => let! (a, w) := act q p w o in let! (l, w) := act_all w os in Ok (a :: l, w) end.
End Spec.

(** Networks with a memory: the Q-function adds up the actions it has seen, the policy the observations. *)
Definition sum_q : net unit R (R * R) R := mk_net true true 0 (fun _ h x => (h + snd x, h + snd x)).
Definition sum_p : net R R R R := mk_net true true 0 (fun phi h o => (h + o, phi * (h + o))).
(** An episode of two steps. *)
Definition two_steps : list (dtrans R R) := [mk_dtrans 1 5 0 2 (Some 7) false; mk_dtrans 2 7 0 3 (Some 7) true].
Definition one_step : list (dtrans R R) := [mk_dtrans 1 5 0 2 (Some 5) true].
