(** Discounted sums, n-step returns and generalized advantages, written as
    explicit sums. *)
From Coq Require Import QArith.
From Verif Require Import Base.PyBase Model.Returns Spec.WrapperSpec.
Set Implicit Arguments.
Local Open Scope nat_scope.

Fixpoint pow (x : Q) (n : nat) : Q := match n with O => 1%Q | S n => (x * pow x n)%Q end.

(** [sum_k c^k * l_k]. *)
Definition weighted_sum (c : Q) (l : list Q) : Q :=
  qsum (map (fun k => pow c k * nth k l 0)%Q (seq 0 (length l))).

(** One-step temporal-difference error of a PPO transition. *)
Definition td_error (gamma : Q) (x : gtr) : Q :=
  (g_reward x + (if g_nonterminal x then gamma * g_next_v x else 0) - g_v x)%Q.

(** The value predictions of an episode agree and only its last step may be terminal. *)
Definition consistent (ep : list gtr) : Prop :=
  forall t x y, nth_error ep t = Some x -> nth_error ep (S t) = Some y -> (g_next_v x == g_v y)%Q /\ g_nonterminal x = true.
Definition end_value (ep : list gtr) : Q :=
  match rev ep with x :: _ => if g_nonterminal x then g_next_v x else 0%Q | [] => 0%Q end.

(** The steps of a list up to and including the first one that ends an episode. *)
Fixpoint until_end {X} (ended : X -> bool) (l : list X) : list X :=
  match l with [] => [] | x :: t => x :: if ended x then [] else until_end ended t end.

(** Return of the first step of [l]: discounted rewards up to the end of its
    episode; if the episode does not end within [l], plus the discounted value of
    the state after [l]. *)
Definition n_step_return {X} (gamma : Q) (rew : X -> Q) (ended : X -> bool) (l : list X) (bootstrap : Q) : Q :=
  let e := until_end ended l in
  (weighted_sum gamma (map rew e) + (if existsb ended l then 0 else pow gamma (length l) * bootstrap))%Q.

(** A training batch: the steps with their targets, in order. *)
Definition trains_on {X Y} (steps : list X) (key : X -> Y) (target : list X -> Q) (b : list (Y * Q)) : Prop :=
  length b = length steps /\
  forall j x, nth_error steps j = Some x ->
    exists R, nth_error b j = Some (key x, R) /\ (R == target (skipn j steps))%Q.

Section A2C.
  Context {Obs A : Type}.
  Notation round := (@a2c_round Obs A).
  Definition r_key (x : round) : Obs * A := fst x.
  Definition r_reward (x : round) : Q := let '(_, (_, r, _, _)) := x in r.
  Definition r_next (x : round) : Obs := let '(_, (o, _, _, _)) := x in o.
  (** A2C treats a reset like a terminal state (it warns about that). *)
  Definition r_ended (x : round) : bool := let '(_, (_, _, done, reset)) := x in done || reset.

  Variable v : Obs -> Q.
  Definition bootstrap_value (l : list round) : Q :=
    match rev l with x :: _ => v (r_next x) | [] => 0%Q end.
  Definition a2c_return (gamma : Q) (l : list round) : Q :=
    n_step_return gamma r_reward r_ended l (bootstrap_value l).

  (** TD errors of successive rounds: the value of the next state is the one
      predicted at the next round, or at the end of the batch the bootstrap. *)
  Fixpoint a2c_deltas (gamma : Q) (l : list round) : list (Q * bool) :=
    match l with
    | [] => []
    | x :: t =>
      let next := match t with y :: _ => v (fst (r_key y)) | [] => v (r_next x) end in
      ((r_reward x + (if r_ended x then 0 else gamma * next) - v (fst (r_key x)))%Q, r_ended x) :: a2c_deltas gamma t
    end.
  Definition a2c_gae_return (gamma tau : Q) (l : list round) : Q :=
    match l with
    | [] => 0%Q
    | x :: _ => (weighted_sum (gamma * tau) (map fst (until_end snd (a2c_deltas gamma l))) + v (fst (r_key x)))%Q
    end.
End A2C.
(** Target of the first round of a suffix of the [k]-th batch. *)
Definition a2c_target {Obs A} (value : nat -> Obs -> Q) (use_gae : bool) (gamma tau : Q) (k : nat) (l : list (@a2c_round Obs A)) : Q :=
  if use_gae then a2c_gae_return (value k) gamma tau l else a2c_return (value k) gamma l.

(** The [k]-th block of [n] consecutive elements. *)
Definition block {X} (n k : nat) (l : list X) : list X := firstn n (skipn (k * n) l).

Section NStep.
  Context {Obs A : Type}.
  Notation op := (nstep_op Obs A).

  (** A step: in [s] action [a] was taken, giving reward [r] and leading to [s'];
      [e = Some done] when the episode was stopped there. *)
  Record step := mk_step { st_key : Obs * A; st_reward : Q; st_next : Obs; st_end : option bool }.

  Fixpoint steps_from (prev : option (Obs * A)) (os : list op) : list step :=
    match os with
    | [] => []
    | NAct s r a :: t => (match prev with Some p => [mk_step p r s None] | None => [] end) ++ steps_from (Some (s, a)) t
    | NStop s r d :: t => (match prev with Some p => [mk_step p r s (Some d)] | None => [] end) ++ steps_from None t
    end.
  Definition steps_of (os : list op) : list step := steps_from None os.

  (** An episode is stopped only after an action. *)
  Fixpoint stops_follow_actions (acted : bool) (os : list op) : bool :=
    match os with
    | [] => true
    | NAct _ _ _ :: t => stops_follow_actions true t
    | NStop _ _ _ :: t => acted && stops_follow_actions false t
    end.

  (** Cut the steps after every end of an episode and after every [t_max] steps
      within one; a last incomplete group is still pending. *)
  Fixpoint segments (t_max : nat) (cur l : list step) : list (list step) :=
    match l with
    | [] => []
    | x :: t =>
      let cur := cur ++ [x] in
      if match st_end x with Some _ => true | None => false end || Nat.eqb (length cur) t_max
      then cur :: segments t_max [] t else segments t_max cur t
    end.

  (** Target of the first step of a suffix of a segment. *)
  Definition n_step_target (gamma : Q) (v : Obs -> Q) (l : list step) : Q :=
    (weighted_sum gamma (map st_reward l) +
     pow gamma (length l) * match rev l with
                            | x :: _ => match st_end x with Some true => 0 | _ => v (st_next x) end
                            | [] => 0
                            end)%Q.
End NStep.
Arguments step : clear implicits.
