(** Models of chainerrl/wrappers/normalize_action_space.py (whole file),
    chainerrl/wrappers/randomize_action.py (whole file),
    chainerrl/misc/env_modifiers.py lines 44-49 (make_action_filtered),
    chainerrl/functions/bound_by_tanh.py, chainerrl/q_functions/state_q_functions.py
    lines 17-23 (scale_by_tanh), chainerrl/explorers/additive_gaussian.py and
    chainerrl/explorers/additive_ou.py.
    Arrays are flat lists; the batch dimension added by expand_dims is the caller's
    map over rows.  Arrays of unequal shapes: numpy raises ValueError. *)
From Coq Require Import QArith Reals.
From Verif Require Import Base.PyBase Model.Num Model.GymEnv.
Set Implicit Arguments.
Local Open Scope nat_scope.

(** numpy's elementwise operation on two arrays of equal shape. *)
Fixpoint zipw {X Y Z} (f : X -> Y -> Z) (xs : list X) (ys : list Y) : res (list Z) :=
  match xs, ys with
  | [], [] => Ok []
  | x :: xs, y :: ys => let! zs := zipw f xs ys in Ok (f x y :: zs)
  | _, _ => Raise ValueError
  end.

Section Normalize.
Variable N : num.
(** normalize_action_space.py:18-28 [action]: [action.copy(); += 1;
    *= (high - low) / 2; + low]. *)
Definition normalize_action (low high action : list (nV N)) : res (list (nV N)) :=
  let action := map (fun x => nadd N x (none_ N)) action in
  let! width := zipw (nsub N) high low in
  let half := map (fun w => ndiv N w (nofnat N 2)) width in
  let! action := zipw (nmul N) action half in
  zipw (nadd N) action low.
End Normalize.

Section Filter.
Context {A B O X : Type}.
(** gym.ActionWrapper.step and env_modifiers.py:44-49 [make_action_filtered]: the
    action given to the env is the filtered one.  A filter may raise. *)
Definition action_filtered (f : A -> res B) (E : env B O X) : env A O X :=
  mk_env (fun e a => let! b := f a in estep E e b) (ereset E) (elives E).
End Filter.

Section Randomize.
Context {O X : Type}.
Variable E : env nat O X.
(** randomize_action.py:24-31 [__init__]: [0 <= random_fraction <= 1]. *)
Definition randomize_init (fraction : Q) : res Q :=
  assert! Qle_bool 0 fraction && Qle_bool fraction 1 in Ok fraction.
(** The random state: the values of the next rand() and randint(n) calls. *)
Definition rdraws := (nat -> Q * nat)%type.
(** randomize_action.py:33-37 [action] within gym.ActionWrapper.step: the [k]-th
    step draws [fst (d k)] and, if that is below the fraction, [snd (d k)]. *)
Definition randomize_action (fraction : Q) : env nat O X :=
  mk_env (est := rdraws * nat * est E)
    (fun s a => let '(d, k, e) := s in
       let b := if Qltb (fst (d k)) fraction then snd (d k) else a in
       let! r := estep E e b in
       let '(e, o) := r in
       Ok ((d, S k, e), o))
    (fun s => let '(d, k, e) := s in
       let! r := ereset E e in
       let '(e, o) := r in
       Ok ((d, k, e), o))
    (fun s => elives E (snd s)).
End Randomize.

Local Open Scope R_scope.

(** bound_by_tanh.py:7-24: [tanh(x) * ((high - low) / 2) + (high + low) / 2] for one
    row [x].  state_q_functions.py:17-23 [scale_by_tanh] computes the same. *)
Definition bound_by_tanh (x low high : list R) : res (list R) :=
  let! width := zipw Rminus high low in
  let! total := zipw Rplus high low in
  let! y := zipw Rmult (map tanh x) (map (fun w => w / 2) width) in
  zipw Rplus y (map (fun w => w / 2) total).

(** np.clip of one number: minimum(maximum(x, low), high); [None]: no bound. *)
Definition clip (x : R) (low high : option R) : R :=
  let x := match low with Some l => Rmax x l | None => x end in
  match high with Some h => Rmin x h | None => x end.

(** additive_gaussian.py:25-32 [select_action]; [noise] is the array drawn.  Bounds
    are arrays; a scalar bound is an array of equal entries. *)
Definition additive_gaussian (low high : option (list R)) (a noise : list R) : res (list R) :=
  let! y := zipw Rplus a noise in
  let n := length y in
  let bounds b := match b with Some l => map Some l | None => repeat None n end in
  match low, high with
  | None, None => Ok y
  | _, _ =>
      let! z := zipw (fun x l => (x, l)) y (bounds low) in
      zipw (fun p h => clip (fst p) (snd p) h) z (bounds high)
  end.

(** additive_ou.py:21-28: the parameters of AdditiveOU.  [sigma] is a number. *)
Record ou := mk_ou { ou_mu : R; ou_theta : R; ou_sigma : R; ou_start_with_mu : bool }.

(** additive_ou.py:37-53 [select_action] with [evolve] (lines 30-35).  [z] is an array
    of standard normal draws: np.random.normal(loc, scale) is modelled as
    loc + scale * z.  The state is ou_state.  Rounding to float32 is left out.
    Returns the new state and the action. *)
Definition ou_select (p : ou) (state : option (list R)) (a z : list R) : res (list R * list R) :=
  let! x := match state with
            | None =>
                if ou_start_with_mu p then Ok (map (fun _ => ou_mu p) a)
                else zipw (fun _ z => ou_mu p + ou_sigma p / sqrt (2 * ou_theta p - ou_theta p ^ 2) * z) a z
            | Some x =>
                zipw (fun x z => x + (ou_theta p * (ou_mu p - x) + ou_sigma p * z)) x z
            end in
  let! b := zipw Rplus a x in
  Ok (x, b).
(** A history of calls: greedy action and draws of each. *)
Fixpoint ou_run (p : ou) (state : option (list R)) (calls : list (list R * list R))
  : res (option (list R) * list (list R)) :=
  match calls with
  | [] => Ok (state, [])
  | (a, z) :: rest =>
      let! r := ou_select p state a z in
      let '(x, b) := r in
      let! rr := ou_run p (Some x) rest in
      let '(s, bs) := rr in
      Ok (s, b :: bs)
  end.
