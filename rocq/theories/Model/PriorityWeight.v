(** Model of chainerrl/replay_buffers/prioritized.py lines 9-68:
    PriorityWeightError, over the real numbers (no rounding). *)
From Coq Require Import Reals Lra.
From Verif Require Import Base.PyBase.
Set Implicit Arguments.
Local Open Scope R_scope.

(** Python's [x ** y] for x >= 0.  [0 ** y] is 1 for y = 0 and 0 for y > 0;
    [0 ** -y] raises ZeroDivisionError on Python floats (and is inf on numpy
    scalars): here it is 0, and the theorems only use positive bases there.
    Negative bases are not modelled. *)
Definition py_pow (x y : R) : R :=
  if Req_EM_T x 0 then (if Req_EM_T y 0 then 1 else 0) else Rpower x y.

(** Modes of normalize_by_max; [True] is replaced by ['batch'] (lines 40-42). *)
Inductive norm_mode := NormFalse | NormTrue | NormBatch | NormMemory.

(** prioritized.py:29-45 — attributes. *)
Record pwe := mk_pwe {
  w_alpha : R; w_beta : R; w_beta_add : R; w_eps : R; w_norm : norm_mode;
  w_min : option R; w_max : option R }.

Definition Rleb (a b : R) : bool := if Rle_dec a b then true else false.

(** prioritized.py:29-45 [__init__]. *)
Definition pwe_init (alpha beta0 : R) (betasteps : option R) (eps : R) (norm : norm_mode)
           (emin emax : option R) : res pwe :=
  assert! Rleb 0 alpha in
  assert! Rleb 0 beta0 && Rleb beta0 1 in
  let! beta_add := match betasteps with
                   | None => Ok 0
                   | Some s => if Req_EM_T s 0 then Raise ZeroDivisionError else Ok ((1 - beta0) / s)
                   end in
  Ok (mk_pwe alpha beta0 beta_add eps (match norm with NormTrue => NormBatch | m => m end) emin emax).

(** prioritized.py:49-54 [_clip_error]. *)
Definition clip_error (w : pwe) (d : R) : R :=
  let d := match w_min w with Some m => Rmax m d | None => d end in
  match w_max w with Some m => Rmin m d | None => d end.

(** prioritized.py:47-56 [priority_from_errors]. *)
Definition priority_from_errors (w : pwe) (errors : list R) : list R :=
  map (fun d => py_pow (clip_error w d + w_eps w) (w_alpha w)) errors.

(** [np.min] of a list; on the empty list numpy raises ValueError. *)
Definition list_min (l : list R) : res R :=
  match l with [] => Raise ValueError | x :: t => Ok (fold_left Rmin t x) end.

(** prioritized.py:58-68 [weights_from_probabilities]; [len] is
    [len(self.memory)]. *)
Definition weights_from_probabilities (w : pwe) (len : nat) (probs : list R) (min_prob : R)
  : res (list R * pwe) :=
  let! min_prob := match w_norm w with NormBatch => list_min probs | _ => Ok min_prob end in
  let ws := match w_norm w with
            | NormFalse => map (fun p => py_pow (INR len * p) (- w_beta w)) probs
            | _ => map (fun p => py_pow (p / min_prob) (- w_beta w)) probs
            end in
  Ok (ws, mk_pwe (w_alpha w) (Rmin 1 (w_beta w + w_beta_add w)) (w_beta_add w) (w_eps w)
                 (w_norm w) (w_min w) (w_max w)).

(** A sequence of calls with arbitrary probabilities. *)
Fixpoint weight_calls (w : pwe) (calls : list (nat * list R * R)) : res (list (list R) * pwe) :=
  match calls with
  | [] => Ok ([], w)
  | (len, probs, mp) :: t =>
    let! (ws, w1) := weights_from_probabilities w len probs mp in
    let! (r, w2) := weight_calls w1 t in
    Ok (ws :: r, w2)
  end.
