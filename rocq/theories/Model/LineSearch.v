(** Model of TRPO._line_search (chainerrl/agents/trpo.py:555-650) and of its helpers
    (trpo.py:19-53).  A parameter is its shape and its entries in row-major order.
    Logging is left out; evaluating the policy is an oracle from parameters to the
    surrogate gain and the mean KL divergence.  These may be nan or infinite; the
    parameters are exact rationals. *)
From Coq Require Import QArith.
From Verif Require Import Base.PyBase.
Set Implicit Arguments.
Local Open Scope nat_scope.

Record param := mk_param { shape : list nat; entries : list Q }.
Definition prod (l : list nat) : nat := fold_right Nat.mul 1 l.

(** Floats that may not be finite. *)
Inductive fl := Fin (q : Q) | PInf | NInf | NaN.
Definition is_finite (x : fl) : bool := match x with Fin _ => true | _ => false end.
Definition fl_sub (x y : fl) : fl :=
  match x, y with
  | Fin a, Fin b => Fin (a - b)%Q
  | NaN, _ | _, NaN => NaN
  | PInf, PInf | NInf, NInf => NaN
  | PInf, _ | _, NInf => PInf
  | NInf, _ | _, PInf => NInf
  end.
(** [x < q] and [x > q] for a finite [q]; comparisons with nan are false. *)
Definition fl_lt (x : fl) (q : Q) : bool := match x with Fin a => negb (Qle_bool q a) | NInf => true | _ => false end.
Definition fl_gt (x : fl) (q : Q) : bool := match x with Fin a => negb (Qle_bool a q) | PInf => true | _ => false end.

(** trpo.py:39-42 [_flatten_and_concat_ndarrays]. *)
Definition flatten (ps : list param) : list Q := flat_map entries ps.

(** trpo.py:45-50 [_split_and_reshape_to_ndarrays]: [xp.split] at the running sums of
    the sizes; the piece after the last section is dropped by [zip]. *)
Definition reshape (v : list Q) (sh : list nat) : res param :=
  if Nat.eqb (length v) (prod sh) then Ok (mk_param sh v) else Raise ValueError.
Fixpoint split_and_reshape (flat : list Q) (sizes : list nat) (shapes : list (list nat)) : res (list param) :=
  match sizes, shapes with
  | n :: sizes, sh :: shapes =>
    let! p := reshape (firstn n flat) sh in
    let! ps := split_and_reshape (skipn n flat) sizes shapes in
    Ok (p :: ps)
  | [], sh :: _ => let! p := reshape flat sh in Ok [p]
  | _, [] => Ok []
  end.

(** trpo.py:53-57 [_replace_params_data]. *)
Definition list_nat_eqb (a b : list nat) : bool := if list_eq_dec Nat.eq_dec a b then true else false.
Fixpoint replace_params (params news : list param) : res (list param) :=
  match params, news with
  | p :: params, q :: news =>
    assert! list_nat_eqb (shape p) (shape q) in
    let! rest := replace_params params news in
    Ok (mk_param (shape p) (entries q) :: rest)
  | ps, [] => Ok ps
  | [], _ => Ok []
  end.

(** [flat_params + step_size * full_step]; vectors of different lengths cannot be
    added (broadcasting a vector of length one is not modelled). *)
Fixpoint axpy (flat : list Q) (s : Q) (step : list Q) : res (list Q) :=
  match flat, step with
  | [], [] => Ok []
  | x :: flat, d :: step => let! r := axpy flat s step in Ok ((x + s * d)%Q :: r)
  | _, _ => Raise ValueError
  end.

Record outcome := mk_outcome { o_params : list param; o_step_size : Q; o_kl : option fl }.

Section Search.
  Variable evaluate : list param -> fl * fl.     (* new_gain, new_kl *)
  Variable gain : fl.
  Variable max_kl : Q.
  Variable params0 : list param.                 (* for sizes and shapes *)
  Variable flat_params full_step : list Q.

  (** trpo.py:597-650: [iters] iterations left; [params] is the current content. *)
  Fixpoint search (iters : nat) (step_size : Q) (params : list param) : res outcome :=
    match iters with
    | O =>
      let! old := split_and_reshape flat_params (map (fun p => length (entries p)) params0) (map shape params0) in
      let! ps := replace_params params old in
      Ok (mk_outcome ps 0 None)
    | S iters =>
      let! flat := axpy flat_params step_size full_step in
      let! news := split_and_reshape flat (map (fun p => length (entries p)) params0) (map shape params0) in
      let! params := replace_params params news in
      let '(new_gain, new_kl) := evaluate params in
      let improve := fl_sub new_gain gain in
      if negb (is_finite new_gain) then search iters (step_size * (1 # 2)) params
      else if negb (is_finite new_kl) then search iters (step_size * (1 # 2)) params
      else if fl_lt improve 0 then search iters (step_size * (1 # 2)) params
      else if fl_gt new_kl max_kl then search iters (step_size * (1 # 2)) params
      else Ok (mk_outcome params step_size (Some new_kl))
    end.
End Search.

(** trpo.py:555-650. *)
Definition line_search (evaluate : list param -> fl * fl) (gain : fl) (max_kl : Q) (max_backtrack : nat)
  (params : list param) (full_step : list Q) : res outcome :=
  search evaluate gain max_kl params (flatten params) full_step (max_backtrack + 1) 1 params.
