(** Model of chainerrl/misc/copy_param.py.

    A link is reduced to what the functions touch: its named parameters (name,
    array, gradient) and the statistics of its BatchNormalization children.
    Names are natural numbers, arrays are flat lists of exact rationals.
    Simplifications: assigning an array of a different shape raises ValueError
    (numpy would still accept shapes that broadcast), and the parameters of the
    source link are initialised. *)
From Coq Require Import QArith.
From Verif Require Import Base.PyBase.
Set Implicit Arguments.
Local Open Scope nat_scope.

(** [dict(link.namedparams())]: a map from names, as an association list. *)
Definition named (A : Type) := list (nat * A).

Fixpoint lookup {A} (l : named A) (k : nat) : option A :=
  match l with
  | [] => None
  | (k', x) :: t => if k' =? k then Some x else lookup t k
  end.

(** Mutating the object stored under a name. *)
Fixpoint store {A} (l : named A) (k : nat) (x : A) : named A :=
  match l with
  | [] => []
  | (k', y) :: t => if k' =? k then (k', x) :: t else (k', y) :: store t k x
  end.

Record link := mk_link {
  l_params : named (option (list Q));          (* None: array not initialised *)
  l_bns : named (list Q * list Q)              (* avg_mean, avg_var *)
}.

(** [dst[...] = src] for arrays of one shape. *)
Definition assign (dst src : list Q) : res (list Q) :=
  if length dst =? length src then Ok src else Raise ValueError.

(** [dst[...] *= (1 - tau); dst[...] += tau * src] (lines 35-36, 43-46). *)
Fixpoint zip2 (f : Q -> Q -> Q) (a b : list Q) : list Q :=
  match a, b with x :: a, y :: b => f x y :: zip2 f a b | _, _ => [] end.
Definition blend (tau : Q) (dst src : list Q) : res (list Q) :=
  if length dst =? length src
  then Ok (zip2 Qplus (map (fun x => Qmult x (1 - tau)) dst) (map (Qmult tau) src))
  else Raise ValueError.

(** copy_param.py:6-14 and 27-36: the loop over the source's parameters. *)
Fixpoint sync_params (f : list Q -> list Q -> res (list Q))
    (dst : named (option (list Q))) (src : named (list Q)) : res (named (option (list Q))) :=
  match src with
  | [] => Ok dst
  | (k, s) :: t =>
    match lookup dst k with
    | None => Raise KeyError
    | Some None => Raise TypeError
    | Some (Some d) => let! d' := f d s in sync_params f (store dst k (Some d')) t
    end
  end.

(** copy_param.py:16-22 and 38-46: the loop over BatchNormalization links. *)
Fixpoint sync_bns (f : list Q -> list Q -> res (list Q))
    (dst : named (list Q * list Q)) (src : named (list Q * list Q)) : res (named (list Q * list Q)) :=
  match src with
  | [] => Ok dst
  | (k, (sm, sv)) :: t =>
    match lookup dst k with
    | None => Raise KeyError
    | Some (m, v) =>
      let! m' := f m sm in
      let! v' := f v sv in
      sync_bns f (store dst k (m', v')) t
    end
  end.

(** The source link of a synchronisation (all parameters initialised). *)
Record source := mk_source { s_params : named (list Q); s_bns : named (list Q * list Q) }.

(** copy_param.py:4-22 [copy_param]. *)
Definition copy_param (dst : link) (src : source) : res link :=
  let! p := sync_params assign (l_params dst) (s_params src) in
  let! b := sync_bns assign (l_bns dst) (s_bns src) in
  Ok (mk_link p b).

(** copy_param.py:25-46 [soft_copy_param]. *)
Definition soft_copy_param (dst : link) (src : source) (tau : Q) : res link :=
  let! p := sync_params (blend tau) (l_params dst) (s_params src) in
  let! b := sync_bns (blend tau) (l_bns dst) (s_bns src) in
  Ok (mk_link p b).

(** copy_param.py:65-68 [synchronize_parameters]; any other method name is a
    KeyError of the dict. *)
Inductive method := Hard | Soft | OtherMethod.
Definition synchronize_parameters (src : source) (dst : link) (m : method) (tau : Q) : res link :=
  match m with
  | Hard => copy_param dst src
  | Soft => soft_copy_param dst src tau
  | OtherMethod => Raise KeyError
  end.

(** [n] synchronisations with an unchanged source. *)
Fixpoint sync_times (n : nat) (src : source) (dst : link) (m : method) (tau : Q) : res link :=
  match n with
  | O => Ok dst
  | S n => let! dst' := synchronize_parameters src dst m tau in sync_times n src dst' m tau
  end.

(** copy_param.py:49-62 [copy_grad]: gradients by name, [None] if absent. *)
Fixpoint copy_grad (dst src : named (option (list Q))) : res (named (option (list Q))) :=
  match src with
  | [] => Ok dst
  | (k, g) :: t =>
    match lookup dst k with
    | None => Raise KeyError
    | Some None => copy_grad (match g with None => dst | Some g => store dst k (Some g) end) t
    | Some (Some d) =>
      match g with
      | None => copy_grad (store dst k None) t
      | Some g => let! d' := assign d g in copy_grad (store dst k (Some d')) t
      end
    end
  end.
