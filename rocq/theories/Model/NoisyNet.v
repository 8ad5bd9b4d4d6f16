(** Model of noisy networks: chainerrl/links/noisy_chain.py, chainerrl/links/noisy_linear.py,
    chainerrl/initializers/constant.py, and of the object structure of
    chainerrl/links/sequence.py.  Links are objects in a heap, because the conversion edits
    them in place and Python compares them by identity. *)
From Coq Require Import Reals List Arith String Bool.
From Verif Require Import Base.PyBase Model.Quadratic Spec.SumSpec.
Import ListNotations.
Set Implicit Arguments.

Section Convert.
  (** [P]: parameter values, [F]: plain functions among the layers of a [Sequence]. *)
  Variables P F : Type.
  Definition id := nat.
  (** The links of chainer and chainerrl.  [NLinear]: [L.Linear]; [in_size] is [None] while
      its weights are not initialised.  [NChain]: any [chainer.Chain], whose forward pass
      uses the children by name.  [NList]: a [ChainList] whose forward pass iterates over
      its children.  [NSeq]: chainerrl's [Sequence] (sequence.py:19-44), a [ChainList] whose
      forward pass uses its own list [layers] of links and functions.  [NPolicy]: a
      [ChainList] whose forward pass uses plain attributes, such as [FCGaussianPolicy]
      (policies/gaussian_policy.py:65-92).  [NNoisy]: [FactorizedNoisyLinear], a [Chain] with
      the children [mu] and [sigma].  [NLeaf]: any other link without children. *)
  Inductive node :=
  | NLinear (in_size : option nat) (out_size : nat) (nobias : bool) (w : P)
  | NNoisy (out_size : nat) (nobias : bool) (mu sigma : id)
  | NChain (kids : list (string * id))
  | NList (kids : list id)
  | NSeq (kids : list id) (layers : list (F + id))
  | NPolicy (kids : list id) (attrs : list id)
  | NLeaf.
  Definition heap := list node.
  (** The initial parameters of a link created as the [n]-th object. *)
  Variable fresh : nat -> P.

  Definition kids_of (n : node) : list id :=
    match n with
    | NLinear _ _ _ _ | NLeaf => []
    | NNoisy _ _ mu sigma => [mu; sigma]
    | NChain kids => map snd kids
    | NList kids | NSeq kids _ | NPolicy kids _ => kids
    end.
  Definition is_id (i : id) (l : F + id) : bool := match l with inl _ => false | inr j => Nat.eqb i j end.
  (** noisy_chain.py:61-64. *)
  Definition replace_unique_item (old new : id) (layers : list (F + id)) : res (list (F + id)) :=
    assert! Nat.eqb (List.length (filter (is_id old) layers)) 1 in
    Ok (map (fun l => if is_id old l then inr new else l) layers).
  (** noisy_chain.py:37-40 (a [Chain]: [delattr], [setattr]) and 47-58 (a [ChainList]). *)
  Definition set_kid (n : node) (k : nat) (old new : id) : res node :=
    match n with
    | NLinear _ _ _ _ | NLeaf => Raise IndexError
    | NNoisy o b mu sigma => Ok (match k with 0 => NNoisy o b new sigma | _ => NNoisy o b mu new end)
    | NChain kids => Ok (NChain (combine (map fst kids) (upd (map snd kids) k new)))
    | NList kids => Ok (NList (upd kids k new))
    | NSeq kids layers => let! layers := replace_unique_item old new layers in Ok (NSeq (upd kids k new) layers)
    | NPolicy kids attrs => Ok (NPolicy (upd kids k new) attrs)
    end.
  (** noisy_linear.py:22-44 [FactorizedNoisyLinear.__init__]: two new linear links of the
      same sizes, freshly initialised, and the new link. *)
  Definition make_noisy (h : heap) (in_size : option nat) (out_size : nat) (nobias : bool) : heap * id :=
    let mu := List.length h in
    (h ++ [NLinear in_size out_size nobias (fresh mu); NLinear in_size out_size nobias (fresh (S mu)); NNoisy out_size nobias mu (S mu)], S (S mu)).
  (** noisy_chain.py:29-58 [_map_links] with noisy_chain.py:20-24 inlined: the loop over the
      children of object [i], from position [k].  The children of a [Chain] are a set of
      names; here they are visited in the order of the list. *)
  Fixpoint kid_loop (rec : heap -> id -> res heap) (n k : nat) (i : id) (h : heap) : res heap :=
    match n with
    | 0 => Ok h
    | S n =>
      match nth_error h i with
      | None => Raise KeyError
      | Some nd =>
        match nth_error (kids_of nd) k with
        | None => Raise IndexError
        | Some c =>
          match nth_error h c with
          | None => Raise KeyError
          | Some (NLinear in_size out_size nobias _) =>
            let (h1, c') := make_noisy h in_size out_size nobias in
            let! nd' := set_kid nd k c c' in
            kid_loop rec n (S k) i (upd h1 i nd')
          | Some _ => let! h1 := rec h c in kid_loop rec n (S k) i h1
          end
        end
      end
    end.
  Fixpoint map_links (fuel : nat) (h : heap) (i : id) : res heap :=
    match fuel with
    | 0 => Raise RecursionError
    | S fuel =>
      match nth_error h i with
      | None => Raise KeyError
      | Some nd => kid_loop (map_links fuel) (List.length (kids_of nd)) 0 i h
      end
    end.
  (** noisy_chain.py:14-26. *)
  Definition to_factorized_noisy : nat -> heap -> id -> res heap := map_links.

  (** noisy_linear.py:64-83: the parameters a forward pass of the link reads,
      [self.mu.W] and [self.sigma.W]. *)
  Definition noisy_params (h : heap) (i : id) : res (P * P) :=
    match nth_error h i with
    | Some (NNoisy _ _ mu sigma) =>
      match nth_error h mu, nth_error h sigma with
      | Some (NLinear _ _ _ w), Some (NLinear _ _ _ w') => Ok (w, w')
      | _, _ => Raise AttributeError
      end
    | _ => Raise TypeError
    end.
End Convert.
Arguments NLinear {P F} _ _ _ _. Arguments NNoisy {P F} _ _ _ _. Arguments NChain {P F} _. Arguments NList {P F} _.
Arguments NSeq {P F} _ _. Arguments NPolicy {P F} _ _. Arguments NLeaf {P F}.

(** ** The noisy layer itself, noisy_linear.py:54-83, in real arithmetic. *)
Local Open Scope R_scope.
(** noisy_linear.py:54-58: [copysign(sqrt(abs(r)), r)]; the sign of a zero does not matter. *)
Definition noise_function (r : R) : R := if Rlt_dec r 0 then - sqrt (Rabs r) else sqrt (Rabs r).
(** [F.linear]: one input row; [b] is [None] without bias. *)
Definition linear (n_in : nat) (W : matrix) (b : option (nat -> R)) (x : nat -> R) (i : nat) : R :=
  sum_below n_in (fun j => W i j * x j) + match b with Some b => b i | None => 0 end.
Record lin_params := mk_lin { lp_W : matrix; lp_b : option (nat -> R) }.
(** noisy_linear.py:70-83; [r] are the [n_in + n_out] standard normal draws. *)
Definition noisy_forward (n_in : nat) (mu sigma : lin_params) (r : nat -> R) (x : nat -> R) (i : nat) : R :=
  let eps k := noise_function (r k) in
  let eps_x j := eps j in
  let eps_y i := eps (n_in + i)%nat in
  let W i j := lp_W sigma i j * (eps_y i * eps_x j) + lp_W mu i j in
  let b := match lp_b mu, lp_b sigma with Some bm, Some bs => Some (fun i => bs i * eps_y i + bm i) | _, _ => None end in
  linear n_in W b x i.
(** initializers/constant.py:12-21 for a weight matrix of shape (out, in) and for a bias of
    shape (out,). *)
Definition scaling_weight (scale : R) (n_out n_in : nat) : matrix := fun _ _ => scale / sqrt (INR n_in).
Definition scaling_bias (scale : R) (n_out : nat) : nat -> R := fun _ => scale / sqrt (INR n_out).
