(** Model of the minibatch loops of PPO and TRPO's value function over a dataset:
    chainerrl/agents/ppo.py:427-476 ([PPO._update]) and chainerrl/agents/trpo.py:363-386
    ([TRPO._update_vf]).  The loops run over chainer's [SerialIterator] (repeating and
    shuffling, its defaults), which is not part of /repo and is modelled after its
    documented behaviour: slices of a random order, drawing a new order and bumping
    [epoch] when the end is reached.  The random orders are an oracle. *)
From Coq Require Import List Arith.
From Verif Require Import Base.PyBase.
Import ListNotations.

Section Passes.
  (** The [k]-th order drawn. *)
  Variable shuffle : nat -> list nat.

  (** [current_position], [epoch]; the current order is [shuffle epoch]. *)
  Record iter := mk_iter { it_pos : nat; it_epoch : nat }.
  Definition iter0 : iter := mk_iter 0 0.
  (** [__next__] for a dataset of [n] items and batches of [b]; Python slices clip. *)
  Definition iter_next (n b : nat) (it : iter) : list nat * iter :=
    let order := shuffle (it_epoch it) in
    let i_end := it_pos it + b in
    let batch := firstn b (skipn (it_pos it) order) in
    if n <=? i_end then
      let rest := i_end - n in
      (batch ++ firstn rest (shuffle (S (it_epoch it))), mk_iter rest (S (it_epoch it)))
    else (batch, mk_iter i_end (it_epoch it)).

  (** ppo.py:446-447 / trpo.py:377-378: [while dataset_iter.epoch < epochs].  The list of
      minibatches, one optimizer update each; [None] when the fuel does not suffice. *)
  Fixpoint passes (fuel n b epochs : nat) (it : iter) : option (list (list nat)) :=
    if it_epoch it <? epochs then
      match fuel with
      | 0 => None
      | S fuel =>
        let (batch, it') := iter_next n b it in
        option_map (cons batch) (passes fuel n b epochs it')
      end
    else Some [].

  (** One [_update]: the samples themselves.  [dataset[0]] raises on an empty dataset. *)
  Definition update_batches {X : Type} (fuel b epochs : nat) (dataset : list X) : res (list (list X)) :=
    match dataset with
    | [] => Raise IndexError
    | d :: _ =>
      match passes fuel (length dataset) b epochs iter0 with
      | Some bs => Ok (map (map (fun i => nth i dataset d)) bs)
      | None => Raise OutOfFuel
      end
    end.
End Passes.
