(** Model of chainerrl/misc/random.py (sample_n_k). *)
From Verif Require Import Base.PyBase.
Set Implicit Arguments.

(** The random generator.  [norep] is what [np.random.choice(n, k,
    replace=False)] returns; [block 0] what the first [np.random.choice(n, 2*k)]
    returns; [block (b+1)] what the b-th refill [np.random.choice(n, k)]
    returns. *)
Record rng := mk_rng { norep : list Z; block : nat -> list Z }.

(** random.py:20-27 — the inner [while x in selected] loop of iteration [i].
    State: [x], the array [result], the read position [j], and the number [b] of
    blocks consumed.  The Python [set] is a list here (only membership is used). *)
Fixpoint redraw (fuel k : nat) (blocks : nat -> list Z) (i : nat)
         (selected : list Z) (x : Z) (result : list Z) (j b : nat)
  : res (Z * list Z * nat * nat) :=
  if in_dec Z.eq_dec x selected then
    match fuel with
    | O => Raise OutOfFuel
    | S fuel =>
      match nth_error result j with
      | None => Raise IndexError
      | Some y =>
        let result := upd result i y in
        let j := S j in
        if j =? 2 * k
        then redraw fuel k blocks i selected y (firstn k result ++ blocks b) k (S b)
        else redraw fuel k blocks i selected y result j b
      end
    end
  else Ok (x, result, j, b).

(** random.py:18-27 — the outer [for i in range(k)] loop; [todo] counts the
    remaining iterations, [i] is the loop variable. *)
Fixpoint dedup_loop (fuel k : nat) (blocks : nat -> list Z) (todo i : nat)
         (selected : list Z) (result : list Z) (j b : nat) : res (list Z) :=
  match todo with
  | O => Ok result
  | S todo =>
    match nth_error result i with
    | None => Raise IndexError
    | Some x =>
      let! (x, result, j, b) := redraw fuel k blocks i selected x result j b in
      dedup_loop fuel k blocks todo (S i) (x :: selected) result j b
    end
  end.

(** random.py:4-28 [sample_n_k]. [n] and [k] are Python ints. *)
Definition sample_n_k (fuel : nat) (r : rng) (n k : Z) : res (list Z) :=
  if (0 <=? k)%Z && (k <=? n)%Z then
    if (k =? 0)%Z then Ok []
    else if (n <=? 3 * k)%Z then Ok (norep r)
    else
      let k := Z.to_nat k in
      let! result := dedup_loop fuel k (block r) k 0 [] (block r 0) k 1 in
      Ok (firstn k result)
  else Raise ValueError.
