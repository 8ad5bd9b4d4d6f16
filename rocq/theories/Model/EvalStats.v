(** Model of eval_performance's statistics and of the rows of scores.txt (chainerrl/experiments/evaluator.py).  Scores are real numbers; the functions of Python's
    module statistics and of numpy are modelled by their documented results. *)
From Coq Require Import Reals List String.
From Verif Require Import Base.PyBase Model.Distributions.
Import ListNotations.
Local Open Scope R_scope.

(** [sorted]. *)
Fixpoint insert (x : R) (l : list R) : list R := match l with [] => [x] | y :: l' => if Rle_dec x y then x :: l else y :: insert x l' end.
Fixpoint sort (l : list R) : list R := match l with [] => [] | x :: l => insert x (sort l) end.

(** [statistics.mean], [statistics.median] and [statistics.stdev]; the first two raise StatisticsError (here ValueError, its base class) without data. *)
Definition st_mean (xs : list R) : res R := match xs with [] => Raise ValueError | _ => Ok (fsum xs / INR (List.length xs)) end.
Definition st_median (xs : list R) : res R :=
  let data := sort xs in let n := List.length xs in
  if Nat.eqb n 0 then Raise ValueError
  else if Nat.eqb (n mod 2) 1 then Ok (nth (n / 2) data 0)
  else Ok ((nth (n / 2 - 1) data 0 + nth (n / 2) data 0) / 2).
Definition st_stdev (xs : list R) : res R :=
  if Nat.ltb (List.length xs) 2 then Raise ValueError
  else let m := fsum xs / INR (List.length xs) in Ok (sqrt (fsum (map (fun x => (x - m) * (x - m)) xs) / (INR (List.length xs) - 1))).
(** [np.max] and [np.min]. *)
Definition np_max (xs : list R) : res R := match xs with [] => Raise ValueError | x :: xs => Ok (fold_left Rmax xs x) end.
Definition np_min (xs : list R) : res R := match xs with [] => Raise ValueError | x :: xs => Ok (fold_left Rmin xs x) end.

(** evaluator.py:248-255. *)
Record stats := mk_stats { s_episodes : nat; s_mean : R; s_median : R; s_stdev : R; s_max : R; s_min : R }.
Definition eval_stats (scores : list R) : res stats :=
  let! mean := st_mean scores in
  let! median := st_median scores in
  let! stdev := (if Nat.leb 2 (List.length scores) then st_stdev scores else Ok 0) in
  let! mx := np_max scores in
  let! mn := np_min scores in
  Ok (mk_stats (List.length scores) mean median stdev mx mn).

(** evaluator.py:23-24 [_basic_columns], 318-321: the header, with the agent's statistics at the start. *)
Definition basic_columns : list string := ["steps"; "episodes"; "elapsed"; "mean"; "median"; "stdev"; "max"; "min"]%string.
Definition header (statistics : list (string * R)) : list string := basic_columns ++ map fst statistics.
(** evaluator.py:328-338: the row of one evaluation, with the agent's statistics after it. *)
Definition row (t episodes elapsed : R) (s : stats) (statistics : list (string * R)) : list R :=
  [t; episodes; elapsed; s_mean s; s_median s; s_stdev s; s_max s; s_min s] ++ map snd statistics.
