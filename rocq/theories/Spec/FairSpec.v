(** All draws of the random generator that [sample_n_k] can get, each of them once: counting them is what equal probabilities
    mean. *)
From Coq Require Import Reals ZArith List Bool.
From Verif Require Import Base.PyBase Model.Random Model.ReplayBuffer Model.EpisodicReplayBuffer Spec.SumSpec Spec.RandomSpec.
Import ListNotations.
Local Open Scope nat_scope.

Definition zrange (n : nat) : list Z := map Z.of_nat (seq 0 n).
(** All sequences of [L] elements of range(n). *)
Fixpoint all_seqs (n L : nat) : list (list Z) :=
  match L with O => [[]] | S L => flat_map (fun x => map (cons x) (all_seqs n L)) (zrange n) end.
Fixpoint no_dup (l : list Z) : bool := match l with [] => true | x :: l => (if in_dec Z.eq_dec x l then false else true) && no_dup l end.
(** A generator that yields [a] if it is asked for different elements and the independent draws [l] otherwise: 2 k of them and
    [B] times k more.  (It then repeats itself; a run needs at most [fuel] refills.) *)
Definition stream (k B : nat) (a l : list Z) : rng :=
  mk_rng a (fun b => match b with O => firstn (2 * k) l | S b => if b <? B then firstn k (skipn ((2 + b) * k) l) else firstn k l end).
(** np.random.choice(n, k, replace=False) gives each sequence of different elements, np.random.choice(n, m) each sequence, with the same
    probability. *)
Definition ensemble (n k B : nat) : list rng :=
  flat_map (fun a => map (stream k B a) (all_seqs n ((2 + B) * k))) (filter no_dup (all_seqs n k)).

Section Counts.
  Variables fuel n k B : nat.
  Definition drawn (r : rng) : res (list Z) := sample_n_k fuel r (Z.of_nat n) (Z.of_nat k).
  (** The number of draws for which the result is [l], or there is a result. *)
  Definition ways (l : list Z) : nat :=
    length (filter (fun r => match drawn r with Ok l' => if list_eq_dec Z.eq_dec l' l then true else false | Raise _ => false end) (ensemble n k B)).
  Definition results : nat := length (filter (fun r => match drawn r with Ok _ => true | Raise _ => false end) (ensemble n k B)).
  (** The sum over these draws of the sum of [f] over the drawn indices. *)
  Definition sum_drawn (f : Z -> R) : R := total_of (fun r => match drawn r with Ok l => total_of f l | Raise _ => 0%R end) (ensemble n k B).
End Counts.
(** The same for the entries of a replay buffer. *)
Definition sum_sampled {T : Type} (fuel B : nat) (b : rb T) (k : nat) (f : list T -> R) : R :=
  total_of (fun r => match rb_sample fuel r b k with Ok ws => total_of f ws | Raise _ => 0%R end) (ensemble (rb_len b) k B).
(** The same for the transitions and the episodes of an episodic replay buffer. *)
Definition sum_transitions {T : Type} (fuel B : nat) (b : erb T) (k : nat) (f : entry T -> R) : R :=
  total_of (fun r => match erb_sample fuel r b k with Ok ws => total_of f ws | Raise _ => 0%R end) (ensemble (erb_len b) k B).
Definition sum_episodes {T : Type} (fuel B : nat) (b : erb T) (k : nat) (f : list T -> R) : R :=
  total_of (fun r => match erb_sample_episodes fuel r (fun _ => O) b k None with Ok ws => total_of f ws | Raise _ => 0%R end)
    (ensemble (erb_n_episodes b) k B).
(** The number of the equally likely starts with which a subsequence of [m] elements of an episode of [L] transitions has transition number [t]. *)
Definition starts_with (L m t : nat) : nat :=
  length (filter (fun i => if in_dec Nat.eq_dec t (random_subseq (seq 0 L) m i) then true else false) (seq 0 (L - m + 1))).
