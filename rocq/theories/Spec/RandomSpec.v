(** Specification vocabulary for random draws. *)
From Verif Require Import Base.PyBase Model.Random.

(** "k pairwise different elements of range(n)". *)
Definition distinct_in_range (n k : Z) (l : list Z) : Prop :=
  Z.of_nat (length l) = k /\ NoDup l /\ forall x, In x l -> (0 <= x < n)%Z.

(** What numpy guarantees about the values it returns for these arguments. *)
Definition rng_ok (n k : Z) (r : rng) : Prop :=
  distinct_in_range n k (norep r) /\
  Z.of_nat (length (block r 0)) = (2 * k)%Z /\
  (forall b, (0 < b)%nat -> Z.of_nat (length (block r b)) = k) /\
  (forall b x, In x (block r b) -> (0 <= x < n)%Z).

(** A generator that keeps producing every value of range(n) (holds with
    probability one). *)
Definition rng_fair (n : Z) (r : rng) : Prop :=
  forall v b, (0 <= v < n)%Z -> exists b', b <= b' /\ In v (block r b').
