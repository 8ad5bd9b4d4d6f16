(** Which sources a seed determines. *)
From Verif Require Import Base.PyBase Model.RandomSeed.

(** The CPU's sources, and the given GPUs. *)
Definition covered (gpus : list Z) (s : source) : Prop :=
  match s with SPython | SNumpy => True | SCupy d => (0 <= d)%Z /\ In d gpus end.
Definition valid_seed (seed : Z) : Prop := (0 <= seed < 2 ^ 32)%Z.
Definition valid_gpus (n_gpus : Z) (gpus : list Z) : Prop := forall g, In g gpus -> (g < n_gpus)%Z.

(** A generator for examples: it counts. *)
Definition count_seeded (seed : Z) : Z := seed.
Definition count_draw (g : Z) (_ : unit) : Z * Z := (g, (g + 1)%Z).
