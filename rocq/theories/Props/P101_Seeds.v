(** C101: what set_random_seed makes reproducible. *)
From Verif Require Import Base.PyBase Model.RandomSeed Spec.SeedSpec Proofs.SeedProofs.

(** After [set_random_seed(seed, gpus)] every program that draws from the CPU's sources and from these GPUs gives the same result and leaves these sources in the
    same states, whatever happened before: two runs with one seed are equal, and so are their continuations. *)
Theorem C101_reproducible : forall G V Rq (seeded : Z -> G) (draw : G -> Rq -> V * G) n_gpus A (p : prog V Rq A) w w' w1 w1' seed gpus,
  set_random_seed seeded n_gpus w seed gpus = (w1, None) -> set_random_seed seeded n_gpus w' seed gpus = (w1', None) -> valid_gpus n_gpus gpus -> draws_from (covered gpus) p ->
  fst (exec draw p w1) = fst (exec draw p w1') /\ forall s, covered gpus s -> state_of (snd (exec draw p w1)) s = state_of (snd (exec draw p w1')) s.
Proof. exact (fun G V Rq => @reproducible G V Rq). Qed.
Print Assumptions C101_reproducible.
(** It succeeds for all seeds in [0, 2^32) and GPUs that exist (negative ones are ignored), sets CHAINER_SEED, and touches no other source; *)
Theorem C101_succeeds : forall G (seeded : Z -> G) n_gpus w seed gpus, valid_seed seed -> valid_gpus n_gpus gpus ->
  exists w', set_random_seed seeded n_gpus w seed gpus = (w', None) /\ w_env w' = Some seed /\
  (forall s, covered gpus s -> state_of w' s = seeded seed) /\ (forall s, ~ covered gpus s -> state_of w' s = state_of w s).
Proof. exact (fun G seeded => @seed_ok G unit unit seeded (fun g _ => (tt, g))). Qed.
Print Assumptions C101_succeeds.
(** for other seeds it raises ValueError, but Python's generator has then been seeded all the same. *)
Theorem C101_raises : forall G (seeded : Z -> G) n_gpus w seed gpus, ~ valid_seed seed ->
  exists w', set_random_seed seeded n_gpus w seed gpus = (w', Some ValueError) /\ state_of w' SPython = seeded seed /\ w_env w' = w_env w /\ forall s, s <> SPython -> state_of w' s = state_of w s.
Proof. exact @seed_bad. Qed.
Print Assumptions C101_raises.
(** Refuted for programs that draw from GPUs that are not listed. *)
Theorem C101_gpus_refuted : exists (p : prog Z unit Z) (w w' : world Z), draws_from (fun s => s = SCupy 1) p /\ snd (set_random_seed count_seeded 2 w 5 [0; -1]%Z) = None /\
  fst (exec count_draw p (fst (set_random_seed count_seeded 2 w 5 [0; -1]%Z))) <> fst (exec count_draw p (fst (set_random_seed count_seeded 2 w' 5 [0; -1]%Z))).
Proof. exact uncovered. Qed.
Print Assumptions C101_gpus_refuted.
(** The workers of asynchronous training start with the sources of their index; GPUs keep the state of the parent. *)
Theorem C101_workers : forall G V Rq (seeded : Z -> G) (draw : G -> Rq -> V * G) n_gpus to_seed r (parent : world G) i, valid_seed i ->
  let w := train_async_world seeded draw n_gpus to_seed r parent i in
  state_of w SPython = seeded i /\ state_of w SNumpy = seeded i /\ w_env w = Some i /\ forall d, state_of w (SCupy d) = state_of parent (SCupy d).
Proof. exact @worker. Qed.
Print Assumptions C101_workers.
(** So they are reproducible, but (refuted: that the user's seed determines a run) what a worker draws does not depend on the seed that the user has set before at all:
    experiments with different seeds explore in the same way. *)
Theorem C101_user_seed_refuted : forall G V Rq (seeded : Z -> G) (draw : G -> Rq -> V * G) n_gpus A (p : prog V Rq A) to_seed r w w' seed seed' gpus gpus' i,
  valid_seed i -> draws_from (covered []) p ->
  fst (exec draw p (train_async_world seeded draw n_gpus to_seed r (fst (set_random_seed seeded n_gpus w seed gpus)) i)) =
  fst (exec draw p (train_async_world seeded draw n_gpus to_seed r (fst (set_random_seed seeded n_gpus w' seed' gpus')) i)).
Proof. exact (fun G V Rq seeded draw n_gpus A p to_seed r w w' seed seed' gpus gpus' i => workers_ignore seeded draw n_gpus A p to_seed r _ _ i). Qed.
Print Assumptions C101_user_seed_refuted.

(** A program that draws from two sources and depends on what it has drawn. *)
Definition ex_prog : prog Z unit (list Z) := Draw SNumpy tt (fun v => if (v =? 7)%Z then Draw (SCupy 1) tt (fun u => Done [v; u]) else Done [v]).
Example C101_example : draws_from (covered [1]%Z) ex_prog /\ valid_gpus 2 [1; -1]%Z /\ valid_seed 7 /\
  fst (exec count_draw ex_prog (fst (set_random_seed count_seeded 2 (mk_world 0 0 (fun _ => 0) None)%Z 7 [1; -1]%Z))) = [7; 7]%Z.
Proof.
  split; [constructor; [exact I|]; intros v; destruct (v =? 7)%Z; repeat constructor; cbn; auto; discriminate|].
  split; [intros g [<-|[<-|[]]]; reflexivity|]. split; [split; [discriminate|reflexivity]|reflexivity].
Qed.
