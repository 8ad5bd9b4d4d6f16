(** Model of chainerrl/misc/random_seed.py (set_random_seed), of the seeding in chainerrl/misc/async_.py:163-186 (run_async)
    and chainerrl/experiments/train_agent_async.py:200-201, and of programs that draw from the global random sources. *)
From Verif Require Import Base.PyBase.
Set Implicit Arguments.

(** The global random sources: the module random, numpy.random, cupy.random of a device. *)
Inductive source := SPython | SNumpy | SCupy (device : Z).

Section Seeding.
  (** A generator: its states, the state for a seed, and a draw (of any kind, named by a request). *)
  Variables (G V Rq : Type).
  Variable seeded : Z -> G.
  Variable draw : G -> Rq -> V * G.
  (** Number of GPUs of the machine. *)
  Variable n_gpus : Z.

  (** The sources and the variable CHAINER_SEED of the environment, of one process. *)
  Record world := mk_world { w_python : G; w_numpy : G; w_cupy : Z -> G; w_env : option Z }.
  Definition state_of (w : world) (s : source) : G :=
    match s with SPython => w_python w | SNumpy => w_numpy w | SCupy d => w_cupy w d end.
  Definition set_state (w : world) (s : source) (g : G) : world :=
    match s with
    | SPython => mk_world g (w_numpy w) (w_cupy w) (w_env w)
    | SNumpy => mk_world (w_python w) g (w_cupy w) (w_env w)
    | SCupy d => mk_world (w_python w) (w_numpy w) (fun d' => if (d' =? d)%Z then g else w_cupy w d') (w_env w)
    end.

  (** random_seed.py:27-31: negative devices are skipped; [get_device_from_id] and the use of a device that does not exist raise
      (a CUDARuntimeError, a RuntimeError). *)
  Fixpoint seed_gpus (w : world) (seed : Z) (gpus : list Z) : world * option exc :=
    match gpus with
    | [] => (w, None)
    | g :: t =>
        if (0 <=? g)%Z
        then if (g <? n_gpus)%Z then seed_gpus (set_state w (SCupy g) (seeded seed)) seed t else (w, Some RuntimeError)
        else seed_gpus w seed t
    end.
  (** random_seed.py:8-33.  Returns the world also when it raises: [random.seed] takes any integer, [np.random.seed] only those in
      [0, 2^32). *)
  Definition set_random_seed (w : world) (seed : Z) (gpus : list Z) : world * option exc :=
    let w := set_state w SPython (seeded seed) in
    if ((0 <=? seed) && (seed <? 2 ^ 32))%Z then
      let w := set_state w SNumpy (seeded seed) in
      match seed_gpus w seed gpus with
      | (w, Some e) => (w, Some e)
      | (w, None) => (mk_world (w_python w) (w_numpy w) (w_cupy w) (Some seed), None)
      end
    else (w, Some ValueError).

  (** Programs: what they do next depends on what they have drawn.  Everything else that they use (an environment with its own generator,
      files) is part of the program. *)
  Inductive prog (A : Type) : Type :=
  | Done (a : A)
  | Draw (s : source) (r : Rq) (k : V -> prog A)
  | Environ (k : option Z -> prog A).
  Arguments Done {A}. Arguments Draw {A}. Arguments Environ {A}.
  Fixpoint exec {A} (p : prog A) (w : world) : A * world :=
    match p with
    | Done a => (a, w)
    | Draw s r k => let (v, g) := draw (state_of w s) r in exec (k v) (set_state w s g)
    | Environ k => exec (k (w_env w)) w
    end.
  (** The program draws from these sources only. *)
  Inductive draws_from {A} (ok : source -> Prop) : prog A -> Prop :=
  | FDone a : draws_from ok (Done a)
  | FDraw s r k : ok s -> (forall v, draws_from ok (k v)) -> draws_from ok (Draw s r k)
  | FEnviron k : (forall o, draws_from ok (k o)) -> draws_from ok (Environ k).

  (** async_.py:173-178: what process [i] of [run_async] starts with.  A child is a fork of the parent, so it has a copy of all
      sources; its seed is drawn from numpy.random, with [to_seed] reading it. *)
  Definition run_async_world (to_seed : V -> Z) (r : Rq) (parent : world) : world :=
    let (v, g) := draw (w_numpy parent) r in fst (set_random_seed (set_state parent SNumpy g) (to_seed v) []).
  (** train_agent_async.py:200-201: the run function sets the index of the process as seed. *)
  Definition train_async_world (to_seed : V -> Z) (r : Rq) (parent : world) (process_idx : Z) : world :=
    fst (set_random_seed (run_async_world to_seed r parent) process_idx []).
End Seeding.
Arguments Done {V Rq A}. Arguments Draw {V Rq A}. Arguments Environ {V Rq A}.
