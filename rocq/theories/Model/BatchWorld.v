(** Model of experiments/train_agent_batch.py lines 136-225
    (train_agent_batch_with_evaluation): train_agent_batch on a vector env, with
    evaluations on the same env or on another one, and envs/serial_vector_env.py
    as such a vector env. *)
From Coq Require Import QArith.
From Verif Require Import Base.PyBase Base.Effects Model.GymEnv Model.VectorEnv Model.TrainAgent Model.TrainAgentBatch.
Set Implicit Arguments.
Local Open Scope nat_scope.

Section W.
  Context {A O X : Type}.
  Notation bev := (@bev O A Q).
  Variable V : venv A O X.
  Variable v0 : vst V.
  (** True: [eval_env] was not given, so the evaluations use [env]
      (train_agent_batch.py:189-190). *)
  Variable shared : bool.
  (** What an evaluation at step [t] calls on its env
      (evaluator.py:87-215, see Model/Evaluator.v). *)
  Variable eval_calls : Z -> list (vop A).

  (** The calls the training env receives.  An evaluation takes place when
      evaluate_if_necessary returns a score. *)
  Definition env_call (e : bev) : list (vop A) :=
    match e with
    | BReset m _ => [VReset m]
    | BStep acts _ => [VStep acts]
    | BEval t _ (Some _) _ => if shared then eval_calls t else []
    | _ => []
    end.
  Definition env_state (tr : list bev) : res (vst V) :=
    let! (v, _) := vrun V v0 (flat_map env_call tr) in Ok v.

  (** The arguments of the next reset and step: a function of what happened
      (train_agent_batch.py:48, 58-60, 75-76, 122). *)
  Definition next_mask (tr : list bev) : option (list bool) :=
    fold_left (fun m e => match e with BObserve _ _ dones resets => Some (map negb (map2 orb resets dones)) | _ => m end) tr None.
  Definition next_acts (tr : list bev) : list A :=
    fold_left (fun m e => match e with BAct _ acts => acts | _ => m end) tr [].

  Definition env_answer (s : sout O X) : @answer O Q := (so_obs s, so_rew s, so_done s, needs_reset (so_info s)).
  Definition env_reset (tr : list bev) : res (list O) :=
    let! v := env_state tr in
    let! (_, obss) := v_reset V v (next_mask tr) in Ok obss.
  Definition env_step_answer (tr : list bev) : res (list (@answer O Q)) :=
    let! v := env_state tr in
    let! (_, ss) := v_step V v (next_acts tr) in Ok (map env_answer ss).

  (** The env answers as above; the agent, the hooks, the scores of evaluations
      and the files are arbitrary. *)
  Definition env_world (act : list bev -> res (list A)) (observe hook : list bev -> res unit)
      (eval : list bev -> res (option Q * Q)) (save close : list bev -> res unit) : @bworld O A Q :=
    mk_bworld env_reset act env_step_answer observe hook eval save close.
End W.

(** SerialVectorEnv with [n] envs as a vector env.  Its observations are
    [option]s because [last_obs] starts with None.  Simplification: a wrong number
    of actions or mask entries raises here; in the code [zip] drops the rest and
    numpy raises in train_agent_batch ([episode_r += rs]). *)
Section S.
  Context {A O X : Type}.
  Variable E : env A O X.
  Variable n : nat.
  Definition has_n (s : sstate E) (k : nat) : bool := (length (fst s) =? n) && (length (snd s) =? n) && (k =? n).
  Definition serial_step (s : sstate E) (acts : list A) : res (sstate E * list (sout (option O) X)) :=
    if negb (has_n s (length acts)) then Raise ValueError else
    let! (s, a) := ser_call E (fun e (_ : option Z) => Ok (e, tt)) s (KStep acts) in
    match a with
    | AStep ss => Ok (s, map (fun x => mk_sout (Some (so_obs x)) (so_rew x) (so_done x) (so_info x)) ss)
    | _ => Raise TypeError
    end.
  Definition serial_reset (s : sstate E) (mask : option (list bool)) : res (sstate E * list (option O)) :=
    if negb (has_n s (match mask with Some m => length m | None => n end)) then Raise ValueError else
    let! (s, a) := ser_call E (fun e (_ : option Z) => Ok (e, tt)) s (KReset mask) in
    match a with AReset obs => Ok (s, obs) | _ => Raise TypeError end.
  Definition serial_venv : venv A (option O) X := mk_venv n serial_step serial_reset.
End S.
