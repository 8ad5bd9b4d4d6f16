(** Model of chainerrl/experiments/train_agent.py lines 24-88 (train_agent). *)
From Verif Require Import Base.PyBase Base.Effects.
Set Implicit Arguments.

(** The suffixes of saved agents. *)
Inductive save_kind := SCheckpoint | SExcept | SFinish.

Section TA.
  Context {Obs Act Rw : Type}.
  Variable rzero : Rw.

  (** Everything train_agent does to the outside, with arguments and answers.
      Logging, [agent.get_statistics] and the assignment [agent.t = step_offset]
      are left out. *)
  Inductive ev :=
  | EReset (o : Obs)                                   (* env.reset() *)
  | EAct (o : Obs) (r : Rw) (a : Act)                  (* agent.act_and_train(obs, r) *)
  | EStep (a : Act) (o : Obs) (r : Rw) (done needs : bool) (* env.step(action); needs = info.get('needs_reset', False) *)
  | EHook (k : nat) (t : Z)                            (* k-th step hook *)
  | EStop (o : Obs) (r : Rw) (done : bool)             (* agent.stop_episode_and_train *)
  | EEval (t : Z) (episodes : nat) (success : bool)    (* evaluate_if_necessary; success = the successful_score test *)
  | ESave (s : save_kind) (t : Z).                     (* save_agent *)

  Record world := mk_world {
    w_reset : list ev -> res Obs;
    w_act : list ev -> res Act;
    w_step : list ev -> res (Obs * Rw * bool * bool);
    w_hook : list ev -> res unit;
    w_stop : list ev -> res unit;
    w_eval : list ev -> res bool;
    w_save : list ev -> res unit }.

  Record config := mk_config {
    c_steps : Z; c_offset : Z; c_freq : option Z; c_maxlen : option Z; c_hooks : nat; c_eval : bool }.

  Variable w : world.
  Variable c : config.

  Definition e_reset : eff ev Obs := call (w_reset w) EReset.
  Definition e_act o r : eff ev Act := call (w_act w) (EAct o r).
  Definition e_step a : eff ev (Obs * Rw * bool * bool) :=
    call (w_step w) (fun x => let '(o, r, d, n) := x in EStep a o r d n).
  Definition e_stop o r d : eff ev unit := call (w_stop w) (fun _ => EStop o r d).
  Definition e_save s t : eff ev unit := call (w_save w) (fun _ => ESave s t).
  Definition e_eval t k : eff ev bool := call (w_eval w) (EEval t k).

  (** train_agent.py:52-53: the hooks, in order; [k] hooks remain after [i]. *)
  Fixpoint e_hooks (i k : nat) (t : Z) : eff ev unit :=
    match k with
    | O => ret tt
    | S k => call (w_hook w) (fun _ => EHook i t);;; e_hooks (S i) k t
    end.

  Definition eqb_opt (x : Z) (o : option Z) : bool := match o with Some y => (x =? y)%Z | None => false end.

  (** train_agent.py:76-77 *)
  Definition e_checkpoint (t : Z) : eff ev unit :=
    match c_freq c with
    | None => ret tt
    | Some f => if (f =? 0)%Z then ret tt
                else if (t mod f =? 0)%Z then e_save SCheckpoint t else ret tt
    end.

  (** The exception handler needs the value [t] had when the exception was
      raised, so the loop carries it in its result: the state of the loop is
      (t, obs, r, episode_idx, episode_len), the result the final [t].  The loop
      body before [t += 1] (line 47) can only raise with the old [t].  Hence the
      body is split at that line. *)

  (** train_agent.py:49-77: the rest of the body, after [t += 1]; answers [None]
      for [break] and [Some (obs, r, episode_idx, episode_len)] to go on. *)
  Definition body_after (t : Z) (o : Obs) (r : Rw) (done needs : bool) (idx : nat) (len : Z)
    : eff ev (option (Obs * Rw * nat * Z)) :=
    let len := (len + 1)%Z in
    e_hooks 0 (c_hooks c) t;;;
    let reset := eqb_opt len (c_maxlen c) || needs in
    if done || reset || (t =? c_steps c)%Z then
      e_stop o r done;;;
      do success <- (if c_eval c then e_eval t (idx + 1) else ret false);;
      if success then ret None
      else if (t =? c_steps c)%Z then ret None
      else do o <- e_reset;;
           e_checkpoint t;;;
           ret (Some (o, rzero, S idx, 0%Z))
    else e_checkpoint t;;; ret (Some (o, r, idx, len)).

  (** train_agent.py:41-82: the loop and its exception handler. *)
  Definition handler (t : Z) : eff ev unit := e_save SExcept t.

  Fixpoint loop (fuel : nat) (t : Z) (o : Obs) (r : Rw) (idx : nat) (len : Z) : eff ev Z :=
    if (t <? c_steps c)%Z then
      match fuel with
      | O => raise OutOfFuel
      | S fuel =>
        do x <- try_reraise (do a <- e_act o r;; e_step a) (handler t);;
        let '(o, r, done, needs) := x in
        let t := (t + 1)%Z in
        do x <- try_reraise (body_after t o r done needs idx len) (handler t);;
        match x with
        | None => ret t
        | Some (o, r, idx, len) => loop fuel t o r idx len
        end
      end
    else ret t.

  (** train_agent.py:24-88.  The fuel equals the number of remaining steps. *)
  Definition train_agent : eff ev unit :=
    do o <- e_reset;;
    do t <- loop (Z.to_nat (c_steps c - c_offset c)) (c_offset c) o rzero 0 0;;
    e_save SFinish t.
End TA.
