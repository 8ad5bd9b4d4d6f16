(** Resuming a training from [step_offset]: train_agent.py:36-37 and
    train_agent_batch.py:52-53 set the attribute [t] of the agent, and nothing
    else, before the first step. *)
From Coq Require Import QArith.
From Verif Require Import Base.PyBase Model.Returns.
Set Implicit Arguments.
Local Open Scope nat_scope.

Section A2C.
  Context {Obs A : Type}.
  Variable value : nat -> Obs -> Q.
  Variables (use_gae : bool) (gamma tau : Q) (n : nat).

  (** a2c.py:85-132: a new A2C has no arrays; [_flush_storage] (134-156) makes
      them.  Only [t] can have been changed before that. *)
  Inductive a2c_state := Fresh (t : nat) | Running (s : a2c Obs A).

  (** a2c.py:219-230 with the rest of [batch_act_and_train] in [a2c_act]: the
      arrays are made when [t == 0]; without them the next line raises. *)
  Definition a2c_act_and_train (st : a2c_state) (obs : Obs) (action : A) : res (list (a2c_batch (Obs:=Obs) (A:=A)) * a2c Obs A) :=
    let! s := match st with
              | Fresh t => if t =? 0 then Ok (a2c_init n) else Raise AttributeError
              | Running s =>
                  if a_t s =? 0
                  then Ok (mk_a2c 0 (a_start s) (repeat None (n + 1)) (repeat None n) (repeat 0%Q n) (repeat 0%Q (n + 1)) (repeat 1%Q n) (a_updates s))
                  else Ok s
              end in
    a2c_act value use_gae gamma tau n s obs action.

  (** Rounds of act and observe, as in train_agent_batch. *)
  Fixpoint a2c_rounds (st : a2c_state) (xs : list (a2c_round (Obs:=Obs) (A:=A))) : res (list (a2c_batch (Obs:=Obs) (A:=A)) * a2c_state) :=
    match xs with
    | [] => Ok ([], st)
    | (obs, act, (obs', r, done, reset)) :: xs =>
      let! u := a2c_act_and_train st obs act in
      let! u' := a2c_observe value use_gae gamma tau n (snd u) obs' r done reset in
      let! w := a2c_rounds (Running (snd u')) xs in
      Ok (fst u ++ fst u' ++ fst w, snd w)
    end.
End A2C.

(** A new A3C or NSQ agent after [agent.t = offset] (a3c.py:133-139,
    nsq.py:64-72: [t_start] stays 0). *)
Definition nagent_resumed {Obs A : Type} (offset : nat) : nagent Obs A := mk_nagent offset 0 [] [] 0.
