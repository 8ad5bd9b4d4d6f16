(** The protocol between a training loop, its agent and its environment, as a
    transition system over the observable calls. *)
From Verif Require Import Base.PyBase Model.TrainAgent.
Set Implicit Arguments.

Section P.
  Context {Obs Act Rw : Type}.
  Variable rzero : Rw.
  Notation ev := (@ev Obs Act Rw).
  Variable c : config.

  (** Where a run is: [t] counts the environment steps (from the offset), [len]
      those of the current episode. *)
  Inductive phase :=
  | PInit                                                       (* nothing yet: the environment must be reset *)
  | PAct (o : Obs) (r : Rw) (t len : Z)                         (* the agent must act on exactly o and r *)
  | PStep (a : Act) (t len : Z)                                 (* the environment must be stepped with a *)
  | PSeen (k : nat) (o : Obs) (r : Rw) (done needs : bool) (t len : Z)  (* stepped; k hooks were called *)
  | PClosed (t : Z).                                            (* the agent was told the end of the episode *)

  (** The episode is over after this step. *)
  Definition over (done needs : bool) (t len : Z) : Prop :=
    done = true \/ needs = true \/ c_maxlen c = Some len \/ t = c_steps c.

  Inductive pstep : phase -> ev -> phase -> Prop :=
  | p_first o : pstep PInit (EReset o) (PAct o rzero (c_offset c) 0)
  | p_act o r t len a : (t < c_steps c)%Z -> pstep (PAct o r t len) (EAct o r a) (PStep a t len)
  | p_step a t len o r d n : pstep (PStep a t len) (EStep a o r d n) (PSeen 0 o r d n (t + 1) (len + 1))
  | p_hook k o r d n t len : k < c_hooks c -> pstep (PSeen k o r d n t len) (EHook k t) (PSeen (S k) o r d n t len)
  | p_go_on o r d n t len a : ~ over d n t len -> (t < c_steps c)%Z ->
      pstep (PSeen (c_hooks c) o r d n t len) (EAct o r a) (PStep a t len)
  | p_stop o r d n t len : over d n t len ->
      pstep (PSeen (c_hooks c) o r d n t len) (EStop o r d) (PClosed t)
  | p_reset t o : t <> c_steps c -> pstep (PClosed t) (EReset o) (PAct o rzero t 0).

  Inductive ppath : phase -> list ev -> phase -> Prop :=
  | pp_nil p : ppath p [] p
  | pp_cons p e p' l p'' : pstep p e p' -> ppath p' l p'' -> ppath p (e :: l) p''.

  (** The calls of the protocol (evaluations and saves are treated apart). *)
  Definition is_core (e : ev) : bool := match e with EEval _ _ _ | ESave _ _ => false | _ => true end.
  Definition core (tr : list ev) : list ev := filter is_core tr.

  (** Number of environment steps. *)
  Definition is_step (e : ev) : bool := match e with EStep _ _ _ _ _ => true | _ => false end.
  Definition nsteps (tr : list ev) : Z := Z.of_nat (length (filter is_step tr)).

  (** Final saves. *)
  Definition is_final_save (e : ev) : bool := match e with ESave SFinish _ | ESave SExcept _ => true | _ => false end.
  Definition no_final_save (tr : list ev) : Prop := forall e, In e tr -> is_final_save e = false.

  (** No evaluation was successful. *)
  Definition no_success (tr : list ev) : Prop := forall t k, ~ In (EEval t k true) tr.

  (** The exception was raised by a call to the agent, the environment, a hook,
      the evaluator or the file system. *)
  Definition from_world (w : @world Obs Act Rw) (e : exc) : Prop :=
    exists tr, w_reset w tr = Raise e \/ w_act w tr = Raise e \/ w_step w tr = Raise e \/ w_hook w tr = Raise e \/
      w_stop w tr = Raise e \/ w_eval w tr = Raise e \/ w_save w tr = Raise e.

  (** Steps at which checkpoints were written, in order. *)
  Fixpoint checkpoints (tr : list ev) : list Z :=
    match tr with
    | [] => []
    | ESave SCheckpoint t :: r => t :: checkpoints r
    | _ :: r => checkpoints r
    end.

  (** The multiples of the checkpoint frequency strictly between [t] and [t']. *)
  Definition between (t t' : Z) : list Z := map (fun i => t + 1 + Z.of_nat i)%Z (seq 0 (Z.to_nat (t' - t - 1))).
  Definition due (x : Z) : bool :=
    match c_freq c with None => false | Some f => negb (f =? 0)%Z && (x mod f =? 0)%Z end.
  Definition due_between (t t' : Z) : list Z := filter due (between t t').
End P.
