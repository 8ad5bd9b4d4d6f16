(** What an off-policy agent must store for an interaction, read off the calls
    and their results alone. *)
From Verif Require Import Base.PyBase Model.ReplayBuffer Model.OffPolicyAgent.
Set Implicit Arguments.

Section S.
  Context {Obs Act Rew : Type}.
  Notation rbop := (rb_op (transition Obs Act Rew)).
  Notation call := (op Obs Rew * out Act)%type.

  Definition single_op (o : op Obs Rew) : bool :=
    match o with OAct _ _ | OStop _ _ _ | OStopEp => true | _ => false end.

  (** The transition between two successive calls: an action was chosen in [s],
      and the next call tells where it led. *)
  Definition step_between (k : kind) (prev : option call) (cur : call) : list rbop :=
    match prev, cur with
    | Some (OAct s _, RAct a), (OAct s' r, RAct a') =>
      [RAppend 0 (mk_tr s a r s' (match k with KDQN => None | _ => Some a' end) false) false]
    | Some (OAct s _, RAct a), (OStop s' r done, _) =>
      [RAppend 0 (mk_tr s a r s' (Some a) done) done; RStop 0]
    | _, (OStopEp, _) => [RStop 0]
    | _, _ => []
    end.

  (** DQN's stop_episode belongs to evaluation and does not touch training. *)
  Definition training_call (k : kind) (c : call) : bool :=
    match k, fst c with KDQN, OStopEp => false | _, _ => true end.

  Fixpoint stored_from (k : kind) (prev : option call) (h : list call) : list rbop :=
    match h with
    | [] => []
    | c :: t => step_between k prev c ++ stored_from k (Some c) t
    end.
  Definition stored (k : kind) (h : list call) : list rbop := stored_from k None (filter (training_call k) h).

  (** Batch mode: one round = observations, chosen actions, consequences. *)
  Definition round := (list Obs * list Act * list (row Obs Rew))%type.
  Fixpoint round_ops (i : nat) (os : list Obs) (acts : list Act) (xs : list (row Obs Rew)) : list rbop :=
    match os, acts, xs with
    | s :: os, a :: acts, (s', r, done, reset) :: xs =>
      RAppend i (mk_tr s a r s' None done) done
        :: (if done || reset then [RStop i] else []) ++ round_ops (S i) os acts xs
    | _, _, _ => []
    end.
  Definition stored_rounds (rs : list round) : list rbop :=
    flat_map (fun '(os, acts, xs) => round_ops 0 os acts xs) rs.

  Definition calls_of_rounds (rs : list round) : list call :=
    flat_map (fun '(os, acts, xs) => [(OBAct os, RActs acts); (OBObs xs, RNone)]) rs.

  (** The calls that reached the replay buffer. *)
  Definition buffer_op (e : ev Obs Act Rew) : list rbop :=
    match e with
    | EAppend i x => [RAppend i x (x_terminal x)]
    | EEnd i => [RStop i]
    | _ => []
    end.
  Definition buffer_ops (h : list (ev Obs Act Rew)) : list rbop := flat_map buffer_op h.

  (** The clock: target synchronisations and calls of the updater. *)
  Inductive clk := CSync | CUpdate (t : nat).
  Definition clock_ev (e : ev Obs Act Rew) : list clk :=
    match e with ESync => [CSync] | EUpdate t => [CUpdate t] | _ => [] end.
  Definition clock (h : list (ev Obs Act Rew)) : list clk := flat_map clock_ev h.

  Definition acts (ops : list (op Obs Rew)) : nat :=
    length (filter (fun o => match o with OAct _ _ => true | _ => false end) ops).

  (** One step of the clock: step [t] synchronises iff [t] is a multiple of the
      interval (TD3 and SAC synchronise in their updates instead). *)
  Definition tick (k : kind) (interval t : nat) : list clk :=
    match k with
    | KTD3 => []
    | _ => if t mod interval =? 0 then [CSync] else []
    end ++ [CUpdate t].

  (** A stop is called only when an action has been chosen since the last one. *)
  Fixpoint well_formed (k : kind) (open : bool) (ops : list (op Obs Rew)) : bool :=
    match ops with
    | [] => true
    | OAct _ _ :: t => well_formed k true t
    | OStop _ _ _ :: t => open && well_formed k false t
    | OStopEp :: t => well_formed k (match k with KDQN => open | _ => false end) t
    | _ :: _ => false
    end.
End S.
