(** What a user of PPO and TRPO relies on: the log-probabilities and values that an update starts from are those of the actions when they were taken. *)
From Coq Require Import Reals Permutation.
From Verif Require Import Base.PyBase Model.PPORecords.
Set Implicit Arguments.
Local Open Scope nat_scope.

Section Spec.
Context {O A H P N : Type}.

(** The actions taken since the last update, with their log-probabilities and values. *)
Fixpoint since (acc : list (O * A * R * R)) (es : list (event O A H P N)) : list (O * A * R * R) :=
  match es with
  | [] => acc
  | EAct o a l v :: es => since (acc ++ [(o, a, l, v)]) es
  | EUpdate _ _ _ _ :: es => since [] es
  end.
Definition as_act (r : rec O A H) : O * A * R * R := (t_state (r_tr r), t_action (r_tr r), r_logp r, r_v r).

(** Training with one env: act_and_train and stop_episode_and_train. *)
Definition single (cs : list (call O A)) : Prop := Forall (fun c => match c with CAct _ _ _ | CStop _ _ _ => True | _ => False end) cs.

(** Training with a batch of envs: batch_act_and_train and batch_observe_and_train in turns, one entry for each env; an env whose episode goes on is acted upon with the
    observation it returned ([expect]). *)
Fixpoint batch (expect : list (option O)) (acting : bool) (cs : list (call O A)) : Prop :=
  match cs with
  | [] => True
  | CBatchAct oas :: cs => acting = true /\ Forall2 (fun e oa => forall o, e = Some o -> fst oa = o) expect oas /\ batch expect false cs
  | CBatchObserve rows :: cs => acting = false /\ length rows = length expect /\
      batch (map (fun w : row O => let '(o, _, _, ended) := w in if (ended : bool) then None else Some o) rows) true cs
  | _ => False
  end.

(** An episode is stopped only after an action. *)
Fixpoint proper (acting : bool) (cs : list (call O A)) : Prop :=
  match cs with
  | [] => True
  | CAct _ _ _ :: cs => proper true cs
  | CStop _ _ _ :: cs => acting = true /\ proper false cs
  | _ => False
  end.
(** The observations with which the envs are to be acted upon; None for an env that starts an episode. *)
Definition expected (expect : list (option O)) (cs : list (call O A)) : list (option O) :=
  fold_left (fun expect c => match c with
    | CBatchObserve rows => map (fun w : row O => let '(o, _, _, ended) := w in if (ended : bool) then None else Some o) rows
    | _ => expect end) cs expect.

(** [piece] is a non-empty contiguous piece of one of the episodes. *)
Definition piece_of (data : list (list (rec O A H))) (piece : list (rec O A H)) : Prop :=
  piece <> [] /\ exists before after, In (before ++ piece ++ after) data.
End Spec.

(** An agent for the counterexample: the log-probability is the normalized observation, and the normalizer adds the number of observations it has experienced. *)
Definition shift_net (p : unit) (h : unit) (f : R) : (R * R) * unit := ((f, 0%R), tt).
Definition shift_runs := runs shift_net tt (fun d (_ : unit) => d) (fun o : R => o) (fun n f => (f + INR n)%R) (fun n (l : list R) => n + length l) false 1 (fun p _ (_ : list (list (rec R unit unit))) => p).
