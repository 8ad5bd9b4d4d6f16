(** C45: state_kept / state_reset restore recurrent states.
    Proved for every link structure, nesting and body that does not catch
    exceptions inside, for LSTMs that were evaluated before; the full claim
    (exceptions, fresh links) is refuted below. *)
From Verif Require Import Base.PyBase Model.RecurrentState Spec.RecurrentStateSpec Proofs.RecurrentStateProofs.

(** If the body ends normally, [with state_kept(link)] ends normally, has put
    back every part of the link's state that was not None, has changed nothing
    else, and leaves the stack of saved states as it found it.
    Missing: bodies that catch exceptions; parts that were None. *)
Theorem C45_kept_partial : forall V W (w0 : W) l (p : prog V W) w wb, is_recurrent l = true -> try_free p ->
  exec w0 p w = (Ok tt, wb) ->
  exists w', exec w0 (WithKept l p) w = (Ok tt, w') /\ stack w' = stack w /\ restored l (mem w) (mem wb) (mem w').
Proof. exact kept_ok. Qed.
Print Assumptions C45_kept_partial.

(** The same for [with state_reset(link)]; its body starts with every part of
    the link's state reset. *)
Theorem C45_reset_partial : forall V W (w0 : W) l (p : prog V W) w, is_recurrent l = true -> try_free p ->
  exists m, reset_of w0 l (mem w) m /\
  forall wb, exec w0 p {| mem := m; stack := stack w |} = (Ok tt, wb) ->
  exists w', exec w0 (WithReset l p) w = (Ok tt, w') /\ stack w' = stack w /\ restored l (mem w) (mem wb) (mem w').
Proof. exact reset_ctx_full. Qed.
Print Assumptions C45_reset_partial.

(** Hence get_state is the same before and after, if every LSTM inside had
    been evaluated. *)
Theorem C45_kept_state_partial : forall V W (w0 : W) l (p : prog V W) w wb, is_recurrent l = true -> try_free p ->
  warm (mem w) l -> exec w0 p w = (Ok tt, wb) ->
  exists w', exec w0 (WithKept l p) w = (Ok tt, w') /\ get_state (mem w') l = get_state (mem w) l.
Proof. exact kept_warm. Qed.
Print Assumptions C45_kept_state_partial.

Theorem C45_reset_state_partial : forall V W (w0 : W) l (p : prog V W) w, is_recurrent l = true -> try_free p ->
  warm (mem w) l ->
  exists m, reset_of w0 l (mem w) m /\
  forall wb, exec w0 p {| mem := m; stack := stack w |} = (Ok tt, wb) ->
  exists w', exec w0 (WithReset l p) w = (Ok tt, w') /\ get_state (mem w') l = get_state (mem w) l.
Proof. exact reset_warm. Qed.
Print Assumptions C45_reset_state_partial.

(** An exception raised in the body is not swallowed or replaced. *)
Theorem C45_exceptions_propagate : forall V W (w0 : W) l (p : prog V W) w e w', try_free p ->
  exec w0 p w = (Raise e, w') -> exists w'', exec w0 (WithKept l p) w = (Raise e, w'') /\ mem w'' = mem w'.
Proof. exact kept_raises. Qed.
Print Assumptions C45_exceptions_propagate.

(** Non-vacuity: nested contexts over a model with two LSTMs and a custom part. *)
Example C45_case :
  warm (mem (ex_world (fun i => Some (10 + i)))) ex_model /\
  (exists wb, exec 0 (Seq (ex_eval 0 7) (WithReset ex_model (Seq (ex_eval 1 8) (ex_eval 5 9)))) (ex_world (fun i => Some (10 + i))) = (Ok tt, wb)
     /\ lstms (mem wb) 0 = Some 7 /\ lstms (mem wb) 1 = Some 11 /\ lstms (mem wb) 5 = Some 9) /\
  (exists w', exec 0 (WithKept ex_model (Seq (ex_eval 0 7) (WithReset ex_model (Seq (ex_eval 1 8) (ex_eval 5 9))))) (ex_world (fun i => Some (10 + i))) = (Ok tt, w')
     /\ lstms (mem w') 0 = Some 10 /\ lstms (mem w') 1 = Some 11 /\ lstms (mem w') 5 = Some 9).
Proof.
  split; [intros i _; discriminate|]. split; eexists; (split; [cbn; reflexivity|]); repeat split.
Qed.

(** A fresh link is not restored: its state None is saved, but set_state
    ignores None, so the state left by the body stays. *)
Theorem C45_fresh_refuted : exists (l : link) (p : prog nat nat) w wb w', is_recurrent l = true /\ try_free p /\
  exec 0 p w = (Ok tt, wb) /\ exec 0 (WithKept l p) w = (Ok tt, w') /\
  get_state (mem w) l = SList [SLstm _ None] /\ get_state (mem w') l = SList [SLstm _ (Some 7)].
Proof.
  exists (RChain [Lstm 0]), (ex_eval 0 7), (ex_world (fun _ => None)).
  do 2 eexists. split; [reflexivity|]. split; [exact I|]. split; [cbn; reflexivity|]. split; [cbn; reflexivity|].
  split; reflexivity.
Qed.
Print Assumptions C45_fresh_refuted.

(** After an exception the state is not restored, and the saved state stays on
    the stack. *)
Theorem C45_exception_refuted : exists (l : link) (p : prog nat nat) w w', is_recurrent l = true /\
  warm (mem w) l /\ exec 0 (WithKept l p) w = (Raise ValueError, w') /\
  get_state (mem w) l = SList [SLstm _ (Some 3)] /\ get_state (mem w') l = SList [SLstm _ (Some 7)] /\
  stack w = [] /\ stack w' = [SList [SLstm _ (Some 3)]].
Proof.
  exists (RChain [Lstm 0]), (Seq (ex_eval 0 7) (Fail _ _ ValueError)), (ex_world (fun _ => Some 3)).
  eexists. split; [reflexivity|]. split; [intros i _; discriminate|]. split; [cbn; reflexivity|]. repeat split.
Qed.
Print Assumptions C45_exception_refuted.

(** As the stack is shared by all models, a caught exception inside one context
    then makes an enclosing context restore the wrong state: here the model
    with LSTM 0 ends up in the state of the model with LSTM 1. *)
Theorem C45_stale_stack_refuted : exists (l l' : link) (p : prog nat nat) w w',
  is_recurrent l = true /\ is_recurrent l' = true /\ warm (mem w) l /\ warm (mem w) l' /\
  p = WithKept l (Try (WithKept l' (Fail _ _ ValueError)) (Do (fun m => m))) /\
  exec 0 p w = (Ok tt, w') /\
  get_state (mem w) l = SList [SLstm _ (Some 10)] /\ get_state (mem w) l' = SList [SLstm _ (Some 11)] /\
  get_state (mem w') l = SList [SLstm _ (Some 11)].
Proof.
  exists (RChain [Lstm 0]), (RChain [Lstm 1]). do 3 eexists.
  split; [reflexivity|]. split; [reflexivity|]. split; [|split].
  3:{ split; [reflexivity|]. instantiate (2 := ex_world (fun i => Some (10 + i))).
      split; [cbn; reflexivity|]. repeat split. }
  - intros i _; discriminate.
  - intros i _; discriminate.
Qed.
Print Assumptions C45_stale_stack_refuted.
