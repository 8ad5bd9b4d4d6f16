(** The protocol of vectorised training. *)
From Coq Require Import QArith.
From Verif Require Import Base.PyBase Model.TrainAgent Model.TrainAgentBatch.
Set Implicit Arguments.
Local Open Scope nat_scope.

Section P.
  Context {Obs Act Rw : Type}.
  Notation bev := (@bev Obs Act Rw).
  Notation answer := (@answer Obs Rw).
  Variable c : bconfig.

  (** Which envs must be reset by request or length, and which episodes ended:
      [lens] are the episode lengths including the step just made. *)
  Definition reset_flags (lens : list Z) (xs : list answer) (resets : list bool) : Prop :=
    length resets = b_envs c /\ forall j x l, nth_error xs j = Some x -> nth_error lens j = Some l ->
      exists r, nth_error resets j = Some r /\ (r = true <-> a_needs x = true \/ b_maxlen c = Some l).
  Definition end_flags (lens : list Z) (xs : list answer) (ends : list bool) : Prop :=
    length ends = b_envs c /\ forall j x l, nth_error xs j = Some x -> nth_error lens j = Some l ->
      exists r, nth_error ends j = Some r /\ (r = true <-> a_done x = true \/ a_needs x = true \/ b_maxlen c = Some l).

  (** The episode lengths after the envs with an ended episode were reset. *)
  Definition lens_after (lens : list Z) (ends : list bool) (lens' : list Z) : Prop :=
    length lens' = b_envs c /\ forall j l e, nth_error lens j = Some l -> nth_error ends j = Some e ->
      nth_error lens' j = Some (if e then 0%Z else l).

  (** Where a run is; [t] counts the steps of all envs. *)
  Inductive bphase :=
  | BPInit
  | BPAct (obss : list Obs) (lens : list Z) (t : Z)
  | BPStep (acts : list Act) (lens : list Z) (t : Z)
  | BPObserve (xs : list answer) (lens : list Z) (t : Z)
  | BPSeen (lens : list Z) (ends : list bool) (t : Z).
  Inductive bpstep : bphase -> bev -> bphase -> Prop :=
  | bp_first obss : bpstep BPInit (BReset None obss) (BPAct obss (repeat 0%Z (b_envs c)) (b_offset c))
  | bp_act obss lens t acts : bpstep (BPAct obss lens t) (BAct obss acts) (BPStep acts lens t)
  | bp_step acts lens t xs : length xs = b_envs c ->
      bpstep (BPStep acts lens t) (BStep acts xs) (BPObserve xs (map (fun l => l + 1)%Z lens) t)
  | bp_observe xs lens t resets ends : reset_flags lens xs resets -> end_flags lens xs ends ->
      bpstep (BPObserve xs lens t) (BObserve (map a_obs xs) (map a_rew xs) (map a_done xs) resets)
        (BPSeen lens ends (t + Z.of_nat (b_envs c)))
  | bp_reset lens ends t obss lens' : (t < b_steps c)%Z -> lens_after lens ends lens' ->
      bpstep (BPSeen lens ends t) (BReset (Some (map negb ends)) obss) (BPAct obss lens' t).
  Inductive bppath : bphase -> list bev -> bphase -> Prop :=
  | bpp_nil p : bppath p [] p
  | bpp_cons p e p' l p'' : bpstep p e p' -> bppath p' l p'' -> bppath p (e :: l) p''.

  Definition b_core (tr : list bev) : list bev :=
    filter (fun e => match e with BReset _ _ | BAct _ _ | BStep _ _ | BObserve _ _ _ _ => true | _ => false end) tr.
  Definition b_nsteps (tr : list bev) : nat :=
    length (filter (fun e => match e with BStep _ _ => true | _ => false end) tr).

  (** Saves before the end are checkpoints; they are due at multiples of the frequency. *)
  Definition b_final (e : bev) : bool := match e with BSave SFinish _ | BSave SExcept _ | BClose _ => true | _ => false end.
  Definition b_no_final (tr : list bev) : Prop := forall e, In e tr -> b_final e = false.
  Fixpoint b_checkpoints (tr : list bev) : list Z :=
    match tr with [] => [] | BSave SCheckpoint t :: r => t :: b_checkpoints r | _ :: r => b_checkpoints r end.
  Definition b_due (x : Z) : bool :=
    match b_freq c with None => false | Some f => negb (f =? 0)%Z && (x mod f =? 0)%Z end.
  Definition upto (t : Z) (k : nat) : list Z := map (fun i => t + 1 + Z.of_nat i)%Z (seq 0 k).

  (** An evaluation that stops the training: it returned a nonzero score and the
      best score so far is good enough. *)
  Definition stops (e : bev) : Prop :=
    match e with
    | BEval _ _ (Some s) best => ~ s == 0 /\ exists q, b_success c = Some q /\ (q <= best)%Q
    | _ => False
    end.
  Definition no_stop (tr : list bev) : Prop := forall e, In e tr -> ~ stops e.

  Definition from_bworld (w : @bworld Obs Act Rw) (e : exc) : Prop :=
    exists tr, bw_reset w tr = Raise e \/ bw_act w tr = Raise e \/ bw_step w tr = Raise e \/ bw_observe w tr = Raise e \/
      bw_hook w tr = Raise e \/ bw_eval w tr = Raise e \/ bw_save w tr = Raise e \/ bw_close w tr = Raise e.

  (** What the exception handler does at step [t]. *)
  Definition handler_events (t : Z) : list bev :=
    BSave SExcept t :: BClose false :: (if b_eval c then [BClose true] else []).

  (** Enough iterations to reach the step budget (one iteration always runs). *)
  Definition b_enough (fuel : nat) : Prop :=
    1 <= fuel /\ (b_steps c <= b_offset c + Z.of_nat (b_envs c * fuel))%Z.
End P.
