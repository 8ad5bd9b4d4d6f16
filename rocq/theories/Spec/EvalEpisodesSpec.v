(** What an evaluation did, read off the calls it made. *)
From Verif Require Import Base.PyBase Model.TrainAgent Model.Evaluator.
Set Implicit Arguments.
Local Open Scope nat_scope.

Section S.
  Context {Obs Act Rw : Type}.
  Notation vev := (@vev Obs Act Rw).
  Variable maxlen : option Z.

  (** An episode: the reward, done flag and reset request of each of its steps. *)
  Definition episode := list (Rw * bool * bool).

  (** The episodes of a trace: one per reset, with its steps. *)
  Definition add_last (gs : list episode) (x : Rw * bool * bool) : list episode :=
    removelast gs ++ [last gs [] ++ [x]].
  Definition add_event (gs : list episode) (e : vev) : list episode :=
    match e with
    | VReset _ => gs ++ [[]]
    | VStep _ _ r d n => add_last gs (r, d, n)
    | _ => gs
    end.
  Definition episodes (tr : list vev) : list episode := fold_left add_event tr [].

  (** The [k]-th step (from 1) ends the episode. *)
  Definition ends_at (k : nat) (x : Rw * bool * bool) : Prop :=
    snd (fst x) = true \/ snd x = true \/ maxlen = Some (Z.of_nat k).

  (** No step has ended it so far. *)
  Definition running (g : episode) : Prop := forall i x, nth_error g i = Some x -> ~ ends_at (S i) x.
  (** The last step ended it, no earlier one. *)
  Definition complete (g : episode) : Prop := exists g0 x, g = g0 ++ [x] /\ running g0 /\ ends_at (length g) x.

  (** Its return, added up in order. *)
  Definition return_of (rzero : Rw) (radd : Rw -> Rw -> Rw) (g : episode) : Rw :=
    fold_left (fun acc x => radd acc (fst (fst x))) g rzero.

  Definition total_steps (gs : list episode) : nat := length (concat gs).

  (** The protocol with agent and environment. *)
  Inductive vphase :=
  | QReset                                    (* the environment must be reset *)
  | QAct (o : Obs) (len : nat)                (* the agent must act on o *)
  | QStep (a : Act) (len : nat)               (* the environment must be stepped with a *)
  | QSeen (o : Obs) (len : nat) (over : bool) (* stepped *)
  | QDone.                                    (* stopped in the middle of an episode *)
  Inductive vpstep : vphase -> vev -> vphase -> Prop :=
  | q_reset o : vpstep QReset (VReset o) (QAct o 0)
  | q_act o len a : vpstep (QAct o len) (VAct o a) (QStep a len)
  | q_step a len o r d n over : (over = true <-> ends_at (S len) (r, d, n)) ->
      vpstep (QStep a len) (VStep a o r d n) (QSeen o (S len) over)
  | q_go_on o len a : vpstep (QSeen o len false) (VAct o a) (QStep a len)
  | q_stop o len : vpstep (QSeen o len true) VStop QReset
  | q_quit o len : vpstep (QSeen o len false) VStop QDone.
  Inductive vpath : vphase -> list vev -> vphase -> Prop :=
  | vp_nil p : vpath p [] p
  | vp_cons p e p' l p'' : vpstep p e p' -> vpath p' l p'' -> vpath p (e :: l) p''.

  Definition from_vworld (w : @vworld Obs Act Rw) (e : exc) : Prop :=
    exists tr, v_reset w tr = Raise e \/ v_act w tr = Raise e \/ v_step w tr = Raise e \/ v_stop w tr = Raise e.

  (** A positive budget, and a number of steps that is enough to use it up. *)
  Definition positive (b : budget) : Prop := match b with ForSteps n => (1 <= n)%Z | ForEpisodes n => (1 <= n)%Z end.
  Definition enough (b : budget) (fuel : nat) : Prop :=
    match b with
    | ForSteps n => (n <= Z.of_nat fuel)%Z
    | ForEpisodes n => exists m, maxlen = Some (Z.of_nat m) /\ 1 <= m /\ (n * Z.of_nat m <= Z.of_nat fuel)%Z
    end.
End S.
