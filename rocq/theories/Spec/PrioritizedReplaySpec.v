(** PrioritizedReplayBuffer used as documented: transitions are appended, and every
    sample is followed by update_errors. *)
From Coq Require Import QArith.
From Verif Require Import Base.PyBase Model.Num Model.Random Model.TreeQueue Model.PrioritizedBuffer Model.ReplayBuffer
     Model.PrioritizedReplayBuffer Spec.PrioritizedBufferSpec.
Set Implicit Arguments.
Open Scope Q_scope.

Section S.
  Context {T W : Type}.
  Variable pri_of : W -> list Q -> list Q.
  Variable weights_of : W -> nat -> list Q -> Q -> res (list Q * W).
  Notation buffer := (prb QNum T W).

  (** The windows in the buffer. *)
  Definition held (b : buffer) : list (list T) := pb_data (nr_mem (pr_core b)).

  (** The errors [es] give positive priorities, one per sampled window. *)
  Definition errors_ok (w : W) (n : nat) (es : list Q) : Prop :=
    length (pri_of w es) = n /\ forall p, In p (pri_of w es) -> 0 < p.

  Inductive reached (b0 : buffer) : buffer -> Prop :=
  | re_init : reached b0 b0
  | re_op b b' o : reached b0 b -> prb_step (N := QNum) pri_of weights_of b (BOp QNum o) = Ok b' -> reached b0 b'
  | re_round b b1 b2 n d es xs ws : reached b0 b -> held b <> [] -> draws_ok (length (held b)) n 0 d ->
      prb_sample (N := QNum) weights_of b n d = Ok (xs, ws, b1) -> errors_ok (pr_w b1) n es ->
      prb_update (N := QNum) pri_of b1 es = Ok b2 -> reached b0 b2.
End S.
