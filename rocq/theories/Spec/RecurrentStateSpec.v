(** What the context managers promise. *)
From Verif Require Import Base.PyBase Model.RecurrentState.
Set Implicit Arguments.

(** The LSTMs and the custom models inside a link. *)
Fixpoint lstm_ids (l : link) : list nat :=
  match l with
  | Lstm i => [i]
  | Custom _ | Plain => []
  | Chain ls | RChain ls => flat_map lstm_ids ls
  end.
Fixpoint custom_ids (l : link) : list nat :=
  match l with
  | Custom i => [i]
  | Lstm _ | Plain => []
  | Chain ls | RChain ls => flat_map custom_ids ls
  end.

(** Exceptions are not caught inside the program. *)
Fixpoint try_free V W (p : prog V W) : Prop :=
  match p with
  | Do _ | Fail _ _ _ => True
  | Seq p q => try_free p /\ try_free q
  | Try _ _ => False
  | WithKept _ p | WithReset _ p => try_free p
  end.

(** Every LSTM of the link has been evaluated since its last reset. *)
Definition warm V W (m : store V W) (l : link) : Prop := forall i, In i (lstm_ids l) -> lstms m i <> None.

(** [m'] is [m] with the parts of [l] taken from [m0], except the LSTMs that
    were fresh in [m0]. *)
Definition restored V W (l : link) (m0 m m' : store V W) : Prop :=
  (forall i, lstms m' i = if existsb (Nat.eqb i) (lstm_ids l)
                          then match lstms m0 i with Some v => Some v | None => lstms m i end
                          else lstms m i) /\
  (forall i, customs m' i = if existsb (Nat.eqb i) (custom_ids l) then customs m0 i else customs m i).

(** [m'] is [m] with every part of [l] reset. *)
Definition reset_of V W (w0 : W) (l : link) (m m' : store V W) : Prop :=
  (forall i, lstms m' i = if existsb (Nat.eqb i) (lstm_ids l) then None else lstms m i) /\
  (forall i, customs m' i = if existsb (Nat.eqb i) (custom_ids l) then w0 else customs m i).

(** A concrete world for the examples: LSTM i holds [f i]. *)
Definition ex_world (f : nat -> option nat) : world nat nat :=
  {| mem := {| lstms := f; customs := fun _ => 0 |}; stack := [] |}.
Definition ex_eval (i v : nat) : prog nat nat := Do (fun m => set_lstm m i (Some v)).
Definition ex_model : link := RChain [Plain; Lstm 0; Chain [Lstm 1; Custom 2]].
