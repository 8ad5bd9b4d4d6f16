(** What the download cache of pretrained models should guarantee. *)
From Coq Require Import List Arith Bool.
From Verif Require Import Base.PyBase Model.PretrainedModels.
Import ListNotations.

(** The content of a file after unpacking the entries in order: the last one of that name. *)
Fixpoint unpacked (z : list (nat * nat)) (n : nat) : option nat :=
  match z with
  | [] => None
  | (m, d) :: z => match unpacked z n with Some x => Some x | None => if n =? m then Some d else None end
  end.
Section Spec.
  Context {K : Type}.
  Variable Keq : forall a b : K, {a = b} + {a <> b}.
  Variable hash : K -> nat.
  Variable served : K -> list (nat * nat).
  (** The model [k] is there: exactly the files of its zip file. *)
  Definition complete (s : sys K) (k : K) : Prop := forall n, files s k n = unpacked (served k) n.
  (** No process died or had an exception while it was unpacking [k]. *)
  Fixpoint undisturbed (k : K) (s : sys K) (es : list (event K)) : Prop :=
    match es with
    | [] => True
    | e :: es => match e with Fail p | Crash p => forall l, pcs s p <> Extracting k l | _ => True end /\ undisturbed k (exec Keq hash served s e) es
    end.
  Definition interruptions (es : list (event K)) : nat := length (filter (fun e => match e with Fail _ | Crash _ => true | _ => false end) es).
  Definition crashes_of (p : nat) (es : list (event K)) : nat := length (filter (fun e => match e with Crash q => q =? p | _ => false end) es).
  (** Nobody calls cached_download directly. *)
  Definition only_models (es : list (event K)) : Prop := forall p k, ~ In (CallCached p k) es.
  (** In the part of the code that models.lock protects. *)
  Definition in_store (c : pc K) : bool :=
    match c with
    | Check _ | WantDl true _ | CheckCache true _ | Mkdtemp true _ | Fetching true _ | WantMove true _ | Moving true _ | Cleanup true _ | Failing true _
    | Renaming _ | Extracting _ _ | Leaving _ _ => true
    | _ => false
    end.
  (** Between making and removing a temporary directory. *)
  Definition has_temp (c : pc K) : bool :=
    match c with Fetching _ _ | WantMove _ _ | Moving _ _ | Cleanup _ _ | Failing _ _ => true | _ => false end.
End Spec.
(** [p] occurs in [s]. *)
Definition occurs (p s : String.string) : Prop := exists a b, s = String.append a (String.append p b).
