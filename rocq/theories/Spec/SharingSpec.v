(** One common set of arrays, and one private memory per process. *)
From Coq Require Import List Arith.
From Verif Require Import Base.PyBase Model.Sharing.
Import ListNotations.
Set Implicit Arguments.

Section Spec.
  Variable V : Type.
  Record common := mk_common { c_global : list (list V); c_local : nat -> list (list V) }.
  Definition common_step (s : common) (o : op V) : common :=
    let q := o_proc o in
    let x := o_fun o (c_global s) (c_local s q) in
    match o_target o with
    | Global i => mk_common (upd (c_global s) i x) (c_local s)
    | Local a => mk_common (c_global s) (fun r => if Nat.eqb r q then upd (c_local s q) a x else c_local s r)
    end.
  Definition common_run (s : common) (ops : list (op V)) : common := fold_left common_step ops s.
End Spec.

(** Attributes and children of every link have distinct names. *)
Inductive wf {V : Type} : link V -> Prop :=
| wf_lk : forall slots kids, NoDup (map fst slots) -> NoDup (map fst kids) -> Forall (fun c => wf (snd c)) kids -> wf (Lk slots kids).
(** An array that refers to an existing buffer of its item size and size. *)
Definition valid {V : Type} (m : mem V) (v : value V) : Prop :=
  0 < item_of v /\
  match v with
  | VArr _ a => exists b, buf_at m (a_loc a) = Some b /\ b_item b = a_item a /\ length (b_data b) = a_size a
  | VScalar _ _ => True
  end.
Definition shape_at {V : Type} (l : link V) (p : path) : option (kind * nat * nat) :=
  option_map (fun kv => (fst kv, item_of (snd kv), size_of (snd kv))) (get p l).
(** Two links built by the same code. *)
Definition same_shape {V : Type} (l l2 : link V) : Prop := forall p, shape_at l p = shape_at l2 p.
(** The same value, stored in the shared buffer [s]. *)
Definition as_shared {V : Type} (s : nat) (v : value V) : value V := VArr V (mk_arr (Shared s) (item_of v) (size_of v)).
(** Every shared buffer has the size and item size of the array it is to replace. *)
Definition fits {V : Type} (m : mem V) (d : list (path * nat)) (l : link V) : Prop :=
  forall p k v s, get p l = Some (k, v) -> passoc p d = Some s -> frombuffer m s (item_of v) (size_of v) = Ok (mk_arr (Shared s) (item_of v) (size_of v)).
