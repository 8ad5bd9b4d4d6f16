(** Specification: a plain list that forgets its oldest elements when it grows
    past its bound.  Independent of the implementation's representation. *)
From Verif Require Import Base.PyBase Model.RandomAccessQueue.
Set Implicit Arguments.

Section BL.
  Context {A : Type}.

  (** Keep the newest [m] elements. *)
  Definition trim (m : option nat) (l : list A) : list A :=
    match m with
    | None => l
    | Some m => skipn (length l - m) l
    end.

  (** What each call must return and do on the plain list (oldest first). *)
  Definition bl_step (m : option nat) (l : list A) (o : raq_op A) : raq_out A * list A :=
    match o with
    | QLen => (RNat (length l), l)
    | QIter => (RList l, l)
    | QGet i => match py_index (length l) i with
                | Some k => match nth_error l k with
                            | Some x => (RItem x, l)
                            | None => (RExc IndexError, l)
                            end
                | None => (RExc IndexError, l)
                end
    | QSet i x => match py_index (length l) i with
                  | Some k => (RUnit, firstn k l ++ x :: skipn (S k) l)
                  | None => (RExc IndexError, l)
                  end
    | QAppend x => (RUnit, trim m (l ++ [x]))
    | QExtend xs => (RUnit, trim m (l ++ xs))
    | QPopleft => match l with
                  | [] => (RExc IndexError, [])
                  | x :: t => (RItem x, t)
                  end
    end.

  Fixpoint bl_run (m : option nat) (l : list A) (ops : list (raq_op A))
    : list (raq_out A) * list A :=
    match ops with
    | [] => ([], l)
    | o :: t => let (r, l1) := bl_step m l o in
                let (rs, l2) := bl_run m l1 t in (r :: rs, l2)
    end.
End BL.
