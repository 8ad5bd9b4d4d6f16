(** The numeric operations that the priority code uses on floats.  The model of
    chainerrl/misc/prioritized.py is written once over this record and then
    instantiated at exact rationals (theorems) and at IEEE doubles (rounding). *)
From Coq Require Import QArith Floats.
From Verif Require Import Base.PyBase.
Set Implicit Arguments.

Record num := mk_num {
  nV : Type;
  nzero : nV;
  none_ : nV;
  nadd : nV -> nV -> nV;
  nsub : nV -> nV -> nV;
  nmul : nV -> nV -> nV;
  ndiv : nV -> nV -> nV;
  nltb : nV -> nV -> bool;
  nis0 : nV -> bool;          (* == 0: the divisor test behind ZeroDivisionError *)
  nofnat : nat -> nV
}.

(** Exact rationals (idealised floats). *)
Definition Qltb (a b : Q) : bool := negb (Qle_bool b a).
Definition QNum : num :=
  mk_num (0%Q) (1%Q) Qplus Qminus Qmult Qdiv Qltb (fun x => Qeq_bool x 0)
         (fun n => inject_Z (Z.of_nat n)).

(** int -> float conversion, exact below 2^53 (lengths of buffers). *)
Fixpoint float_of_nat (n : nat) : float :=
  match n with O => 0%float | S n => PrimFloat.add (float_of_nat n) 1%float end.

(** IEEE 754 doubles, as CPython's float. *)
Definition FNum : num :=
  mk_num (0%float) (1%float) PrimFloat.add PrimFloat.sub PrimFloat.mul PrimFloat.div
         PrimFloat.ltb (fun x => PrimFloat.eqb x 0%float)
         float_of_nat.
