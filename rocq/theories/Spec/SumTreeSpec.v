(** What a sparse sum over the integers is, independently of any tree. *)
From Coq Require Import QArith.
From Verif Require Import Base.PyBase Spec.WrapperSpec Model.SumTree.
Set Implicit Arguments.
Local Open Scope Z_scope.

(** The value an index holds after a history: that of the last assignment to it
    (a deletion assigns 0), 0 if there is none. *)
Definition op_index (o : st_op) : Z := match o with StSet i _ => i | StDel i => i end.
Definition op_value (o : st_op) : Q := match o with StSet _ v => v | StDel _ => 0%Q end.
Fixpoint last_value (os : list st_op) (i : Z) (dflt : Q) : Q :=
  match os with
  | [] => dflt
  | o :: rest => last_value rest i (if op_index o =? i then op_value o else dflt)
  end.
Definition value_after (os : list st_op) (i : Z) : Q := last_value os i 0.

(** The indices a history mentions, each once. *)
Definition indices (os : list st_op) : list Z := nodup Z.eq_dec (map op_index os).

(** The sum of the values over all indices, and over the indices below [i]. *)
Definition sum_values (f : Z -> Q) (ks : list Z) : Q := qsum (map f ks).
Definition sum_below_index (f : Z -> Q) (ks : list Z) (i : Z) : Q :=
  qsum (map f (filter (fun k => k <? i) ks)).

(** A function on the integers with the value at [i] replaced. *)
Definition zero_at (f : Z -> Q) (i : Z) : Z -> Q := fun k => if k =? i then 0%Q else f k.

(** [ivs] are successive proportional draws without replacement from [f]: each
    draws an index whose interval of the cumulative sum contains the drawn
    point, and reports its value; the value is then 0 for the next draws. *)
Inductive draws_from (ks : list Z) (pt : nat -> Q -> Q) : nat -> (Z -> Q) -> list (Z * Q) -> (Z -> Q) -> Prop :=
| df_nil : forall k f, draws_from ks pt k f [] f
| df_cons : forall k f i v x rest f' s,
    (s == sum_values f ks)%Q ->
    x = pt k s ->
    In i ks -> (v == f i)%Q ->
    (sum_below_index f ks i <= x)%Q -> (x < sum_below_index f ks i + f i)%Q ->
    draws_from ks pt (S k) (zero_at f i) rest f' ->
    draws_from ks pt k f ((i, v) :: rest) f'.

(** Indices whose value is positive. *)
Definition positive (f : Z -> Q) (i : Z) : bool := negb (Qle_bool (f i) 0).

(** What [np.random.uniform(0.0, s)] may return: a point of [0, s). *)
Definition good_draw (draw : nat -> Q -> Q) : Prop := forall k s, (0 < s)%Q -> (0 <= draw k s)%Q /\ (draw k s < s)%Q.
