(** When evaluations are due, and what the best score is. *)
From Coq Require Import QArith.
From Verif Require Import Base.PyBase.
Local Open Scope nat_scope.

(** A call of evaluate_if_necessary: step count, episode count, and the score an
    evaluation would give at that moment. *)
Definition ecall := (Z * nat * Q)%type.
Definition ec_t (x : ecall) : Z := fst (fst x).
Definition ec_score (x : ecall) : Q := snd x.

(** A multiple of the interval lies in (t, t']. *)
Definition crosses (interval t t' : Z) : Prop := exists m, (t < interval * m <= t')%Z.

(** The answers of the calls: a score exactly when a multiple was crossed since
    the call before (since [t0] for the first). *)
Inductive on_schedule (interval : Z) : Z -> list ecall -> list (option Q) -> Prop :=
| os_nil t0 : on_schedule interval t0 [] []
| os_yes t0 x l outs : crosses interval t0 (ec_t x) -> on_schedule interval (ec_t x) l outs ->
    on_schedule interval t0 (x :: l) (Some (ec_score x) :: outs)
| os_no t0 x l outs : ~ crosses interval t0 (ec_t x) -> on_schedule interval (ec_t x) l outs ->
    on_schedule interval t0 (x :: l) (None :: outs).

(** Non-decreasing step counts, from [t0]. *)
Fixpoint nondecreasing (t0 : Z) (l : list ecall) : Prop :=
  match l with [] => True | x :: l => (t0 <= ec_t x)%Z /\ nondecreasing (ec_t x) l end.

(** The calls that were answered with a score. *)
Fixpoint evaluated (l : list ecall) (outs : list (option Q)) : list ecall :=
  match l, outs with
  | x :: l, Some _ :: outs => x :: evaluated l outs
  | _ :: l, None :: outs => evaluated l outs
  | _, _ => []
  end.

(** [m] is the maximum of [m0] and the scores. *)
Definition is_max (m0 : Q) (l : list Q) (m : Q) : Prop :=
  In m (m0 :: l) /\ forall x, In x (m0 :: l) -> (x <= m)%Q.

(** The scores strictly better than everything before (and than [m0]), in order. *)
Inductive records (m0 : Q) : list Q -> list Q -> Prop :=
| rec_nil : records m0 [] []
| rec_new l x rs : records m0 l rs -> (forall y, In y (m0 :: l) -> (y < x)%Q) -> records m0 (l ++ [x]) (rs ++ [x])
| rec_old l x rs : records m0 l rs -> (exists y, In y (m0 :: l) /\ (x <= y)%Q) -> records m0 (l ++ [x]) rs.
