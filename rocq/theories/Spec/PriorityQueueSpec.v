(** Specification of the priority queues (SumTreeQueue / MinTreeQueue) as plain
    FIFO lists of priorities. *)
From Coq Require Import QArith.
From Verif Require Import Base.PyBase Model.Num Model.TreeQueue Spec.PrioritySpec.
Set Implicit Arguments.
Open Scope Q_scope.

(** Calls a client can make.  [LPick us remove] is
    [prioritized_sample(len(us), remove)] with the underlying uniform draws [us];
    [LUniform ixs remove] is [uniform_sample(len(ixs), remove)] whose call to
    [sample_n_k] returned the positions [ixs]. *)
Inductive lq_op :=
| LAppend (v : Q) | LPopleft | LSet (i : Z) (v : Q) | LTotal
| LPick (us : list Q) (remove : bool) | LUniform (ixs : list nat) (remove : bool).

Inductive lq_out :=
| LUnit | LVal (v : Q) | LNone | LErr (e : exc) | LSampled (ixs : list nat) (vals : list Q).

(** What the plain list [l] (oldest first) does; [agg l v] says that [v] is the
    aggregate (total or minimum) of the non-empty list [l]. *)
Inductive lq_step (agg : list Q -> Q -> Prop) : list Q -> lq_op -> lq_out -> list Q -> Prop :=
| ls_append l v : lq_step agg l (LAppend v) LUnit (l ++ [v])
| ls_pop x l : lq_step agg (x :: l) LPopleft (LVal x) l
| ls_pop_nil : lq_step agg [] LPopleft (LErr AssertionError) []
| ls_set l i v : (0 <= i < Z.of_nat (length l))%Z ->
    lq_step agg l (LSet i v) LUnit (firstn (Z.to_nat i) l ++ v :: skipn (S (Z.to_nat i)) l)
| ls_set_err l i v : ~ (0 <= i < Z.of_nat (length l))%Z ->
    lq_step agg l (LSet i v) (LErr AssertionError) l
| ls_total l v : l <> [] -> agg l v -> lq_step agg l LTotal (LVal v) l
| ls_total_nil : lq_step agg [] LTotal LNone []
| ls_pick l us remove ixs w' vals :
    (* successive picks without replacement, pairwise different, of positive priority *)
    picks l us ixs w' -> NoDup ixs ->
    Forall2 (fun i v => nth_error l i = Some v /\ 0 < v) ixs vals ->
    lq_step agg l (LPick us remove) (LSampled ixs vals) (if remove then zero_at l ixs else l)
| ls_uniform l remove ixs vals :
    Forall2 (fun i v => nth_error l i = Some v) ixs vals ->
    lq_step agg l (LUniform ixs remove) (LSampled ixs vals) (if remove then zero_at l ixs else l).

(** Preconditions of the calls. *)
Definition lq_pre (l : list Q) (o : lq_op) : Prop :=
  match o with
  | LPick us _ => (forall x, In x l -> 0 <= x) /\ (length us <= positives l)%nat /\
                  (forall u, In u us -> 0 <= u < 1)
  | LUniform ixs _ => NoDup ixs /\ forall i, In i ixs -> (i < length l)%nat
  | _ => True
  end.

Inductive lq_safe (agg : list Q -> Q -> Prop) : list Q -> list lq_op -> Prop :=
| lsafe_nil l : lq_safe agg l []
| lsafe_cons l o os : lq_pre l o -> (forall r l', lq_step agg l o r l' -> lq_safe agg l' os) ->
    lq_safe agg l (o :: os).

Inductive lq_steps (agg : list Q -> Q -> Prop) : list Q -> list lq_op -> list lq_out -> list Q -> Prop :=
| lsteps_nil l : lq_steps agg l [] [] l
| lsteps_cons l o r l1 os rs l2 :
    lq_step agg l o r l1 -> lq_steps agg l1 os rs l2 -> lq_steps agg l (o :: os) (r :: rs) l2.

(** The same calls executed by the model.  A failed call leaves the queue as it
    was (the assertions precede every assignment). *)
Definition all_some (l : list (option Q)) : option (list Q) :=
  fold_right (fun o r => match o, r with Some x, Some t => Some (x :: t) | _, _ => None end) (Some []) l.
Definition lq_exec (op : list Q -> Q) (q : tq Q) (o : lq_op) : lq_out * tq Q :=
  let sampled (r : res (list Z * list (option Q) * tq Q)) :=
    match r with
    | Ok (ixs, vals, q') =>
      match all_some vals with
      | Some vs => (LSampled (map Z.to_nat ixs) vs, q')
      | None => (LErr TypeError, q')
      end
    | Raise e => (LErr e, q)
    end in
  match o with
  | LAppend v => match tq_append op q v with Ok q' => (LUnit, q') | Raise e => (LErr e, q) end
  | LPopleft => match tq_popleft op q with
                | Ok (Some v, q') => (LVal v, q')
                | Ok (None, q') => (LNone, q')
                | Raise e => (LErr e, q)
                end
  | LSet i v => match tq_set op q i v with Ok q' => (LUnit, q') | Raise e => (LErr e, q) end
  | LTotal => match tq_value q with
              | Ok (Some v) => (LVal v, q)
              | Ok None => (LNone, q)
              | Raise e => (LErr e, q)
              end
  | LPick us remove => sampled (stq_prioritized_sample QNum q us remove)
  | LUniform ixs remove => sampled (stq_uniform_sample QNum q (map Z.of_nat ixs) remove)
  end.

Fixpoint lq_run (op : list Q -> Q) (q : tq Q) (os : list lq_op) : list lq_out * tq Q :=
  match os with
  | [] => ([], q)
  | o :: t => let (r, q1) := lq_exec op q o in let (rs, q2) := lq_run op q1 t in (r :: rs, q2)
  end.

(** The minimum queue is never sampled. *)
Definition no_sampling (o : lq_op) : Prop :=
  match o with LPick _ _ | LUniform _ _ => False | _ => True end.
