(** Model of chainerrl/misc/prioritized.py lines 109-291: the tree nodes,
    TreeQueue, SumTreeQueue and MinTreeQueue. *)
From Verif Require Import Base.PyBase Model.Num Model.Random.
Set Implicit Arguments.

Section Tree.
  Context {V : Type}.
  Variable op : list V -> V.

  (** A node is the Python list [[]] (Empty), [[None, None, v]] (Leaf) or
      [[left, right, v]] (Node). *)
  Inductive node := Empty | Leaf (v : V) | Node (l r : node) (v : V).

  (** [node[2]] of the existing nodes among the argument. *)
  Definition node_vals (t : node) : list V :=
    match t with Empty => [] | Leaf v => [v] | Node _ _ v => [v] end.

  (** prioritized.py:116-127 [_reduce], given the two children. *)
  Definition reduce (l r : node) : node :=
    match node_vals l ++ node_vals r with
    | [] => Empty
    | vs => Node l r (op vs)
    end.

  (** prioritized.py:130-149 [_write] (with [_expand], 111-113).  Returns the old
      leaf value and the new node.  Fuel replaces the recursion on the width of
      the interval.  A leaf node in an interval of width > 1 cannot be unpacked
      into two nodes that support assignment: TypeError. *)
  Fixpoint write (fuel : nat) (il ir : Z) (t : node) (key : Z) (value : option V)
    : res (option V * node) :=
    match fuel with
    | O => Raise RecursionError
    | S fuel =>
      if (ir - il =? 1)%Z then
        let ret := match t with Empty => None | Leaf v => Some v | Node _ _ v => Some v end in
        Ok (ret, match value with None => Empty | Some v => Leaf v end)
      else
        let ic := ((il + ir) / 2)%Z in
        match t with
        | Leaf _ => Raise TypeError
        | _ =>
          let (l, r) := match t with Node l r _ => (l, r) | _ => (Empty, Empty) end in
          if (key <? ic)%Z then
            let! (ret, l') := write fuel il ic l key value in Ok (ret, reduce l' r)
          else
            let! (ret, r') := write fuel ic ir r key value in Ok (ret, reduce l r')
        end
    end.

  (** prioritized.py:162-164 — attributes of TreeQueue.  [body] is [None] while
      the attributes [root] and [bounds] do not exist. *)
  Record tq := mk_tq { tq_len : Z; tq_body : option (Z * Z * node) }.

  Definition tq_init : tq := mk_tq 0 None.

  (** Fuel for [write]: the width of the interval (its depth would do). *)
  Definition width (il ir : Z) : nat := Z.to_nat (ir - il).

  (** prioritized.py:171-173 [TreeQueue._write]. *)
  Definition tq_write (q : tq) (ix : Z) (v : option V) : res (option V * tq) :=
    match tq_body q with
    | None => Raise AttributeError
    | Some (il, ir, root) =>
      let! (ret, root') := write (width il ir) il ir root ix v in
      Ok (ret, mk_tq (tq_len q) (Some (il, ir, root')))
    end.

  (** prioritized.py:166-169 [__setitem__]; the value is never None here. *)
  Definition tq_set (q : tq) (ix : Z) (v : V) : res tq :=
    assert! (0 <=? ix)%Z && (ix <? tq_len q)%Z in
    let! (_, q') := tq_write q ix (Some v) in Ok q'.

  (** prioritized.py:175-191 [append]. *)
  Definition tq_append (q : tq) (v : V) : res tq :=
    if (tq_len q =? 0)%Z then Ok (mk_tq 1 (Some (0%Z, 1%Z, Leaf v)))
    else
      match tq_body q with
      | None => Raise AttributeError
      | Some (il, ir, root) =>
        let! (il, ir, root) :=
          if (ir =? tq_len q)%Z then
            match node_vals root with
            | rv :: _ => Ok (il, (ir + (ir - il))%Z, Node root Empty rv)
            | [] => Raise ValueError
            end
          else Ok (il, ir, root) in
        let! (ret, q') := tq_write (mk_tq (tq_len q) (Some (il, ir, root))) (tq_len q) (Some v) in
        match ret with
        | Some _ => Raise AssertionError
        | None => Ok (mk_tq (tq_len q' + 1) (tq_body q'))
        end
      end.

  (** prioritized.py:193-210 [popleft].  Python returns whatever [_write]
      returned, hence an option. *)
  Definition tq_popleft (q : tq) : res (option V * tq) :=
    assert! (0 <? tq_len q)%Z in
    let! (ret, q) := tq_write q 0%Z None in
    match tq_body q with
    | None => Raise AttributeError
    | Some (il, ir, root) =>
      let il := (il - 1)%Z in
      let ir := (ir - 1)%Z in
      let len := (tq_len q - 1)%Z in
      if (len =? 0)%Z then Ok (ret, mk_tq len None)
      else
        let ic := ((il + ir) / 2)%Z in
        if (ic =? 0)%Z then
          match root with
          | Node _ r _ => Ok (ret, mk_tq len (Some (ic, ir, r)))
          | Leaf _ => Raise TypeError      (* the right child would be None *)
          | Empty => Raise ValueError
          end
        else Ok (ret, mk_tq len (Some (il, ir, root)))
    end.

  (** prioritized.py:241-245 [sum] and 287-291 [min] of the two subclasses:
      [None] stands for the value returned on an empty queue (0.0 resp. inf). *)
  Definition tq_value (q : tq) : res (option V) :=
    if (tq_len q =? 0)%Z then Ok None
    else match tq_body q with
         | None => Raise AttributeError
         | Some (_, _, root) => match node_vals root with
                                | v :: _ => Ok (Some v)
                                | [] => Raise IndexError
                                end
         end.
End Tree.
Arguments node : clear implicits.
Arguments tq : clear implicits.
Arguments Empty {V}.
Arguments tq_init {V}.

Section Sum.
  Variable N : num.
  Notation V := (nV N).

  (** [op=sum] (prioritized.py:239): Python's [sum] starts from 0. *)
  Definition op_sum (l : list V) : V := fold_left (nadd N) l (nzero N).

  (** [op=min] (prioritized.py:285): Python's [min] keeps the first minimum. *)
  Definition op_min (l : list V) : V :=
    match l with
    | [] => nzero N                      (* never called on [] *)
    | x :: t => fold_left (fun a b => if nltb N b a then b else a) t x
    end.

  (** prioritized.py:213-227 [_find]. *)
  Fixpoint find (fuel : nat) (il ir : Z) (t : node V) (pos : V) : res Z :=
    match fuel with
    | O => Raise RecursionError
    | S fuel =>
      if (ir - il =? 1)%Z then Ok il
      else
        match t with
        | Empty => Raise ValueError          (* cannot unpack [] *)
        | Leaf _ => Raise TypeError          (* children are None *)
        | Node l r _ =>
          let ic := ((il + ir) / 2)%Z in
          let lv := match node_vals l with v :: _ => v | [] => nzero N end in
          if nltb N pos lv then find fuel il ic l pos
          else find fuel ic ir r (nsub N pos lv)
        end
    end.

  (** prioritized.py:241-245 [SumTreeQueue.sum]. *)
  Definition stq_sum (q : tq V) : res V :=
    let! o := tq_value q in Ok (match o with Some v => v | None => nzero N end).

  (** The restoring loop [for ix, val in zip(ixs, vals): self._write(ix, val)]
      (prioritized.py:256-258 and 275-277). *)
  Fixpoint restore (q : tq V) (ivs : list (Z * option V)) : res (tq V) :=
    match ivs with
    | [] => Ok q
    | (ix, v) :: t => let! (_, q') := tq_write op_sum q ix v in restore q' t
    end.

  (** prioritized.py:252-254: zero the given positions, collecting the values. *)
  Fixpoint zero_all (q : tq V) (ixs : list Z) : res (list (option V) * tq V) :=
    match ixs with
    | [] => Ok ([], q)
    | ix :: t =>
      let! (v, q1) := tq_write op_sum q ix (Some (nzero N)) in
      let! (vs, q2) := zero_all q1 t in
      Ok (v :: vs, q2)
    end.

  (** prioritized.py:247-260 [uniform_sample]; [ixs] is the result of
      [sample_n_k(self.length, n)] (computed by the caller from Model/Random.v);
      [n = len(ixs)]. *)
  Definition stq_uniform_sample (q : tq V) (ixs : list Z) (remove : bool)
    : res (list Z * list (option V) * tq V) :=
    let! (vals, q1) := zero_all q ixs in
    let! q2 := if remove then Ok q1 else restore q1 (combine ixs vals) in
    Ok (ixs, vals, q2).

  (** numpy's [uniform(0.0, high)] for an underlying draw [u] in [0,1):
      [low + (high - low) * u]. *)
  Definition uniform0 (high u : V) : V := nadd N (nzero N) (nmul N (nsub N high (nzero N)) u).

  (** prioritized.py:269-273 — the sampling loop, one draw per iteration.  The
      local alias [root] of the mutable root is re-read from the state. *)
  Fixpoint pick_loop (q : tq V) (us : list V) : res (list Z * list (option V) * tq V) :=
    match us with
    | [] => Ok ([], [], q)
    | u :: t =>
      match tq_body q with
      | None => Raise AttributeError
      | Some (il, ir, root) =>
        match node_vals root with
        | [] => Raise IndexError                 (* root[2] of [] *)
        | total :: _ =>
          let! ix := find (width il ir) il ir root (uniform0 total u) in
          let! (v, q1) := tq_write op_sum q ix (Some (nzero N)) in
          let! (ixs, vs, q2) := pick_loop q1 t in
          Ok (ix :: ixs, v :: vs, q2)
        end
      end
    end.

  (** prioritized.py:262-279 [prioritized_sample]; [n = len(us)]. *)
  Definition stq_prioritized_sample (q : tq V) (us : list V) (remove : bool)
    : res (list Z * list (option V) * tq V) :=
    let! (ixs, vals, q1) := pick_loop q us in
    let! q2 := if remove then Ok q1 else restore q1 (combine ixs vals) in
    Ok (ixs, vals, q2).
End Sum.
