(** The deprecated [SumTree] of chainerrl/misc/prioritized.py:294-416.

    Values are exact rationals where the code has Python floats, and indices
    are unbounded integers, as Python's are.  A node object has four fields
    (bd, left, right, s), prioritized.py:303-308: [SLeaf] is a node whose
    children are both [None], [SNode] a node with two children.  A freshly
    created tree, whose [bd] is [None], is the [None] of [option stree].

    The unbounded recursion and the two [while] loops carry fuel; running out
    of it is [OutOfFuel], which the theorems exclude. *)
From Coq Require Import QArith.
From Verif Require Import Base.PyBase.
Set Implicit Arguments.
Local Open Scope Z_scope.

Inductive stree :=
| SLeaf (lo hi : Z) (s : Q)
| SNode (lo hi : Z) (l r : stree) (s : Q).

(** The attributes bd[0], bd[1], s: prioritized.py:305-308. *)
Definition st_lo (t : stree) : Z := match t with SLeaf lo _ _ => lo | SNode lo _ _ _ _ => lo end.
Definition st_hi (t : stree) : Z := match t with SLeaf _ hi _ => hi | SNode _ hi _ _ _ => hi end.
Definition st_sum (t : stree) : Q := match t with SLeaf _ _ s => s | SNode _ _ _ _ s => s end.

(** prioritized.py:330-331 and 333-334. *)
Definition st_isleaf (lo hi : Z) : bool := hi - lo =? 1.
Definition st_center (lo hi : Z) : Z := (lo + hi) / 2.

(** [SumTree(bd=(lo, hi))._initdescendant()], prioritized.py:323-328. *)
Fixpoint st_init (fuel : nat) (lo hi : Z) : res stree :=
  match fuel with
  | O => Raise OutOfFuel
  | S f =>
      if st_isleaf lo hi then Ok (SLeaf lo hi 0)
      else
        let c := st_center lo hi in
        let! l := st_init f lo c in
        let! r := st_init f c hi in
        Ok (SNode lo hi l r 0)
  end.

(** The fuel a subtree of these bounds is given: its width. *)
Definition st_fuel (lo hi : Z) : nat := Z.to_nat (hi - lo).

(** prioritized.py:339-347, growth to the right. *)
Fixpoint st_grow_right (fuel : nat) (t : stree) (ix : Z) : res stree :=
  if ix <? st_hi t then Ok t
  else match fuel with
       | O => Raise OutOfFuel
       | S f =>
           let rlo := st_hi t in
           let rhi := st_hi t * 2 - st_lo t in
           let! r := st_init (st_fuel rlo rhi) rlo rhi in
           st_grow_right f (SNode (st_lo t) (st_hi r) t r (st_sum t)) ix
       end.

(** prioritized.py:348-355, growth to the left. *)
Fixpoint st_grow_left (fuel : nat) (t : stree) (ix : Z) : res stree :=
  if st_lo t <=? ix then Ok t
  else match fuel with
       | O => Raise OutOfFuel
       | S f =>
           let llo := st_lo t * 2 - st_hi t in
           let lhi := st_lo t in
           let! l := st_init (st_fuel llo lhi) llo lhi in
           st_grow_left f (SNode (st_lo l) (st_hi t) l t (st_sum t)) ix
       end.

(** [_allocindex], prioritized.py:336-355. *)
Definition st_alloc (t : option stree) (ix : Z) : res stree :=
  let t0 := match t with Some t => t | None => SLeaf ix (ix + 1) 0 end in
  let! t1 := st_grow_right (Z.to_nat (ix - st_hi t0 + 1)) t0 ix in
  st_grow_left (Z.to_nat (st_lo t1 - ix)) t1 ix.

(** [_write], prioritized.py:361-370.  A non-leaf without children would raise
    [AttributeError] at [self.left._write]. *)
Fixpoint st_write (t : stree) (ix : Z) (v : Q) : res stree :=
  match t with
  | SLeaf lo hi s => if st_isleaf lo hi then Ok (SLeaf lo hi v) else Raise AttributeError
  | SNode lo hi l r s =>
      if st_isleaf lo hi then Ok (SNode lo hi l r v)
      else
        if ix <? st_center lo hi
        then let! l' := st_write l ix v in Ok (SNode lo hi l' r (st_sum l' + st_sum r))
        else let! r' := st_write r ix v in Ok (SNode lo hi l r' (st_sum l + st_sum r'))
  end.

(** [__setitem__], prioritized.py:357-359. *)
Definition st_set (t : option stree) (ix : Z) (v : Q) : res (option stree) :=
  let! t1 := st_alloc t ix in
  let! t2 := st_write t1 ix v in
  Ok (Some t2).

(** [__delitem__], prioritized.py:372-373. *)
Definition st_del (t : option stree) (ix : Z) : res (option stree) := st_set t ix 0.

(** [_read], prioritized.py:379-387. *)
Fixpoint st_read (t : stree) (ix : Z) : res Q :=
  match t with
  | SLeaf lo hi s => if st_isleaf lo hi then Ok s else Raise AttributeError
  | SNode lo hi l r s =>
      if st_isleaf lo hi then Ok s
      else if ix <? st_center lo hi then st_read l ix else st_read r ix
  end.

(** [__getitem__], prioritized.py:375-377: subscripting [bd = None] raises
    [TypeError]. *)
Definition st_get (t : option stree) (ix : Z) : res Q :=
  match t with
  | None => Raise TypeError
  | Some t => assert! (st_lo t <=? ix) && (ix <? st_hi t) in st_read t ix
  end.

(** [self.s]: the total. *)
Definition st_total (t : option stree) : Q := match t with Some t => st_sum t | None => 0%Q end.

(** [_pick], prioritized.py:408-415. *)
Fixpoint st_pick (t : stree) (cum : Q) : res (Z * Q) :=
  match t with
  | SLeaf lo hi s => if st_isleaf lo hi then Ok (lo, s) else Raise AttributeError
  | SNode lo hi l r s =>
      if st_isleaf lo hi then Ok (lo, s)
      else if negb (Qle_bool (st_sum l) cum) then st_pick l cum
           else st_pick r (cum - st_sum l)
  end.

(** The loop of [prioritized_sample], prioritized.py:394-398.  [draw k s] is the
    k-th call of [np.random.uniform(0.0, s)]. *)
Fixpoint st_draws (draw : nat -> Q -> Q) (n : nat) (k : nat) (t : stree) : res (stree * list (Z * Q)) :=
  match n with
  | O => Ok (t, [])
  | S n' =>
      let! iv := st_pick t (draw k (st_sum t)) in
      let! t' := st_write t (fst iv) 0 in
      let! rest := st_draws draw n' (S k) t' in
      Ok (fst rest, iv :: snd rest)
  end.

(** prioritized.py:399-401. *)
Fixpoint st_restore (t : stree) (ivs : list (Z * Q)) : res stree :=
  match ivs with
  | [] => Ok t
  | (i, v) :: rest => let! t' := st_write t i v in st_restore t' rest
  end.

(** [v / total_val], prioritized.py:402: dividing by zero raises. *)
Definition st_div (v d : Q) : res Q := if Qeq_bool d 0 then Raise ZeroDivisionError else Ok (v / d)%Q.
Fixpoint st_probs (d : Q) (ivs : list (Z * Q)) : res (list Q) :=
  match ivs with
  | [] => Ok []
  | (_, v) :: rest => let! p := st_div v d in let! ps := st_probs d rest in Ok (p :: ps)
  end.

(** [prioritized_sample], prioritized.py:389-402.  On a tree that was never
    written to, [bd] is [None] and [_pick] raises [TypeError] at the first draw. *)
Definition st_sample (draw : nat -> Q -> Q) (n : nat) (remove : bool) (t : option stree)
  : res (option stree * (list Z * list Q)) :=
  match t with
  | None => match n with O => Ok (None, ([], [])) | S _ => Raise TypeError end
  | Some t =>
      let total := st_sum t in
      let! d := st_draws draw n 0 t in
      let! t' := if remove then Ok (fst d) else st_restore (fst d) (snd d) in
      let! ps := st_probs total (snd d) in
      Ok (Some t', (map fst (snd d), ps))
  end.

(** A history of assignments and deletions on one tree. *)
Inductive st_op := StSet (ix : Z) (v : Q) | StDel (ix : Z).
Definition st_step (t : option stree) (o : st_op) : res (option stree) :=
  match o with StSet ix v => st_set t ix v | StDel ix => st_del t ix end.
Fixpoint st_run (t : option stree) (os : list st_op) : res (option stree) :=
  match os with
  | [] => Ok t
  | o :: rest => let! t' := st_step t o in st_run t' rest
  end.
