(** Model of chainerrl/misc/collections.py (RandomAccessQueue). *)
From Verif Require Import Base.PyBase.
Set Implicit Arguments.

Section RAQ.
  Context {A : Type}.

  (** collections.py:13-18 — the attributes.  [front] and [back] are the Python
      lists [_queue_front] and [_queue_back] in Python order (so the *last*
      element of [front] is the oldest element of the queue).  [maxlen] is
      [None] or a natural number (line 15 asserts non-negativity). *)
  Record raq := mk_raq { front : list A; back : list A; maxlen : option nat }.

  (** collections.py:32-33 [__len__]. *)
  Definition raq_len (q : raq) : nat := length (front q) + length (back q).

  (** collections.py:90-99 [popleft]. *)
  Definition raq_popleft (q : raq) : res (A * raq) :=
    let q1 :=
      match front q with
      | [] => match back q with
              | [] => Raise IndexError
              | _ => Ok (mk_raq (rev (back q)) [] (maxlen q))
              end
      | _ => Ok q
      end in
    let! q2 := q1 in
    let! (x, f) := py_pop (front q2) in
    Ok (x, mk_raq f (back q2) (maxlen q2)).

  (** collections.py:20-23 [_apply_maxlen]; the while loop runs on fuel, the
      caller passes the current length, which suffices. *)
  Fixpoint apply_maxlen_loop (fuel : nat) (m : nat) (q : raq) : res raq :=
    if m <? raq_len q then
      match fuel with
      | O => Raise OutOfFuel
      | S f => let! (_, q') := raq_popleft q in apply_maxlen_loop f m q'
      end
    else Ok q.

  Definition apply_maxlen (q : raq) : res raq :=
    match maxlen q with
    | None => Ok q
    | Some m => apply_maxlen_loop (raq_len q) m q
    end.

  (** collections.py:13-18 [__init__] with an iterable [xs]. *)
  Definition raq_init (m : option nat) (xs : list A) : res raq :=
    apply_maxlen (mk_raq [] xs m).

  (** collections.py:25-27 [__iter__], materialised as a list. *)
  Definition raq_iter (q : raq) : list A := rev (front q) ++ back q.

  (** collections.py:35-56 [__getitem__]. *)
  Definition raq_get (q : raq) (i : Z) : res A :=
    if (0 <=? i)%Z then
      let nf := Z.of_nat (length (front q)) in
      if (i <? nf)%Z then py_get (front q) (py_inv i)
      else
        let i := (i - nf)%Z in
        if (i <? Z.of_nat (length (back q)))%Z then py_get (back q) i
        else Raise IndexError
    else
      let nb := Z.of_nat (length (back q)) in
      if (- nb <=? i)%Z then py_get (back q) i
      else
        let i := (i + nb)%Z in
        if (- Z.of_nat (length (front q)) <=? i)%Z then py_get (front q) (py_inv i)
        else Raise IndexError.

  (** collections.py:58-79 [__setitem__]. *)
  Definition raq_set (q : raq) (i : Z) (x : A) : res raq :=
    if (0 <=? i)%Z then
      let nf := Z.of_nat (length (front q)) in
      if (i <? nf)%Z then
        let! f := py_set (front q) (py_inv i) x in Ok (mk_raq f (back q) (maxlen q))
      else
        let i := (i - nf)%Z in
        if (i <? Z.of_nat (length (back q)))%Z then
          let! b := py_set (back q) i x in Ok (mk_raq (front q) b (maxlen q))
        else Raise IndexError
    else
      let nb := Z.of_nat (length (back q)) in
      if (- nb <=? i)%Z then
        let! b := py_set (back q) i x in Ok (mk_raq (front q) b (maxlen q))
      else
        let i := (i + nb)%Z in
        if (- Z.of_nat (length (front q)) <=? i)%Z then
          let! f := py_set (front q) (py_inv i) x in Ok (mk_raq f (back q) (maxlen q))
        else Raise IndexError.

  (** collections.py:81-84 [append]. *)
  Definition raq_append (q : raq) (x : A) : res raq :=
    let q := mk_raq (front q) (back q ++ [x]) (maxlen q) in
    match maxlen q with
    | None => Ok q
    | Some m => if m <? raq_len q then let! (_, q') := raq_popleft q in Ok q' else Ok q
    end.

  (** collections.py:86-88 [extend]. *)
  Definition raq_extend (q : raq) (xs : list A) : res raq :=
    apply_maxlen (mk_raq (front q) (back q ++ xs) (maxlen q)).

  (** collections.py:101-102 [sample]; the indices come from [sample_n_k] (see
      Model/Random.v) and are passed in as Python ints. *)
  Fixpoint raq_gets (q : raq) (ixs : list Z) : res (list A) :=
    match ixs with
    | [] => Ok []
    | i :: t => let! x := raq_get q i in let! r := raq_gets q t in Ok (x :: r)
    end.

  (** One call of the public interface (the operations a client can make). *)
  Inductive raq_op :=
  | QLen | QIter | QGet (i : Z) | QSet (i : Z) (x : A)
  | QAppend (x : A) | QExtend (xs : list A) | QPopleft.

  Inductive raq_out :=
  | RNat (n : nat) | RItem (x : A) | RList (l : list A) | RUnit | RExc (e : exc).

  (** A call: its observable outcome and the object afterwards.  An exception
      leaves the object as it was at the raise; in all raising paths above no
      attribute was assigned before the raise. *)
  Definition raq_step (q : raq) (o : raq_op) : raq_out * raq :=
    let upd_state (r : res raq) :=
      match r with Ok q' => (RUnit, q') | Raise e => (RExc e, q) end in
    match o with
    | QLen => (RNat (raq_len q), q)
    | QIter => (RList (raq_iter q), q)
    | QGet i => (match raq_get q i with Ok x => RItem x | Raise e => RExc e end, q)
    | QSet i x => upd_state (raq_set q i x)
    | QAppend x => upd_state (raq_append q x)
    | QExtend xs => upd_state (raq_extend q xs)
    | QPopleft => match raq_popleft q with
                  | Ok (x, q') => (RItem x, q')
                  | Raise e => (RExc e, q)
                  end
    end.

  Fixpoint raq_run (q : raq) (ops : list raq_op) : list raq_out * raq :=
    match ops with
    | [] => ([], q)
    | o :: t => let (r, q1) := raq_step q o in
                let (rs, q2) := raq_run q1 t in (r :: rs, q2)
    end.
End RAQ.
Arguments raq : clear implicits.
Arguments raq_op : clear implicits.
Arguments raq_out : clear implicits.
Arguments QLen {A}.
Arguments QIter {A}.
Arguments QGet {A} i.
Arguments QPopleft {A}.
Arguments RNat {A} n.
Arguments RUnit {A}.
Arguments RExc {A} e.
