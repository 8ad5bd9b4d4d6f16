(** Stateful recurrent models: chainerrl/recurrent.py.

    The state of an L.LSTM link is the pair (c, h), both None until the link
    is evaluated: [option V] (c and h are set and reset together by chainer's
    LSTM).  A model that implements Recurrent itself is [Custom]: it holds one
    value, which its get_state / set_state / reset_state read, write and reset
    to [w0] (the interface's contract).  Links are identified by numbers and
    their states live in a store, as several models can share links. *)
From Verif Require Import Base.PyBase.
Set Implicit Arguments.

Section Rec.
Variables V W : Type.
Variable w0 : W.

(** Links: L.LSTM, a custom Recurrent model, any other link without children,
    a plain chain, and a chain with RecurrentChainMixin. *)
Inductive link :=
| Lstm (id : nat)
| Custom (id : nat)
| Plain
| Chain (ls : list link)
| RChain (ls : list link).

Record store := { lstms : nat -> option V; customs : nat -> W }.

(** Values returned by get_state. *)
Inductive st := SLstm (v : option V) | SCustom (w : W) | SNone | SList (l : list st).

(** chainerrl/recurrent.py:91-103 [get_state], for one child; the children of
    a chain are visited in order. *)
Fixpoint get_state (m : store) (l : link) : st :=
  match l with
  | Lstm i => SLstm (lstms m i)
  | Custom i => SCustom (customs m i)
  | Plain => SNone
  | Chain ls | RChain ls => SList (map (get_state m) ls)
  end.

Definition set_lstm (m : store) (i : nat) (v : option V) : store :=
  {| lstms := fun j => if j =? i then v else lstms m j; customs := customs m |}.
Definition set_custom (m : store) (i : nat) (w : W) : store :=
  {| lstms := lstms m; customs := fun j => if j =? i then w else customs m j |}.

(** chainerrl/recurrent.py:115-128 [set_state], for one child.  The state of an
    LSTM is only written if it is not None.  [zip] stops at the shorter list.
    A state of the wrong form raises (the precise exception depends on the
    form: unpacking, assertion, or an error of chainer). *)
Definition set_all (set : store -> link -> st -> res store) :=
  fix go (m : store) (ls : list link) (ss : list st) {struct ls} : res store :=
  match ls, ss with
  | l :: ls, s :: ss => let! m := set m l s in go m ls ss
  | _, _ => Ok m
  end.
Fixpoint set_state (m : store) (l : link) (s : st) {struct l} : res store :=
  match l with
  | Lstm i => match s with
              | SLstm None => Ok m
              | SLstm (Some v) => Ok (set_lstm m i (Some v))
              | _ => Raise ValueError
              end
  | Custom i => match s with SCustom w => Ok (set_custom m i w) | _ => Raise TypeError end
  | Plain => match s with SNone => Ok m | _ => Raise AssertionError end
  | Chain ls | RChain ls => match s with SList ss => set_all set_state m ls ss | _ => Raise TypeError end
  end.

(** chainerrl/recurrent.py:131-139 [reset_state]. *)
Fixpoint reset_state (m : store) (l : link) : store :=
  match l with
  | Lstm i => set_lstm m i None
  | Custom i => set_custom m i w0
  | Plain => m
  | Chain ls | RChain ls => fold_left reset_state ls m
  end.

(** [isinstance(link, Recurrent)]. *)
Definition is_recurrent (l : link) : bool := match l with Custom _ | RChain _ => true | _ => false end.

(** The whole state: the links' states and the stack of saved states, which is
    one list shared by all models (chainerrl/recurrent.py:29). *)
Record world := { mem : store; stack : list st }.

(** chainerrl/recurrent.py:61-69 [push_state], [push_and_keep_state],
    [pop_state]. *)
Definition push_and_keep (w : world) (l : link) : world :=
  {| mem := mem w; stack := get_state (mem w) l :: stack w |}.
Definition push (w : world) (l : link) : world :=
  {| mem := reset_state (mem w) l; stack := get_state (mem w) l :: stack w |}.
Definition pop (w : world) (l : link) : res unit * world :=
  match stack w with
  | [] => (Raise IndexError, w)
  | s :: stk =>
      match set_state (mem w) l s with
      | Ok m => (Ok tt, {| mem := m; stack := stk |})
      | Raise e => (Raise e, {| mem := mem w; stack := stk |})
      end
  end.

(** User code around the context managers: anything that changes the states
    of links ([Do]: evaluations, resets), raising, catching every exception,
    and the two context managers, nested at will. *)
Inductive prog :=
| Do (f : store -> store)
| Fail (e : exc)
| Seq (p q : prog)
| Try (p q : prog)
| WithKept (l : link) (p : prog)
| WithReset (l : link) (p : prog).

(** chainerrl/recurrent.py:160-192 [state_kept] and :195-228 [state_reset]: an
    exception in the body is thrown into the generator at the [yield], so the
    pop after it is skipped.  (A failing pop inside set_state may have written
    part of the state; the model keeps the old one.) *)
Fixpoint exec (p : prog) (w : world) : res unit * world :=
  match p with
  | Do f => (Ok tt, {| mem := f (mem w); stack := stack w |})
  | Fail e => (Raise e, w)
  | Seq p q => match exec p w with (Ok _, w') => exec q w' | r => r end
  | Try p q => match exec p w with (Raise _, w') => exec q w' | r => r end
  | WithKept l p =>
      if is_recurrent l then
        match exec p (push_and_keep w l) with (Ok _, w') => pop w' l | r => r end
      else exec p w
  | WithReset l p =>
      if is_recurrent l then
        match exec p (push w l) with (Ok _, w') => pop w' l | r => r end
      else exec p w
  end.
End Rec.
