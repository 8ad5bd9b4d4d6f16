(** C01: RandomAccessQueue behaves like a bounded list. *)
From Verif Require Import Base.PyBase Model.RandomAccessQueue Spec.BoundedList Proofs.RandomAccessQueueProofs.

(** Every queue, built from any content with any bound, answers every sequence
    of calls as the plain bounded list does (exceptions included), and never
    holds more than [maxlen] items. *)
Theorem C01_queue_refines_bounded_list :
  forall (A : Type) (m : option nat) (xs : list A) (ops : list (raq_op A)),
  exists q0 q1, raq_init m xs = Ok q0 /\
    raq_run q0 ops = (fst (bl_run m (trim m xs) ops), q1) /\
    raq_iter q1 = snd (bl_run m (trim m xs) ops) /\
    match m with None => True | Some b => raq_len q1 <= b end.
Proof. exact @raq_refines. Qed.
Print Assumptions C01_queue_refines_bounded_list.

(** The specification at work on a history mixing every operation. *)
Example C01_example :
  bl_run (Some 3) (trim (Some 3) [1; 2; 3; 4])
    [QGet 0; QGet (-1); QAppend 5; QSet (-3) 9; QIter; QPopleft; QGet 2; QExtend [6; 7]; QLen]
  = ([RItem 2; RItem 4; RUnit; RUnit; RList [9; 4; 5]; RItem 9; RExc IndexError; RUnit; RNat 3], [5; 6; 7]).
Proof. reflexivity. Qed.
