(** What one step of the Atari environment should do, in terms of emulator frames. *)
From Coq Require Import List Arith ZArith Bool.
From Verif Require Import Base.PyBase Model.ALEEnv.
Import ListNotations.
Set Implicit Arguments.

Section Spec.
  Variable E : Type.
  Variable act : E -> nat -> E * Z.
  Variable lives : E -> nat.
  Variable over : E -> bool.
  Variable treat_life_lost : bool.

  (** The emulator, and the total of its rewards, after a list of single-frame actions. *)
  Fixpoint play (e : E) (acts : list nat) : E * Z :=
    match acts with
    | [] => (e, 0%Z)
    | a :: acts => let (e1, r) := act e a in let (e2, t) := play e1 acts in (e2, (r + t)%Z)
    end.
  Definition after (e : E) (a k : nat) : E := fst (play e (repeat a k)).
  (** The [k]-th frame of a repeated action ends the episode. *)
  Definition stops (e : E) (a k : nat) : bool :=
    over (after e a k) || (treat_life_lost && (lives (after e a k) <? lives (after e a (k - 1)))).
  (** The action was repeated for [k] frames: until the first frame that ends the episode,
      and at most [skip] times. *)
  Definition repeated (skip : nat) (e : E) (a k : nat) : Prop :=
    1 <= k <= skip /\ (forall j, 1 <= j < k -> stops e a j = false) /\ (k < skip -> stops e a k = true).
  Definition last_items {T : Type} (n : nat) (l : list T) : list T := skipn (length l - n) l.
End Spec.

Section Images.
  Variables E S I : Type.
  Variable screen : E -> S.
  Variable join : S -> S -> S.
  Variable process : S -> I.
  Variable act : E -> nat -> E * Z.
  Variable lives : E -> nat.
  (** The first image of an episode, and the image of a step of [k] frames: the maximum of
      its last two screens. *)
  Definition first_image (e : E) : I := process (join (screen e) (screen e)).
  Definition image (e : E) (a k : nat) : I := process (join (screen (after act e a k)) (screen (after act e a (k - 1)))).
  (** Between calls: lives are up to date and there are [n] screens. *)
  Definition ready (n : nat) (st : ale E S I) : Prop := a_lives st = lives (emu st) /\ length (screens st) = n.
End Images.
(** Actions with their numbers of repetitions, frame by frame. *)
Fixpoint expand (al : list (nat * nat)) : list nat := match al with [] => [] | (a, k) :: al => repeat a k ++ expand al end.
