(** Model of chainerrl/envs/ale.py:138-246.  The emulator is an oracle: a state with a
    screen, a number of lives and a game-over flag, advanced one frame by [act].  Screens
    and their processing (luminance, resizing, cropping) are opaque; [join] is the pixelwise
    maximum. *)
From Coq Require Import List Arith ZArith Bool.
From Verif Require Import Base.PyBase.
Import ListNotations.
Set Implicit Arguments.

Section ALE.
  Variables E S I : Type.
  Variable act : E -> nat -> E * Z.
  Variable screen : E -> S.
  Variable lives : E -> nat.
  Variable over : E -> bool.
  Variable reset_game : E -> E.
  Variable join : S -> S -> S.
  Variable process : S -> I.
  Variable blank : I.
  Variable legal : list nat.
  (** The constructor's parameters, ale.py:77-89. *)
  Variables n_last_screens frame_skip : nat.
  Variable treat_life_lost : bool.

  Record ale := mk_ale { emu : E; a_lives : nat; lives_lost : bool; last_raw : option S; screens : list I; a_reward : Z }.

  (** ale.py:169-174. *)
  Definition is_terminal (st : ale) : bool := if treat_life_lost then lives_lost st || over (emu st) else over (emu st).
  (** ale.py:164-167. *)
  Definition state (st : ale) : res (list I) := assert! Nat.eqb (length (screens st)) n_last_screens in Ok (screens st).
  (** [collections.deque(l, maxlen)] and its [append]. *)
  Definition deque (maxlen : nat) (l : list I) : list I := skipn (length l - maxlen) l.
  Definition append (maxlen : nat) (l : list I) (x : I) : list I := deque maxlen (l ++ [x]).
  (** ale.py:138-162; returns the processed screen, forgetting the raw one. *)
  Definition current_screen (st : ale) : res (I * ale) :=
    match last_raw st with
    | None => Raise AssertionError
    | Some raw => Ok (process (join (screen (emu st)) raw), mk_ale (emu st) (a_lives st) (lives_lost st) None (screens st) (a_reward st))
    end.
  (** ale.py:187-208: the loop over frames; [remaining] counts down. *)
  Fixpoint frames (remaining : nat) (action : Z) (st : ale) (rewards : list Z) : res (ale * list Z) :=
    match remaining with
    | 0 => Ok (st, rewards)
    | Datatypes.S rest =>
      let raw := if Nat.eqb rest 0 then Some (screen (emu st)) else last_raw st in
      let! a := py_get legal action in
      let (e, r) := act (emu st) a in
      let lost := lives e <? a_lives st in
      let st := mk_ale e (lives e) lost raw (screens st) (a_reward st) in
      if is_terminal st then Ok (st, rewards ++ [r]) else frames rest action st (rewards ++ [r])
    end.
  Definition zsum (l : list Z) : Z := fold_left Z.add l 0%Z.
  (** ale.py:184-217. *)
  Definition receive_action (action : Z) (st : ale) : res ale :=
    assert! negb (is_terminal st) in
    let! (st, rewards) := frames frame_skip action st [] in
    let! st := (if is_terminal st then Ok st
                else let! (img, st) := current_screen st in
                     Ok (mk_ale (emu st) (a_lives st) (lives_lost st) (last_raw st) (append n_last_screens (screens st) img) (a_reward st))) in
    Ok (mk_ale (emu st) (a_lives st) (lives_lost st) (last_raw st) (screens st) (zsum rewards)).
  Fixpoint nullops (n : nat) (e : E) : E := match n with 0 => e | Datatypes.S n => nullops n (fst (act e 0)) end.
  (** ale.py:219-239; [n] is the number of null actions drawn (0 if
      [max_start_nullops <= 0]). *)
  Definition initialize (n : nat) (e : E) : res ale :=
    let e := if over e then reset_game e else e in
    let e := nullops n e in
    let st := mk_ale e 0 false (Some (screen e)) [] 0%Z in
    let! (img, st) := current_screen st in
    Ok (mk_ale e (lives e) false (last_raw st) (deque n_last_screens (repeat blank (n_last_screens - 1) ++ [img])) 0%Z).
  (** ale.py:241-248. *)
  Definition reset (n : nat) (st : ale) : res (list I * ale) :=
    let! st := initialize n (emu st) in let! o := state st in Ok (o, st).
  Definition step (action : Z) (st : ale) : res (list I * Z * bool * ale) :=
    let! st := receive_action action st in let! o := state st in Ok (o, a_reward st, is_terminal st, st).
  (** A sequence of steps of one episode: all but the last must not be terminal. *)
  Fixpoint steps (actions : list Z) (st : ale) : res (list (list I * Z * bool) * ale) :=
    match actions with
    | [] => Ok ([], st)
    | a :: actions =>
      let! (o, r, d, st) := step a st in
      let! (out, st) := steps actions st in Ok ((o, r, d) :: out, st)
    end.
End ALE.
