(** What the toy problem should do, stated on whole action sequences. *)
From Coq Require Import List Arith ZArith Bool.
From Verif Require Import Model.ABCEnv.
Import ListNotations.

Definition one_hot (n i : nat) : list Z := map (fun j => if j =? i then 1%Z else 0%Z) (seq 0 n).
(** The correct actions 0, 1, 2, ... *)
Definition in_order (n : nat) : list Z := map Z.of_nat (seq 0 n).
Definition all_correct (actions : list Z) : bool := if list_eq_dec Z.eq_dec actions (in_order (length actions)) then true else false.
(** Without episodes: how many correct actions were taken; after [h] of them the correct
    action is [h mod size]. *)
Definition hit (size h : nat) (a : Z) : bool := (a =? Z.of_nat (h mod size))%Z.
Definition hits (size : nat) (actions : list Z) : nat := fold_left (fun h a => if hit size h a then S h else h) actions 0.
(** Actions of the action space. *)
Definition in_space (size : nat) (a : Z) : Prop := (0 <= a < Z.of_nat size)%Z.
Definition total (l : list Z) : Z := fold_right Z.add 0%Z l.
(** Legal use of the environment: actions of the space, random draws of 0 or 1. *)
Definition op_ok (c : abc_conf) (o : abc_op) : Prop := match o with AReset d => d <= 1 | AStep a => in_space (a_size c) a end.
(** How many episodes were started. *)
Definition is_reset (o : abc_op) : bool := match o with AReset _ => true | AStep _ => false end.
Definition resets (ops : list abc_op) : nat := length (filter is_reset ops).
