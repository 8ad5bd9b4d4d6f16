(** What a user of vector environments relies on. *)
From Verif Require Import Base.PyBase Model.GymEnv Model.VectorEnv.
Set Implicit Arguments.

(** ** Frame stacking *)

(** The part of a vector result that concerns env [i]. *)
Definition item {O X} (x : vout O X) (i : nat) : option (out O X) :=
  match x with
  | VOReset obs => option_map OReset (nth_error obs i)
  | VOStep ss => option_map OStep (nth_error ss i)
  end.
Definition width_ {O X} (x : vout O X) : nat :=
  match x with VOReset obs => length obs | VOStep ss => length ss end.

(** Whether a call leaves env [i] alone. *)
Definition masked {A} (o : vop A) (i : nat) : bool :=
  match o with VReset (Some m) => nth i m false | _ => false end.

(** The observations of env [i] since it was last reset, inclusive. *)
Definition vepisode {A O X} (i : nat) (hist : list (vop A * vout O X)) : list O :=
  fold_left (fun ep p => if masked (fst p) i then ep else
                         match item (snd p) i with
                         | Some (OReset o) => [o]
                         | Some (OStep s) => ep ++ [so_obs s]
                         | None => ep
                         end) hist [].

(** Calls of the right shape for [n] envs, the first one resetting all of them. *)
Definition op_fits {A} (n : nat) (o : vop A) : Prop :=
  match o with VReset (Some m) => length m = n | _ => True end.
Definition resets_all {A} (o : vop A) : Prop :=
  match o with VReset m => match m with Some l => Forall (fun b => b = false) l | None => True end | VStep _ => False end.
(** The wrapped vector env answers for each env, with an answer fitting the call. *)
Definition answers_all {A O X} (V : venv A O X) : Prop :=
  forall v o v' x, vexec V v o = Ok (v', x) -> width_ x = v_num V.

(** ** Serial and multiprocess *)

Definition call_fits {A} (n : nat) (c : call A) : Prop :=
  match c with
  | KReset (Some m) => length m = n
  | KReset None => True
  | KStep acts => length acts = n
  | KSeed (SeedList l) => length l = n
  | KSeed _ => False
  end.

(** Same results, except that SerialVectorEnv.seed returns None. *)
Definition same_answer {O X SR} (s m : answer O X SR) : Prop :=
  match s with ASeedNone => exists rs, m = ASeed rs | _ => m = s end.
