(** What a user of environment wrappers relies on, in terms of the calls made to
    the wrapped environment and their results. *)
From Coq Require Import QArith.
From Verif Require Import Base.PyBase Model.GymEnv.
Set Implicit Arguments.
Local Open Scope nat_scope.

(** ** Time limits *)

(** Number of steps since the last reset; [None] when there was none. *)
Definition steps_since {A} (start : option nat) (ops : list (op A)) : option nat :=
  fold_left (fun n o => match o with Reset => Some 0 | Step _ => option_map S n end) ops start.

Definition reached (limit : Z) (n : option nat) : bool :=
  match n with Some n => (limit <=? Z.of_nat n)%Z | None => false end.

(** The result [x], with the needs_reset flag (resp. done) also set if [b]. *)
Definition flag_needs_reset {O X} (b : bool) (x : out O X) : out O X :=
  match x with
  | OReset o => OReset o
  | OStep s => OStep (mk_sout (so_obs s) (so_rew s) (so_done s)
                              (mk_info (needs_reset (so_info s) || b) (other (so_info s))))
  end.
Definition flag_done {O X} (b : bool) (x : out O X) : out O X :=
  match x with
  | OReset o => OReset o
  | OStep s => OStep (mk_sout (so_obs s) (so_rew s) (so_done s || b) (so_info s))
  end.

(** ** Frame stacking *)

(** Observations since the last reset, inclusive. *)
Definition episode {O X} (outs : list (out O X)) : list O :=
  fold_left (fun ep x => match x with OReset o => [o] | OStep s => ep ++ [so_obs s] end) outs [].

Definition lastn {T} (k : nat) (l : list T) : list T := skipn (length l - k) l.

(** The last [k] frames of an episode, padded on the left with its first one. *)
Definition window {T} (k : nat) (ep : list T) : list T :=
  match ep with [] => [] | o :: _ => lastn k (repeat o k ++ ep) end.

Definition with_obs {O O' X} (ob : O') (x : out O X) : out O' X :=
  match x with
  | OReset _ => OReset ob
  | OStep s => OStep (mk_sout ob (so_rew s) (so_done s) (so_info s))
  end.

(** ** Wrappers that make several inner calls per call *)

Inductive Forall3 {T U V} (R : T -> U -> V -> Prop) : list T -> list U -> list V -> Prop :=
| F3_nil : Forall3 R [] [] []
| F3_cons : forall t u v ts us vs, R t u v -> Forall3 R ts us vs -> Forall3 R (t :: ts) (u :: us) (v :: vs).

(** The wrapped environment, called as in [log], answered as in [log]. *)
Definition ran {A O X} (E : env A O X) (e : est E) (log : list (op A * out O X)) (e' : est E) : Prop :=
  run E e (map fst log) = Ok (e', map snd log).

Definition qsum (l : list Q) : Q := fold_right Qplus 0%Q l.

(** A frame-skipping step: action [a] was repeated, at most [n] times, stopping
    early exactly at a result satisfying [stop]; rewards are summed and done and
    info are the last ones. *)
Definition skips {A O X} (stop : sout O X -> bool) (n : nat) (a : A) (y : sout O X)
           (log : list (op A * out O X)) (ss : list (sout O X)) (z : sout O X) : Prop :=
  log = map (fun s => (Step a, OStep s)) (ss ++ [z]) /\
  Forall (fun s => stop s = false) ss /\
  length ss < n /\ (S (length ss) < n -> stop z = true) /\
  (so_rew y == qsum (map (@so_rew O X) (ss ++ [z])))%Q /\
  so_done y = so_done z /\ so_info y = so_info z.

(** The no-op phase of a reset: [log] consists of [n] no-op steps, each followed by
    a reset exactly if it ended the episode; [o] is the current observation at the
    end, given that it was [o0] at the start. *)
Inductive noops {A O X} (noop : A) : nat -> O -> list (op A * out O X) -> O -> Prop :=
| noops_none : forall o, noops noop 0 o [] o
| noops_live : forall n o0 s log o, terminal s = false -> noops noop n (so_obs s) log o ->
    noops noop (S n) o0 ((Step noop, OStep s) :: log) o
| noops_over : forall n o0 s o1 log o, terminal s = true -> noops noop n o1 log o ->
    noops noop (S n) o0 ((Step noop, OStep s) :: (Reset, OReset o1) :: log) o.

(** The last result of a step among the first [i] calls of a history. *)
Definition last_step {A O X} (ops : list (op A)) (xs : list (out O X)) (i : nat) : option (sout O X) :=
  fold_left (fun acc p => match p with (Step _, OStep s) => Some s | _ => acc end)
            (combine (firstn i ops) (firstn i xs)) None.

(** One call of MaxAndSkipEnv: a full run of [skip] frames shows the maximum of
    the last two frames ([zero], the initial buffer, with the only frame if skip = 1). *)
Definition ms_rel {A O X} (omax : O -> O -> O) (skip : nat) (zero : O) (o : op A) (y : out O X) (log : list (op A * out O X)) : Prop :=
  match o, y with
  | Reset, OReset ob => log = [(Reset, OReset ob)]
  | Step a, OStep s => exists ss z, skips (@terminal O X) skip a s log ss z /\
      (S (length ss) = skip ->
       so_obs s = omax (match rev ss with p :: _ => so_obs p | [] => zero end) (so_obs z))
  | _, _ => False
  end.

(** One call of an action-repeating environment. *)
Definition rep_rel {A O X} (n : nat) (o : op A) (y : out O X) (log : list (op A * out O X)) : Prop :=
  match o, y with
  | Reset, OReset ob => log = [(Reset, OReset ob)]
  | Step a, OStep s => exists ss z, skips (@so_done O X) n a s log ss z /\ so_obs s = so_obs z
  | _, _ => False
  end.

(** One call of NoopResetEnv. *)
Definition nr_rel {A O X} (noop : A) (draw : nat -> Prop) (o : op A) (y : out O X) (log : list (op A * out O X)) : Prop :=
  match o, y with
  | Reset, OReset ob => exists n o0 l, draw n /\ 0 < n /\ log = (Reset, OReset o0) :: l /\ noops noop n o0 l ob
  | Step a, OStep s => log = [(Step a, OStep s)]
  | _, _ => False
  end.
