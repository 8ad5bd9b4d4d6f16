(** Model of how MultiprocessVectorEnv (chainerrl/envs/multiprocess_vector_env.py) is created, asked for its spaces and its spec, closed and orphaned, and of the
    same parts of SerialVectorEnv (chainerrl/envs/serial_vector_env.py).  The calls step, reset and seed are those of Model/VectorEnv.v; here only what is in the pipes matters.
    Pipes hold any number of messages.  Processes are forked, the default on Linux. *)
From Verif Require Import Base.PyBase Model.GymEnv Model.VectorEnv.
Set Implicit Arguments.
Local Open Scope nat_scope.

Section Lifecycle.
Context {A O X SR SP SC : Type}.
Variable E : env A O X.
Variable eseed : est E -> option Z -> res (est E * SR).
(** (action_space, observation_space) and spec of an env. *)
Variable espaces : est E -> SP * SP.
Variable espec : est E -> SC.

(** multiprocess_vector_env.py:18-33: the messages to a worker and back. *)
Inductive lcmd := LCall (c : cmd (A := A)) | LSpaces | LSpec | LClose.
Inductive lreply := LReply (r : reply (O := O) (X := X) (SR := SR)) | LSpacesAre (s : SP * SP) | LSpecIs (s : SC).

(** A worker process: before [env = env_fn()], in the loop, or ended, with or without having had an env. *)
Inductive lproc := Starting (made : res (est E)) | Running (e : est E) | Ended (had_env : bool).
(** [l_closes]: how often [env.close()] has been called. *)
Record lworker := mk_lworker { l_in : list lcmd; l_out : list lreply; l_proc : lproc; l_closes : nat }.
Definition is_ended (w : lworker) : bool := match l_proc w with Ended _ => true | _ => false end.

(** multiprocess_vector_env.py:36-37: [finally: env.close()]. *)
Definition leave (w : lworker) : lworker := mk_lworker (l_in w) (l_out w) (Ended true) (S (l_closes w)).
(** multiprocess_vector_env.py:12-37 [worker]: one step; [eof]: nobody can write to its pipe any more, then recv raises EOFError.  [env_fn()] is called before the try. *)
Definition lworker_step (eof : bool) (w : lworker) : option lworker :=
  match l_proc w with
  | Starting (Ok e) => Some (mk_lworker (l_in w) (l_out w) (Running e) (l_closes w))
  | Starting (Raise _) => Some (mk_lworker (l_in w) (l_out w) (Ended false) (l_closes w))
  | Ended _ => None
  | Running e =>
      match l_in w with
      | [] => if eof then Some (leave w) else None
      | LClose :: cs => Some (leave (mk_lworker cs (l_out w) (Running e) (l_closes w)))
      | LSpaces :: cs => Some (mk_lworker cs (l_out w ++ [LSpacesAre (espaces e)]) (Running e) (l_closes w))
      | LSpec :: cs => Some (mk_lworker cs (l_out w ++ [LSpecIs (espec e)]) (Running e) (l_closes w))
      | LCall c :: cs =>
          match serve E eseed e c with
          | Ok (e, r) => Some (mk_lworker cs (l_out w ++ [LReply r]) (Running e) (l_closes w))
          | Raise _ => Some (leave (mk_lworker cs (l_out w) (Running e) (l_closes w)))
          end
      end
  end.

(** What the parent is doing: asking worker 0 (lines 64-65 and 75-76), having got the answer, closing (lines 103-106), or being dead. *)
Inductive lquery := QSpaces | QSpec.
Inductive lphase := PAsk (q : lquery) | PWait (q : lquery) | PGot (r : lreply) | PClosing (i : nat) | PJoining (i : nat) | PClosed | PDead.
Record lstate := mk_lstate { l_workers : list lworker; l_parent : lphase }.
Definition query_cmd (q : lquery) : lcmd := match q with QSpaces => LSpaces | QSpec => LSpec end.
Definition lsend (w : lworker) (c : lcmd) : lworker := mk_lworker (l_in w ++ [c]) (l_out w) (l_proc w) (l_closes w).
(** The parent keeps the workers' ends of the pipes ([self.work_remotes]), so sending to a dead worker succeeds. *)
Definition lparent_step (s : lstate) : option lstate :=
  match l_parent s with
  | PAsk q =>
      match nth_error (l_workers s) 0 with
      | Some w => Some (mk_lstate (upd (l_workers s) 0 (lsend w (query_cmd q))) (PWait q))
      | None => None
      end
  | PWait q =>
      match nth_error (l_workers s) 0 with
      | Some w => match l_out w with
                  | r :: rs => Some (mk_lstate (upd (l_workers s) 0 (mk_lworker (l_in w) rs (l_proc w) (l_closes w))) (PGot r))
                  | [] => None
                  end
      | None => None
      end
  | PClosing i =>
      match nth_error (l_workers s) i with
      | Some w => Some (mk_lstate (upd (l_workers s) i (lsend w LClose)) (PClosing (S i)))
      | None => Some (mk_lstate (l_workers s) (PJoining 0))
      end
  | PJoining i =>
      match nth_error (l_workers s) i with
      | Some w => if is_ended w then Some (mk_lstate (l_workers s) (PJoining (S i))) else None
      | None => Some (mk_lstate (l_workers s) PClosed)
      end
  | PGot _ | PClosed | PDead => None
  end.

(** Who can write to the pipe of a worker: the parent, and every process that was forked with the parent's ends open.  [inherits]: all pipes are created before the first
    fork (lines 57-62) and the workers do not close what they inherit, so this is true; false would be a program whose workers do. *)
Definition eof_for (inherits : bool) (s : lstate) : bool :=
  match l_parent s with PDead => negb inherits || forallb is_ended (l_workers s) | _ => false end.
Definition lstep (inherits : bool) (s : lstate) (p : proc) : option lstate :=
  match p with
  | Parent => lparent_step s
  | Worker i =>
      match nth_error (l_workers s) i with
      | Some w => option_map (fun w => mk_lstate (upd (l_workers s) i w) (l_parent s)) (lworker_step (eof_for inherits s) w)
      | None => None
      end
  end.
Fixpoint lrun (inherits : bool) (s : lstate) (sched : list proc) : option lstate :=
  match sched with
  | [] => Some s
  | p :: rest => match lstep inherits s p with Some s => lrun inherits s rest | None => None end
  end.
(** multiprocess_vector_env.py:48-66 [__init__] up to the question of line 64; without env_fns, [zip( *[])] of line 57 cannot be unpacked. *)
Definition linit (fns : list (res (est E))) : res lstate :=
  match fns with
  | [] => Raise ValueError
  | _ => Ok (mk_lstate (map (fun f => mk_lworker [] [] (Starting f) 0) fns) (PAsk QSpaces))
  end.

(** ** What the user sees *)
(** The env's own methods, closing, and the garbage collector's [__del__] (lines 68-70). *)
Inductive ucall := UCall (c : call A) | USpec | UClose | UDel.
(** The flag [closed] (lines 66 and 102), whether [spec] is cached (line 72: a cached property, so its body runs until it has returned once) and how often the close
    messages have been sent.  What the calls return is not of interest here, only the assertion of lines 133-134. *)
Record mp_state := mk_mp { mp_closed : bool; mp_cached : bool; mp_closes : nat }.
Definition mp_init : mp_state := mk_mp false false 0.
Definition mp_user (s : mp_state) (u : ucall) : mp_state * option exc :=
  match u with
  | UDel => if mp_closed s then (s, None) else (mk_mp true (mp_cached s) (S (mp_closes s)), None)
  | UClose => if mp_closed s then (s, Some AssertionError) else (mk_mp true (mp_cached s) (S (mp_closes s)), None)
  | UCall _ => if mp_closed s then (s, Some AssertionError) else (s, None)
  | USpec => if mp_cached s then (s, None) else if mp_closed s then (s, Some AssertionError) else (mk_mp (mp_closed s) true (mp_closes s), None)
  end.
(** serial_vector_env.py:40-42: [close] closes all envs whenever it is called; there is no [__del__] and no check. *)
Definition ser_user (n : nat) (u : ucall) : nat * option exc := match u with UClose => (S n, None) | _ => (n, None) end.
(** serial_vector_env.py:21: [spec] is set to the observation space. *)
Inductive pyspec := IsSpec (s : SC) | IsSpace (s : SP).
Definition ser_spec (e0 : est E) : pyspec := IsSpace (snd (espaces e0)).
(** multiprocess_vector_env.py:72-77: [spec] is what worker 0 answers. *)
Definition mp_spec (r : lreply) : option pyspec := match r with LSpecIs s => Some (IsSpec s) | _ => None end.
(** A history of such calls, with their exceptions. *)
Fixpoint users {S} (f : S -> ucall -> S * option exc) (s : S) (us : list ucall) : S * list (option exc) :=
  match us with
  | [] => (s, [])
  | u :: rest => let (s, x) := f s u in let (s, xs) := users f s rest in (s, x :: xs)
  end.
End Lifecycle.
Arguments Starting {A O X E}.
Arguments Running {A O X E}.
Arguments Ended {A O X E}.
Arguments is_ended {A O X SR SP SC E}.
