(** Models of chainerrl/wrappers/vector_frame_stack.py lines 51-97
    (VectorFrameStack), chainerrl/envs/serial_vector_env.py and
    chainerrl/envs/multiprocess_vector_env.py. *)
From Coq Require Import QArith.
From Verif Require Import Base.PyBase Model.GymEnv Model.Wrappers.
Set Implicit Arguments.
Local Open Scope nat_scope.

(** ** VectorFrameStack over an arbitrary vector env *)

(** A vector env as a state machine.  A mask entry True means: do not reset. *)
Record venv (A O X : Type) := mk_venv {
  vst : Type;
  v_num : nat;
  v_step : vst -> list A -> res (vst * list (sout O X));
  v_reset : vst -> option (list bool) -> res (vst * list O) }.
Arguments mk_venv {A O X vst}.

Inductive vop (A : Type) := VReset (mask : option (list bool)) | VStep (acts : list A).
Arguments VReset {A}.
Arguments VStep {A}.
Inductive vout (O X : Type) := VOReset (obs : list O) | VOStep (ss : list (sout O X)).
Arguments VOReset {O X}.
Arguments VOStep {O X}.

Definition vexec {A O X} (V : venv A O X) (v : vst V) (o : vop A) : res (vst V * vout O X) :=
  match o with
  | VReset m => let! r := v_reset V v m in let '(v, obs) := r in Ok (v, VOReset obs)
  | VStep acts => let! r := v_step V v acts in let '(v, ss) := r in Ok (v, VOStep ss)
  end.
Fixpoint vrun {A O X} (V : venv A O X) (v : vst V) (ops : list (vop A)) : res (vst V * list (vout O X)) :=
  match ops with
  | [] => Ok (v, [])
  | o :: rest =>
      let! r := vexec V v o in
      let '(v, x) := r in
      let! rr := vrun V v rest in
      let '(v, xs) := rr in
      Ok (v, x :: xs)
  end.

Section FrameStack.
Context {A O X : Type}.
Variable V : venv A O X.
Variable k : nat.

(** vector_frame_stack.py:78-81: the loop of reset over zip(mask, frames, batch_ob). *)
Fixpoint vfs_push_reset (mask : list bool) (frames : list (list O)) (obs : list O) : list (list O) :=
  match mask, frames, obs with
  | m :: ms, q :: qs, o :: os =>
      (if m then q else Nat.iter k (fun q => deque_push k q o) q) :: vfs_push_reset ms qs os
  | _, _, _ => frames
  end.
(** vector_frame_stack.py:86-87: the loop of step over zip(frames, batch_ob). *)
Fixpoint vfs_push_step (frames : list (list O)) (obs : list O) : list (list O) :=
  match frames, obs with
  | q :: qs, o :: os => deque_push k q o :: vfs_push_step qs os
  | _, _ => frames
  end.
(** vector_frame_stack.py:90-94 [_get_ob]. *)
Definition vfs_get_ob (frames : list (list O)) : res (list (list O)) :=
  assert! length frames =? v_num V in
  match frames with
  | [] => Raise IndexError
  | q :: _ => assert! length q =? k in Ok frames
  end.
(** vector_frame_stack.py:74-82 [reset]. *)
Definition vfs_reset (s : list (list O) * vst V) (mask : option (list bool))
  : res (list (list O) * vst V * list (list O)) :=
  let! r := v_reset V (snd s) mask in
  let '(v, obs) := r in
  let mask := match mask with Some m => m | None => repeat false (v_num V) end in
  let frames := vfs_push_reset mask (fst s) obs in
  let! ob := vfs_get_ob frames in
  Ok (frames, v, ob).
(** vector_frame_stack.py:84-88 [step]. *)
Definition vfs_step (s : list (list O) * vst V) (acts : list A)
  : res (list (list O) * vst V * list (sout (list O) X)) :=
  let! r := v_step V (snd s) acts in
  let '(v, ss) := r in
  let frames := vfs_push_step (fst s) (map (@so_obs O X) ss) in
  let! ob := vfs_get_ob frames in
  Ok (frames, v, map (fun p => mk_sout (fst p) (so_rew (snd p)) (so_done (snd p)) (so_info (snd p)))
                     (combine ob ss)).
(** vector_frame_stack.py:62-72 [__init__]: one empty deque per env. *)
Definition vfs_init : list (list O) := repeat [] (v_num V).
Definition vector_frame_stack : venv A (list O) X := mk_venv (v_num V) vfs_step vfs_reset.
End FrameStack.

(** ** SerialVectorEnv and MultiprocessVectorEnv *)
Section Vector.
Context {A O X SR : Type}.
(** The envs; a state can encode which env it is, so envs may differ.  [eseed] is
    env.seed. *)
Variable E : env A O X.
Variable eseed : est E -> option Z -> res (est E * SR).

(** The argument of seed. *)
Inductive seeds := SeedNone | SeedInt (z : Z) | SeedList (l : list (option Z)).

Inductive call :=
| KReset (mask : option (list bool))
| KStep (acts : list A)
| KSeed (s : seeds).

(** What a call returns.  [last_obs] may still contain None. *)
Inductive answer :=
| AReset (obs : list (option O))
| AStep (ss : list (sout O X))
| ASeedNone
| ASeed (rs : list SR).

(** *** Serial: the state is (envs, last_obs). *)
Definition sstate := (list (est E) * list (option O))%type.

(** serial_vector_env.py:25-26: [env.step(a) for env, a in zip(envs, actions)]. *)
Fixpoint ser_steps (es : list (est E)) (acts : list A) : res (list (est E) * list (sout O X)) :=
  match es, acts with
  | e :: es', a :: acts' =>
      let! r := estep E e a in
      let '(e, s) := r in
      let! rr := ser_steps es' acts' in
      let '(es', ss) := rr in
      Ok (e :: es', s :: ss)
  | _, _ => Ok (es, [])
  end.
(** serial_vector_env.py:33-34. *)
Fixpoint ser_resets (mask : list bool) (es : list (est E)) (last : list (option O))
  : res (list (est E) * list (option O)) :=
  match mask, es, last with
  | m :: ms, e :: es', o :: os =>
      let! r := (if m then Ok (e, o)
                 else let! r := ereset E e in let '(e, ob) := r in Ok (e, Some ob)) in
      let '(e, o) := r in
      let! rr := ser_resets ms es' os in
      let '(es', os) := rr in
      Ok (e :: es', o :: os)
  | _, _, _ => Ok (es, [])
  end.
(** serial_vector_env.py:38-40. *)
Fixpoint ser_seeds (es : list (est E)) (l : list (option Z)) : res (list (est E)) :=
  match es, l with
  | e :: es', z :: l' =>
      let! r := eseed e z in
      let '(e, _) := r in
      let! es' := ser_seeds es' l' in
      Ok (e :: es')
  | _, _ => Ok es
  end.
(** serial_vector_env.py:24-40 [step], [reset], [seed].  [zip( *[])] cannot be
    unpacked: ValueError. *)
Definition ser_call (s : sstate) (c : call) : res (sstate * answer) :=
  let '(es, last) := s in
  match c with
  | KStep acts =>
      let! r := ser_steps es acts in
      let '(es, ss) := r in
      match ss with
      | [] => Raise ValueError
      | _ => Ok ((es, map (fun x => Some (so_obs x)) ss), AStep ss)
      end
  | KReset mask =>
      let mask := match mask with Some m => m | None => repeat false (length es) end in
      let! r := ser_resets mask es last in
      let '(es, obs) := r in
      Ok ((es, obs), AReset obs)
  | KSeed (SeedList l) => let! es := ser_seeds es l in Ok ((es, last), ASeedNone)
  | KSeed _ => Raise TypeError
  end.
Fixpoint ser_calls (s : sstate) (cs : list call) : res (sstate * list answer) :=
  match cs with
  | [] => Ok (s, [])
  | c :: rest =>
      let! r := ser_call s c in
      let '(s, a) := r in
      let! rr := ser_calls s rest in
      let '(s, l) := rr in
      Ok (s, a :: l)
  end.
Definition ser_init (es : list (est E)) : sstate := (es, repeat None (length es)).

(** *** Multiprocess *)

(** Messages; 'get_spaces', 'spec' and 'close' are left out. *)
Inductive cmd := CStep (a : A) | CReset | CSeed (z : option Z).
Inductive reply := RStep (s : sout O X) | RReset (o : O) | RSeed (r : SR).

(** One worker process with its two pipe directions; [None] as env: the worker
    died from an exception in the env.  The parent keeps the worker's end of the
    pipe open, so a dead worker is not noticed by recv. *)
Record worker := mk_worker { w_in : list cmd; w_out : list reply; w_env : option (est E) }.

(** multiprocess_vector_env.py:11-33 [worker]: one iteration of the loop. *)
Definition serve (e : est E) (c : cmd) : res (est E * reply) :=
  match c with
  | CStep a => let! r := estep E e a in let '(e, s) := r in Ok (e, RStep s)
  | CReset => let! r := ereset E e in let '(e, o) := r in Ok (e, RReset o)
  | CSeed z => let! r := eseed e z in let '(e, x) := r in Ok (e, RSeed x)
  end.
Definition worker_step (w : worker) : option worker :=
  match w_env w, w_in w with
  | Some e, c :: cs =>
      match serve e c with
      | Ok (e, r) => Some (mk_worker cs (w_out w ++ [r]) (Some e))
      | Raise _ => Some (mk_worker cs (w_out w) None)
      end
  | _, _ => None
  end.

(** The parent: between calls, in the sending loop, in the receiving loop, or out
    of the program by an exception. *)
Inductive phase :=
| Ready
| Sending (c : call) (i : nat)
| Receiving (c : call) (i : nat) (acc : list (option reply))
| Failed (e : exc).

Record mstate := mk_mstate {
  m_workers : list worker;
  m_last : list (option O);
  m_phase : phase;
  m_todo : list call;
  m_done : list answer }.

(** multiprocess_vector_env.py:78,88-90,107-122: what the sending loop sends to
    worker [i], if anything. *)
Definition request (n : nat) (c : call) (i : nat) : option cmd :=
  match c with
  | KStep acts => option_map CStep (nth_error acts i)
  | KReset None => Some CReset
  | KReset (Some m) => match nth_error m i with Some false => Some CReset | _ => None end
  | KSeed SeedNone => Some (CSeed None)
  | KSeed (SeedInt z) => Some (CSeed (Some z))
  | KSeed (SeedList l) => option_map CSeed (nth_error l i)
  end.
(** multiprocess_vector_env.py:107-117: argument checks of seed. *)
Definition admissible (n : nat) (c : call) : bool :=
  match c with KSeed (SeedList l) => length l =? n | _ => true end.
(** Number of iterations of the receiving loop: step (line 79) and seed (line 123)
    receive from all, reset (lines 92-93) from zip(mask, remotes, last_obs). *)
Definition recv_bound (n : nat) (last : list (option O)) (c : call) : nat :=
  match c with
  | KReset (Some m) => Nat.min (length m) (Nat.min n (length last))
  | KReset None => Nat.min n (length last)
  | _ => n
  end.
(** Whether the receiving loop calls recv for worker [i]. *)
Definition expects (c : call) (i : nat) : bool :=
  match c with
  | KReset (Some m) => match nth_error m i with Some true => false | _ => true end
  | _ => true
  end.
(** The result of the call from the collected replies; [None] marks a masked env.
    A reply of the wrong kind cannot be unpacked or would be returned as it is:
    TypeError. *)
Fixpoint collect_steps (l : list (option reply)) : option (list (sout O X)) :=
  match l with
  | [] => Some []
  | Some (RStep s) :: l => option_map (cons s) (collect_steps l)
  | _ => None
  end.
Fixpoint collect_seeds (l : list (option reply)) : option (list SR) :=
  match l with
  | [] => Some []
  | Some (RSeed r) :: l => option_map (cons r) (collect_seeds l)
  | _ => None
  end.
Fixpoint collect_resets (l : list (option reply)) (last : list (option O)) : option (list (option O)) :=
  match l, last with
  | [], _ => Some []
  | Some (RReset o) :: l, _ :: last => option_map (cons (Some o)) (collect_resets l last)
  | None :: l, o :: last => option_map (cons o) (collect_resets l last)
  | _, _ => None
  end.
(** multiprocess_vector_env.py:80-81, 94-95, 124: last_obs afterwards, and the result. *)
Definition finish_call (c : call) (acc : list (option reply)) (last : list (option O))
  : res (list (option O) * answer) :=
  match c with
  | KStep _ => match collect_steps acc with
               | None => Raise TypeError
               | Some [] => Raise ValueError
               | Some ss => Ok (map (fun x => Some (so_obs x)) ss, AStep ss)
               end
  | KReset _ => match collect_resets acc last with
                | None => Raise TypeError
                | Some obs => Ok (obs, AReset obs)
                end
  | KSeed _ => match collect_seeds acc with
               | None => Raise TypeError
               | Some rs => Ok (last, ASeed rs)
               end
  end.

(** One atomic step of the parent; [None]: blocked (in recv) or finished. *)
Definition parent_step (s : mstate) : option mstate :=
  let n := length (m_workers s) in
  match m_phase s with
  | Failed _ => None
  | Ready =>
      match m_todo s with
      | [] => None
      | c :: cs =>
          if admissible n c then Some (mk_mstate (m_workers s) (m_last s) (Sending c 0) cs (m_done s))
          else Some (mk_mstate (m_workers s) (m_last s) (Failed ValueError) cs (m_done s))
      end
  | Sending c i =>
      match nth_error (m_workers s) i with
      | None => Some (mk_mstate (m_workers s) (m_last s) (Receiving c 0 []) (m_todo s) (m_done s))
      | Some w =>
          let w := match request n c i with
                   | Some q => mk_worker (w_in w ++ [q]) (w_out w) (w_env w)
                   | None => w
                   end in
          Some (mk_mstate (upd (m_workers s) i w) (m_last s) (Sending c (S i)) (m_todo s) (m_done s))
      end
  | Receiving c i acc =>
      if i <? recv_bound n (m_last s) c then
        if expects c i then
          match nth_error (m_workers s) i with
          | Some w => match w_out w with
                      | r :: rs => Some (mk_mstate (upd (m_workers s) i (mk_worker (w_in w) rs (w_env w)))
                                           (m_last s) (Receiving c (S i) (acc ++ [Some r])) (m_todo s) (m_done s))
                      | [] => None
                      end
          | None => None
          end
        else Some (mk_mstate (m_workers s) (m_last s) (Receiving c (S i) (acc ++ [None])) (m_todo s) (m_done s))
      else
        match finish_call c acc (m_last s) with
        | Ok (last, a) => Some (mk_mstate (m_workers s) last Ready (m_todo s) (m_done s ++ [a]))
        | Raise ex => Some (mk_mstate (m_workers s) (m_last s) (Failed ex) (m_todo s) (m_done s))
        end
  end.

(** A schedule says which process moves next: the parent or worker [i]. *)
Inductive proc := Parent | Worker (i : nat).
Definition mstep (s : mstate) (p : proc) : option mstate :=
  match p with
  | Parent => parent_step s
  | Worker i =>
      match nth_error (m_workers s) i with
      | Some w => option_map (fun w => mk_mstate (upd (m_workers s) i w) (m_last s) (m_phase s) (m_todo s) (m_done s))
                             (worker_step w)
      | None => None
      end
  end.
Fixpoint mrun (s : mstate) (sched : list proc) : option mstate :=
  match sched with
  | [] => Some s
  | p :: rest => match mstep s p with Some s => mrun s rest | None => None end
  end.
Definition minit (es : list (est E)) (calls : list call) : mstate :=
  mk_mstate (map (fun e => mk_worker [] [] (Some e)) es) (repeat None (length es)) Ready calls [].
End Vector.
Arguments KReset {A} mask.
Arguments KStep {A} acts.
Arguments KSeed {A} s.
Arguments AReset {O X SR} obs.
Arguments AStep {O X SR} ss.
Arguments ASeedNone {O X SR}.
Arguments ASeed {O X SR} rs.
Arguments call : clear implicits.
Arguments answer : clear implicits.
Arguments ser_steps {A O X} E es acts.
Arguments ser_resets {A O X} E mask es last.
Arguments ser_seeds {A O X SR} E eseed es l.
Arguments ser_call {A O X SR} E eseed s c.
Arguments ser_calls {A O X SR} E eseed s cs.
