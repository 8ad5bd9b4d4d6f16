(** Models of chainerrl/wrappers/atari_wrappers.py, continuing_time_limit.py,
    scale_reward.py and chainerrl/misc/env_modifiers.py.  Keyword arguments of
    reset, observation spaces, image conversion (WarpFrame, ScaledFloatFrame) and
    rendering are left out. *)
From Coq Require Import QArith.
From Verif Require Import Base.PyBase Model.GymEnv.
Set Implicit Arguments.
Local Open Scope nat_scope.

Section Wrappers.
Context {A O X : Type}.
Notation env := (env A O X).
Notation sout := (sout O X).

(** continuing_time_limit.py:22-42 ContinuingTimeLimit; the state is
    (_elapsed_steps, inner env). *)
Definition ctl_step (E : env) (limit : Z) (s : option nat * est E) (a : A) : res (option nat * est E * sout) :=
  match fst s with
  | None => Raise AssertionError
  | Some n =>
      let! r := estep E (snd s) a in
      let '(e, x) := r in
      let n := n + 1 in
      let x := if (limit <=? Z.of_nat n)%Z
               then mk_sout (so_obs x) (so_rew x) (so_done x) (mk_info true (other (so_info x)))
               else x in
      Ok (Some n, e, x)
  end.
Definition ctl_reset (E : env) (s : option nat * est E) : res (option nat * est E * O) :=
  let! r := ereset E (snd s) in let '(e, o) := r in Ok (Some 0, e, o).
Definition continuing_time_limit (E : env) (limit : Z) : env :=
  mk_env (ctl_step E limit) (@ctl_reset E) (fun s => elives E (snd s)).

(** env_modifiers.py:22-39 make_timestep_limited; the state is (t[0], inner env). *)
Definition tl_step (E : env) (limit : Z) (s : nat * est E) (a : A) : res (nat * est E * sout) :=
  let! r := estep E (snd s) a in
  let '(e, x) := r in
  let x := if (limit <=? Z.of_nat (fst s))%Z then mk_sout (so_obs x) (so_rew x) true (so_info x) else x in
  Ok (fst s + 1, e, x).
Definition tl_reset (E : env) (s : nat * est E) : res (nat * est E * O) :=
  let! r := ereset E (snd s) in let '(e, o) := r in Ok (1, e, o).
Definition timestep_limited (E : env) (limit : Z) : env :=
  mk_env (tl_step E limit) (@tl_reset E) (fun s => elives E (snd s)).

(** atari_wrappers.py:178-197 FrameStack: a deque with maxlen k; the observation
    handed out is the list of its frames (LazyFrames concatenates them lazily in
    that order). *)
Definition deque_push {T} (k : nat) (q : list T) (x : T) : list T :=
  let q := q ++ [x] in skipn (length q - k) q.
Definition get_ob {T} (k : nat) (q : list T) : res (list T) :=
  assert! length q =? k in Ok q.
Definition fs_reset (E : env) (k : nat) (s : list O * est E) : res (list O * est E * list O) :=
  let! r := ereset E (snd s) in
  let '(e, o) := r in
  let q := Nat.iter k (fun q => deque_push k q o) (fst s) in
  let! ob := get_ob k q in
  Ok (q, e, ob).
Definition fs_step (E : env) (k : nat) (s : list O * est E) (a : A)
  : res (list O * est E * GymEnv.sout (list O) X) :=
  let! r := estep E (snd s) a in
  let '(e, x) := r in
  let q := deque_push k (fst s) (so_obs x) in
  let! ob := get_ob k q in
  Ok (q, e, mk_sout ob (so_rew x) (so_done x) (so_info x)).
Definition frame_stack (E : env) (k : nat) : GymEnv.env A (list O) X :=
  mk_env (fs_step E k) (fs_reset E k) (fun s => elives E (snd s)).

(** atari_wrappers.py:115-145 MaxAndSkipEnv.  [omax] is the elementwise maximum of
    two frames; the state is (_obs_buffer, inner env).  An empty [skip] leaves the
    variable [info] unbound: UnboundLocalError, here RuntimeError. *)
Variable omax : O -> O -> O.
Fixpoint skip_loop (E : env) (skip : nat) (a : A) (n i : nat) (total : Q) (buf : O * O) (e : est E)
  : res (Q * (O * O) * est E * sout) :=
  match n with
  | 0 => Raise RuntimeError
  | S n' =>
      let! r := estep E e a in
      let '(e, x) := r in
      let buf := if i + 2 =? skip then (so_obs x, snd buf) else buf in
      let buf := if i + 1 =? skip then (fst buf, so_obs x) else buf in
      let total := (total + so_rew x)%Q in
      if terminal x then Ok (total, buf, e, x)
      else match n' with
           | 0 => Ok (total, buf, e, x)
           | _ => skip_loop E skip a n' (i + 1) total buf e
           end
  end.
Definition ms_step (E : env) (skip : nat) (s : O * O * est E) (a : A) : res (O * O * est E * sout) :=
  let! r := skip_loop E skip a skip 0 0%Q (fst s) (snd s) in
  let '(total, buf, e, x) := r in
  Ok (buf, e, mk_sout (omax (fst buf) (snd buf)) total (so_done x) (so_info x)).
Definition ms_reset (E : env) (s : O * O * est E) : res (O * O * est E * O) :=
  let! r := ereset E (snd s) in let '(e, o) := r in Ok (fst s, e, o).
Definition max_and_skip (E : env) (skip : nat) : env :=
  mk_env (ms_step E skip) (@ms_reset E) (fun s => elives E (snd s)).

(** env_modifiers.py:75-95 make_action_repeated ([info] unbound for n_times = 0 as
    above). *)
Fixpoint repeat_loop (E : env) (a : A) (n : nat) (total : Q) (e : est E) : res (Q * est E * sout) :=
  match n with
  | 0 => Raise RuntimeError
  | S n' =>
      let! r := estep E e a in
      let '(e, x) := r in
      let total := (total + so_rew x)%Q in
      if so_done x then Ok (total, e, x)
      else match n' with 0 => Ok (total, e, x) | _ => repeat_loop E a n' total e end
  end.
Definition action_repeated (E : env) (n : nat) : env :=
  mk_env (fun (e : est E) a =>
            let! r := repeat_loop E a n 0%Q e in
            let '(total, e, x) := r in
            Ok (e, mk_sout (so_obs x) total (so_done x) (so_info x)))
         (ereset E) (elives E).

(** atari_wrappers.py:74-112 EpisodicLifeEnv; the state is (lives,
    needs_real_reset, inner env); [noop] is action 0. *)
Variable noop : A.
Definition el_step (E : env) (s : nat * bool * est E) (a : A) : res (nat * bool * est E * sout) :=
  let! r := estep E (snd s) a in
  let '(e, x) := r in
  let real := terminal x in
  let lives := elives E e in
  let done := if (lives <? fst (fst s)) && (0 <? lives) then true else so_done x in
  Ok (lives, real, e, mk_sout (so_obs x) (so_rew x) done (so_info x)).
Definition el_reset (E : env) (s : nat * bool * est E) : res (nat * bool * est E * O) :=
  let! r := if snd (fst s) then ereset E (snd s)
            else let! r := estep E (snd s) noop in let '(e, x) := r in Ok (e, so_obs x) in
  let '(e, o) := r in
  Ok (elives E e, snd (fst s), e, o).
Definition episodic_life (E : env) : env :=
  mk_env (@el_step E) (@el_reset E) (fun s => elives E (snd s)).

(** atari_wrappers.py:24-53 NoopResetEnv.  The state carries the numbers of no-ops
    that np_random.randint (or override_num_noops) yields, one per reset. *)
Fixpoint noop_loop (E : env) (n : nat) (obs : option O) (e : est E) : res (option O * est E) :=
  match n with
  | 0 => Ok (obs, e)
  | S n =>
      let! r := estep E e noop in
      let '(e, x) := r in
      if terminal x then let! r := ereset E e in let '(e, o) := r in noop_loop E n (Some o) e
      else noop_loop E n (Some (so_obs x)) e
  end.
Definition nr_reset (E : env) (s : (nat -> nat) * nat * est E) : res ((nat -> nat) * nat * est E * O) :=
  let '(draws, k, e) := s in
  let! r := ereset E e in
  let '(e, _) := r in
  let noops := draws k in
  assert! 0 <? noops in
  let! r := noop_loop E noops None e in
  let '(obs, e) := r in
  match obs with
  | Some o => Ok (draws, S k, e, o)
  | None => Raise RuntimeError   (* unreachable: noops > 0 *)
  end.
Definition noop_reset (E : env) : env :=
  mk_env (fun (s : (nat -> nat) * nat * est E) a =>
            let! r := estep E (snd s) a in let '(e, x) := r in Ok (fst s, e, x))
         (@nr_reset E) (fun s => elives E (snd s)).

(** atari_wrappers.py:56-71 FireResetEnv; [fire] and [second] are actions 1 and 2. *)
Variables fire second : A.
Definition fire_part (E : env) (e : est E) (a : A) : res (O * est E) :=
  let! r := estep E e a in
  let '(e, x) := r in
  if terminal x then let! r := ereset E e in let '(e, _) := r in Ok (so_obs x, e)
  else Ok (so_obs x, e).
Definition fr_reset (E : env) (e : est E) : res (est E * O) :=
  let! r := ereset E e in
  let '(e, _) := r in
  let! r := fire_part E e fire in
  let '(_, e) := r in
  let! r := fire_part E e second in
  let '(obs, e) := r in
  Ok (e, obs).
Definition fire_reset (E : env) : env := mk_env (estep E) (@fr_reset E) (elives E).

(** A reward wrapper: gym.RewardWrapper.step. *)
Definition map_reward (f : Q -> Q) (E : env) : env :=
  mk_env (fun (e : est E) a =>
            let! r := estep E e a in
            let '(e, x) := r in Ok (e, mk_sout (so_obs x) (f (so_rew x)) (so_done x) (so_info x)))
         (ereset E) (elives E).

(** atari_wrappers.py:148-154 ClipRewardEnv: np.sign. *)
Definition qsign (q : Q) : Q := inject_Z (Z.sgn (Qnum q)).
Definition clip_reward (E : env) : env := map_reward qsign E.
End Wrappers.
