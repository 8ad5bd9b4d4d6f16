(** Model of make_atari and wrap_deepmind (chainerrl/wrappers/atari_wrappers.py:281-314): which wrappers are put around an Atari game, in which order and in which
    state.  The wrappers are those of Model/Wrappers.v.  A game is a gym env; [gym.make], the assertions and observation spaces are left out. *)
From Coq Require Import QArith.
From Verif Require Import Base.PyBase Model.GymEnv Model.Wrappers.
Set Implicit Arguments.
Local Open Scope nat_scope.

(** An env with its current state. *)
Record live_env (A O X : Type) := mk_live { l_env : env A O X; l_state : est l_env }.
Arguments mk_live {A O X}.

(** [gym.ObservationWrapper]: WarpFrame (atari_wrappers.py:157-180) and ScaledFloatFrame (atari_wrappers.py:219-241), for the functions they apply to observations. *)
Definition map_obs {A O P X} (f : O -> P) (E : env A O X) : env A P X :=
  mk_env (fun (e : est E) a => let! r := estep E e a in let '(e, x) := r in Ok (e, mk_sout (f (so_obs x)) (so_rew x) (so_done x) (so_info x)))
         (fun e => let! r := ereset E e in let '(e, o) := r in Ok (e, f o)) (elives E).
(** atari_wrappers.py:268-278 FlickerFrame: the state carries the coins that [np_random.rand() < 0.5] yields, one for each observation; [blank]: [zeros_like]. *)
Definition flicker_frame {A O X} (blank : O -> O) (E : env A O X) : env A O X :=
  mk_env (fun (s : (nat -> bool) * nat * est E) a =>
            let '(coins, k, e) := s in
            let! r := estep E e a in
            let '(e, x) := r in
            Ok (coins, S k, e, mk_sout (if coins k then blank (so_obs x) else so_obs x) (so_rew x) (so_done x) (so_info x)))
         (fun s => let '(coins, k, e) := s in
            let! r := ereset E e in
            let '(e, o) := r in
            Ok (coins, S k, e, if coins k then blank o else o))
         (fun s => elives E (snd s)).

Section Stack.
Context {A O P X : Type}.
Variable omax : O -> O -> O.
Variables noop fire second : A.
Variable zero : O.                    (* np.zeros *)

(** atari_wrappers.py:281-292 [make_atari]; without a limit ([max_frames] None or 0) there is no time limit.  [draws]: the numbers of no-ops. *)
Definition make_atari (game : live_env A O X) (max_frames : option Z) (draws : nat -> nat) : live_env A O X :=
  let g := match max_frames with
           | Some m => if (m =? 0)%Z then game else mk_live (continuing_time_limit (l_env game) m) (None, l_state game)
           | None => game
           end in
  let g := mk_live (noop_reset noop (l_env g)) (draws, 0, l_state g) in
  mk_live (max_and_skip omax (l_env g) 4) (zero, zero, l_state g).

(** The arguments of wrap_deepmind; [fire_reset]: also that the game has the action FIRE. *)
Record options := mk_options { episode_life : bool; clip_rewards : bool; stack_frames : bool; scale : bool; with_fire : bool; flicker : bool }.
(** atari_wrappers.py:302-305, the wrappers of wrap_deepmind that make calls of their own. *)
Definition wrap_calls (opt : options) (g : live_env A O X) : live_env A O X :=
  let g := if episode_life opt then mk_live (episodic_life noop (l_env g)) (0, true, l_state g) else g in
  if with_fire opt then mk_live (fire_reset fire second (l_env g)) (l_state g) else g.
(** atari_wrappers.py:295-314 [wrap_deepmind]; without frame_stack, an observation is modelled as a list of one frame. *)
Definition wrap_deepmind (opt : options) (warp : O -> P) (scaled blank : P -> P) (coins : nat -> bool) (g : live_env A O X) : live_env A (list P) X :=
  let g := wrap_calls opt g in
  let g := mk_live (map_obs warp (l_env g)) (l_state g) in
  let g := if scale opt then mk_live (map_obs scaled (l_env g)) (l_state g) else g in
  let g := if clip_rewards opt then mk_live (clip_reward (l_env g)) (l_state g) else g in
  let g := if flicker opt then mk_live (flicker_frame blank (l_env g)) (coins, 0, l_state g) else g in
  if stack_frames opt then mk_live (frame_stack (l_env g) 4) ([], l_state g) else mk_live (map_obs (fun o => [o]) (l_env g)) (l_state g).
End Stack.
