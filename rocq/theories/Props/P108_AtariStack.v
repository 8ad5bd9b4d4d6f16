(** C108: the preprocessed Atari environment, from the user's calls to the game's. *)
From Coq Require Import QArith.
From Verif Require Import Base.PyBase Model.GymEnv Model.Wrappers Model.AtariStack Spec.WrapperSpec Spec.AtariStackSpec Proofs.AtariStackProofs Proofs.AtariUnlimitedProofs.
Local Open Scope nat_scope.

(** wrap_deepmind(make_atari(game, limit)), with any options, around any game, for every history of calls by a user who resets first, steps only in an episode and does not
    reset twice in a row: each step is one to four equal steps of the game, with the summed (or sign of the summed) reward, done exactly when the game is over or a life was
    lost, and a reset due exactly when the game asks or the limit is reached; each reset makes only resets, no-ops and the two starting actions; the game is never stepped
    before its first reset nor, between two resets, more than the limit (one step more when lives are episodes). *)
Theorem C108_atari_stack_partial : forall (A O P X : Type) (E : env A O X) (e0 : est E) (limit : nat) (omax : O -> O -> O) (noop fire second : A) (zero : O) (draws : nat -> nat)
    (opt : options) (warp : O -> P) (scaled blank : P -> P) (coins : nat -> bool), 1 <= limit ->
  let starts := noop :: (if with_fire opt then [fire; second] else []) in
  let g := wrap_deepmind noop fire second opt warp scaled blank coins (make_atari omax noop zero (mk_live E e0) (Some (Z.of_nat limit)) draws) in
  forall ops w ys, run (l_env g) (l_state g) ops = Ok (w, ys) -> obeys Fresh ops ys ->
  exists logs, played E (clip_rewards opt) (episode_life opt) limit starts e0 None ops ys logs /\
    within (if episode_life opt then S limit else limit) None (map fst (concat logs)).
Proof. exact atari_stack. Qed.
Print Assumptions C108_atari_stack_partial.

(** The same with max_frames None or 0: only the game itself ends episodes or asks for resets, and its first call is a reset. *)
Theorem C108_unlimited : forall (A O P X : Type) (E : env A O X) (e0 : est E) max_frames (omax : O -> O -> O) (noop fire second : A) (zero : O) (draws : nat -> nat)
    (opt : options) (warp : O -> P) (scaled blank : P -> P) (coins : nat -> bool), max_frames = None \/ max_frames = Some 0%Z ->
  let starts := noop :: (if with_fire opt then [fire; second] else []) in
  let g := wrap_deepmind noop fire second opt warp scaled blank coins (make_atari omax noop zero (mk_live E e0) max_frames draws) in
  forall ops w ys, run (l_env g) (l_state g) ops = Ok (w, ys) -> obeys Fresh ops ys ->
  exists logs, played_unlimited E (clip_rewards opt) (episode_life opt) starts e0 ops ys logs /\ reset_first (concat logs).
Proof. exact atari_unlimited. Qed.
Print Assumptions C108_unlimited.

(** What the user sees: compared with the wrappers that make calls of their own (episodic lives and starting actions), around any env, the others leave done and info alone,
    reduce rewards to their sign if asked, and show the last four frames of the episode, padded with its first (or the last one, without stacking); each frame is the
    observation, warped, scaled if asked, and blank when the coin thrown for it says so. *)
Theorem C108_frames : forall (A X O P : Type) (noop fire second : A) (opt : options) (warp : O -> P) (scaled blank : P -> P) (coins : nat -> bool) (g : live_env A O X),
  let g1 := wrap_calls noop fire second opt g in
  let g2 := wrap_deepmind noop fire second opt warp scaled blank coins g in
  forall ops w xs, run (l_env g1) (l_state g1) (Reset :: ops) = Ok (w, xs) ->
  exists w' ys, run (l_env g2) (l_state g2) (Reset :: ops) = Ok (w', ys) /\ length ys = length xs /\
    forall i x, nth_error xs i = Some x ->
      let ep := episode (firstn (S i) (frames (frame opt warp scaled blank coins) 0 xs)) in
      nth_error ys i = Some (sign_of_reward (clip_rewards opt) (with_obs (if stack_frames opt then window 4 ep else lastn 1 ep) x)).
Proof. exact @stack_frames_seen. Qed.
Print Assumptions C108_frames.

(** When lives are episodes the limit itself is not kept: the no-op of the reset after a lost life can be the step that reaches the limit, and what it returned is thrown away.
    Here the game makes 7 steps since its reset, with a limit of 6. *)
Theorem C108_limit_refuted : exists w ys, run (l_env counted) (l_state counted) [Reset; Step 1; Reset; Step 1] = Ok (w, ys) /\
  obeys Fresh [Reset; Step 1; Reset; Step 1] ys /\ counted_steps w = 7.
Proof. exact over_limit. Qed.
Print Assumptions C108_limit_refuted.

(** After a lost life, resetting again and again never resets the game: each reset makes one more step, without bound, whatever the limit. *)
Theorem C108_resets_refuted : forall n, exists w ys, run (l_env counted) (l_state counted) ([Reset; Step 1] ++ repeat Reset (S n)) = Ok (w, ys) /\ counted_steps w = 6 + n.
Proof. exact resets_pile. Qed.
Print Assumptions C108_resets_refuted.

(** Everything switched on except the starting actions: two episodes (a life lost, then the limit), clipped rewards, stacked frames. *)
Example C108_case : exists w ys,
  let g := wrap_deepmind 0 1 2 (mk_options true true true true false true) (fun o : nat => o) (fun o => 2 * o) (fun _ => 0) (fun k => k =? 3)
    (make_atari Nat.max 0 0 (mk_live counting_game 0) (Some (Z.of_nat 18)) (fun _ => 1)) in
  let ops := [Reset; Step 3; Reset; Step 3; Step 3; Step 3; Reset] in
  run (l_env g) (l_state g) ops = Ok (w, ys) /\ obeys Fresh ops ys /\
  map (fun y => match y with OStep s => Some (so_rew s, so_done s, needs_reset (so_info s)) | OReset _ => None end) ys =
    [None; Some (1%Q, true, false); None; Some (1%Q, false, false); Some (1%Q, false, false); Some (1%Q, false, true); None].
Proof. eexists. eexists. cbv zeta. split; [vm_compute; reflexivity|]. split; [vm_compute; tauto|vm_compute; reflexivity]. Qed.
Example C108_frames_case : exists w xs,
  let g1 := wrap_calls 0 1 2 (mk_options true true true true false true) (make_atari Nat.max 0 0 (mk_live counting_game 0) (Some 18%Z) (fun _ => 1)) in
  run (l_env g1) (l_state g1) [Reset; Step 3; Reset; Step 3] = Ok (w, xs) /\
  map (fun i => window 4 (episode (firstn (S i) (frames (frame (mk_options true true true true false true) (fun o : nat => o) (fun o => 2 * o) (fun _ => 0) (fun k => k =? 3)) 0 xs)))) [0; 1; 2; 3] =
    [[2; 2; 2; 2]; [2; 2; 2; 10]; [18; 18; 18; 18]; [18; 18; 18; 0]].
Proof. eexists. eexists. cbv zeta. split; vm_compute; reflexivity. Qed.
(** Without a limit: a life lost at the fifth step of the game, and on with the next life. *)
Example C108_unlimited_case : exists w ys,
  let g := wrap_deepmind 0 1 2 (mk_options true true true true false true) (fun o : nat => o) (fun o => 2 * o) (fun _ => 0) (fun k => k =? 3)
    (make_atari Nat.max 0 0 (mk_live counting_game 0) None (fun _ => 1)) in
  let ops := [Reset; Step 3; Reset; Step 3; Step 3] in
  run (l_env g) (l_state g) ops = Ok (w, ys) /\ obeys Fresh ops ys /\
  map (fun y => match y with OStep s => Some (so_rew s, so_done s, needs_reset (so_info s)) | OReset _ => None end) ys =
    [None; Some (1%Q, true, false); None; Some (1%Q, false, false); Some (1%Q, false, false)].
Proof. eexists. eexists. cbv zeta. split; [vm_compute; reflexivity|]. split; [vm_compute; tauto|vm_compute; reflexivity]. Qed.
