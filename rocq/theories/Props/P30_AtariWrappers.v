(** C30: Atari wrappers. *)
From Coq Require Import QArith.
From Verif Require Import Base.PyBase Model.GymEnv Model.Wrappers Spec.WrapperSpec Proofs.WrappersProofs.
Local Open Scope nat_scope.

(** MaxAndSkipEnv, any history: each step repeats its action, stopping early exactly
    at the end of an episode, returns the sum of the rewards and the last done and
    info, and, if no episode ended early, the maximum of the last two frames. *)
Theorem C30_max_and_skip_partial : forall (A O X : Type) (omax : O -> O -> O) (E : env A O X) skip zero1 zero2 ops e w' ys,
  run (max_and_skip omax E skip) ((zero1, zero2), e) ops = Ok (w', ys) ->
  exists logs, Forall3 (ms_rel omax skip zero1) ops ys logs /\ ran E e (concat logs) (snd w').
Proof. exact @max_and_skip_history. Qed.
Print Assumptions C30_max_and_skip_partial.

(** An environment that counts; done at 10, needs_reset from 5 on. *)
Definition counter : env nat nat unit :=
  mk_env (fun n _ => Ok (S n, mk_sout (S n) (1 # 2)%Q (10 <=? S n) (mk_info (5 <=? S n) tt)))
         (fun _ => Ok (0, 0)) (fun n => 3 - n).
Definition view {O X} (l : list (out O X)) :=
  map (fun y => match y with OReset o => (o, None) | OStep s => (so_obs s, Some (Qred (so_rew s), so_done s, needs_reset (so_info s))) end) l.
Example C30_skip_example : exists w ys,
  run (max_and_skip Nat.max counter 4) ((0, 0), 7) [Reset; Step 1] = Ok (w, ys) /\
  view ys = [(0, None); (4, Some (2%Q, false, false))].
Proof. do 2 eexists. split; reflexivity. Qed.

(** The missing part is false: when the inner env asks for a reset (a time limit:
    the episode is not over) before the frame skip is complete, the observation
    returned is the stale one of an earlier step. *)
Theorem C30_stale_observation_refuted : exists w ys,
  run (max_and_skip Nat.max counter 4) ((0, 0), 7) [Reset; Step 1; Step 1] = Ok (w, ys) /\
  view ys = [(0, None); (4, Some (2%Q, false, false)); (4, Some ((1 # 2)%Q, false, true))] /\ snd w = 5.
Proof. do 2 eexists. split; [reflexivity|]. split; reflexivity. Qed.
Print Assumptions C30_stale_observation_refuted.

(** make_action_repeated: the same contract, stopping at done only, with the last
    observation. *)
Theorem C30_action_repeat : forall (A O X : Type) (E : env A O X) n ops e w' ys,
  run (action_repeated E n) e ops = Ok (w', ys) ->
  exists logs, Forall3 (rep_rel n) ops ys logs /\ ran E e (concat logs) w'.
Proof. exact @action_repeated_history. Qed.
Print Assumptions C30_action_repeat.
Example C30_repeat_example : exists w ys,
  run (action_repeated counter 4) 7 [Step 1] = Ok (w, ys) /\ view ys = [(10, Some ((3 # 2)%Q, true, true))].
Proof. do 2 eexists. split; reflexivity. Qed.

(** EpisodicLifeEnv: one inner call per call.  A step is passed on, and its result
    is returned with done also set iff a life was lost with lives left.  A reset
    resets the real env iff no step was made yet or the last step ended the real
    game; otherwise it makes one no-op step.  [es] are the inner states after each
    call. *)
Theorem C30_episodic_life_partial : forall (A O X : Type) (noop : A) (E : env A O X) ops e w' ys,
  run (episodic_life noop E) (0, true, e) ops = Ok (w', ys) ->
  exists calls es xs,
    run E e calls = Ok (snd w', xs) /\ length calls = length ops /\ length xs = length ops /\
    length ys = length ops /\ length es = length ops /\
    (forall i, i <= length ops -> exists ei, nth_error (e :: es) i = Some ei /\
        run E e (firstn i calls) = Ok (ei, firstn i xs)) /\
    (forall i o, nth_error ops i = Some o ->
      exists c x y ei ej, nth_error calls i = Some c /\ nth_error xs i = Some x /\ nth_error ys i = Some y /\
        nth_error (e :: es) i = Some ei /\ nth_error es i = Some ej /\
        let before := if i =? 0 then 0 else elives E ei in
        let real := match last_step ops xs i with Some s => terminal s | None => true end in
        match o with
        | Step a => c = Step a /\ exists s, x = OStep s /\
            y = OStep (mk_sout (so_obs s) (so_rew s)
                   (so_done s || ((0 <? elives E ej) && (elives E ej <? before))) (so_info s))
        | Reset => c = (if real then Reset else Step noop) /\ y = OReset (out_obs x)
        end).
Proof. intros A O X noop E ops e w' ys. exact (@el_run A O X noop E ops 0 true e w' ys). Qed.
Print Assumptions C30_episodic_life_partial.
Example C30_life_example : exists w ys,
  run (episodic_life 0 counter) (0, true, 7) [Reset; Step 1; Reset; Step 1] = Ok (w, ys) /\
  view ys = [(0, None); (1, Some ((1 # 2)%Q, true, false)); (2, None); (3, Some ((1 # 2)%Q, false, false))].
Proof. do 2 eexists. split; reflexivity. Qed.

(** The missing part is false: if the no-op step of a reset ends the game, this goes
    unnoticed; the finished game is stepped on without a reset. *)
Definition short_game : env nat nat unit :=
  mk_env (fun n _ => if 2 <=? n then Raise RuntimeError
                     else Ok (S n, mk_sout (S n) 0%Q (2 <=? S n) (mk_info false tt)))
         (fun _ => Ok (0, 0)) (fun n => 3 - n).
Theorem C30_lost_game_over_refuted :
  run (episodic_life 0 short_game) (0, true, 7) [Reset; Step 1; Reset; Step 1] = Raise RuntimeError /\
  exists w ys, run (episodic_life 0 short_game) (0, true, 7) [Reset; Step 1; Reset] = Ok (w, ys) /\
  view ys = [(0, None); (1, Some (0%Q, true, false)); (2, None)].
Proof. split; [reflexivity|]. do 2 eexists. split; reflexivity. Qed.
Print Assumptions C30_lost_game_over_refuted.

(** NoopResetEnv: a reset resets the env and makes the drawn number of no-op steps,
    resetting again exactly when one of them ends the episode; the observation
    returned is the current one.  Steps are passed on. *)
Theorem C30_noop_reset : forall (A O X : Type) (noop : A) (E : env A O X) draws k ops e w' ys,
  run (noop_reset noop E) (draws, k, e) ops = Ok (w', ys) ->
  exists logs, Forall3 (nr_rel noop (fun n => exists j, n = draws j)) ops ys logs /\ ran E e (concat logs) (snd w').
Proof. exact @noop_reset_history. Qed.
Print Assumptions C30_noop_reset.

(** ... so it is never the observation of an ended episode. *)
Theorem C30_noop_observation : forall (A O X : Type) (noop : A) n (o0 : O) (log : list (op A * out O X)) o,
  noops noop n o0 log o ->
  length (filter (fun p => match fst p with Step _ => true | Reset => false end) log) = n /\
  (n <> 0 -> exists l, (exists s, log = l ++ [(Step noop, OStep s)] /\ terminal s = false /\ o = so_obs s) \/
                       log = l ++ [(Reset, OReset o)]).
Proof. exact @noops_fresh. Qed.
Print Assumptions C30_noop_observation.
Example C30_noop_example : exists w ys,
  run (noop_reset 0 counter) (fun _ => 7, 0, 7) [Reset; Step 1] = Ok (w, ys) /\
  view ys = [(2, None); (3, Some ((1 # 2)%Q, false, false))].
Proof. do 2 eexists. split; reflexivity. Qed.

(** FireResetEnv: the calls made by reset; the observation is that of the second
    step ... *)
Theorem C30_fire_reset_partial : forall (A O X : Type) (fire second : A) (E : env A O X) e e' ob,
  ereset (fire_reset fire second E) e = Ok (e', ob) ->
  exists o0 s1 r1 s2 r2,
    ran E e ((Reset, OReset o0) :: (Step fire, OStep s1) :: map (fun o => (Reset, OReset o)) r1
             ++ (Step second, OStep s2) :: map (fun o => (Reset, OReset o)) r2) e' /\
    length r1 = (if terminal s1 then 1 else 0) /\ length r2 = (if terminal s2 then 1 else 0) /\
    ob = so_obs s2.
Proof. exact @fire_reset_log. Qed.
Print Assumptions C30_fire_reset_partial.
Example C30_fire_example : ereset (fire_reset 1 2 counter) 7 = Ok (2, 2).
Proof. reflexivity. Qed.

(** ... even if that step ended the episode and the env has been reset since. *)
Definition two_steps : env nat nat unit :=
  mk_env (fun n _ => Ok (S n, mk_sout (S n) 0%Q (2 <=? S n) (mk_info false tt))) (fun _ => Ok (0, 0)) (fun _ => 0).
Theorem C30_fire_reset_stale_refuted : ereset (fire_reset 1 2 two_steps) 7 = Ok (0, 2).
Proof. reflexivity. Qed.
Print Assumptions C30_fire_reset_stale_refuted.

(** ClipRewardEnv: only rewards change, to their sign. *)
Theorem C30_clip_reward : forall (A O X : Type) (E : env A O X) ops e,
  run (clip_reward E) e ops =
  (let! r := run E e ops in
   let '(e', xs) := r in
   Ok (e', map (fun x => match x with
                         | OReset o => OReset o
                         | OStep s => OStep (mk_sout (so_obs s) (qsign (so_rew s)) (so_done s) (so_info s))
                         end) xs)) /\
  forall q, ((0 < q -> qsign q = 1) /\ (q == 0 -> qsign q = 0) /\ (q < 0 -> qsign q = -1 # 1))%Q.
Proof. intros. split; [apply map_reward_run|exact qsign_spec]. Qed.
Print Assumptions C30_clip_reward.
Example C30_clip_example : exists w ys, run (clip_reward counter) 7 [Reset; Step 1] = Ok (w, ys) /\
  view ys = [(0, None); (1, Some (1%Q, false, false))].
Proof. do 2 eexists. split; reflexivity. Qed.
