(** Model of chainerrl/experiments/evaluator.py: run_evaluation_episodes (28-82),
    batch_run_evaluation_episodes (85-203) and Evaluator (255-343).  AsyncEvaluator
    is in Model/AsyncEvaluator.v. *)
From Coq Require Import QArith.
From Verif Require Import Base.PyBase Base.Effects Model.TrainAgent.
Set Implicit Arguments.
Local Open Scope nat_scope.

(** ** run_evaluation_episodes.  Rewards are added with an arbitrary [radd]
    starting from [rzero], so the result covers floating point addition.  Logging
    and the cast to float are left out. *)
Section Single.
  Context {Obs Act Rw : Type}.
  Variable rzero : Rw.
  Variable radd : Rw -> Rw -> Rw.

  Inductive vev :=
  | VReset (o : Obs)
  | VAct (o : Obs) (a : Act)                              (* agent.act *)
  | VStep (a : Act) (o : Obs) (r : Rw) (done needs : bool)
  | VStop.                                                (* agent.stop_episode *)

  Record vworld := mk_vworld {
    v_reset : list vev -> res Obs;
    v_act : list vev -> res Act;
    v_step : list vev -> res (Obs * Rw * bool * bool);
    v_stop : list vev -> res unit }.

  (** What to run for: exactly one of n_steps and n_episodes is given. *)
  Inductive budget := ForSteps (n : Z) | ForEpisodes (n : Z).

  Variable w : vworld.
  Variable b : budget.
  Variable maxlen : option Z.

  Definition v_terminate (timestep : Z) (scores : list Rw) : bool :=
    match b with
    | ForEpisodes n => (n <=? Z.of_nat (length scores))%Z
    | ForSteps n => (n <=? timestep)%Z
    end.

  (** evaluator.py:51-74.  [cur] is None when [reset] is true (a new episode must
      be started), else the current (obs, test_r, episode_len).  Answers scores and
      the last test_r. *)
  Fixpoint eval_loop (fuel : nat) (cur : option (Obs * Rw * Z)) (timestep : Z) (scores : list Rw)
    : eff vev (list Rw * Rw) :=
    match fuel with
    | O => raise OutOfFuel
    | S fuel =>
      do st <- (match cur with
                | None => do o <- call (v_reset w) VReset;; ret (o, rzero, 0%Z)
                | Some st => ret st
                end);;
      let '(o, test_r, len) := st in
      do a <- call (v_act w) (VAct o);;
      do x <- call (v_step w) (fun x => let '(o, r, d, n) := x in VStep a o r d n);;
      let '(o, r, done, needs) := x in
      let test_r := radd test_r r in
      let len := (len + 1)%Z in
      let timestep := (timestep + 1)%Z in
      let reset := done || eqb_opt len maxlen || needs in
      let scores := if reset then scores ++ [test_r] else scores in
      let terminate := v_terminate timestep scores in
      (if reset || terminate then call (v_stop w) (fun _ => VStop) else ret tt);;;
      if terminate then ret (scores, test_r)
      else eval_loop fuel (if reset then None else Some (o, test_r, len)) timestep scores
    end.

  (** evaluator.py:28-82 *)
  Definition run_evaluation_episodes (fuel : nat) : eff vev (list Rw) :=
    do x <- eval_loop fuel None 0 [];;
    let '(scores, test_r) := x in
    ret (match scores with [] => [test_r] | _ => scores end).
End Single.

(** ** batch_run_evaluation_episodes. *)
Section Batch.
  Context {Obs Act Rw : Type}.
  Variable rzero : Rw.
  Variable radd : Rw -> Rw -> Rw.

  Definition banswer := (Obs * Rw * bool * bool)%type.
  Definition ba_obs (x : banswer) : Obs := fst (fst (fst x)).
  Definition ba_rew (x : banswer) : Rw := snd (fst (fst x)).
  Definition ba_done (x : banswer) : bool := snd (fst x).
  Definition ba_needs (x : banswer) : bool := snd x.

  Inductive wev :=
  | WReset (not_end : option (list bool)) (obss : list Obs)
  | WAct (obss : list Obs) (acts : list Act)                (* agent.batch_act *)
  | WStep (acts : list Act) (xs : list banswer)
  | WObserve (obss : list Obs) (rs : list Rw) (dones resets : list bool). (* agent.batch_observe *)

  Record wworld := mk_wworld {
    ww_reset : list wev -> res (list Obs);
    ww_act : list wev -> res (list Act);
    ww_step : list wev -> res (list banswer);
    ww_observe : list wev -> res unit }.

  Variable w : wworld.
  Variable b : budget.
  Variable maxlen : option Z.

  (** The state of one env: index of its current episode, return so far, length. *)
  Definition slot := (nat * Rw * Z)%type.

  (** The state of the evaluation: [finished] models the dicts episode_returns and
      episode_lengths (same keys) as a function from episode indices. *)
  Record estate := mk_estate { e_slots : list slot; e_next : nat; e_finished : nat -> option (Rw * Z) }.

  Definition upd_fin (f : nat -> option (Rw * Z)) (i : nat) (v : Rw * Z) : nat -> option (Rw * Z) :=
    fun j => if Nat.eqb j i then Some v else f j.

  (** evaluator.py:131-158 for one env after the other: add the reward, and if the
      episode ended record it and start a new index.  (The code first updates all
      returns and lengths, then loops over the envs; each env only touches its own
      entries, and the order of new indices is that of the envs.)  Answers the new
      slot, next index, dicts, the reset flag and the end flag. *)
  Fixpoint e_step_slots (slots : list slot) (xs : list banswer) (next : nat) (fin : nat -> option (Rw * Z))
    : list slot * nat * (nat -> option (Rw * Z)) * list bool * list bool :=
    match slots, xs with
    | (i, ret, len) :: slots, x :: xs =>
      let ret := radd ret (ba_rew x) in
      let len := (len + 1)%Z in
      let reset := eqb_opt len maxlen || ba_needs x in
      let ended := reset || ba_done x in
      let '(s, next', fin') := if ended then ((next, rzero, 0%Z), S next, upd_fin fin i (ret, len))
                               else ((i, ret, len), next, fin) in
      let '(slots', next'', fin'', resets, ends) := e_step_slots slots xs next' fin' in
      (s :: slots', next'', fin'', reset :: resets, ended :: ends)
    | _, _ => ([], next, fin, [], [])
    end.

  (** evaluator.py:161-163: [while first in episode_returns: first += 1]; the fuel
      [next] is enough because only indices below it are keys. *)
  Fixpoint first_unfinished (fuel i : nat) (fin : nat -> option (Rw * Z)) : nat :=
    match fuel with
    | O => i
    | S fuel => match fin i with Some _ => first_unfinished fuel (S i) fin | None => i end
    end.

  (** evaluator.py:168-178: the episodes that fit in n_steps; answers the returns
      and total_time. *)
  Fixpoint fit (k i : nat) (fin : nat -> option (Rw * Z)) (n total : Z) : list Rw * Z :=
    match k with
    | O => ([], total)
    | S k => match fin i with
             | None => ([], total)  (* not reached: i is finished *)
             | Some (r, l) =>
               let total := (total + l)%Z in
               if (n <? total)%Z then ([], total)
               else let '(rs, tot) := fit k (S i) fin n total in (r :: rs, tot)
             end
    end.

  (** evaluator.py:190-192: the first n episodes. *)
  Fixpoint gather (k i : nat) (fin : nat -> option (Rw * Z)) : list Rw :=
    match k with
    | O => []
    | S k => match fin i with
             | None => []  (* not reached: a KeyError *)
             | Some (r, _) => r :: gather k (S i) fin
             end
    end.

  (** np.where(episode_indices == i)[0]: the slot of episode i. *)
  Definition find_slot (slots : list slot) (i : nat) : option slot :=
    find (fun s => Nat.eqb (fst (fst s)) i) slots.

  (** evaluator.py:160-193: termination test and the returns to report.  The dict
      lookups of lines 172 and 191 are defined because all indices below
      first_unfinished are keys; [None] stands for a KeyError. *)
  Definition e_check (st : estate) : bool * list Rw :=
    let first := first_unfinished (e_next st) 0 (e_finished st) in
    match b with
    | ForSteps n =>
      let '(rs, total) := fit first 0 (e_finished st) n 0 in
      if (n <=? total)%Z then (true, rs)
      else match find_slot (e_slots st) first with
           | None => (false, rs)  (* empty array: the comparison is false *)
           | Some (_, r, l) => if (n <=? total + l)%Z then (true, if Nat.eqb first 0 then rs ++ [r] else rs)
                               else (false, rs)
           end
    | ForEpisodes n =>
      if (n <=? Z.of_nat first)%Z
      then (true, gather (Z.to_nat n) 0 (e_finished st))
      else (false, [])
    end.

  (** evaluator.py:124-203; logging and the cast to float are left out. *)
  Fixpoint batch_loop (fuel : nat) (obss : list Obs) (st : estate) : eff wev (list Rw) :=
    match fuel with
    | O => raise OutOfFuel
    | S fuel =>
      do acts <- call (ww_act w) (WAct obss);;
      do xs <- call (ww_step w) (WStep acts);;
      let '(slots, next, fin, resets, ends) := e_step_slots (e_slots st) xs (e_next st) (e_finished st) in
      let st := mk_estate slots next fin in
      let '(stop, rs) := e_check st in
      let resets := if stop then map (fun _ => true) resets else resets in
      call (ww_observe w) (fun _ => WObserve (map ba_obs xs) (map ba_rew xs) (map ba_done xs) resets);;;
      if stop then ret rs
      else do obss <- call (ww_reset w) (WReset (Some (map negb ends)));;
           batch_loop fuel obss st
    end.

  Definition estate0 (n : nat) : estate := mk_estate (map (fun i => (i, rzero, 0%Z)) (seq 0 n)) n (fun _ => None).

  (** evaluator.py:85-203, [n] = env.num_envs *)
  Definition batch_run_evaluation_episodes (n fuel : nat) : eff wev (list Rw) :=
    do obss <- call (ww_reset w) (WReset None);;
    batch_loop fuel obss (estate0 n).
End Batch.

(** ** Evaluator.  Scores are rationals; the smallest float32 is [max0].  The
    file scores.txt is the list of recorded (t, episodes, mean) lines after the
    header; other columns are left out. *)
Record evaluator := mk_evaluator { ev_prev : Z; ev_max : Q; ev_lines : list (Z * nat * Q); ev_best : list Q }.

(** evaluator.py:272-315; the header is written once, here. *)
Definition evaluator_init (max0 : Q) (interval offset : Z) : evaluator :=
  mk_evaluator (offset - offset mod interval) max0 [] [].

(** evaluator.py:317-336: [mean] is the outcome of eval_performance, [save] that of
    saving the best agent (the saves are logged in [ev_best] by their scores). *)
Definition evaluate_and_update_max_score (save_best : bool) (e : evaluator) (t : Z) (episodes : nat) (mean : Q) : evaluator :=
  let e := mk_evaluator (ev_prev e) (ev_max e) (ev_lines e ++ [(t, episodes, mean)]) (ev_best e) in
  if negb (Qle_bool mean (ev_max e))
  then mk_evaluator (ev_prev e) mean (ev_lines e) (if save_best then ev_best e ++ [mean] else ev_best e)
  else e.

(** evaluator.py:338-343; the score the evaluation would have is given. *)
Definition evaluate_if_necessary (interval : Z) (save_best : bool) (e : evaluator) (t : Z) (episodes : nat) (mean : Q)
  : evaluator * option Q :=
  if (ev_prev e + interval <=? t)%Z then
    let e := evaluate_and_update_max_score save_best e t episodes mean in
    (mk_evaluator (t - t mod interval) (ev_max e) (ev_lines e) (ev_best e), Some mean)
  else (e, None).

(** A sequence of calls. *)
Fixpoint ev_run (interval : Z) (save_best : bool) (e : evaluator) (calls : list (Z * nat * Q)) : evaluator * list (option Q) :=
  match calls with
  | [] => (e, [])
  | (t, k, m) :: calls =>
    let '(e, o) := evaluate_if_necessary interval save_best e t k m in
    let '(e, os) := ev_run interval save_best e calls in (e, o :: os)
  end.
