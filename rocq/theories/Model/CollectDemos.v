(** Model of chainerrl/experiments/collect_demos.py lines 7-69 (collect_demonstrations). *)
From Verif Require Import Base.PyBase Base.Effects Model.TrainAgent Model.Evaluator.
Set Implicit Arguments.

Section CD.
  Context {Obs Act Rw : Type}.

  (** A written record: (obs, a, r, new_obs, done, info); of info only
      'needs_reset' is kept. *)
  Definition demo := (Obs * Act * Rw * Obs * bool * bool)%type.

  Inductive dev :=
  | DReset (o : Obs)
  | DAct (o : Obs) (a : Act)                               (* agent.act *)
  | DStep (a : Act) (o : Obs) (r : Rw) (done needs : bool)
  | DWrite (x : demo)                                       (* dataset.write *)
  | DStop.                                                  (* agent.stop_episode *)

  Record dworld := mk_dworld {
    d_reset : list dev -> res Obs;
    d_act : list dev -> res Act;
    d_step : list dev -> res (Obs * Rw * bool * bool);
    d_write : list dev -> res unit;
    d_stop : list dev -> res unit }.

  Variable w : dworld.
  Variable b : budget.            (* steps or episodes *)
  Variable maxlen : option Z.

  Definition d_terminate (timestep episode_num : Z) : bool :=
    match b with
    | ForEpisodes n => (n <=? episode_num)%Z
    | ForSteps n => (n <=? timestep)%Z
    end.

  (** collect_demos.py:34-69.  [cur] is None when [reset] is true, else the current
      (obs, episode_len).  Line 54 compares the length before it is incremented in
      line 57. *)
  Fixpoint collect_loop (fuel : nat) (cur : option (Obs * Z)) (timestep episode_num : Z) : eff dev unit :=
    match fuel with
    | O => raise OutOfFuel
    | S fuel =>
      do st <- (match cur with
                | None => do o <- call (d_reset w) DReset;; ret (o, 0%Z)
                | Some st => ret st
                end);;
      let '(o, len) := st in
      do a <- call (d_act w) (DAct o);;
      do x <- call (d_step w) (fun x => let '(o, r, d, n) := x in DStep a o r d n);;
      let '(o', r, done, needs) := x in
      call (d_write w) (fun _ => DWrite (o, a, r, o', done, needs));;;
      let reset := done || eqb_opt len maxlen || needs in
      let timestep := (timestep + 1)%Z in
      let len := (len + 1)%Z in
      let episode_num := if reset then (episode_num + 1)%Z else episode_num in
      let terminate := d_terminate timestep episode_num in
      (if reset || terminate then call (d_stop w) (fun _ => DStop) else ret tt);;;
      if terminate then ret tt
      else collect_loop fuel (if reset then None else Some (o', len)) timestep episode_num
    end.

  (** collect_demos.py:7-69; opening and closing the file and logging are left out. *)
  Definition collect_demonstrations (fuel : nat) : eff dev unit := collect_loop fuel None 0 0.
End CD.
