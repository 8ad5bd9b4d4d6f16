(** Model of chainerrl/misc/env_modifiers.py, chainerrl/wrappers/render.py and
    chainerrl/wrappers/cast_observation.py.  An environment object has step, reset, render and close;
    a modifier replaces some of them on the object, keeping the old ones.  Rewards are
    rationals (Model/GymEnv.v); the arguments of render other than close, those of reset and
    observation spaces are left out.  A history stops at the first exception. *)
From Coq Require Import QArith Qminmax List.
From Verif Require Import Base.PyBase Model.GymEnv.
Import ListNotations.
Local Open Scope nat_scope.

(** The object with its current (hidden) state. *)
Record obj (A O X : Type) := mk_obj {
  ost : Type; now : ost;
  ostep : ost -> A -> res (ost * sout O X);
  oreset : ost -> res (ost * O);
  orender : ost -> bool -> res ost;
  oclose : ost -> res ost }.
Arguments mk_obj {A O X}. Arguments ost {A O X}. Arguments now {A O X}. Arguments ostep {A O X}.
Arguments oreset {A O X}. Arguments orender {A O X}. Arguments oclose {A O X}.

(** Calls on the object, and their results.  [KRender close] is env.render(..., close=close). *)
Inductive call (A : Type) := KReset | KStep (a : A) | KRender (close : bool) | KClose.
Arguments KReset {A}. Arguments KStep {A}. Arguments KRender {A}. Arguments KClose {A}.
Inductive result (O X : Type) := RReset (o : O) | RStep (s : sout O X) | RNone.
Arguments RReset {O X}. Arguments RStep {O X}. Arguments RNone {O X}.
Definition invoke {A O X} (E : obj A O X) (e : ost E) (c : call A) : res (ost E * result O X) :=
  match c with
  | KReset => let! r := oreset E e in Ok (fst r, RReset (snd r))
  | KStep a => let! r := ostep E e a in Ok (fst r, RStep (snd r))
  | KRender b => let! e := orender E e b in Ok (e, RNone)
  | KClose => let! e := oclose E e in Ok (e, RNone)
  end.
Fixpoint perform {A O X} (E : obj A O X) (e : ost E) (cs : list (call A)) : res (ost E * list (result O X)) :=
  match cs with
  | [] => Ok (e, [])
  | c :: cs =>
      let! r := invoke E e c in
      let! rr := perform E (fst r) cs in
      Ok (fst rr, snd r :: snd rr)
  end.
(** What a user sees of a history of calls. *)
Definition behaviour {A O X} (E : obj A O X) (cs : list (call A)) : res (list (result O X)) :=
  let! r := perform E (now E) cs in Ok (snd r).

Section Modifiers.
  Context {A O X : Type}.
  Notation obj := (obj A O X).

  (** env_modifiers.py:4-19 make_rendered. *)
  Definition make_rendered (E : obj) : obj :=
    mk_obj (ost E) (now E)
      (fun e a => let! ret := ostep E e a in let! e := orender E (fst ret) false in Ok (e, snd ret))
      (oreset E) (orender E)
      (fun e => let! e := orender E e true in oclose E e).
  (** env_modifiers.py:22-39 make_timestep_limited; the state is (t[0], env). *)
  Definition make_timestep_limited (E : obj) (timestep_limit : Z) : obj :=
    mk_obj (nat * ost E) (1, now E)
      (fun s a => let! r := ostep E (snd s) a in
                  let x := snd r in
                  let done := if (timestep_limit <=? Z.of_nat (fst s))%Z then true else so_done x in
                  Ok ((fst s + 1, fst r), mk_sout (so_obs x) (so_rew x) done (so_info x)))
      (fun s => let! r := oreset E (snd s) in Ok ((1, fst r), snd r))
      (fun s b => let! e := orender E (snd s) b in Ok (fst s, e))
      (fun s => let! e := oclose E (snd s) in Ok (fst s, e)).
  (** env_modifiers.py:42-48 make_action_filtered. *)
  Definition make_action_filtered (E : obj) (action_filter : A -> A) : obj :=
    mk_obj (ost E) (now E) (fun e a => ostep E e (action_filter a)) (oreset E) (orender E) (oclose E).
  (** env_modifiers.py:51-59 make_reward_filtered. *)
  Definition make_reward_filtered (E : obj) (reward_filter : Q -> Q) : obj :=
    mk_obj (ost E) (now E)
      (fun e a => let! r := ostep E e a in
                  let x := snd r in
                  Ok (fst r, mk_sout (so_obs x) (reward_filter (so_rew x)) (so_done x) (so_info x)))
      (oreset E) (orender E) (oclose E).
  (** env_modifiers.py:62-63 make_reward_clipped: np.clip is minimum(maximum(x, low), high). *)
  Definition make_reward_clipped (E : obj) (low high : Q) : obj :=
    make_reward_filtered E (fun x => Qmin (Qmax x low) high).
  (** env_modifiers.py:66-82 make_action_repeated; the loop runs [n] more times, [last] is what the
      last call gave.  With n_times = 0 [obs] is unbound (UnboundLocalError, written
      [RuntimeError]). *)
  Fixpoint repeated_loop (E : obj) (a : A) (n : nat) (r_total : Q) (last : option (sout O X)) (e : ost E) : res (ost E * sout O X) :=
    match n with
    | 0 => match last with
           | Some x => Ok (e, mk_sout (so_obs x) r_total (so_done x) (so_info x))
           | None => Raise RuntimeError
           end
    | S n =>
        let! r := ostep E e a in
        let x := snd r in
        let r_total := (r_total + so_rew x)%Q in
        if so_done x then Ok (fst r, mk_sout (so_obs x) r_total (so_done x) (so_info x))
        else repeated_loop E a n r_total (Some x) (fst r)
    end.
  Definition make_action_repeated (E : obj) (n_times : nat) : obj :=
    mk_obj (ost E) (now E) (fun e a => repeated_loop E a n_times 0%Q None e) (oreset E) (orender E) (oclose E).

  (** render.py:15-27 Render. *)
  Definition render_wrapper (E : obj) : obj :=
    mk_obj (ost E) (now E)
      (fun e a => let! ret := ostep E e a in let! e := orender E (fst ret) false in Ok (e, snd ret))
      (fun e => let! ret := oreset E e in let! e := orender E (fst ret) false in Ok (e, snd ret))
      (orender E) (oclose E).

  (** Modifiers applied one after the other to the same object. *)
  Inductive modifier :=
  | Rendered | Limited (timestep_limit : Z) | ActionFiltered (f : A -> A) | RewardFiltered (f : Q -> Q)
  | RewardClipped (low high : Q) | Repeated (n_times : nat).
  Definition apply_modifier (E : obj) (m : modifier) : obj :=
    match m with
    | Rendered => make_rendered E
    | Limited l => make_timestep_limited E l
    | ActionFiltered f => make_action_filtered E f
    | RewardFiltered f => make_reward_filtered E f
    | RewardClipped l h => make_reward_clipped E l h
    | Repeated n => make_action_repeated E n
    end.
  Definition modify (E : obj) (ms : list modifier) : obj := fold_left apply_modifier ms E.
End Modifiers.

(** cast_observation.py:17-27 CastObservation, a gym.ObservationWrapper; [astype] is
    observation.astype(dtype, copy=False); the state is (original_observation, env). *)
Definition cast_observation {A O O' X} (astype : O -> O') (E : obj A O X) : obj A O' X :=
  mk_obj (option O * ost E) (None, now E)
    (fun s a => let! r := ostep E (snd s) a in
                let x := snd r in
                Ok ((Some (so_obs x), fst r), mk_sout (astype (so_obs x)) (so_rew x) (so_done x) (so_info x)))
    (fun s => let! r := oreset E (snd s) in Ok ((Some (snd r), fst r), astype (snd r)))
    (fun s b => let! e := orender E (snd s) b in Ok (fst s, e))
    (fun s => let! e := oclose E (snd s) in Ok (fst s, e)).
