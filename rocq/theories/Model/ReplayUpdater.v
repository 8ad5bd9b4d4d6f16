(** Model of chainerrl/replay_buffer.py lines 133-182 (batch_experiences),
    185-237 (batch_recurrent_experiences, reward/terminal/discount fields) and
    240-297 (ReplayUpdater). *)
From Coq Require Import Reals.
From Verif Require Import Base.PyBase.
Set Implicit Arguments.

(** A transition dict; states and actions are opaque.  [next_action] may be
    None. *)
Record transition (S A : Type) := mk_tr {
  t_state : S; t_action : A; t_reward : R; t_next_state : S; t_next_action : option A; t_terminal : bool }.

(** Python's [sum(f(i) for i in range(n))]. *)
Fixpoint py_sum (n : nat) (f : nat -> res R) : res R :=
  match n with
  | O => Ok 0%R
  | S n => let! s := py_sum n f in let! x := f n in Ok (s + x)%R
  end.

Section B.
  Context {S A S' : Type}.
  Notation tr := (transition S A).
  (** The preprocessing [phi]; [batch_states] is [map phi] stacked, a list here. *)
  Variable phi : S -> S'.

  Record batch := mk_batch {
    b_state : list S'; b_action : list A; b_reward : list R; b_next_state : list S';
    b_terminal : list bool; b_discount : list R; b_next_action : option (list A) }.

  Definition first_of (l : list tr) : res tr := py_get l 0.
  Definition last_of (l : list tr) : res tr := py_get l (-1).

  Fixpoint mapM {X Y} (f : X -> res Y) (l : list X) : res (list Y) :=
    match l with [] => Ok [] | x :: t => let! y := f x in let! r := mapM f t in Ok (y :: r) end.

  (** [all(... is not None)] and the list of the next actions. *)
  Fixpoint all_some {X} (l : list (option X)) : option (list X) :=
    match l with
    | [] => Some []
    | Some x :: t => match all_some t with Some r => Some (x :: r) | None => None end
    | None :: _ => None
    end.

  (** replay_buffer.py:133-182 [batch_experiences]; floats are reals (no
      float32 rounding), terminals stay booleans. *)
  Definition batch_experiences (gamma : R) (exps : list (list tr)) : res batch :=
    let! firsts := mapM first_of exps in
    let! rewards := mapM (fun e => py_sum (length e) (fun i =>
                       let! t := py_get e (Z.of_nat i) in Ok (gamma ^ i * t_reward t)%R)) exps in
    let! lasts := mapM last_of exps in
    Ok (mk_batch (map (fun t => phi (t_state t)) firsts)
                 (map (@t_action S A) firsts)
                 rewards
                 (map (fun t => phi (t_next_state t)) lasts)
                 (map (existsb (@t_terminal S A)) exps)
                 (map (fun e => gamma ^ length e)%R exps)
                 (all_some (map (@t_next_action S A) lasts))).
End B.

(** replay_buffer.py:258-271 — the configuration ([__init__] asserts
    batchsize <= replay_start_size).  Integers are Python ints. *)
Record updater := mk_upd {
  u_batch : nat; u_episodic : bool; u_times : nat; u_start : nat; u_interval : Z; u_len : option nat }.
Definition upd_init (batch : nat) (episodic : bool) (times start : nat) (interval : Z) (len : option nat) : res updater :=
  assert! batch <=? start in Ok (mk_upd batch episodic times start interval len).

(** What the updater asks of the replay buffer, in order: each request is
    followed by one call of the update function on its result. *)
Inductive request := RqSample (n : nat) | RqEpisodes (n : nat) (max_len : option nat).

(** replay_buffer.py:273-297 [update_if_necessary]; [len] and [n_episodes] are
    the buffer's current sizes. *)
Definition update_if_necessary (u : updater) (len n_episodes : nat) (iteration : Z) : res (list request) :=
  if len <? u_start u then Ok []
  else if u_episodic u && (n_episodes <? u_batch u) then Ok []
  else if (u_interval u =? 0)%Z then Raise ZeroDivisionError
  else if negb (iteration mod u_interval u =? 0)%Z then Ok []
  else Ok (repeat (if u_episodic u then RqEpisodes (u_batch u) (u_len u) else RqSample (u_batch u)) (u_times u)).
