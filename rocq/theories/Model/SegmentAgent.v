(** Model of how ACER (agents/acer.py) and PCL (agents/pcl.py) turn an
    interaction into online updates, replay updates and stored transitions: the
    methods act_and_train, stop_episode_and_train and update_on_policy.

    Simplifications: the networks' answers (the distribution over actions and the
    sampled action, after the explorer) come with each call, so every behaviour of
    the networks is covered; the computation of the losses is in Model/Acer.v and
    Model/PCL.v, the replay buffer in Model/EpisodicReplayBuffer.v; statistics,
    logging, gradients, parameter synchronisation and recurrent states are left
    out.  [last_state], [last_action] and [last_action_distrib] are always set
    together and are one attribute here. *)
From Verif Require Import Base.PyBase.
Set Implicit Arguments.

(** Dictionaries keyed by integers, in order of insertion. *)
Fixpoint dput {V} (d : list (Z * V)) (k : Z) (v : V) : list (Z * V) :=
  match d with
  | [] => [(k, v)]
  | (k', v') :: d' => if Z.eqb k k' then (k', v) :: d' else (k', v') :: dput d' k v
  end.
Fixpoint dget {V} (d : list (Z * V)) (k : Z) : res V :=
  match d with
  | [] => Raise KeyError
  | (k', v) :: d' => if Z.eqb k k' then Ok v else dget d' k
  end.

Inductive skind := KAcer | KPcl.

(** Constructor arguments: acer.py:275-295, pcl.py:88-113.  ACER's [t_max] is
    never [None] and it has no [batchsize]. *)
Record sconf := mk_sconf {
  c_kind : skind;
  c_tmax : option nat;
  c_online : bool;                 (* not disable_online_update *)
  c_replays : nat;                 (* n_times_replay *)
  c_batch : nat;                   (* batchsize *)
  c_buffer : bool                  (* replay_buffer is not None *)
}.

Section SA.
  Context {Obs Act D Rw : Type}.

  (** The keyword arguments of [replay_buffer.append]. *)
  Record strans := mk_strans {
    x_state : Obs; x_action : Act; x_reward : Rw; x_next_state : Obs;
    x_next_action : Act; x_terminal : bool; x_mu : D }.

  Inductive sev :=
  | VLoss (seg : list (Obs * Act * D * Rw)) (boot : option Obs)
                                   (* compute_loss on these steps; [boot]: the state whose value is added, if any *)
  | VUpdate                        (* the optimizer's update of an online loss *)
  | VReplay                        (* update_from_replay *)
  | VAppend (x : strans)           (* replay_buffer.append *)
  | VEnd.                          (* replay_buffer.stop_current_episode *)

  Record sagent := mk_sag {
    s_t : nat; s_start : nat;
    s_last : option (Obs * Act * D);
    s_past : list (Z * (Obs * Act * D));      (* past_states, past_actions, past_action_distrib, past_values, ... *)
    s_rewards : list (Z * Rw);
    s_pending : nat                           (* len(online_batch_losses) *)
  }.
  (** acer.py:329-351 and pcl.py:153-171 with init_history_data_for_online_update. *)
  Definition sagent_init : sagent := mk_sag 0 0 None [] [] 0.
  (** The same after train_agent's [agent.t = step_offset]. *)
  Definition sagent_resumed (offset : nat) : sagent := mk_sag offset 0 None [] [] 0.

  Variable c : sconf.

  (** [past_*[i]] and [rewards[i]] for the [n] keys from [i]. *)
  Fixpoint gather (past : list (Z * (Obs * Act * D))) (rewards : list (Z * Rw)) (i n : nat) : res (list (Obs * Act * D * Rw)) :=
    match n with
    | O => Ok []
    | S n =>
      let! x := dget past (Z.of_nat i) in
      let! r := dget rewards (Z.of_nat i) in
      let! l := gather past rewards (S i) n in
      Ok ((x, r) :: l)
    end.
  (** pcl.py:347-349: [for t in range(t_start + 1, t): next_values[t - 1] = past_values[t]]. *)
  Fixpoint look (past : list (Z * (Obs * Act * D))) (i n : nat) : res unit :=
    match n with
    | O => Ok tt
    | S n => let! _ := dget past (Z.of_nat i) in look past (S i) n
    end.

  (** acer.py:568-590, pcl.py:343-372 [update_on_policy]; [statevar = None] at a
      terminal state.  ACER's loss reads the dictionaries from the last key to the
      first, PCL's from the first (acer.py:405-408, pcl.py:177-199); here always
      from the first. *)
  Definition update_on_policy (g : sagent) (boot : option Obs) : res (list sev * sagent) :=
    assert! Nat.ltb (s_start g) (s_t g) in
    let n := s_t g - s_start g in
    let cleared p := mk_sag (s_t g) (s_t g) (s_last g) [] [] p in
    if c_online c then
      match c_kind c with
      | KAcer =>
        let! seg := gather (s_past g) (s_rewards g) (s_start g) n in
        Ok ([VLoss seg boot; VUpdate], cleared (s_pending g))
      | KPcl =>
        let! _ := look (s_past g) (s_start g + 1) (n - 1) in
        assert! Nat.eqb (length (s_rewards g)) n in
        assert! Nat.eqb (length (s_past g)) n in
        let! seg := gather (s_past g) (s_rewards g) (s_start g) n in
        if Nat.eqb (s_pending g + 1) (c_batch c) then Ok ([VLoss seg boot; VUpdate], cleared 0)
        else Ok ([VLoss seg boot], cleared (s_pending g + 1))
      end
    else Ok ([], cleared (s_pending g)).

  (** acer.py:598-601 and 666-672, pcl.py:381-385 and 448-454: an online update,
      then replay; PCL replays only if no online loss is waiting. *)
  Definition update_and_replay (g : sagent) (boot : option Obs) : res (list sev * sagent) :=
    let! (l, g) := update_on_policy g boot in
    let replay := match c_kind c with KAcer => true | KPcl => Nat.eqb (s_pending g) 0 end in
    Ok (l ++ (if replay then repeat VReplay (c_replays c) else []), g).

  (** The buffer's calls: ACER skips them without a buffer, PCL does not
      (acer.py:631, 679; pcl.py:411-423, 459-468). *)
  Definition store (evs : list sev) : res (list sev) :=
    if c_buffer c then Ok evs else match c_kind c with KAcer => Ok [] | KPcl => Raise AttributeError end.

  Inductive sop :=
  | SAct (o : Obs) (r : Rw) (a : Act) (d : D)       (* act_and_train, answered [a], drawn from [d] *)
  | SStop (o : Obs) (r : Rw) (done : bool)          (* stop_episode_and_train *)
  | SStopEp.                                        (* stop_episode *)

  (** acer.py:592-649, pcl.py:374-429 [act_and_train]; acer.py:661-692,
      pcl.py:442-472 [stop_episode_and_train]; [stop_episode] only resets
      recurrent states. *)
  Definition sstep (g : sagent) (op : sop) : res (list sev * sagent) :=
    let k := (Z.of_nat (s_t g) - 1)%Z in
    match op with
    | SAct o r a d =>
      let rewards := match c_kind c, s_last g with
                     | KPcl, None => s_rewards g
                     | _, _ => dput (s_rewards g) k r
                     end in
      let g := mk_sag (s_t g) (s_start g) (s_last g) (s_past g) rewards (s_pending g) in
      let! (l, g) := (if match c_tmax c with Some m => Nat.eqb (s_t g - s_start g) m | None => false end
                      then update_and_replay g (Some o) else Ok ([], g)) in
      let past := dput (s_past g) (Z.of_nat (s_t g)) (o, a, d) in
      let! l' := match s_last g with
                 | Some (s, a', d') => store [VAppend (mk_strans s a' r o a false d')]
                 | None => Ok []
                 end in
      Ok (l ++ l', mk_sag (s_t g + 1) (s_start g) (Some (o, a, d)) past (s_rewards g) (s_pending g))
    | SStop o r done =>
      match s_last g with
      | None => Raise AssertionError
      | Some (s, a, d) =>
        let g := mk_sag (s_t g) (s_start g) (s_last g) (s_past g) (dput (s_rewards g) k r) (s_pending g) in
        let! (l, g) := update_and_replay g (if done then None else Some o) in
        let! l' := store [VAppend (mk_strans s a r o a done d); VEnd] in
        Ok (l ++ l', mk_sag (s_t g) (s_start g) None (s_past g) (s_rewards g) (s_pending g))
      end
    | SStopEp => Ok ([], g)
    end.

  Fixpoint sruns (g : sagent) (ops : list sop) : res (list sev * sagent) :=
    match ops with
    | [] => Ok ([], g)
    | o :: ops =>
      let! (l, g) := sstep g o in
      let! (l', g) := sruns g ops in
      Ok (l ++ l', g)
    end.
End SA.
Arguments strans : clear implicits.
Arguments sev : clear implicits.
Arguments sagent : clear implicits.
Arguments sop : clear implicits.
