(** The updates of DDPG: chainerrl/agents/ddpg.py lines 160-297, for recurrent and other networks.

    Numbers are reals.  A network is a function of one row; the state of a recurrent network is one value per row,
    or None before its first evaluation.  Policies give actions (deterministic policies: [sample] draws nothing);
    an optimizer is any function of the parameters and of the loss as a function of them.  Statistics are left out.
    A Q-function with children that are recurrent is itself Recurrent, or not recurrent at all. *)
From Coq Require Import Reals.
From Verif Require Import Base.PyBase.
Local Open Scope R_scope.

(** A transition as it is stored, or a row of [batch_experiences] (replay_buffer.py:135-176); [d_na] is None for
    transitions from [batch_observe_and_train] (ddpg.py:425). *)
Record dtrans (O A : Type) := mk_dtrans { d_s : O; d_a : A; d_r : R; d_next : O; d_na : option A; d_term : bool }.
Arguments mk_dtrans {O A}. Arguments d_s {O A}. Arguments d_a {O A}. Arguments d_r {O A}. Arguments d_next {O A}. Arguments d_na {O A}. Arguments d_term {O A}.

(** A network with parameters [P]: [n_rec], it is an instance of Recurrent; [n_lstm], its state is held by L.LSTM links, whose None
    cannot be set again (recurrent.py:119-122); [n_init], the state that None stands for; [n_step], one row. *)
Record net (P H X Y : Type) := mk_net { n_rec : bool; n_lstm : bool; n_init : H; n_step : P -> H -> X -> H * Y }.
Arguments mk_net {P H X Y}. Arguments n_rec {P H X Y}. Arguments n_lstm {P H X Y}. Arguments n_init {P H X Y}. Arguments n_step {P H X Y}.

(** chainer's L.LSTM: a batch of fewer rows than the state updates the first rows and keeps the others; one of more rows is an error. *)
Fixpoint advance {H X Y : Type} (step : H -> X -> H * Y) (hs : list H) (xs : list X) : res (list Y * list H) :=
  match xs, hs with
  | [], _ => Ok ([], hs)
  | _ :: _, [] => Raise TypeError
  | x :: xs, h :: hs => let! (ys, hs') := advance step hs xs in Ok (snd (step h x) :: ys, fst (step h x) :: hs')
  end.
(** A call of a network with a batch. *)
Definition call {P H X Y : Type} (n : net P H X Y) (theta : P) (st : option (list H)) (xs : list X) : res (list Y * option (list H)) :=
  if n_rec n then
    let! (ys, hs) := advance (n_step n theta) match st with None => repeat (n_init n) (length xs) | Some hs => hs end xs in Ok (ys, Some hs)
  else Ok (map (fun x => snd (n_step n theta (n_init n) x)) xs, st).
(** recurrent.py:67, 91-128: what [set_state] leaves if [old] was saved and the state is now [cur]. *)
Definition restore {P H X Y : Type} (n : net P H X Y) (old cur : option (list H)) : option (list H) :=
  if n_rec n then match old with None => if n_lstm n then cur else None | Some _ => old end else cur.

Fixpoint all_some {A : Type} (l : list (option A)) : option (list A) :=
  match l with [] => Some [] | None :: _ => None | Some a :: l => match all_some l with None => None | Some l => Some (a :: l) end end.
Definition mean_of (l : list R) : R := fold_right Rplus 0 l / INR (length l).

(** ** Sorting: [list(reversed(sorted(episodes, key=len)))], a stable sort (ddpg.py:262). *)
Fixpoint insert_len {X : Type} (x : list X) (l : list (list X)) : list (list X) :=
  match l with [] => [x] | y :: l' => if Nat.leb (length x) (length y) then x :: l else y :: insert_len x l' end.
Definition longest_first {X : Type} (l : list (list X)) : list (list X) := rev (fold_right insert_len [] l).
(** ddpg.py:268-272: the transitions number [i], up to the first episode that is too short. *)
Fixpoint column {X : Type} (i : nat) (eps : list (list X)) : list X :=
  match eps with [] => [] | e :: eps => match nth_error e i with None => [] | Some x => x :: column i eps end end.

Section DDPG.
  Context {O A Pq Hq Pp Hp : Type}.
  Notation dtrans := (dtrans O A).
  Variable gamma : R.
  Variable q : net Pq Hq (O * A) R.
  Variable p : net Pp Hp O A.

  (** The parameters and states of the model and of the target model. *)
  Record ddpg := mk_ddpg { w_q : Pq; w_p : Pp; w_tq : Pq; w_tp : Pp; s_q : option (list Hq); s_p : option (list Hp); s_tq : option (list Hq); s_tp : option (list Hp) }.

  (** ddpg.py:161-212, with the parameters [theta] of the Q-function.  [None] is the missing entry 'next_action' of the batch. *)
  Definition compute_critic_loss (theta tq : Pq) (tp : Pp) (sq stq : option (list Hq)) (stp : option (list Hp)) (rows : list dtrans) : res (R * (option (list Hq) * option (list Hq) * option (list Hp))) :=
    let! (next_actions, stp') := call p tp stp (map d_next rows) in
    let! (next_q, stq1) := call q tq stq (combine (map d_next rows) next_actions) in
    let stq2 := restore q stq stq1 in
    let! stq3 := (if n_rec q then
        match all_some (map d_na rows) with
        | None => Raise KeyError
        | Some nas => let! (_, s) := call q tq stq2 (combine (map d_next rows) nas) in Ok s
        end
      else Ok stq2) in
    let target_q := map (fun x : dtrans * R => d_r (fst x) + gamma * (1 - (if d_term (fst x) then 1 else 0)) * snd x) (combine rows next_q) in
    let! (predict_q, sq') := call q theta sq (map (fun x => (d_s x, d_a x)) rows) in
    Ok (mean_of (map (fun x => (fst x - snd x) * (fst x - snd x)) (combine target_q predict_q)), (sq', stq3, stp')).

  (** ddpg.py:214-251, with the parameters [phi] of the policy. *)
  Definition compute_actor_loss (phi : Pp) (theta : Pq) (sq : option (list Hq)) (sp : option (list Hp)) (rows : list dtrans) : res (R * (option (list Hq) * option (list Hp))) :=
    let! (onpolicy_actions, sp') := call p phi sp (map d_s rows) in
    let! (qs, sq1) := call q theta sq (combine (map d_s rows) onpolicy_actions) in
    let sq2 := restore q sq sq1 in
    let! sq3 := (if n_rec q then let! (_, s) := call q theta sq2 (map (fun x => (d_s x, d_a x)) rows) in Ok s else Ok sq2) in
    Ok (- (fold_right Rplus 0 qs) / INR (length rows), (sq3, sp')).

  Variable critic_opt : Pq -> (Pq -> R) -> Pq.
  Variable actor_opt : Pp -> (Pp -> R) -> Pp.
  Definition loss_of {X : Type} (r : res (R * X)) : R := match r with Ok (l, _) => l | Raise _ => 0 end.

  (** ddpg.py:253-258; the rows are those of [batch_experiences].  The actor is updated with the new Q-function. *)
  Definition update (w : ddpg) (rows : list dtrans) : res ddpg :=
    let! (_, (sq, stq, stp)) := compute_critic_loss (w_q w) (w_tq w) (w_tp w) (s_q w) (s_tq w) (s_tp w) rows in
    let theta := critic_opt (w_q w) (fun th => loss_of (compute_critic_loss th (w_tq w) (w_tp w) (s_q w) (s_tq w) (s_tp w) rows)) in
    let! (_, (sq', sp)) := compute_actor_loss (w_p w) theta sq (s_p w) rows in
    let phi := actor_opt (w_p w) (fun ph => loss_of (compute_actor_loss ph theta sq (s_p w) rows)) in
    Ok (mk_ddpg theta phi (w_tq w) (w_tp w) sq' sp stq stp).

  (** ddpg.py:286-288: the sum of the losses of the batches. *)
  Fixpoint critic_through_time (theta tq : Pq) (tp : Pp) (sq stq : option (list Hq)) (stp : option (list Hp)) (batches : list (list dtrans)) : res (R * (option (list Hq) * option (list Hq) * option (list Hp))) :=
    match batches with
    | [] => Ok (0, (sq, stq, stp))
    | b :: batches =>
        let! (l, (sq, stq, stp)) := compute_critic_loss theta tq tp sq stq stp b in
        let! (l', s) := critic_through_time theta tq tp sq stq stp batches in Ok (l + l', s)
    end.
  (** ddpg.py:294-296. *)
  Fixpoint actor_through_time (phi : Pp) (theta : Pq) (sq : option (list Hq)) (sp : option (list Hp)) (batches : list (list dtrans)) : res (R * (option (list Hq) * option (list Hp))) :=
    match batches with
    | [] => Ok (0, (sq, sp))
    | b :: batches =>
        let! (l, (sq, sp)) := compute_actor_loss phi theta sq sp b in
        let! (l', s) := actor_through_time phi theta sq sp batches in Ok (l + l', s)
    end.

  (** ddpg.py:277-289 inside the contexts: the states start as None; the target model goes one step ahead.  [update_state] is a method of
      Recurrent only. *)
  Definition critic_pass (theta tq : Pq) (tp : Pp) (batches : list (list dtrans)) : res (R * (option (list Hq) * option (list Hq) * option (list Hp))) :=
    match batches with
    | [] => Raise IndexError
    | b :: _ =>
        if n_rec q then
          let! (_, stq) := call q tq None (map (fun x => (d_s x, d_a x)) b) in
          let! (_, stp) := call p tp None (map d_s b) in
          let! (l, s) := critic_through_time theta tq tp None stq stp batches in
          Ok (l / INR (length batches), s)
        else Raise AttributeError
    end.
  (** ddpg.py:291-297. *)
  Definition actor_pass (phi : Pp) (theta : Pq) (batches : list (list dtrans)) : res (R * (option (list Hq) * option (list Hp))) :=
    let! (l, s) := actor_through_time phi theta None None batches in Ok (l / INR (length batches), s).

  (** ddpg.py:260-297.  [state_reset] sets the states to None and puts the saved ones back at the end (recurrent.py:61-67). *)
  Definition update_from_episodes (w : ddpg) (episodes : list (list dtrans)) : res ddpg :=
    match longest_first episodes with
    | [] => Raise IndexError
    | e :: es =>
        let batches := map (fun i => column i (e :: es)) (seq 0 (length e)) in
        let! (_, (sq, stq, stp)) := critic_pass (w_q w) (w_tq w) (w_tp w) batches in
        let theta := critic_opt (w_q w) (fun th => loss_of (critic_pass th (w_tq w) (w_tp w) batches)) in
        let sq1 := restore q (s_q w) sq in
        let sp1 := restore p (s_p w) None in
        let! (_, (sq', sp')) := actor_pass (w_p w) theta batches in
        let phi := actor_opt (w_p w) (fun ph => loss_of (actor_pass ph theta batches)) in
        Ok (mk_ddpg theta phi (w_tq w) (w_tp w) (restore q sq1 sq') (restore p sp1 sp') (restore q (s_tq w) stq) (restore p (s_tp w) stp))
    end.

  (** ddpg.py:333-347: the action and the states after it. *)
  Definition act (w : ddpg) (o : O) : res (A * ddpg) :=
    let! (acts, sp) := call p (w_p w) (s_p w) [o] in
    match acts with
    | [] => Raise IndexError
    | a :: _ => let! (_, sq) := call q (w_q w) (s_q w) [(o, a)] in Ok (a, mk_ddpg (w_q w) (w_p w) (w_tq w) (w_tp w) sq sp (s_tq w) (s_tp w))
    end.
  (** ddpg.py:457-461: the state of the model after [stop_episode], as for a new one. *)
  Definition stop_episode (w : ddpg) : ddpg := mk_ddpg (w_q w) (w_p w) (w_tq w) (w_tp w) None None (s_tq w) (s_tp w).
End DDPG.
Arguments mk_ddpg {Pq Hq Pp Hp}. Arguments w_q {Pq Hq Pp Hp}. Arguments w_p {Pq Hq Pp Hp}. Arguments w_tq {Pq Hq Pp Hp}. Arguments w_tp {Pq Hq Pp Hp}.
Arguments s_q {Pq Hq Pp Hp}. Arguments s_p {Pq Hq Pp Hp}. Arguments s_tq {Pq Hq Pp Hp}. Arguments s_tp {Pq Hq Pp Hp}.
