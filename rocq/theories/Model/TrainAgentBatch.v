(** Model of chainerrl/experiments/train_agent_batch.py lines 12-135 (train_agent_batch). *)
From Coq Require Import QArith.
From Verif Require Import Base.PyBase Base.Effects Model.TrainAgent.
Set Implicit Arguments.
Local Open Scope nat_scope.

Section TAB.
  Context {Obs Act Rw : Type}.

  (** What one env of the vector answers to a step: observation, reward, done and
      info.get('needs_reset', False). *)
  Definition answer := (Obs * Rw * bool * bool)%type.
  Definition a_obs (x : answer) : Obs := fst (fst (fst x)).
  Definition a_rew (x : answer) : Rw := snd (fst (fst x)).
  Definition a_done (x : answer) : bool := snd (fst x).
  Definition a_needs (x : answer) : bool := snd x.

  (** The calls train_agent_batch makes.  Left out: logging, get_statistics, the
      returns kept only for logging, [agent.t = step_offset]. *)
  Inductive bev :=
  | BReset (not_end : option (list bool)) (obss : list Obs)        (* env.reset() / env.reset(not_end) *)
  | BAct (obss : list Obs) (acts : list Act)                        (* agent.batch_act_and_train *)
  | BStep (acts : list Act) (xs : list answer)                      (* env.step *)
  | BObserve (obss : list Obs) (rs : list Rw) (dones resets : list bool) (* agent.batch_observe_and_train *)
  | BHook (k : nat) (t : Z)
  | BEval (t : Z) (episodes : nat) (score : option Q) (best : Q)    (* evaluate_if_necessary and the max_score then *)
  | BSave (s : save_kind) (t : Z)
  | BClose (evalenv : bool).                                        (* env.close() / evaluator.env.close() *)

  Record bworld := mk_bworld {
    bw_reset : list bev -> res (list Obs);
    bw_act : list bev -> res (list Act);
    bw_step : list bev -> res (list answer);
    bw_observe : list bev -> res unit;
    bw_hook : list bev -> res unit;
    bw_eval : list bev -> res (option Q * Q);
    bw_save : list bev -> res unit;
    bw_close : list bev -> res unit }.

  Record bconfig := mk_bconfig {
    b_envs : nat; b_steps : Z; b_offset : Z; b_freq : option Z; b_maxlen : option Z; b_hooks : nat;
    b_eval : bool; b_success : option Q }.

  Variable w : bworld.
  Variable c : bconfig.

  Definition b_save s t : eff bev unit := call (bw_save w) (fun _ => BSave s t).
  Definition b_close x : eff bev unit := call (bw_close w) (fun _ => BClose x).

  Fixpoint b_hook_calls (i k : nat) (t : Z) : eff bev unit :=
    match k with
    | O => ret tt
    | S k => call (bw_hook w) (fun _ => BHook i t);;; b_hook_calls (S i) k t
    end.

  Definition b_checkpoint (t : Z) : eff bev unit :=
    match b_freq c with
    | None => ret tt
    | Some f => if (f =? 0)%Z then ret tt
                else if (t mod f =? 0)%Z then b_save SCheckpoint t else ret tt
    end.

  (** train_agent_batch.py:125-131: the handler, with the current [t]. *)
  Definition b_handler (t : Z) : eff bev unit :=
    b_save SExcept t;;; b_close false;;; (if b_eval c then b_close true else ret tt).

  (** train_agent_batch.py:86-93: one turn of [for _ in range(num_envs)] per env.
      As the handler needs the current [t], every turn carries its own copy of it
      (the turns run one after the other, so the copies do not nest). *)
  Fixpoint b_ticks (k : nat) (t : Z) : eff bev Z :=
    match k with
    | O => ret t
    | S k => try_reraise (b_checkpoint (t + 1);;; b_hook_calls 0 (b_hooks c) (t + 1)) (b_handler (t + 1));;;
             b_ticks k (t + 1)
    end.

  (** train_agent_batch.py:62-68 for one env: the reset flag. *)
  Definition b_reset_flag (len : Z) (x : answer) : bool := eqb_opt len (b_maxlen c) || a_needs x.

  (** Elementwise operations on arrays; numpy raises on different lengths (and
      broadcasts length one): arrays of the wrong length are excluded by the
      assumption on the world in the theorems. *)
  Fixpoint map2 {A B C} (f : A -> B -> C) (l : list A) (m : list B) : list C :=
    match l, m with x :: l, y :: m => f x y :: map2 f l m | _, _ => [] end.

  (** Python's truth value of the score returned by evaluate_if_necessary:
      None and 0.0 are false. *)
  Definition truthy (s : option Q) : bool := match s with None => false | Some q => negb (Qeq_bool q 0) end.

  (** train_agent_batch.py:54-119; the loop state is (t, obss, episode_len,
      sum of episode_idx). *)
  Fixpoint b_loop (fuel : nat) (t : Z) (obss : list Obs) (lens : list Z) (idx : nat) : eff bev Z :=
    match fuel with
    | O => raise OutOfFuel
    | S fuel =>
      do x <- try_reraise
        (do acts <- call (bw_act w) (BAct obss);;
         do xs <- call (bw_step w) (BStep acts);;
         let lens := map (fun l => l + 1)%Z lens in
         let resets := map2 b_reset_flag lens xs in
         call (bw_observe w) (fun _ => BObserve (map a_obs xs) (map a_rew xs) (map a_done xs) resets);;;
         ret (xs, lens, map2 orb resets (map a_done xs))) (b_handler t);;
      let '(xs, lens, ends) := x in
      let idx := idx + length (filter (fun b => b) ends) in
      do t <- b_ticks (b_envs c) t;;
      do go <- try_reraise
        (do stop <- (if b_eval c then
                       do s <- call (bw_eval w) (fun s => BEval t idx (fst s) (snd s));;
                       ret (truthy (fst s) && match b_success c with None => false | Some q => Qle_bool q (snd s) end)
                     else ret false);;
         if stop then ret None
         else if (b_steps c <=? t)%Z then ret None
         else do obss <- call (bw_reset w) (BReset (Some (map negb ends)));;
              ret (Some (obss, map2 (fun (e : bool) l => if e then 0%Z else l) ends lens))) (b_handler t);;
      match go with
      | None => ret t
      | Some (obss, lens) => b_loop fuel t obss lens idx
      end
    end.

  (** train_agent_batch.py:12-135 *)
  Definition train_agent_batch (fuel : nat) : eff bev unit :=
    do obss <- call (bw_reset w) (BReset None);;
    do t <- b_loop fuel (b_offset c) obss (repeat 0%Z (b_envs c)) 0;;
    b_save SFinish t.
End TAB.
