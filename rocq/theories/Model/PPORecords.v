(** What PPO and TRPO record about their own actions: chainerrl/agents/ppo.py (act_and_train, stop_episode_and_train, batch_act_and_train, batch_observe_and_train,
    _update_if_dataset_is_ready and the functions that make data sets); trpo.py:233-300 does the same.
    What is abstracted.  The network is any function [net] of its parameters, a recurrent state and a feature to a distribution, a value and a new recurrent state; for a batch
    it treats every row alike (C44), and a missing recurrent state is zero.  The agent's lists with one entry for each env, and the columns of its recurrent states, are a
    list of slots, one for each env; an agent for one env has one slot ([last_episode], [last_state]...).  The action that is sampled is an argument of the call.  Everything an
    update does to the parameters is any function [train]. *)
From Coq Require Import Reals.
From Verif Require Import Base.PyBase Model.Categorical.
Set Implicit Arguments.
Local Open Scope nat_scope.

Section Records.
Variables O A F H P N D : Type.
Variable net : P -> H -> F -> (D * R) * H.
Variable zero : H.
Variable log_prob : D -> A -> R.
Variable phi : O -> F.
Variable normalize : N -> F -> F.
Variable experience : N -> list F -> N.
Variable recurrent : bool.
Variable interval : nat.

(** A transition (ppo.py:594-610, 692-709) and what is added to it later (ppo.py:92-100, 129-136). *)
Record tr := mk_tr { t_state : O; t_action : A; t_reward : R; t_next : O; t_nonterminal : bool; t_rs : option H; t_next_rs : option H }.
Record rec := mk_rec { r_tr : tr; r_logp : R; r_v : R; r_next_v : R }.
Variable train : P -> option N -> list (list rec) -> P.

(** One env of the agent: its unfinished episode, its last observation and action, train_prev_recurrent_states and train_recurrent_states. *)
Record slot := mk_slot { s_ep : list tr; s_last : option (O * A); s_prev : option H; s_rs : option H }.
Record agent := mk_agent { g_params : P; g_norm : option N; g_memory : list (list tr); g_slots : list slot }.
Definition new_slot : slot := mk_slot [] None None None.

(** What happens: an action is taken, with the log-probability and value that the network gives at that time; an update, with the parameters and normalizer before it, the
    normalizer that its minibatches use, and its data set. *)
Inductive event :=
| EAct (o : O) (a : A) (logp v : R)
| EUpdate (p : P) (n n' : option N) (data : list (list rec)).

Definition feature (n : option N) (o : O) : F := match n with None => phi o | Some n => normalize n (phi o) end.
Definition or_zero (h : option H) : H := match h with Some h => h | None => zero end.
(** The network on one observation (ppo.py:619-628): a non-recurrent network has no states. *)
Definition evaluate (p : P) (n : option N) (h : option H) (o : O) : (D * R) * option H :=
  let '(dv, h') := net p (or_zero h) (feature n o) in (dv, if recurrent then Some h' else None).

(** ppo.py:612-636 and 714-741: acting in one env. *)
Definition act_slot (p : P) (n : option N) (o : O) (a : A) (s : slot) : slot * event :=
  let '((d, v), h') := evaluate p n (s_rs s) o in
  (mk_slot (s_ep s) (Some (o, a)) (s_rs s) h', EAct o a (log_prob d a) v).

(** ppo.py:592-610, 757-781: the last action of one env is stored with its consequences. *)
Definition store_slot (o : O) (r : R) (done : bool) (s : slot) : slot :=
  match s_last s with
  | None => mk_slot (s_ep s) None None (s_rs s)
  | Some (o0, a) => mk_slot (s_ep s ++ [mk_tr o0 a r o (negb done) (s_prev s) (s_rs s)]) None None (s_rs s)
  end.
(** ppo.py:782-785: an episode ends. *)
Definition end_slot (s : slot) : res (list tr * slot) :=
  match s_ep s with
  | [] => Raise AssertionError
  | ep => Ok (ep, mk_slot [] (s_last s) (s_prev s) (s_rs s))
  end.
(** stateless_recurrent.py mask_recurrent_state_at: None stays None. *)
Definition mask (s : slot) : slot := mk_slot (s_ep s) (s_last s) (s_prev s) (match s_rs s with None => None | Some _ => Some zero end).

(** A row of batch_observe_and_train: observation, reward, done, done or reset. *)
Definition row := (O * R * bool * bool)%type.
Fixpoint observe (rows : list row) (ss : list slot) : res (list (list tr) * list slot) :=
  match rows, ss with
  | (o, r, done, ended) :: rows, s :: ss =>
      let s := store_slot o r done s in
      let! x := if (ended : bool) then let! y := end_slot s in Ok ([fst y], mask (snd y)) else Ok ([], s) in
      let! z := observe rows ss in
      Ok (fst x ++ fst z, snd x :: snd z)
  | [], ss => Ok ([], ss)
  | _, [] => Ok ([], [])
  end.

(** StatelessRecurrent.n_step_forward on one sequence (C44). *)
Fixpoint along (p : P) (h : H) (xs : list F) : list (D * R) :=
  match xs with [] => [] | x :: xs => let '(dv, h) := net p h x in dv :: along p h xs end.
(** The outputs for a list of sequences of observations with the recurrent states of their starts, concatenated ([output_mode='concat']). *)
Definition forward (p : P) (n : option N) (seqs : list (list O)) (hs : list (option H)) : list (D * R) :=
  concat (map (fun z => along p (or_zero (snd z)) (map (feature n) (fst z))) (combine seqs hs)).
(** [ep[0]]. *)
Definition first_of (ep : list tr) : res tr := match ep with t :: _ => Ok t | [] => Raise IndexError end.

(** The flat list of transitions with what is added to them (ppo.py:86-100 and 129-136); zip stops at the shortest. *)
Fixpoint zip_records (trs : list tr) (outs nexts : list (D * R)) : list rec :=
  match trs, outs, nexts with
  | t :: trs, (d, v) :: outs, (_, nv) :: nexts => mk_rec t (log_prob d (t_action t)) v nv :: zip_records trs outs nexts
  | _, _, _ => []
  end.
(** Transitions are changed in place: the episodes are still those of before. *)
Fixpoint regroup {T} (lens : list nat) (l : list T) : list (list T) :=
  match lens with [] => [] | k :: lens => firstn k l :: regroup lens (skipn k l) end.
(** ppo.py:48-100 [_add_log_prob_and_value_to_episodes_recurrent] and 103-136 [_add_log_prob_and_value_to_episodes]. *)
Definition add_records (p : P) (n : option N) (eps : list (list tr)) : res (list (list rec)) :=
  let flat := concat eps in
  if recurrent then
    let! firsts := mapM first_of eps in
    let outs := forward p n (map (map t_state) eps) (map t_rs firsts) in
    let nexts := forward p n (map (map t_next) eps) (map t_next_rs firsts) in
    Ok (regroup (map (@length tr) eps) (zip_records flat outs nexts))
  else
    let outs := map (fun t => fst (net p zero (feature n (t_state t)))) flat in
    let nexts := map (fun t => fst (net p zero (feature n (t_next t)))) flat in
    Ok (regroup (map (@length tr) eps) (zip_records flat outs nexts)).

(** ppo.py:375-411 [_update_if_dataset_is_ready], 413-421 [_flush_last_episode] and the beginning of [_update] and [_update_recurrent] (429-433, 533-538), which let the normalizer
    experience the states first.  Cutting sequences (C37) is left to the reader of the data set: its pieces are pieces of episodes. *)
Definition nonempty_ep (ep : list tr) : bool := match ep with [] => false | _ => true end.
Definition update_if_ready (g : agent) : res (agent * list event) :=
  let size := list_sum (map (@length tr) (g_memory g)) + list_sum (map (fun s => length (s_ep s)) (g_slots g)) in
  if interval <=? size then
    let eps := g_memory g ++ filter nonempty_ep (map s_ep (g_slots g)) in
    let! data := add_records (g_params g) (g_norm g) eps in
    let n' := match g_norm g with None => None | Some n => Some (experience n (map (fun t => phi (t_state t)) (concat eps))) end in
    Ok (mk_agent (train (g_params g) n' data) n' [] (map (fun s => mk_slot [] (s_last s) (s_prev s) (s_rs s)) (g_slots g)),
        [EUpdate (g_params g) (g_norm g) n' data])
  else Ok (g, []).

Definition act_all (oas : list (O * A)) (g : agent) : agent * list event :=
  let xs := map (fun z => act_slot (g_params g) (g_norm g) (fst (fst z)) (snd (fst z)) (snd z)) (combine oas (g_slots g)) in
  (mk_agent (g_params g) (g_norm g) (g_memory g) (map fst xs), map snd xs).

(** The calls: act_and_train (observation, reward, chosen action), stop_episode_and_train, batch_act_and_train and batch_observe_and_train. *)
Inductive call := CAct (o : O) (r : R) (a : A) | CStop (o : O) (r : R) (done : bool) | CBatchAct (oas : list (O * A)) | CBatchObserve (rows : list row).
Definition with_slots (g : agent) (finished : list (list tr)) (ss : list slot) : agent := mk_agent (g_params g) (g_norm g) (g_memory g ++ finished) ss.
Definition step (g : agent) (c : call) : res (agent * list event) :=
  match c with
  | CAct o r a =>
      let! x := observe [(o, r, false, false)] (g_slots g) in
      let! y := update_if_ready (with_slots g (fst x) (snd x)) in
      let '(g, es) := act_all [(o, a)] (fst y) in
      Ok (g, snd y ++ es)
  | CStop o r done =>
      assert! (match g_slots g with s :: _ => match s_last s with Some _ => true | None => false end | [] => false end) in
      let! x := observe [(o, r, done, true)] (g_slots g) in
      let ss := map (fun s => mk_slot (s_ep s) (s_last s) (s_prev s) None) (snd x) in
      update_if_ready (with_slots g (fst x) ss)
  | CBatchAct oas =>
      assert! (length oas =? length (g_slots g)) in
      Ok (act_all oas g)
  | CBatchObserve rows =>
      let! x := observe rows (g_slots g) in
      update_if_ready (with_slots g (fst x) (snd x))
  end.
Fixpoint runs (g : agent) (cs : list call) : res (agent * list event) :=
  match cs with
  | [] => Ok (g, [])
  | c :: cs => let! x := step g c in let! y := runs (fst x) cs in Ok (fst y, snd x ++ snd y)
  end.

(** ppo.py:512-520 (and 458-472 without recurrence): the log-probabilities and values that the first minibatch computes, for a list of pieces of episodes. *)
Definition recompute (p : P) (n : option N) (pieces : list (list rec)) : res (list (R * R)) :=
  let flat := map r_tr (concat pieces) in
  let! outs := if recurrent then
      let! firsts := mapM first_of (map (map r_tr) pieces) in
      Ok (forward p n (map (map (fun r => t_state (r_tr r))) pieces) (map t_rs firsts))
    else Ok (map (fun t => fst (net p zero (feature n (t_state t)))) flat) in
  Ok (map (fun z => (log_prob (fst (snd z)) (t_action (fst z)), snd (snd z))) (combine flat outs)).
End Records.
Arguments EAct {O A H P N}.
Arguments EUpdate {O A H P N}.
Arguments CAct {O A}.
Arguments CStop {O A}.
Arguments CBatchAct {O A}.
Arguments CBatchObserve {O A}.
