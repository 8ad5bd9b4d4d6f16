(** Model of how PPO and TRPO collect transitions into datasets and cut them into
    recurrent minibatches (chainerrl/agents/ppo.py; trpo.py has the same methods,
    trpo.py:251-300 and 652-866).  Models, losses and optimizers are not modelled;
    neither are the recurrent states kept in transitions. *)
From Coq Require Import QArith.
From Verif Require Import Base.PyBase.
Set Implicit Arguments.
Local Open Scope nat_scope.

(** ** Cutting sequences *)
Section Cut.
  Context {X : Type}.

  (** ppo.py:143-148: the loop on one sequence; [fuel] bounds the iterations. *)
  Fixpoint limit_one (fuel max_len : nat) (sequence : list X) : res (list (list X)) :=
    if Nat.ltb max_len (length sequence) then
      match fuel with
      | O => Raise OutOfFuel
      | S fuel =>
        let! rest := limit_one fuel max_len (skipn max_len sequence) in
        Ok (firstn max_len sequence :: rest)
      end
    else
      assert! (Nat.ltb 0 (length sequence) && Nat.leb (length sequence) max_len) in
      Ok [sequence].

  Fixpoint limit_all (max_len : nat) (sequences : list (list X)) : res (list (list X)) :=
    match sequences with
    | [] => Ok []
    | s :: t =>
      let! a := limit_one (length s) max_len s in
      let! b := limit_all max_len t in
      Ok (a ++ b)
    end.

  (** ppo.py:139-149 [_limit_sequence_length]. *)
  Definition limit_sequence_length (sequences : list (list X)) (max_len : nat) : res (list (list X)) :=
    assert! Nat.ltb 0 max_len in limit_all max_len sequences.

  (** ppo.py:159-162: [while count < n_items: sequence = stack.pop() ...].  The stack
      is kept top first (the code reverses the list and pops from the end). *)
  Fixpoint fill (n_items : nat) (stack subset : list (list X)) (count : nat) : res (list (list X) * list (list X) * nat) :=
    if Nat.ltb count n_items then
      match stack with
      | [] => Raise IndexError
      | s :: stack => fill n_items stack (subset ++ [s]) (count + length s)
      end
    else Ok (subset, stack, count).

  (** ppo.py:163-170: splitting the last sequence. *)
  Definition split_last (n_items : nat) (subset stack : list (list X)) (count : nat) : res (list (list X) * list (list X)) :=
    if Nat.ltb n_items count then
      let! last := py_get subset (-1) in
      let n_exceeds := count - n_items in
      assert! Nat.ltb 0 n_exceeds in
      let! subset := py_set subset (-1) (firstn (length last - n_exceeds) last) in
      Ok (subset, skipn (length last - n_exceeds) last :: stack)
    else Ok (subset, stack).

  (** ppo.py:152-172 [_yield_subset_of_sequences_with_fixed_number_of_items]: the
      subsets yielded and how the generator ends.  [fuel] bounds the iterations of
      the outer loop. *)
  Fixpoint yield_subsets (fuel n_items : nat) (stack : list (list X)) : list (list (list X)) * res unit :=
    match stack with
    | [] => ([], Ok tt)
    | _ =>
      match fuel with
      | O => ([], Raise OutOfFuel)
      | S fuel =>
        match (let! f := fill n_items stack [] 0 in
               let '(subset, stack, count) := f : list (list X) * list (list X) * nat in
               let! sp := split_last n_items subset stack count in
               assert! Nat.eqb (list_sum (map (@length X) (fst sp))) n_items in Ok sp) with
        | Raise e => ([], Raise e)
        | Ok (subset, stack) => let (out, r) := yield_subsets fuel n_items stack in (subset :: out, r)
        end
      end
    end.
  Definition minibatches (sequences : list (list X)) (n_items : nat) : list (list (list X)) * res unit :=
    if Nat.ltb 0 n_items then yield_subsets (S (length (concat sequences))) n_items sequences
    else ([], Raise AssertionError).
End Cut.

(** ** Collecting transitions *)
Section Agent.
  Context {Obs A : Type}.
  (** ppo.py:596-602, 665-671, 771-777: the stored fields; [p_nonterminal = true] is 1.0. *)
  Record ptr := mk_ptr { p_state : Obs; p_action : A; p_reward : Q; p_next : Obs; p_nonterminal : bool }.
  Notation episode := (list ptr).
  Notation dataset := (list (list ptr)).

  Record ppo := mk_ppo {
    memory : list episode;
    last_episode : episode;
    last : option (Obs * A);                      (* last_state and last_action *)
    batch_last_episode : option (list episode);
    batch_last : list (option (Obs * A))          (* batch_last_state and batch_last_action *)
  }.
  Definition ppo_init : ppo := mk_ppo [] [] None None [].
  Variable update_interval : nat.

  (** ppo.py:411-419 [_flush_last_episode]. *)
  Definition nonempty (e : episode) : list episode := match e with [] => [] | _ => [e] end.
  Definition flush (s : ppo) : ppo :=
    mk_ppo (memory s ++ nonempty (last_episode s) ++
            match batch_last_episode s with None => [] | Some b => flat_map nonempty b end)
           [] (last s)
           (match batch_last_episode s with None => None | Some b => Some (map (fun _ => []) b) end)
           (batch_last s).

  Definition size (d : list episode) : nat := list_sum (map (@length ptr) d).

  (** ppo.py:375-409 [_update_if_dataset_is_ready]; an update is logged as the
      episodes it is given. *)
  Definition update_if_ready (s : ppo) : res (list dataset * ppo) :=
    let dataset_size := size (memory s) + length (last_episode s) +
                        match batch_last_episode s with None => 0 | Some b => size b end in
    if Nat.leb update_interval dataset_size then
      let s := flush s in
      assert! Nat.eqb (length (concat (memory s))) dataset_size in
      match concat (memory s) with
      | [] => Raise IndexError                       (* dataset[0], ppo.py:435 *)
      | _ => Ok ([memory s], mk_ppo [] (last_episode s) (last s) (batch_last_episode s) (batch_last s))
      end
    else Ok ([], s).

  (** ppo.py:593-638 [act_and_train]; the sampled action is a parameter. *)
  Definition ppo_act (s : ppo) (obs : Obs) (reward : Q) (action : A) : res (list dataset * ppo) :=
    let s := match last s with
             | None => s
             | Some (st, a) => mk_ppo (memory s) (last_episode s ++ [mk_ptr st a reward obs true]) (last s)
                                      (batch_last_episode s) (batch_last s)
             end in
    let! u := update_if_ready s in
    let s := snd u in
    Ok (fst u, mk_ppo (memory s) (last_episode s) (Some (obs, action)) (batch_last_episode s) (batch_last s)).

  (** ppo.py:662-688 [stop_episode_and_train]. *)
  Definition ppo_stop (s : ppo) (obs : Obs) (reward : Q) (done : bool) : res (list dataset * ppo) :=
    match last s with
    | None => Raise AssertionError
    | Some (st, a) =>
      let s := mk_ppo (memory s) (last_episode s ++ [mk_ptr st a reward obs (negb done)]) None
                      (batch_last_episode s) (batch_last s) in
      update_if_ready (flush s)
    end.

  (** ppo.py:714-745 [batch_act_and_train]. *)
  Definition ppo_batch_act (s : ppo) (obs : list Obs) (actions : list A) : res ppo :=
    let s := match batch_last_episode s with
             | None => mk_ppo (memory s) (last_episode s) (last s) (Some (repeat [] (length obs))) (repeat None (length obs))
             | Some _ => s
             end in
    let b := match batch_last_episode s with Some b => b | None => [] end in
    assert! Nat.eqb (length b) (length obs) in
    assert! Nat.eqb (length (batch_last s)) (length obs) in
    Ok (mk_ppo (memory s) (last_episode s) (last s) (Some b) (map Some (combine obs actions))).

  (** ppo.py:769-793: one row of the loop of [batch_observe_and_train]. *)
  Definition brow := (Obs * Q * bool * bool)%type.
  Definition observe_row (mem : list episode) (eps : list episode) (i : nat) (st : option (Obs * A)) (row : brow)
    : res (list episode * list episode) :=
    let '(next, reward, done, reset) := row in
    let! eps := match st with
                | None => Ok eps
                | Some (o, a) =>
                  let! e := py_get eps (Z.of_nat i) in
                  py_set eps (Z.of_nat i) (e ++ [mk_ptr o a reward next (negb done)])
                end in
    if done || reset then
      let! e := py_get eps (Z.of_nat i) in
      assert! negb (Nat.eqb (length e) 0) in
      let! eps := py_set eps (Z.of_nat i) [] in
      Ok (mem ++ [e], eps)
    else Ok (mem, eps).
  Fixpoint observe_rows (mem : list episode) (eps : list episode) (i : nat) (rows : list (option (Obs * A) * brow))
    : res (list episode * list episode) :=
    match rows with
    | [] => Ok (mem, eps)
    | (st, row) :: rows =>
      let! me := observe_row mem eps i st row in
      observe_rows (fst me) (snd me) (S i) rows
    end.
  (** ppo.py:758-807 [batch_observe_and_train]. *)
  Definition ppo_batch_observe (s : ppo) (rows : list brow) : res (list dataset * ppo) :=
    match batch_last_episode s with
    | None => Raise TypeError
    | Some eps =>
      let! me := observe_rows (memory s) eps 0 (combine (batch_last s) rows) in
      let k := length (combine (batch_last s) rows) in
      update_if_ready (mk_ppo (fst me) (last_episode s) (last s) (Some (snd me))
                              (repeat None k ++ skipn k (batch_last s)))
    end.

  Inductive pop := PAct (obs : Obs) (reward : Q) (action : A) | PStop (obs : Obs) (reward : Q) (done : bool)
                 | PBAct (obs : list Obs) (actions : list A) | PBObs (rows : list brow).
  Definition ppo_step (s : ppo) (o : pop) : res (list dataset * ppo) :=
    match o with
    | PAct o r a => ppo_act s o r a
    | PStop o r d => ppo_stop s o r d
    | PBAct os acts => let! s := ppo_batch_act s os acts in Ok ([], s)
    | PBObs rows => ppo_batch_observe s rows
    end.
  Fixpoint ppo_run (s : ppo) (os : list pop) : res (list dataset * ppo) :=
    match os with
    | [] => Ok ([], s)
    | o :: os =>
      let! u := ppo_step s o in
      let! w := ppo_run (snd u) os in
      Ok (fst u ++ fst w, snd w)
    end.
End Agent.
Arguments ptr : clear implicits.
Arguments ppo : clear implicits.
Arguments pop : clear implicits.
