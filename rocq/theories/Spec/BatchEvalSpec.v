(** The episodes of a batch evaluation in the order in which they were started. *)
From Verif Require Import Base.PyBase Model.TrainAgent Model.Evaluator Spec.EvalEpisodesSpec.
Set Implicit Arguments.
Local Open Scope nat_scope.

Section S.
  Context {Obs Act Rw : Type}.
  Notation wev := (@wev Obs Act Rw).
  Notation banswer := (@banswer Obs Rw).
  Variable maxlen : option Z.

  (** A started episode: its env, its steps so far, whether it is finished. *)
  Definition started := (nat * @episode Rw * bool)%type.
  Definition s_env (e : started) : nat := fst (fst e).
  Definition s_steps (e : started) : @episode Rw := snd (fst e).
  Definition s_fin (e : started) : bool := snd e.

  Definition ends_b (k : nat) (x : Rw * bool * bool) : bool :=
    snd (fst x) || snd x || match maxlen with Some m => (m =? Z.of_nat k)%Z | None => false end.

  (** Env [j] made a step: its running episode grows, and if that ended it a new
      episode of env [j] is started. *)
  Definition grow (j : nat) (x : Rw * bool * bool) (e : started) : started :=
    let '(j', g, fin) := e in
    if Nat.eqb j j' && negb fin then (j', g ++ [x], ends_b (S (length g)) x) else e.
  Definition runs_in (j : nat) (e : started) : bool := Nat.eqb j (s_env e) && negb (s_fin e).
  Definition feed (eps : list started) (j : nat) (x : Rw * bool * bool) : list started :=
    let eps := map (grow j x) eps in
    if existsb (runs_in j) eps then eps else eps ++ [(j, [], false)].

  (** The whole vector made a step (the envs in order). *)
  Fixpoint feed_all (eps : list started) (j : nat) (xs : list banswer) : list started :=
    match xs with
    | [] => eps
    | x :: xs => feed_all (feed eps j (ba_rew x, ba_done x, ba_needs x)) (S j) xs
    end.

  (** At the start every env has an empty running episode. *)
  Definition started0 (n : nat) : list started := map (fun j => (j, [], false)) (seq 0 n).
  Definition started_after (n : nat) (steps : list (list banswer)) : list started :=
    fold_left (fun eps xs => feed_all eps 0 xs) steps (started0 n).

  (** The step answers in a trace. *)
  Fixpoint answers (tr : list wev) : list (list banswer) :=
    match tr with [] => [] | WStep _ xs :: tr => xs :: answers tr | _ :: tr => answers tr end.

  (** The first [k] episodes are all finished. *)
  Definition finished_upto (k : nat) (eps : list started) : Prop :=
    k <= length eps /\ forall e, In e (firstn k eps) -> s_fin e = true.

  Definition lengths (eps : list started) : nat := length (concat (map s_steps eps)).

  (** The budget is used up: the first n episodes are finished; or the first k
      episodes are finished and they and the next one together took n steps. *)
  Definition used_up (b : budget) (eps : list started) : Prop :=
    match b with
    | ForEpisodes n => finished_upto (Z.to_nat n) eps
    | ForSteps n => exists k, finished_upto k eps /\ (n <= Z.of_nat (lengths (firstn (S k) eps)))%Z
    end.

  (** The returns to report: those of the first n episodes; or those of the longest
      initial part of the finished episodes that fits in n steps, or of the first
      episode, cut off after n steps, if that is still running. *)
  Definition reported (ret : @episode Rw -> Rw) (b : budget) (eps : list started) (rs : list Rw) : Prop :=
    match b with
    | ForEpisodes n => rs = map (fun e => ret (s_steps e)) (firstn (Z.to_nat n) eps)
    | ForSteps n =>
        (exists k, 1 <= k /\ finished_upto k eps /\ (Z.of_nat (lengths (firstn k eps)) <= n)%Z /\
           (finished_upto (S k) eps -> (n < Z.of_nat (lengths (firstn (S k) eps)))%Z) /\
           rs = map (fun e => ret (s_steps e)) (firstn k eps)) \/
        (exists e rest, eps = e :: rest /\ s_fin e = false /\ Z.of_nat (length (s_steps e)) = n /\ rs = [ret (s_steps e)])
    end.

  (** The last thing the agent observed told it to reset all its episodes. *)
  Definition last_observe (n : nat) (tr : list wev) : Prop :=
    exists tr0 obss rs dones, tr = tr0 ++ [WObserve obss rs dones (repeat true n)].

  Definition from_wworld (w : @wworld Obs Act Rw) (e : exc) : Prop :=
    exists tr, ww_reset w tr = Raise e \/ ww_act w tr = Raise e \/ ww_step w tr = Raise e \/ ww_observe w tr = Raise e.
End S.
