(** What an asynchronous training run may do, read off the log of all processes. *)
From Coq Require Import QArith.
From Verif Require Import Base.PyBase Model.TrainAsync.
Set Implicit Arguments.
Local Open Scope nat_scope.

Section P.
  Context {Obs Act Rw : Type}.
  Variable rzero : Rw.
  Variable c : aconfig.
  Notation aev := (@aev Obs Act Rw).
  Notation xans := (@xans Obs Rw).

  (** Which step ends an episode of length [len]. *)
  Definition over (x : xans) (len : nat) : Prop :=
    x_done x = true \/ x_needs x = true \/ ac_maxlen c = Some (Z.of_nat len).

  (** A successful evaluation. *)
  Definition success (e : aev) : Prop :=
    match e with AEval _ _ (Some s) => exists q, ac_success c = Some q /\ (q <= s)%Q | _ => False end.

  (** Where a process is; [v] is the last counter value it got (0: none). *)
  Inductive yphase :=
  | YBetween (v : Z)                             (* between episodes *)
  | YAct (o : Obs) (r : Rw) (len : nat)
  | YStep (a : Act) (len : nat)
  | YCount (x : xans) (len : nat)
  | YHooks (x : xans) (len : nat) (v : Z) (k : nat) (* k hooks were called *)
  | YStopped (v : Z)
  | YFailed (v : Z)                              (* evaluated, not successful *)
  | YWon (v : Z)                                 (* evaluated, successful *)
  | YSaved                                       (* the final agent was saved *)
  | YSavedWin                                    (* the successful agent was saved *)
  | YClosed
  | YCrashed.                                    (* saved in the exception handler *)

  (** What a process may do next; [seen]: some process made a successful evaluation. *)
  Inductive ystep (seen : Prop) : nat -> yphase -> aev -> yphase -> Prop :=
  | y_reset i v o : (v = 0 \/ v < ac_steps c)%Z -> ystep seen i (YBetween v) (AReset o) (YAct o rzero 0)
  | y_act i o r len a : ystep seen i (YAct o r len) (AAct o r a) (YStep a len)
  | y_step i a len x : ystep seen i (YStep a len) (AStep a x) (YCount x (S len))
  | y_count i x len v : ystep seen i (YCount x len) (ACount v) (YHooks x len v 0)
  | y_hook i x len v k : k < ac_hooks c -> ystep seen i (YHooks x len v k) (AHook k v) (YHooks x len v (S k))
  | y_go_on i x len v a : ~ over x len -> (v < ac_steps c)%Z ->
      ystep seen i (YHooks x len v (ac_hooks c)) (AAct (x_obs x) (x_rew x) a) (YStep a len)
  | y_stop i x len v : (over x len \/ (ac_steps c <= v)%Z \/ seen) ->
      ystep seen i (YHooks x len v (ac_hooks c)) (AStop (x_obs x) (x_rew x) (x_done x)) (YStopped v)
  | y_eval_no i v n s : ac_eval c = true -> ~ success (AEval v n s) -> ystep seen i (YStopped v) (AEval v n s) (YFailed v)
  | y_eval_yes i v n s : ac_eval c = true -> success (AEval v n s) -> ystep seen i (YStopped v) (AEval v n s) (YWon v)
  | y_episode_no_eval i v n : ac_eval c = false -> ystep seen i (YStopped v) (AEpisode n) (YBetween v)
  | y_episode i v n : ystep seen i (YFailed v) (AEpisode n) (YBetween v)
  | y_finish i v : v = ac_steps c -> ystep seen i (YBetween v) (ASave AFinish v) YSaved
  | y_finish_won i v : v = ac_steps c -> ystep seen i (YWon v) (ASave AFinish v) YSaved
  | y_win i v : v <> ac_steps c -> ystep seen i (YWon v) (ASave ASuccess v) YSavedWin
  | y_win_saved i v : v = ac_steps c -> ystep seen i YSaved (ASave ASuccess v) YSavedWin
  | y_close i v : (1 <= v)%Z -> (ac_steps c < v)%Z \/ (seen /\ v <> ac_steps c) -> ystep seen i (YBetween v) AClose YClosed
  | y_close_won i v : v <> ac_steps c -> ystep seen i (YWon v) AClose YClosed
  | y_close_saved i : ystep seen i YSaved AClose YClosed
  | y_close_win i : ystep seen i YSavedWin AClose YClosed
  | y_crash p v : ystep seen 0 p (ASave AExcept v) YCrashed.

  (** All processes together. *)
  Inductive ypath : list yphase * Prop -> list (nat * aev) -> list yphase * Prop -> Prop :=
  | yp_nil s : ypath s [] s
  | yp_snoc s l phs seen i e p p' : ypath s l (phs, seen) -> nth_error phs i = Some p -> ystep seen i p e p' ->
      ypath s (l ++ [(i, e)]) (upd phs i p', seen \/ success e).

  (** What happened in a log. *)
  Fixpoint a_counts (l : list (nat * aev)) : list Z :=
    match l with [] => [] | (_, ACount v) :: l => v :: a_counts l | _ :: l => a_counts l end.
  Fixpoint a_episodes (l : list (nat * aev)) : list nat :=
    match l with [] => [] | (_, AEpisode n) :: l => n :: a_episodes l | _ :: l => a_episodes l end.
  Definition is_step (x : nat * aev) : bool := match snd x with AStep _ _ => true | _ => false end.
  Definition is_finish (x : nat * aev) : bool := match snd x with ASave AFinish _ => true | _ => false end.
  Definition is_win (x : nat * aev) : bool := match snd x with ASave ASuccess _ => true | _ => false end.
  Definition number (f : nat * aev -> bool) (l : list (nat * aev)) : nat := length (filter f l).

  (** [1 .. n] *)
  Definition one_to (n : nat) : list Z := map (fun i => Z.of_nat i + 1)%Z (seq 0 n).

  (** All processes returned. *)
  Definition all_closed (phs : list yphase) : Prop := forall p, In p phs -> p = YClosed.
End P.
