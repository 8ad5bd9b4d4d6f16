(** Specification of the n-step windows: histories are cut into episodes, and
    every transition starts one window. *)
From Verif Require Import Base.PyBase Model.RandomAccessQueue Model.ReplayBuffer.
Set Implicit Arguments.

Section W.
  Context {T : Type}.

  (** The episodes of environment [e] in a history: complete ones, and the
      transitions of the episode still open. *)
  Fixpoint episodes_from (e : nat) (cur : list T) (os : list (rb_op T)) : list (list T) * list T :=
    match os with
    | [] => ([], cur)
    | RAppend e' x terminal :: t =>
      if e' =? e then
        if terminal then let (eps, o) := episodes_from e [] t in ((cur ++ [x]) :: eps, o)
        else episodes_from e (cur ++ [x]) t
      else episodes_from e cur t
    | RStop e' :: t =>
      if e' =? e then let (eps, o) := episodes_from e [] t in (cur :: eps, o)
      else episodes_from e cur t
    end.
  Definition episodes (e : nat) (os : list (rb_op T)) := episodes_from e [] os.

  (** The window starting at transition [i]: at most [n] transitions. *)
  Definition window (n : nat) (ep : list T) (i : nat) : list T := firstn n (skipn i ep).

  (** A complete episode: one window per transition. *)
  Definition windows (n : nat) (ep : list T) : list (list T) := map (window n ep) (seq 0 (length ep)).

  (** An open episode: the windows that already have [n] transitions. *)
  Definition open_windows (n : nat) (ep : list T) : list (list T) :=
    map (window n ep) (seq 0 (length ep + 1 - n)).

  (** Everything environment [e] has contributed, in order. *)
  Definition contributed (n e : nat) (os : list (rb_op T)) : list (list T) :=
    let (eps, o) := episodes e os in concat (map (windows n) eps) ++ open_windows n o.

  (** A log of (environment, window) entries in which every environment's part
      is exactly what it has contributed. *)
  Definition exact_log (n : nat) (os : list (rb_op T)) (log : list (nat * list T)) : Prop :=
    forall e, map snd (filter (fun p => fst p =? e) log) = contributed n e os.

  (** A saved file that a buffer of capacity [cap] could have written (a deque
      file of the same [maxlen], or a queue within its own bound). *)
  Definition file_ok (cap : option nat) (f : saved T) : Prop :=
    match f with
    | SRaq q => maxlen q = cap /\ match cap with Some c => raq_len q <= c | None => True end
    | SDeque l m => m = cap
    end.
End W.
