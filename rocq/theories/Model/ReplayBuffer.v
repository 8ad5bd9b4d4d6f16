(** Model of chainerrl/replay_buffers/replay_buffer.py (ReplayBuffer) and of the
    n-step bookkeeping that replay_buffers/prioritized.py inherits from it. *)
From Verif Require Import Base.PyBase Model.Random Model.RandomAccessQueue.
Set Implicit Arguments.

Section NStep.
  Context {T M : Type}.
  (** [self.memory.append]: RandomAccessQueue.append for ReplayBuffer,
      PrioritizedBuffer.append for PrioritizedReplayBuffer. *)
  Variable push : M -> list T -> res M.

  (** replay_buffer.py:21-27 — attributes.  [last_n_transitions] is a
      defaultdict of deques with [maxlen=num_steps], keyed by env_id (here a
      natural number), each deque listed oldest first. *)
  Record nrb := mk_nrb { nr_n : nat; nr_mem : M; nr_last : nat -> list T }.

  Definition set_last (f : nat -> list T) (e : nat) (l : list T) : nat -> list T :=
    fun e' => if e' =? e then l else f e'.

  (** [deque.append] on a deque with [maxlen = n]: drops from the left. *)
  Definition deque_append (n : nat) (l : list T) (x : T) : list T :=
    skipn (length (l ++ [x]) - n) (l ++ [x]).

  (** replay_buffer.py:43-45 and 61-63: [while last_n_transitions:] append the
      whole deque, drop its first element. *)
  Fixpoint flush (m : M) (l : list T) : res M :=
    match l with
    | [] => Ok m
    | _ :: t => let! m' := push m l in flush m' t
    end.

  (** replay_buffer.py:29-49 [append].  The experience dict is an opaque value
      [x]; [terminal] is its [is_state_terminal] flag. *)
  Definition nrb_append (b : nrb) (e : nat) (x : T) (terminal : bool) : res nrb :=
    let l := deque_append (nr_n b) (nr_last b e) x in
    if terminal then
      let! m := flush (nr_mem b) l in
      Ok (mk_nrb (nr_n b) m (set_last (nr_last b) e []))
    else if length l =? nr_n b then
      let! m := push (nr_mem b) l in
      Ok (mk_nrb (nr_n b) m (set_last (nr_last b) e l))
    else Ok (mk_nrb (nr_n b) (nr_mem b) (set_last (nr_last b) e l)).

  (** replay_buffer.py:51-64 [stop_current_episode]. *)
  Definition nrb_stop (b : nrb) (e : nat) : res nrb :=
    let l := nr_last b e in
    let len := length l in
    let! m := if (0 <? len) && (len <? nr_n b) then push (nr_mem b) l else Ok (nr_mem b) in
    let l := if (0 <? len) && (len <=? nr_n b) then tl l else l in
    let! m := flush m l in
    Ok (mk_nrb (nr_n b) m (set_last (nr_last b) e [])).

  Inductive rb_op := RAppend (e : nat) (x : T) (terminal : bool) | RStop (e : nat).

  Definition nrb_step (b : nrb) (o : rb_op) : res nrb :=
    match o with
    | RAppend e x t => nrb_append b e x t
    | RStop e => nrb_stop b e
    end.

  Fixpoint nrb_run (b : nrb) (os : list rb_op) : res nrb :=
    match os with
    | [] => Ok b
    | o :: t => let! b' := nrb_step b o in nrb_run b' t
    end.

  (** replay_buffer.py:21-27 [__init__] (line 23 asserts num_steps > 0). *)
  Definition nrb_init (n : nat) (m : M) : res nrb :=
    assert! 0 <? n in Ok (mk_nrb n m (fun _ => [])).
End NStep.
Arguments nrb : clear implicits.
Arguments rb_op : clear implicits.
Arguments RStop {T} e.

Section RB.
  Context {T : Type}.

  (** ReplayBuffer: the memory is a RandomAccessQueue(maxlen=capacity)
      (replay_buffer.py:25). *)
  Definition rb := nrb T (raq (list T)).

  Definition rb_init (cap : option nat) (n : nat) : res rb :=
    let! m := raq_init cap [] in nrb_init n m.

  Definition rb_len (b : rb) : nat := raq_len (nr_mem b).

  (** replay_buffer.py:66-68 [sample], with collections.py:101-102. *)
  Definition rb_sample (fuel : nat) (r : rng) (b : rb) (k : nat) : res (list (list T)) :=
    assert! k <=? rb_len b in
    let! ixs := sample_n_k fuel r (Z.of_nat (rb_len b)) (Z.of_nat k) in
    raq_gets (nr_mem b) ixs.

  (** What a pickle file can contain: a RandomAccessQueue, or a deque written by
      v0.2 (contents and maxlen). *)
  Inductive saved := SRaq (q : raq (list T)) | SDeque (l : list (list T)) (m : option nat).

  (** replay_buffer.py:73-75 [save]. *)
  Definition rb_save (b : rb) : saved := SRaq (nr_mem b).

  (** replay_buffer.py:77-83 [load]. *)
  Definition rb_load (b : rb) (f : saved) : res rb :=
    match f with
    | SRaq q => Ok (mk_nrb (nr_n b) q (nr_last b))
    | SDeque l m => let! q := raq_init m l in Ok (mk_nrb (nr_n b) q (nr_last b))
    end.

  (** Histories in which files are loaded between other calls. *)
  Inductive rbl_op := LOp (o : rb_op T) | LLoad (f : saved).
  Definition rbl_step (b : rb) (o : rbl_op) : res rb :=
    match o with LOp o => nrb_step (@raq_append (list T)) b o | LLoad f => rb_load b f end.
  Fixpoint rbl_run (b : rb) (os : list rbl_op) : res rb :=
    match os with [] => Ok b | o :: t => let! b' := rbl_step b o in rbl_run b' t end.
End RB.
Arguments rb : clear implicits.
Arguments saved : clear implicits.
Arguments rbl_op : clear implicits.
