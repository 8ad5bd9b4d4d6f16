(** Model of chainerrl/replay_buffers/episodic.py (EpisodicReplayBuffer) and
    replay_buffers/prioritized_episodic.py (PrioritizedEpisodicReplayBuffer), and
    of random_subseq in chainerrl/replay_buffer.py. *)
From Verif Require Import Base.PyBase Model.Num Model.Random Model.TreeQueue Model.RandomAccessQueue
     Model.PrioritizedBuffer Model.ReplayBuffer.
Set Implicit Arguments.

(** replay_buffer.py:124-130 [random_subseq]; [i] is what
    [np.random.randint(0, len(seq) - subseq_len + 1)] returns.  Lengths are
    naturals (a negative [subseq_len] is not modelled). *)
Definition random_subseq {A} (seq : list A) (subseq_len : nat) (i : nat) : list A :=
  if length seq <=? subseq_len then seq else firstn subseq_len (skipn i seq).

(** [[random_subseq(ep, max_len) for ep in episodes]]: one draw per episode. *)
Definition subseqs {A} (eps : list (list A)) (max_len : option nat) (draw : nat -> nat) : list (list A) :=
  match max_len with
  | None => eps
  | Some m => map (fun p => random_subseq (snd p) m (draw (fst p))) (combine (seq 0 (length eps)) eps)
  end.

Section E.
  Context {T : Type}.
  (** [item['is_state_terminal']]. *)
  Variable terminal : T -> bool.

  (** Entries of [self.memory]: [stop_current_episode] stores one-element lists,
      [load] of a v0.2 file stores the transition dicts themselves. *)
  Inductive entry := Win (w : list T) | Bare (t : T).

  (** episodic.py:12-16 — attributes. *)
  Record erb := mk_erb { er_cur : nat -> list T; er_eps : raq (list T); er_mem : raq entry; er_cap : option nat }.

  Definition erb_init (cap : option nat) : res erb :=
    let! e := raq_init None [] in
    let! m := raq_init None [] in
    Ok (mk_erb (fun _ => []) e m cap).

  (** episodic.py:92-93: the [for _ in range(len(discarded_episode))] loop. *)
  Fixpoint pop_n {A} (n : nat) (q : raq A) : res (raq A) :=
    match n with O => Ok q | S n => let! (_, q') := raq_popleft q in pop_n n q' end.

  (** episodic.py:89-93: the eviction loop, on fuel. *)
  Fixpoint erb_evict (fuel : nat) (cap : nat) (eps : raq (list T)) (mem : raq entry)
    : res (raq (list T) * raq entry) :=
    if cap <? raq_len mem then
      match fuel with
      | O => Raise OutOfFuel
      | S fuel =>
        let! (ep, eps') := raq_popleft eps in
        let! mem' := pop_n (length ep) mem in
        erb_evict fuel cap eps' mem'
      end
    else Ok (eps, mem).

  (** episodic.py:84-86: the appends of [stop_current_episode]. *)
  Fixpoint append_all (mem : raq entry) (ep : list T) : res (raq entry) :=
    match ep with [] => Ok mem | t :: r => let! mem' := raq_append mem (Win [t]) in append_all mem' r end.

  (** episodic.py:81-94 [stop_current_episode]; the loop runs at most once per
      stored episode, which bounds the fuel. *)
  Definition erb_stop (b : erb) (e : nat) : res erb :=
    match er_cur b e with
    | [] => Ok b
    | ep =>
      let! eps := raq_append (er_eps b) ep in
      let! mem := append_all (er_mem b) ep in
      let cur := set_last (er_cur b) e [] in
      let! (eps, mem) := match er_cap b with
                         | None => Ok (eps, mem)
                         | Some c => erb_evict (raq_len eps) c eps mem
                         end in
      Ok (mk_erb cur eps mem (er_cap b))
    end.

  (** episodic.py:18-28 [append]. *)
  Definition erb_append (b : erb) (e : nat) (x : T) (is_terminal : bool) : res erb :=
    let b := mk_erb (set_last (er_cur b) e (er_cur b e ++ [x])) (er_eps b) (er_mem b) (er_cap b) in
    if is_terminal then erb_stop b e else Ok b.

  Definition erb_step (b : erb) (o : rb_op T) : res erb :=
    match o with RAppend e x t => erb_append b e x t | RStop e => erb_stop b e end.

  Fixpoint erb_run (b : erb) (os : list (rb_op T)) : res erb :=
    match os with [] => Ok b | o :: t => let! b' := erb_step b o in erb_run b' t end.

  (** episodic.py:43-44 and 46-48: [__len__], [n_episodes]. *)
  Definition erb_len (b : erb) := raq_len (er_mem b).
  Definition erb_n_episodes (b : erb) := raq_len (er_eps b).

  (** episodic.py:30-32 [sample]. *)
  Definition erb_sample (fuel : nat) (r : rng) (b : erb) (k : nat) : res (list entry) :=
    assert! k <=? erb_len b in
    let! ixs := sample_n_k fuel r (Z.of_nat (erb_len b)) (Z.of_nat k) in
    raq_gets (er_mem b) ixs.

  (** episodic.py:34-41 [sample_episodes]. *)
  Definition erb_sample_episodes (fuel : nat) (r : rng) (draw : nat -> nat) (b : erb) (k : nat)
             (max_len : option nat) : res (list (list T)) :=
    assert! k <=? erb_n_episodes b in
    let! ixs := sample_n_k fuel r (Z.of_nat (erb_n_episodes b)) (Z.of_nat k) in
    let! eps := raq_gets (er_eps b) ixs in
    Ok (subseqs eps max_len draw).

  (** Files: the (memory, episodic_memory) pair, or a v0.2 file with the bare
      transitions. *)
  Inductive efile := ENew (mem : raq entry) (eps : raq (list T)) | EOld (ts : list T).

  (** episodic.py:50-52 [save]. *)
  Definition erb_save (b : erb) : efile := ENew (er_mem b) (er_eps b).

  (** episodic.py:68-74: the recovery loop over a v0.2 memory. *)
  Fixpoint recover (ts : list T) (episode : list T) (eps : raq (list T)) : res (raq (list T)) :=
    match ts with
    | [] => Ok eps
    | t :: r =>
      let episode := episode ++ [t] in
      if terminal t then let! eps' := raq_append eps episode in recover r [] eps'
      else recover r episode eps
    end.

  (** episodic.py:54-74 [load]. *)
  Definition erb_load (b : erb) (f : efile) : res erb :=
    match f with
    | ENew mem eps => Ok (mk_erb (er_cur b) eps mem (er_cap b))
    | EOld ts =>
      let! mem := raq_init None (map Bare ts) in
      let! eps0 := raq_init None [] in
      let! eps := recover ts [] eps0 in
      Ok (mk_erb (er_cur b) eps mem (er_cap b))
    end.
End E.
Arguments entry : clear implicits.
Arguments erb : clear implicits.
Arguments efile : clear implicits.

Section PE.
  Variable N : num.
  Context {T : Type}.
  (** [default_priority_func] (None: no function given), [uniform_ratio],
      [priority_from_errors], [wait_priority_after_sampling]. *)
  Variable dpf : option (list T -> nV N).
  Variable ur : nV N.
  Variable pri_of : list (nV N) -> list (nV N).

  (** prioritized_episodic.py:28-39 — attributes (without those of
      PriorityWeightError, see Model/PriorityWeight.v). *)
  Record perb := mk_perb { pe_cur : nat -> list T; pe_eps : pb N (list T); pe_mem : raq T; pe_left : option Z }.

  Definition perb_init (cap : option nat) (wait : bool) : res perb :=
    let! m := raq_init cap [] in
    Ok (mk_perb (fun _ => []) (pb_init N None wait (none_ N)) m (option_map Z.of_nat cap)).

  (** prioritized_episodic.py:71-73: the eviction loop, on fuel. *)
  Fixpoint perb_evict (fuel : nat) (eps : pb N (list T)) (left : Z) : res (pb N (list T) * Z) :=
    if (left <? 0)%Z then
      match fuel with
      | O => Raise OutOfFuel
      | S fuel =>
        let! (ep, eps') := pb_popleft eps in
        perb_evict fuel eps' (left + Z.of_nat (length ep))%Z
      end
    else Ok (eps, left).

  (** prioritized_episodic.py:58-74 [stop_current_episode]. *)
  Definition perb_stop (b : perb) (e : nat) : res perb :=
    match pe_cur b e with
    | [] => Ok b
    | ep =>
      let priority := match dpf with Some f => Some (f ep) | None => None end in
      let! mem := raq_extend (pe_mem b) ep in
      let! eps := pb_append (pe_eps b) ep priority in
      let cur := set_last (pe_cur b) e [] in
      match pe_left b with
      | None => Ok (mk_perb cur eps mem None)
      | Some l =>
        let l := (l - Z.of_nat (length ep))%Z in
        let! (eps, l) := perb_evict (S (length (pb_data eps))) eps l in
        Ok (mk_perb cur eps mem (Some l))
      end
    end.

  (** episodic.py:18-28 [append] (inherited). *)
  Definition perb_append (b : perb) (e : nat) (x : T) (is_terminal : bool) : res perb :=
    let b := mk_perb (set_last (pe_cur b) e (pe_cur b e ++ [x])) (pe_eps b) (pe_mem b) (pe_left b) in
    if is_terminal then perb_stop b e else Ok b.

  (** prioritized_episodic.py:41-52 [sample_episodes] (without the weights). *)
  Definition perb_sample_episodes (b : perb) (n : nat) (d : draws N) (max_len : option nat) (draw : nat -> nat)
    : res (list (list T) * list (nV N) * nV N * perb) :=
    assert! n <=? length (pb_data (pe_eps b)) in
    let! (eps, probs, mp, m) := pb_sample (pe_eps b) n ur d in
    Ok (subseqs eps max_len draw, probs, mp, mk_perb (pe_cur b) m (pe_mem b) (pe_left b)).

  (** prioritized_episodic.py:54-56 [update_errors]. *)
  Definition perb_update (b : perb) (errors : list (nV N)) : res perb :=
    let! m := pb_set_last (pe_eps b) (pri_of errors) in
    Ok (mk_perb (pe_cur b) m (pe_mem b) (pe_left b)).

  (** episodic.py:50-57 [save] and [load] (inherited; the tuple branch).  The
      FIXME in the code states that v0.2 files are not supported here. *)
  Definition perb_save (b : perb) : raq T * pb N (list T) := (pe_mem b, pe_eps b).
  Definition perb_load (b : perb) (f : raq T * pb N (list T)) : perb :=
    mk_perb (pe_cur b) (snd f) (fst f) (pe_left b).

  Inductive perb_op :=
  | EOp (o : rb_op T) | ESample (n : nat) (d : draws N) | EUpdate (errors : list (nV N)).

  Definition perb_step (b : perb) (o : perb_op) : res perb :=
    match o with
    | EOp (RAppend e x t) => perb_append b e x t
    | EOp (RStop e) => perb_stop b e
    | ESample n d => let! (_, _, _, b') := perb_sample_episodes b n d None (fun _ => 0) in Ok b'
    | EUpdate es => perb_update b es
    end.

  Fixpoint perb_run (b : perb) (os : list perb_op) : res perb :=
    match os with [] => Ok b | o :: t => let! b' := perb_step b o in perb_run b' t end.

  (** The append/stop calls of a history. *)
  Fixpoint episode_ops (os : list perb_op) : list (rb_op T) :=
    match os with [] => [] | EOp o :: t => o :: episode_ops t | _ :: t => episode_ops t end.
End PE.
Arguments perb : clear implicits.
Arguments perb_op : clear implicits.
