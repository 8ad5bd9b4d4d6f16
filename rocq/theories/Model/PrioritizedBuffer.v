(** Model of chainerrl/misc/prioritized.py lines 8-106: PrioritizedBuffer. *)
From Verif Require Import Base.PyBase Model.Num Model.Random Model.TreeQueue.
Set Implicit Arguments.

Section PB.
  Variable N : num.
  Context {X : Type}.
  Notation V := (nV N).

  (** prioritized.py:10-18 — the attributes.  [pb_sampled] is [None] until the
      attribute [sampled_indices] is first assigned (line 86). *)
  Record pb := mk_pb {
    pb_cap : option nat; pb_data : list X; pb_sums : tq V; pb_mins : tq V;
    pb_max : V; pb_wait : bool; pb_flag : bool; pb_sampled : option (list Z) }.

  Definition pb_init (cap : option nat) (wait : bool) (init_max : V) : pb :=
    mk_pb cap [] tq_init tq_init init_max wait false None.

  (** prioritized.py:34-38 [popleft]. *)
  Definition pb_popleft (b : pb) : res (X * pb) :=
    match pb_data b with
    | [] => Raise AssertionError
    | x :: data =>
      let! (_, s) := tq_popleft (op_sum N) (pb_sums b) in
      let! (_, m) := tq_popleft (op_min N) (pb_mins b) in
      Ok (x, mk_pb (pb_cap b) data s m (pb_max b) (pb_wait b) (pb_flag b) (pb_sampled b))
    end.

  (** prioritized.py:23-32 [append]. *)
  Definition pb_append (b : pb) (x : X) (p : option V) : res pb :=
    let! b := match pb_cap b with
              | Some c => if length (pb_data b) =? c
                          then let! (_, b') := pb_popleft b in Ok b'
                          else Ok b
              | None => Ok b
              end in
    let p := match p with Some p => p | None => pb_max b end in
    let! s := tq_append (op_sum N) (pb_sums b) p in
    let! m := tq_append (op_min N) (pb_mins b) p in
    Ok (mk_pb (pb_cap b) (pb_data b ++ [x]) s m (pb_max b) (pb_wait b) (pb_flag b) (pb_sampled b)).

  (** The list comprehension over priorities (prioritized.py:63-67): a missing
      value (None) makes the arithmetic raise TypeError. *)
  Fixpoint probs_of (ur total : V) (len : nat) (ps : list (option V)) : res (list V) :=
    match ps with
    | [] => Ok []
    | None :: _ => Raise TypeError
    | Some p :: t =>
      let! r := probs_of ur total len t in
      Ok (nadd N (ndiv N ur (nofnat N len))
               (ndiv N (nmul N (nsub N (none_ N) ur) p) total) :: r)
    end.

  (** The random inputs of one [sample] call: the result of
      [np.random.binomial(n, uniform_ratio)], the generator used by [sample_n_k]
      and the underlying [0,1) draws of the prioritized picks (a stream). *)
  Record draws := mk_draws { d_nuni : nat; d_fuel : nat; d_rng : rng; d_us : nat -> V }.

  Definition take_us (us : nat -> V) (n : nat) : list V := map us (seq 0 n).

  (** prioritized.py:40-68 [_sample_indices_and_probabilities].  Division by a
      zero total raises ZeroDivisionError (Python floats), which also covers the
      empty buffer, where [min()] is inf and [sum()] is 0.0. *)
  Definition pb_sample_indices (b : pb) (n : nat) (ur : V) (d : draws)
    : res (list Z * list V * V * tq V) :=
    let! total := stq_sum N (pb_sums b) in
    let! minv := tq_value (pb_mins b) in
    if nis0 N total then Raise ZeroDivisionError else
    match minv with
    | None => Raise ZeroDivisionError
    | Some minv =>
      let len := length (pb_data b) in
      let min_prob := ndiv N minv total in
      let! (ixs, vals, s, n, min_prob) :=
        if nltb N (nzero N) ur then
          let! uix := sample_n_k (d_fuel d) (d_rng d) (tq_len (pb_sums b)) (Z.of_nat (d_nuni d)) in
          let! (ixs, vals, s) := stq_uniform_sample N (pb_sums b) uix (pb_wait b) in
          Ok (ixs, vals, s, n - d_nuni d,
              nadd N (ndiv N ur (nofnat N len)) (nmul N (nsub N (none_ N) ur) min_prob))
        else Ok ([], [], pb_sums b, n, min_prob) in
      let! (pixs, pvals, s) := stq_prioritized_sample N s (take_us (d_us d) n) (pb_wait b) in
      let! probs := probs_of ur total len (vals ++ pvals) in
      Ok (ixs ++ pixs, probs, min_prob, s)
    end.

  Fixpoint gets (l : list X) (ixs : list Z) : res (list X) :=
    match ixs with
    | [] => Ok []
    | i :: t => let! x := py_get l i in let! r := gets l t in Ok (x :: r)
    end.

  (** prioritized.py:70-88 [sample]. *)
  Definition pb_sample (b : pb) (n : nat) (ur : V) (d : draws)
    : res (list X * list V * V * pb) :=
    assert! negb (pb_wait b) || negb (pb_flag b) in
    let! (ixs, probs, min_prob, s) := pb_sample_indices b n ur d in
    let! xs := gets (pb_data b) ixs in
    Ok (xs, probs, min_prob,
        mk_pb (pb_cap b) (pb_data b) s (pb_mins b) (pb_max b) (pb_wait b) true (Some ixs)).

  (** prioritized.py:95-98 — the loop of [set_last_priority]. *)
  Fixpoint set_loop (b : pb) (ips : list (Z * V)) : res pb :=
    match ips with
    | [] => Ok b
    | (i, p) :: t =>
      let! s := tq_set (op_sum N) (pb_sums b) i p in
      let! m := tq_set (op_min N) (pb_mins b) i p in
      set_loop (mk_pb (pb_cap b) (pb_data b) s m
                      (if nltb N (pb_max b) p then p else pb_max b)
                      (pb_wait b) (pb_flag b) (pb_sampled b)) t
    end.

  (** prioritized.py:90-100 [set_last_priority]. *)
  Definition pb_set_last (b : pb) (ps : list V) : res pb :=
    assert! negb (pb_wait b) || pb_flag b in
    assert! forallb (fun p => nltb N (nzero N) p) ps in
    match pb_sampled b with
    | None => Raise AttributeError
    | Some ixs =>
      assert! length ixs =? length ps in
      let! b := set_loop b (combine ixs ps) in
      Ok (mk_pb (pb_cap b) (pb_data b) (pb_sums b) (pb_mins b) (pb_max b) (pb_wait b) false (Some []))
    end.
End PB.
Arguments pb : clear implicits.
