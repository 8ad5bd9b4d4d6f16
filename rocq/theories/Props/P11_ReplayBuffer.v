(** C11, C12, C54: n-step windows, capacity and sampling of ReplayBuffer and
    PrioritizedReplayBuffer. *)
From Coq Require Import QArith.
From Verif Require Import Base.PyBase Model.Num Model.Random Model.TreeQueue Model.RandomAccessQueue Model.PrioritizedBuffer
     Model.ReplayBuffer Model.PrioritizedReplayBuffer Spec.BoundedList Spec.WindowSpec Spec.RandomSpec
     Proofs.ReplayBufferProofs Proofs.PrioritizedReplayBufferProofs.
Local Open Scope nat_scope.

(** C11 and C12 for ReplayBuffer: after any history, no call has raised and the
    buffer holds the newest [cap] entries of a log in which every environment
    has contributed exactly its windows. *)
Theorem C11_windows_exact : forall (T : Type) (cap : option nat) (n : nat) (os : list (rb_op T)), 0 < n ->
  exists b0 b log, rb_init cap n = Ok b0 /\ nrb_run (@raq_append (list T)) b0 os = Ok b /\
    exact_log n os log /\ raq_iter (nr_mem b) = trim cap (map snd log) /\
    maxlen (nr_mem b) = cap /\
    match cap with Some c => rb_len b <= c | None => True end.
Proof. exact @rb_windows. Qed.
Print Assumptions C11_windows_exact.

(** The same for PrioritizedReplayBuffer, interleaved with sampling and priority
    updates, for every number type and every priority/weight function. *)
Theorem C11_windows_exact_prioritized : forall (N : num) (T W : Type)
    (pri_of : W -> list (nV N) -> list (nV N))
    (weights_of : W -> nat -> list (nV N) -> nV N -> res (list (nV N) * W))
    (cap : option nat) (n : nat) (w : W) (os : list (prb_op N T)) (b0 b : prb N T W),
  0 < n -> prb_init N cap n w = Ok b0 -> prb_run pri_of weights_of b0 os = Ok b ->
  exists log, exact_log n (core_ops os) log /\
    pb_data (nr_mem (pr_core b)) = trim cap (map snd log) /\
    match cap with Some c => length (pb_data (nr_mem (pr_core b))) <= c | None => True end.
Proof. exact @prb_windows. Qed.
Print Assumptions C11_windows_exact_prioritized.

(** Two environments interleaved, 2-step windows, capacity 4. *)
Definition ex_ops : list (rb_op nat) :=
  [RAppend 0 10 false; RAppend 1 20 false; RAppend 0 11 false; RAppend 1 21 true;
   RAppend 0 12 false; RStop 0; RAppend 1 22 false].
Example C11_example_episodes :
  contributed 2 0 ex_ops = [[10; 11]; [11; 12]; [12]] /\ contributed 2 1 ex_ops = [[20; 21]; [21]].
Proof. split; reflexivity. Qed.
Example C11_example_run : exists b0 b, rb_init (Some 4) 2 = Ok b0 /\ nrb_run (@raq_append (list nat)) b0 ex_ops = Ok b /\
  raq_iter (nr_mem b) = [[20; 21]; [21]; [11; 12]; [12]].
Proof. do 2 eexists. split; [vm_compute; reflexivity|]. split; [vm_compute; reflexivity|]. vm_compute; reflexivity. Qed.
Definition ex_pdraw : draws QNum := mk_draws QNum 0 0 (mk_rng [] (fun _ => [])) (fun _ => (1#2)%Q).
Example C11_example_prioritized : exists b0 b,
  prb_init QNum (Some 2) 2 tt = Ok b0 /\
  prb_run (N := QNum) (fun _ es => es) (fun w _ ps _ => Ok (ps, w)) b0
     [BOp QNum (RAppend 0 10 false); BOp QNum (RAppend 0 11 false); BOp QNum (RAppend 0 12 false);
      BSample 1 ex_pdraw; BUpdate QNum [3%Q]; BOp QNum (RAppend 0 13 true)] = Ok b /\
  pb_data (nr_mem (pr_core b)) = [[12; 13]; [13]].
Proof. do 2 eexists. split; [vm_compute; reflexivity|]. split; [vm_compute; reflexivity|]. vm_compute; reflexivity. Qed.

(** C12 with loads: as long as every loaded file was written with the same
    capacity, the length never exceeds it. *)
Theorem C12_capacity_with_loads_partial : forall (T : Type) (cap : option nat) (n : nat) (os : list (rbl_op T)), 0 < n ->
  (forall f, In (LLoad f) os -> file_ok cap f) ->
  exists b0 b, rb_init cap n = Ok b0 /\ rbl_run b0 os = Ok b /\
    match cap with Some c => rb_len b <= c | None => True end.
Proof. exact @rb_capacity_with_loads. Qed.
Print Assumptions C12_capacity_with_loads_partial.

(** What load restores: the saved entries and also the saved capacity. *)
Theorem C12_load_restores_entries : forall (T : Type) (b b' : rb T), exists b2, rb_load b' (rb_save b) = Ok b2 /\
  raq_iter (nr_mem b2) = raq_iter (nr_mem b) /\ maxlen (nr_mem b2) = maxlen (nr_mem b) /\
  nr_n b2 = nr_n b' /\ nr_last b2 = nr_last b'.
Proof. exact @rb_load_contents. Qed.
Print Assumptions C12_load_restores_entries.

(** C12 fails for a file saved by a larger buffer: a buffer of capacity 2 that
    loads it holds 3 entries and keeps growing to the other buffer's bound. *)
Theorem C12_load_exceeds_capacity_refuted :
  exists (big small small1 small2 : rb nat) b0 s0,
    rb_init (Some 4) 1 = Ok b0 /\
    nrb_run (@raq_append (list nat)) b0 [RAppend 0 1 true; RAppend 0 2 true; RAppend 0 3 true] = Ok big /\
    rb_init (Some 2) 1 = Ok s0 /\ small = s0 /\
    rb_load small (rb_save big) = Ok small1 /\ rb_len small1 = 3 /\
    nrb_run (@raq_append (list nat)) small1 [RAppend 0 4 true] = Ok small2 /\ rb_len small2 = 4.
Proof. do 6 eexists. repeat (split; [vm_compute; reflexivity|]). vm_compute; reflexivity. Qed.
Print Assumptions C12_load_exceeds_capacity_refuted.

(** A load in the middle of an episode also keeps the transitions pending in the
    n-step window, so an entry mixing transitions from before the load is stored
    afterwards. *)
Theorem C12_load_keeps_pending_window_refuted :
  exists (b0 b1 b2 b3 empty : rb nat),
    rb_init None 2 = Ok b0 /\ empty = b0 /\
    nrb_run (@raq_append (list nat)) b0 [RAppend 0 1 false] = Ok b1 /\
    rb_load b1 (rb_save empty) = Ok b2 /\
    nrb_run (@raq_append (list nat)) b2 [RAppend 0 7 false] = Ok b3 /\
    raq_iter (nr_mem b3) = [[1; 7]].
Proof. do 5 eexists. repeat (split; [vm_compute; reflexivity|]). vm_compute; reflexivity. Qed.
Print Assumptions C12_load_keeps_pending_window_refuted.

Example C12_example : file_ok (Some 2) (SRaq (mk_raq [[1]] [[2]] (Some 2))) /\
  exists b0 b, rb_init (Some 2) 1 = Ok b0 /\
    rbl_run b0 [LOp (RAppend 0 5 true); LLoad (SRaq (mk_raq [[1]] [[2]] (Some 2))); LOp (RAppend 0 6 true)] = Ok b /\
    raq_iter (nr_mem b) = [[2]; [6]].
Proof. split; [cbn; auto|]. do 2 eexists. repeat (split; [vm_compute; reflexivity|]). vm_compute; reflexivity. Qed.

(** C54: sample(k) returns k entries at pairwise different positions. *)
Theorem C54_sample_without_replacement : forall (T : Type) (fuel : nat) (r : rng) (b : rb T) (k : nat),
  rng_ok (Z.of_nat (rb_len b)) (Z.of_nat k) r ->
  match rb_sample fuel r b k with
  | Ok ws => exists ixs, NoDup ixs /\ length ixs = k /\
      Forall2 (fun i w => nth_error (raq_iter (nr_mem b)) i = Some w) ixs ws
  | Raise AssertionError => rb_len b < k
  | Raise e => e = OutOfFuel
  end.
Proof. exact @rb_sample_spec. Qed.
Print Assumptions C54_sample_without_replacement.
Example C54_example : exists b, rb_sample 5 (mk_rng [1; 0]%Z (fun _ => [])) b 2 = Ok [[8]; [7]] /\ rb_len b = 2.
Proof. exists (mk_nrb 1 (mk_raq [[7]] [[8]] None) (fun _ => [])). split; reflexivity. Qed.
