(** C55: sampling and updating a PrioritizedReplayBuffer. *)
From Coq Require Import QArith.
From Verif Require Import Base.PyBase Model.Num Model.Random Model.TreeQueue Model.PrioritizedBuffer Model.ReplayBuffer
     Model.PrioritizedReplayBuffer Spec.PrioritizedBufferSpec Spec.PrioritizedReplaySpec Proofs.PrioritizedRoundProofs.
Local Open Scope nat_scope.

(** C55: in every state reached by appending, stopping episodes and rounds of
    sample and update_errors, the buffer stores windows with positive priorities;
    a further sample succeeds, picks windows by priority ([use_step] with mixture
    ratio 0), answers the weights computed from exactly the probabilities of the
    sampled windows and the number of stored windows, and the following
    update_errors gives exactly the sampled windows the priorities of their errors. *)
Theorem C55_prioritized_rounds : forall (T W : Type) (pri_of : W -> list Q -> list Q)
    (weights_of : W -> nat -> list Q -> Q -> res (list Q * W)) (cap : option nat) (n : nat) (w : W) (b0 b : prb QNum T W),
  cap <> Some 0 -> prb_init QNum cap n w = Ok b0 -> reached pri_of weights_of b0 b ->
  exists l m, stores (nr_mem (pr_core b)) l m /\
    forall k d, l <> [] -> draws_ok (length l) k 0 d ->
      (forall probs mp, length probs = k -> exists ws w1, weights_of (pr_w b) (length l) probs mp = Ok (ws, w1)) ->
      exists xs probs mp ws b1,
        prb_sample (N := QNum) weights_of b k d = Ok (xs, ws, b1) /\
        weights_of (pr_w b) (length l) probs mp = Ok (ws, pr_w b1) /\
        forall es, errors_ok pri_of (pr_w b1) k es ->
        exists b2 l' m',
          prb_update (N := QNum) pri_of b1 es = Ok b2 /\
          use_step cap (l, m) (UUpdate k 0 d (pri_of (pr_w b1) es)) (OSampled xs probs mp) (l', m') /\
          stores (nr_mem (pr_core b2)) l' m' /\ pr_w b2 = pr_w b1.
Proof. exact @prb_rounds. Qed.
Print Assumptions C55_prioritized_rounds.

(** Two windows, the second sampled (draw 3/4), its error 4 doubled to priority 8. *)
Definition ex_d : draws QNum := mk_draws QNum 0 0 (mk_rng [] (fun _ => [])) (fun _ => 3 # 4).
Definition ex_pri (w : nat) (es : list Q) : list Q := map (fun e => (2 * e)%Q) es.
Definition ex_weights (w len : nat) (ps : list Q) (m : Q) : res (list Q * nat) := Ok (map (fun p => (m / p)%Q) ps, S w).
Definition ex_b (b0 : prb QNum nat nat) : res (prb QNum nat nat) :=
  prb_run (N := QNum) ex_pri ex_weights b0 [BOp QNum (RAppend 0 10 false); BOp QNum (RAppend 0 11 true)].
Example C55_example_reached : forall b0 b, prb_init QNum (Some 3) 1 0 = Ok b0 -> ex_b b0 = Ok b -> reached ex_pri ex_weights b0 b.
Proof. intros b0 b _ H. eapply reached_ops with (os := [RAppend 0 10 false; RAppend 0 11 true]); [apply re_init|exact H]. Qed.
Example C55_example_draws : draws_ok 2 1 0 ex_d.
Proof.
  split; [split; discriminate|]. split; [cbn; lia|]. split; [lia|]. split; [intros k; split; [discriminate|reflexivity]|].
  split; [|exists []; reflexivity]. split; [split; [reflexivity|split; [constructor|intros x []]]|].
  split; [reflexivity|]. split; [reflexivity|]. intros b x [].
Qed.
Example C55_example_run :
  (let! b0 := prb_init QNum (Some 3) 1 0 in
   let! b := ex_b b0 in
   let! (xs, ws, b1) := prb_sample (N := QNum) ex_weights b 1 ex_d in
   let! b2 := prb_update (N := QNum) ex_pri b1 [4%Q] in
   Ok (xs, ws, priorities (nr_mem (pr_core b2)), pr_w b2)) = Ok ([[11]], [4 # 4], [Some 1%Q; Some 8%Q], 1).
Proof. vm_compute. reflexivity. Qed.
