(** C83: Boltzmann exploration draws every action with the probability of the Boltzmann
    distribution. *)
From Coq Require Import Reals List Arith Lia Lra.
From Verif Require Import Base.PyBase Model.Distributions Model.Boltzmann Spec.SumSpec Spec.BoltzmannSpec Proofs.BoltzmannProofs.
Import ListNotations.
Local Open Scope R_scope.

(** For a uniform number in [0, 1) the explorer always gives one of the actions, and it gives the
    action i exactly on an interval as long as the Boltzmann probability of i. *)
Theorem C83_probability : forall T q, T <> 0 -> q <> [] ->
  (forall u, 0 <= u < 1 -> exists i, (i < length q)%nat /\ select_action T (DiscreteValue [q]) u = Ok i) /\
  (forall i, (i < length q)%nat -> exists lo, 0 <= lo /\ lo + boltzmann T q i <= 1 /\ forall u, 0 <= u < 1 -> (select_action T (DiscreteValue [q]) u = Ok i <-> lo <= u < lo + boltzmann T q i)).
Proof. exact select_ok. Qed.
(** These are probabilities, all positive; they depend only on the differences of the q-values. *)
Theorem C83_distribution : forall T q, q <> [] -> sum_below (length q) (boltzmann T q) = 1 /\ (forall i, 0 < boltzmann T q i) /\
  (forall i j, boltzmann T q i = boltzmann T q j * exp ((nth i q 0 - nth j q 0) / T)) /\ (forall c i, (i < length q)%nat -> boltzmann T (map (Rplus c) q) i = boltzmann T q i).
Proof. exact (fun T q H => conj (boltz_sum T q H) (conj (fun i => boltz_pos T q i H) (conj (fun i j => boltz_ratio T q i j H) (fun c i => boltz_shift T q c i)))). Qed.
(** Better actions are more likely. *)
Theorem C83_order : forall T q i j, 0 < T -> q <> [] -> nth j q 0 < nth i q 0 -> boltzmann T q j < boltzmann T q i.
Proof. exact boltz_order. Qed.
(** At low temperature worse actions vanish: the probability is at most exp of minus the gap
    over the temperature. *)
Theorem C83_cold : forall T q i b, 0 < T -> (b < length q)%nat -> boltzmann T q i <= exp (- ((nth b q 0 - nth i q 0) / T)).
Proof. exact boltz_cold. Qed.
(** At high temperature all the actions become equally likely. *)
Theorem C83_hot : forall T q d i, 0 < T -> (forall x y, In x q -> In y q -> x - y <= d) -> (i < length q)%nat -> exp (- (d / T)) / INR (length q) <= boltzmann T q i <= exp (d / T) / INR (length q).
Proof. exact boltz_hot. Qed.
(** Missing or non-discrete action values, batches of several observations and a temperature of 0
    are rejected. *)
Theorem C83_rejects : forall T u, select_action T NoValue u = Raise AssertionError /\ select_action T OtherValue u = Raise AssertionError /\
  (forall rows, select_action 0 (DiscreteValue rows) u = Raise ValueError) /\
  (forall rows n, (0 < n)%nat -> (forall r, In r rows -> length r = n) -> length rows <> 1%nat -> rows <> [] -> select_action T (DiscreteValue rows) u = Raise ValueError).
Proof. exact rejects. Qed.
(** REFUTED: that a negative temperature is rejected too.  It reverses the preferences. *)
Theorem C83_negative_refuted : forall T q i j, T < 0 -> q <> [] -> nth j q 0 < nth i q 0 -> boltzmann T q i < boltzmann T q j.
Proof. exact boltz_reversed. Qed.
Print Assumptions C83_probability.
Print Assumptions C83_distribution.
Print Assumptions C83_order.
Print Assumptions C83_cold.
Print Assumptions C83_hot.
Print Assumptions C83_rejects.
Print Assumptions C83_negative_refuted.

(** Two equally good actions. *)
Example C83_ex_two : select_action 2 (DiscreteValue [[3; 3]]) (/ 4) = Ok 0%nat /\ select_action 2 (DiscreteValue [[3; 3]]) (3 / 4) = Ok 1%nat.
Proof.
  destruct (select_ok 2 [3; 3] ltac:(lra) ltac:(discriminate)) as [A B]. assert (H0 : boltzmann 2 [3; 3] 0 = / 2 /\ boltzmann 2 [3; 3] 1 = / 2).
  { unfold boltzmann, total_of. cbn. pose proof (exp_pos (3 / 2)). split; field; lra. }
  destruct (B 0%nat ltac:(cbn; lia)) as (l0 & P0 & Q0 & I0). destruct (B 1%nat ltac:(cbn; lia)) as (l1 & P1 & Q1 & I1). destruct H0 as [H0 H1]. rewrite H0 in *. rewrite H1 in *.
  destruct (A 0 ltac:(lra)) as (i & Hi & Ei).
  assert (L0 : l0 = 0). { pose proof (select_row 2 [3; 3] 0 ltac:(lra) ltac:(discriminate)) as S0. assert (Z : select_action 2 (DiscreteValue [[3; 3]]) 0 = Ok 0%nat). { rewrite S0. f_equal. apply count_ok; [intros x; apply probs_pos|lra|cbn; lia|]. cbn [psum]. pose proof (probs_pos 2 [3; 3]) as PP. unfold softmax in *. cbn in *. pose proof (exp_pos (3 / 2)). split; [lra|]. match goal with |- _ < _ + (?a + _) => assert (0 < a) by (apply PP; auto) end. lra. } apply I0 in Z; lra. }
  split; [apply I0; lra|]. destruct (A (3 / 4) ltac:(lra)) as (k & Hk & Ek). destruct k as [|[|k]]; [apply I0 in Ek; lra|exact Ek|cbn in Hk; lia].
Qed.
Example C83_ex_order : nth 1 [5; 1] 0 < nth 0 [5; 1] 0.
Proof. cbn. lra. Qed.
Example C83_ex_batch : select_action 1 (DiscreteValue [[1; 2]; [3; 4]]) 0 = Raise ValueError.
Proof. apply (rejects 1 0) with (n := 2%nat); [lia|intros r [<-|[<-|[]]]; reflexivity|discriminate|discriminate]. Qed.
