(** C02: sample_n_k. *)
From Verif Require Import Base.PyBase Model.Random Spec.RandomSpec Proofs.RandomProofs.

(** Whatever the generator yields, a result consists of k distinct indices; the
    call raises ValueError exactly outside 0 <= k <= n, and nothing else except
    the exhaustion of the fuel given to the rejection loop. *)
Theorem C02_sample_n_k_sound : forall fuel r n k, rng_ok n k r ->
  match sample_n_k fuel r n k with
  | Ok l => (0 <= k <= n)%Z /\ distinct_in_range n k l
  | Raise ValueError => ~ (0 <= k <= n)%Z
  | Raise e => e = OutOfFuel
  end.
Proof. exact sample_n_k_sound. Qed.
Print Assumptions C02_sample_n_k_sound.

(** The rejection loop ends for every generator that keeps producing every
    value of range(n). *)
Theorem C02_sample_n_k_terminates : forall r n k, rng_ok n k r -> rng_fair n r -> (0 <= k <= n)%Z ->
  exists fuel l, sample_n_k fuel r n k = Ok l.
Proof. exact sample_n_k_total. Qed.
Print Assumptions C02_sample_n_k_terminates.

(** A generator producing collisions: n = 10, k = 2. *)
Definition ex_rng : rng :=
  mk_rng [3; 7]%Z (fun b => match b with 0 => [4; 4; 4; 4]%Z | S b => [Z.of_nat b mod 10; 0]%Z end).
Example C02_example_ok : rng_ok 10 2 ex_rng.
Proof.
  repeat split; try reflexivity.
  - repeat constructor; simpl; intuition congruence.
  - cbn in H. intuition lia.
  - cbn in H. intuition lia.
  - intros [|b] Hb; [lia|reflexivity].
  - destruct b; cbn in H; [intuition lia|]. destruct H as [<-|[<-|[]]]; [|lia]. apply Z.mod_pos_bound. lia.
  - destruct b; cbn in H; [intuition lia|]. destruct H as [<-|[<-|[]]]; [|lia]. apply Z.mod_pos_bound. lia.
Qed.
Example C02_example_fair : rng_fair 10 ex_rng.
Proof.
  intros v b Hv. exists (S (Z.to_nat v + 10 * b)). split; [lia|]. cbn [block ex_rng]. left.
  rewrite Nat2Z.inj_add, Nat2Z.inj_mul, Z2Nat.id by lia. change (Z.of_nat 10) with 10%Z.
  rewrite Z.mul_comm, Z.mod_add by lia. apply Z.mod_small. lia.
Qed.
Example C02_example_run : sample_n_k 5 ex_rng 10 2 = Ok [4; 0]%Z.
Proof. reflexivity. Qed.
