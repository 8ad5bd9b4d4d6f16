(** Lockstep of items and priorities for every successful history. *)
From Coq Require Import QArith Lqa Floats.
From Verif Require Import Base.PyBase Base.ListFacts Model.Num Model.Random Model.TreeQueue Model.PrioritizedBuffer
     Spec.BoundedList Spec.PrioritySpec Spec.PrioritizedBufferSpec Spec.PrioritizedBufferHistory
     Proofs.PriorityProofs.
Set Implicit Arguments.
Local Open Scope nat_scope.

Ltac inv_bind H :=
  match type of H with
  | bind ?e _ = Ok _ => let E := fresh "E" in destruct e eqn:E; cbn [bind] in H; [|discriminate H]
  end.

Section L.
  Context {V : Type}.
  Variable op : list V -> V.

  Lemma tq_write_len q i v r q' : tq_write op q i v = Ok (r, q') -> tq_len q' = tq_len q.
  Proof.
    unfold tq_write. destruct (tq_body q) as [[[il ir] t]|]; [|discriminate]. intros H. inv_bind H.
    destruct a as [? ?]. injection H as <- <-. reflexivity.
  Qed.
  Lemma tq_set_len q i v q' : tq_set op q i v = Ok q' -> tq_len q' = tq_len q.
  Proof.
    unfold tq_set. destruct (_ && _); [|discriminate]. intros H. inv_bind H. destruct a as [? ?].
    injection H as <-. eapply tq_write_len; eauto.
  Qed.
  Lemma tq_append_len q v q' : tq_append op q v = Ok q' -> tq_len q' = (tq_len q + 1)%Z.
  Proof.
    unfold tq_append. destruct (tq_len q =? 0)%Z eqn:E0.
    - intros H. injection H as <-. cbn. lia.
    - destruct (tq_body q) as [[[il ir] t]|]; [|discriminate]. intros H. inv_bind H.
      destruct a as [[il' ir'] t']. inv_bind H. destruct a as [[?|] q1]; [discriminate|].
      injection H as <-. cbn. apply tq_write_len in E1. cbn in E1. lia.
  Qed.
  Lemma tq_popleft_len q r q' : tq_popleft op q = Ok (r, q') -> tq_len q' = (tq_len q - 1)%Z.
  Proof.
    unfold tq_popleft. destruct (0 <? tq_len q)%Z; [|discriminate]. intros H. inv_bind H. destruct a as [v q1].
    apply tq_write_len in E. destruct (tq_body q1) as [[[il ir] t]|]; [|discriminate].
    destruct (tq_len q1 - 1 =? 0)%Z; [injection H as <- <-; cbn; lia|].
    destruct (_ =? 0)%Z; [|injection H as <- <-; cbn; lia].
    destruct t; try discriminate. injection H as <- <-. cbn. lia.
  Qed.
End L.

Section P.
  Variable N : num.
  Context {X : Type}.
  Notation V := (nV N).

  Lemma restore_len ivs : forall q q', restore N q ivs = Ok q' -> tq_len q' = tq_len q.
  Proof.
    induction ivs as [|[i v] t IH]; intros q q' H; cbn [restore] in H; [injection H as <-; auto|].
    inv_bind H. destruct a as [r q1]. apply IH in H. apply tq_write_len in E. congruence.
  Qed.
  Lemma zero_all_len ixs : forall q vs q', zero_all N q ixs = Ok (vs, q') -> tq_len q' = tq_len q.
  Proof.
    induction ixs as [|i t IH]; intros q vs q' H; cbn [zero_all] in H; [injection H as <- <-; auto|].
    inv_bind H. destruct a as [r q1]. inv_bind H. destruct a as [vs2 q2]. injection H as <- <-.
    apply IH in E0. apply tq_write_len in E. congruence.
  Qed.
  Lemma pick_loop_len us : forall q ixs vs q', pick_loop N q us = Ok (ixs, vs, q') -> tq_len q' = tq_len q.
  Proof.
    induction us as [|u t IH]; intros q ixs vs q' H; cbn [pick_loop] in H; [injection H as <- <- <-; auto|].
    destruct (tq_body q) as [[[il ir] rt]|]; [|discriminate]. destruct (node_vals rt); [discriminate|].
    inv_bind H. inv_bind H. destruct a0 as [r q1]. inv_bind H. destruct a0 as [[ix2 vs2] q2].
    injection H as <- <- <-. apply IH in E1. apply tq_write_len in E0. congruence.
  Qed.

  Lemma sample_len (b : pb N X) n ur d ixs probs mp s :
    pb_sample_indices b n ur d = Ok (ixs, probs, mp, s) -> tq_len s = tq_len (pb_sums b).
  Proof.
    unfold pb_sample_indices. intros H. inv_bind H. inv_bind H. destruct (nis0 N a); [discriminate|].
    destruct a0 as [mv|]; [|discriminate]. inv_bind H. destruct a0 as [[[[uix vals] s1] n1] mp1].
    inv_bind H. destruct a0 as [[pix pvals] s2]. inv_bind H. injection H as <- <- <- <-.
    assert (H1 : tq_len s1 = tq_len (pb_sums b)).
    { clear - E1. destruct (nltb N (nzero N) ur).
      - inv_bind E1. inv_bind E1. destruct a1 as [[ix vs] s']. injection E1 as <- <- <- <- <-.
        unfold stq_uniform_sample in E0. inv_bind E0. destruct a1 as [vs1 q1].
        inv_bind E0. injection E0 as <- <- <-. apply zero_all_len in E1.
        destruct (pb_wait b); [injection E2 as <-; auto|]. apply restore_len in E2. congruence.
      - injection E1 as <- <- <- <- <-. auto. }
    assert (H2 : tq_len s2 = tq_len s1).
    { clear - E2. unfold stq_prioritized_sample in E2. inv_bind E2. destruct a as [[ix vs] q1].
      inv_bind E2. injection E2 as <- <- <-. apply pick_loop_len in E.
      destruct (pb_wait b); [injection E0 as <-; auto|]. apply restore_len in E0. congruence. }
    congruence.
  Qed.

  (** Items and the two queues have equal lengths. *)
  Definition lockstep (b : pb N X) : Prop :=
    tq_len (pb_sums b) = Z.of_nat (length (pb_data b)) /\ tq_len (pb_mins b) = Z.of_nat (length (pb_data b)).

  Lemma pb_popleft_data (b b' : pb N X) x : pb_popleft b = Ok (x, b') ->
    pb_data b = x :: pb_data b' /\ pb_cap b' = pb_cap b /\ pb_max b' = pb_max b /\ (lockstep b -> lockstep b').
  Proof.
    unfold pb_popleft. destruct (pb_data b) as [|y l] eqn:Ed; [discriminate|]. intros H. inv_bind H. destruct a as [? s].
    inv_bind H. destruct a as [? m]. injection H as <- <-. cbn.
    split; [auto|]. split; [auto|]. split; [auto|]. unfold lockstep; cbn. rewrite Ed. cbn [length].
    apply tq_popleft_len in E. apply tq_popleft_len in E0. lia.
  Qed.

  Lemma pb_append_data (b b' : pb N X) x p : pb_append b x p = Ok b' ->
    match pb_cap b with Some c => length (pb_data b) <= c | None => True end ->
    pb_data b' = trim (pb_cap b) (pb_data b ++ [x]) /\ pb_cap b' = pb_cap b /\ pb_max b' = pb_max b /\
    (lockstep b -> lockstep b') /\ (pb_cap b <> Some 0).
  Proof.
    unfold pb_append. intros H Hc. inv_bind H. rename a into b1.
    assert (H1 : pb_data b1 ++ [x] = trim (pb_cap b) (pb_data b ++ [x]) /\ pb_cap b1 = pb_cap b /\ pb_max b1 = pb_max b /\
                 (lockstep b -> lockstep b1) /\ pb_cap b <> Some 0).
    { destruct (pb_cap b) as [c|] eqn:Ec; cbn [trim].
      - rewrite app_length. cbn [length]. destruct (length (pb_data b) =? c) eqn:El.
        + inv_bind E. destruct a as [y b2]. injection E as <-. apply pb_popleft_data in E0 as (Hd & Hcap & Hm & Hl).
          rewrite Hd in *. cbn [length app] in *. apply Nat.eqb_eq in El.
          replace (S (length (pb_data b2)) + 1 - c) with 1 by lia. cbn [skipn].
          split; [auto|]. split; [congruence|]. split; [auto|]. split; [auto|]. intros [= ->]. lia.
        + injection E as <-. apply Nat.eqb_neq in El. replace (length (pb_data b) + 1 - c) with 0 by lia.
          split; [auto|]. split; [auto|]. split; [auto|]. split; [auto|]. intros [= ->]. lia.
      - injection E as <-. split; [auto|]. split; [auto|]. split; [auto|]. split; [auto|]. discriminate. }
    destruct H1 as (Hd & Hcap & Hm & Hl & Hc0). inv_bind H. inv_bind H. injection H as <-. cbn.
    split; [auto|]. split; [auto|]. split; [auto|]. split; [|auto].
    intros Hlk. specialize (Hl Hlk). unfold lockstep in *. cbn. rewrite app_length. cbn [length].
    apply tq_append_len in E0. apply tq_append_len in E1. lia.
  Qed.

  Lemma set_loop_data ips : forall (b b' : pb N X), set_loop b ips = Ok b' ->
    pb_data b' = pb_data b /\ pb_cap b' = pb_cap b /\
    pb_max b' = fold_left (fun m p => if nltb N m p then p else m) (map snd ips) (pb_max b) /\ (lockstep b -> lockstep b').
  Proof.
    induction ips as [|[i p] t IH]; intros b b' H; cbn [set_loop] in H; [injection H as <-; auto|].
    inv_bind H. inv_bind H. apply IH in H as (H1 & H2 & H3 & H4). cbn in *.
    split; [auto|]. split; [auto|]. split; [auto|].
    intros [L1 L2]. apply H4. unfold lockstep; cbn. apply tq_set_len in E. apply tq_set_len in E0. lia.
  Qed.

  Lemma combine_snd {A B} (l : list A) (l' : list B) : length l = length l' -> map snd (combine l l') = l'.
  Proof. revert l'; induction l as [|a l IH]; intros [|c l']; cbn; intros H; auto; try lia. f_equal. apply IH. lia. Qed.

  Lemma pb_exec_spec (b b' : pb N X) o : pb_exec b o = Ok b' ->
    match pb_cap b with Some c => length (pb_data b) <= c | None => True end ->
    pb_data b' = items_step (pb_cap b) (pb_data b) o /\ pb_cap b' = pb_cap b /\
    pb_max b' = largest_set (pb_max b) o /\ (lockstep b -> lockstep b') /\
    match pb_cap b with Some c => length (pb_data b') <= c | None => True end.
  Proof.
    intros H Hc. destruct o as [x p| |n ur d|ps]; cbn [pb_exec items_step largest_set] in *.
    - apply pb_append_data in H as (H1 & H2 & H3 & H4 & H5); auto. split; [auto|]. split; [auto|]. split; [auto|]. split; [auto|].
      rewrite H1. destruct (pb_cap b); cbn [trim]; auto. rewrite skipn_length. lia.
    - inv_bind H. destruct a as [x b1]. injection H as <-. apply pb_popleft_data in E as (H1 & H2 & H3 & H4).
      rewrite H1 in *. cbn [tl length] in *. split; [auto|]. split; [auto|]. split; [auto|]. split; [auto|]. destruct (pb_cap b); auto. lia.
    - inv_bind H. destruct a as [[[xs pr] mp] b1]. injection H as <-. unfold pb_sample in E.
      destruct (_ || _); [|discriminate]. inv_bind E. destruct a as [[[ixs pr2] mp2] s]. inv_bind E. injection E as <- <- <- <-.
      cbn. split; [auto|]. split; [auto|]. split; [auto|]. split; [|auto].
      unfold lockstep; cbn. apply sample_len in E0. rewrite E0. auto.
    - unfold pb_set_last in H. destruct (_ || _); [|discriminate]. destruct (forallb _ ps); [|discriminate].
      destruct (pb_sampled b) as [ixs|]; [|discriminate].
      destruct (length ixs =? length ps) eqn:El; [|discriminate]. inv_bind H. injection H as <-.
      apply Nat.eqb_eq in El.
      apply set_loop_data in E as (H1 & H2 & H3 & H4). rewrite combine_snd in H3 by auto. cbn.
      split; [auto|]. split; [auto|]. split; [auto|]. split; [auto|]. rewrite H1. auto.
  Qed.

  Lemma pb_execs_spec os : forall (b b' : pb N X), pb_execs b os = Ok b' ->
    match pb_cap b with Some c => length (pb_data b) <= c | None => True end -> lockstep b ->
    pb_data b' = fold_left (items_step (pb_cap b)) os (pb_data b) /\
    pb_max b' = fold_left (@largest_set N X) os (pb_max b) /\ lockstep b' /\
    match pb_cap b with Some c => length (pb_data b') <= c | None => True end.
  Proof.
    induction os as [|o os IH]; intros b b' H Hc Hl; cbn [pb_execs fold_left] in *; [injection H as <-; auto|].
    inv_bind H. destruct (@pb_exec_spec b a o E Hc) as (H1 & H2 & H3 & H4 & H5).
    rewrite <- H2 in H5. destruct (IH a b' H H5 (H4 Hl)) as (G1 & G2 & G3 & G4).
    rewrite H2, H1 in G1. rewrite H3 in G2. rewrite H2 in G4. auto.
  Qed.

  Lemma pb_history cap wait m os (b : pb N X) : pb_execs (pb_init N cap wait m) os = Ok b ->
    pb_data b = fold_left (items_step cap) os [] /\
    pb_max b = fold_left (@largest_set N X) os m /\
    tq_len (pb_sums b) = Z.of_nat (length (pb_data b)) /\
    tq_len (pb_mins b) = Z.of_nat (length (pb_data b)) /\
    match cap with Some c => length (pb_data b) <= c | None => True end.
  Proof.
    intros H. destruct (@pb_execs_spec os (pb_init N cap wait m) b H) as (H1 & H2 & [H3 H4] & H5).
    - cbn. destruct cap; auto. lia.
    - split; reflexivity.
    - auto.
  Qed.
End P.

(** ** Probabilities *)
Open Scope Q_scope.
Lemma sel_prob_total ur pris : pris <> [] -> (forall p, In p pris -> 0 < p) ->
  sumQ (map (sel_prob ur pris) pris) == 1.
Proof.
  intros Hne Hp.
  assert (Hs : 0 < sumQ pris).
  { apply positives_sum; [intros x Hx; specialize (Hp x Hx); lra|]. unfold positives.
    destruct pris as [|p t]; [congruence|]. cbn. specialize (Hp p (or_introl eq_refl)).
    destruct (Qle_bool p 0) eqn:E; [apply Qle_bool_iff in E; lra|]. cbn. lia. }
  assert (Hl : ~ inject_Z (Z.of_nat (length pris)) == 0).
  { destruct pris; [congruence|]. unfold Qeq; cbn [inject_Z Qnum Qden length]. lia. }
  unfold sel_prob. set (L := inject_Z (Z.of_nat (length pris))) in *. set (S := sumQ pris) in *.
  assert (H : forall l, sumQ (map (fun p => ur / L + (1 - ur) * p / S) l) ==
                        inject_Z (Z.of_nat (length l)) * (ur / L) + (1 - ur) * sumQ l / S).
  { induction l as [|p l IH]; cbn [map sumQ length].
    - cbn. field. split; [lra|auto].
    - rewrite IH, Nat2Z.inj_succ, <- Z.add_1_l, inject_Z_plus. field. split; [lra|auto]. }
  rewrite H. fold L S. field. split; [lra|auto].
Qed.

Lemma sel_prob_mono ur pris p q : 0 <= ur <= 1 -> 0 < sumQ pris -> p <= q -> sel_prob ur pris p <= sel_prob ur pris q.
Proof.
  intros Hu Hs Hpq. unfold sel_prob. apply Qplus_le_r. apply Qmult_le_compat_r.
  - nra.
  - apply Qinv_le_0_compat. lra.
Qed.

Lemma sel_prob_min ur pris m : 0 <= ur <= 1 -> (forall p, In p pris -> 0 < p) -> is_minQ pris m ->
  (forall p, In p pris -> sel_prob ur pris m <= sel_prob ur pris p) /\
  (exists p, In p pris /\ sel_prob ur pris m == sel_prob ur pris p) /\ 0 < sel_prob ur pris m.
Proof.
  intros Hu Hp [Hin Hm].
  assert (Hs : 0 < sumQ pris).
  { apply positives_sum; [intros x Hx; specialize (Hp x Hx); lra|]. unfold positives.
    destruct pris as [|p t]; [destruct Hin|]. cbn. specialize (Hp p (or_introl eq_refl)).
    destruct (Qle_bool p 0) eqn:E; [apply Qle_bool_iff in E; lra|]. cbn. lia. }
  split; [|split].
  - intros p H. apply sel_prob_mono; auto.
  - exists m. split; auto. lra.
  - unfold sel_prob. specialize (Hp m Hin).
    assert (Hl : 0 < inject_Z (Z.of_nat (length pris))).
    { destruct pris; [destruct Hin|]. unfold Qlt; cbn [inject_Z Qnum Qden length]. lia. }
    assert (H1 : 0 < / inject_Z (Z.of_nat (length pris))) by (apply Qinv_lt_0_compat; auto).
    assert (H2 : 0 < / sumQ pris) by (apply Qinv_lt_0_compat; auto).
    unfold Qdiv. 
    assert (H3 : 0 < m * / sumQ pris) by nra.
    assert (H4 : (1 - ur) * m * / sumQ pris == (1 - ur) * (m * / sumQ pris)) by ring. rewrite H4.
    set (a := / inject_Z (Z.of_nat (length pris))) in *. set (b := m * / sumQ pris) in *.
    assert (H5 : 0 <= ur * a) by (apply Qmult_le_0_compat; lra).
    assert (H6 : 0 <= (1 - ur) * b) by (apply Qmult_le_0_compat; lra).
    destruct (Qlt_le_dec 0 ur) as [Hu0|Hu0].
    + assert (H7 : 0 < ur * a) by nra. lra.
    + assert (H7 : 0 < (1 - ur) * b) by nra. lra.
Qed.
