(** C49: the deprecated SumTree is an exact sparse sum. *)
From Coq Require Import QArith.
From Verif Require Import Base.PyBase Model.SumTree Spec.SumTreeSpec Proofs.SumTreeProofs.
Local Open Scope Z_scope.

(** Every history of assignments and deletions, at arbitrary integers, runs to
    the end, and the total is the sum of the values now held. *)
Theorem C49_sumtree_total : forall os,
  exists t, st_run None os = Ok t /\ (st_total t == sum_values (value_after os) (indices os))%Q.
Proof. exact total_lemma. Qed.
Print Assumptions C49_sumtree_total.

(** Reading an index that was written returns the last value written, and no
    read ever returns anything else than the last value written (0 if none). *)
Theorem C49_sumtree_reads : forall os t, st_run None os = Ok t ->
  (forall i, In i (map op_index os) -> st_get t i = Ok (value_after os i))
  /\ (forall i v, st_get t i = Ok v -> v = value_after os i).
Proof. exact reads_lemma. Qed.
Print Assumptions C49_sumtree_reads.

(** The default is not available outside the allocated range: after writing
    index 0 only, reading index 1 raises instead of returning 0. *)
Theorem C49_sumtree_default_refuted : exists os t i,
  st_run None os = Ok t /\ ~ In i (map op_index os) /\ st_get t i = Raise AssertionError.
Proof. exists [StSet 0 1%Q], (Some (SLeaf 0 1 1%Q)), 1. split; [reflexivity|]. split; [|reflexivity]. intros [H|[]]; discriminate H. Qed.
Print Assumptions C49_sumtree_default_refuted.

(** A pick at a point of [0, total) selects the index whose interval of the
    cumulative sum contains the point. *)
Theorem C49_sumtree_pick : forall os t cum, st_run None os = Ok (Some t) -> (0 <= cum)%Q -> (cum < st_sum t)%Q ->
  exists i v, st_pick t cum = Ok (i, v) /\ v = value_after os i /\ In i (indices os)
    /\ (sum_below_index (value_after os) (indices os) i <= cum)%Q
    /\ (cum < sum_below_index (value_after os) (indices os) i + v)%Q.
Proof. exact pick_lemma. Qed.
Print Assumptions C49_sumtree_pick.

(** Sampling draws that many distinct indices one after the other, each in
    proportion to the values not yet drawn, reports each value divided by the
    total, and then either removes them or leaves every value as it was. *)
Theorem C49_sumtree_sample : forall draw n remove os t, good_draw draw -> st_run None os = Ok t ->
  (forall i, 0 <= value_after os i)%Q -> (n <= length (filter (positive (value_after os)) (indices os)))%nat ->
  exists t' ivs ps f, st_sample draw n remove t = Ok (t', (map fst ivs, ps))
    /\ length ivs = n /\ NoDup (map fst ivs)
    /\ draws_from (indices os) draw 0 (value_after os) ivs f
    /\ Forall2 (fun iv p => (p == value_after os (fst iv) / sum_values (value_after os) (indices os))%Q) ivs ps
    /\ (forall i, In i (indices os) -> st_get t' i = Ok (if remove then f i else value_after os i)).
Proof. exact sample_lemma. Qed.
Print Assumptions C49_sumtree_sample.

(** Non-vacuity: a history growing in both directions, overwriting and deleting. *)
Definition ex49 : list st_op := [StSet 3 2%Q; StSet (-5) 1%Q; StSet 3 4%Q; StSet 10 5%Q; StDel 10].
Example C49_ex_total : exists t, st_run None ex49 = Ok (Some t) /\ Qeq_bool (st_sum t) 5 = true
  /\ st_get (Some t) 3 = Ok 4%Q /\ st_get (Some t) (-5) = Ok 1%Q /\ st_get (Some t) 10 = Ok 0%Q
  /\ st_pick t (3 # 2) = Ok (3, 4%Q) /\ st_pick t (1 # 2) = Ok (-5, 1%Q).
Proof. eexists. split; [vm_compute; reflexivity|]. repeat split; vm_compute; reflexivity. Qed.
Example C49_ex_sample : good_draw (fun _ s => s * (1 # 2))%Q
  /\ (2 <= length (filter (positive (value_after ex49)) (indices ex49)))%nat
  /\ match st_run None ex49 with
     | Ok t => match st_sample (fun _ s => s * (1 # 2))%Q 2 false t with
               | Ok (t', (ixs, _)) => ixs = [3; -5] /\ st_get t' 3 = Ok 4%Q
               | Raise _ => False end
     | Raise _ => False end.
Proof.
  split; [|split].
  - intros k s H. split.
    + apply Qmult_le_0_compat; [apply Qlt_le_weak; exact H|discriminate].
    + setoid_replace s with (s * 1)%Q at 2 by ring. apply Qmult_lt_l; [exact H|reflexivity].
  - vm_compute. apply le_n.
  - vm_compute. split; reflexivity.
Qed.
