(** NSQ's target is synchronised once per interval under every schedule. *)
From Coq Require Import Permutation.
From Verif Require Import Base.PyBase Model.NSQ Spec.NSQSpec.
Set Implicit Arguments.

Section P.
Variable P : Type.
Definition pend1 (p : nproc P) : list nat := match np_phase p with NCopying v => [v] | NIdle => [] end.

Lemma pend_upd : forall (ps : list (nproc P)) i p q, nth_error ps i = Some p ->
  Permutation (pend1 p ++ flat_map pend1 (upd ps i q)) (pend1 q ++ flat_map pend1 ps).
Proof.
  induction ps as [|x ps IH]; intros [|i] p q H; cbn in H; try discriminate H.
  - injection H as ->. cbn [upd flat_map]. rewrite !app_assoc. apply Permutation_app_tail, Permutation_app_comm.
  - cbn [upd flat_map]. specialize (IH i p q H).
    rewrite (Permutation_app_swap_app (pend1 p)), (Permutation_app_swap_app (pend1 q)). apply Permutation_app_head. exact IH.
Qed.

Definition Inv (i : nat) (s : nstate P) : Prop :=
  ns_seen s = seq 1 (ns_t s) /\ Permutation (ns_syncs s ++ pending s) (multiples i (ns_t s)).

Lemma multiples_S : forall i t, multiples i (S t) = multiples i t ++ (if (t + 1) mod i =? 0 then [t + 1] else []).
Proof.
  intros i t. unfold multiples. rewrite seq_S, filter_app. cbn [filter]. replace (1 + t) with (t + 1) by lia. reflexivity.
Qed.

Lemma step_inv : forall i s a s', Inv i s -> n_step i s a = Some s' -> Inv i s'.
Proof.
  intros i s a s' (Hs & Hp) E. destruct a as [p|p q]; cbn [n_step] in E.
  - destruct (nth_error (ns_procs s) p) as [[[|v] q]|] eqn:N; [| |discriminate E]; injection E as <-; unfold Inv; cbn [ns_seen ns_t ns_syncs].
    + split.
      * rewrite Hs. replace (ns_t s + 1) with (S (ns_t s)) by lia. rewrite seq_S. reflexivity.
      * unfold pending. cbn [ns_procs].
        set (ph := if (ns_t s + 1) mod i =? 0 then NCopying (ns_t s + 1) else NIdle).
        assert (H := pend_upd (ns_procs s) p (NProc ph q) N). cbn [pend1 np_phase app] in H.
        change (fun p0 : nproc P => match np_phase p0 with NIdle => [] | NCopying v => [v] end) with pend1.
        rewrite H. replace (ns_t s + 1) with (S (ns_t s)) at 1 by lia. rewrite multiples_S.
        replace (if (ns_t s + 1) mod i =? 0 then [ns_t s + 1] else []) with (pend1 (NProc ph q)).
        2:{ subst ph. destruct ((ns_t s + 1) mod i =? 0); reflexivity. }
        rewrite Permutation_app_swap_app. rewrite Permutation_app_comm. apply Permutation_app_tail. exact Hp.
    + split; [exact Hs|]. unfold pending in *. cbn [ns_procs].
      assert (H := pend_upd (ns_procs s) p (NProc NIdle q) N). cbn [pend1 np_phase app] in H.
      rewrite <- app_assoc. rewrite <- Hp. apply Permutation_app_head. exact H.
  - destruct (nth_error (ns_procs s) p) as [[[|v] q0]|] eqn:N; try discriminate E. injection E as <-. unfold Inv; cbn [ns_seen ns_t ns_syncs].
    split; [exact Hs|]. unfold pending in *. cbn [ns_procs].
    assert (H := pend_upd (ns_procs s) p (NProc NIdle q) N). cbn [pend1 np_phase app] in H.
    rewrite <- Hp. apply Permutation_app_head. exact H.
Qed.
Lemma run_inv : forall i sch s s', Inv i s -> n_run i s sch = Some s' -> Inv i s'.
Proof.
  intros i sch. induction sch as [|a sch IH]; intros s s' H E; cbn [n_run] in E.
  - injection E as <-. exact H.
  - destruct (n_step i s a) as [s1|] eqn:E1; [|discriminate E]. apply (IH s1); [|exact E]. apply (@step_inv _ _ _ _ H E1).
Qed.
Lemma init_inv : forall i tg qs, Inv i (n_init tg qs : nstate P).
Proof.
  intros i tg qs. split; [reflexivity|]. unfold pending, n_init, multiples. cbn [ns_syncs ns_procs ns_t seq filter app].
  induction qs as [|q qs IH]; [constructor|exact IH].
Qed.

Lemma counter_lemma : forall i tg qs sch (s : nstate P), n_run i (n_init tg qs) sch = Some s -> ns_seen s = seq 1 (ns_t s).
Proof. intros i tg qs sch s E. exact (proj1 (@run_inv _ _ _ _ (init_inv i tg qs) E)). Qed.
Lemma sync_lemma : forall i tg qs sch (s : nstate P), n_run i (n_init tg qs) sch = Some s ->
  Permutation (ns_syncs s ++ pending s) (multiples i (ns_t s)).
Proof. intros i tg qs sch s E. exact (proj2 (@run_inv _ _ _ _ (init_inv i tg qs) E)). Qed.
Lemma quiescent_lemma : forall i tg qs sch (s : nstate P), n_run i (n_init tg qs) sch = Some s -> quiescent s ->
  Permutation (ns_syncs s) (multiples i (ns_t s)).
Proof.
  intros i tg qs sch s E Hq. assert (H := @sync_lemma _ _ _ _ _ E). replace (pending s) with (@nil nat) in H; [rewrite app_nil_r in H; exact H|].
  clear H. unfold pending, quiescent in *. induction Hq as [|p ps Hp _ IH]; [reflexivity|]. cbn [flat_map]. rewrite Hp, <- IH. reflexivity.
Qed.
Lemma multiples_nodup : forall i t, NoDup (multiples i t).
Proof. intros i t. unfold multiples. apply NoDup_filter, seq_NoDup. Qed.
Lemma multiples_count : forall i t, 1 <= i -> length (multiples i t) = t / i.
Proof.
  intros i t Hi. induction t as [|t IH].
  - rewrite Nat.div_0_l by lia. reflexivity.
  - rewrite multiples_S, app_length, IH. replace (S t) with (t + 1) by lia.
    assert (E := Nat.div_mod_eq (t + 1) i). assert (E' := Nat.div_mod_eq t i).
    assert (L := Nat.mod_upper_bound (t + 1) i). assert (L' := Nat.mod_upper_bound t i).
    destruct ((t + 1) mod i =? 0) eqn:Z0; cbn [length].
    + apply Nat.eqb_eq in Z0. assert ((t + 1) / i = t / i + 1) by nia. lia.
    + apply Nat.eqb_neq in Z0. assert ((t + 1) / i = t / i) by nia. lia.
Qed.
Lemma once_lemma : forall i tg qs sch (s : nstate P), 1 <= i -> n_run i (n_init tg qs) sch = Some s ->
  NoDup (ns_syncs s ++ pending s) /\ length (ns_syncs s ++ pending s) = ns_t s / i
  /\ (forall v, In v (ns_syncs s ++ pending s) <-> 1 <= v <= ns_t s /\ v mod i = 0).
Proof.
  intros i tg qs sch s Hi E. assert (H := @sync_lemma _ _ _ _ _ E). split; [|split].
  - apply (Permutation_NoDup (Permutation_sym H)), multiples_nodup.
  - rewrite (Permutation_length H). apply multiples_count. exact Hi.
  - intros v. split.
    + intros Hv. apply (Permutation_in _ H) in Hv. unfold multiples in Hv. apply filter_In in Hv. destruct Hv as (Hv & Hm).
      apply in_seq in Hv. apply Nat.eqb_eq in Hm. lia.
    + intros (Hv & Hm). apply (Permutation_in _ (Permutation_sym H)). unfold multiples. apply filter_In. split; [apply in_seq; lia|].
      apply Nat.eqb_eq. exact Hm.
Qed.
Lemma seen_steps : forall i sch (s s' : nstate P), n_run i s sch = Some s' ->
  length (ns_seen s') + length (ns_syncs s') = length (ns_seen s) + length (ns_syncs s)
    + length (filter (fun a => match a with NStep _ => true | NLearn _ _ => false end) sch).
Proof.
  intros i sch. induction sch as [|a sch IH]; intros s s' E; cbn [n_run] in E.
  - injection E as <-. cbn. lia.
  - destruct (n_step i s a) as [s1|] eqn:E1; [|discriminate E]. rewrite (IH _ _ E).
    destruct a as [p|p q]; cbn [n_step] in E1; cbn [filter length].
    + destruct (nth_error (ns_procs s) p) as [[[|v] q]|]; [| |discriminate E1]; injection E1 as <-; cbn [ns_seen ns_syncs]; rewrite app_length; cbn [length]; lia.
    + destruct (nth_error (ns_procs s) p) as [[[|v] q0]|]; try discriminate E1. injection E1 as <-. cbn [ns_seen ns_syncs]. lia.
Qed.
End P.
