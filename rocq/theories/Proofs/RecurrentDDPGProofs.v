From Coq Require Import Reals List Arith Bool Lia Lra FunctionalExtensionality Permutation Sorted.
From Verif Require Import Base.PyBase Model.RecurrentDDPG Spec.SumSpec Spec.RecurrentDDPGSpec Proofs.RSumFacts.
Import ListNotations.
Local Open Scope R_scope.

(** ** Sorting *)
Section Sort.
Context {X : Type}.
Definition shorter (a b : list X) : Prop := (length a <= length b)%nat.
Definition desc (l : list (list X)) : Prop := StronglySorted (fun a b => shorter b a) l.
Lemma insert_perm : forall (x : list X) l, Permutation (insert_len x l) (x :: l).
Proof.
  induction l as [|y l IH]; cbn; [reflexivity|]. destruct (Nat.leb _ _); [reflexivity|]. rewrite IH. apply perm_swap.
Qed.
Lemma insert_sorted : forall (x : list X) l, StronglySorted shorter l -> StronglySorted shorter (insert_len x l).
Proof.
  induction l as [|y l IH]; intros S; cbn; [repeat constructor|]. inversion S as [|? ? S' F]; subst. destruct (Nat.leb_spec (length x) (length y)).
  - constructor; [assumption|]. constructor; [assumption|]. eapply Forall_impl; [|exact F]. unfold shorter. intros; lia.
  - constructor; [auto|]. rewrite insert_perm. constructor; [unfold shorter; lia|assumption].
Qed.
Lemma snoc_desc : forall l (x : list X), desc l -> Forall (fun y => shorter x y) l -> desc (l ++ [x]).
Proof.
  induction l as [|y l IH]; intros x D F; cbn; [repeat constructor|]. inversion D; inversion F; subst. constructor; [apply IH; assumption|]. apply Forall_app. split; [assumption|]. constructor; [assumption|constructor].
Qed.
Lemma rev_desc : forall l : list (list X), StronglySorted shorter l -> desc (rev l).
Proof.
  induction l as [|x l IH]; intros S; cbn; [constructor|]. inversion S; subst. apply snoc_desc; [auto|]. apply Forall_rev. assumption.
Qed.
Lemma longest_first_desc : forall l : list (list X), desc (longest_first l).
Proof. intros. apply rev_desc. induction l as [|x l IH]; cbn; [constructor|]. apply insert_sorted. exact IH. Qed.
Lemma longest_first_perm : forall l : list (list X), Permutation (longest_first l) l.
Proof.
  intros. unfold longest_first. rewrite <- Permutation_rev. induction l as [|x l IH]; cbn; [reflexivity|]. rewrite insert_perm. constructor. exact IH.
Qed.

(** ** Columns *)
Fixpoint sel {Y} (i : nat) (F : list X -> X -> Y) (eps : list (list X)) : list Y :=
  match eps with [] => [] | e :: eps => match nth_error e i with None => [] | Some x => F e x :: sel i F eps end end.
Lemma column_sel : forall i eps, column i eps = sel i (fun _ x => x) eps.
Proof. induction eps as [|e eps IH]; cbn; [reflexivity|]. rewrite IH. reflexivity. Qed.
Lemma sel_map : forall Y Z (f : Y -> Z) i F eps, map f (sel i F eps) = sel i (fun e x => f (F e x)) eps.
Proof. induction eps as [|e eps IH]; cbn; [reflexivity|]. destruct (nth_error e i); cbn; [rewrite IH|]; reflexivity. Qed.
Lemma sel_combine : forall Y Z i (F : list X -> X -> Y) (G : list X -> X -> Z) eps, combine (sel i F eps) (sel i G eps) = sel i (fun e x => (F e x, G e x)) eps.
Proof. induction eps as [|e eps IH]; cbn; [reflexivity|]. destruct (nth_error e i); cbn; [rewrite IH|]; reflexivity. Qed.
Lemma sel_ext : forall Y i (F G : list X -> X -> Y) eps, (forall e x, In e eps -> nth_error e i = Some x -> F e x = G e x) -> sel i F eps = sel i G eps.
Proof.
  induction eps as [|e eps IH]; intros H; cbn; [reflexivity|]. destruct (nth_error e i) eqn:E; [|reflexivity]. rewrite IH by (intros; apply H; [right|]; assumption). f_equal. apply H; [left; reflexivity|assumption].
Qed.
Lemma desc_none : forall i e eps, desc (e :: eps) -> nth_error e i = None -> forall e', In e' eps -> nth_error e' i = None.
Proof.
  intros i e eps D E e' I. inversion D as [|? ? ? F]; subst. rewrite Forall_forall in F. specialize (F e' I). apply nth_error_None in E. apply nth_error_None. unfold shorter in F. lia.
Qed.
Lemma sel_some : forall Y i (F : list X -> X -> Y) eps, (forall e x, In e eps -> nth_error e i = Some x -> True) -> all_some (sel i (fun e x => Some (F e x)) eps) = Some (sel i F eps).
Proof. intros Y i F eps _. induction eps as [|e eps IH]; cbn; [reflexivity|]. destruct (nth_error e i); cbn; [rewrite IH|]; reflexivity. Qed.
Lemma advance_sel : forall (H Y Z : Type) (step : H -> Y -> H * Z) i F (g : list X -> H) eps, desc eps ->
  advance step (map g eps) (sel i F eps) = Ok (sel i (fun e x => snd (step (g e) (F e x))) eps, map (fun e => match nth_error e i with None => g e | Some x => fst (step (g e) (F e x)) end) eps).
Proof.
  intros H Y Z step i F g. induction eps as [|e eps IH]; intros D; [reflexivity|]. cbn [map sel]. destruct (nth_error e i) eqn:E.
  - cbn [advance]. inversion D; subst. rewrite IH by assumption. reflexivity.
  - cbn [advance]. f_equal. f_equal. f_equal. apply map_ext_in. intros e' I. rewrite (desc_none _ _ _ D E e' I). reflexivity.
Qed.
Lemma filter_none : forall (f : list X -> bool) eps, (forall e, In e eps -> f e = false) -> filter f eps = [].
Proof. induction eps as [|e eps IH]; intros H; [reflexivity|]. cbn. rewrite H by (left; reflexivity). apply IH. intros. apply H. right. assumption. Qed.
Lemma sel_length : forall Y i (F : list X -> X -> Y) eps, desc eps -> length (sel i F eps) = length (filter (fun e => Nat.ltb i (length e)) eps).
Proof.
  induction eps as [|e eps IH]; intros D; [reflexivity|]. cbn [sel filter]. destruct (nth_error e i) eqn:E.
  - assert (L : (i < length e)%nat) by (apply nth_error_Some; congruence). apply Nat.ltb_lt in L. rewrite L. cbn [length]. inversion D; subst. rewrite IH by assumption. reflexivity.
  - assert (L : Nat.ltb i (length e) = false) by (apply Nat.ltb_ge, nth_error_None; assumption). rewrite L.
    rewrite filter_none; [reflexivity|]. intros e' I. apply Nat.ltb_ge, nth_error_None. eapply desc_none; eassumption.
Qed.
Lemma sel_sum : forall i (F : list X -> X -> R) eps, desc eps -> fold_right Rplus 0 (sel i F eps) = total_of (fun e => match nth_error e i with None => 0 | Some x => F e x end) eps.
Proof.
  induction eps as [|e eps IH]; intros D; [reflexivity|]. rewrite tot_cons. cbn. destruct (nth_error e i) eqn:E.
  - cbn. inversion D; subst. rewrite IH by assumption. reflexivity.
  - cbn. rewrite (tot_ext _ (fun e => 0 * INR (length e))); [rewrite tot_scale; ring|]. intros e0 I. rewrite (desc_none _ _ _ D E e0 I). ring.
Qed.
Lemma sel_full : forall Y (F : list X -> X -> Y) eps, (forall e, In e eps -> e <> []) -> length (sel 0 F eps) = length eps.
Proof.
  induction eps as [|e eps IH]; intros H; [reflexivity|]. cbn. destruct e; [exfalso; apply (H []); [left|]; reflexivity|]. cbn. rewrite IH; [reflexivity|]. intros; apply H; right; assumption.
Qed.
End Sort.

Lemma firstn_S : forall A (l : list A) i, firstn (S i) l = match nth_error l i with None => firstn i l | Some x => firstn i l ++ [x] end.
Proof.
  intros A. induction l as [|a l IH]; intros i; [destruct i; reflexivity|]. destruct i; [reflexivity|]. cbn [firstn nth_error]. specialize (IH i). cbn [firstn] in IH. rewrite IH. destruct (nth_error l i); reflexivity.
Qed.
Lemma repeat_map : forall A B (b : B) (l : list A), repeat b (length l) = map (fun _ => b) l.
Proof. induction l; cbn; congruence. Qed.

Section Nets.
Context {X : Type}.
Variable eps : list (list X).
Hypothesis D : desc eps.
Hypothesis NE : forall e, In e eps -> e <> [].
Section Net.
Context {P H I Y : Type}.
Variable n : net P H I Y.
Variable theta : P.
(** The state of a network that has seen, in the row of episode [e], the inputs [past e]. *)
Definition knows (past : list X -> list I) (i : nat) (st : option (list H)) : Prop :=
  n_rec n = true -> st = Some (map (fun e => remembers n theta (past e)) eps) \/ (st = None /\ i = 0%nat /\ forall e, past e = []).
Definition seen (i : nat) (F : list X -> X -> I) (past : list X -> list I) (e : list X) : list I := match nth_error e i with None => past e | Some x => past e ++ [F e x] end.
Lemma call_ok : forall past i st F, knows past i st -> exists st', call n theta st (sel i F eps) = Ok (sel i (fun e x => answer n theta (past e) (F e x)) eps, st') /\
  (n_rec n = true -> st' = Some (map (fun e => remembers n theta (seen i F past e)) eps)) /\ (n_rec n = false -> st' = st).
Proof.
  intros past i st F K. unfold call. destruct (n_rec n) eqn:E.
  - specialize (K E).
    assert (RW : match st with None => repeat (n_init n) (length (sel i F eps)) | Some hs => hs end = map (fun e => remembers n theta (past e)) eps).
    { destruct K as [->|(-> & -> & Z)]; [reflexivity|]. rewrite sel_full by exact NE. rewrite repeat_map. apply map_ext. intros e. rewrite Z. unfold remembers. rewrite E. reflexivity. }
    rewrite RW, advance_sel by exact D. cbn [bind]. eexists. split; [reflexivity|]. split; [|discriminate]. intros _. f_equal. apply map_ext. intros e. unfold seen. destruct (nth_error e i); [|reflexivity].
    unfold remembers. rewrite E, fold_left_app. reflexivity.
  - eexists. split; [|split; [discriminate|reflexivity]]. rewrite sel_map. f_equal. f_equal. apply sel_ext. intros. unfold answer, remembers. rewrite E. reflexivity.
Qed.
Lemma knows_ext : forall past past' (i i' : nat) st, (n_rec n = true -> st = Some (map (fun e => remembers n theta (past e)) eps)) -> (forall e, In e eps -> past e = past' e) -> knows past' i' st.
Proof. intros past past' i i' st K E R. left. rewrite (K R). f_equal. apply map_ext_in. intros. rewrite E by assumption. reflexivity. Qed.
End Net.
End Nets.

Section U.
Context {O A Pq Hq Pp Hp : Type}.
Notation dtrans := (dtrans O A).
Variable gamma : R.
Variable q : net Pq Hq (O * A) R.
Variable p : net Pp Hp O A.
Variable eps : list (list dtrans).
Hypothesis D : desc eps.
Hypothesis NE : forall e, In e eps -> e <> [].
Hypothesis CH : forall e, In e eps -> chained e.

(** What the target networks are shown. *)
Definition na_of (x : dtrans) : A := match d_na x with Some a => a | None => d_a x end.
Definition ahead (e : list dtrans) : list (O * A) := match e with [] => [] | x :: _ => (d_s x, d_a x) :: map (fun y => (d_next y, na_of y)) e end.
Definition ahead_o (e : list dtrans) : list O := match e with [] => [] | x :: _ => d_s x :: map d_next e end.
Lemma chained_tail : forall (x : dtrans) e, chained (x :: e) -> chained e.
Proof.
  intros x e [C N]. split; [intros i y z; apply (C (S i))|]. intros y I. apply N. right. exact I.
Qed.
Lemma ahead_tail : forall (e : list dtrans) x i, chained (x :: e) -> (i <= length e)%nat -> firstn i (map (fun y => (d_next y, na_of y)) (x :: e)) = firstn i (pairs e) /\ firstn i (map d_next (x :: e)) = firstn i (observed e).
Proof.
  induction e as [|y e IH]; intros x i C L; [cbn in L; assert (i = 0)%nat by lia; subst; split; reflexivity|]. destruct i as [|i]; [split; reflexivity|].
  destruct (proj1 C 0%nat x y eq_refl eq_refl) as [E1 E2]. destruct (IH y i (chained_tail _ _ C) ltac:(cbn in L; lia)) as [H1 H2].
  unfold pairs, observed in *. cbn [map] in *. rewrite !firstn_cons. rewrite H1, H2. unfold na_of. rewrite E1, E2. split; reflexivity.
Qed.
Lemma ahead_ok : forall (e : list dtrans) i, chained e -> (i < length e)%nat -> firstn (S i) (ahead e) = firstn (S i) (pairs e) /\ firstn (S i) (ahead_o e) = firstn (S i) (observed e).
Proof.
  intros [|x e] i C L; [cbn in L; lia|]. cbn [length] in L. destruct (ahead_tail e x i C ltac:(lia)) as [H1 H2]. unfold ahead, ahead_o, pairs, observed. cbn [firstn map] in *.
  unfold pairs, observed in *. rewrite H1, H2. split; reflexivity.
Qed.
Lemma seen_pairs : forall i (e : list dtrans), seen i (fun _ x => (d_s x, d_a x)) (fun e => firstn i (pairs e)) e = firstn (S i) (pairs e).
Proof. intros. unfold seen. rewrite firstn_S. unfold pairs. rewrite nth_error_map. destruct (nth_error e i); reflexivity. Qed.
Lemma seen_observed : forall i (e : list dtrans), seen i (fun _ x => d_s x) (fun e => firstn i (observed e)) e = firstn (S i) (observed e).
Proof. intros. unfold seen. rewrite firstn_S. unfold observed. rewrite nth_error_map. destruct (nth_error e i); reflexivity. Qed.
Lemma seen_ahead : forall i (e : list dtrans), e <> [] -> seen i (fun _ x => (d_next x, na_of x)) (fun e => firstn (S i) (ahead e)) e = firstn (S (S i)) (ahead e).
Proof.
  intros i [|x e] E; [contradiction|]. unfold seen. rewrite (firstn_S _ (ahead (x :: e)) (S i)).
  assert (H : nth_error (ahead (x :: e)) (S i) = option_map (fun y : dtrans => (d_next y, na_of y)) (nth_error (x :: e) i)) by (unfold ahead; exact (nth_error_map _ _ _)).
  rewrite H. destruct (nth_error (x :: e) i); reflexivity.
Qed.
Lemma seen_ahead_o : forall i (e : list dtrans), e <> [] -> seen i (fun _ x => d_next x) (fun e => firstn (S i) (ahead_o e)) e = firstn (S (S i)) (ahead_o e).
Proof.
  intros i [|x e] E; [contradiction|]. unfold seen. rewrite (firstn_S _ (ahead_o (x :: e)) (S i)).
  assert (H : nth_error (ahead_o (x :: e)) (S i) = option_map d_next (nth_error (x :: e) i)) by (unfold ahead_o; exact (nth_error_map _ _ _)).
  rewrite H. destruct (nth_error (x :: e) i); reflexivity.
Qed.

Lemma restore_some : forall {P H X Y} (n : net P H X Y) old cur, n_rec n = true -> (old <> None \/ n_lstm n = false) -> restore n old cur = old.
Proof. intros P H X Y n old cur R [N|L]; unfold restore; rewrite R; destruct old; try reflexivity; [contradiction|rewrite L; reflexivity]. Qed.

(** ** The critic *)
Hypothesis RQ : n_rec q = true.
Lemma critic_step : forall theta tq tp i sq stq stp,
  knows eps q theta (fun e => firstn i (pairs e)) i sq -> stq = Some (map (fun e => remembers q tq (firstn (S i) (ahead e))) eps) -> knows eps p tp (fun e => firstn (S i) (ahead_o e)) 1 stp ->
  exists sq' stq' stp', compute_critic_loss gamma q p theta tq tp sq stq stp (column i eps) =
    Ok (total_of (at_step (squared_error gamma q p tq tp theta) i) eps / INR (reaching i eps), (sq', stq', stp')) /\
  knows eps q theta (fun e => firstn (S i) (pairs e)) (S i) sq' /\ stq' = Some (map (fun e => remembers q tq (firstn (S (S i)) (ahead e))) eps) /\ knows eps p tp (fun e => firstn (S (S i)) (ahead_o e)) 1 stp'.
Proof.
  intros theta tq tp i sq stq stp K1 K2 K3. unfold compute_critic_loss. rewrite column_sel, !sel_map.
  assert (K3' : knows eps p tp (fun e => firstn (S i) (ahead_o e)) i stp) by (intros R; destruct (K3 R) as [H|(_ & H & _)]; [left; exact H|discriminate]).
  destruct (call_ok eps D NE p tp _ i stp (fun _ x => d_next x) K3') as (stp' & E1 & S1 & _). rewrite E1. cbn [bind]. rewrite sel_combine.
  assert (KQ : knows eps q tq (fun e => firstn (S i) (ahead e)) i stq) by (intros _; left; exact K2).
  destruct (call_ok eps D NE q tq _ i stq (fun e x => (d_next x, answer p tp (firstn (S i) (ahead_o e)) (d_next x))) KQ) as (stq1 & E2 & _). rewrite E2. cbn [bind].
  rewrite (restore_some q stq stq1 RQ) by (left; rewrite K2; discriminate). rewrite RQ.
  assert (ES : sel i (fun (_ : list dtrans) x => d_na x) eps = sel i (fun _ x => Some (na_of x)) eps).
  { apply sel_ext. intros e x I N. unfold na_of. pose proof (proj2 (CH e I) x (nth_error_In _ _ N)). destruct (d_na x); [reflexivity|contradiction]. }
  rewrite ES, sel_some by trivial. rewrite sel_combine.
  destruct (call_ok eps D NE q tq _ i stq (fun _ x => (d_next x, na_of x)) KQ) as (stq2 & E3 & S3 & _). rewrite E3. cbn [bind].
  destruct (call_ok eps D NE q theta _ i sq (fun _ x => (d_s x, d_a x)) K1) as (sq' & E4 & S4 & _). rewrite E4. cbn [bind].
  exists sq', stq2, stp'. split; [|split; [|split]].
  - rewrite sel_combine, sel_map, sel_combine, sel_map. unfold mean_of. rewrite sel_length by exact D. rewrite sel_sum by exact D. unfold reaching. f_equal. f_equal. f_equal. apply tot_ext. intros e I. unfold at_step.
    destruct (nth_error e i) as [x|] eqn:N; [|reflexivity]. assert (L : (i < length e)%nat) by (apply nth_error_Some; congruence). destruct (ahead_ok e i (CH e I) L) as [A1 A2].
    cbn [fst snd]. rewrite A1, A2. unfold squared_error, td_target. destruct (d_term x); ring.
  - apply (knows_ext eps q theta (seen i (fun _ x => (d_s x, d_a x)) (fun e => firstn i (pairs e))) _ 0); [exact S4|]. intros. apply seen_pairs.
  - rewrite (S3 RQ). f_equal. apply map_ext_in. intros e I. f_equal. apply seen_ahead, NE, I.
  - apply (knows_ext eps p tp (seen i (fun _ x => d_next x) (fun e => firstn (S i) (ahead_o e))) _ 0); [exact S1|]. intros e I. apply seen_ahead_o, NE, I.
Qed.
Lemma critic_time : forall theta tq tp k i sq stq stp,
  knows eps q theta (fun e => firstn i (pairs e)) i sq -> stq = Some (map (fun e => remembers q tq (firstn (S i) (ahead e))) eps) -> knows eps p tp (fun e => firstn (S i) (ahead_o e)) 1 stp ->
  exists s, critic_through_time gamma q p theta tq tp sq stq stp (map (fun i => column i eps) (seq i k)) =
    Ok (sum_below k (fun j => total_of (at_step (squared_error gamma q p tq tp theta) (i + j)) eps / INR (reaching (i + j) eps)), s).
Proof.
  intros theta tq tp. induction k as [|k IH]; intros i sq stq stp K1 K2 K3; [eexists; reflexivity|]. cbn [seq map critic_through_time].
  destruct (critic_step theta tq tp i sq stq stp K1 K2 K3) as (sq' & stq' & stp' & E & K1' & K2' & K3'). rewrite E. cbn [bind].
  destruct (IH (S i) sq' stq' stp' K1' K2' K3') as (s & E'). rewrite E'. cbn [bind]. exists s. f_equal. f_equal. rewrite below_S, Nat.add_0_r. f_equal. apply below_ext. intros j _. rewrite Nat.add_succ_r. reflexivity.
Qed.
Lemma critic_ok : forall theta tq tp k, (0 < k)%nat -> exists s, critic_pass gamma q p theta tq tp (map (fun i => column i eps) (seq 0 k)) =
  Ok (sum_below k (fun j => total_of (at_step (squared_error gamma q p tq tp theta) j) eps / INR (reaching j eps)) / INR k, s).
Proof.
  intros theta tq tp k K. destruct k as [|k]; [lia|]. unfold critic_pass. cbn [seq map]. rewrite RQ, column_sel, !sel_map.
  assert (KQ : knows eps q tq (fun _ => []) 0 None) by (intros _; right; repeat split; reflexivity).
  destruct (call_ok eps D NE q tq _ 0 None (fun _ x => (d_s x, d_a x)) KQ) as (stq & E1 & S1 & _). rewrite E1. cbn [bind].
  assert (KP : knows eps p tp (fun _ => []) 0 None) by (intros _; right; repeat split; reflexivity).
  destruct (call_ok eps D NE p tp _ 0 None (fun _ x => d_s x) KP) as (stp & E2 & S2 & _). rewrite E2. cbn [bind].
  rewrite <- column_sel. change (column 0 eps :: map (fun i => column i eps) (seq 1 k)) with (map (fun i => column i eps) (seq 0 (S k))).
  destruct (critic_time theta tq tp (S k) 0 None stq stp) as (s & E).
  - intros _. right. repeat split; reflexivity.
  - rewrite (S1 RQ). f_equal. apply map_ext_in. intros e I. f_equal. specialize (NE e I). destruct e; [contradiction|]. reflexivity.
  - apply (knows_ext eps p tp (seen 0 (fun _ x => d_s x) (fun _ => [])) _ 0); [exact S2|]. intros e I. specialize (NE e I). destruct e; [contradiction|]. reflexivity.
  - rewrite E. cbn [bind]. exists s. rewrite map_length, seq_length. reflexivity.
Qed.

(** ** The actor *)
(** What the Q-function has seen in addition before the first action. *)
Definition extra (phi : Pp) (e : list dtrans) : list (O * A) := if n_lstm q then match e with [] => [] | y :: _ => [(d_s y, answer p phi [] (d_s y))] end else [].
Definition past_of (phi : Pp) (i : nat) (e : list dtrans) : list (O * A) := match i with 0%nat => [] | S _ => extra phi e ++ firstn i (pairs e) end.
Definition its_value (theta : Pq) (phi : Pp) (e : list dtrans) (i : nat) (x : dtrans) : R := answer q theta (past_of phi i e) (d_s x, answer p phi (firstn i (observed e)) (d_s x)).
(** The state of the Q-function before step [i]. *)
Definition poised (theta : Pq) (phi : Pp) (i : nat) (sq : option (list Hq)) : Prop :=
  match i with 0%nat => sq = None | S _ => sq = Some (map (fun e => remembers q theta (past_of phi i e)) eps) end.
Lemma actor_step : forall theta phi i sq sp,
  poised theta phi i sq -> knows eps p phi (fun e => firstn i (observed e)) i sp ->
  exists sq' sp', compute_actor_loss q p phi theta sq sp (column i eps) = Ok (- (total_of (at_step (its_value theta phi) i) eps) / INR (reaching i eps), (sq', sp')) /\
  poised theta phi (S i) sq' /\ knows eps p phi (fun e => firstn (S i) (observed e)) (S i) sp'.
Proof.
  intros theta phi i sq sp K1 K2. unfold compute_actor_loss. rewrite column_sel, !sel_map.
  destruct (call_ok eps D NE p phi _ i sp (fun _ x => d_s x) K2) as (sp' & E1 & S1 & _). rewrite E1. cbn [bind]. rewrite sel_combine.
  assert (KQ : knows eps q theta (past_of phi i) i sq) by (intros _; destruct i; [right; split; [exact K1|split; [reflexivity|intros; reflexivity]]|left; exact K1]).
  destruct (call_ok eps D NE q theta _ i sq (fun e x => (d_s x, answer p phi (firstn i (observed e)) (d_s x))) KQ) as (sq1 & E2 & S2 & _). rewrite E2. cbn [bind]. rewrite RQ.
  set (past2 := fun e => match i with 0%nat => extra phi e | S _ => past_of phi i e end).
  assert (K3 : knows eps q theta past2 i (restore q sq sq1)).
  { intros _. destruct i as [|i].
    - cbn in K1. subst sq. unfold restore. rewrite RQ. destruct (n_lstm q) eqn:EL.
      + left. rewrite (S2 RQ). f_equal. apply map_ext_in. intros e I. f_equal. unfold past2, extra, seen. rewrite EL. specialize (NE e I). destruct e; [contradiction|]. reflexivity.
      + right. repeat split. intros e. unfold past2, extra. rewrite EL. reflexivity.
    - cbn [poised] in K1. rewrite (restore_some q sq sq1 RQ) by (left; rewrite K1; discriminate). left. exact K1. }
  destruct (call_ok eps D NE q theta past2 i (restore q sq sq1) (fun _ x => (d_s x, d_a x)) K3) as (sq2 & E3 & S3 & _). rewrite E3. cbn [bind]. exists sq2, sp'. split; [|split].
  - rewrite sel_sum by exact D. rewrite sel_length by exact D. reflexivity.
  - cbn [poised]. rewrite (S3 RQ). f_equal. apply map_ext_in. intros e I. f_equal. unfold past2, past_of, seen. rewrite firstn_S. unfold pairs. rewrite nth_error_map.
    destruct i as [|i]; destruct (nth_error e _); cbn [option_map]; rewrite ?app_assoc, ?app_nil_r; reflexivity.
  - apply (knows_ext eps p phi (seen i (fun _ x => d_s x) (fun e => firstn i (observed e))) _ 0); [exact S1|]. intros. apply seen_observed.
Qed.
Lemma actor_time : forall theta phi k i sq sp, poised theta phi i sq -> knows eps p phi (fun e => firstn i (observed e)) i sp ->
  exists s, actor_through_time q p phi theta sq sp (map (fun i => column i eps) (seq i k)) = Ok (sum_below k (fun j => - (total_of (at_step (its_value theta phi) (i + j)) eps) / INR (reaching (i + j) eps)), s).
Proof.
  intros theta phi. induction k as [|k IH]; intros i sq sp K1 K2; [eexists; reflexivity|]. cbn [seq map actor_through_time].
  destruct (actor_step theta phi i sq sp K1 K2) as (sq' & sp' & E & K1' & K2'). rewrite E. cbn [bind].
  destruct (IH (S i) sq' sp' K1' K2') as (s & E'). rewrite E'. cbn [bind]. exists s. f_equal. f_equal. rewrite below_S, Nat.add_0_r. f_equal. apply below_ext. intros j _. rewrite Nat.add_succ_r. reflexivity.
Qed.
Lemma actor_ok : forall theta phi k, exists s, actor_pass q p phi theta (map (fun i => column i eps) (seq 0 k)) =
  Ok (- (sum_below k (fun j => total_of (at_step (its_value theta phi) j) eps / INR (reaching j eps)) / INR k), s).
Proof.
  intros theta phi k. unfold actor_pass. destruct (actor_time theta phi k 0 None None) as (s & E); [reflexivity|intros _; right; repeat split|].
  rewrite E. cbn [bind]. exists s. rewrite map_length, seq_length. f_equal. f_equal. cbn [Nat.add].
  rewrite (below_ext _ _ (fun j => - 1 * (total_of (at_step (its_value theta phi) j) eps / INR (reaching j eps)))) by (intros; unfold Rdiv; ring). rewrite below_scale. unfold Rdiv. ring.
Qed.
End U.

(** ** The whole update *)
Section W.
Context {O A Pq Hq Pp Hp : Type}.
Notation dtrans := (dtrans O A).
Lemma tot_perm : forall X (f : X -> R) l l', Permutation l l' -> total_of f l = total_of f l'.
Proof.
  intros X f l l' P. induction P; rewrite ?tot_cons in *; [reflexivity|rewrite IHP; reflexivity|ring|etransitivity; eassumption].
Qed.
Lemma longest_perm : forall l l' : list (list dtrans), Permutation l l' -> longest l = longest l'.
Proof. intros l l' P. unfold longest. induction P; cbn; [reflexivity|congruence|lia|congruence]. Qed.
Lemma reaching_perm : forall i (l l' : list (list dtrans)), Permutation l l' -> reaching i l = reaching i l'.
Proof.
  intros i l l' P. unfold reaching. induction P; cbn [filter]; [reflexivity| | |congruence].
  - destruct (Nat.ltb i (length x)); cbn [length]; congruence.
  - destruct (Nat.ltb i (length x)), (Nat.ltb i (length y)); reflexivity.
Qed.
Lemma per_step_perm : forall f (l l' : list (list dtrans)), Permutation l l' -> per_step f l = per_step f l'.
Proof.
  intros f l l' P. unfold per_step. rewrite (longest_perm _ _ P). f_equal. apply below_ext. intros i _. rewrite (tot_perm _ _ _ _ P), (reaching_perm _ _ _ P). reflexivity.
Qed.
Lemma longest_head : forall e (es : list (list dtrans)), desc (e :: es) -> longest (e :: es) = length e.
Proof.
  intros e es D. inversion D as [|? ? _ F]; subst. unfold longest. cbn. enough (fold_right Nat.max 0%nat (map (@length _) es) <= length e)%nat by lia.
  clear D. induction es as [|y es IH]; cbn; [lia|]. inversion F; subst. unfold shorter in *. specialize (IH H2). lia.
Qed.
Variable gamma : R.
Variable q : net Pq Hq (O * A) R.
Variable p : net Pp Hp O A.
Variable critic_opt : Pq -> (Pq -> R) -> Pq.
Variable actor_opt : Pp -> (Pp -> R) -> Pp.
Lemma its_value_own : forall theta phi e i x, n_lstm q = false -> its_value q p theta phi e i x = own_value q p theta phi e i x.
Proof. intros. unfold its_value, own_value, past_of, extra. rewrite H. destruct i; reflexivity. Qed.
Lemma its_value_twice : forall theta phi e i x, n_lstm q = true -> its_value q p theta phi e i x = own_value_twice q p theta phi e i x.
Proof. intros. unfold its_value, own_value_twice, past_of, extra. rewrite H. destruct i; [reflexivity|]. destruct e; [rewrite firstn_nil|]; reflexivity. Qed.
Lemma per_step_ext : forall f g (l : list (list dtrans)), (forall e i x, f e i x = g e i x) -> per_step f l = per_step g l.
Proof.
  intros f g l H. unfold per_step. f_equal. apply below_ext. intros i _. f_equal. apply tot_ext. intros e _. unfold at_step. destruct (nth_error e i); [apply H|reflexivity].
Qed.
Lemma restore_restore : forall {P H X Y} (n : net P H X Y) old c1 c2, n_rec n = true -> (old <> None \/ n_lstm n = false) -> restore n (restore n old c1) c2 = old.
Proof. intros. rewrite (restore_some n old c1) by assumption. apply restore_some; assumption. Qed.

Lemma update_ok : forall w eps, n_rec q = true -> playable eps -> exists w', update_from_episodes gamma q p critic_opt actor_opt w eps = Ok w' /\
  w_q w' = critic_opt (w_q w) (critic_objective gamma q p (w_tq w) (w_tp w) eps) /\
  w_p w' = actor_opt (w_p w) (if n_lstm q then actor_objective_twice q p (w_q w') eps else actor_objective q p (w_q w') eps) /\
  w_tq w' = w_tq w /\ w_tp w' = w_tp w /\
  (s_q w <> None \/ n_lstm q = false -> s_q w' = s_q w) /\ (n_rec p = true -> s_p w <> None \/ n_lstm p = false -> s_p w' = s_p w).
Proof.
  intros w eps RQ [N0 PL]. unfold update_from_episodes. pose proof (longest_first_perm eps) as PM. pose proof (longest_first_desc eps) as D.
  assert (IN : forall e, In e (longest_first eps) -> e <> [] /\ chained e) by (intros e I; apply PL; eapply Permutation_in; eassumption).
  destruct (longest_first eps) as [|e es] eqn:E; [exfalso; apply N0, Permutation_nil; symmetry; symmetry; exact PM|].
  set (l := e :: es) in *. set (k := length e).
  assert (NE : forall e, In e l -> e <> []) by (intros; apply IN; assumption). assert (CH : forall e, In e l -> chained e) by (intros; apply IN; assumption).
  assert (K : (0 < k)%nat) by (specialize (NE e ltac:(left; reflexivity)); unfold k; destruct e; [contradiction|cbn; lia]).
  assert (LK : longest l = k) by (apply longest_head; exact D).
  set (batches := map (fun i => column i l) (seq 0 k)).
  assert (CL : (fun th => loss_of (critic_pass gamma q p th (w_tq w) (w_tp w) batches)) = critic_objective gamma q p (w_tq w) (w_tp w) eps).
  { apply functional_extensionality. intros th. destruct (critic_ok gamma q p l D NE CH RQ th (w_tq w) (w_tp w) k K) as (s & Es). fold batches in Es. rewrite Es. cbn [loss_of].
    unfold critic_objective. rewrite <- (per_step_perm _ _ _ PM). unfold per_step. rewrite LK. reflexivity. }
  destruct (critic_ok gamma q p l D NE CH RQ (w_q w) (w_tq w) (w_tp w) k K) as ([[sq stq] stp] & Ec). fold batches in Ec. rewrite Ec. cbn [bind]. rewrite CL.
  set (theta := critic_opt (w_q w) _).
  assert (AL : (fun ph => loss_of (actor_pass q p ph theta batches)) = if n_lstm q then actor_objective_twice q p theta eps else actor_objective q p theta eps).
  { apply functional_extensionality. intros ph. destruct (actor_ok q p l D NE RQ theta ph k) as (s & Es). fold batches in Es. rewrite Es. cbn [loss_of].
    transitivity (- per_step (its_value q p theta ph) eps).
    - rewrite <- (per_step_perm _ _ _ PM). unfold per_step. rewrite LK. reflexivity.
    - destruct (n_lstm q) eqn:EL; unfold actor_objective_twice, actor_objective; f_equal; apply per_step_ext; intros; [apply its_value_twice|apply its_value_own]; assumption. }
  destruct (actor_ok q p l D NE RQ theta (w_p w) k) as ([sq' sp'] & Ea). fold batches in Ea. rewrite Ea. cbn [bind]. rewrite AL.
  eexists. split; [reflexivity|]. cbn. split; [reflexivity|]. split; [reflexivity|]. split; [reflexivity|]. split; [reflexivity|].
  split; [intros H; apply restore_restore; assumption|intros R H; apply restore_restore; assumption].
Qed.
Lemma not_recurrent : forall w eps, n_rec q = false -> eps <> [] -> (forall e, In e eps -> e <> []) -> update_from_episodes gamma q p critic_opt actor_opt w eps = Raise AttributeError.
Proof.
  intros w eps RQ N0 NE. unfold update_from_episodes. pose proof (longest_first_perm eps) as PM.
  destruct (longest_first eps) as [|e es] eqn:E; [exfalso; apply N0, Permutation_nil; exact PM|].
  assert (I : e <> []) by (apply NE; eapply Permutation_in; [exact PM|left; reflexivity]). destruct e as [|x e]; [contradiction|]. cbn [length seq map critic_pass]. rewrite RQ. reflexivity.
Qed.
Lemma no_next_action : forall w eps, n_rec q = true -> eps <> [] -> (forall e, In e eps -> e <> [] /\ forall x, In x e -> d_na x = None) -> update_from_episodes gamma q p critic_opt actor_opt w eps = Raise KeyError.
Proof.
  intros w eps RQ N0 NE0. unfold update_from_episodes. pose proof (longest_first_perm eps) as PM. pose proof (longest_first_desc eps) as D.
  assert (IN : forall e, In e (longest_first eps) -> e <> [] /\ forall x, In x e -> d_na x = None) by (intros e I; apply NE0; eapply Permutation_in; eassumption).
  destruct (longest_first eps) as [|e es] eqn:E; [exfalso; apply N0, Permutation_nil; exact PM|].
  set (l := e :: es) in *. assert (NE : forall e, In e l -> e <> []) by (intros; apply IN; assumption).
  assert (HE : e <> []) by (apply NE; left; reflexivity). destruct (length e) as [|k] eqn:K; [destruct e; [contradiction|discriminate]|]. cbn [seq map critic_pass]. rewrite RQ. rewrite column_sel, !sel_map.
  destruct (call_ok l D NE q (w_tq w) (fun _ => []) 0 None (fun _ x => (d_s x, d_a x))) as (stq & E1 & S1 & _); [intros _; right; repeat split|]. rewrite E1. cbn [bind].
  destruct (call_ok l D NE p (w_tp w) (fun _ => []) 0 None (fun _ x => d_s x)) as (stp & E2 & S2 & _); [intros _; right; repeat split|]. rewrite E2. cbn [bind]. cbn [critic_through_time].
  unfold compute_critic_loss. rewrite !sel_map.
  destruct (call_ok l D NE p (w_tp w) (seen 0 (fun _ x => d_s x) (fun _ => [])) 0 stp (fun _ x => d_next x)) as (stp' & E3 & _); [intros R; left; apply S2; exact R|]. rewrite E3. cbn [bind]. rewrite sel_combine.
  match goal with |- context [call q (w_tq w) stq (sel 0 ?F l)] => destruct (call_ok l D NE q (w_tq w) (seen 0 (fun _ x => (d_s x, d_a x)) (fun _ => [])) 0 stq F) as (stq' & E4 & _) end; [intros R; left; apply S1; exact R|]. rewrite E4. cbn [bind]. rewrite RQ.
  assert (ES : all_some (sel 0 (fun (_ : list dtrans) x => d_na x) l) = None).
  { unfold l. cbn [sel]. destruct e as [|x e]; [contradiction|]. cbn [nth_error all_some]. rewrite (proj2 (IN (x :: e) ltac:(left; reflexivity)) x ltac:(left; reflexivity)). reflexivity. }
  rewrite ES. reflexivity.
Qed.
(** ** Networks without memory *)
Lemma update_flat : forall w rows, n_rec q = false -> n_rec p = false ->
  let value theta s a := snd (n_step q theta (n_init q) (s, a)) in let action phi s := snd (n_step p phi (n_init p) s) in
  exists w', update gamma q p critic_opt actor_opt w rows = Ok w' /\
  w_q w' = critic_opt (w_q w) (fun theta => total_of (fun x => (d_r x + gamma * (if d_term x then 0 else value (w_tq w) (d_next x) (action (w_tp w) (d_next x))) - value theta (d_s x) (d_a x)) ^ 2) rows / INR (length rows)) /\
  w_p w' = actor_opt (w_p w) (fun phi => - (total_of (fun x => value (w_q w') (d_s x) (action phi (d_s x))) rows / INR (length rows))) /\
  w_tq w' = w_tq w /\ w_tp w' = w_tp w.
Proof.
  intros w rows RQ RP value action.
  assert (CB : forall X Y Z (f : X -> Y) (g : X -> Z) l, combine (map f l) (map g l) = map (fun x => (f x, g x)) l) by (induction l; cbn; congruence).
  assert (CI : forall X Z (g : X -> Z) l, combine l (map g l) = map (fun x => (x, g x)) l) by (induction l; cbn; congruence).
  assert (CL : forall th a b c d e, loss_of (compute_critic_loss gamma q p th (w_tq w) (w_tp w) a b c rows) = total_of (fun x => (d_r x + gamma * (if d_term x then 0 else value (w_tq w) (d_next x) (action (w_tp w) (d_next x))) - value th (d_s x) (d_a x)) ^ 2) rows / INR (length rows) /\
    (d = a -> e = c -> exists l, compute_critic_loss gamma q p th (w_tq w) (w_tp w) a b c rows = Ok (l, (a, b, c)))).
  { intros. unfold compute_critic_loss, call, restore. rewrite RQ, RP. cbn [bind]. split; [|intros; eexists; reflexivity]. cbn [loss_of].
    unfold mean_of. rewrite !map_map, !CB, !map_map, !CI, !map_map, !CB, !map_map, map_length. rewrite tot_fold. f_equal. apply tot_ext. intros x _. cbn [fst snd]. unfold value, action. destruct (d_term x); ring. }
  assert (AL : forall ph th a b, loss_of (compute_actor_loss q p ph th a b rows) = - (total_of (fun x => value th (d_s x) (action ph (d_s x))) rows / INR (length rows)) /\ exists l, compute_actor_loss q p ph th a b rows = Ok (l, (a, b))).
  { intros. unfold compute_actor_loss, call, restore. rewrite RQ, RP. cbn [bind]. split; [|eexists; reflexivity]. cbn [loss_of]. rewrite !map_map, CB, !map_map, tot_fold. unfold value, action, Rdiv. ring. }
  unfold update. destruct (proj2 (CL (w_q w) (s_q w) (s_tq w) (s_tp w) (s_q w) (s_tp w)) eq_refl eq_refl) as [l El]. rewrite El. cbn [bind].
  set (theta := critic_opt (w_q w) _). destruct (proj2 (AL (w_p w) theta (s_q w) (s_p w))) as [l' El']. rewrite El'. cbn [bind]. eexists. split; [reflexivity|]. cbn. split; [|split; [|split; reflexivity]].
  - unfold theta. f_equal. apply functional_extensionality. intros th. apply (CL th (s_q w) (s_tq w) (s_tp w) (s_q w) (s_tp w)).
  - f_equal. apply functional_extensionality. intros ph. apply AL.
Qed.
(** ** Weights *)
Lemma swap : forall (f : list dtrans -> nat -> R) k eps, sum_below k (fun i => total_of (fun e => f e i) eps) = total_of (fun e => sum_below k (f e)) eps.
Proof.
  intros f k. induction eps as [|e eps IH]; [unfold total_of; cbn; induction k; cbn; lra|]. rewrite tot_cons, <- IH. induction k as [|k IHk]; [cbn; unfold total_of in *; cbn in *; lra|].
  clear IHk. revert IH. generalize (S k) as n. intros n _. induction n as [|n IHn]; cbn [sum_below]; [ring|]. rewrite IHn, tot_cons. ring.
Qed.
Lemma equal_lengths : forall f (eps : list (list dtrans)) k, (forall e, In e eps -> length e = k) -> per_step f eps = per_transition f eps.
Proof.
  intros f eps k H. unfold per_step, per_transition.
  assert (R : forall i, (i < k)%nat -> reaching i eps = length eps).
  { intros i L. unfold reaching. induction eps as [|e eps IH]; [reflexivity|]. cbn [filter]. rewrite H by (left; reflexivity). apply Nat.ltb_lt in L. rewrite L. cbn [length]. rewrite IH; [reflexivity|intros; apply H; right; assumption]. }
  destruct eps as [|e0 eps0] eqn:EE; [unfold per_step; cbn; unfold total_of; cbn; unfold Rdiv; ring|]. rewrite <- EE in *.
  assert (LL : longest eps = k).
  { assert (G : forall l : list (list dtrans), (forall e, In e l -> length e = k) -> l <> [] -> longest l = k).
    { induction l as [|e l IH]; intros Hl Nl; [contradiction|]. unfold longest. cbn. rewrite (Hl e) by (left; reflexivity). destruct l as [|e' l]; [cbn; lia|].
      change (Nat.max k (longest (e' :: l)) = k). rewrite IH; [lia|intros; apply Hl; right; assumption|discriminate]. }
    apply G; [exact H|rewrite EE; discriminate]. }
  assert (LC : length (concat eps) = (k * length eps)%nat).
  { clear EE LL R. induction eps as [|e eps IH]; [cbn; lia|]. cbn [concat length]. rewrite app_length, H by (left; reflexivity). rewrite IH by (intros; apply H; right; assumption). lia. }
  rewrite LL, LC, mult_INR. rewrite (below_ext _ _ (fun i => / INR (length eps) * total_of (fun e => at_step f i e) eps)).
  - rewrite below_scale. rewrite (swap (fun e i => at_step f i e)). rewrite (tot_ext (fun e => sum_below (length e) _) (fun e => sum_below k (fun i => at_step f i e))); [|intros e I; rewrite H by exact I; reflexivity].
    unfold Rdiv. rewrite Rinv_mult. ring.
  - intros i L. rewrite R by exact L. unfold Rdiv. rewrite Rmult_comm. reflexivity.
Qed.
End W.

(** ** Examples *)
Lemma two_playable : playable [two_steps].
Proof.
  split; [discriminate|]. intros e [<-|[]]. split; [discriminate|]. split.
  - intros [|[|i]] x y; cbn; intros E1 E2; [|discriminate|try (destruct i; discriminate); discriminate]. injection E1 as <-. injection E2 as <-. split; reflexivity.
  - intros x [<-|[<-|[]]]; discriminate.
Qed.
Lemma mixed_playable : playable [two_steps; one_step].
Proof.
  split; [discriminate|]. intros e [<-|[<-|[]]]; [apply (proj2 two_playable); left; reflexivity|]. split; [discriminate|]. split.
  - intros [|i] x y; cbn; intros E1 E2; [discriminate|destruct i; discriminate].
  - intros x [<-|[]]; discriminate.
Qed.
Lemma twice_differs : forall phi, phi <> 0 -> actor_objective_twice sum_q sum_p tt [two_steps] phi <> actor_objective sum_q sum_p tt [two_steps] phi.
Proof.
  intros phi N. unfold actor_objective_twice, actor_objective, per_step, own_value, own_value_twice, answer, remembers, at_step, total_of, longest, reaching. cbn. intros H. apply N.
  apply Ropp_eq_compat in H. rewrite !Ropp_involutive in H. assert (F : forall a b, a / (1 + 1) = b / (1 + 1) -> a = b) by (intros a b E; apply (Rmult_eq_reg_r (/ (1 + 1))); [exact E|apply Rinv_neq_0_compat; lra]). apply F in H. lra.
Qed.
Lemma weights_differ : critic_objective 0 sum_q sum_p tt 1 [two_steps; one_step] tt <> per_transition (squared_error 0 sum_q sum_p tt 1 tt) [two_steps; one_step].
Proof.
  unfold critic_objective, per_step, per_transition, squared_error, td_target, answer, remembers, at_step, total_of, longest, reaching. cbn. lra.
Qed.
Lemma burn_in : let w := mk_ddpg tt 1 tt 1 None None None None in
  exists w', update_from_episodes 0 sum_q sum_p (fun th _ => th) (fun ph _ => ph) w [two_steps] = Ok w' /\ w_p w' = w_p w /\ s_p w = None /\
  (exists w1, act sum_q sum_p w 4 = Ok (4, w1)) /\ (exists a w1, act sum_q sum_p w' 4 = Ok (a, w1) /\ a <> 4).
Proof.
  intros w. eexists. split; [cbn; reflexivity|]. split; [reflexivity|]. split; [reflexivity|]. split.
  - eexists. unfold act. cbn. replace (1 * (0 + 4)) with 4 by ring. reflexivity.
  - eexists. eexists. unfold act. cbn. split; [reflexivity|]. lra.
Qed.

(** ** Acting. *)
Section Acting.
  Context {O A Pq Hq Pp Hp : Type} (q : net Pq Hq (O * A) R) (p : net Pp Hp O A).
  Definition holds {P H X Y} (n : net P H X Y) (theta : P) (st : option (list H)) (past : list X) : Prop :=
    n_rec n = true -> match past with [] => st = None \/ st = Some [n_init n] | _ => st = Some [remembers n theta past] end.
  Lemma remembers_snoc : forall P H X Y (n : net P H X Y) theta past x, n_rec n = true -> remembers n theta (past ++ [x]) = fst (n_step n theta (remembers n theta past) x).
  Proof. intros P H X Y n theta past x Hr. unfold remembers. rewrite Hr, fold_left_app. reflexivity. Qed.
  Lemma call_holds : forall P H X Y (n : net P H X Y) theta st past x, holds n theta st past ->
    exists st', call n theta st [x] = Ok ([answer n theta past x], st') /\ holds n theta st' (past ++ [x]).
  Proof.
    intros P H X Y n theta st past x Hh. unfold call, holds in *. destruct (n_rec n) eqn:Er.
    - specialize (Hh eq_refl).
      assert (E : match st with None => repeat (n_init n) (length [x]) | Some hs => hs end = [remembers n theta past]).
      { destruct past as [|y past]; [|rewrite Hh; reflexivity]. unfold remembers. rewrite Er. cbn. destruct Hh as [-> | ->]; reflexivity. }
      rewrite E. cbn [advance bind]. eexists. split; [reflexivity|]. intros _. rewrite remembers_snoc by assumption. destruct (past ++ [x]) eqn:Ep; [destruct past; discriminate|reflexivity].
    - exists st. split; [unfold answer, remembers; rewrite Er; reflexivity|discriminate].
  Qed.
  Lemma acting : forall os w po pq, holds p (w_p w) (s_p w) po -> holds q (w_q w) (s_q w) pq ->
    exists l w', act_all q p w os = Ok (l, w') /\ length l = length os /\
    (forall i o a, nth_error os i = Some o -> nth_error l i = Some a -> a = answer p (w_p w) (po ++ firstn i os) o) /\
    w_q w' = w_q w /\ w_p w' = w_p w /\ w_tq w' = w_tq w /\ w_tp w' = w_tp w /\
    holds p (w_p w) (s_p w') (po ++ os) /\ holds q (w_q w) (s_q w') (pq ++ combine os l).
  Proof.
    induction os as [|o os IH]; intros w po pq HP HQ.
    - exists [], w. cbn [act_all combine]. rewrite !app_nil_r. repeat split; auto. intros [|i] o a Ho; discriminate.
    - cbn [act_all]. unfold act. destruct (call_holds _ _ _ _ p (w_p w) (s_p w) po o HP) as (sp & Ep & Hsp). rewrite Ep. cbn [bind].
      destruct (call_holds _ _ _ _ q (w_q w) (s_q w) pq (o, answer p (w_p w) po o) HQ) as (sq & Eq & Hsq). rewrite Eq. cbn [bind].
      set (w1 := mk_ddpg (w_q w) (w_p w) (w_tq w) (w_tp w) sq sp (s_tq w) (s_tp w)).
      destruct (IH w1 (po ++ [o]) (pq ++ [(o, answer p (w_p w) po o)]) Hsp Hsq) as (l & w' & E & L & N & Q1 & Q2 & Q3 & Q4 & HP' & HQ').
      rewrite E. cbn [bind]. exists (answer p (w_p w) po o :: l), w'. split; [reflexivity|]. split; [cbn; congruence|]. split.
      { intros [|i] o' a Ho Ha; cbn in Ho, Ha.
        - injection Ho as <-. injection Ha as <-. cbn. rewrite app_nil_r. reflexivity.
        - rewrite (N i o' a Ho Ha). cbn [firstn w_p w1]. rewrite <- app_assoc. reflexivity. }
      repeat split; try assumption; cbn [combine]; [rewrite <- app_assoc in HP'; exact HP'|rewrite <- app_assoc in HQ'; exact HQ'].
  Qed.
  Lemma acting_fresh : forall w os, os <> [] -> exists l w', act_all q p (stop_episode w) os = Ok (l, w') /\ length l = length os /\
    (forall i o a, nth_error os i = Some o -> nth_error l i = Some a -> a = answer p (w_p w) (firstn i os) o) /\
    w_q w' = w_q w /\ w_p w' = w_p w /\ w_tq w' = w_tq w /\ w_tp w' = w_tp w /\
    (n_rec p = true -> s_p w' = Some [remembers p (w_p w) os]) /\ (n_rec q = true -> s_q w' = Some [remembers q (w_q w) (combine os l)]).
  Proof.
    intros w os Hos. destruct (acting os (stop_episode w) [] []) as (l & w' & E & L & N & Q1 & Q2 & Q3 & Q4 & HP & HQ); [intros _; left; reflexivity..|].
    exists l, w'. repeat split; try assumption.
    - intros Hr. specialize (HP Hr). cbn [app] in HP. destruct os; [congruence|exact HP].
    - intros Hr. specialize (HQ Hr). cbn [app] in HQ. destruct os; [congruence|]. destruct l; [discriminate|]. exact HQ.
  Qed.
End Acting.
