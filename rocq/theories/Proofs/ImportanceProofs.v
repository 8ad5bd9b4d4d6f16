From Coq Require Import QArith Qreals Reals List Permutation Lia.
From Coq Require Import Lqa Lra.
From Verif Require Import Base.PyBase Model.Num Model.Random Model.TreeQueue Model.PrioritizedBuffer Model.PriorityWeight.
From Verif Require Import Spec.SumSpec Spec.RandomSpec Spec.PrioritySpec Spec.PrioritizedBufferSpec Spec.FairSpec Spec.ImportanceSpec.
From Verif Require Import Proofs.RSumFacts Proofs.FairProofs Proofs.RandomProofs Proofs.PrioritizedBufferProofs.
Import ListNotations.
Local Open Scope nat_scope.

(** ** A grid that fits all priorities. *)
Lemma grid_exists : forall l : list Q, (forall x, In x l -> 0 <= x)%Q -> exists M, 0 < M /\ forall x, In x l -> exists n, (x * inject_Z (Z.of_nat M) == inject_Z (Z.of_nat n))%Q.
Proof.
  intros l. induction l as [|x l IH]; intros H; [exists 1; split; [lia|intros x []]|].
  destruct IH as (M & HM & HI); [intros; apply H; right; assumption|]. exists (Pos.to_nat (Qden x) * M). split; [lia|].
  assert (E : (inject_Z (Z.of_nat (Pos.to_nat (Qden x) * M)) == inject_Z (Z.pos (Qden x)) * inject_Z (Z.of_nat M))%Q) by (rewrite Nat2Z.inj_mul, positive_nat_Z, inject_Z_mult; reflexivity).
  intros y [<-|Hy].
  - exists (Z.to_nat (Qnum x) * M). rewrite E, Nat2Z.inj_mul, inject_Z_mult, Z2Nat.id.
    + rewrite Qmult_assoc. apply Qmult_comp; [|reflexivity]. unfold Qeq, Qmult, inject_Z; cbn. lia.
    + specialize (H x (or_introl eq_refl)). unfold Qle in H. cbn in H. lia.
  - destruct (HI y Hy) as (n & En). exists (Pos.to_nat (Qden x) * n). rewrite E.
    transitivity (inject_Z (Z.pos (Qden x)) * (y * inject_Z (Z.of_nat M)))%Q; [ring|]. rewrite En, Nat2Z.inj_mul, positive_nat_Z, inject_Z_mult. reflexivity.
Qed.
Definition nsum (l : list nat) : nat := fold_right Nat.add 0 l.
Lemma nsum_firstn_S : forall l i n, nth_error l i = Some n -> nsum (firstn (S i) l) = nsum (firstn i l) + n.
Proof. intros l. induction l as [|x l IH]; intros [|i] n E; try discriminate; cbn in E; [injection E as ->; cbn; lia|]. specialize (IH i n E). cbn [firstn nsum fold_right] in *. unfold nsum in IH. lia. Qed.
Lemma nsum_firstn_mono : forall l i j, i <= j -> nsum (firstn i l) <= nsum (firstn j l).
Proof. intros l. induction l as [|x l IH]; intros [|i] [|j] H; cbn; try lia. specialize (IH i j ltac:(lia)). unfold nsum in IH. lia. Qed.
Lemma grid_sum : forall ns gs (G : nat -> R) s, length ns = length gs ->
  (forall i j, i < length ns -> s + nsum (firstn i ns) <= j < s + nsum (firstn (S i) ns) -> G j = nth i gs 0%R) ->
  total_of G (seq s (nsum ns)) = total_of (fun p => INR (fst p) * snd p)%R (combine ns gs).
Proof.
  induction ns as [|n ns IH]; intros [|g gs] G s L H; try discriminate; [reflexivity|]. cbn [combine]. rewrite tot_cons. cbn [fst snd]. change (nsum (n :: ns)) with (n + nsum ns). rewrite seq_app, tot_app. f_equal.
  - rewrite (tot_ext _ (fun _ => g) (seq s n)); [rewrite tot_const, seq_length; lra|]. intros j Hj. apply in_seq in Hj. apply (H 0 j); cbn; lia.
  - apply IH; [cbn in L; lia|]. intros i j Hi Hj. apply (H (S i) j); [cbn; lia|]. cbn [firstn nsum fold_right] in *. unfold nsum in Hj. lia.
Qed.
Lemma q2r_nat : forall n, Q2R (inject_Z (Z.of_nat n)) = INR n.
Proof. intros n. unfold Q2R, inject_Z. cbn. rewrite INR_IZR_INZ. field. Qed.

Lemma grid_weights : forall X (h : X * Q -> R) T K (l : list (X * Q)) ns, Q2R T <> 0%R -> Forall2 (fun n p => (inject_Z (Z.of_nat n) * T == p * inject_Z (Z.of_nat K))%Q) ns (map snd l) ->
  total_of (fun p => INR (fst p) * snd p)%R (combine ns (map h l)) = total_of (fun e => INR K * (Q2R (snd e) / Q2R T * h e))%R l.
Proof.
  intros X h T K l. induction l as [|[x p] l IH]; intros ns Tnz F; inversion F as [|n ? ns' ? E F']; subst; [reflexivity|].
  cbn [map combine]. rewrite !tot_cons. cbn [fst snd]. rewrite <- (IH ns' Tnz F'). f_equal.
  apply Qeq_eqR in E. cbn [snd] in E. rewrite !Q2R_mult, !q2r_nat in E. apply (Rmult_eq_reg_r (Q2R T)); [|exact Tnz]. transitivity (INR n * Q2R T * h (x, p))%R; [ring|]. rewrite E. field. exact Tnz.
Qed.

Definition fits (ps : list Q) (M0 : nat) : Prop :=
  forall c, 0 < c -> exists ns, length ns = length ps /\ nsum ns = c * M0 /\ Forall2 (fun n p => (inject_Z (Z.of_nat n) * sumQ ps == p * inject_Z (Z.of_nat (c * M0)))%Q) ns ps.

Section Buffer.
  Context {X : Type}.
  Variables (cap : option nat) (b : pb QNum X) (l : list (X * Q)) (m : Q).
  Hypothesis SET : settled cap b l m.
  Hypothesis NE : l <> [].
  Variable w : pwe.
  Variable f : X -> R.
  Variable ur : Q.
  Hypothesis UR : (0 <= ur <= 1)%Q.
  Let ps := map snd l.
  Let N := length l.
  Let least := fun mn : Q => Q2R (sel_prob ur ps mn).
  Lemma data_len : length (pb_data b) = N.
  Proof. destruct SET as ((E & _) & _). rewrite E, map_length. reflexivity. Qed.
  Lemma N_pos : 0 < N.
  Proof. unfold N. destruct l; [congruence|cbn; lia]. Qed.
  Lemma some_least : exists mn, is_minQ ps mn.
  Proof.
    unfold ps. clear - NE. assert (H : map snd l <> []) by (destruct l; [congruence|discriminate]). revert H. generalize (map snd l). clear. intros q. induction q as [|x q IH]; intros H; [congruence|]. destruct q as [|y q].
    - exists x. split; [left; reflexivity|]. intros z [<-|[]]. apply Qle_refl.
    - destruct IH as (mn & I & L); [discriminate|]. destruct (Qlt_le_dec x mn) as [C|C].
      + exists x. split; [left; reflexivity|]. intros z [<-|Hz]; [apply Qle_refl|]. apply Qlt_le_weak, Qlt_le_trans with mn; [assumption|apply L; assumption].
      + exists mn. split; [right; assumption|]. intros z [<-|Hz]; [assumption|apply L; assumption].
  Qed.
  Lemma pos_sum : forall q : list Q, (forall x, In x q -> 0 < x)%Q -> q <> [] -> (0 < sumQ q)%Q.
  Proof. intros q. induction q as [|x q IH]; intros H E; [congruence|]. cbn [sumQ]. specialize (H x (or_introl eq_refl)) as Hx. destruct q as [|y q]; [cbn; Lqa.lra|]. specialize (IH (fun z Hz => H z (or_intror Hz)) ltac:(discriminate)). Lqa.lra. Qed.
  Lemma sum_pos : (0 < sumQ ps)%Q.
  Proof. apply pos_sum; [apply SET|]. unfold ps. destruct l; [congruence|discriminate]. Qed.
  Lemma min_unique : forall q m1 m2, is_minQ q m1 -> is_minQ q m2 -> (m1 == m2)%Q.
  Proof. intros q m1 m2 [I1 L1] [I2 L2]. apply Qle_antisym; [apply L1|apply L2]; assumption. Qed.
  Lemma sel_comp : forall p q, (p == q)%Q -> (sel_prob ur ps p == sel_prob ur ps q)%Q.
  Proof. intros p q E. unfold sel_prob. rewrite E. reflexivity. Qed.
  (** What a sample of one item contributes. *)
  Definition share (mn : Q) (e : X * Q) : R := (single_weight w N (Q2R (sel_prob ur ps mn)) (Q2R (sel_prob ur ps (snd e))) * f (fst e))%R.
  Lemma sel_pos : forall p, In p ps -> (0 < sel_prob ur ps p)%Q.
  Proof.
    intros p Hp. unfold sel_prob. pose proof sum_pos as S. assert (P : (0 < p)%Q) by (apply SET; exact Hp).
    assert (LN : (0 < inject_Z (Z.of_nat (length ps)))%Q) by (unfold ps; rewrite map_length; destruct l; [congruence|]; cbn; reflexivity).
    assert (PT : (0 < p / sumQ ps)%Q) by (apply Qlt_shift_div_l; [assumption|Lqa.lra]).
    assert (E : (ur / inject_Z (Z.of_nat (length ps)) + (1 - ur) * p / sumQ ps == ur * / inject_Z (Z.of_nat (length ps)) + (1 - ur) * (p / sumQ ps))%Q) by (unfold Qdiv; ring). rewrite E.
    assert (LI : (0 < / inject_Z (Z.of_nat (length ps)))%Q) by (apply Qinv_lt_0_compat; assumption).
    destruct (Qlt_le_dec 0 ur) as [U|U].
    - apply Qlt_le_trans with (ur * / inject_Z (Z.of_nat (length ps)))%Q; [apply Qmult_lt_0_compat; assumption|]. assert (H : (0 <= (1 - ur) * (p / sumQ ps))%Q) by (apply Qmult_le_0_compat; Lqa.lra). Lqa.lra.
    - assert (U' : (ur == 0)%Q) by Lqa.lra. rewrite U'. Lqa.lra.
  Qed.
  Lemma draw_one : forall d mn, is_minQ ps mn -> draws_ok N 1 ur d -> exists i e, nth_error l i = Some e /\ weighted b w f 1 ur d = share mn e /\
    (if Qltb 0 ur then sample_n_k (d_fuel d) (d_rng d) (Z.of_nat N) (Z.of_nat (d_nuni d)) else Ok []) = Ok (map Z.of_nat (firstn (if Qltb 0 ur then d_nuni d else 0) [i])) /\
    ((if Qltb 0 ur then d_nuni d else 0) = 0 -> hit ps (d_us d 0 * sumQ ps) i).
  Proof.
    intros d mn MN D. destruct SET as (R & _ & _ & FL & POS & _ & _).
    assert (XN : map fst l <> []) by (destruct l; [congruence|discriminate]).
    destruct (@pb_sample_rep X b (map fst l) (map snd l) 1 ur d R XN POS) as (ixs & ys & probs & mp & b' & w' & E & L & _ & RG & S & P & FY & FP & (mn' & MN' & EM) & _); [rewrite map_length; exact D|exact FL|].
    destruct ixs as [|i [|? ?]]; try discriminate. inversion FY as [|? y ? ys' Hy FY']; subst. inversion FY'; subst. inversion FP as [|? pr ? probs' (p & Hp & Epr) FP']; subst. inversion FP'; subst.
    rewrite map_length in S. destruct (nth_error l i) as [[x p']|] eqn:EL; [|rewrite nth_error_map, EL in Hy; discriminate].
    rewrite nth_error_map, EL in Hy. rewrite nth_error_map, EL in Hp. cbn in Hy, Hp. injection Hy as <-. injection Hp as <-.
    exists i, (x, p'). split; [exact EL|]. split; [|split; [destruct (Qltb 0 ur); exact S|]].
    - unfold weighted. rewrite E. unfold weights_from_probabilities. rewrite data_len. unfold share, single_weight. cbn [fst snd map].
      rewrite (Qeq_eqR _ _ Epr). assert (EM' : Q2R mp = Q2R (sel_prob ur ps mn)) by (rewrite (Qeq_eqR _ _ EM); apply Qeq_eqR, sel_comp, (min_unique ps); assumption).
      fold ps. destruct (w_norm w) eqn:EN; cbn [bind list_min combine total_of fold_right map fst snd fold_left]; rewrite ?EM'; try (unfold total_of; cbn; lra).
      assert (SP : (Q2R (sel_prob ur ps p') <> 0)%R).
      { apply not_eq_sym, Rlt_not_eq. replace 0%R with (Q2R 0) by (unfold Q2R; cbn; lra). apply Qlt_Rlt, sel_pos. unfold ps. apply in_map_iff. exists (x, p'). split; [reflexivity|]. apply (nth_error_In _ _ EL). }
      unfold py_pow. replace (Q2R (sel_prob ur ps p') / Q2R (sel_prob ur ps p'))%R with 1%R by (field; exact SP). destruct (Req_EM_T 1 0); [lra|].
      replace (Rpower 1 (- w_beta w)) with 1%R by (unfold Rpower; rewrite ln_1, Rmult_0_r, exp_0; reflexivity). unfold total_of; cbn; lra.
    - intros Z0. rewrite Z0 in P. cbn [firstn skipn Nat.sub seq map zero_at fold_left] in P.
      assert (P' : picks ps [d_us d 0] [i] w') by (destruct (pb_wait b); exact P). inversion P'; assumption.
  Qed.

  (** By priority. *)
  Lemma grid : exists M0, 0 < M0 /\ fits (map snd l) M0.
  Proof.
    pose proof sum_pos as SP.
    destruct (grid_exists (map (fun p => p / sumQ ps)%Q ps)) as (M0 & HM & HG).
    { intros x Hx. apply in_map_iff in Hx. destruct Hx as (p & <- & Hp). apply Qle_shift_div_l; [assumption|]. assert (0 < p)%Q by (apply SET; exact Hp). Lqa.lra. }
    exists M0. split; [exact HM|]. intros c Hc.
    assert (G : forall q, (forall p, In p q -> In p ps) -> exists ns, length ns = length q /\ (inject_Z (Z.of_nat (nsum ns)) * sumQ ps == sumQ q * inject_Z (Z.of_nat (c * M0)))%Q /\
      Forall2 (fun n p => (inject_Z (Z.of_nat n) * sumQ ps == p * inject_Z (Z.of_nat (c * M0)))%Q) ns q).
    { induction q as [|p q IH]; intros I; [exists []; split; [reflexivity|]; split; [cbn; ring|constructor]|].
      destruct IH as (ns & L & S & F); [intros; apply I; right; assumption|]. destruct (HG (p / sumQ ps)%Q) as (n & En); [apply in_map_iff; exists p; split; [reflexivity|apply I; left; reflexivity]|].
      assert (E : (inject_Z (Z.of_nat (c * n)) * sumQ ps == p * inject_Z (Z.of_nat (c * M0)))%Q).
      { rewrite !Nat2Z.inj_mul, !inject_Z_mult, <- En. field. intros Z0. rewrite Z0 in SP. discriminate. }
      exists (c * n :: ns). split; [cbn; lia|]. split; [|constructor; assumption]. change (nsum (c * n :: ns)) with (c * n + nsum ns). rewrite Nat2Z.inj_add, inject_Z_plus, Qmult_plus_distr_l, S, E. cbn [sumQ]. ring. }
    destruct (G ps (fun p H => H)) as (ns & L & S & F). exists ns. split; [exact L|]. split; [|exact F].
    assert (E : (inject_Z (Z.of_nat (nsum ns)) == inject_Z (Z.of_nat (c * M0)))%Q).
    { apply (Qmult_inj_r _ _ (sumQ ps)); [intros Z0; rewrite Z0 in SP; discriminate|]. rewrite S. ring. }
    unfold Qeq, inject_Z in E. cbn in E. lia.
  Qed.
  Lemma grid_prefix : forall M ns, Forall2 (fun n p => (inject_Z (Z.of_nat n) * sumQ ps == p * inject_Z (Z.of_nat M))%Q) ns ps ->
    forall i, (inject_Z (Z.of_nat (nsum (firstn i ns))) * sumQ ps == sumQ (firstn i ps) * inject_Z (Z.of_nat M))%Q.
  Proof.
    intros M ns. generalize (sumQ ps). intros T F. induction F as [|n p ns q E F IH]; intros i; [rewrite !firstn_nil; cbn; ring|]. destruct i as [|i]; [cbn; ring|].
    cbn [firstn sumQ]. change (nsum (n :: firstn i ns)) with (n + nsum (firstn i ns)). rewrite Nat2Z.inj_add, inject_Z_plus, Qmult_plus_distr_l, E, IH. ring.
  Qed.
  Lemma hit_grid : forall M ns j i, 0 < M -> Forall2 (fun n p => (inject_Z (Z.of_nat n) * sumQ ps == p * inject_Z (Z.of_nat M))%Q) ns ps ->
    hit ps ((Z.of_nat j # Pos.of_nat M) * sumQ ps) i -> nsum (firstn i ns) <= j < nsum (firstn (S i) ns).
  Proof.
    intros M ns j i HM F (Li & H1 & H2). pose proof sum_pos as SP.
    assert (EM : (inject_Z (Z.of_nat M) == inject_Z (Z.pos (Pos.of_nat M)))%Q) by (rewrite <- positive_nat_Z, Nat2Pos.id by lia; reflexivity).
    assert (MP : (0 < inject_Z (Z.of_nat M))%Q) by (rewrite EM; reflexivity).
    assert (EJ : ((Z.of_nat j # Pos.of_nat M) * inject_Z (Z.of_nat M) == inject_Z (Z.of_nat j))%Q) by (rewrite EM; unfold Qeq, Qmult, inject_Z; cbn; lia).
    split.
    - assert (C : (inject_Z (Z.of_nat (nsum (firstn i ns))) <= inject_Z (Z.of_nat j))%Q).
      { apply (Qmult_le_r _ _ (sumQ ps)); [assumption|]. rewrite (grid_prefix M ns F i). apply Qle_trans with ((Z.of_nat j # Pos.of_nat M) * sumQ ps * inject_Z (Z.of_nat M))%Q; [apply Qmult_le_compat_r; [assumption|apply Qlt_le_weak; assumption]|].
        rewrite <- EJ. apply Qle_lteq. right. ring. }
      rewrite <- Zle_Qle in C. lia.
    - assert (C : (inject_Z (Z.of_nat j) < inject_Z (Z.of_nat (nsum (firstn (S i) ns))))%Q).
      { apply (Qmult_lt_r _ _ (sumQ ps)); [assumption|]. rewrite (grid_prefix M ns F (S i)). apply Qle_lt_trans with ((Z.of_nat j # Pos.of_nat M) * sumQ ps * inject_Z (Z.of_nat M))%Q; [rewrite <- EJ; apply Qle_lteq; right; ring|].
        apply Qmult_lt_r; assumption. }
      rewrite <- Zlt_Qlt in C. lia.
  Qed.
  Lemma interval_unique : forall ns i i' j, nsum (firstn i ns) <= j < nsum (firstn (S i) ns) -> nsum (firstn i' ns) <= j < nsum (firstn (S i') ns) -> i = i'.
  Proof.
    intros ns i i' j H H'. destruct (Nat.lt_trichotomy i i') as [C|[C|C]]; [|exact C|]; exfalso.
    - pose proof (nsum_firstn_mono ns (S i) i' ltac:(lia)). lia.
    - pose proof (nsum_firstn_mono ns (S i') i ltac:(lia)). lia.
  Qed.
  Lemma by_priority : forall mn M0, is_minQ ps mn -> 0 < M0 -> fits ps M0 -> forall c, 0 < c ->
    mean_prioritized b w f ur (c * M0) = total_of (fun e => Q2R (snd e) / Q2R (sumQ ps) * share mn e)%R l.
  Proof.
    intros mn M0 MN HM G c Hc. destruct (G c Hc) as (ns & L & S & F). unfold mean_prioritized. set (M := c * M0) in *. assert (MP : 0 < M) by (unfold M; nia).
    rewrite <- S. rewrite (grid_sum ns (map (share mn) l)).
    - assert (Mnz : INR (nsum ns) <> 0%R) by (rewrite S; apply not_0_INR; lia).
      assert (Tnz : Q2R (sumQ ps) <> 0%R) by (apply not_eq_sym, Rlt_not_eq; replace 0%R with (Q2R 0) by (unfold Q2R; cbn; lra); apply Qlt_Rlt, sum_pos).
      apply (Rmult_eq_reg_r (INR (nsum ns))); [|exact Mnz]. unfold Rdiv at 1. rewrite Rmult_assoc, Rinv_l, Rmult_1_r by exact Mnz. rewrite Rmult_comm, <- tot_scale.
      rewrite S. apply grid_weights; [exact Tnz|exact F].
    - rewrite map_length, L. unfold ps. rewrite map_length. reflexivity.
    - intros i j Hi Hj. cbn [Nat.add] in Hj.
      assert (JM : j < M). { pose proof (nsum_firstn_mono ns (Datatypes.S i) (length ns) ltac:(lia)) as H. rewrite firstn_all, S in H. lia. }
      destruct (draw_one (mk_draws QNum 0 0 no_rng (fun _ => Z.of_nat j # Pos.of_nat M)) mn MN) as (i' & e & Ee & Ew & _ & H).
      + split; [exact UR|]. cbn [d_nuni d_us d_rng d_fuel]. split; [lia|]. split; [unfold N; destruct l; [congruence|cbn; lia]|]. split; [|split].
        * intros _. split; [unfold Qle; cbn; lia|]. unfold Qlt. cbn. assert (E : Z.pos (Pos.of_nat M) = Z.of_nat M) by (rewrite <- positive_nat_Z, Nat2Pos.id by lia; reflexivity). lia.
        * split; [split; [reflexivity|]; split; [constructor|intros x []]|]. split; [reflexivity|]. split; [intros b0 _; reflexivity|intros b0 x []].
        * exists []. unfold sample_n_k. cbn. destruct (Z.leb_spec 0 (Z.of_nat N)); [reflexivity|lia].
      + rewrite S, Ew. cbn [d_nuni] in H. assert (I : i' = i) by (apply (interval_unique ns i' i j); [apply (hit_grid M ns j i' MP F), H; destruct (Qltb 0 ur); reflexivity|exact Hj]). subst i'.
        rewrite (nth_indep _ 0%R (share mn e)) by (rewrite map_length; apply nth_error_Some; congruence). rewrite map_nth. rewrite (nth_error_nth _ _ _ Ee). reflexivity.
  Qed.

  (** Uniformly. *)
  Lemma one_drawn : forall r, rng_ok (Z.of_nat N) 1 r -> exists i, sample_n_k 0 r (Z.of_nat N) 1 = Ok [i].
  Proof.
    intros r R. pose proof (@sample_n_k_sound 0 r _ _ R) as S. pose proof N_pos as HN.
    assert (E : exists a, sample_n_k 0 r (Z.of_nat N) 1 = Ok a).
    { unfold sample_n_k. destruct (Z.leb_spec 0 1), (Z.leb_spec 1 (Z.of_nat N)); cbn [andb Z.eqb]; try lia. destruct (Z.of_nat N <=? 3 * 1)%Z; [eexists; reflexivity|].
      destruct R as (_ & L & _). change (Z.to_nat 1) with 1. cbn [dedup_loop]. destruct (block r 0) as [|x bl]; [cbn in L; lia|]. cbn [nth_error redraw]. destruct (in_dec Z.eq_dec x []) as [[]|_]. cbn [bind]. eexists. reflexivity. }
    destruct E as (a & E). rewrite E in S. destruct S as (_ & L & _). destruct a as [|i [|? ?]]; cbn in L; try lia. exists i. exact E.
  Qed.
  Lemma uniformly : forall mn B, is_minQ ps mn -> (0 < ur)%Q -> mean_uniform b w f ur B = (total_of (share mn) l / INR N)%R.
  Proof.
    intros mn B MN U. pose proof N_pos as HN.
    assert (UB : Qltb 0 ur = true) by (unfold Qltb; destruct (Qle_bool ur 0) eqn:E; [apply Qle_bool_iff in E; exfalso; apply (Qlt_not_le _ _ U E)|reflexivity]).
    unfold mean_uniform. rewrite data_len. pose proof (fair 0 N 1 B (fun i => match nth_error l (Z.to_nat i) with Some e => share mn e | None => 0%R end)) as FA.
    rewrite <- (tot_by_index _ (share mn) l) in FA || (unfold N in FA; rewrite <- (tot_by_index _ (share mn) l) in FA; fold N in FA).
    assert (ER : results 0 N 1 B = length (ensemble N 1 B)).
    { unfold results. f_equal. rewrite (filter_ext_in _ (fun _ => true)); [induction (ensemble N 1 B) as [|x q IH]; cbn; congruence|]. intros r Hr. unfold drawn. destruct (one_drawn r (ensemble_ok N 1 B r Hr)) as (i & E). cbn [Z.of_nat] in E. change (Z.of_nat 1) with 1%Z. rewrite E. reflexivity. }
    assert (EN : 0 < length (ensemble N 1 B)).
    { rewrite <- ER. apply Nat.lt_le_trans with (ways 0 N 1 B [0%Z]); [apply possible; split; [reflexivity|]; split; [repeat constructor; intros []|intros x [<-|[]]; lia]|].
      unfold ways, results. clear FA ER. induction (ensemble N 1 B) as [|r q IH]; [cbn; lia|]. cbn [filter]. destruct (drawn 0 N 1 r) as [a|e]; [|exact IH]. destruct (list_eq_dec Z.eq_dec a [0%Z]); cbn [length]; lia. }
    assert (ES : sum_drawn 0 N 1 B (fun i => match nth_error l (Z.to_nat i) with Some e => share mn e | None => 0%R end) = total_of (fun r => weighted b w f 1 ur (mk_draws QNum 1 0 r (fun _ => 0%Q))) (ensemble N 1 B)).
    { unfold sum_drawn. apply tot_ext. intros r Hr. pose proof (ensemble_ok N 1 B r Hr) as RO. destruct (one_drawn r RO) as (i0 & E0).
      destruct (draw_one (mk_draws QNum 1 0 r (fun _ => 0%Q)) mn MN) as (i & e & Ee & Ew & Es & _).
      - split; [exact UR|]. cbn [d_nuni d_us d_rng d_fuel]. split; [lia|]. split; [lia|]. split; [intros _; split; [apply Qle_refl|reflexivity]|]. split; [exact RO|]. exists [i0]. exact E0.
      - rewrite Ew. rewrite UB in Es. cbn [d_nuni d_fuel d_rng firstn map] in Es. unfold drawn. rewrite Es. rewrite tot_cons. rewrite Nat2Z.id, Ee. cbn. lra. }
    rewrite <- ES. assert (Nnz : INR N <> 0%R) by (apply not_0_INR; lia). assert (Enz : INR (length (ensemble N 1 B)) <> 0%R) by (apply not_0_INR; lia).
    rewrite ER in FA. change (INR 1) with 1%R in FA. set (sd := sum_drawn _ _ _ _ _) in *. apply (Rmult_eq_reg_l (INR N)); [|exact Nnz]. apply (Rmult_eq_reg_r (INR (length (ensemble N 1 B)))); [|exact Enz].
    transitivity (INR N * sd)%R; [field; exact Enz|]. rewrite FA. field. exact Nnz.
  Qed.
  Lemma expected : forall mn M0, is_minQ ps mn -> 0 < M0 -> fits ps M0 -> forall c B, 0 < c ->
    mean_weighted b w f ur (c * M0) B = total_of (fun e => Q2R (sel_prob ur ps (snd e)) * share mn e)%R l.
  Proof.
    intros mn M0 MN HM G c B Hc. unfold mean_weighted. rewrite (by_priority mn M0 MN HM G c Hc).
    pose proof N_pos as HN. assert (Nnz : INR N <> 0%R) by (apply not_0_INR; lia).
    assert (Tnz : ~ (sumQ ps == 0)%Q) by (pose proof sum_pos as SP; intros Z0; rewrite Z0 in SP; discriminate).
    assert (LQ : ~ (inject_Z (Z.of_nat (length ps)) == 0)%Q) by (unfold ps; rewrite map_length; fold N; unfold Qeq, inject_Z; cbn; lia).
    assert (ES : forall e : X * Q, Q2R (sel_prob ur ps (snd e)) = (Q2R ur / INR N + (1 - Q2R ur) * (Q2R (snd e) / Q2R (sumQ ps)))%R).
    { intros e. unfold sel_prob. rewrite Q2R_plus, !Q2R_div, Q2R_mult, Q2R_minus, q2r_nat by assumption. replace (length ps) with N by (unfold ps, N; rewrite map_length; reflexivity). unfold Rdiv. replace (Q2R 1) with 1%R by (unfold Q2R; cbn; lra). ring. }
    assert (EU : (Q2R ur * mean_uniform b w f ur B = Q2R ur * (total_of (share mn) l / INR N))%R).
    { destruct (Qlt_le_dec 0 ur) as [U|U]; [rewrite (uniformly mn B MN U); reflexivity|]. assert (Z0 : Q2R ur = 0%R) by (replace 0%R with (Q2R 0) by (unfold Q2R; cbn; lra); apply Qeq_eqR, Qle_antisym; [exact U|apply UR]). rewrite Z0. lra. }
    rewrite EU. unfold Rdiv at 1. rewrite (Rmult_comm (total_of (share mn) l)), <- Rmult_assoc, <- !tot_scale, <- tot_add. apply tot_ext. intros e _. rewrite ES. unfold Rdiv. ring.
  Qed.

  (** Every item exactly once. *)
  Lemma whole : forall d mn, is_minQ ps mn -> draws_ok N N 0 d -> (ur == 0)%Q -> pb_wait b = true -> w_norm w <> NormBatch ->
    weighted b w f N 0 d = total_of (share mn) l.
  Proof.
    intros d mn MN D U0 WT NB. destruct SET as (RP & _ & _ & FL & POS & _ & _).
    assert (XN : map fst l <> []) by (clear - NE; destruct l; [congruence|discriminate]).
    destruct (@pb_sample_rep X b (map fst l) (map snd l) N 0 d RP XN POS) as (ixs & ys & probs & mp & b' & w' & E & L & ND & RG & _ & _ & FY & FP & (mn' & MN' & EM) & _); [rewrite map_length; exact D|exact FL|].
    specialize (ND WT). unfold weighted. rewrite E. unfold weights_from_probabilities. rewrite data_len.
    assert (SC : forall p, (sel_prob 0 ps p == sel_prob ur ps p)%Q) by (intros p; unfold sel_prob; rewrite U0; reflexivity).
    assert (EM' : Q2R mp = Q2R (sel_prob ur ps mn)) by (rewrite (Qeq_eqR _ _ EM); apply Qeq_eqR; fold ps; rewrite SC; apply sel_comp, (min_unique ps); assumption).
    assert (G : forall wf : R -> R, total_of (fun p => fst p * f (snd p))%R (combine (map wf (map Q2R probs)) ys) = total_of (fun i => match nth_error l i with Some e => wf (Q2R (sel_prob ur ps (snd e))) * f (fst e) | None => 0 end)%R ixs).
    { intros wf. clear - FY FP SC. revert probs FP. induction FY as [|i y ixs ys Hy FY IH]; intros probs FP; inversion FP as [|? pr ? probs' (p & Hp & Ep) FP']; subst; [reflexivity|]. cbn [map combine]. rewrite !tot_cons, (IH probs' FP'). f_equal.
      rewrite nth_error_map in Hy, Hp. destruct (nth_error l i) as [e|]; [|discriminate]. cbn in Hy, Hp. injection Hy as <-. injection Hp as <-. cbn [fst snd]. rewrite (Qeq_eqR _ _ Ep). fold ps. rewrite (Qeq_eqR _ _ (SC _)). reflexivity. }
    assert (PE : forall h : X * Q -> R, total_of (fun i => match nth_error l i with Some e => h e | None => 0%R end) ixs = total_of h l).
    { intros h. rewrite (tot_by_index _ h l). unfold zrange. rewrite tot_map. rewrite (tot_ext _ (fun i => match nth_error l i with Some e => h e | None => 0%R end) (seq 0 (length l))) by (intros i _; rewrite Nat2Z.id; reflexivity).
      apply tot_permutation. apply NoDup_Permutation_bis; [exact ND|rewrite seq_length, L; unfold N; lia|]. intros i Hi. apply in_seq. specialize (RG i Hi). rewrite map_length in RG. lia. }
    unfold share, single_weight. destruct (w_norm w); cbn [bind]; try congruence; rewrite ?EM'; rewrite G; rewrite <- PE; reflexivity.
  Qed.
End Buffer.

(** ** For reachable buffers. *)
Section Reach.
  Context {X : Type}.
  Lemma run_wait : forall (cap : option nat) us (b : pb QNum X) l m, settled cap b l m -> pb_wait b = true -> safe cap (l, m) us ->
    exists os b' l' m', use_run b us = Ok (os, b') /\ settled cap b' l' m' /\ pb_wait b' = true.
  Proof.
    intros cap us. induction us as [|u us IH]; intros b l m Hs Hw Hsafe; cbn [use_run]; [exists [], b, l, m; auto|].
    inversion Hsafe as [|? ? ? Hpre Hnext]; subst. destruct (exec_step u Hs Hpre Hw) as (o & b1 & l1 & m1 & -> & Hst & Hs1 & Hw1). cbn [bind].
    destruct (IH b1 l1 m1 Hs1 Hw1 (Hnext _ _ Hst)) as (os & b2 & l2 & m2 & -> & Hs2 & Hw2). cbn [bind]. exists ((u, o) :: os), b2, l2, m2. auto.
  Qed.
  Lemma expected_reach : forall (cap : option nat) m0 us, (0 < m0)%Q -> safe cap ([], m0) us ->
    exists os b l m, use_run (@pb_init QNum X cap true m0) us = Ok (os, b) /\ stores b l m /\
      (l <> [] -> exists mn M0, is_minQ (map snd l) mn /\ 0 < M0 /\ forall w f ur c B, (0 <= ur <= 1)%Q -> 0 < c ->
        (forall p, In p (map snd l) -> 0 < sel_prob ur (map snd l) p)%Q /\
        mean_weighted b w f ur (c * M0) B = total_of (fun e => Q2R (sel_prob ur (map snd l) (snd e)) * single_share w f ur l mn e)%R l).
  Proof.
    intros cap m0 us Hm Hs. destruct (run_wait cap us (pb_init QNum cap true m0) [] m0 (settled_init cap Hm) eq_refl Hs) as (os & b & l & m & H1 & H4 & _).
    exists os, b, l, m. split; [exact H1|]. split; [eapply settled_stores; exact H4|]. intros NE. destruct (some_least l NE) as (mn & MN). destruct (grid cap b l m H4 NE 0%Q) as (M0 & HM & G).
    exists mn, M0. split; [exact MN|]. split; [exact HM|]. intros w f ur c B UR Hc. split; [intros p Hp; apply (sel_pos cap b l m H4 NE ur UR p Hp)|]. exact (expected cap b l m H4 NE w f ur UR mn M0 MN HM G c B Hc).
  Qed.
  Lemma whole_reach : forall (cap : option nat) m0 us w f, (0 < m0)%Q -> safe cap ([], m0) us -> w_norm w <> NormBatch ->
    exists os b l m, use_run (@pb_init QNum X cap true m0) us = Ok (os, b) /\ stores b l m /\
      (l <> [] -> exists mn, is_minQ (map snd l) mn /\ forall d, draws_ok (length l) (length l) 0 d -> weighted b w f (length l) 0 d = total_of (single_share w f 0 l mn) l).
  Proof.
    intros cap m0 us w f Hm Hs NB. destruct (run_wait cap us (pb_init QNum cap true m0) [] m0 (settled_init cap Hm) eq_refl Hs) as (os & b & l & m & H1 & H4 & HW).
    exists os, b, l, m. split; [exact H1|]. split; [eapply settled_stores; exact H4|]. intros NE. destruct (some_least l NE) as (mn & MN). exists mn. split; [exact MN|]. intros d D.
    pose proof (whole cap b l m H4 NE w f 0%Q) as W. specialize (W d mn MN D (Qeq_refl 0) HW NB). exact W.
  Qed.
End Reach.

(** ** Full correction, and none. *)
Lemma pow_inv : forall x, (0 < x)%R -> py_pow x (- (1)) = (/ x)%R.
Proof. intros x H. unfold py_pow. destruct (Req_EM_T x 0); [lra|]. rewrite Rpower_Ropp, Rpower_1 by exact H. reflexivity. Qed.
Section Corrected.
  Context {X : Type}.
  Variables (w : pwe) (f : X -> R) (ur : Q) (l : list (X * Q)) (mn : Q).
  Hypothesis POS : (forall p, In p (map snd l) -> 0 < sel_prob ur (map snd l) p)%Q.
  Hypothesis MN : is_minQ (map snd l) mn.
  Let prob (e : X * Q) := Q2R (sel_prob ur (map snd l) (snd e)).
  Lemma prob_pos : forall p, In p (map snd l) -> (0 < Q2R (sel_prob ur (map snd l) p))%R.
  Proof. intros p Hp. replace 0%R with (Q2R 0) by (unfold Q2R; cbn; lra). apply Qlt_Rlt, POS, Hp. Qed.
  Lemma corrected : w_beta w = 1%R -> w_norm w <> NormBatch ->
    total_of (fun e => prob e * single_share w f ur l mn e)%R l = ((match w_norm w with NormFalse => / INR (length l) | _ => Q2R (sel_prob ur (map snd l) mn) end) * total_of (fun e => f (fst e)) l)%R.
  Proof.
    intros WB NB. rewrite <- tot_scale. apply tot_ext. intros e He. unfold single_share, single_weight. rewrite WB.
    assert (PE : (0 < prob e)%R) by (apply prob_pos, in_map, He). assert (PM : (0 < Q2R (sel_prob ur (map snd l) mn))%R) by (apply prob_pos, MN).
    assert (LP : (0 < INR (length l))%R) by (apply lt_0_INR; destruct l; [destruct He|cbn; lia]). fold (prob e).
    destruct (w_norm w); try congruence; rewrite pow_inv by (try (apply Rmult_lt_0_compat; assumption); apply Rdiv_lt_0_compat; assumption); field; lra.
  Qed.
  Lemma uncorrected : w_norm w = NormBatch -> total_of (fun e => prob e * single_share w f ur l mn e)%R l = total_of (fun e => prob e * f (fst e))%R l.
  Proof. intros NB. apply tot_ext. intros e He. unfold single_share, single_weight. rewrite NB. lra. Qed.
End Corrected.

(** ** Two items with priorities 1 and 3. *)
Lemma one_pos : (0 < 1)%Q.
Proof. reflexivity. Qed.
Lemma zero_ratio : (0 <= 0 <= 1)%Q.
Proof. split; [apply Qle_refl|discriminate]. Qed.
Lemma two_items_safe : safe None ([], 1%Q) two_items.
Proof.
  unfold two_items. constructor; [split; [reflexivity|discriminate]|]. intros o s' Hs. inversion Hs; subst. cbn.
  constructor; [split; [reflexivity|discriminate]|]. intros o s' Hs'. inversion Hs'; subst. constructor.
Qed.
Lemma two_items_stored : forall os (b : pb QNum nat) l m, use_run (pb_init QNum None true 1%Q) two_items = Ok (os, b) -> stores b l m -> l = [(0, 1%Q); (1, 3%Q)].
Proof.
  intros os b l m E (D & P & _). vm_compute in E. injection E as <- <-. vm_compute in D, P. destruct l as [|[x p] [|[y q] [|? ?]]]; try discriminate. cbn in D, P. congruence.
Qed.
Lemma two_least : forall mn, is_minQ [1%Q; 3%Q] mn -> (mn == 1)%Q.
Proof. intros mn [[<-|[<-|[]]] L]; [reflexivity|]. exfalso. specialize (L 1%Q (or_introl eq_refl)). apply L. reflexivity. Qed.
Lemma two_sel : Q2R (sel_prob 0 [1%Q; 3%Q] 1) = (1 / 4)%R /\ Q2R (sel_prob 0 [1%Q; 3%Q] 3) = (3 / 4)%R.
Proof. split; unfold sel_prob, Q2R; cbn; lra. Qed.
Lemma batch_refuted : forall w, w_norm w = NormBatch -> exists os b M0, use_run (pb_init QNum None true 1%Q) two_items = Ok (os, b) /\ 0 < M0 /\ forall f c B, 0 < c ->
  mean_weighted b w f 0 (c * M0) B = (1 / 4 * f 0%nat + 3 / 4 * f 1%nat)%R.
Proof.
  intros w NB. destruct (expected_reach None 1%Q two_items one_pos two_items_safe) as (os & b & l & m & H1 & H2 & H3).
  pose proof (two_items_stored os b l m H1 H2) as ->. destruct H3 as (mn & M0 & MN & HM & H); [discriminate|]. exists os, b, M0. split; [exact H1|]. split; [exact HM|]. intros f c B Hc.
  destruct (H w f 0%Q c B zero_ratio Hc) as [_ E]. rewrite E, (uncorrected w f 0%Q _ mn NB). cbn [map snd]. rewrite !tot_cons. cbn [fst snd]. destruct two_sel as [-> ->]. unfold total_of. cbn. lra.
Qed.
Lemma whole_refuted : forall w, w_norm w = NormFalse -> w_beta w = 1%R -> exists os b, use_run (pb_init QNum None true 1%Q) two_items = Ok (os, b) /\ forall f d, draws_ok 2 2 0 d ->
  weighted b w f 2 0 d = (2 * f 0%nat + 2 / 3 * f 1%nat)%R.
Proof.
  intros w NF WB. assert (NB : w_norm w <> NormBatch) by congruence.
  destruct (run_wait None two_items (pb_init QNum None true 1%Q) [] 1%Q (settled_init None one_pos) eq_refl two_items_safe) as (os & b & l & m & H1 & H4 & HW).
  pose proof (two_items_stored os b l m H1 (settled_stores H4)) as ->. exists os, b. split; [exact H1|]. intros f d D.
  destruct (some_least [(0, 1%Q); (1, 3%Q)] ltac:(discriminate)) as (mn & MN).
  pose proof (whole None b _ m H4 ltac:(discriminate) w f 0%Q d mn MN D (Qeq_refl 0) HW NB) as E. cbn [length] in E. rewrite E. unfold share, single_weight. rewrite NF, WB. rewrite !tot_cons. cbn [map fst snd]. destruct two_sel as [-> ->].
  cbn [length INR]. rewrite !pow_inv by lra. unfold total_of. cbn. lra.
Qed.

(** ** The statements. *)
Lemma unbiased : forall X (cap : option nat) m0 us, (0 < m0)%Q -> safe cap ([], m0) us ->
  exists os b l m, use_run (@pb_init QNum X cap true m0) us = Ok (os, b) /\ stores b l m /\
    (l <> [] -> exists mn M0, is_minQ (map snd l) mn /\ 0 < M0 /\ forall w f ur c B, (0 <= ur <= 1)%Q -> 0 < c -> w_beta w = 1%R -> w_norm w <> NormBatch ->
      (0 < sel_prob ur (map snd l) mn)%Q /\
      mean_weighted b w f ur (c * M0) B = (match w_norm w with NormFalse => / INR (length l) | _ => Q2R (sel_prob ur (map snd l) mn) end * total_of f (pb_data b))%R).
Proof.
  intros X cap m0 us Hm Hs. destruct (expected_reach cap m0 us Hm Hs) as (os & b & l & m & H1 & H2 & H3). exists os, b, l, m. split; [exact H1|]. split; [exact H2|].
  intros NE. destruct (H3 NE) as (mn & M0 & MN & HM & H). exists mn, M0. split; [exact MN|]. split; [exact HM|]. intros w f ur c B UR Hc WB NB. destruct (H w f ur c B UR Hc) as [P E].
  split; [apply P, MN|]. rewrite E, (corrected w f ur l mn P MN WB NB). destruct H2 as (D & _). rewrite D, tot_map. reflexivity.
Qed.
Lemma batch_biased : forall X (cap : option nat) m0 us, (0 < m0)%Q -> safe cap ([], m0) us ->
  exists os b l m, use_run (@pb_init QNum X cap true m0) us = Ok (os, b) /\ stores b l m /\
    (l <> [] -> exists M0, 0 < M0 /\ forall w f ur c B, (0 <= ur <= 1)%Q -> 0 < c -> w_norm w = NormBatch ->
      mean_weighted b w f ur (c * M0) B = total_of (fun e => Q2R (sel_prob ur (map snd l) (snd e)) * f (fst e))%R l).
Proof.
  intros X cap m0 us Hm Hs. destruct (expected_reach cap m0 us Hm Hs) as (os & b & l & m & H1 & H2 & H3). exists os, b, l, m. split; [exact H1|]. split; [exact H2|].
  intros NE. destruct (H3 NE) as (mn & M0 & MN & HM & H). exists M0. split; [exact HM|]. intros w f ur c B UR Hc NB. destruct (H w f ur c B UR Hc) as [P E].
  rewrite E, (uncorrected w f ur l mn NB). reflexivity.
Qed.
