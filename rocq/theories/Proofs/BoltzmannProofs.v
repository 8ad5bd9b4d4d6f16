From Coq Require Import Reals List Arith Lia Lra.
From Verif Require Import Base.PyBase Model.Distributions Model.Boltzmann Spec.SumSpec Spec.BoltzmannSpec Proofs.RSumFacts Proofs.DistributionProofs.
Import ListNotations.
Local Open Scope R_scope.

Section Look.
  (** Sums of the first entries. *)
  Fixpoint psum (i : nat) (p : list R) : R := match i, p with S i, x :: p => x + psum i p | _, _ => 0 end.
  Lemma cum_len : forall p acc, length (cumsum_from acc p) = length p.
  Proof. induction p; intros; cbn; auto. Qed.
  Lemma psum_all : forall p, psum (length p) p = fsum p.
  Proof. induction p; cbn; [reflexivity|]. unfold fsum in *. cbn. rewrite IHp. reflexivity. Qed.
  Lemma cum_last : forall p acc, p <> [] -> last (cumsum_from acc p) 0 = acc + fsum p.
  Proof.
    induction p as [|x p IH]; intros acc H; [congruence|]. destruct p as [|y p]; [cbn; unfold fsum; cbn; ring|].
    change (cumsum_from acc (x :: y :: p)) with ((acc + x) :: cumsum_from (acc + x) (y :: p)). cbn [last]. destruct (cumsum_from (acc + x) (y :: p)) eqn:E; [discriminate|]. rewrite <- E, IH by discriminate. unfold fsum. cbn. ring.
  Qed.
  Lemma none_below : forall p acc u, (forall x, In x p -> 0 < x) -> u < acc -> filter (fun c => leb_R c u) (cumsum_from acc p) = [].
  Proof.
    induction p as [|x p IH]; intros acc u P H; [reflexivity|]. cbn. pose proof (P x (or_introl eq_refl)). unfold leb_R at 1. destruct (Rle_dec (acc + x) u); [lra|]. apply IH; [intros; apply P; right; assumption|lra].
  Qed.
  Lemma count_ok : forall p acc u, (forall x, In x p -> 0 < x) -> acc <= u -> forall i, (i < length p)%nat ->
    (length (filter (fun c => leb_R c u) (cumsum_from acc p)) = i <-> acc + psum i p <= u < acc + psum (S i) p).
  Proof.
    induction p as [|x p IH]; intros acc u P H i Hi; [cbn in Hi; lia|]. pose proof (P x (or_introl eq_refl)) as X. cbn [cumsum_from filter]. unfold leb_R at 1.
    destruct (Rle_dec (acc + x) u) as [L|L].
    - destruct i as [|i]; [cbn; split; [discriminate|lra]|]. cbn [length]. assert (Q := IH (acc + x) u (fun y Hy => P y (or_intror Hy)) L i ltac:(cbn in Hi; lia)).
      cbn [psum] in *. split; intros E.
      + assert (E' : length (filter (fun c => leb_R c u) (cumsum_from (acc + x) p)) = i) by lia. apply Q in E'. destruct p; [cbn in Hi; lia|]. cbn [psum] in *. lra.
      + f_equal. apply Q. destruct p; [cbn in Hi; lia|]. cbn [psum] in *. lra.
    - rewrite none_below by (try (intros; apply P; right; assumption); lra). cbn [length]. destruct i as [|i].
      + split; [|reflexivity]. intros _. cbn. destruct p; cbn; lra.
      + split; [discriminate|]. cbn [psum]. intros E. assert (0 <= psum i p). { clear -P. revert p P. induction i; intros p P; [cbn; lra|]. destruct p; cbn; [lra|]. pose proof (P r (or_intror (or_introl eq_refl))). pose proof (IHi p ltac:(intros y [<-|Hy]; apply P; [left|right; right]; auto)). lra. } lra.
  Qed.
  Lemma psum_step : forall p i, (i < length p)%nat -> psum (S i) p = psum i p + nth i p 0.
  Proof. induction p as [|x p IH]; intros i H; [cbn in H; lia|]. destruct i; [cbn; destruct p; ring|]. change (psum (S (S i)) (x :: p)) with (x + psum (S i) p). rewrite IH by (cbn in H; lia). cbn. ring. Qed.
  Lemma psum_nonneg : forall i p, (forall x, In x p -> 0 < x) -> 0 <= psum i p.
  Proof. induction i; intros p P; [cbn; destruct p; cbn; lra|]. destruct p as [|y p]; cbn; [lra|]. pose proof (P y (or_introl eq_refl)). pose proof (IHi p ltac:(intros; apply P; right; auto)). lra. Qed.
  Lemma psum_mono : forall p i, (forall x, In x p -> 0 < x) -> psum i p <= fsum p.
  Proof.
    induction p as [|y p IH]; intros i P; unfold fsum in *; [destruct i; cbn; lra|]. pose proof (P y (or_introl eq_refl)). destruct i; cbn [psum fold_right].
    - pose proof (IH 0%nat ltac:(intros; apply P; right; auto)). destruct p; cbn in *; lra.
    - pose proof (IH i ltac:(intros; apply P; right; auto)). lra.
  Qed.
  Lemma filter_le : forall (f : R -> bool) l, (length (filter f l) <= length l)%nat.
  Proof. induction l; cbn; [lia|]. destruct (f a); cbn; lia. Qed.
  Lemma count_total : forall p u, (forall x, In x p -> 0 < x) -> 0 <= u < fsum p -> (length (filter (fun c => leb_R c u) (cumsum_from 0 p)) < length p)%nat.
  Proof.
    intros p u P H. assert (G : forall p acc, p <> [] -> u < acc + fsum p -> (length (filter (fun c => leb_R c u) (cumsum_from acc p)) < length p)%nat).
    { clear. induction p as [|x p IH]; intros acc N H; [congruence|]. cbn [cumsum_from filter]. unfold leb_R at 1. destruct (Rle_dec (acc + x) u) as [L|L].
      - destruct p as [|y p]; [unfold fsum in H; cbn in H; lra|]. cbn [length]. apply -> Nat.succ_lt_mono. apply IH; [discriminate|]. unfold fsum in *. cbn in *. lra.
      - cbn [length]. pose proof (filter_le (fun c => leb_R c u) (cumsum_from (acc + x) p)). rewrite cum_len in H0. lia. }
    apply G; [|lra]. intros ->. unfold fsum in H. cbn in H. lra.
  Qed.
End Look.

Lemma exp_sum_pos : forall T q, q <> [] -> 0 < total_of (fun v => exp (v / T)) q.
Proof. intros T. induction q as [|x q IH]; intros H; [congruence|]. unfold total_of in *. cbn. pose proof (exp_pos (x / T)). destruct q; [cbn; lra|]. specialize (IH ltac:(discriminate)). lra. Qed.
Lemma softmax_T : forall T q, softmax (map (fun v => v / T) q) = map (fun v => exp (v / T) / total_of (fun v => exp (v / T)) q) q.
Proof. intros T q. unfold softmax. rewrite map_map. apply map_ext. intros v. f_equal. rewrite map_map, fsum_map. reflexivity. Qed.
Lemma probs_nth : forall T q i, (i < length q)%nat -> nth i (softmax (map (fun v => v / T) q)) 0 = boltzmann T q i.
Proof.
  intros T q i H. rewrite softmax_T. set (f := fun v => exp (v / T) / total_of (fun v => exp (v / T)) q). rewrite (nth_indep _ 0 (f 0)) by (rewrite map_length; exact H). rewrite (map_nth f). reflexivity.
Qed.
Lemma probs_pos : forall T q x, In x (softmax (map (fun v => v / T) q)) -> 0 < x.
Proof. intros T q x H. rewrite softmax_T in H. apply in_map_iff in H. destruct H as (v & <- & Hv). apply Rdiv_lt_0_compat; [apply exp_pos|]. apply exp_sum_pos. intros ->. destruct Hv. Qed.
Lemma probs_sum : forall T q, q <> [] -> fsum (softmax (map (fun v => v / T) q)) = 1.
Proof.
  intros T q H. rewrite softmax_T, fsum_map. pose proof (exp_sum_pos T q H) as P.
  assert (G : forall l, total_of (fun v => exp (v / T) / total_of (fun v => exp (v / T)) q) l = total_of (fun v => exp (v / T)) l / total_of (fun v => exp (v / T)) q).
  { induction l as [|x l IH]; unfold total_of in *; cbn; [field; lra|]. rewrite IH. field. lra. }
  rewrite G. field. lra.
Qed.
Lemma select_row : forall T q u, T <> 0 -> q <> [] -> select_action T (DiscreteValue [q]) u = Ok (length (filter (fun c => leb_R c u) (cumsum_from 0 (softmax (map (fun v => v / T) q))))).
Proof.
  intros T q u HT Hq. unfold select_action. cbn [hd map concat]. rewrite app_nil_r. destruct (Req_EM_T T 0); [contradiction|]. unfold choice. rewrite softmax_len, map_length, Nat.eqb_refl.
  assert (N : softmax (map (fun v => v / T) q) <> []). { intros E. apply (f_equal (@length R)) in E. rewrite softmax_len, map_length in E. apply length_zero_iff_nil in E. contradiction. }
  rewrite (cum_last _ 0 N), (probs_sum T q Hq).
  do 3 f_equal. rewrite <- map_id. apply map_ext. intros c. field.
Qed.
Lemma select_ok : forall T q, T <> 0 -> q <> [] ->
  (forall u, 0 <= u < 1 -> exists i, (i < length q)%nat /\ select_action T (DiscreteValue [q]) u = Ok i) /\
  (forall i, (i < length q)%nat -> exists lo, 0 <= lo /\ lo + boltzmann T q i <= 1 /\ forall u, 0 <= u < 1 -> (select_action T (DiscreteValue [q]) u = Ok i <-> lo <= u < lo + boltzmann T q i)).
Proof.
  intros T q HT Hq. set (p := softmax (map (fun v => v / T) q)). assert (Lp : length p = length q) by (unfold p; rewrite softmax_len, map_length; reflexivity).
  assert (P : forall x, In x p -> 0 < x) by (intros x; apply probs_pos). assert (S1 : fsum p = 1) by (apply probs_sum, Hq). split.
  - intros u Hu. eexists. split; [|apply select_row; assumption]. fold p. rewrite <- Lp. apply count_total; [exact P|lra].
  - intros i Hi. exists (psum i p). split; [apply psum_nonneg, P|]. rewrite <- probs_nth by exact Hi. fold p. rewrite <- psum_step by lia. split; [rewrite <- S1; apply psum_mono, P|].
    intros u Hu. rewrite select_row by assumption. fold p. pose proof (count_ok p 0 u P ltac:(lra) i ltac:(lia)) as C. rewrite !Rplus_0_l in C. split; intros E; [injection E as E; apply C, E|f_equal; apply C, E].
Qed.

Lemma boltz_ratio : forall T q i j, q <> [] -> boltzmann T q i = boltzmann T q j * exp ((nth i q 0 - nth j q 0) / T).
Proof.
  intros T q i j H. unfold boltzmann. pose proof (exp_sum_pos T q H). replace ((nth i q 0 - nth j q 0) / T) with (nth i q 0 / T + - (nth j q 0 / T)) by (unfold Rdiv; ring).
  rewrite exp_plus, exp_Ropp. pose proof (exp_pos (nth j q 0 / T)). field. lra.
Qed.
Lemma boltz_pos : forall T q i, q <> [] -> 0 < boltzmann T q i.
Proof. intros. unfold boltzmann. apply Rdiv_lt_0_compat; [apply exp_pos|apply exp_sum_pos; assumption]. Qed.
Lemma boltz_sum : forall T q, q <> [] -> sum_below (length q) (boltzmann T q) = 1.
Proof.
  intros T q H. rewrite <- (probs_sum T q H). assert (G : forall l, sum_below (length l) (fun i => nth i l 0) = fsum l).
  { induction l as [|x l IH]; [reflexivity|]. change (length (x :: l)) with (S (length l)). rewrite below_S. cbn [nth]. rewrite IH. reflexivity. }
  rewrite <- G, softmax_len, map_length. apply below_ext. intros i Hi. symmetry. apply probs_nth, Hi.
Qed.
Lemma boltz_order : forall T q i j, 0 < T -> q <> [] -> nth j q 0 < nth i q 0 -> boltzmann T q j < boltzmann T q i.
Proof.
  intros T q i j HT H L. rewrite (boltz_ratio T q i j H). pose proof (boltz_pos T q j H). assert (1 < exp ((nth i q 0 - nth j q 0) / T)). { rewrite <- exp_0. apply exp_increasing. apply Rdiv_lt_0_compat; lra. } nra.
Qed.
Lemma boltz_reversed : forall T q i j, T < 0 -> q <> [] -> nth j q 0 < nth i q 0 -> boltzmann T q i < boltzmann T q j.
Proof.
  intros T q i j HT H L. rewrite (boltz_ratio T q j i H). pose proof (boltz_pos T q i H).
  assert (1 < exp ((nth j q 0 - nth i q 0) / T)). { rewrite <- exp_0. apply exp_increasing. replace ((nth j q 0 - nth i q 0) / T) with ((nth i q 0 - nth j q 0) / - T) by (field; lra). apply Rdiv_lt_0_compat; lra. } nra.
Qed.
Lemma boltz_le_1 : forall T q i, (i < length q)%nat -> boltzmann T q i <= 1.
Proof.
  intros T q i Hi. assert (Hq : q <> []) by (intros ->; cbn in Hi; lia). rewrite <- (boltz_sum T q Hq). assert (G : forall n f, (forall j, 0 <= f j) -> (i < n)%nat -> f i <= sum_below n f).
  { clear. induction n as [|n IH]; intros f P H; [lia|]. cbn [sum_below]. pose proof (P n). destruct (Nat.eq_dec i n) as [->|N]; [|specialize (IH f P ltac:(lia)); lra].
    assert (0 <= sum_below n f) by (clear -P; induction n; cbn; [lra|]; pose proof (P n); lra). lra. }
  apply G; [|exact Hi]. intros j. left. apply boltz_pos, Hq.
Qed.
Lemma boltz_cold : forall T q i b, 0 < T -> (b < length q)%nat -> boltzmann T q i <= exp (- ((nth b q 0 - nth i q 0) / T)).
Proof.
  intros T q i b HT Hb. assert (Hq : q <> []) by (intros ->; cbn in Hb; lia). rewrite (boltz_ratio T q i b Hq). pose proof (boltz_le_1 T q b Hb). pose proof (exp_pos (- ((nth b q 0 - nth i q 0) / T))).
  replace ((nth i q 0 - nth b q 0) / T) with (- ((nth b q 0 - nth i q 0) / T)) by (field; lra). nra.
Qed.
Lemma boltz_hot : forall T q d i, 0 < T -> (forall x y, In x q -> In y q -> x - y <= d) -> (i < length q)%nat -> exp (- (d / T)) / INR (length q) <= boltzmann T q i <= exp (d / T) / INR (length q).
Proof.
  intros T q d i HT D Hi. assert (Hq : q <> []) by (intros ->; cbn in Hi; lia). assert (N : 0 < INR (length q)) by (apply lt_0_INR; lia).
  assert (I : In (nth i q 0) q) by (apply nth_In, Hi). pose proof (boltz_pos T q i Hq) as P.
  assert (MON : forall a b, a <= b -> exp (a / T) <= exp (b / T)). { intros a b [L| ->]; [left; apply exp_increasing; unfold Rdiv; apply Rmult_lt_compat_r; [apply Rinv_0_lt_compat, HT|exact L]|right; reflexivity]. }
  assert (G : forall n, (n <= length q)%nat -> INR n * (boltzmann T q i * exp (- (d / T))) <= sum_below n (boltzmann T q) <= INR n * (boltzmann T q i * exp (d / T))).
  { induction n as [|n IH]; intros Hn; [cbn; lra|]. cbn [sum_below]. rewrite S_INR. specialize (IH ltac:(lia)). assert (In (nth n q 0) q) by (apply nth_In; lia).
    rewrite (boltz_ratio T q n i Hq). assert (exp (- (d / T)) <= exp ((nth n q 0 - nth i q 0) / T) <= exp (d / T)). { split; [replace (- (d / T)) with ((- d) / T) by (field; lra)|]; apply MON; [pose proof (D _ _ I H); lra|apply D; assumption]. } nra. }
  specialize (G (length q) (Nat.le_refl _)). rewrite (boltz_sum T q Hq) in G. pose proof (exp_pos (d / T)) as E1. pose proof (exp_Ropp (d / T)) as E2.
  assert (E3 : exp (d / T) * exp (- (d / T)) = 1) by (rewrite E2; field; lra). pose proof (exp_pos (- (d / T))) as E4. split.
  - apply (Rmult_le_reg_r (INR (length q))); [exact N|]. replace (exp (- (d / T)) / INR (length q) * INR (length q)) with (exp (- (d / T))) by (field; lra). destruct G as [_ G2]. apply (Rmult_le_reg_r (exp (d / T))); [exact E1|]. nra.
  - apply (Rmult_le_reg_r (INR (length q))); [exact N|]. replace (exp (d / T) / INR (length q) * INR (length q)) with (exp (d / T)) by (field; lra). destruct G as [G1 _]. apply (Rmult_le_reg_r (exp (- (d / T)))); [exact E4|]. nra.
Qed.
Lemma boltz_shift : forall T q c i, (i < length q)%nat -> boltzmann T (map (Rplus c) q) i = boltzmann T q i.
Proof.
  intros T q c i Hi. assert (Hq : q <> []) by (intros ->; cbn in Hi; lia). unfold boltzmann. rewrite (nth_indep _ 0 (c + 0)) by (rewrite map_length; exact Hi). rewrite (map_nth (Rplus c)).
  assert (E : forall v, exp ((c + v) / T) = exp (c / T) * exp (v / T)) by (intros v; rewrite <- exp_plus; f_equal; unfold Rdiv; ring). rewrite E.
  assert (G : forall l, total_of (fun v => exp (v / T)) (map (Rplus c) l) = exp (c / T) * total_of (fun v => exp (v / T)) l). { induction l as [|x l IH]; unfold total_of in *; cbn; [ring|]. rewrite IH, E. ring. }
  rewrite G. pose proof (exp_pos (c / T)). pose proof (exp_sum_pos T q Hq). field. lra.
Qed.
Lemma rejects : forall T u, select_action T NoValue u = Raise AssertionError /\ select_action T OtherValue u = Raise AssertionError /\
  (forall rows, select_action 0 (DiscreteValue rows) u = Raise ValueError) /\
  (forall rows n, (0 < n)%nat -> (forall r, In r rows -> length r = n) -> length rows <> 1%nat -> rows <> [] -> select_action T (DiscreteValue rows) u = Raise ValueError).
Proof.
  intros T u. split; [reflexivity|]. split; [reflexivity|]. split; [intros; cbn; destruct (Req_EM_T 0 0); congruence|]. intros rows n Hn L R1 R0. unfold select_action. destruct (Req_EM_T T 0); [reflexivity|].
  unfold choice. assert (E : forall l, (forall r, In r l -> length r = n) -> length (concat (map (fun row => softmax (map (fun q => q / T) row)) l)) = (length l * n)%nat).
  { induction l as [|r l IH]; intros H; [reflexivity|]. cbn [map concat length]. rewrite app_length, softmax_len, map_length, IH, (H r (or_introl eq_refl)) by (intros; apply H; right; assumption). lia. }
  rewrite E by exact L. destruct rows as [|r rows]; [congruence|]. cbn [hd]. rewrite (L r (or_introl eq_refl)). destruct (Nat.eqb_spec (length (r :: rows) * n) n) as [Q|Q]; [|reflexivity]. exfalso. cbn [length] in *. nia.
Qed.
