From Coq Require Import QArith Qreals Lqa Reals List Arith Bool Lia Lra.
From Verif Require Import Base.PyBase Model.Categorical Model.Distributions Model.Targets Model.PPOLoss Model.CategoricalLoss Spec.SumSpec Spec.WrapperSpec Spec.CategoricalSpec Spec.PolicyGradientSpec Spec.BellmanSpec Spec.CategoricalLearningSpec.
From Verif Require Import Proofs.QSumFacts Proofs.CategoricalProofs Proofs.RSumFacts Proofs.DistributionProofs Proofs.BellmanProofs Proofs.A2CProofs.
Import ListNotations.
Local Open Scope nat_scope.

(** ** Mixtures. *)
Lemma expect_nth : forall f z d, length d = length z ->
  (expect f (combine z d) == qsum (map (fun i => nth i d 0 * f (nth i z 0)) (seq 0 (length z))))%Q.
Proof.
  intros f z. induction z as [|x z IH]; intros [|p d] L; try discriminate; [reflexivity|].
  unfold expect in *. cbn [combine map length seq fst snd nth]. rewrite !qsum_cons, IH by (cbn in L; lia).
  rewrite <- seq_shift, map_map. apply Qplus_comp; [reflexivity|]. apply qsum_ext. intros. reflexivity.
Qed.
Lemma mixture_length : forall n ps rows, length (mixture n ps rows) = n.
Proof. intros. unfold mixture. rewrite map_length, seq_length. reflexivity. Qed.
Lemma mixture_nth : forall n ps rows i, i < n -> nth i (mixture n ps rows) 0%Q = qsum (map (fun pr => fst pr * nth i (snd pr) 0)%Q (combine ps rows)).
Proof.
  intros n ps rows i Hi. unfold mixture. set (f := fun i => qsum _). rewrite (nth_indep _ 0%Q (f 0)) by (rewrite map_length, seq_length; assumption).
  rewrite map_nth, seq_nth by assumption. reflexivity.
Qed.
Lemma mixture_expect : forall f z ps rows, (forall r, In r rows -> length r = length z) ->
  (expect f (combine z (mixture (length z) ps rows)) == qsum (map (fun pr => fst pr * expect f (combine z (snd pr))) (combine ps rows)))%Q.
Proof.
  intros f z ps rows L. rewrite expect_nth by apply mixture_length.
  rewrite (qsum_ext _ (fun i => qsum (map (fun pr => fst pr * (nth i (snd pr) 0 * f (nth i z 0))) (combine ps rows)))%Q).
  2: { intros i Hi. apply in_seq in Hi. rewrite mixture_nth by lia. rewrite Qmult_comm, <- qsum_scale. apply qsum_ext. intros. ring. }
  rewrite qsum_swap. apply qsum_ext. intros [p r] Hin. cbn [fst snd]. rewrite qsum_scale. rewrite expect_nth by (apply L; eapply in_combine_r; eassumption). reflexivity.
Qed.
Lemma expect_one : forall z d, length d = length z -> (expect (fun _ => 1) (combine z d) == qsum d)%Q.
Proof.
  intros z. induction z as [|x z IH]; intros [|p d] L; try discriminate; [reflexivity|].
  unfold expect in *. cbn [combine map fst snd]. rewrite !qsum_cons, IH by (cbn in L; lia). ring.
Qed.
Lemma expect_le : forall f g z d, (forall p, In p d -> 0 <= p)%Q -> (forall v, In v z -> f v <= g v)%Q -> (expect f (combine z d) <= expect g (combine z d))%Q.
Proof.
  intros f g z d Hd H. unfold expect. apply qsum_le. intros [v p] Hin. cbn [fst snd].
  pose proof (in_combine_l _ _ _ _ Hin). pose proof (in_combine_r _ _ _ _ Hin).
  rewrite (Qmult_comm p), (Qmult_comm p). apply Qmult_le_compat_r; [apply H|apply Hd]; assumption.
Qed.
Lemma expect_const : forall c z d, length d = length z -> (expect (fun _ => c) (combine z d) == c * qsum d)%Q.
Proof.
  intros c z d L. rewrite <- (expect_one z d L). unfold expect. rewrite <- qsum_scale. apply qsum_ext. intros. ring.
Qed.
Lemma q2r_sum : forall A (f : A -> Q) l, Q2R (qsum (map f l)) = total_of (fun x => Q2R (f x)) l.
Proof.
  intros A f l. induction l as [|x l IH]; [unfold Q2R; cbn; lra|]. cbn [map]. rewrite tot_cons, <- IH, <- Q2R_plus. reflexivity.
Qed.
Lemma forall2_nth_intro : forall A B (P : A -> B -> Prop) l l', length l = length l' ->
  (forall i x, nth_error l i = Some x -> exists y, nth_error l' i = Some y /\ P x y) -> Forall2 P l l'.
Proof.
  intros A B P l. induction l as [|x l IH]; intros [|y l'] L H; try discriminate; constructor.
  - destruct (H 0 x eq_refl) as (y' & E & HP). injection E as <-. assumption.
  - apply IH; [cbn in L; lia|]. intros i x' Hi. apply (H (S i)). assumption.
Qed.
Lemma forall2_total : forall A B (P : A -> B -> Prop) (p : A -> Q) (g : Q -> B -> R) (h : A -> R) l l', Forall2 P l l' ->
  (forall x y, In x l -> P x y -> g (p x) y = h x) -> total_of (fun pr => g (fst pr) (snd pr)) (combine (map p l) l') = total_of h l.
Proof.
  intros A B P p g h l l' F. induction F as [|x y l l' HP F IH]; intros H; [reflexivity|]. cbn [map combine]. rewrite !tot_cons. cbn [fst snd].
  rewrite (H x y (or_introl eq_refl) HP), IH; [reflexivity|]. intros x' y' Hin. apply H. right. assumption.
Qed.
Lemma max_is : forall q x, In x q -> (forall y, In y q -> (y <= x)%R) -> q_maximum q = x.
Proof.
  intros q x Hin H. assert (NE : q <> []) by (intros ->; destruct Hin). destruct (greedy_row q NE) as (G1 & G2 & G3).
  apply Rle_antisym; [rewrite <- G2; apply H, nth_In; assumption|]. destruct (In_nth _ _ 0%R Hin) as (i & Hi & <-). apply G3. assumption.
Qed.

(** ** The cross entropy. *)
Lemma clip_up : forall y, (0 <= y -> 0 < clip y (/ 10 ^ 10) 1 <= y + / 10 ^ 10)%R.
Proof.
  intros y Hy. assert (0 < / 10 ^ 10 < 1)%R as [P Q] by lra. unfold clip. split; [apply Rmin_glb_lt; [|lra]; eapply Rlt_le_trans; [exact P|apply Rmax_r]|].
  eapply Rle_trans; [apply Rmin_l|]. apply Rmax_lub; lra.
Qed.
Lemma clip_down : forall t, (0 <= t <= 1 -> t <= clip t (/ 10 ^ 10) 1)%R.
Proof. intros t Ht. unfold clip. apply Rmin_glb; [apply Rmax_l|lra]. Qed.
Lemma atom_gibbs : forall y t, (0 <= y -> 0 <= t <= 1 -> atom_loss t t <= atom_loss y t + (y + / 10 ^ 10 - t))%R.
Proof.
  intros y t Hy Ht. unfold atom_loss. destruct (clip_up y Hy) as [U1 U2]. pose proof (gibbs_term t _ (proj1 Ht) U1) as G.
  assert (D : (t * ln t <= t * ln (clip t (/ 10 ^ 10) 1))%R).
  { destruct (proj1 Ht) as [P|<-]; [|lra]. apply Rmult_le_compat_l; [lra|]. pose proof (clip_down t Ht) as [C|C]; [left; apply ln_increasing; lra|rewrite <- C; lra]. }
  lra.
Qed.
Lemma row_gibbs : forall n y t, length y = n -> length t = n -> (forall p, In p y -> 0 <= p)%R -> (forall p, In p t -> 0 <= p <= 1)%R ->
  (row_cross_entropy t t <= row_cross_entropy y t + (fsum y + INR n / 10 ^ 10 - fsum t))%R.
Proof.
  unfold row_cross_entropy. induction n as [|n IH]; intros [|u y] [|x t] Ly Lt Hy Ht; try discriminate; [cbn; lra|].
  assert (C : forall x l, fsum (x :: l) = (x + fsum l)%R) by reflexivity. assert (Z : forall (f : R -> R -> R) u y x t, zipr f (u :: y) (x :: t) = f u x :: zipr f y t) by reflexivity.
  rewrite !Z, !C, S_INR.
  specialize (IH y t ltac:(cbn in Ly; lia) ltac:(cbn in Lt; lia) (fun p Hp => Hy p (or_intror Hp)) (fun p Hp => Ht p (or_intror Hp))).
  pose proof (atom_gibbs u x (Hy u (or_introl eq_refl)) (Ht x (or_introl eq_refl))). unfold Rdiv in *. lra.
Qed.
Lemma gibbs_rows : forall n y t, length y = n -> length t = n -> (forall p, In p y -> 0 <= p)%R -> (forall p, In p t -> 0 <= p)%R -> fsum y = 1%R -> fsum t = 1%R ->
  (row_cross_entropy t t <= row_cross_entropy y t + INR n / 10 ^ 10)%R.
Proof.
  intros n y t Ly Lt Hy Ht Sy St. pose proof (row_gibbs n y t Ly Lt Hy) as G. rewrite Sy, St in G.
  assert (T : forall p, In p t -> (0 <= p <= 1)%R); [|specialize (G T); lra]. intros p Hp. split; [auto|]. rewrite <- St, fsum_total. apply (tot_ge_one (fun x => x)); assumption.
Qed.

Section Learn.
  Context {St : Type} (m : qmdp St) (z : list Q) (gamma : Q) (final : St) (v0 dz : Q).
  Hypothesis HZ : evenly_spaced v0 dz z.
  Hypothesis HP : q_proper m.
  Let vmax := atom v0 dz (length z - 1).

  Lemma atoms_in : forall v, In v z -> (v0 <= v /\ v <= vmax)%Q.
  Proof.
    intros v Hv. destruct HZ as (Hd & Hl & H). apply In_nth_error in Hv. destruct Hv as (i & Hi). pose proof (H i v Hi) as E. unfold vmax, atom in *.
    assert (i < length z) by (apply nth_error_Some; congruence).
    assert (A : (0 <= inject_Z (Z.of_nat i))%Q) by (unfold inject_Z, Qle; cbn; lia).
    assert (B : (inject_Z (Z.of_nat i) <= inject_Z (Z.of_nat (length z - 1)))%Q) by (unfold inject_Z, Qle; cbn; lia).
    rewrite E. split.
    - pose proof (Qmult_le_0_compat _ dz A ltac:(Lqa.lra)). Lqa.lra.
    - pose proof (Qmult_le_compat_r _ _ dz B ltac:(Lqa.lra)). Lqa.lra.
  Qed.
  Lemma mean_in : forall d, prob_row z d -> (v0 <= meanv z d /\ meanv z d <= vmax)%Q.
  Proof.
    intros d (L & N & S). unfold meanv. split.
    - apply Qle_trans with (expect (fun _ => v0) (combine z d)); [rewrite expect_const, S by assumption; Lqa.lra|]. apply expect_le; [assumption|]. intros v Hv. apply (atoms_in v Hv).
    - apply Qle_trans with (expect (fun _ => vmax) (combine z d)); [|rewrite expect_const, S by assumption; Lqa.lra]. apply expect_le; [assumption|]. intros v Hv. apply (atoms_in v Hv).
  Qed.

  Definition good_target (D : St -> list (list Q)) (o : Q * Q * option St) (r : list Q) : Prop :=
    prob_row z r /\ exists d, In d (D (lands final o)) /\ (forall d', In d' (D (lands final o)) -> meanv z d' <= meanv z d)%Q /\
    (meanv z r == expect (fun v => qclamp v0 vmax (CategoricalSpec.backup (experience gamma o) v)) (combine z d))%Q /\
    ((forall v, In v z -> v0 <= CategoricalSpec.backup (experience gamma o) v /\ CategoricalSpec.backup (experience gamma o) v <= vmax)%Q ->
     (meanv z r == CategoricalSpec.backup (experience gamma o) (meanv z d))%Q).
  Lemma targets_good : forall D s a, dist_table m z D -> exists rows, targets m z gamma final D s a = Ok rows /\ Forall2 (good_target D) (q_outcomes m s a) rows.
  Proof.
    intros D s a HD. unfold targets.
    destruct (@target_spec v0 dz z (map (experience gamma) (q_outcomes m s a)) (map (fun o => D (lands final o)) (q_outcomes m s a)) HZ) as (out & E & L & H).
    - rewrite !map_length. reflexivity.
    - intros qd Hin. apply in_map_iff in Hin. destruct Hin as (o & <- & _). destruct (HD (lands final o)) as (L & Hd). split.
      + intros E. rewrite E in L. cbn in L. destruct HP as (A & _). lia.
      + intros d Hin. apply (Hd d Hin).
    - exists out. split; [exact E|]. rewrite map_length in L. apply forall2_nth_intro; [congruence|]. intros i o Hi.
      destruct (H i (experience gamma o) (D (lands final o))) as (k & d & r & Hk & Hmax & Hr & Lr & Sr & Mr & Nr & Br).
      + rewrite nth_error_map, Hi. reflexivity.
      + rewrite nth_error_map, Hi. reflexivity.
      + assert (Hin : In d (D (lands final o))) by (eapply nth_error_In; eassumption).
        destruct (HD (lands final o)) as (_ & Hd). destruct (Hd d Hin) as (Ld & Nd & Sd).
        exists r. split; [exact Hr|]. split.
        * split; [assumption|]. split; [apply Nr; assumption|]. rewrite Sr. exact Sd.
        * exists d. split; [assumption|]. split; [assumption|]. split; [exact Mr|]. intros C. apply Br; [exact Sd|exact C].
  Qed.
  Lemma fit_nth : forall D s a, a < q_actions m -> dist_table m z D -> exists rows, targets m z gamma final D s a = Ok rows /\ Forall2 (good_target D) (q_outcomes m s a) rows /\
    nth a (fit m z gamma final D s) [] = mixture (length z) (map (fun o => fst (fst o)) (q_outcomes m s a)) rows.
  Proof.
    intros D s a Ha HD. destruct (targets_good D s a HD) as (rows & E & F). exists rows. split; [assumption|]. split; [assumption|]. unfold fit.
    set (f := fun a => match targets m z gamma final D s a with Ok rows => _ | Raise _ => _ end). rewrite (nth_indep _ [] (f 0)) by (rewrite map_length, seq_length; assumption).
    rewrite map_nth, seq_nth by assumption. cbn [Nat.add]. unfold f. rewrite E. reflexivity.
  Qed.
  Lemma rows_len : forall D l rows, Forall2 (good_target D) l rows -> forall r, In r rows -> prob_row z r.
  Proof. intros D l rows F r Hr. destruct (Forall2_in_r F r Hr) as (o & _ & G). apply G. Qed.
  Lemma forall2_qsum : forall D l rows (p : _ -> Q), Forall2 (good_target D) l rows -> (qsum (map (fun pr => fst pr * 1) (combine (map p l) rows)) == qsum (map p l))%Q.
  Proof.
    intros D l rows p F. induction F as [|o r l rows G F IH]; [reflexivity|]. cbn [map combine]. rewrite !qsum_cons, IH. cbn [fst]. ring.
  Qed.
  Lemma fit_table : forall D, dist_table m z D -> dist_table m z (fit m z gamma final D).
  Proof.
    intros D HD s. split; [unfold fit; rewrite map_length, seq_length; reflexivity|]. intros d Hd.
    destruct (In_nth _ _ [] Hd) as (a & Ha & Hn). rewrite <- Hn. unfold fit in Ha. rewrite map_length, seq_length in Ha.
    destruct (fit_nth D s a Ha HD) as (rows & E & F & ->). pose proof (rows_len _ _ _ F) as RL. destruct HP as (_ & HPs). destruct (HPs s a) as (SP & NP).
    split; [apply mixture_length|]. split.
    - intros p Hp. unfold mixture in Hp. apply in_map_iff in Hp. destruct Hp as (i & <- & Hi). apply qsum_nonneg. intros x Hx. apply in_map_iff in Hx. destruct Hx as ([q r] & <- & Hin). cbn [fst snd].
      pose proof (in_combine_l _ _ _ _ Hin) as Hq. apply in_map_iff in Hq. destruct Hq as (o & <- & Ho). destruct (RL r (in_combine_r _ _ _ _ Hin)) as (Lr & Nr & _).
      apply Qmult_le_0_compat; [apply NP; assumption|]. apply in_seq in Hi. apply Nr. apply nth_In. lia.
    - rewrite <- (expect_one z) by apply mixture_length. rewrite mixture_expect by (intros r Hr; apply (RL r Hr)).
      rewrite (qsum_ext _ (fun pr => fst pr * 1)%Q); [rewrite (forall2_qsum D _ _ _ F); exact SP|].
      intros [p r] Hin. cbn [fst snd]. destruct (RL r (in_combine_r _ _ _ _ Hin)) as (Lr & _ & Sr). rewrite expect_one, Sr by assumption. reflexivity.
  Qed.
  Lemma refit_table : forall k D, dist_table m z D -> dist_table m z (refit m z gamma final k D).
  Proof. induction k as [|k IH]; intros D HD; [exact HD|]. cbn [refit]. apply fit_table, IH, HD. Qed.

  (** The means of the fit. *)
  Lemma fit_mean : forall D s a, a < q_actions m -> dist_table m z D -> exists rows, Forall2 (good_target D) (q_outcomes m s a) rows /\
    Q2R (meanv z (nth a (fit m z gamma final D s) [])) = total_of (fun pr => (Q2R (fst pr) * Q2R (meanv z (snd pr)))%R) (combine (map (fun o => fst (fst o)) (q_outcomes m s a)) rows).
  Proof.
    intros D s a Ha HD. destruct (fit_nth D s a Ha HD) as (rows & E & F & ->). exists rows. split; [assumption|].
    assert (M : (meanv z (mixture (length z) (map (fun o => fst (fst o)) (q_outcomes m s a)) rows) == qsum (map (fun pr => fst pr * meanv z (snd pr)) (combine (map (fun o => fst (fst o)) (q_outcomes m s a)) rows)))%Q)
      by (unfold meanv; apply mixture_expect; intros r Hr; apply (rows_len _ _ _ F r Hr)).
    rewrite (Qeq_eqR _ _ M), q2r_sum. apply tot_ext. intros. apply Q2R_mult.
  Qed.
  Lemma means_nth : forall D s a, dist_table m z D -> a < q_actions m -> nth a (means z D s) 0%R = Q2R (meanv z (nth a (D s) [])).
  Proof.
    intros D s a HD Ha. unfold means. rewrite (nth_indep _ 0%R ((fun d => Q2R (meanv z d)) [])) by (rewrite map_length; destruct (HD s) as [-> _]; assumption). exact (map_nth (fun d => Q2R (meanv z d)) (D s) [] a).
  Qed.
  Lemma means_max : forall (D : St -> list (list Q)) s d, In d (D s) -> (forall d', In d' (D s) -> meanv z d' <= meanv z d)%Q -> q_maximum (means z D s) = Q2R (meanv z d).
  Proof.
    intros D s d Hin H. apply max_is; [unfold means; apply in_map_iff; eauto|]. intros y Hy. unfold means in Hy. apply in_map_iff in Hy. destruct Hy as (d' & <- & Hd'). apply Qle_Rle. auto.
  Qed.
  Lemma backup_real : forall (o : Q * Q * option St) v, Q2R (CategoricalSpec.backup (experience gamma o) v) = td_row (Q2R (snd (fst o))) (Q2R gamma) (match snd o with None => true | Some _ => false end) (Q2R v).
  Proof.
    intros [[p r] [s'|]] v; unfold CategoricalSpec.backup, experience, td_row; cbn [c_reward c_terminal c_discount snd fst]; rewrite Q2R_plus, Q2R_mult; [|replace (Q2R 0) with 0%R by (unfold Q2R; cbn; lra)]; cbn; ring.
  Qed.
  Lemma means_fit : forall D s, closed_support m z gamma v0 vmax -> dist_table m z D -> means z (fit m z gamma final D) s = backup (real m) (Q2R gamma) final (fun _ => q_maximum) (means z D) s.
  Proof.
    intros D s C HD. apply (nth_ext _ _ 0%R 0%R).
    - unfold means, fit, backup. rewrite !map_length, !seq_length. reflexivity.
    - intros a Ha. unfold means in Ha. rewrite map_length in Ha. destruct (fit_table D HD s) as [Lf _]. rewrite Lf in Ha.
      rewrite means_nth by (try apply fit_table; assumption). unfold backup. rewrite nth_map_seq by exact Ha.
      destruct (fit_mean D s a Ha HD) as (rows & F & ->). unfold lookahead, real. cbn [outcomes]. rewrite tot_map.
      apply (forall2_total _ _ _ (fun o => fst (fst o)) (fun p r => Q2R p * Q2R (meanv z r))%R _ _ _ F).
      intros o r Ho (Pr & d & Hd & Hmax & _ & B). unfold o_prob, o_reward, ended, arrives. cbn [fst snd]. f_equal.
      rewrite (Qeq_eqR _ _ (B (fun v Hv => C s a o v Ha Ho Hv))), backup_real. unfold lands in *. destruct (snd o) as [s'|]; rewrite (means_max D _ d Hd Hmax); reflexivity.
  Qed.
  Lemma means_refit : forall k D s, closed_support m z gamma v0 vmax -> dist_table m z D -> means z (refit m z gamma final k D) s = iterate (backup (real m) (Q2R gamma) final (fun _ => q_maximum)) k (means z D) s.
  Proof.
    induction k as [|k IH]; intros D s C HD; [reflexivity|]. cbn [refit iterate]. rewrite means_fit by (try apply refit_table; assumption).
    unfold backup. apply map_ext. intros a. unfold lookahead. apply tot_ext. intros o _. rewrite IH by assumption. reflexivity.
  Qed.
  Lemma means_in : forall D s a, dist_table m z D -> a < q_actions m -> (Q2R v0 <= nth a (means z D s) 0 <= Q2R vmax)%R.
  Proof.
    intros D s a HD Ha. rewrite means_nth by assumption. destruct (HD s) as [L Hd]. assert (I : In (nth a (D s) []) (D s)) by (apply nth_In; rewrite L; assumption). destruct (mean_in _ (Hd _ I)). split; apply Qle_Rle; assumption.
  Qed.

  (** Convergence. *)
  Lemma real_proper : forall b, (forall s a o, In o (q_outcomes m s a) -> Rabs (Q2R (snd (fst o))) <= b)%R -> regular (real m) b.
  Proof.
    intros b B. destruct HP as (A & H). split; [|split; [exact A|]].
    - intros s a. unfold real. cbn [outcomes]. rewrite tot_map. unfold o_prob. cbn [fst]. rewrite <- (q2r_sum _ (fun o => fst (fst o))). rewrite (Qeq_eqR _ _ (proj1 (H s a))). unfold Q2R. cbn. lra.
    - intros s a o Ho. unfold real in Ho. cbn [outcomes] in Ho. apply in_map_iff in Ho. destruct Ho as (o' & <- & Ho'). unfold o_prob, o_reward. cbn [fst snd]. split; [|apply (B s a o' Ho')].
      replace 0%R with (Q2R 0) by (unfold Q2R; cbn; lra). apply Qle_Rle, (proj2 (H s a) o' Ho').
  Qed.
  Section Converge.
    Variable b : R.
    Hypothesis B : forall s a o, In o (q_outcomes m s a) -> (Rabs (Q2R (snd (fst o))) <= b)%R.
    Hypothesis HG : (0 <= gamma /\ gamma < 1)%Q.
    Hypothesis HC : closed_support m z gamma v0 vmax.
    Let M := real m.
    Let g := Q2R gamma.
    Lemma g_range : (0 <= g < 1)%R.
    Proof.
      unfold g. replace 0%R with (Q2R 0) by (unfold Q2R; cbn; lra). replace 1%R with (Q2R 1) by (unfold Q2R; cbn; lra). split; [apply Qle_Rle|apply Qlt_Rlt]; apply HG.
    Qed.
    Lemma optimal_table : forall v, optimal_value M g final v -> let Qv := fun s => map (lookahead M g final v s) (seq 0 (n_actions M)) in
      table M Qv /\ forall s, backup M g final (fun _ => q_maximum) Qv s = Qv s.
    Proof.
      intros v [_ O] Qv. split; [intros s; unfold Qv; rewrite map_length, seq_length; reflexivity|]. intros s. unfold Qv at 2. unfold backup. apply map_ext_in. intros a Ha.
      unfold lookahead. apply tot_ext. intros o Ho. f_equal. f_equal. unfold Qv. destruct (O (arrives final o)) as (U & a' & Ha' & E). rewrite E. apply max_is.
      - apply in_map_iff. exists a'. split; [reflexivity|]. apply in_seq. lia.
      - intros y Hy. apply in_map_iff in Hy. destruct Hy as (a'' & <- & Hy). apply in_seq in Hy. rewrite <- E. apply U. lia.
    Qed.
    Lemma table_means : forall D, dist_table m z D -> table M (means z D).
    Proof. intros D HD s. unfold means. rewrite map_length. apply HD. Qed.
    Lemma learns_some : forall v D, optimal_value M g final v -> dist_table m z D -> exists d, forall k, within M (g ^ k * d) (means z (refit m z gamma final k D)) (fun s => map (lookahead M g final v s) (seq 0 (n_actions M))).
    Proof.
      intros v D O HD. destruct (optimal_table v O) as (T & F). destruct O as [[c Hc] O]. set (Qv := fun s => map (lookahead M g final v s) (seq 0 (n_actions M))) in *.
      exists (Rabs (Q2R v0) + Rabs (Q2R vmax) + (b + g * c))%R. intros k s a Ha.
      assert (W : within M (Rabs (Q2R v0) + Rabs (Q2R vmax) + (b + g * c)) (means z D) Qv).
      { intros s' a' Ha'. pose proof (means_in D s' a' HD Ha') as I. unfold Qv. rewrite nth_map_seq by assumption.
        pose proof (look_bound M g final b g_range (real_proper b B) v c s' a') as LB.
        specialize (LB ltac:(pose proof (Rabs_pos (v s')); pose proof (Hc s'); lra) Hc). pose proof (Rabs_triang (nth a' (means z D s') 0%R) (- lookahead M g final v s' a')) as TR. rewrite Rabs_Ropp in TR. unfold Rminus.
        assert (Rabs (nth a' (means z D s') 0) <= Rabs (Q2R v0) + Rabs (Q2R vmax))%R; [|lra].
        pose proof (Rabs_pos (Q2R v0)). pose proof (Rabs_pos (Q2R vmax)). pose proof (Rle_abs (Q2R vmax)). pose proof (Rle_abs (- Q2R v0)) as Q0. rewrite Rabs_Ropp in Q0. apply Rabs_le. lra. }
      rewrite means_refit by assumption.
      exact (to_fixpoint M g final b g_range (real_proper b B) (fun _ => q_maximum) (means z D) Qv _ k (fun _ => max_nonexpansive _ (proj1 HP)) (table_means D HD) T F W s a Ha).
    Qed.
    (** The optimal action values are between the ends of the support. *)
    Lemma optimal_in : forall v D s a, optimal_value M g final v -> dist_table m z D -> a < q_actions m -> (Q2R v0 <= lookahead M g final v s a <= Q2R vmax)%R.
    Proof.
      intros v D s a O HD Ha. destruct (learns_some v D O HD) as (d & W).
      assert (I : forall k, (Q2R v0 - lookahead M g final v s a <= g ^ k * d /\ lookahead M g final v s a - Q2R vmax <= g ^ k * d)%R).
      { intros k. pose proof (W k s a Ha) as Wk. cbv beta in Wk. rewrite nth_map_seq in Wk by exact Ha. apply abs_out in Wk. pose proof (means_in _ s a (refit_table k D HD) Ha). lra. }
      pose proof (geo_zero g d _ g_range (fun k => proj1 (I k))). pose proof (geo_zero g d _ g_range (fun k => proj2 (I k))). lra.
    Qed.
    Lemma learns : forall v D k s a, optimal_value M g final v -> dist_table m z D -> a < q_actions m ->
      (Rabs (nth a (means z (refit m z gamma final k D) s) 0 - lookahead M g final v s a) <= g ^ k * (Q2R vmax - Q2R v0))%R.
    Proof.
      intros v D k s a O HD Ha. destruct (optimal_table v O) as (T & F). set (Qv := fun s => map (lookahead M g final v s) (seq 0 (n_actions M))) in *.
      assert (W : within M (Q2R vmax - Q2R v0) (means z D) Qv).
      { intros s' a' Ha'. unfold Qv. rewrite nth_map_seq by assumption. pose proof (means_in D s' a' HD Ha'). pose proof (optimal_in v D s' a' O HD Ha'). apply Rabs_le. lra. }
      rewrite means_refit by assumption.
      pose proof (to_fixpoint M g final b g_range (real_proper b B) (fun _ => q_maximum) (means z D) Qv _ k (fun _ => max_nonexpansive _ (proj1 HP)) (table_means D HD) T F W s a Ha) as R.
      unfold Qv in R. rewrite nth_map_seq in R by exact Ha. exact R.
    Qed.
    Lemma learned_policy : forall v D j w d k s, optimal_value M g final v -> dist_table m z D -> (0 <= d)%R -> (forall s, v s - d <= w s)%R ->
      (v s - 2 * (g ^ j * (Q2R vmax - Q2R v0)) / (1 - g) - g ^ k * d <= expected_return M g w (greedy_policy (means z (refit m z gamma final j D))) k s)%R.
    Proof.
      intros v D j w d k s O HD Hd Hw. apply (greedy_near M g final b g_range (real_proper b B) v (means z (refit m z gamma final j D)) (g ^ j * (Q2R vmax - Q2R v0)) w d k s O).
      - apply table_means, refit_table, HD.
      - apply Rmult_le_pos; [apply pow_le; apply g_range|]. pose proof (means_in D s 0 HD (proj1 HP)). lra.
      - exact Hd.
      - intros s' a Ha. apply learns; assumption.
      - exact Hw.
    Qed.
  End Converge.

  (** Rewards bounded by (1 - gamma) times the ends of the support. *)
  Lemma support : forall c, (0 <= gamma /\ gamma < 1)%Q -> (c <= (1 - gamma) * vmax)%Q -> ((1 - gamma) * v0 <= - c)%Q -> (0 <= c)%Q ->
    (forall s a o, a < q_actions m -> In o (q_outcomes m s a) -> (- c <= snd (fst o) /\ snd (fst o) <= c)%Q) -> closed_support m z gamma v0 vmax.
  Proof.
    intros c [G0 G1] H1 H2 Hc HR s a o v Ha Ho Hv. destruct (HR s a o Ha Ho) as [R1 R2]. destruct (atoms_in v Hv) as [V1 V2].
    pose proof (Qmult_le_compat_r _ _ gamma V1 G0) as P1. pose proof (Qmult_le_compat_r _ _ gamma V2 G0) as P2.
    assert (N0 : (v0 <= 0)%Q).
    { destruct (Qlt_le_dec 0 v0) as [P|]; [|assumption]. pose proof (Qmult_le_compat_r gamma 1 v0 ltac:(Lqa.lra) ltac:(Lqa.lra)) as P3. assert (0 < (1 - gamma) * v0)%Q; [|Lqa.lra]. apply Qmult_lt_0_compat; Lqa.lra. }
    assert (N1 : (0 <= vmax)%Q).
    { destruct (Qlt_le_dec vmax 0) as [P|]; [|assumption]. assert (0 < (1 - gamma) * - vmax)%Q by (apply Qmult_lt_0_compat; Lqa.lra). Lqa.lra. }
    pose proof (Qmult_le_0_compat _ _ G0 N1) as P3. assert (P4 : (0 <= gamma * - v0)%Q) by (apply Qmult_le_0_compat; Lqa.lra).
    unfold CategoricalSpec.backup, experience. cbn [c_reward c_terminal c_discount]. destruct (snd o); split; Lqa.lra.
  Qed.

  (** The loss. *)
  Lemma q_row_real : forall d, prob_row z d -> length (map Q2R d) = length z /\ (forall p, In p (map Q2R d) -> 0 <= p)%R /\ fsum (map Q2R d) = 1%R.
  Proof.
    intros d (L & N & S). split; [rewrite map_length; assumption|]. split.
    - intros p Hp. apply in_map_iff in Hp. destruct Hp as (q & <- & Hq). replace 0%R with (Q2R 0) by (unfold Q2R; cbn; lra). apply Qle_Rle. auto.
    - rewrite fsum_map. rewrite <- (q2r_sum _ (fun x => x)), map_id, (Qeq_eqR _ _ S). unfold Q2R. cbn. lra.
  Qed.
  Lemma average_loss_mix : forall D s a y, a < q_actions m -> dist_table m z D -> length y = length z ->
    average_loss m z gamma final D s a y = row_cross_entropy y (map Q2R (nth a (fit m z gamma final D s) [])).
  Proof.
    intros D s a y Ha HD Ly. destruct (fit_nth D s a Ha HD) as (rows & E & F & ->). unfold average_loss. rewrite E.
    set (l := combine _ rows). assert (L : forall p r, In (p, r) l -> length r = length z) by (intros p r Hin; apply (rows_len _ _ _ F r (in_combine_r _ _ _ _ Hin))).
    assert (N : forall t, length t = length z -> row_cross_entropy y (map Q2R t) = total_of (fun i => atom_loss (nth i y 0%R) (Q2R (nth i t 0%Q))) (seq 0 (length z))).
    { intros t Lt. unfold row_cross_entropy. rewrite <- Lt. assert (Lyt : length y = length t) by congruence. clear -Lyt. revert y Lyt. induction t as [|x t IH]; intros [|u y] Ly; try discriminate; [reflexivity|].
      cbn [map length seq]. rewrite tot_cons, <- seq_shift, tot_map. rewrite zipr_total. cbn [combine nth]. rewrite tot_cons, <- zipr_total, IH by (cbn in Ly; lia). reflexivity. }
    rewrite N by apply mixture_length.
    transitivity (total_of (fun pr => total_of (fun i => Q2R (fst pr) * atom_loss (nth i y 0%R) (Q2R (nth i (snd pr) 0%Q)))%R (seq 0 (length z))) l).
    { apply tot_ext. intros [p r] Hin. cbn [fst snd]. rewrite N, <- tot_scale by (apply (L p r Hin)). reflexivity. }
    transitivity (total_of (fun i => total_of (fun pr => Q2R (fst pr) * atom_loss (nth i y 0%R) (Q2R (nth i (snd pr) 0%Q)))%R l) (seq 0 (length z))).
    { clear. induction l as [|x l IH]; [symmetry; etransitivity; [apply (tot_const 0%R)|unfold total_of; cbn; ring]|]. rewrite tot_cons, IH. rewrite <- tot_add. apply tot_ext. intros. rewrite tot_cons. reflexivity. }
    apply tot_ext. intros i Hi. apply in_seq in Hi. rewrite mixture_nth by lia. fold l. rewrite q2r_sum. unfold atom_loss.
    transitivity (- ln (clip (nth i y 0%R) (/ 10 ^ 10) 1) * total_of (fun pr => Q2R (fst pr * nth i (snd pr) 0%Q)%Q) l)%R; [|ring]. rewrite <- tot_scale. apply tot_ext. intros. rewrite Q2R_mult. ring.
  Qed.
  Lemma best_fit : forall D s a y, a < q_actions m -> dist_table m z D -> length y = length z -> (forall p, In p y -> 0 <= p)%R -> fsum y = 1%R ->
    (average_loss m z gamma final D s a (map Q2R (nth a (fit m z gamma final D s) [])) <= average_loss m z gamma final D s a y + INR (length z) / 10 ^ 10)%R.
  Proof.
    intros D s a y Ha HD Ly Ny Sy.
    assert (P : prob_row z (nth a (fit m z gamma final D s) [])) by (destruct (fit_table D HD s) as [L H]; apply H, nth_In; rewrite L; assumption).
    destruct (q_row_real _ P) as (L & N & S). rewrite !average_loss_mix by assumption. apply gibbs_rows; assumption.
  Qed.
  Lemma terminal_mean : forall D o r, dist_table m z D -> snd o = None -> good_target D o r -> (meanv z r == qclamp v0 vmax (snd (fst o)))%Q.
  Proof.
    intros D o r HD Ho (_ & d & Hd & _ & M & _). destruct (HD (lands final o)) as [_ H]. destruct (H d Hd) as (L & N & S). rewrite M.
    transitivity (expect (fun _ => qclamp v0 vmax (snd (fst o))) (combine z d)).
    - unfold expect. apply qsum_ext. intros [v p] _. cbn [fst snd]. unfold CategoricalSpec.backup, experience. rewrite Ho. cbn [c_reward c_terminal c_discount].
      assert (E : (snd (fst o) + 0 * v == snd (fst o))%Q) by ring. unfold qclamp. rewrite E. reflexivity.
    - rewrite expect_const, S by assumption. ring.
  Qed.
End Learn.

(** ** A support that is too narrow. *)
Lemma bet_spaced : evenly_spaced 0 1 [0%Q; 1%Q].
Proof.
  split; [reflexivity|]. split; [cbn; lia|]. intros [|[|i]] x E; cbn in E; [injection E as <-; reflexivity|injection E as <-; reflexivity|destruct i; discriminate].
Qed.
Lemma bet_proper : q_proper bet.
Proof.
  split; [cbn; lia|]. intros s [|a]; (split; [reflexivity|]); intros o Ho; cbn in Ho; repeat (destruct Ho as [<-|Ho]; [cbn; discriminate|]); destruct Ho.
Qed.
Lemma bet_look : forall v, lookahead (real bet) (/ 2) tt v tt 0 = 1%R /\ lookahead (real bet) (/ 2) tt v tt 1 = (3 / 4)%R.
Proof. intros v. unfold lookahead, real, bet. cbn. unfold o_prob, o_reward, td_row, Q2R. cbn. split; lra. Qed.
Lemma bet_optimal : optimal_value (real bet) (/ 2) tt (fun _ => 1%R).
Proof.
  destruct (bet_look (fun _ => 1%R)) as [E0 E1]. split; [exists 1%R; intros; rewrite Rabs_R1; lra|]. intros []. split.
  - intros [|[|a]] Ha; [rewrite E0; lra|rewrite E1; lra|cbn in Ha; lia].
  - exists 0. split; [cbn; lia|]. symmetry. exact E0.
Qed.
Lemma bet_learned : forall D k, dist_table bet [0%Q; 1%Q] D -> 0 < k ->
  means [0%Q; 1%Q] (refit bet [0%Q; 1%Q] (1 # 2) tt k D) tt = [/ 2; 3 / 4]%R.
Proof.
  intros D [|k] HD Hk; [lia|]. cbn [refit]. set (z := [0%Q; 1%Q]) in *. set (D' := refit bet z (1 # 2) tt k D).
  assert (HD' : dist_table bet z D') by (apply (refit_table bet z (1 # 2) tt 0 1 bet_spaced bet_proper); assumption).
  pose proof (fit_table bet z (1 # 2) tt 0 1 bet_spaced bet_proper D' HD') as HF.
  pose proof (terminal_mean bet z (1 # 2) tt 0 1) as TM.
  apply (nth_ext _ _ 0%R 0%R).
  - unfold means. rewrite map_length. apply HF.
  - intros a Ha. unfold means in Ha. rewrite map_length in Ha. destruct (HF tt) as [L _]. rewrite L in Ha. cbn in Ha.
    rewrite (means_nth bet z) by assumption.
    destruct (fit_mean bet z (1 # 2) tt 0 1 bet_spaced bet_proper D' tt a Ha HD') as (rows & F & ->).
    destruct a as [|[|a]]; [| |lia]; cbn [q_outcomes bet] in *.
    + inversion F as [|o1 r1 ? ? G1 F1]; subst. inversion F1 as [|o2 r2 ? ? G2 F2]; subst. inversion F2; subst. cbn [map combine fst snd].
      rewrite !tot_cons. cbn [fst snd]. rewrite (Qeq_eqR _ _ (TM D' _ _ HD' (eq_refl : snd (_, _, None) = None) G1)), (Qeq_eqR _ _ (TM D' _ _ HD' (eq_refl : snd (_, _, None) = None) G2)). unfold total_of, Q2R. cbn. lra.
    + inversion F as [|o1 r1 ? ? G1 F1]; subst. inversion F1; subst. cbn [map combine fst snd].
      rewrite !tot_cons. cbn [fst snd]. rewrite (Qeq_eqR _ _ (TM D' _ _ HD' (eq_refl : snd (_, _, None) = None) G1)). unfold total_of, Q2R. cbn. lra.
Qed.

(** ** The losses of a batch. *)
Lemma losses : forall y t w acc, length y = length t ->
  let '(loss, errors) := c_compute_loss y t w acc in
  errors = map (fun p => row_cross_entropy (fst p) (snd p)) (combine y t) /\
  loss = (match w with None => fsum errors | Some w => fsum (zipr Rmult errors w) end / match acc with Mean => INR (length y) | Sum => 1 end)%R.
Proof.
  intros y t w acc L. unfold c_compute_loss. split; [reflexivity|]. destruct w as [w|]; [unfold c_weighted_loss; destruct acc; [reflexivity|field]|].
  unfold c_value_loss. destruct acc; [reflexivity|]. rewrite <- (Rmult_1_r (fsum (concat _))). unfold Rdiv. rewrite Rinv_1. f_equal.
  induction (combine y t) as [|x l IH]; [reflexivity|]. cbn [map concat]. rewrite fsum_app, IH. reflexivity.
Qed.
Lemma atom_loss_nonneg : forall y t, (0 <= y -> 0 <= t -> 0 <= atom_loss y t)%R.
Proof.
  intros y t Hy Ht. unfold atom_loss. destruct (clip_up y Hy) as [U _]. assert (clip y (/ 10 ^ 10) 1 <= 1)%R as [H|H] by apply Rmin_r.
  - pose proof (ln_increasing _ _ U H) as Hl. rewrite ln_1 in Hl. assert (0 <= t * - ln (clip y (/ 10 ^ 10) 1))%R by (apply Rmult_le_pos; lra). lra.
  - rewrite H, ln_1. lra.
Qed.
Lemma row_nonneg : forall y t, (forall p, In p y -> 0 <= p)%R -> (forall p, In p t -> 0 <= p)%R -> (0 <= row_cross_entropy y t)%R.
Proof.
  intros y t Hy Ht. unfold row_cross_entropy. rewrite zipr_total. apply tot_nonneg. intros [u x] Hin. cbn [fst snd].
  apply atom_loss_nonneg; [apply Hy; eapply in_combine_l; eassumption|apply Ht; eapply in_combine_r; eassumption].
Qed.
