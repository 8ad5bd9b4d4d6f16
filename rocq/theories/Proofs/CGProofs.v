(** Proofs about conjugate gradients. *)
From Coq Require Import Reals List Lia Lra.
From Verif Require Import Model.ConjugateGradient Spec.LinearSpec Spec.SumSpec.
Import ListNotations.
Local Open Scope R_scope.

Section V.
  Variable n : nat.
  Implicit Types u v w : vec.

  Lemma zip_len : forall f u v, length u = length v -> length (zip_vec f u v) = length v.
  Proof. induction u as [|x u IH]; intros [|y v] H; cbn in *; try lia. rewrite IH; lia. Qed.
  Lemma vadd_len : forall u v, length u = n -> length v = n -> length (vadd u v) = n.
  Proof. intros. unfold vadd. rewrite zip_len; congruence. Qed.
  Lemma vsub_len : forall u v, length u = n -> length v = n -> length (vsub u v) = n.
  Proof. intros. unfold vsub. rewrite zip_len; congruence. Qed.
  Lemma vscale_len : forall c u, length (vscale c u) = length u.
  Proof. intros. apply map_length. Qed.

  Lemma dot_comm : forall u v, dot u v = dot v u.
  Proof. induction u as [|x u IH]; intros [|y v]; cbn; try reflexivity. rewrite IH. ring. Qed.
  Lemma dot_add_l0 : forall u v w, length u = length v -> dot (vadd u v) w = dot u w + dot v w.
  Proof. unfold vadd. induction u as [|x u IH]; intros [|y v] [|z w] H; cbn in *; try lia; try ring. rewrite IH by lia. ring. Qed.
  Lemma dot_sub_l0 : forall u v w, length u = length v -> dot (vsub u v) w = dot u w - dot v w.
  Proof. unfold vsub. induction u as [|x u IH]; intros [|y v] [|z w] H; cbn in *; try lia; try ring. rewrite IH by lia. ring. Qed.
  Lemma dot_add_l : forall u v w, length u = n -> length v = n -> dot (vadd u v) w = dot u w + dot v w.
  Proof. intros. apply dot_add_l0. congruence. Qed.
  Lemma dot_sub_l : forall u v w, length u = n -> length v = n -> dot (vsub u v) w = dot u w - dot v w.
  Proof. intros. apply dot_sub_l0. congruence. Qed.
  Lemma dot_scale_l : forall c u w, dot (vscale c u) w = c * dot u w.
  Proof. unfold vscale. induction u as [|x u IH]; intros [|z w]; cbn; try ring. rewrite IH. ring. Qed.
  Lemma dot_add_r : forall u v w, length u = n -> length v = n -> dot w (vadd u v) = dot w u + dot w v.
  Proof. intros. rewrite dot_comm, dot_add_l, (dot_comm u), (dot_comm v); auto. Qed.
  Lemma dot_sub_r : forall u v w, length u = n -> length v = n -> dot w (vsub u v) = dot w u - dot w v.
  Proof. intros. rewrite dot_comm, dot_sub_l, (dot_comm u), (dot_comm v); auto. Qed.
  Lemma dot_scale_r : forall c u w, dot w (vscale c u) = c * dot w u.
  Proof. intros. rewrite dot_comm, dot_scale_l, dot_comm. reflexivity. Qed.
  Lemma dot_nonneg : forall u, 0 <= dot u u.
  Proof. induction u as [|x u IH]; cbn; [lra|]. nra. Qed.
  Lemma dot_pos : forall u, nonzero u -> 0 < dot u u.
  Proof.
    intros u (x & I & N). induction u as [|y u IH]; [destruct I|]. cbn. pose proof (dot_nonneg u). destruct I as [->|I]; [nra|]. specialize (IH I). nra.
  Qed.
  Lemma dot_zero : forall u, dot u u = 0 -> forall x, In x u -> x = 0.
  Proof.
    induction u as [|y u IH]; intros H x I; [destruct I|]. cbn in H. pose proof (dot_nonneg u). assert (y * y = 0) by nra.
    destruct I as [<-|I]; [nra|]. apply IH; [nra|exact I].
  Qed.
  Lemma nonzero_dec : forall u, nonzero u \/ (forall x, In x u -> x = 0).
  Proof.
    intros u. destruct (Req_dec (dot u u) 0) as [E|E]; [right; apply dot_zero, E|]. left.
    induction u as [|y u IH]; [cbn in E; lra|]. destruct (Req_dec y 0) as [->|N]; [|exists y; split; [left; reflexivity|exact N]].
    cbn in E. destruct IH as (x & I & N); [lra|]. exists x. split; [right; exact I|exact N].
  Qed.
  Lemma nonzero_dot : forall u, dot u u <> 0 -> nonzero u.
  Proof. intros u H. destruct (nonzero_dec u) as [N|Z]; [exact N|]. exfalso. apply H. clear H. induction u as [|x u IH]; [reflexivity|]. cbn. rewrite (Z x) by (left; reflexivity). rewrite IH by (intros; apply Z; right; assumption). ring. Qed.
  Lemma zeros : forall u, (forall x, In x u -> x = 0) -> u = map (fun _ => 0) u.
  Proof. induction u as [|x u IH]; intros H; [reflexivity|]. cbn. rewrite (H x) at 1 by (left; reflexivity). f_equal. apply IH. intros; apply H; right; assumption. Qed.
  Lemma dot_zeros_r : forall (b u : vec), dot u (map (fun _ => 0) b) = 0.
  Proof. induction b as [|y b IH]; intros [|x u]; cbn; try reflexivity. rewrite IH. ring. Qed.

  (** ** At most [n] orthogonal non-zero vectors *)
  Notation vsum := sum_below.
  Lemma vsum_ext : forall m f g, (forall i, (i < m)%nat -> f i = g i) -> vsum m f = vsum m g.
  Proof. induction m as [|m IH]; intros f g H; [reflexivity|]. cbn. rewrite (IH f g), (H m) by (intros; try apply H; lia). reflexivity. Qed.
  Lemma vsum_le : forall m f g, (forall i, (i < m)%nat -> f i <= g i) -> vsum m f <= vsum m g.
  Proof. induction m as [|m IH]; intros f g H; cbn; [lra|]. pose proof (IH f g ltac:(intros; apply H; lia)). pose proof (H m ltac:(lia)). lra. Qed.
  Lemma vsum_scale : forall m c f, vsum m (fun i => c * f i) = c * vsum m f.
  Proof. induction m as [|m IH]; intros; cbn; [ring|]. rewrite IH. ring. Qed.
  Lemma vsum_add : forall m f g, vsum m (fun i => f i + g i) = vsum m f + vsum m g.
  Proof. induction m as [|m IH]; intros; cbn; [ring|]. rewrite IH. ring. Qed.
  Lemma vsum_const : forall m c, vsum m (fun _ => c) = INR m * c.
  Proof. induction m as [|m IH]; intros; [cbn; ring|]. rewrite S_INR. cbn. rewrite IH. ring. Qed.
  Lemma vsum_zero : forall m, vsum m (fun _ => 0) = 0.
  Proof. intros. rewrite vsum_const. ring. Qed.
  Lemma vsum_swap : forall m k f, vsum m (fun i => vsum k (fun j => f i j)) = vsum k (fun j => vsum m (fun i => f i j)).
  Proof. induction m as [|m IH]; intros k f; cbn; [symmetry; apply vsum_zero|]. rewrite IH. symmetry. apply vsum_add. Qed.
  Lemma vsum_S : forall m f, vsum (S m) f = f O + vsum m (fun i => f (S i)).
  Proof. induction m as [|m IH]; intros f; [cbn; ring|]. cbn [vsum] in *. rewrite IH. ring. Qed.
  Lemma vsum_single : forall m f k, (k < m)%nat -> (forall i, (i < m)%nat -> i <> k -> f i = 0) -> vsum m f = f k.
  Proof.
    induction m as [|m IH]; intros f k L H; [lia|]. cbn. destruct (Nat.eq_dec k m) as [->|N].
    - replace (vsum m f) with 0; [ring|]. rewrite <- (vsum_zero m). apply vsum_ext. intros. symmetry. apply H; lia.
    - rewrite (IH f k) by (intros; try apply H; lia). rewrite (H m) by lia. ring.
  Qed.

  Lemma dot_nth : forall u v, length u = length v -> dot u v = vsum (length u) (fun i => nth i u 0 * nth i v 0).
  Proof.
    induction u as [|x u IH]; intros [|y v] H; cbn [length] in *; try lia; [reflexivity|]. rewrite vsum_S. cbn [dot nth].
    rewrite IH by lia. reflexivity.
  Qed.

  Lemma bessel : forall m (q : nat -> nat -> R) (k : nat),
    (forall i j, (i < m)%nat -> (j < m)%nat -> i <> j -> vsum n (fun l => q i l * q j l) = 0) ->
    (forall i, (i < m)%nat -> 0 < vsum n (fun l => q i l * q i l)) -> (k < n)%nat ->
    vsum m (fun i => q i k * q i k / vsum n (fun l => q i l * q i l)) <= 1.
  Proof.
    intros m q k O Pq Hk. set (N := fun i => vsum n (fun l => q i l * q i l)).
    set (e := fun l : nat => if Nat.eq_dec l k then 1 else 0).
    set (c := fun i => q i k / N i). set (s := fun l => vsum m (fun i => c i * q i l)).
    assert (E0 : vsum n (fun l => (e l - s l) * (e l - s l)) = vsum n (fun l => e l * e l) + (-2) * vsum n (fun l => e l * s l) + vsum n (fun l => s l * s l)).
    { rewrite <- vsum_scale, <- !vsum_add. apply vsum_ext. intros. ring. }
    assert (E1 : vsum n (fun l => e l * e l) = 1).
    { rewrite (vsum_single n _ k Hk); unfold e; [destruct (Nat.eq_dec k k); [ring|congruence]|]. intros i _ Hi. destruct (Nat.eq_dec i k); [congruence|ring]. }
    assert (E2 : vsum n (fun l => e l * s l) = vsum m (fun i => q i k * q i k / N i)).
    { rewrite (vsum_single n _ k Hk); unfold e; [destruct (Nat.eq_dec k k); [|congruence]|].
      - rewrite Rmult_1_l. unfold s, c. apply vsum_ext. intros. unfold Rdiv. ring.
      - intros i _ Hi. destruct (Nat.eq_dec i k); [congruence|ring]. }
    assert (E3 : vsum n (fun l => s l * s l) = vsum m (fun i => q i k * q i k / N i)).
    { transitivity (vsum m (fun i => c i * vsum n (fun l => q i l * s l))).
      { rewrite (vsum_ext m _ (fun i => vsum n (fun l => c i * (q i l * s l)))) by (intros; symmetry; apply vsum_scale).
        rewrite vsum_swap. apply vsum_ext. intros l _. unfold s at 1. rewrite Rmult_comm, <- vsum_scale. apply vsum_ext. intros. ring. }
      apply vsum_ext. intros i Hi.
      assert (G : vsum n (fun l => q i l * s l) = c i * N i).
      { rewrite (vsum_ext n _ (fun l => vsum m (fun j => c j * (q i l * q j l)))).
        2:{ intros l _. unfold s. rewrite <- vsum_scale. apply vsum_ext. intros. ring. }
        rewrite vsum_swap. rewrite (vsum_ext m _ (fun j => c j * vsum n (fun l => q i l * q j l))) by (intros; apply vsum_scale).
        apply (vsum_single m (fun j => c j * vsum n (fun l => q i l * q j l)) i Hi). intros j Hj Nj. rewrite O by auto. ring. }
      rewrite G. unfold c. specialize (Pq i Hi). fold (N i) in Pq. field. lra. }
    assert (E4 : 0 <= vsum n (fun l => (e l - s l) * (e l - s l))).
    { rewrite <- (vsum_zero n). apply vsum_le. intros. apply (Rle_0_sqr). }
    rewrite E0, E1, E2, E3 in E4. change (vsum m (fun i => q i k * q i k / N i) <= 1). lra.
  Qed.

  Lemma orthogonal_bound : forall m (f : nat -> vec), (forall i, (i < m)%nat -> length (f i) = n /\ 0 < dot (f i) (f i)) ->
    (forall i j, (i < m)%nat -> (j < m)%nat -> i <> j -> dot (f i) (f j) = 0) -> (m <= n)%nat.
  Proof.
    intros m f H O. set (q := fun i l => nth l (f i) 0).
    assert (D : forall i j, (i < m)%nat -> (j < m)%nat -> vsum n (fun l => q i l * q j l) = dot (f i) (f j)).
    { intros i j Hi Hj. destruct (H i Hi) as [Li _]. destruct (H j Hj) as [Lj _]. rewrite dot_nth by congruence. rewrite Li. reflexivity. }
    assert (B : vsum n (fun k => vsum m (fun i => q i k * q i k / vsum n (fun l => q i l * q i l))) <= vsum n (fun _ => 1)).
    { apply vsum_le. intros k Hk. apply bessel; [|intros i Hi; rewrite D by assumption; apply H, Hi|exact Hk]. intros i j Hi Hj Nij. rewrite D by assumption. apply O; assumption. }
    rewrite vsum_swap, vsum_const in B.
    rewrite (vsum_ext m _ (fun _ => 1)), vsum_const in B.
    - apply INR_le. lra.
    - intros i Hi. destruct (H i Hi) as [_ Pi]. rewrite (vsum_ext n _ (fun k => / vsum n (fun l => q i l * q i l) * (q i k * q i k))) by (intros; unfold Rdiv; ring).
      rewrite vsum_scale. rewrite D by assumption. field. lra.
  Qed.

  (** ** The iterates *)
  Variable A : vec -> vec.
  Hypothesis HA : spd n A.
  Variable b : vec.
  Hypothesis Hb : length b = n.

  Record it := mk_it { X : vec; Rr : vec; Pp : vec }.
  Definition al (s : it) : R := dot (Rr s) (Rr s) / dot (A (Pp s)) (Pp s).
  Definition nextx (s : it) : vec := vadd (X s) (vscale (al s) (Pp s)).
  Definition nextr (s : it) : vec := vsub (Rr s) (vscale (al s) (A (Pp s))).
  Definition be (s : it) : R := dot (nextr s) (nextr s) / dot (Rr s) (Rr s).
  Definition next (s : it) : it := mk_it (nextx s) (nextr s) (vadd (nextr s) (vscale (be s) (Pp s))).
  Definition start : it := let x := map (fun _ => 0) b in mk_it x (vsub b (A x)) (vsub b (A x)).
  Fixpoint iter (k : nat) : it := match k with O => start | S k => next (iter k) end.

  Let xx k := X (iter k). Let rr k := Rr (iter k). Let pp k := Pp (iter k).

  Lemma dims : forall k, length (xx k) = n /\ length (rr k) = n /\ length (pp k) = n.
  Proof.
    unfold xx, rr, pp. induction k as [|k (Ix & Ir & Ip)].
    - cbn [iter start X Rr Pp]. assert (L : length (map (fun _ : R => 0) b) = n) by (rewrite map_length; exact Hb).
      assert (L2 : length (vsub b (A (map (fun _ => 0) b))) = n) by (apply vsub_len; [exact Hb|apply (spd_dim _ _ HA); exact L]). auto.
    - cbn [iter next X Rr Pp]. assert (L : length (nextr (iter k)) = n).
      { apply vsub_len; [exact Ir|]. rewrite vscale_len. apply (spd_dim _ _ HA), Ip. }
      split; [apply vadd_len; [exact Ix|rewrite vscale_len; exact Ip]|]. split; [exact L|]. apply vadd_len; [exact L|rewrite vscale_len; exact Ip].
  Qed.

  Lemma A_sub : forall u v, length u = n -> length v = n -> forall w, length w = n -> dot w (A (vadd u v)) = dot w (A u) + dot w (A v).
  Proof. intros u v Hu Hv w Hw. rewrite (spd_add _ _ HA) by assumption. apply dot_add_r; apply (spd_dim _ _ HA); assumption. Qed.

  Record inv (k : nat) : Prop := {
    i_r : forall i j, (i <= k)%nat -> (j < i)%nat -> dot (rr i) (rr j) = 0;
    i_p : forall i j, (i <= k)%nat -> (j < i)%nat -> dot (A (pp i)) (pp j) = 0;
    i_rp : forall i j, (i <= k)%nat -> (j < i)%nat -> dot (rr i) (pp j) = 0;
    i_d : forall i, (i <= k)%nat -> dot (pp i) (rr i) = dot (rr i) (rr i)
  }.

  Lemma pos : forall k, inv k -> 0 < dot (rr k) (rr k) -> 0 < dot (A (pp k)) (pp k).
  Proof.
    intros k I H. rewrite dot_comm. destruct (dims k) as (_ & Dr & Dp). apply (spd_pos _ _ HA); [exact Dp|].
    destruct (nonzero_dec (pp k)) as [N|Z]; [exact N|]. exfalso. pose proof (i_d _ I k (le_n _)) as E. rewrite (zeros _ Z) in E.
    rewrite dot_comm, dot_zeros_r in E. lra.
  Qed.

  Lemma inv_step : forall k, inv k -> (forall i, (i <= k)%nat -> 0 < dot (rr i) (rr i)) -> inv (S k).
  Proof.
    intros k I H.
    assert (Ipos : forall i, (i <= k)%nat -> 0 < dot (A (pp i)) (pp i)).
    { intros i Hi. apply pos; [|apply H, Hi]. destruct I as [a1 a2 a3 a4]. constructor; intros; [apply a1|apply a2|apply a3|apply a4]; lia. }
    assert (Rs : forall i, rr (S i) = vsub (rr i) (vscale (al (iter i)) (A (pp i)))) by reflexivity.
    assert (Ps : forall i, pp (S i) = vadd (rr (S i)) (vscale (be (iter i)) (pp i))) by reflexivity.
    assert (DA : forall i, length (A (pp i)) = n) by (intros; apply (spd_dim _ _ HA), dims).
    assert (Dr : forall i, length (rr i) = n) by (intros; apply dims). assert (Dp : forall i, length (pp i) = n) by (intros; apply dims).
    assert (DS : forall c i, length (vscale c (A (pp i))) = n) by (intros; rewrite vscale_len; auto).
    assert (DP : forall c i, length (vscale c (pp i)) = n) by (intros; rewrite vscale_len; auto).
    (* dot (A p_k) r_j *)
    assert (Ar : forall j, (j < k)%nat -> dot (A (pp k)) (rr j) = 0).
    { intros [|j] Hj; [replace (rr 0) with (pp 0) by reflexivity; apply (i_p _ I); lia|].
      assert (E : dot (A (pp k)) (pp (S j)) = 0) by (apply (i_p _ I); lia).
      rewrite Ps, dot_add_r, dot_scale_r, (i_p _ I k j) in E by (auto; lia). lra. }
    assert (Ark : dot (A (pp k)) (rr k) = dot (A (pp k)) (pp k)).
    { destruct k as [|k']; [reflexivity|]. pose proof (i_p _ I (S k') k' (le_n _) (le_n _)) as E. set (w := A (pp (S k'))) in *. rewrite Ps, dot_add_r, dot_scale_r, E by auto. ring. }
    assert (alE : al (iter k) * dot (A (pp k)) (pp k) = dot (rr k) (rr k)).
    { unfold al. fold (rr k) (pp k). specialize (Ipos k (le_n _)). field. lra. }
    assert (NR : forall j, (j <= k)%nat -> dot (rr (S k)) (rr j) = 0).
    { intros j Hj. rewrite Rs, dot_sub_l, dot_scale_l by auto. destruct (Nat.eq_dec j k) as [->|N].
      - rewrite Ark. lra.
      - rewrite (i_r _ I k j), Ar by lia. ring. }
    assert (NP : forall j, (j <= k)%nat -> dot (rr (S k)) (pp j) = 0).
    { intros j Hj. rewrite Rs, dot_sub_l, dot_scale_l by auto. destruct (Nat.eq_dec j k) as [->|N].
      - rewrite (dot_comm (rr k)), (i_d _ I k) by lia. lra.
      - rewrite (i_rp _ I k j), (i_p _ I k j) by lia. ring. }
    assert (alp : forall i, (i <= k)%nat -> 0 < al (iter i)).
    { intros i Hi. unfold al. fold (rr i) (pp i). apply Rdiv_lt_0_compat; [apply H, Hi|apply Ipos, Hi]. }
    (* A p_j = (r_j - r_{j+1}) / a_j *)
    assert (AE : forall j w, dot w (A (pp j)) * al (iter j) = dot w (rr j) - dot w (rr (S j))).
    { intros j w. rewrite Rs, dot_sub_r, dot_scale_r by auto. ring. }
    assert (PA : forall j, (j <= k)%nat -> dot (A (pp (S k))) (pp j) = 0).
    { intros j Hj. rewrite <- (spd_sym _ _ HA) by auto. rewrite Ps, dot_add_l, dot_scale_l by auto.
      pose proof (AE j (rr (S k))) as E. rewrite (NR j) in E by lia. specialize (alp j Hj). destruct (Nat.eq_dec j k) as [->|N].
      - assert (Eb : be (iter k) * dot (rr k) (rr k) = dot (rr (S k)) (rr (S k))).
        { unfold be. change (nextr (iter k)) with (rr (S k)). fold (rr k). specialize (H k (le_n _)). field. lra. }
        rewrite (dot_comm (pp k)). apply Rmult_eq_reg_r with (al (iter k)); [|lra]. rewrite Rmult_0_l, Rmult_plus_distr_r, E.
        replace (be (iter k) * dot (A (pp k)) (pp k) * al (iter k)) with (be (iter k) * (al (iter k) * dot (A (pp k)) (pp k))) by ring. rewrite alE. lra.
      - rewrite (NR (S j)) in E by lia. rewrite (spd_sym _ _ HA (pp k)) by auto. rewrite (i_p _ I k j) by lia.
        assert (dot (rr (S k)) (A (pp j)) = 0) by nra. lra. }
    constructor.
    - intros i j Hi Hj. destruct (Nat.eq_dec i (S k)) as [->|N]; [apply NR; lia|apply (i_r _ I); lia].
    - intros i j Hi Hj. destruct (Nat.eq_dec i (S k)) as [->|N]; [apply PA; lia|apply (i_p _ I); lia].
    - intros i j Hi Hj. destruct (Nat.eq_dec i (S k)) as [->|N]; [apply NP; lia|apply (i_rp _ I); lia].
    - intros i Hi. destruct (Nat.eq_dec i (S k)) as [->|N]; [|apply (i_d _ I); lia].
      rewrite Ps at 1. rewrite dot_add_l, dot_scale_l, (dot_comm (pp k)), NP by (auto; lia). ring.
  Qed.

  Lemma inv_0 : inv 0.
  Proof. constructor; intros; try lia. replace i with 0%nat by lia. reflexivity. Qed.
  Lemma inv_all : forall k, (forall i, (i < k)%nat -> 0 < dot (rr i) (rr i)) -> inv k.
  Proof. induction k as [|k IH]; intros H; [exact inv_0|]. apply inv_step; [apply IH; intros; apply H; lia|intros; apply H; lia]. Qed.

  Lemma terminates : ~ (forall i, (i <= n)%nat -> 0 < dot (rr i) (rr i)).
  Proof.
    intros H. assert (I : inv (S n)) by (apply inv_all; intros; apply H; lia).
    enough (S n <= n)%nat by lia. apply (orthogonal_bound (S n) rr).
    - intros i Hi. split; [apply dims|apply H; lia].
    - intros i j Hi Hj Nij. destruct (Nat.lt_ge_cases j i); [apply (i_r _ I); lia|]. rewrite dot_comm. apply (i_r _ I); lia.
  Qed.

  Lemma zero_A : A (map (fun _ => 0) b) = map (fun _ => 0) b.
  Proof.
    assert (L : length (map (fun _ : R => 0) b) = n) by (rewrite map_length; exact Hb).
    assert (E : map (fun _ : R => 0) b = vscale 0 (map (fun _ => 0) b)).
    { unfold vscale. rewrite map_map. apply map_ext. intros. ring. }
    transitivity (A (vscale 0 (map (fun _ => 0) b))); [f_equal; exact E|]. rewrite (spd_scale _ _ HA) by exact L.
    assert (L2 : length (A (map (fun _ => 0) b)) = length b) by (rewrite (spd_dim _ _ HA) by exact L; congruence).
    revert L2. generalize (A (map (fun _ => 0) b)). clear. unfold vscale. induction b as [|y b' IH]; intros [|x l] H; cbn in *; try lia; [reflexivity|].
    rewrite IH by lia. f_equal. ring.
  Qed.
  Lemma vsub_zero : forall l : vec, vsub l (map (fun _ => 0) l) = l.
  Proof. unfold vsub. induction l as [|x l IH]; [reflexivity|]. cbn. rewrite IH. f_equal. ring. Qed.
  Lemma rr_0 : rr 0 = b.
  Proof. unfold rr. cbn. rewrite zero_A. apply vsub_zero. Qed.

  (** The tracked residual is the true one. *)
  Lemma vsub_step : forall l a c d, length a = length l -> length c = length l -> length d = length l -> l = vsub a c -> vsub l d = vsub a (vadd c d).
  Proof.
    unfold vsub, vadd. induction l as [|x l IH]; intros [|y a] [|z c] [|w d] H1 H2 H3 E; cbn in *; try lia; [reflexivity|].
    injection E as E1 E2. rewrite E1, E2. f_equal; [ring|]. rewrite <- E2. apply IH; auto; lia.
  Qed.
  Lemma residual : forall k, rr k = vsub b (A (xx k)).
  Proof.
    induction k as [|k IH]; [reflexivity|]. destruct (dims k) as (Dx & Dr & Dp).
    change (rr (S k)) with (vsub (rr k) (vscale (al (iter k)) (A (pp k)))). change (xx (S k)) with (vadd (xx k) (vscale (al (iter k)) (pp k))).
    rewrite (spd_add _ _ HA) by (try rewrite vscale_len; assumption). rewrite (spd_scale _ _ HA) by exact Dp.
    apply vsub_step; try rewrite vscale_len; try rewrite (spd_dim _ _ HA) by assumption; try congruence.
  Qed.

  (** Every iterate after the first is a combination of the directions. *)
  Lemma x_orth : forall k w, length w = n -> (forall j, (j < k)%nat -> dot w (pp j) = 0) -> dot w (xx k) = 0.
  Proof.
    induction k as [|k IH]; intros w Hw H.
    - apply dot_zeros_r.
    - change (xx (S k)) with (vadd (xx k) (vscale (al (iter k)) (pp k))). destruct (dims k) as (Dx & Dr & Dp).
      rewrite dot_add_r, dot_scale_r by (try rewrite vscale_len; assumption). rewrite IH by (auto; intros; apply H; lia). rewrite H by lia. ring.
  Qed.
  Lemma bx : forall k, (forall i, (i < k)%nat -> 0 < dot (rr i) (rr i)) -> dot b (xx k) = dot (xx k) (A (xx k)).
  Proof.
    intros k H. pose proof (inv_all k H) as I. destruct (dims k) as (Dx & Dr & Dp).
    assert (E : dot (rr k) (xx k) = 0) by (apply x_orth; [exact Dr|intros; apply (i_rp _ I); lia]).
    rewrite residual in E. rewrite dot_sub_l in E by (try apply (spd_dim _ _ HA); assumption). rewrite (dot_comm (xx k)). lra.
  Qed.
  Lemma bx_pos : forall k, (forall i, (i <= k)%nat -> 0 < dot (rr i) (rr i)) -> 0 < dot b (xx (S k)).
  Proof.
    intros k H. rewrite <- rr_0. induction k as [|k IH].
    - change (xx 1) with (vadd (xx 0) (vscale (al (iter 0)) (pp 0))). destruct (dims 0) as (Dx & Dr & Dp).
      rewrite dot_add_r, dot_scale_r by (try rewrite vscale_len; assumption). replace (dot (rr 0) (xx 0)) with 0 by (symmetry; apply dot_zeros_r).
      pose proof (H 0%nat (le_n _)) as H0. assert (0 < al (iter 0)).
      { unfold al. apply Rdiv_lt_0_compat; [exact H0|]. apply pos; [exact inv_0|exact H0]. }
      change (pp 0) with (rr 0). nra.
    - assert (I : inv (S k)) by (apply inv_all; intros; apply H; lia).
      change (xx (S (S k))) with (vadd (xx (S k)) (vscale (al (iter (S k))) (pp (S k)))). destruct (dims (S k)) as (Dx & Dr & Dp).
      rewrite dot_add_r, dot_scale_r by (try rewrite vscale_len; assumption).
      assert (IHk : 0 < dot (rr 0) (xx (S k))) by (apply IH; intros; apply H; lia).
      assert (al (iter (S k)) > 0).
      { unfold al. apply Rdiv_lt_0_compat; [apply H; lia|]. apply pos; [exact I|apply H; lia]. }
      (* r_0 . p_{k+1} = |r_{k+1}|^2 > 0 *)
      assert (G : forall j i, (j <= i)%nat -> (i <= S k)%nat -> dot (rr j) (pp i) = dot (rr i) (rr i)).
      { intros j i Hj. induction Hj as [|i Hj IHj]; intros Hi; [rewrite dot_comm; apply (i_d _ I); lia|].
        change (pp (S i)) with (vadd (rr (S i)) (vscale (be (iter i)) (pp i))). destruct (dims i) as (_ & _ & Dpi). destruct (dims (S i)) as (_ & Dri & _).
        rewrite dot_add_r, dot_scale_r by (try rewrite vscale_len; assumption). rewrite IHj by lia.
        rewrite (dot_comm (rr j)), (i_r _ I (S i) j) by lia.
        unfold be. change (nextr (iter i)) with (rr (S i)). fold (rr i). pose proof (H i ltac:(lia)). field. lra. }
      rewrite (G 0%nat (S k)) by lia. pose proof (H (S k) (le_n _)). nra.
  Qed.

  (** The loop follows the iterates. *)
  Lemma norm_lt : forall u tol, 0 < tol -> ~ norm u < tol -> 0 < dot u u.
  Proof.
    intros u tol Ht N. destruct (Rle_lt_or_eq_dec _ _ (dot_nonneg u)) as [L|E]; [exact L|]. exfalso. apply N. unfold norm. rewrite <- E, sqrt_0. exact Ht.
  Qed.

  Lemma loop : forall tol, 0 < tol -> forall m k, (forall i, (i <= k)%nat -> 0 < dot (rr i) (rr i)) ->
    exists k', (k <= k' <= k + m)%nat /\ cg_loop A tol m (xx k) (rr k) (pp k) = Some (xx k') /\
      (forall i, (i < k')%nat -> 0 < dot (rr i) (rr i)) /\ (0 < m -> k < k')%nat /\
      (norm (rr k') < tol \/ (k' = k + m)%nat /\ 0 < dot (rr k') (rr k')).
  Proof.
    intros tol Ht. induction m as [|m IH]; intros k H.
    - exists k. split; [lia|]. split; [reflexivity|]. split; [intros; apply H; lia|]. split; [lia|]. right. split; [lia|apply H; lia].
    - cbn [cg_loop]. unfold fdiv at 1. pose proof (pos k (inv_all k ltac:(intros; apply H; lia)) (H k (le_n _))) as Pk.
      destruct (Req_EM_T (dot (A (pp k)) (pp k)) 0) as [E|_]; [lra|]. change (dot (rr k) (rr k) / dot (A (pp k)) (pp k)) with (al (iter k)).
      change (vadd (xx k) (vscale (al (iter k)) (pp k))) with (xx (S k)). change (vsub (rr k) (vscale (al (iter k)) (A (pp k)))) with (rr (S k)).
      destruct (Rlt_dec (norm (rr (S k))) tol) as [L|L].
      + exists (S k). split; [lia|]. split; [reflexivity|]. split; [intros; apply H; lia|]. split; [lia|]. left; exact L.
      + unfold fdiv. pose proof (H k (le_n _)) as Hk. destruct (Req_EM_T (dot (rr k) (rr k)) 0) as [E|_]; [lra|].
        change (dot (rr (S k)) (rr (S k)) / dot (rr k) (rr k)) with (be (iter k)). change (vadd (rr (S k)) (vscale (be (iter k)) (pp k))) with (pp (S k)).
        pose proof (norm_lt _ _ Ht L) as Hs.
        destruct (IH (S k)) as (k' & B & E & P & Q & T).
        { intros i Hi. destruct (Nat.eq_dec i (S k)) as [->|N]; [exact Hs|apply H; lia]. }
        exists k'. split; [lia|]. split; [exact E|]. split; [exact P|]. split; [lia|]. destruct T as [T|[T1 T2]]; [left; exact T|right; split; [lia|exact T2]].
  Qed.

  Theorem cg_runs : forall tol max_iter, 0 < tol -> nonzero b -> exists x, conjugate_gradient A b tol max_iter = Some x /\ length x = n /\
    dot b x = dot x (A x) /\ ((0 < max_iter)%nat -> 0 < dot b x) /\
    ((n <= max_iter)%nat -> norm (vsub b (A x)) < tol).
  Proof.
    intros tol m Ht Nb. assert (H0 : 0 < dot (rr 0) (rr 0)) by (rewrite rr_0; apply dot_pos, Nb).
    destruct (loop tol Ht m 0) as (k' & B & E & P & Q & T); [intros i Hi; replace i with 0%nat by lia; exact H0|].
    exists (xx k'). split; [exact E|]. split; [apply dims|]. split; [apply bx, P|]. split.
    - intros Hm. destruct k' as [|k']; [specialize (Q Hm); lia|]. apply bx_pos. intros i Hi. apply P. lia.
    - intros Hm. rewrite <- residual. destruct T as [T|[T1 T2]]; [exact T|]. exfalso. apply terminates. intros i Hi.
      destruct (Nat.eq_dec i k') as [->|N]; [exact T2|apply P; lia].
  Qed.

  (** The residual is orthogonal to the right-hand side after the first iteration. *)
  Theorem cg_first : forall tol max_iter, 0 < tol -> nonzero b -> (0 < max_iter)%nat -> forall x, conjugate_gradient A b tol max_iter = Some x -> dot (A x) b = dot b b.
  Proof.
    intros tol m Ht Nb Hm x Hx. assert (H0 : 0 < dot (rr 0) (rr 0)) by (rewrite rr_0; apply dot_pos, Nb).
    destruct (loop tol Ht m 0) as (k' & B & E & P & Q & T); [intros i Hi; replace i with 0%nat by lia; exact H0|].
    change (conjugate_gradient A b tol m = Some (xx k')) in E. assert (x = xx k') as -> by congruence.
    specialize (Q Hm). assert (I : inv k') by (apply inv_all, P). pose proof (i_r _ I k' 0%nat (le_n _) ltac:(lia)) as O. rewrite rr_0, residual in O.
    rewrite dot_sub_l in O by (try (apply (spd_dim _ _ HA), dims); exact Hb). lra.
  Qed.

  (** For a small enough tolerance the solution is exact. *)
  Lemma first_zero : forall m, dot (rr m) (rr m) = 0 -> exists K, (K <= m)%nat /\ dot (rr K) (rr K) = 0 /\ forall i, (i < K)%nat -> 0 < dot (rr i) (rr i).
  Proof.
    induction m as [m IH] using (well_founded_induction Wf_nat.lt_wf). intros H.
    assert (D : forall q, (q <= m)%nat -> (exists i, (i < q)%nat /\ dot (rr i) (rr i) = 0) \/ (forall i, (i < q)%nat -> 0 < dot (rr i) (rr i))).
    { induction q as [|q IHq]; intros Hq; [right; intros; lia|]. destruct IHq as [(i & Hi & E)|N]; [lia|left; exists i; split; [lia|exact E]|].
      destruct (Rle_lt_or_eq_dec _ _ (dot_nonneg (rr q))) as [L|E]; [|left; exists q; split; [lia|symmetry; exact E]].
      right. intros i Hi. destruct (Nat.eq_dec i q) as [->|]; [exact L|apply N; lia]. }
    destruct (D m (le_n _)) as [(i & Hi & E)|N]; [|exists m; auto].
    destruct (IH i Hi E) as (K & HK & E' & P). exists K. split; [lia|]. auto.
  Qed.
  Lemma some_zero : exists m, dot (rr m) (rr m) = 0 /\ (m <= n)%nat.
  Proof.
    assert (D : forall q, (exists i, (i < q)%nat /\ dot (rr i) (rr i) = 0) \/ (forall i, (i < q)%nat -> 0 < dot (rr i) (rr i))).
    { induction q as [|q IHq]; [right; intros; lia|]. destruct IHq as [(i & Hi & E)|N]; [left; exists i; split; [lia|exact E]|].
      destruct (Rle_lt_or_eq_dec _ _ (dot_nonneg (rr q))) as [L|E]; [|left; exists q; split; [lia|symmetry; exact E]].
      right. intros i Hi. destruct (Nat.eq_dec i q) as [->|]; [exact L|apply N; lia]. }
    destruct (D (S n)) as [(i & Hi & E)|N]; [exists i; split; [exact E|lia]|]. exfalso. apply terminates. intros i Hi. apply N. lia.
  Qed.
  Lemma small : forall K, (forall i, (i < K)%nat -> 0 < dot (rr i) (rr i)) -> exists t, 0 < t /\ forall i, (i < K)%nat -> t <= norm (rr i).
  Proof.
    induction K as [|K IH]; intros H; [exists 1; split; [lra|intros; lia]|].
    destruct IH as (t & Ht & B); [intros; apply H; lia|]. assert (N : 0 < norm (rr K)) by (apply sqrt_lt_R0, H; lia).
    exists (Rmin t (norm (rr K))). split; [apply Rmin_glb_lt; assumption|]. intros i Hi.
    destruct (Nat.eq_dec i K) as [->|]; [apply Rmin_r|]. eapply Rle_trans; [apply Rmin_l|apply B; lia].
  Qed.
  Lemma vsub_zero_eq : forall u v, length u = length v -> (forall x, In x (vsub u v) -> x = 0) -> v = u.
  Proof.
    unfold vsub. induction u as [|x u IH]; intros [|y v] L H; cbn in *; try lia; [reflexivity|].
    pose proof (H (x - y) (or_introl eq_refl)). f_equal; [lra|]. apply IH; [lia|]. intros; apply H; right; assumption.
  Qed.

  Theorem cg_solves : nonzero b -> exists tol0, 0 < tol0 /\ forall tol max_iter, 0 < tol < tol0 -> (n <= max_iter)%nat ->
    exists x, conjugate_gradient A b tol max_iter = Some x /\ A x = b.
  Proof.
    intros Nb. destruct some_zero as (m & Em & Hm). destruct (first_zero m Em) as (K & HK & EK & PK). destruct (small K PK) as (t & Ht & B).
    exists t. split; [exact Ht|]. intros tol mi [T1 T2] Hmi.
    assert (H0 : 0 < dot (rr 0) (rr 0)) by (rewrite rr_0; apply dot_pos, Nb).
    destruct (loop tol T1 mi 0) as (k' & Bk & E & P & Q & T); [intros i Hi; replace i with 0%nat by lia; exact H0|].
    exists (xx k'). split; [exact E|].
    assert (k' = K).
    { assert (~ K < k')%nat by (intros L; specialize (P K L); lra).
      destruct (Nat.eq_dec k' K) as [|N]; [assumption|]. assert (L : (k' < K)%nat) by lia. exfalso. destruct T as [T|[T T']].
      - specialize (B k' L). lra.
      - cbn in T. lia. }
    subst k'. apply vsub_zero_eq; [rewrite (spd_dim _ _ HA) by apply dims; exact Hb|].
    rewrite <- residual. apply dot_zero, EK.
  Qed.
End V.

Lemma dot_zeros_l : forall (b u : vec), dot (map (fun _ => 0) b) u = 0.
Proof. intros. rewrite dot_comm. apply dot_zeros_r. Qed.

(** The zero right-hand side. *)
Theorem cg_zero : forall n A tol max_iter b, spd n A -> length b = n -> (forall x, In x b -> x = 0) -> (0 < max_iter)%nat ->
  conjugate_gradient A b tol max_iter = None.
Proof.
  intros n A tol [|m] b HA Hb Z Hm; [lia|]. unfold conjugate_gradient. rewrite (zero_A n A HA b Hb).
  assert (E : vsub b (map (fun _ => 0) b) = map (fun _ => 0) b) by (rewrite vsub_zero; apply zeros, Z). rewrite E. cbn [cg_loop].
  rewrite (zero_A n A HA b Hb), dot_zeros_l. unfold fdiv. destruct (Req_EM_T 0 0); [reflexivity|congruence].
Qed.

Lemma damped : forall n F c, psd n F -> 0 < c -> spd n (fun v => vadd (F v) (vscale c v)).
Proof.
  intros n F c H Hc.
  assert (D : forall u, length u = n -> length (vscale c u) = n) by (intros; rewrite vscale_len; assumption).
  constructor.
  - intros u Hu. apply vadd_len; [apply (psd_dim _ _ H)|]; auto.
  - intros u v Hu Hv. rewrite (psd_add _ _ H) by assumption.
    assert (L1 : length (F u) = n) by (apply (psd_dim _ _ H), Hu). assert (L2 : length (F v) = n) by (apply (psd_dim _ _ H), Hv).
    revert Hu Hv L1 L2. generalize (F u) (F v). clear. unfold vadd, vscale. revert u v n.
    induction u as [|x u IH]; intros [|y v] n [|z l] [|w l0] H1 H2 H3 H4; cbn in *; try lia; [reflexivity|].
    rewrite (IH v (pred n)) by lia. f_equal. ring.
  - intros d u Hu. rewrite (psd_scale _ _ H) by assumption. assert (L1 : length (F u) = n) by (apply (psd_dim _ _ H), Hu).
    revert Hu L1. generalize (F u). clear. unfold vadd, vscale. revert u n.
    induction u as [|x u IH]; intros n [|z l] H1 H2; cbn in *; try lia; [reflexivity|]. rewrite (IH (pred n)) by lia. f_equal. ring.
  - intros u v Hu Hv. rewrite (dot_add_r n), (dot_add_l n), dot_scale_l, dot_scale_r, (psd_sym _ _ H) by (auto; apply (psd_dim _ _ H); auto). reflexivity.
  - intros u Hu N. rewrite (dot_add_r n), dot_scale_r by (auto; apply (psd_dim _ _ H); auto).
    pose proof (psd_pos _ _ H u Hu). pose proof (dot_pos u N). nra.
Qed.

Theorem step_in_region : forall n fvp damping max_kl tol max_iter g, psd n fvp -> 0 < damping -> 0 < max_kl -> 0 < tol -> length g = n -> nonzero g ->
  exists s, kl_constrained_step fvp damping max_kl tol max_iter g = Some s /\ length s = n /\
    dot s (fvp s) / 2 <= max_kl /\ ((0 < max_iter)%nat -> 0 < dot g s).
Proof.
  intros n F c mk tol mi g HF Hc Hk Ht Hg Ng. pose proof (damped n F c HF Hc) as HA.
  destruct (cg_runs n _ HA g Hg tol mi Ht Ng) as (x & E & L & Eb & P & _). unfold kl_constrained_step. rewrite E.
  set (q := dot x (vadd (F x) (vscale c x))). set (sc := sqrt (2 * mk / (q + / 100000000))).
  assert (LF : length (F x) = n) by (apply (psd_dim _ _ HF), L).
  assert (Eq : q = dot x (F x) + c * dot x x).
  { unfold q. rewrite (dot_add_r n), dot_scale_r by (auto; rewrite vscale_len; exact L). reflexivity. }
  pose proof (psd_pos _ _ HF x L) as P1. pose proof (dot_nonneg x) as P2. assert (Hq : 0 <= q) by nra.
  assert (Hs : sc * sc = 2 * mk / (q + / 100000000)).
  { apply sqrt_sqrt. apply Rlt_le, Rdiv_lt_0_compat; lra. }
  eexists. split; [reflexivity|]. split; [rewrite vscale_len; exact L|]. split.
  - rewrite (psd_scale _ _ HF) by exact L. rewrite dot_scale_l, dot_scale_r.
    replace (sc * (sc * dot x (F x)) / 2) with (sc * sc * dot x (F x) / 2) by field. rewrite Hs.
    apply Rmult_le_reg_r with (q + / 100000000); [lra|].
    replace (2 * mk / (q + / 100000000) * dot x (F x) / 2 * (q + / 100000000)) with (mk * dot x (F x)) by (field; lra).
    apply Rmult_le_compat_l; [lra|]. pose proof (Rmult_le_pos c (dot x x) (Rlt_le _ _ Hc) P2). lra.
  - intros Hm. specialize (P Hm). rewrite dot_scale_r. apply Rmult_lt_0_compat; [|exact P]. apply sqrt_lt_R0, Rdiv_lt_0_compat; lra.
Qed.
