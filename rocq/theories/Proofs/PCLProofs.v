(** PCL's batched replay update. *)
From Coq Require Import Reals Lra Permutation.
From Verif Require Import Base.PyBase Spec.SumSpec Model.PCL Spec.PCLSpec Proofs.RSumFacts.
Set Implicit Arguments.
Local Open Scope R_scope.

(** Sorting. *)
Lemma insert_perm : forall A (x : list A) l, Permutation (insert_len x l) (x :: l).
Proof.
  intros A x l. induction l as [|y l IH]; cbn [insert_len]; [reflexivity|]. destruct (length x <=? length y)%nat; [reflexivity|].
  rewrite IH. apply perm_swap.
Qed.
Lemma sort_perm : forall A (l : list (list A)), Permutation (sort_len l) l.
Proof. intros A l. induction l as [|x l IH]; [constructor|]. cbn. rewrite insert_perm, IH. reflexivity. Qed.
Lemma sorted_perm : forall A (l : list (list A)), Permutation (sorted_episodes l) l.
Proof. intros A l. unfold sorted_episodes. rewrite <- Permutation_rev. apply sort_perm. Qed.

Fixpoint ascending {A} (l : list (list A)) : Prop :=
  match l with [] => True | x :: r => Forall (fun y => (length x <= length y)%nat) r /\ ascending r end.
Fixpoint descending {A} (l : list (list A)) : Prop :=
  match l with [] => True | x :: r => Forall (fun y => (length y <= length x)%nat) r /\ descending r end.
Lemma insert_asc : forall A (x : list A) l, ascending l -> ascending (insert_len x l).
Proof.
  intros A x l. induction l as [|y l IH]; intros H; cbn [insert_len].
  - split; [constructor|exact I].
  - destruct H as (Hy & Hl). destruct (length x <=? length y)%nat eqn:E.
    + apply Nat.leb_le in E. split; [|split; assumption]. constructor; [exact E|]. rewrite Forall_forall in *. intros z Hz. specialize (Hy z Hz). lia.
    + apply Nat.leb_gt in E. split; [|apply IH; exact Hl]. rewrite Forall_forall in *. intros z Hz.
      apply (Permutation_in _ (insert_perm x l)) in Hz. destruct Hz as [<-|Hz]; [lia|apply Hy; exact Hz].
Qed.
Lemma sort_asc : forall A (l : list (list A)), ascending (sort_len l).
Proof. intros A l. induction l as [|x l IH]; [exact I|]. apply insert_asc. exact IH. Qed.
Lemma desc_snoc : forall A (l : list (list A)) x, descending l -> Forall (fun y => (length x <= length y)%nat) l -> descending (l ++ [x]).
Proof.
  intros A l x. induction l as [|y l IH]; intros H Hx; cbn [app descending].
  - split; [constructor|exact I].
  - destruct H as (Hy & Hl). inversion Hx as [|? ? Hxy Hxl]; subst. split; [|apply IH; assumption].
    apply Forall_app. split; [exact Hy|]. constructor; [exact Hxy|constructor].
Qed.
Lemma rev_desc : forall A (l : list (list A)), ascending l -> descending (rev l).
Proof.
  intros A l. induction l as [|x l IH]; intros H; [exact I|]. destruct H as (Hx & Hl). cbn [rev]. apply desc_snoc; [apply IH; exact Hl|].
  rewrite Forall_forall in *. intros y Hy. apply Hx. apply in_rev. exact Hy.
Qed.
Lemma sorted_desc : forall A (l : list (list A)), descending (sorted_episodes l).
Proof. intros A l. apply rev_desc, sort_asc. Qed.

(** Already strictly decreasing: nothing moves. *)
Lemma insert_last : forall A (x : list A) l, Forall (fun y => (length y < length x)%nat) l -> insert_len x l = l ++ [x].
Proof.
  intros A x l H. induction H as [|y l Hy H IH]; [reflexivity|]. cbn [insert_len app]. destruct (length x <=? length y)%nat eqn:E.
  - apply Nat.leb_le in E. lia.
  - rewrite IH. reflexivity.
Qed.
Lemma sorted_strict : forall A (l : list (list A)), strictly_descending l -> sorted_episodes l = l.
Proof.
  intros A l H. unfold sorted_episodes. induction l as [|x l IH]; [reflexivity|]. destruct H as (Hx & Hl).
  cbn [sort_len fold_right]. fold (sort_len l). rewrite insert_last.
  - rewrite rev_app_distr. cbn [rev app]. rewrite IH by exact Hl. reflexivity.
  - rewrite Forall_forall in *. intros y Hy. apply Hx. apply (Permutation_in _ (sort_perm l)). exact Hy.
Qed.

Lemma skipn_cons_nth : forall A (l : list A) t d, (t < length l)%nat -> skipn t l = nth t l d :: skipn (S t) l.
Proof.
  intros A l. induction l as [|x l IH]; intros t d H; [cbn in H; lia|]. destruct t as [|t]; [reflexivity|]. cbn [length] in H.
  cbn [skipn nth]. rewrite (IH t d) by lia. reflexivity.
Qed.

(** The consistency error and the loss. *)
Lemma wsum_window : forall (f : nat -> R) (g : pdata -> R) n a t ds, (t + n <= length ds)%nat ->
  wsum (map f (seq a n)) (map g (firstn n (skipn t ds))) = sum_below n (fun i => f (a + i)%nat * g (nth_data ds (t + i))).
Proof.
  intros f g n. induction n as [|n IH]; intros a t ds H; [reflexivity|]. rewrite below_S. cbn [seq map].
  rewrite (@skipn_cons_nth _ ds t (PData 0 0 0 0)) by lia. cbn [firstn map wsum]. rewrite IH by lia. rewrite !Nat.add_0_r. f_equal.
  apply below_ext. intros i Hi. rewrite <- !plus_n_Sm. reflexivity.
Qed.
Lemma below_sub : forall n f g, sum_below n (fun i => f i - g i) = sum_below n f - sum_below n g.
Proof. induction n as [|n IH]; intros f g; cbn [sum_below]; [ring|]. rewrite IH. ring. Qed.
Lemma error_ok : forall c ds t, (1 <= pc_rollout c)%nat -> (t < length ds)%nat -> p_error c ds t = Ok (consistency_error c ds t).
Proof.
  intros c ds t Hr Ht. unfold p_error, consistency_error. set (d := Nat.min (length ds - t) (pc_rollout c)).
  assert (Hd : (1 <= d <= length ds - t)%nat) by lia.
  assert (W := fun g => wsum_window (fun i => pc_gamma c ^ i) g d 0 t ds).
  rewrite !W by lia. destruct (firstn d (skipn t ds)) as [|w ws] eqn:E.
  { apply (f_equal (@length _)) in E. rewrite firstn_length, skipn_length in E. cbn in E. lia. }
  rewrite (nth_error_nth' ds (PData 0 0 0 0)) by lia. f_equal.
  change (nth (t + d - 1) ds (PData 0 0 0 0)) with (nth_data ds (t + d - 1)).
  replace (nth t (map pd_v ds) 0) with (pd_v (nth_data ds t)).
  2:{ symmetry. unfold nth_data. change 0 with (pd_v (PData 0 0 0 0)) at 1. apply map_nth. }
  cbn [Nat.add].
  replace (sum_below d (fun i => pc_gamma c ^ i * (pd_r (nth_data ds (t + i)) - pc_tau c * pd_lp (nth_data ds (t + i)))))
    with (sum_below d (fun i => pc_gamma c ^ i * pd_r (nth_data ds (t + i))) - pc_tau c * sum_below d (fun i => pc_gamma c ^ i * pd_lp (nth_data ds (t + i)))).
  - ring.
  - rewrite <- below_scale, <- below_sub. apply below_ext. intros i _. ring.
Qed.
Lemma mapR_ok : forall A (f : A -> res R) g l, (forall x, In x l -> f x = Ok (g x)) -> mapR f l = Ok (map g l).
Proof.
  intros A f g l. induction l as [|x l IH]; intros H; [reflexivity|]. cbn [mapR map]. rewrite H by (left; reflexivity). cbn [bind].
  rewrite IH by (intros y Hy; apply H; right; exact Hy). reflexivity.
Qed.
Lemma rsum_seq : forall f n a, rsum (map f (seq a n)) = sum_below n (fun i => f (a + i)%nat).
Proof.
  intros f n. induction n as [|n IH]; intros a; [reflexivity|]. rewrite below_S. cbn [seq map rsum fold_right]. fold (rsum (map f (seq (S a) n))).
  rewrite IH, Nat.add_0_r. f_equal. apply below_ext. intros i _. rewrite <- plus_n_Sm. reflexivity.
Qed.
Lemma loss_ok : forall c ds, (1 <= pc_rollout c)%nat -> ds <> [] -> p_loss c ds = Ok (consistency_loss c ds).
Proof.
  intros c ds Hr Hn. unfold p_loss, consistency_loss.
  rewrite (mapR_ok (p_error c ds) (consistency_error c ds)).
  2:{ intros t Ht. apply in_seq in Ht. apply error_ok; [exact Hr|lia]. }
  cbn [bind]. destruct (map (consistency_error c ds) (seq 0 (length ds))) as [|e es] eqn:E.
  { apply (f_equal (@length _)) in E. rewrite map_length, seq_length in E. destruct ds; [contradiction|discriminate E]. }
  rewrite <- E. rewrite map_map, rsum_seq. cbn [Nat.add]. f_equal.
  destruct (pc_normalize c); unfold Rdiv; [ring|]. rewrite Rinv_1. ring.
Qed.

Section P.
Variables St Ac : Type.
Variable model : St -> pout Ac.
Notation tr := (ptrans St Ac).

(** The episodes long enough at time [t], a prefix. *)
Fixpoint long (t : nat) (eps : list (list tr)) : list (list tr) :=
  match eps with [] => [] | ep :: r => if (length ep <=? t)%nat then [] else ep :: long t r end.
Definition at_t (t : nat) (ep : list tr) (d : tr) : tr := nth t ep d.

Lemma rows_long : forall t eps d, rows_at t eps = map (fun ep => nth t ep d) (long t eps).
Proof.
  intros t eps d. induction eps as [|ep eps IH]; [reflexivity|]. cbn [rows_at long].
  destruct (length ep <=? t)%nat eqn:E; [reflexivity|]. apply Nat.leb_gt in E.
  rewrite (nth_error_nth' ep d E). rewrite IH. reflexivity.
Qed.
Lemma long_prefix : forall t eps, long (S t) eps = firstn (length (long (S t) eps)) (long t eps).
Proof.
  intros t eps. induction eps as [|ep eps IH]; [reflexivity|]. cbn [long]. destruct (length ep <=? S t)%nat eqn:E.
  - reflexivity.
  - apply Nat.leb_gt in E. destruct (length ep <=? t)%nat eqn:E2; [apply Nat.leb_le in E2; lia|]. cbn [length firstn]. rewrite <- IH. reflexivity.
Qed.
Lemma long_in : forall t eps ep, In ep (long t eps) -> In ep eps /\ (t < length ep)%nat.
Proof.
  intros t eps ep. induction eps as [|e eps IH]; [intros []|]. cbn [long]. destruct (length e <=? t)%nat eqn:E; [intros []|].
  apply Nat.leb_gt in E. intros [->|H]; [split; [left; reflexivity|exact E]|]. destruct (IH H). split; [right; assumption|assumption].
Qed.
Lemma long_nth : forall t eps i ep, descending eps -> nth_error eps i = Some ep -> (t < length ep)%nat -> nth_error (long t eps) i = Some ep.
Proof.
  intros t eps. induction eps as [|e eps IH]; intros i ep H Hn Hl; [destruct i; discriminate Hn|]. destruct H as (He & Hd). cbn [long].
  assert (Hlen : (length ep <= length e)%nat).
  { destruct i as [|i]; cbn in Hn; [injection Hn as ->; lia|]. apply nth_error_In in Hn. rewrite Forall_forall in He. apply He. exact Hn. }
  destruct (length e <=? t)%nat eqn:E; [apply Nat.leb_le in E; lia|].
  destruct i as [|i]; cbn in *; [exact Hn|]. apply IH; assumption.
Qed.
Lemma contiguous_nth : forall (ep : list tr) t d, contiguous ep -> (S t < length ep)%nat -> pt_next (nth t ep d) = pt_state (nth (S t) ep d).
Proof.
  induction ep as [|x ep IH]; intros t d H Hl; [cbn in Hl; lia|]. destruct H as (Hx & Hr). destruct ep as [|y ep]; [cbn in Hl; lia|].
  destruct t as [|t]; [exact Hx|]. cbn [nth] in *. apply IH; [exact Hr|]. cbn [length] in *. lia.
Qed.

Lemma zip_maps : forall A B C D (f : B -> C -> D) (g : A -> B) (h : A -> C) l, zipw f (map g l) (map h l) = map (fun x => f (g x) (h x)) l.
Proof. intros. induction l as [|x l IH]; [reflexivity|]. cbn [map zipw]. rewrite IH. reflexivity. Qed.

Definition outs_ok (t : nat) (eps : list (list tr)) (d : tr) (prev : option (list (pout Ac))) : Prop :=
  match prev with
  | None => True
  | Some o => firstn (length (long t eps)) o = map (fun ep => model (pt_state (nth t ep d))) (long t eps)
  end.
Lemma step_ok : forall t eps d prev, Forall (@contiguous St Ac) eps -> outs_ok t eps d prev ->
  exists next, p_step model prev (rows_at t eps) = (next, map (fun ep => own_data model (nth t ep d)) (long t eps))
    /\ outs_ok (S t) eps d (Some next).
Proof.
  intros t eps d prev Hc Ho. rewrite (rows_long t eps d). unfold p_step. rewrite map_length.
  set (L := long t eps) in *.
  assert (Ecur : match prev with
     | Some o => firstn (length L) o
     | None => map (fun x => model (pt_state x)) (map (fun ep => nth t ep d) L) end
     = map (fun ep => model (pt_state (nth t ep d))) L).
  { destruct prev as [o|]; [exact Ho|]. rewrite map_map. reflexivity. }
  rewrite Ecur. eexists. split.
  - f_equal. rewrite !map_map, !zip_maps. apply map_ext. intros ep. unfold own_data. f_equal.
    destruct (pt_terminal (nth t ep d)); ring.
  - cbn [outs_ok]. rewrite long_prefix. rewrite firstn_length. fold L.
    replace (Nat.min (length (long (S t) eps)) (length L)) with (length (long (S t) eps)).
    2:{ assert (E := f_equal (@length _) (long_prefix t eps)). rewrite firstn_length in E. fold L in E. exact E. }
    rewrite map_map, firstn_map. rewrite <- long_prefix. apply map_ext_in. intros ep Hep. apply long_in in Hep. destruct Hep as (Hin & Hlen).
    rewrite Forall_forall in Hc. rewrite (@contiguous_nth ep t d (Hc ep Hin) Hlen). reflexivity.
Qed.
Lemma forward_ok : forall n t eps d prev, Forall (@contiguous St Ac) eps -> outs_ok t eps d prev ->
  p_forward model eps prev (seq t n) = map (fun k => map (fun ep => own_data model (nth k ep d)) (long k eps)) (seq t n).
Proof.
  induction n as [|n IH]; intros t eps d prev Hc Ho; [reflexivity|]. cbn [seq p_forward].
  destruct (@step_ok t eps d prev Hc Ho) as (next & E & Ho'). rewrite E. cbn [map]. f_equal. apply IH; assumption.
Qed.
Lemma column_ok : forall n t eps i ep d m, descending eps -> nth_error eps i = Some ep -> (t + n = length ep)%nat -> (n <= m)%nat ->
  p_column i (map (fun k => map (fun ep => own_data model (nth k ep d)) (long k eps)) (seq t m)) n = Ok (map (own_data model) (skipn t ep)).
Proof.
  induction n as [|n IH]; intros t eps i ep d m Hd Hn Hl Hm.
  - rewrite skipn_all2 by lia. destruct m; reflexivity.
  - destruct m as [|m]; [lia|]. cbn [seq map p_column].
    assert (Hlt : (t < length ep)%nat) by lia.
    rewrite (map_nth_error (fun ep0 => own_data model (nth t ep0 d)) i (long t eps) (@long_nth t eps i ep Hd Hn Hlt)).
    rewrite (IH (S t) eps i ep d m Hd Hn) by lia. cbn [bind]. f_equal.
    rewrite (@skipn_cons_nth _ ep t d Hlt). reflexivity.
Qed.

Lemma losses_ok : forall c eps pre rest d m, (1 <= pc_rollout c)%nat -> descending eps -> eps = pre ++ rest -> Forall (fun ep => ep <> [] /\ (length ep <= m)%nat) rest ->
  p_losses c (map (fun k => map (fun ep => own_data model (nth k ep d)) (long k eps)) (seq 0 m)) (length pre) rest
  = Ok (map (episode_loss model c) rest).
Proof.
  intros c eps pre rest d m Hr Hd. revert pre. induction rest as [|ep rest IH]; intros pre He Hf; [reflexivity|].
  inversion Hf as [|? ? (Hne & Hle) Hf']; subst x l. cbn [p_losses].
  rewrite (@column_ok (length ep) 0 eps (length pre) ep d m Hd); [|subst eps; rewrite nth_error_app2, Nat.sub_diag by lia; reflexivity|lia|exact Hle].
  cbn [bind skipn]. rewrite loss_ok; [|exact Hr|destruct ep; [contradiction|discriminate]]. cbn [bind].
  specialize (IH (pre ++ [ep])). rewrite app_length, Nat.add_1_r in IH. rewrite IH.
  - reflexivity.
  - rewrite <- app_assoc. exact He.
  - exact Hf'.
Qed.

Lemma replay_losses_ok : forall c eps, (1 <= pc_rollout c)%nat -> eps <> [] -> Forall (@good_episode St Ac) eps ->
  p_replay_losses model c eps = Ok (map (episode_loss model c) (sorted_episodes eps)).
Proof.
  intros c eps Hr Hne Hg. unfold p_replay_losses. assert (Hp := sorted_perm eps). assert (Hd := sorted_desc eps).
  assert (Hg' : Forall (@good_episode St Ac) (sorted_episodes eps)) by (rewrite Hp; exact Hg).
  destruct (sorted_episodes eps) as [|ep rest] eqn:E.
  { apply Permutation_nil in Hp. contradiction. }
  destruct ep as [|d ep0] eqn:Eep. { inversion Hg' as [|? ? (Hn & _) _]. contradiction. }
  rewrite <- Eep in *. clear Eep ep0.
  rewrite (@forward_ok (length ep) 0 (ep :: rest) d None).
  - change 0%nat with (length (@nil (list tr))) at 2. apply losses_ok; [exact Hr|exact Hd|reflexivity|].
    destruct Hd as (Hd1 & _). inversion Hg' as [|? ? (Hn & _) Hg'']; subst. constructor; [split; [exact Hn|lia]|].
    rewrite Forall_forall in *. intros y Hy. split; [exact (proj1 (Hg'' y Hy))|apply Hd1; exact Hy].
  - rewrite Forall_forall in *. intros y Hy. exact (proj2 (Hg' y Hy)).
  - exact I.
Qed.

Lemma wsum_losses : forall c ws eps, wsum ws (map (episode_loss model c) eps) = weighted_losses model c ws eps.
Proof. intros c ws. induction ws as [|w ws IH]; intros [|ep eps]; cbn [map wsum weighted_losses]; try reflexivity. rewrite IH. reflexivity. Qed.

Lemma replay_sorted : forall c eps ws, (1 <= pc_rollout c)%nat -> eps <> [] -> Forall (@good_episode St Ac) eps ->
  p_replay model c eps ws = Ok (replay_target model c (sorted_episodes eps) ws).
Proof.
  intros c eps ws Hr Hn Hg. unfold p_replay. rewrite replay_losses_ok by assumption. cbn [bind]. rewrite wsum_losses. reflexivity.
Qed.
Lemma replay_strict : forall c eps ws, (1 <= pc_rollout c)%nat -> eps <> [] -> Forall (@good_episode St Ac) eps -> strictly_descending eps ->
  p_replay model c eps ws = Ok (replay_target model c eps ws).
Proof. intros c eps ws Hr Hn Hg Hs. rewrite replay_sorted by assumption. rewrite sorted_strict by exact Hs. reflexivity. Qed.

Lemma weighted_const : forall c w eps n, n = length eps -> weighted_losses model c (repeat w n) eps = w * total_of (episode_loss model c) eps.
Proof.
  intros c w eps. induction eps as [|ep eps IH]; intros n ->; cbn [length repeat weighted_losses].
  - unfold total_of. cbn. ring.
  - rewrite IH by reflexivity. rewrite tot_cons. ring.
Qed.
Lemma tot_perm : forall A (f : A -> R) a b, Permutation a b -> total_of f a = total_of f b.
Proof.
  intros A f a b H. induction H as [|x a b H IH|x y a|a b d H1 IH1 H2 IH2]; [reflexivity| | |].
  - rewrite !tot_cons, IH. reflexivity.
  - rewrite !tot_cons. ring.
  - rewrite IH1. exact IH2.
Qed.
Lemma replay_const : forall c w eps, (1 <= pc_rollout c)%nat -> eps <> [] -> Forall (@good_episode St Ac) eps ->
  p_replay model c eps (repeat w (length eps)) = Ok (replay_target model c eps (repeat w (length eps))).
Proof.
  intros c w eps Hr Hn Hg. rewrite replay_sorted by assumption. unfold replay_target. f_equal. f_equal.
  rewrite !weighted_const; [|reflexivity|symmetry; apply Permutation_length, sorted_perm]. f_equal. apply tot_perm, sorted_perm.
Qed.
Lemma replay_uniform : forall c eps, (1 <= pc_rollout c)%nat -> eps <> [] -> Forall (@good_episode St Ac) eps ->
  p_replay_uniform model c eps = Ok (total_of (episode_loss model c) eps / INR (pc_batchsize c)).
Proof.
  intros c eps Hr Hn Hg. unfold p_replay_uniform. rewrite replay_const by assumption. unfold replay_target.
  rewrite weighted_const by reflexivity. do 2 f_equal. ring.
Qed.
End P.

(** Zero loss is path consistency. *)
Lemma below_nonneg0 : forall n f, (forall i, (i < n)%nat -> 0 <= f i) -> 0 <= sum_below n f.
Proof.
  induction n as [|n IH]; intros f H; cbn [sum_below]; [lra|]. assert (0 <= sum_below n f) by (apply IH; intros; apply H; lia).
  specialize (H n (Nat.lt_succ_diag_r n)). lra.
Qed.
Lemma below_zero_iff : forall n f, (forall i, (i < n)%nat -> 0 <= f i) -> (sum_below n f = 0 <-> forall i, (i < n)%nat -> f i = 0).
Proof.
  induction n as [|n IH]; intros f H; cbn [sum_below].
  - split; [intros _ i Hi; lia|reflexivity].
  - assert (H0 : 0 <= sum_below n f) by (apply below_nonneg0; intros; apply H; lia).
    assert (Hn := H n (Nat.lt_succ_diag_r n)). destruct (IH f (fun i Hi => H i (Nat.lt_lt_succ_r _ _ Hi))) as (A & B). split.
    + intros E i Hi. destruct (Nat.eq_dec i n) as [->|Hin]; [lra|]. apply A; [lra|lia].
    + intros E. rewrite (B (fun i Hi => E i (Nat.lt_lt_succ_r _ _ Hi))), (E n (Nat.lt_succ_diag_r n)). ring.
Qed.
Lemma zero_loss_lemma : forall c ds, (1 <= pc_rollout c)%nat -> ds <> [] -> 0 < pc_tau c -> 0 <= pc_pi_coef c -> 0 <= pc_v_coef c ->
  0 < pc_pi_coef c + pc_v_coef c ->
  exists l, p_loss c ds = Ok l /\ 0 <= l /\ (l = 0 <-> forall t, (t < length ds)%nat -> consistency_error c ds t = 0).
Proof.
  intros c ds Hr Hn Ht Hp Hv Hpv. exists (consistency_loss c ds). split; [apply loss_ok; assumption|].
  unfold consistency_loss.
  assert (Hk : 0 < pc_pi_coef c / pc_tau c + pc_v_coef c).
  { assert (Hi := Rinv_0_lt_compat _ Ht). unfold Rdiv.
    destruct (Rle_lt_or_eq_dec _ _ Hp) as [L|Z0].
    - assert (0 < pc_pi_coef c * / pc_tau c) by (apply Rmult_lt_0_compat; assumption). lra.
    - rewrite <- Z0, Rmult_0_l. lra. }
  set (k := (if pc_normalize c then INR (length ds) else 1)).
  assert (Hkk : 0 < k).
  { subst k. destruct (pc_normalize c); [|lra]. apply lt_0_INR. destruct ds; [contradiction|cbn; lia]. }
  assert (Hsq : forall i, (i < length ds)%nat -> 0 <= consistency_error c ds i ^ 2) by (intros; apply pow2_ge_0).
  assert (H0 := @below_nonneg0 (length ds) (fun t => consistency_error c ds t ^ 2) Hsq).
  assert (Hik := Rinv_0_lt_compat _ Hkk).
  set (Sm := sum_below (length ds) (fun t => consistency_error c ds t ^ 2)) in *.
  set (K := (pc_pi_coef c / pc_tau c + pc_v_coef c) / 2). assert (HK : 0 < K) by (unfold K; lra).
  split; [|split].
  - unfold Rdiv. apply Rmult_le_pos; [apply Rmult_le_pos; lra|lra].
  - intros E. assert (Sm = 0).
    { unfold Rdiv in E. apply Rmult_integral in E. destruct E as [E|E]; [|lra]. apply Rmult_integral in E. destruct E as [E|E]; [lra|exact E]. }
    intros t Hlt. assert (Z2 := proj1 (@below_zero_iff _ (fun t => consistency_error c ds t ^ 2) Hsq) H t Hlt). cbn beta in Z2.
    destruct (Req_dec (consistency_error c ds t) 0) as [Z0|Z0]; [exact Z0|]. exfalso. apply (pow_nonzero _ 2 Z0). exact Z2.
  - intros E. assert (HS : Sm = 0).
    { apply (@below_zero_iff _ (fun t => consistency_error c ds t ^ 2) Hsq). intros i Hi. rewrite (E i Hi). ring. }
    rewrite HS. unfold Rdiv. ring.
Qed.
