From Coq Require Import Reals List Arith ZArith Bool Lia.
From Verif Require Import Base.PyBase Model.Distributions Model.Targets Model.ActionValue Model.ABCEnv Spec.SumSpec Spec.DistributionSpec Spec.TargetSpec Spec.ActionValueSpec Spec.ABCSpec.
From Verif Require Import Proofs.RSumFacts Proofs.DistributionProofs Proofs.ActionValueProofs.
Import ListNotations.

Lemma upd_one_hot_aux : forall n k i, upd (repeat 0%Z n) i 1%Z = map (fun j => if j =? k + i then 1%Z else 0%Z) (seq k n).
Proof.
  induction n; intros k i; cbn [repeat seq map upd]; [reflexivity|]. destruct i.
  - rewrite Nat.add_0_r, Nat.eqb_refl. f_equal.
    clear IHn. assert (G : forall m a, k < a -> repeat 0%Z m = map (fun j => if j =? k then 1%Z else 0%Z) (seq a m)).
    { induction m; intros a Ha; cbn; [reflexivity|]. destruct (a =? k) eqn:E; [apply Nat.eqb_eq in E; lia|]. f_equal. apply IHm. lia. }
    apply G. lia.
  - destruct (k =? k + S i) eqn:E; [apply Nat.eqb_eq in E; lia|]. f_equal. rewrite (IHn (S k) i).
    apply map_ext. intros j. replace (S k + i) with (k + S i) by lia. reflexivity.
Qed.
Lemma observe_ok : forall c s, a_state s + a_offset s < n_dim_obs c -> observe c s = Ok (one_hot (n_dim_obs c) (a_state s + a_offset s)).
Proof.
  intros c s H. unfold observe. apply Nat.ltb_lt in H. rewrite H. f_equal. unfold one_hot. rewrite (upd_one_hot_aux _ 0). reflexivity.
Qed.
Lemma in_order_snoc : forall n, in_order (S n) = in_order n ++ [Z.of_nat n].
Proof. intros n. unfold in_order. rewrite seq_S, map_app. reflexivity. Qed.
Lemma in_order_length : forall n, length (in_order n) = n.
Proof. intros n. unfold in_order. rewrite map_length, seq_length. reflexivity. Qed.
Lemma all_correct_iff : forall l, all_correct l = true <-> l = in_order (length l).
Proof. intros l. unfold all_correct. destruct (list_eq_dec Z.eq_dec l (in_order (length l))); split; congruence. Qed.
Lemma all_correct_snoc : forall l a, all_correct (l ++ [a]) = all_correct l && (a =? Z.of_nat (length l))%Z.
Proof.
  intros l a. apply eq_true_iff_eq. rewrite andb_true_iff, !all_correct_iff, app_length. cbn [length].
  rewrite Nat.add_1_r, in_order_snoc, Z.eqb_eq. split.
  - intros E. apply app_inj_tail in E. exact E.
  - intros [E ->]. rewrite <- E. reflexivity.
Qed.

(** Step by step over the history. *)
Lemma steps_app : forall c l1 l2 s, abc_steps c (l1 ++ l2) s =
  (let! (o1, s) := abc_steps c l1 s in let! (o2, s) := abc_steps c l2 s in Ok (o1 ++ o2, s)).
Proof.
  intros c. induction l1 as [|a l1 IH]; intros l2 s.
  - cbn [app abc_steps bind]. destruct (abc_steps c l2 s) as [[o2 s']|]; reflexivity.
  - cbn [app abc_steps]. destruct (abc_step c a s) as [[[[o r] d] s1]|]; cbn [bind]; [|reflexivity].
    rewrite IH. destruct (abc_steps c l1 s1) as [[o1 s2]|]; cbn [bind]; [|reflexivity].
    destruct (abc_steps c l2 s2) as [[o2 s3]|]; reflexivity.
Qed.

Definition ep_state (size : nat) (l : list Z) : nat := if all_correct l then length l else size.
Definition ep_out (c : abc_conf) (off : nat) (l : list Z) : list Z * Z * bool :=
  let st := ep_state (a_size c) l in
  (one_hot (n_dim_obs c) (st + off), if all_correct l && (length l =? a_size c) then 1%Z else 0%Z, st =? a_size c).

Lemma all_correct_bound : forall size l, (forall a, In a l -> in_space size a) -> all_correct l = true -> length l <= size.
Proof.
  intros size l H E. apply all_correct_iff in E. destruct (length l) as [|n] eqn:L; [lia|].
  rewrite E in H. rewrite in_order_snoc in H. specialize (H (Z.of_nat n)). unfold in_space in H.
  assert (In (Z.of_nat n) (in_order n ++ [Z.of_nat n])) by (apply in_or_app; right; left; reflexivity). specialize (H H0). lia.
Qed.

Lemma episodic_steps : forall c off acts, a_episodic c = true -> off <= 1 ->
  1 <= a_size c -> (forall a, In a acts -> in_space (a_size c) a) ->
  abc_steps c acts (mk_abc_state 0 off) =
    Ok (map (fun i => ep_out c off (firstn (S i) acts)) (seq 0 (length acts)), mk_abc_state (ep_state (a_size c) acts) off).
Proof.
  intros c off acts He Ho Hs. induction acts as [|a l IH] using rev_ind; intros Hin.
  - reflexivity.
  - rewrite steps_app, IH by (intros x Hx; apply Hin, in_or_app; left; exact Hx). cbn [bind].
    rewrite app_length, Nat.add_1_r, seq_S, map_app. cbn [map plus]. 
    assert (Hm : map (fun i => ep_out c off (firstn (S i) (l ++ [a]))) (seq 0 (length l)) = map (fun i => ep_out c off (firstn (S i) l)) (seq 0 (length l))).
    { apply map_ext_in. intros i Hi. apply in_seq in Hi. rewrite firstn_app. replace (S i - length l) with 0 by lia. rewrite firstn_O, app_nil_r. reflexivity. }
    rewrite Hm. clear Hm.
    assert (Hf : firstn (S (length l)) (l ++ [a]) = l ++ [a]) by (apply firstn_all2; rewrite app_length; cbn; lia). rewrite Hf.
    assert (Hst : ep_state (a_size c) l <= a_size c).
    { unfold ep_state. destruct (all_correct l) eqn:E; [|lia]. apply all_correct_bound; [|exact E]. intros x Hx. apply Hin, in_or_app; left; exact Hx. }
    assert (Ha : in_space (a_size c) a) by (apply Hin, in_or_app; right; left; reflexivity).
    assert (Hout : abc_step c a (mk_abc_state (ep_state (a_size c) l) off) =
      Ok (fst (fst (ep_out c off (l ++ [a]))), snd (fst (ep_out c off (l ++ [a]))), snd (ep_out c off (l ++ [a])), mk_abc_state (ep_state (a_size c) (l ++ [a])) off)).
    { unfold abc_step. cbn [a_state a_offset]. rewrite He. unfold ep_out. cbn [fst snd].
      assert (Hnew : all_correct (l ++ [a]) = all_correct l && (a =? Z.of_nat (length l))%Z) by apply all_correct_snoc.
      assert (HL : length (l ++ [a]) = S (length l)) by (rewrite app_length; cbn; lia).
      unfold ep_state in *. rewrite Hnew. unfold in_space in Ha. destruct (all_correct l) eqn:E; cbn [andb] in *.
      - destruct (a =? Z.of_nat (length l))%Z eqn:Ea; rewrite ?HL.
        + apply Z.eqb_eq in Ea. destruct (S (length l) =? a_size c) eqn:Es.
          * apply Nat.eqb_eq in Es. rewrite observe_ok by (cbn [a_state a_offset]; unfold n_dim_obs, n_max_offset; lia). cbn [bind a_state a_offset]. rewrite !Es. reflexivity.
          * rewrite observe_ok by (cbn [a_state a_offset]; unfold n_dim_obs, n_max_offset; lia). reflexivity.
        + rewrite observe_ok by (cbn [a_state a_offset]; unfold n_dim_obs, n_max_offset; lia). rewrite Nat.eqb_refl. reflexivity.
      - destruct (a =? Z.of_nat (a_size c))%Z eqn:Ea; [apply Z.eqb_eq in Ea; lia|].
        rewrite observe_ok by (cbn [a_state a_offset]; unfold n_dim_obs, n_max_offset; lia). rewrite Nat.eqb_refl. reflexivity. }
    cbn [abc_steps]. rewrite Hout. cbn [bind]. destruct (ep_out c off (l ++ [a])) as [[o r] d]. reflexivity.
Qed.

Lemma episodic_ok : forall c off acts, a_episodic c = true -> off <= 1 -> 1 <= a_size c -> (forall a, In a acts -> in_space (a_size c) a) ->
  exists out s, abc_steps c acts (mk_abc_state 0 off) = Ok (out, s) /\ length out = length acts /\
  forall i, i < length acts -> nth_error out i = Some
    (if all_correct (firstn (S i) acts)
     then (one_hot (a_size c + 2) (S i + off), if S i =? a_size c then 1%Z else 0%Z, S i =? a_size c)
     else (one_hot (a_size c + 2) (a_size c + off), 0%Z, true)).
Proof.
  intros c off acts He Ho Hs Hin. rewrite episodic_steps by assumption. eexists; eexists. split; [reflexivity|].
  rewrite map_length, seq_length. split; [reflexivity|]. intros i Hi.
  rewrite nth_error_map, (nth_error_nth' _ 0) by (rewrite seq_length; lia). rewrite seq_nth by lia. cbn [option_map plus].
  unfold ep_out, ep_state. replace (n_dim_obs c) with (a_size c + 2) by (unfold n_dim_obs, n_max_offset; lia).
  rewrite firstn_length_le by lia.
  destruct (all_correct (firstn (S i) acts)); cbn [andb]; [reflexivity|]. rewrite Nat.eqb_refl. reflexivity.
Qed.

Lemma total_app : forall l m, total (l ++ m) = (total l + total m)%Z.
Proof. unfold total. induction l; intros m; cbn [app fold_right]; [reflexivity|]. rewrite IHl. lia. Qed.
Lemma all_correct_firstn : forall l n, all_correct l = true -> all_correct (firstn n l) = true.
Proof.
  induction l as [|a l IH] using rev_ind; intros n H; [rewrite firstn_nil; reflexivity|].
  rewrite all_correct_snoc in H. apply andb_true_iff in H. destruct H as [H1 H2].
  destruct (le_lt_dec n (length l)).
  - rewrite firstn_app. replace (n - length l) with 0 by lia. rewrite firstn_O, app_nil_r. apply IH, H1.
  - rewrite firstn_all2 by (rewrite app_length; cbn; lia). rewrite all_correct_snoc, H1, H2. reflexivity.
Qed.
Lemma episodic_total : forall c off acts out s, a_episodic c = true -> off <= 1 -> 1 <= a_size c -> (forall a, In a acts -> in_space (a_size c) a) ->
  abc_steps c acts (mk_abc_state 0 off) = Ok (out, s) ->
  total (map (fun x => snd (fst x)) out) = if list_eq_dec Z.eq_dec (firstn (a_size c) acts) (in_order (a_size c)) then 1%Z else 0%Z.
Proof.
  intros c off acts out s He Ho Hs Hin H. rewrite episodic_steps in H by assumption. injection H as <- _.
  rewrite map_map. unfold ep_out. cbn [fst snd].
  assert (G : forall k, k <= length acts -> total (map (fun i => if all_correct (firstn (S i) acts) && (length (firstn (S i) acts) =? a_size c) then 1%Z else 0%Z) (seq 0 k)) =
     if (a_size c <=? k) && all_correct (firstn (a_size c) acts) then 1%Z else 0%Z).
  { induction k; intros Hk.
    - destruct (a_size c <=? 0) eqn:E; [apply Nat.leb_le in E; lia|reflexivity].
    - rewrite seq_S, map_app, total_app, IHk by lia. cbn [map total fold_right plus]. rewrite firstn_length_le by lia.
      destruct (S k =? a_size c) eqn:E.
      + apply Nat.eqb_eq in E. rewrite <- E. replace (S k <=? k) with false by (symmetry; apply Nat.leb_gt; lia). rewrite Nat.leb_refl.
        cbn [andb]. rewrite andb_true_r. destruct (all_correct (firstn (S k) acts)); reflexivity.
      + rewrite andb_false_r. apply Nat.eqb_neq in E.
        replace (a_size c <=? S k) with (a_size c <=? k); [lia|]. destruct (a_size c <=? k) eqn:E1; symmetry; [apply Nat.leb_le in E1; apply Nat.leb_le; lia|apply Nat.leb_gt in E1; apply Nat.leb_gt; lia]. }
  rewrite G by lia. destruct (list_eq_dec Z.eq_dec (firstn (a_size c) acts) (in_order (a_size c))) as [E|E].
  - assert (L : length (firstn (a_size c) acts) = a_size c) by (rewrite E; apply in_order_length). rewrite firstn_length in L.
    replace (a_size c <=? length acts) with true by (symmetry; apply Nat.leb_le; lia).
    replace (all_correct (firstn (a_size c) acts)) with true; [reflexivity|]. symmetry. apply all_correct_iff. rewrite E, in_order_length. reflexivity.
  - destruct (a_size c <=? length acts) eqn:L; [|reflexivity]. apply Nat.leb_le in L. destruct (all_correct (firstn (a_size c) acts)) eqn:A; [|reflexivity].
    apply all_correct_iff in A. rewrite firstn_length_le in A by lia. contradiction.
Qed.

(** Without episodes. *)
Lemma hits_snoc : forall size l a, hits size (l ++ [a]) = if hit size (hits size l) a then S (hits size l) else hits size l.
Proof. intros. unfold hits. rewrite fold_left_app. reflexivity. Qed.
Definition ne_out (c : abc_conf) (off : nat) (l : list Z) (a : Z) : list Z * Z * bool :=
  let h := hits (a_size c) l in let h' := hits (a_size c) (l ++ [a]) in
  (one_hot (a_size c + 2) (h' mod a_size c + off), Z.of_nat (h' / a_size c - h / a_size c), false).

Lemma succ_mod_last : forall s n, S (s mod n) = n -> n <> 0 -> S s mod n = 0 /\ S s / n = S (s / n).
Proof.
  intros s n H Hn. pose proof (Nat.div_mod s n Hn) as E.
  assert (E2 : S s = n * S (s / n) + 0) by (rewrite Nat.mul_succ_r; lia). split.
  - rewrite E2. rewrite Nat.add_0_r, Nat.mul_comm. apply Nat.mod_mul; lia.
  - symmetry. apply (Nat.div_unique _ _ _ 0); lia.
Qed.
Lemma succ_mod_other : forall s n, S (s mod n) <> n -> n <> 0 -> S s mod n = S (s mod n) /\ S s / n = s / n.
Proof.
  intros s n H Hn. pose proof (Nat.div_mod s n Hn) as E. pose proof (Nat.mod_upper_bound s n Hn). split.
  - symmetry. apply (Nat.mod_unique _ _ (s / n)); lia.
  - symmetry. apply (Nat.div_unique _ _ _ (S (s mod n))); lia.
Qed.

Lemma nonepisodic_steps : forall c off acts, a_episodic c = false -> off <= 1 -> 1 <= a_size c ->
  exists out, abc_steps c acts (mk_abc_state 0 off) = Ok (out, mk_abc_state (hits (a_size c) acts mod a_size c) off) /\
    length out = length acts /\
    (forall i a, nth_error acts i = Some a -> nth_error out i = Some (ne_out c off (firstn i acts) a)) /\
    total (map (fun x => snd (fst x)) out) = Z.of_nat (hits (a_size c) acts / a_size c).
Proof.
  intros c off acts He Ho Hs. induction acts as [|a l IH] using rev_ind.
  - exists []. cbn [abc_steps]. unfold hits. cbn [fold_left]. rewrite Nat.mod_0_l, Nat.div_0_l by lia. split; [reflexivity|]. split; [reflexivity|]. split; [|reflexivity]. intros i a H. destruct i; discriminate.
  - destruct IH as (out & E & L & O & T). rewrite steps_app, E. cbn [bind abc_steps].
    set (h := hits (a_size c) l) in *.
    assert (Hb : h mod a_size c < a_size c) by (apply Nat.mod_upper_bound; lia).
    assert (Hstep : abc_step c a (mk_abc_state (h mod a_size c) off) =
      Ok (fst (fst (ne_out c off l a)), snd (fst (ne_out c off l a)), snd (ne_out c off l a), mk_abc_state (hits (a_size c) (l ++ [a]) mod a_size c) off)).
    { unfold abc_step, ne_out. cbn [a_state a_offset fst snd]. rewrite He. rewrite hits_snoc. fold h. unfold hit.
      replace (a_size c + 2) with (n_dim_obs c) by (unfold n_dim_obs, n_max_offset; lia).
      destruct (a =? Z.of_nat (h mod a_size c))%Z.
      - destruct (S (h mod a_size c) =? a_size c) eqn:Es.
        + apply Nat.eqb_eq in Es. destruct (succ_mod_last _ _ Es) as [M D]; [lia|]. rewrite M, D.
          replace (S (h / a_size c) - h / a_size c) with 1 by lia.
          rewrite observe_ok by (cbn [a_state a_offset]; unfold n_dim_obs, n_max_offset; lia). reflexivity.
        + apply Nat.eqb_neq in Es. destruct (succ_mod_other _ _ Es) as [M D]; [lia|]. rewrite M, D, Nat.sub_diag.
          rewrite observe_ok by (cbn [a_state a_offset]; unfold n_dim_obs, n_max_offset; lia). reflexivity.
      - rewrite Nat.sub_diag. rewrite observe_ok by (cbn [a_state a_offset]; unfold n_dim_obs, n_max_offset; lia). reflexivity. }
    rewrite Hstep. cbn [bind]. eexists. split; [reflexivity|].
    rewrite !app_length. cbn [length]. split; [lia|]. split.
    + intros i b Hi. destruct (Nat.eq_dec i (length l)) as [->|Hne].
      * rewrite nth_error_app2 in Hi by lia. rewrite Nat.sub_diag in Hi. injection Hi as <-.
        rewrite nth_error_app2 by lia. rewrite L, Nat.sub_diag. cbn [nth_error].
        replace (firstn (length l) (l ++ [a])) with l; [destruct (ne_out c off l a) as [[? ?] ?]; reflexivity|].
        rewrite firstn_app, Nat.sub_diag, firstn_O, app_nil_r, firstn_all. reflexivity.
      * assert (i < length l).
        { assert (i < length (l ++ [a])) by (apply nth_error_Some; congruence). rewrite app_length in H. cbn in H. lia. }
        rewrite nth_error_app1 in Hi by lia. rewrite nth_error_app1 by lia. rewrite (O i b Hi). f_equal. f_equal.
        rewrite firstn_app. replace (i - length l) with 0 by lia. rewrite firstn_O, app_nil_r. reflexivity.
    + rewrite map_app, total_app, T. cbn [map total fold_right fst snd]. unfold ne_out. cbn [fst snd].
      rewrite Z.add_0_r, <- Nat2Z.inj_add. f_equal. fold h.
      assert (h / a_size c <= hits (a_size c) (l ++ [a]) / a_size c).
      { apply Nat.div_le_mono; [lia|]. rewrite hits_snoc. fold h. destruct (hit (a_size c) h a); lia. }
      lia.
Qed.

Lemma hits_le : forall size l, hits size l <= length l.
Proof. intros size l. induction l as [|a l IH] using rev_ind; [cbn; lia|]. rewrite hits_snoc, app_length. cbn [length]. destruct (hit size (hits size l) a); lia. Qed.
Lemma hits_all : forall size l, hits size l = length l <-> (forall i a, nth_error l i = Some a -> a = Z.of_nat (i mod size)).
Proof.
  intros size l. induction l as [|a l IH] using rev_ind.
  - split; [intros _ i a H; destruct i; discriminate|reflexivity].
  - rewrite hits_snoc, app_length. cbn [length]. pose proof (hits_le size l) as Hle. split.
    + intros H. assert (hits size l = length l /\ hit size (hits size l) a = true).
      { destruct (hit size (hits size l) a); [split; [lia|reflexivity]|lia]. }
      destruct H0 as [E1 E2]. rewrite E1 in E2. apply Z.eqb_eq in E2. pose proof (proj1 IH E1) as G.
      intros i b Hb. destruct (Nat.eq_dec i (length l)) as [->|Hne].
      * rewrite nth_error_app2 in Hb by lia. rewrite Nat.sub_diag in Hb. injection Hb as <-. exact E2.
      * assert (i < length (l ++ [a])) by (apply nth_error_Some; congruence). rewrite app_length in H0. cbn in H0.
        rewrite nth_error_app1 in Hb by lia. apply G, Hb.
    + intros H. assert (E1 : hits size l = length l).
      { apply IH. intros i b Hb. apply H. rewrite nth_error_app1; [exact Hb|]. apply nth_error_Some. congruence. }
      assert (E2 : hit size (hits size l) a = true).
      { rewrite E1. apply Z.eqb_eq, H. rewrite nth_error_app2, Nat.sub_diag by lia. reflexivity. }
      rewrite E2. lia.
Qed.

(** Optimal behaviour without episodes. *)
Lemma nonepisodic_best : forall c off acts out s, a_episodic c = false -> off <= 1 -> 1 <= a_size c ->
  abc_steps c acts (mk_abc_state 0 off) = Ok (out, s) ->
  (total (map (fun x => snd (fst x)) out) <= Z.of_nat (length acts / a_size c))%Z /\
  ((forall i a, nth_error acts i = Some a -> a = Z.of_nat (i mod a_size c)) ->
   total (map (fun x => snd (fst x)) out) = Z.of_nat (length acts / a_size c)).
Proof.
  intros c off acts out s He Ho Hs H. destruct (nonepisodic_steps c off acts He Ho Hs) as (out' & E & _ & _ & T).
  rewrite E in H. injection H as <- _. rewrite T. split.
  - apply inj_le. apply Nat.div_le_mono; [lia|apply hits_le].
  - intros G. rewrite (proj2 (hits_all _ _) G). reflexivity.
Qed.

(** Runs never fail. *)
Lemma step_inv : forall c a s, 1 <= a_size c -> in_space (a_size c) a -> a_state s <= a_size c -> a_offset s <= 1 ->
  exists o r d s', abc_step c a s = Ok (o, r, d, s') /\ o = one_hot (a_size c + 2) (a_state s' + a_offset s') /\ a_state s' <= a_size c /\ a_offset s' = a_offset s.
Proof.
  intros c a s Hs Ha H1 H2. unfold in_space in Ha. unfold abc_step.
  replace (a_size c + 2) with (n_dim_obs c) by (unfold n_dim_obs, n_max_offset; lia).
  destruct (a =? Z.of_nat (a_state s))%Z eqn:Ea; [destruct (S (a_state s) =? a_size c) eqn:Es|]; [destruct (a_episodic c)| |destruct (a_episodic c)];
  cbv beta iota zeta;
  (match goal with |- context[observe c ?x] => rewrite (observe_ok c x) by (cbn [a_state a_offset]; unfold n_dim_obs, n_max_offset; lia) end); cbn [bind];
  do 4 eexists; (split; [reflexivity|]); cbn [a_state a_offset]; (split; [reflexivity|]); split; lia.
Qed.
Lemma run_inv : forall c ops s, 1 <= a_size c -> (forall o, In o ops -> op_ok c o) -> (s = None -> match ops with AStep _ :: _ => False | _ => True end) ->
  (forall x, s = Some x -> a_state x <= a_size c /\ a_offset x <= 1) ->
  exists os s', abc_run c ops s = Ok (os, s') /\ length os = length ops /\ forall o, In o os -> exists k, k <= a_size c + 1 /\ o = one_hot (a_size c + 2) k.
Proof.
  intros c ops. induction ops as [|op ops IH]; intros s Hs Hop Hn Hi.
  - exists [], s. cbn. repeat split. intros o [].
  - cbn [abc_run]. destruct op as [d|a].
    + unfold abc_reset. set (off := if a_po c then _ else 0).
      assert (Hoff : off <= 1).
      { unfold off. destruct (a_po c); [|lia]. destruct (a_det c).
        - assert (G := Nat.mod_upper_bound (match s with Some s => a_offset s | None => 0 end + 1) (n_max_offset + 1)). unfold n_max_offset in *. lia.
        - apply (Hop (AReset d)). left. reflexivity. }
      rewrite observe_ok by (cbn [a_state a_offset]; unfold n_dim_obs, n_max_offset; lia). cbn [bind a_state a_offset].
      destruct (IH (Some (mk_abc_state 0 off))) as (os & s' & E & L & O); [exact Hs|intros o Ho; apply Hop; right; exact Ho|discriminate|intros x Hx; injection Hx as <-; cbn; lia|].
      rewrite E. cbn [bind]. eexists; eexists. split; [reflexivity|]. cbn [length]. split; [lia|]. intros o [<-|Ho]; [|apply O, Ho].
      exists off. split; [lia|]. replace (n_dim_obs c) with (a_size c + 2) by (unfold n_dim_obs, n_max_offset; lia). reflexivity.
    + destruct s as [s|]; [|destruct (Hn eq_refl)]. destruct (Hi s eq_refl) as [H1 H2].
      destruct (step_inv c a s Hs) as (o & r & d & s1 & E1 & Eo & H3 & H4); [apply (Hop (AStep a)); left; reflexivity|exact H1|exact H2|].
      rewrite E1. cbn [bind].
      destruct (IH (Some s1)) as (os & s' & E & L & O); [exact Hs|intros x Hx; apply Hop; right; exact Hx|discriminate|intros x Hx; injection Hx as <-; lia|].
      rewrite E. cbn [bind]. eexists; eexists. split; [reflexivity|]. cbn [length]. split; [lia|]. intros x [<-|Hx]; [|apply O, Hx].
      exists (a_state s1 + a_offset s1). split; [lia|exact Eo].
Qed.

(** Shifts. *)
Lemma reset_ok : forall c draw s, draw <= 1 -> (forall x, s = Some x -> a_offset x <= 1) ->
  exists off, abc_reset c draw s = Ok (one_hot (a_size c + 2) off, mk_abc_state 0 off) /\
    off = (if a_po c then if a_det c then (match s with Some x => 1 - a_offset x | None => 1 end) else draw else 0).
Proof.
  intros c draw s Hd Hs. unfold abc_reset. cbv zeta.
  set (off := if a_po c then if a_det c then _ else draw else 0).
  exists (if a_po c then if a_det c then (match s with Some x => 1 - a_offset x | None => 1 end) else draw else 0). split; [|reflexivity].
  assert (E : off = if a_po c then if a_det c then (match s with Some x => 1 - a_offset x | None => 1 end) else draw else 0).
  { unfold off. destruct (a_po c); [|reflexivity]. destruct (a_det c); [|reflexivity]. unfold n_max_offset. destruct s as [x|]; [|reflexivity].
    specialize (Hs x eq_refl). destruct (a_offset x) as [|[|]]; [reflexivity|reflexivity|lia]. }
  rewrite <- E. assert (off <= 1).
  { rewrite E. destruct (a_po c); [|lia]. destruct (a_det c); [|lia]. destruct s as [x|]; lia. }
  rewrite observe_ok by (cbn [a_state a_offset]; unfold n_dim_obs, n_max_offset; lia). cbn [bind a_state a_offset].
  replace (n_dim_obs c) with (a_size c + 2) by (unfold n_dim_obs, n_max_offset; lia). reflexivity.
Qed.

Lemma step_offset : forall c a s o r d s', abc_step c a s = Ok (o, r, d, s') -> a_offset s' = a_offset s.
Proof.
  intros c a s o r d s'. unfold abc_step. destruct (if (a =? _)%Z then _ else _) as [[r1 d1] st].
  destruct (observe c (mk_abc_state st (a_offset s))); cbn [bind]; intros H; inversion H. reflexivity.
Qed.
Lemma run_offset : forall c ops s os s', a_po c = true -> a_det c = true -> (forall x, s = Some x -> a_offset x <= 1) ->
  abc_run c ops s = Ok (os, s') ->
  exists k, match s' with Some x => a_offset x = k | None => k = 0 end /\ k = ((match s with Some x => a_offset x | None => 0 end) + resets ops) mod 2.
Proof.
  intros c ops. induction ops as [|op ops IH]; intros s os s' Hp Hd Hs H.
  - injection H as _ <-. exists (match s with Some x => a_offset x | None => 0 end). split; [destruct s; reflexivity|].
    cbn [resets filter length]. rewrite Nat.add_0_r, Nat.mod_small; [reflexivity|]. destruct s as [x|]; [specialize (Hs x eq_refl); lia|lia].
  - cbn [abc_run] in H. destruct op as [d|a].
    + unfold abc_reset in H. rewrite Hp, Hd in H.
      set (off := (match s with Some s => a_offset s | None => 0 end + 1) mod (n_max_offset + 1)) in *.
      destruct (observe c (mk_abc_state 0 off)) as [o|] eqn:Eo; cbn [bind] in H; [|discriminate].
      destruct (abc_run c ops (Some (mk_abc_state 0 off))) as [[os1 s1]|] eqn:E; cbn [bind] in H; [|discriminate]. injection H as _ <-.
      assert (Hoff : off <= 1) by (pose proof (Nat.mod_upper_bound (match s with Some s => a_offset s | None => 0 end + 1) (n_max_offset + 1)); unfold off, n_max_offset in *; lia).
      assert (Hx0 : forall x, Some (mk_abc_state 0 off) = Some x -> a_offset x <= 1) by (intros x Hx; injection Hx as <-; exact Hoff).
      destruct (IH _ _ _ Hp Hd Hx0 E) as (k & K1 & K2).
      exists k. split; [exact K1|]. rewrite K2. cbn [a_offset]. unfold off, n_max_offset, resets. cbn [filter is_reset length plus].
      rewrite Nat.add_mod_idemp_l by lia. f_equal. lia.
    + destruct s as [s|]; [|discriminate]. destruct (abc_step c a s) as [[[[o r] d] s1]|] eqn:E1; cbn [bind] in H; [|discriminate].
      destruct (abc_run c ops (Some s1)) as [[os1 s2]|] eqn:E; cbn [bind] in H; [|discriminate]. injection H as _ <-.
      pose proof (step_offset _ _ _ _ _ _ _ E1) as Hso.
      assert (Hx0 : forall x, Some s1 = Some x -> a_offset x <= 1) by (intros x Hx; injection Hx as <-; rewrite Hso; apply Hs; reflexivity).
      destruct (IH _ _ _ Hp Hd Hx0 E) as (k & K1 & K2).
      exists k. split; [exact K1|]. rewrite K2, Hso. reflexivity.
Qed.
Lemma shift_ok : forall c ops os s draw, a_po c = true -> a_det c = true -> draw <= 1 -> abc_run c ops None = Ok (os, s) ->
  exists s', abc_reset c draw s = Ok (one_hot (a_size c + 2) ((resets ops + 1) mod 2), s').
Proof.
  intros c ops os s draw Hp Hd Hdr H. assert (Hx0 : forall x : abc, None = Some x -> a_offset x <= 1) by discriminate.
  destruct (run_offset c ops None os s Hp Hd Hx0 H) as (k & K1 & K2).
  cbn [plus] in K2. assert (k <= 1) by (pose proof (Nat.mod_upper_bound (resets ops) 2); lia).
  destruct (reset_ok c draw s Hdr) as (off & E & Eo). { intros x ->. lia. }
  exists (mk_abc_state 0 off). rewrite E. rewrite Hp, Hd in Eo. do 3 f_equal. rewrite Eo.
  rewrite <- (Nat.add_mod_idemp_l (resets ops) 1 2) by lia. rewrite <- K2.
  destruct s as [x|]; [rewrite K1|rewrite K1]; [destruct k as [|[|]]; [reflexivity|reflexivity|lia]|reflexivity].
Qed.

(** Continuous actions. *)
Local Open Scope R_scope.
Lemma clip1_mono : forall x y, x <= y -> clip1 x <= clip1 y.
Proof. intros x y H. unfold clip1, Rmin, Rmax. repeat (destruct (Rle_dec _ _)); Lra.lra. Qed.
Lemma clip1_id : forall x, -1 <= x <= 1 -> clip1 x = x.
Proof. intros x H. unfold clip1, Rmin, Rmax. repeat (destruct (Rle_dec _ _)); Lra.lra. Qed.
Lemma inner_probs_softmax : forall v, inner_probs v = softmax (map clip1 v).
Proof. reflexivity. Qed.

Lemma first_greedy_map : forall f l a, (forall x y, x < y -> f x < f y) -> first_greedy l a -> first_greedy (map f l) a.
Proof.
  intros f l a Hf (m & A & B & C). exists (f m). rewrite nth_error_map, A. split; [reflexivity|]. split.
  - intros x Hx. apply in_map_iff in Hx. destruct Hx as (y & <- & Hy). destruct (B y Hy) as [H|H]; [left; apply Hf, H|right; rewrite H; reflexivity].
  - intros j x Hj E. rewrite nth_error_map in E. destruct (nth_error l j) as [y|] eqn:Ey; [|discriminate]. injection E as <-. apply Hf, (C j y Hj Ey).
Qed.
Lemma softmax_greedy : forall l a, l <> [] -> first_greedy l a -> first_greedy (softmax l) a.
Proof.
  intros l a Hl H. unfold softmax. apply first_greedy_map; [|exact H]. intros x y Hxy.
  apply Rmult_lt_compat_r; [apply Rinv_0_lt_compat, z_pos, Hl|apply exp_increasing, Hxy].
Qed.
Lemma map_nonempty : forall (f : R -> R) v, v <> [] -> map f v <> [].
Proof. intros f [|x v] H; [congruence|discriminate]. Qed.
Lemma continuous_ok : forall v choice, v <> [] ->
  probability (inner_probs v) /\ (forall p, In p (inner_probs v) -> 0 < p) /\ length (inner_probs v) = length v /\
  inner_action false choice v = Ok (Z.of_nat (choice (inner_probs v))) /\
  (exists a, inner_action true choice v = Ok (Z.of_nat a) /\ (a < length v)%nat /\ first_greedy (inner_probs v) a /\
     ((forall x, In x v -> -1 <= x <= 1) -> first_greedy v a)).
Proof.
  intros v choice H. pose proof (map_nonempty clip1 v H) as H'. split; [apply softmax_prob, H'|]. split; [apply softmax_pos, H'|].
  split; [rewrite inner_probs_softmax, softmax_len, map_length; reflexivity|]. split; [reflexivity|].
  exists (q_greedy (map clip1 v)). pose proof (q_greedy_first (map clip1 v) H') as G. split.
  - unfold inner_action, argmax_row. destruct (map clip1 v) as [|x l] eqn:E; [congruence|]. reflexivity.
  - split; [|split].
    + destruct G as (m & A & _). rewrite <- (map_length clip1). apply nth_error_Some. congruence.
    + apply softmax_greedy; assumption.
    + intros I. rewrite (map_ext_in clip1 (fun x => x)) in G by (intros x Hx; apply clip1_id, I, Hx). rewrite map_id in G.
      rewrite (map_ext_in clip1 (fun x => x)) by (intros x Hx; apply clip1_id, I, Hx). rewrite map_id. exact G.
Qed.
