(** The deprecated SumTree is a sparse sum. *)
From Coq Require Import QArith Lqa Permutation.
From Verif Require Import Base.PyBase Spec.WrapperSpec Model.SumTree Spec.SumTreeSpec Proofs.QSumFacts.
Set Implicit Arguments.
Local Open Scope Z_scope.

Definition p2 (k : nat) : Z := 2 ^ Z.of_nat k.
Lemma p2_S : forall k, p2 (S k) = p2 k + p2 k.
Proof. intros k. unfold p2. rewrite Nat2Z.inj_succ, Z.pow_succ_r by lia. lia. Qed.
Lemma p2_pos : forall k, 0 < p2 k.
Proof. intros k. unfold p2. apply Z.pow_pos_nonneg; lia. Qed.
Lemma p2_gt : forall k, Z.of_nat k < p2 k.
Proof.
  induction k as [|k IH]; [reflexivity|]. rewrite p2_S. assert (H := p2_pos k). lia.
Qed.
Lemma center_p2 : forall lo k, st_center lo (lo + p2 (S k)) = lo + p2 k.
Proof.
  intros lo k. unfold st_center. rewrite p2_S. replace (lo + (lo + (p2 k + p2 k))) with ((lo + p2 k) * 2) by lia.
  apply Z.div_mul. lia.
Qed.
Lemma isleaf_S : forall lo k, st_isleaf lo (lo + p2 (S k)) = false.
Proof. intros lo k. unfold st_isleaf. rewrite p2_S. assert (H := p2_pos k). apply Z.eqb_neq. lia. Qed.

(** The indices below a node, and the invariant. *)
Fixpoint rng (k : nat) (lo : Z) : list Z :=
  match k with O => [lo] | S k' => rng k' lo ++ rng k' (lo + p2 k') end.
Fixpoint wf (k : nat) (lo : Z) (m : Z -> Q) (t : stree) : Prop :=
  match k with
  | O => t = SLeaf lo (lo + 1) (m lo)
  | S k' => exists l r s, t = SNode lo (lo + p2 (S k')) l r s /\ wf k' lo m l /\ wf k' (lo + p2 k') m r
                          /\ (s == st_sum l + st_sum r)%Q
  end.

Lemma rng_in : forall k lo i, In i (rng k lo) <-> lo <= i < lo + p2 k.
Proof.
  induction k as [|k IH]; intros lo i; cbn [rng].
  - change (p2 0) with 1. cbn [In]. lia.
  - rewrite in_app_iff, !IH, p2_S. assert (H := p2_pos k). lia.
Qed.
Lemma nodup_app : forall A (a b : list A), NoDup a -> NoDup b -> (forall x, In x a -> ~ In x b) -> NoDup (a ++ b).
Proof.
  intros A a b Ha Hb Hd. induction Ha as [|x a Hx Ha IH]; [exact Hb|]. cbn [app]. constructor.
  - rewrite in_app_iff. intros [H|H]; [contradiction|]. exact (Hd x (or_introl eq_refl) H).
  - apply IH. intros y Hy. apply Hd. right. exact Hy.
Qed.
Lemma rng_nodup : forall k lo, NoDup (rng k lo).
Proof.
  induction k as [|k IH]; intros lo; cbn [rng].
  - constructor; [intros []|constructor].
  - apply nodup_app; [apply IH|apply IH|]. intros x Hx Hy. apply rng_in in Hx, Hy. lia.
Qed.

Lemma wf_bounds : forall k lo m t, wf k lo m t -> st_lo t = lo /\ st_hi t = lo + p2 k.
Proof.
  intros [|k] lo m t H; cbn [wf] in H.
  - subst t. split; reflexivity.
  - destruct H as (l & r & s & -> & _). split; reflexivity.
Qed.
Lemma wf_sum : forall k lo m t, wf k lo m t -> (st_sum t == qsum (map m (rng k lo)))%Q.
Proof.
  induction k as [|k IH]; intros lo m t H; cbn [wf] in H; cbn [rng].
  - subst t. cbn [map st_sum]. rewrite qsum_cons. change (qsum []) with 0%Q. ring.
  - destruct H as (l & r & s & -> & Hl & Hr & E). cbn [st_sum]. rewrite map_app, qsum_app, E, (IH _ _ _ Hl), (IH _ _ _ Hr).
    reflexivity.
Qed.
Lemma wf_ext : forall k lo m m' t, (forall i, lo <= i < lo + p2 k -> m i = m' i) -> wf k lo m t -> wf k lo m' t.
Proof.
  induction k as [|k IH]; intros lo m m' t He H; cbn [wf] in *.
  - rewrite <- He by (change (p2 0) with 1; lia). exact H.
  - destruct H as (l & r & s & -> & Hl & Hr & E). rewrite p2_S in He. assert (Hp := p2_pos k).
    exists l, r, s. repeat split; [|  |exact E].
    + apply (IH _ m m'); [intros; apply He; lia|exact Hl].
    + apply (IH _ m m'); [intros; apply He; lia|exact Hr].
Qed.
Lemma wf_read : forall k lo m t i, wf k lo m t -> lo <= i < lo + p2 k -> st_read t i = Ok (m i).
Proof.
  induction k as [|k IH]; intros lo m t i H Hi; cbn [wf] in H.
  - subst t. cbn [st_read]. unfold st_isleaf. replace (lo + 1 - lo =? 1) with true by lia.
    change (p2 0) with 1 in Hi. replace i with lo by lia. reflexivity.
  - destruct H as (l & r & s & -> & Hl & Hr & E). cbn [st_read]. rewrite isleaf_S, center_p2. rewrite p2_S in Hi.
    destruct (i <? lo + p2 k) eqn:B.
    + apply (IH _ _ _ _ Hl). lia.
    + apply (IH _ _ _ _ Hr). lia.
Qed.

Definition put (m : Z -> Q) (ix : Z) (v : Q) : Z -> Q := fun k => if ix =? k then v else m k.
Lemma wf_write : forall k lo m t ix v, wf k lo m t -> lo <= ix < lo + p2 k ->
  exists t', st_write t ix v = Ok t' /\ wf k lo (put m ix v) t'.
Proof.
  induction k as [|k IH]; intros lo m t ix v H Hi; cbn [wf] in H.
  - subst t. cbn [st_write]. unfold st_isleaf. replace (lo + 1 - lo =? 1) with true by lia.
    exists (SLeaf lo (lo + 1) v). split; [reflexivity|]. cbn [wf]. unfold put. change (p2 0) with 1 in Hi.
    replace (ix =? lo) with true by lia. reflexivity.
  - destruct H as (l & r & s & -> & Hl & Hr & E). cbn [st_write]. rewrite isleaf_S, center_p2. rewrite p2_S in Hi.
    destruct (ix <? lo + p2 k) eqn:B.
    + destruct (IH _ _ _ ix v Hl) as (l' & -> & Hl'); [lia|]. cbn [bind]. eexists. split; [reflexivity|]. cbn [wf].
      exists l', r, (st_sum l' + st_sum r)%Q. repeat split; [exact Hl'|]. apply (@wf_ext _ _ m); [|exact Hr].
      intros i Hri. unfold put. replace (ix =? i) with false by lia. reflexivity.
    + destruct (IH _ _ _ ix v Hr) as (r' & -> & Hr'); [lia|]. cbn [bind]. eexists. split; [reflexivity|]. cbn [wf].
      exists l, r', (st_sum l + st_sum r')%Q. repeat split; [|exact Hr']. apply (@wf_ext _ _ m); [|exact Hl].
      intros i Hri. unfold put. replace (ix =? i) with false by lia. reflexivity.
Qed.

Lemma init_wf : forall k fuel lo m, (k < fuel)%nat -> (forall i, lo <= i < lo + p2 k -> m i = 0%Q) ->
  exists t, st_init fuel lo (lo + p2 k) = Ok t /\ wf k lo m t /\ (st_sum t == 0)%Q.
Proof.
  induction k as [|k IH]; intros fuel lo m Hf Hm; destruct fuel as [|f]; try lia; cbn [st_init].
  - change (p2 0) with 1 in *. unfold st_isleaf. replace (lo + 1 - lo =? 1) with true by lia.
    eexists. split; [reflexivity|]. cbn [wf]. rewrite Hm by lia. split; reflexivity.
  - rewrite isleaf_S, center_p2. rewrite p2_S in Hm. assert (Hp := p2_pos k).
    destruct (IH f lo m) as (l & -> & Hl & El); [lia|intros; apply Hm; lia|]. cbn [bind].
    destruct (IH f (lo + p2 k) m) as (r & Ei & Hr & Er); [lia|intros; apply Hm; lia|].
    replace (lo + p2 k + p2 k) with (lo + p2 (S k)) in Ei by (rewrite p2_S; lia). rewrite Ei. cbn [bind].
    eexists. split; [reflexivity|]. split; [|reflexivity]. cbn [wf]. exists l, r, 0%Q. repeat split; [exact Hl|exact Hr|].
    rewrite El, Er. reflexivity.
Qed.

Lemma grow_right_wf : forall fuel k lo m t ix, wf k lo m t -> (forall i, ~ (lo <= i < lo + p2 k) -> m i = 0%Q) ->
  (Z.to_nat (ix - (lo + p2 k) + 1) <= fuel)%nat ->
  exists k' t', st_grow_right fuel t ix = Ok t' /\ wf k' lo m t' /\ ix < lo + p2 k' /\ p2 k <= p2 k'.
Proof.
  induction fuel as [|f IH]; intros k lo m t ix H Hm Hf; destruct (@wf_bounds _ _ _ _ H) as (El & Eh); cbn [st_grow_right]; rewrite Eh.
  - replace (ix <? lo + p2 k) with true by lia. exists k, t. repeat split; [exact H|lia|lia].
  - destruct (ix <? lo + p2 k) eqn:B.
    + exists k, t. repeat split; [exact H|lia|lia].
    + rewrite El. assert (Hp := p2_pos k).
      replace ((lo + p2 k) * 2 - lo) with (lo + p2 k + p2 k) by lia.
      destruct (@init_wf k (st_fuel (lo + p2 k) (lo + p2 k + p2 k)) (lo + p2 k) m) as (r & -> & Hr & Er).
      { unfold st_fuel. assert (Hg := p2_gt k). lia. }
      { intros i Hi. apply Hm. lia. }
      cbn [bind]. destruct (@wf_bounds _ _ _ _ Hr) as (Elr & Ehr). rewrite Ehr.
      destruct (IH (S k) lo m (SNode lo (lo + p2 k + p2 k) t r (st_sum t)) ix) as (k' & t' & -> & Hw & Hi & Hpp).
      * cbn [wf]. exists t, r, (st_sum t). rewrite p2_S. repeat split; [f_equal; lia|exact H|exact Hr|]. rewrite Er. ring.
      * intros i Hi. apply Hm. rewrite p2_S in Hi. lia.
      * rewrite p2_S. lia.
      * exists k', t'. rewrite p2_S in Hpp. repeat split; [exact Hw|lia|lia].
Qed.
Lemma grow_left_wf : forall fuel k lo m t ix, wf k lo m t -> (forall i, ~ (lo <= i < lo + p2 k) -> m i = 0%Q) ->
  (Z.to_nat (lo - ix) <= fuel)%nat ->
  exists k' lo' t', st_grow_left fuel t ix = Ok t' /\ wf k' lo' m t' /\ lo' <= ix /\ lo' <= lo /\ lo' + p2 k' = lo + p2 k.
Proof.
  induction fuel as [|f IH]; intros k lo m t ix H Hm Hf; destruct (@wf_bounds _ _ _ _ H) as (El & Eh); cbn [st_grow_left]; rewrite El.
  - replace (lo <=? ix) with true by lia. exists k, lo, t. repeat split; [exact H|lia|lia].
  - destruct (lo <=? ix) eqn:B.
    + exists k, lo, t. repeat split; [exact H|lia|lia].
    + rewrite Eh. assert (Hp := p2_pos k).
      replace (lo * 2 - (lo + p2 k)) with (lo - p2 k) by lia.
      assert (Hi0 : exists l, st_init (st_fuel (lo - p2 k) lo) (lo - p2 k) lo = Ok l /\ wf k (lo - p2 k) m l /\ (st_sum l == 0)%Q).
      { destruct (@init_wf k (st_fuel (lo - p2 k) lo) (lo - p2 k) m) as (l & Ei & Hl).
        - unfold st_fuel. assert (Hg := p2_gt k). lia.
        - intros i Hi. apply Hm. lia.
        - replace (lo - p2 k + p2 k) with lo in Ei by lia. exists l. split; [exact Ei|exact Hl]. }
      destruct Hi0 as (l & -> & Hl & Esl). cbn [bind]. destruct (@wf_bounds _ _ _ _ Hl) as (Ell & Ehl). rewrite Ell.
      destruct (IH (S k) (lo - p2 k) m (SNode (lo - p2 k) (lo + p2 k) l t (st_sum t)) ix) as (k' & lo' & t' & -> & Hw & Hi & Hll & Hpp).
      * cbn [wf]. exists l, t, (st_sum t). rewrite p2_S. repeat split; [f_equal; lia|exact Hl| |].
        { replace (lo - p2 k + p2 k) with lo by lia. exact H. }
        { rewrite Esl. ring. }
      * intros i Hi. apply Hm. rewrite p2_S in Hi. lia.
      * lia.
      * exists k', lo', t'. rewrite p2_S in Hpp. repeat split; [exact Hw|lia|lia|lia].
Qed.

(** The invariant of a whole tree: it represents [m]. *)
Definition repr (t : option stree) (m : Z -> Q) : Prop :=
  match t with
  | None => forall i, m i = 0%Q
  | Some t => exists k lo, wf k lo m t /\ (forall i, ~ (lo <= i < lo + p2 k) -> m i = 0%Q)
  end.
Definition covers (t : option stree) (i : Z) : Prop :=
  match t with None => False | Some t => st_lo t <= i < st_hi t end.

Lemma set_repr : forall t m ix v, repr t m -> exists t', st_set t ix v = Ok t' /\ repr t' (put m ix v)
  /\ covers t' ix /\ (forall i, covers t i -> covers t' i).
Proof.
  intros t m ix v H. unfold st_set, st_alloc.
  set (t0 := match t with Some t => t | None => SLeaf ix (ix + 1) 0 end).
  assert (H0 : exists k lo, wf k lo m t0 /\ (forall i, ~ (lo <= i < lo + p2 k) -> m i = 0%Q) /\ (forall i, covers t i -> lo <= i < lo + p2 k)).
  { subst t0. destruct t as [t|]; cbn [repr] in H.
    - destruct H as (k & lo & Hw & Hm). exists k, lo. split; [exact Hw|]. split; [exact Hm|]. intros i Hi.
      destruct (@wf_bounds _ _ _ _ Hw) as (El & Eh). cbn [covers] in Hi. rewrite El, Eh in Hi. exact Hi.
    - exists 0%nat, ix. cbn [wf]. rewrite H. split; [reflexivity|]. split; [intros i _; apply H|]. intros i []. }
  clearbody t0. destruct H0 as (k & lo & Hw & Hm & Hc). destruct (@wf_bounds _ _ _ _ Hw) as (El & Eh). rewrite Eh.
  destruct (@grow_right_wf (Z.to_nat (ix - (lo + p2 k) + 1)) k lo m t0 ix Hw Hm (le_n _)) as (k1 & t1 & -> & Hw1 & Hi1 & Hp1).
  cbn [bind]. destruct (@wf_bounds _ _ _ _ Hw1) as (El1 & Eh1). rewrite El1.
  destruct (@grow_left_wf (Z.to_nat (lo - ix)) k1 lo m t1 ix Hw1) as (k2 & lo2 & t2 & -> & Hw2 & Hi2 & Hlo2 & Hp2).
  { intros i Hi. apply Hm. lia. }
  { apply le_n. }
  cbn [bind]. destruct (@wf_write k2 lo2 m t2 ix v Hw2) as (t3 & -> & Hw3); [lia|]. cbn [bind].
  eexists. split; [reflexivity|]. destruct (@wf_bounds _ _ _ _ Hw3) as (El3 & Eh3).
  split; [|split].
  - cbn [repr]. exists k2, lo2. split; [exact Hw3|]. intros i Hi. unfold put. replace (ix =? i) with false by lia. apply Hm. lia.
  - cbn [covers]. rewrite El3, Eh3. lia.
  - intros i Hi. cbn [covers]. rewrite El3, Eh3. specialize (Hc i Hi). lia.
Qed.

Lemma repr_ext : forall t m m', (forall i, m i = m' i) -> repr t m -> repr t m'.
Proof.
  intros [t|] m m' He H; cbn [repr] in *.
  - destruct H as (k & lo & Hw & Hm). exists k, lo. split; [|intros i Hi; rewrite <- He; apply Hm; exact Hi].
    apply (@wf_ext _ _ m); [intros; apply He|exact Hw].
  - intros i. rewrite <- He. apply H.
Qed.

Lemma step_repr : forall t m o, repr t m -> exists t', st_step t o = Ok t' /\ repr t' (put m (op_index o) (op_value o))
  /\ covers t' (op_index o) /\ (forall i, covers t i -> covers t' i).
Proof. intros t m [ix v|ix] H; cbn [st_step op_index op_value]; [|unfold st_del]; apply set_repr; exact H. Qed.

Lemma run_repr : forall os t m, repr t m -> exists t', st_run t os = Ok t' /\ repr t' (fun i => last_value os i (m i))
  /\ (forall i, In i (map op_index os) -> covers t' i) /\ (forall i, covers t i -> covers t' i).
Proof.
  induction os as [|o os IH]; intros t m H; cbn [st_run].
  - exists t. cbn [last_value]. split; [reflexivity|]. split; [exact H|]. split; [intros i []|auto].
  - destruct (@step_repr _ _ o H) as (t1 & -> & H1 & Hc1 & Hm1). cbn [bind].
    destruct (IH t1 _ H1) as (t2 & E & H2 & Hc2 & Hm2). exists t2. rewrite E. split; [reflexivity|].
    split; [exact H2|]. split; [|auto]. intros i [<-|Hi]; auto.
Qed.
Lemma run_repr0 : forall os, exists t, st_run None os = Ok t /\ repr t (value_after os) /\ (forall i, In i (indices os) -> covers t i).
Proof.
  intros os. destruct (@run_repr os None (fun _ => 0%Q)) as (t & E & H & Hc & _); [intros i; reflexivity|].
  exists t. split; [exact E|]. split; [exact H|]. intros i Hi. apply Hc. unfold indices in Hi. apply nodup_In in Hi. exact Hi.
Qed.
Lemma last_unmentioned : forall os i d, ~ In i (map op_index os) -> last_value os i d = d.
Proof.
  induction os as [|o os IH]; intros i d H; cbn [last_value]; [reflexivity|]. cbn [map In] in H.
  rewrite IH by tauto. destruct (op_index o =? i) eqn:E; [|reflexivity]. apply Z.eqb_eq in E. tauto.
Qed.
Lemma indices_support : forall os i, ~ In i (indices os) -> value_after os i = 0%Q.
Proof. intros os i H. unfold value_after. apply last_unmentioned. intros Hi. apply H. unfold indices. apply nodup_In. exact Hi. Qed.

(** Sums over different supports of one function. *)
Lemma qsum_perm : forall a b, Permutation a b -> (qsum a == qsum b)%Q.
Proof.
  intros a b H. induction H as [|x a b H IH|x y a|a b c H1 IH1 H2 IH2].
  - reflexivity.
  - rewrite !qsum_cons, IH. reflexivity.
  - rewrite !qsum_cons. ring.
  - rewrite IH1. exact IH2.
Qed.
Definition nz (f : Z -> Q) (i : Z) : bool := negb (Qeq_bool (f i) 0).
Lemma nz_false : forall f i, nz f i = false <-> (f i == 0)%Q.
Proof. intros f i. unfold nz. rewrite negb_false_iff. apply Qeq_bool_iff. Qed.
Lemma qsum_nz : forall f l, (qsum (map f l) == qsum (map f (filter (nz f) l)))%Q.
Proof.
  intros f l. induction l as [|x l IH]; [reflexivity|]. cbn [map filter]. destruct (nz f x) eqn:E; cbn [map].
  - rewrite !qsum_cons, IH. reflexivity.
  - rewrite qsum_cons, IH. apply nz_false in E. rewrite E. ring.
Qed.
Lemma nodup_filter : forall A (p : A -> bool) l, NoDup l -> NoDup (filter p l).
Proof.
  intros A p l H. induction H as [|x l Hx H IH]; cbn [filter]; [constructor|]. destruct (p x); [|exact IH].
  constructor; [|exact IH]. intros Hi. apply filter_In in Hi. tauto.
Qed.
Lemma sum_support : forall f a b, NoDup a -> NoDup b -> (forall i, nz f i = true -> (In i a <-> In i b)) ->
  (qsum (map f a) == qsum (map f b))%Q.
Proof.
  intros f a b Ha Hb H. rewrite (qsum_nz f a), (qsum_nz f b). apply qsum_perm, Permutation_map, NoDup_Permutation.
  - apply nodup_filter. exact Ha.
  - apply nodup_filter. exact Hb.
  - intros i. rewrite !filter_In. split; intros [Hi Hn]; (split; [|exact Hn]); apply (H i Hn); exact Hi.
Qed.

(** [ks] lists, once each, at least the indices with a non-zero value. *)
Definition supports (ks : list Z) (m : Z -> Q) : Prop := NoDup ks /\ forall i, ~ In i ks -> m i = 0%Q.
Lemma indices_supports : forall os, supports (indices os) (value_after os).
Proof. intros os. split; [apply NoDup_nodup|apply indices_support]. Qed.
Lemma nz_in : forall ks m i, supports ks m -> nz m i = true -> In i ks.
Proof.
  intros ks m i [_ H] Hn. destruct (in_dec Z.eq_dec i ks) as [Hi|Hi]; [exact Hi|]. apply H in Hi.
  unfold nz in Hn. rewrite Hi in Hn. discriminate Hn.
Qed.
Lemma wf_total : forall k lo m t ks, wf k lo m t -> (forall i, ~ (lo <= i < lo + p2 k) -> m i = 0%Q) -> supports ks m ->
  (st_sum t == sum_values m ks)%Q.
Proof.
  intros k lo m t ks Hw Hm Hs. rewrite (@wf_sum _ _ _ _ Hw). apply sum_support; [apply rng_nodup|exact (proj1 Hs)|].
  intros i Hn. split; intros _; [apply (@nz_in _ _ _ Hs Hn)|]. apply rng_in.
  destruct (Z_le_dec lo i) as [H1|H1]; [destruct (Z_lt_dec i (lo + p2 k)) as [H2|H2]; [lia|]|];
    exfalso; unfold nz in Hn; rewrite Hm in Hn by lia; discriminate Hn.
Qed.
Lemma wf_below : forall k lo m ks i, (forall i, ~ (lo <= i < lo + p2 k) -> m i = 0%Q) -> supports ks m ->
  (sum_below_index m (rng k lo) i == sum_below_index m ks i)%Q.
Proof.
  intros k lo m ks i Hm Hs. unfold sum_below_index. apply sum_support.
  - apply nodup_filter, rng_nodup.
  - apply nodup_filter. exact (proj1 Hs).
  - intros j Hn. rewrite !filter_In. split; intros [_ Hj]; (split; [|exact Hj]); [apply (@nz_in _ _ _ Hs Hn)|]. apply rng_in.
    destruct (Z_le_dec lo j) as [H1|H1]; [destruct (Z_lt_dec j (lo + p2 k)) as [H2|H2]; [lia|]|];
      exfalso; unfold nz in Hn; rewrite Hm in Hn by lia; discriminate Hn.
Qed.

Lemma total_lemma : forall os, exists t, st_run None os = Ok t /\ (st_total t == sum_values (value_after os) (indices os))%Q.
Proof.
  intros os. destruct (run_repr0 os) as (t & E & H & _). exists t. split; [exact E|].
  destruct t as [t|]; cbn [repr st_total] in *.
  - destruct H as (k & lo & Hw & Hm). apply (@wf_total _ _ _ _ _ Hw Hm). apply indices_supports.
  - unfold sum_values. rewrite (qsum_zero (value_after os)); [reflexivity|]. intros i _. rewrite H. reflexivity.
Qed.
Lemma get_repr : forall t m i, repr t m -> covers t i -> st_get t i = Ok (m i).
Proof.
  intros [t|] m i H Hc; cbn [covers] in Hc; [|contradiction]. destruct H as (k & lo & Hw & Hm). cbn [st_get].
  replace ((st_lo t <=? i) && (i <? st_hi t))%bool with true by lia.
  destruct (@wf_bounds _ _ _ _ Hw) as (El & Eh). rewrite El, Eh in Hc. apply (@wf_read _ _ _ _ _ Hw Hc).
Qed.
Lemma get_cases : forall t m i, repr t m -> st_get t i = Ok (m i) \/ st_get t i = Raise AssertionError \/ (t = None /\ st_get t i = Raise TypeError).
Proof.
  intros [t|] m i H; [|right; right; split; reflexivity].
  destruct ((st_lo t <=? i) && (i <? st_hi t))%bool eqn:B.
  - left. apply get_repr; [exact H|]. cbn [covers]. lia.
  - right. left. cbn [st_get]. rewrite B. reflexivity.
Qed.
Lemma reads_lemma : forall os t, st_run None os = Ok t ->
  (forall i, In i (map op_index os) -> st_get t i = Ok (value_after os i))
  /\ (forall i v, st_get t i = Ok v -> v = value_after os i).
Proof.
  intros os t E. destruct (run_repr0 os) as (t' & E' & H & Hc). rewrite E in E'. injection E' as <-. split.
  - intros i Hi. apply get_repr; [exact H|]. apply Hc. unfold indices. apply nodup_In. exact Hi.
  - intros i v Hg. destruct (@get_cases _ _ i H) as [G|[G|(_ & G)]]; rewrite G in Hg; [|discriminate Hg|discriminate Hg].
    injection Hg as <-. reflexivity.
Qed.

(** Picking. *)
Lemma filter_all : forall (l : list Z) i, (forall x, In x l -> x < i) -> filter (fun k => k <? i) l = l.
Proof.
  induction l as [|x l IH]; intros i H; [reflexivity|]. cbn [filter]. replace (x <? i) with true.
  - rewrite IH; [reflexivity|]. intros y Hy. apply H. right. exact Hy.
  - symmetry. apply Z.ltb_lt. apply H. left. reflexivity.
Qed.
Lemma filter_none : forall (l : list Z) i, (forall x, In x l -> i <= x) -> filter (fun k => k <? i) l = [].
Proof.
  induction l as [|x l IH]; intros i H; [reflexivity|]. cbn [filter]. replace (x <? i) with false.
  - apply IH. intros y Hy. apply H. right. exact Hy.
  - symmetry. apply Z.ltb_ge. apply H. left. reflexivity.
Qed.
Lemma wf_pick : forall k lo m t cum, wf k lo m t -> (0 <= cum)%Q -> (cum < st_sum t)%Q ->
  exists i, st_pick t cum = Ok (i, m i) /\ lo <= i < lo + p2 k
    /\ (sum_below_index m (rng k lo) i <= cum)%Q /\ (cum < sum_below_index m (rng k lo) i + m i)%Q.
Proof.
  induction k as [|k IH]; intros lo m t cum H H0 H1; cbn [wf] in H.
  - subst t. cbn [st_pick st_sum] in *. unfold st_isleaf. replace (lo + 1 - lo =? 1) with true by lia. exists lo.
    split; [reflexivity|]. change (p2 0) with 1. split; [lia|]. unfold sum_below_index. cbn [rng].
    rewrite filter_none by (intros x [<-|[]]; lia). change (qsum (map m [])) with 0%Q. split; lra.
  - destruct H as (l & r & s & -> & Hl & Hr & E). cbn [st_pick st_sum] in *. rewrite isleaf_S. rewrite p2_S.
    assert (Hp := p2_pos k). destruct (Qle_bool (st_sum l) cum) eqn:B; cbn [negb].
    + apply Qle_bool_iff in B. destruct (IH _ _ _ (cum - st_sum l)%Q Hr) as (i & -> & Hi & Ha & Hb); [lra|lra|].
      exists i. split; [reflexivity|]. split; [lia|]. unfold sum_below_index in *. cbn [rng]. rewrite filter_app, map_app, qsum_app.
      rewrite (filter_all (rng k lo)) by (intros x Hx; apply rng_in in Hx; lia).
      rewrite <- (@wf_sum _ _ _ _ Hl). split; lra.
    + assert (B' : (cum < st_sum l)%Q).
      { apply Qnot_le_lt. intros L. apply Qle_bool_iff in L. rewrite L in B. discriminate B. }
      destruct (IH _ _ _ cum Hl H0 B') as (i & -> & Hi & Ha & Hb). exists i. split; [reflexivity|]. split; [lia|].
      unfold sum_below_index in *. cbn [rng]. rewrite filter_app, map_app, qsum_app.
      rewrite (filter_none (rng k (lo + p2 k))) by (intros x Hx; apply rng_in in Hx; lia).
      change (qsum (map m [])) with 0%Q. split; lra.
Qed.
Lemma pick_support : forall k lo m t ks cum, wf k lo m t -> (forall i, ~ (lo <= i < lo + p2 k) -> m i = 0%Q) -> supports ks m ->
  (0 <= cum)%Q -> (cum < st_sum t)%Q ->
  exists i, st_pick t cum = Ok (i, m i) /\ lo <= i < lo + p2 k
    /\ (sum_below_index m ks i <= cum)%Q /\ (cum < sum_below_index m ks i + m i)%Q /\ (0 < m i)%Q /\ In i ks.
Proof.
  intros k lo m t ks cum Hw Hm Hs H0 H1. destruct (@wf_pick _ _ _ _ _ Hw H0 H1) as (i & E & Hi & Ha & Hb).
  assert (Hpos : (0 < m i)%Q) by lra.
  rewrite (@wf_below _ _ _ _ i Hm Hs) in Ha, Hb. exists i. repeat split; [exact E|lia|lia|exact Ha|exact Hb|exact Hpos|].
  apply (@nz_in _ _ _ Hs). unfold nz. rewrite negb_true_iff. destruct (Qeq_bool (m i) 0) eqn:Z0; [|reflexivity].
  apply Qeq_bool_iff in Z0. lra.
Qed.
Lemma pick_lemma : forall os t cum, st_run None os = Ok (Some t) -> (0 <= cum)%Q -> (cum < st_sum t)%Q ->
  exists i v, st_pick t cum = Ok (i, v) /\ v = value_after os i /\ In i (indices os)
    /\ (sum_below_index (value_after os) (indices os) i <= cum)%Q
    /\ (cum < sum_below_index (value_after os) (indices os) i + v)%Q.
Proof.
  intros os t cum E H0 H1. destruct (run_repr0 os) as (t' & E' & H & _). rewrite E in E'. injection E' as <-.
  destruct H as (k & lo & Hw & Hm).
  destruct (@pick_support _ _ _ _ _ _ Hw Hm (indices_supports os) H0 H1) as (i & Ep & _ & Ha & Hb & _ & Hin).
  exists i, (value_after os i). split; [exact Ep|]. split; [reflexivity|]. auto.
Qed.

(** Sampling without replacement. *)
Lemma positive_true : forall f i, positive f i = true <-> (0 < f i)%Q.
Proof.
  intros f i. unfold positive. rewrite negb_true_iff. split.
  - intros H. apply Qnot_le_lt. intros L. apply Qle_bool_iff in L. congruence.
  - intros H. destruct (Qle_bool (f i) 0) eqn:E; [|reflexivity]. apply Qle_bool_iff in E. lra.
Qed.
Lemma count_zero_at : forall f i ks, NoDup ks -> In i ks -> positive f i = true ->
  length (filter (positive f) ks) = S (length (filter (positive (zero_at f i)) ks)).
Proof.
  intros f i ks H Hi Hp. induction H as [|x ks Hx H IH]; [destruct Hi|]. cbn [filter].
  destruct (Z.eq_dec x i) as [->|Hn].
  - rewrite Hp. replace (positive (zero_at f i) i) with false.
    + cbn [length]. f_equal. f_equal. clear IH. apply filter_ext_in. intros y Hy. unfold positive, zero_at.
      destruct (y =? i) eqn:E; [apply Z.eqb_eq in E; subst y; contradiction|reflexivity].
    + unfold positive, zero_at. rewrite Z.eqb_refl. reflexivity.
  - destruct Hi as [->|Hi]; [contradiction|]. specialize (IH Hi).
    replace (positive (zero_at f i) x) with (positive f x).
    + destruct (positive f x); cbn [length]; rewrite IH; reflexivity.
    + unfold positive, zero_at. replace (x =? i) with false by lia. reflexivity.
Qed.
Lemma sum_positive : forall f ks, (forall i, 0 <= f i)%Q -> (1 <= length (filter (positive f) ks))%nat -> (0 < sum_values f ks)%Q.
Proof.
  intros f ks Hn. unfold sum_values. induction ks as [|x ks IH]; cbn [filter length]; [lia|]. cbn [map]. rewrite qsum_cons.
  intros H. assert (Hx := Hn x).
  assert (Hq : (0 <= qsum (map f ks))%Q).
  { apply qsum_nonneg. intros y Hy. apply in_map_iff in Hy. destruct Hy as (z & <- & _). apply Hn. }
  destruct (positive f x) eqn:E.
  - apply positive_true in E. lra.
  - specialize (IH H). lra.
Qed.


Lemma supports_zero_at : forall ks m i, supports ks m -> supports ks (zero_at m i).
Proof.
  intros ks m i [Hn H]. split; [exact Hn|]. intros j Hj. unfold zero_at. destruct (j =? i); [reflexivity|apply H; exact Hj].
Qed.

Lemma draws_lemma : forall draw n j k lo m t ks, good_draw draw -> wf k lo m t -> (forall i, ~ (lo <= i < lo + p2 k) -> m i = 0%Q) ->
  supports ks m -> (forall i, 0 <= m i)%Q -> (n <= length (filter (positive m) ks))%nat ->
  exists t' ivs m', st_draws draw n j t = Ok (t', ivs) /\ length ivs = n /\ wf k lo m' t' /\ draws_from ks draw j m ivs m'
    /\ NoDup (map fst ivs) /\ Forall (fun iv => lo <= fst iv < lo + p2 k /\ snd iv = m (fst iv) /\ (0 < snd iv)%Q) ivs
    /\ (forall i, m' i = if in_dec Z.eq_dec i (map fst ivs) then 0%Q else m i).
Proof.
  intros draw n. induction n as [|n IH]; intros j k lo m t ks Hd Hw Hm Hs Hnn Hc; cbn [st_draws].
  - exists t, [], m. repeat split; [exact Hw|constructor|constructor|constructor].
  - assert (Hsum := @wf_total _ _ _ _ _ Hw Hm Hs).
    assert (Hpos : (0 < st_sum t)%Q). { rewrite Hsum. apply sum_positive; [exact Hnn|lia]. }
    destruct (Hd j (st_sum t) Hpos) as (Hd0 & Hd1).
    destruct (@pick_support _ _ _ _ _ _ Hw Hm Hs Hd0 Hd1) as (i & -> & Hi & Ha & Hb & Hp & Hin). cbn [bind fst].
    destruct (@wf_write k lo m t i 0%Q Hw Hi) as (t1 & -> & Hw1). cbn [bind].
    apply (@wf_ext _ _ _ (zero_at m i)) in Hw1; [|intros x _; unfold put, zero_at; rewrite Z.eqb_sym; reflexivity].
    assert (Hm1 : forall x, ~ (lo <= x < lo + p2 k) -> zero_at m i x = 0%Q).
    { intros x Hx. unfold zero_at. destruct (x =? i); [reflexivity|apply Hm; exact Hx]. }
    assert (Hnn1 : forall x, (0 <= zero_at m i x)%Q).
    { intros x. unfold zero_at. destruct (x =? i); [apply Qle_refl|apply Hnn]. }
    assert (Hpi : positive m i = true) by (apply positive_true; exact Hp).
    rewrite (@count_zero_at _ _ _ (proj1 Hs) Hin Hpi) in Hc.
    destruct (IH (S j) k lo (zero_at m i) t1 ks Hd Hw1 Hm1 (@supports_zero_at _ _ i Hs) Hnn1) as (t' & ivs & m' & -> & Hlen & Hw' & Hdf & Hnd & Hall & Hm'); [lia|].
    cbn [bind fst snd]. exists t', ((i, m i) :: ivs), m'.
    assert (Hni : ~ In i (map fst ivs)).
    { intros Hi'. apply in_map_iff in Hi'. destruct Hi' as ((x, v) & Ex & Hx). cbn [fst] in Ex. subst x.
      rewrite Forall_forall in Hall. destruct (Hall _ Hx) as (_ & Hv & Hvp). cbn [fst snd] in *. unfold zero_at in Hv.
      rewrite Z.eqb_refl in Hv. subst v. lra. }
    split; [reflexivity|]. split; [cbn [length]; lia|]. split; [exact Hw'|]. split; [|split; [|split]].
    + apply (@df_cons ks draw j m i (m i) (draw j (st_sum t)) ivs m' (st_sum t)); auto. reflexivity.
    + cbn [map fst]. constructor; [exact Hni|exact Hnd].
    + constructor; [cbn [fst snd]; auto|]. rewrite Forall_forall in Hall |- *. intros (x, v) Hx. destruct (Hall _ Hx) as (Hb1 & Hb2 & Hb3).
      cbn [fst snd] in *. split; [exact Hb1|]. split; [|exact Hb3]. rewrite Hb2. unfold zero_at.
      destruct (x =? i) eqn:E; [|reflexivity]. apply Z.eqb_eq in E. subst x. exfalso. apply Hni. apply in_map_iff. exists (i, v). auto.
    + intros x. rewrite Hm'. cbn [map fst]. unfold zero_at. destruct (in_dec Z.eq_dec x (map fst ivs)) as [Y|Y]; destruct (in_dec Z.eq_dec x (i :: map fst ivs)) as [W|W]; cbn [In] in W.
      * reflexivity.
      * exfalso. apply W. right. exact Y.
      * destruct W as [<-|W]; [rewrite Z.eqb_refl; reflexivity|contradiction].
      * destruct (x =? i) eqn:E; [|reflexivity]. apply Z.eqb_eq in E. subst x. exfalso. apply W. left. reflexivity.
Qed.

Lemma restore_lemma : forall ivs k lo m t, wf k lo m t -> NoDup (map fst ivs) -> Forall (fun iv => lo <= fst iv < lo + p2 k) ivs ->
  exists t' m', st_restore t ivs = Ok t' /\ wf k lo m' t' /\ (forall i v, In (i, v) ivs -> m' i = v)
    /\ (forall i, ~ In i (map fst ivs) -> m' i = m i).
Proof.
  induction ivs as [|(i, v) ivs IH]; intros k lo m t Hw Hn Hb; cbn [st_restore].
  - exists t, m. repeat split; [exact Hw|intros i v []].
  - inversion Hn as [|? ? Hni Hn']; subst. inversion Hb as [|? ? Hbi Hb']; subst. cbn [fst] in *.
    destruct (@wf_write k lo m t i v Hw Hbi) as (t1 & -> & Hw1). cbn [bind].
    destruct (IH k lo _ t1 Hw1 Hn' Hb') as (t' & m' & -> & Hw' & H1 & H2). exists t', m'. split; [reflexivity|]. split; [exact Hw'|]. split.
    + intros x w [E|Hx]; [|apply H1; exact Hx]. injection E as -> ->. rewrite H2 by exact Hni. unfold put. rewrite Z.eqb_refl. reflexivity.
    + intros x Hx. cbn [map fst In] in Hx. rewrite H2 by tauto. unfold put. destruct (i =? x) eqn:E; [|reflexivity].
      apply Z.eqb_eq in E. tauto.
Qed.

Lemma probs_lemma : forall d ivs, ~ (d == 0)%Q -> exists ps, st_probs d ivs = Ok ps /\ Forall2 (fun iv p => (p == snd iv / d)%Q) ivs ps.
Proof.
  intros d ivs Hd. induction ivs as [|(i, v) ivs (ps & E & H)]; cbn [st_probs].
  - exists []. split; [reflexivity|constructor].
  - unfold st_div. destruct (Qeq_bool d 0) eqn:Z0; [apply Qeq_bool_iff in Z0; contradiction|]. cbn [bind]. rewrite E. cbn [bind].
    eexists. split; [reflexivity|]. constructor; [reflexivity|exact H].
Qed.

Lemma sample_lemma : forall draw n remove os t, good_draw draw -> st_run None os = Ok t ->
  (forall i, 0 <= value_after os i)%Q -> (n <= length (filter (positive (value_after os)) (indices os)))%nat ->
  exists t' ivs ps f, st_sample draw n remove t = Ok (t', (map fst ivs, ps))
    /\ length ivs = n /\ NoDup (map fst ivs)
    /\ draws_from (indices os) draw 0 (value_after os) ivs f
    /\ Forall2 (fun iv p => (p == value_after os (fst iv) / sum_values (value_after os) (indices os))%Q) ivs ps
    /\ (forall i, In i (indices os) -> st_get t' i = Ok (if remove then f i else value_after os i)).
Proof.
  intros draw n remove os t Hd E Hnn Hc. destruct (run_repr0 os) as (t' & E' & H & Hcov). rewrite E in E'. injection E' as <-.
  destruct t as [t|]; cbn [repr] in H.
  2:{ assert (n = 0%nat).
      { replace (filter (positive (value_after os)) (indices os)) with (@nil Z) in Hc; [cbn [length] in Hc; lia|].
        clear - H. induction (indices os) as [|x l IH]; [reflexivity|]. cbn [filter]. unfold positive at 1. rewrite H. exact IH. }
      subst n. cbn [st_sample]. exists None, [], [], (value_after os). repeat split; [constructor|constructor|constructor|].
      intros i Hi. destruct (Hcov i Hi). }
  destruct H as (k & lo & Hw & Hm). cbn [st_sample].
  destruct (@draws_lemma draw n 0 k lo _ t (indices os) Hd Hw Hm (indices_supports os) Hnn Hc) as (t1 & ivs & m1 & -> & Hlen & Hw1 & Hdf & Hnd & Hall & Hm1).
  cbn [bind fst snd].
  assert (Hsum := @wf_total _ _ _ _ _ Hw Hm (indices_supports os)).
  assert (Hpr : exists ps, st_probs (st_sum t) ivs = Ok ps
     /\ Forall2 (fun iv p => (p == value_after os (fst iv) / sum_values (value_after os) (indices os))%Q) ivs ps).
  { destruct ivs as [|iv ivs].
    - exists []. split; [reflexivity|constructor].
    - destruct (@probs_lemma (st_sum t) (iv :: ivs)) as (ps & Ep & Hp).
      + assert (Hpos : (0 < st_sum t)%Q); [|intros Z0; lra]. rewrite Hsum. apply sum_positive; [exact Hnn|]. cbn [length] in Hlen. lia.
      + exists ps. split; [exact Ep|]. clear - Hp Hall Hsum. revert Hall.
        induction Hp as [|x p l ps Hx Hp IH]; intros Hall; [constructor|]. inversion Hall as [|? ? (_ & Hv & _) Hall']; subst.
        constructor; [|apply IH; exact Hall']. rewrite Hx, Hv, Hsum. reflexivity. }
  destruct Hpr as (ps & Ep & Hps).
  destruct (@wf_bounds _ _ _ _ Hw) as (El & Eh).
  destruct remove.
  - cbn [bind]. rewrite Ep. cbn [bind]. exists (Some t1), ivs, ps, m1. repeat split; auto.
    intros i Hi. apply get_repr.
    + cbn [repr]. exists k, lo. split; [exact Hw1|]. intros x Hx. rewrite Hm1. destruct (in_dec _ _ _); [reflexivity|apply Hm; exact Hx].
    + specialize (Hcov i Hi). cbn [covers] in *. destruct (@wf_bounds _ _ _ _ Hw1) as (El1 & Eh1). lia.
  - destruct (@restore_lemma ivs k lo m1 t1 Hw1 Hnd) as (t2 & m2 & -> & Hw2 & H1 & H2).
    { rewrite Forall_forall in Hall |- *. intros iv Hiv. exact (proj1 (Hall iv Hiv)). }
    cbn [bind]. rewrite Ep. cbn [bind]. exists (Some t2), ivs, ps, m1. repeat split; auto.
    assert (Hm2 : forall i, m2 i = value_after os i).
    { intros i. destruct (in_dec Z.eq_dec i (map fst ivs)) as [Hi|Hi].
      - apply in_map_iff in Hi. destruct Hi as ((x, v) & Ex & Hx). cbn [fst] in Ex. subst x. rewrite (H1 i v Hx).
        rewrite Forall_forall in Hall. destruct (Hall _ Hx) as (_ & Hv & _). exact Hv.
      - rewrite (H2 i Hi), Hm1. destruct (in_dec _ _ _); [contradiction|reflexivity]. }
    intros i Hi. rewrite <- Hm2. apply get_repr.
    + cbn [repr]. exists k, lo. split; [exact Hw2|]. intros x Hx. rewrite Hm2. apply Hm. exact Hx.
    + specialize (Hcov i Hi). cbn [covers] in *. destruct (@wf_bounds _ _ _ _ Hw2) as (El2 & Eh2). lia.
Qed.
