From Coq Require Import Reals ZArith List Bool Permutation FunctionalExtensionality Lia Lra.
From Verif Require Import Base.PyBase Model.Random Model.RandomAccessQueue Model.ReplayBuffer Model.EpisodicReplayBuffer Spec.SumSpec Spec.RandomSpec Spec.FairSpec.
From Verif Require Import Proofs.RandomProofs Proofs.RSumFacts Proofs.RandomAccessQueueProofs Proofs.ReplayBufferProofs.
Import ListNotations.
Local Open Scope nat_scope.

(** ** Permutations of range(n). *)
Record renaming (n : nat) (f : Z -> Z) : Prop := mk_renaming {
  ren_inj : forall x y, f x = f y -> x = y;
  ren_in : forall x, (0 <= x < Z.of_nat n)%Z -> (0 <= f x < Z.of_nat n)%Z }.
Definition swap (u v x : Z) : Z := if Z.eq_dec x u then v else if Z.eq_dec x v then u else x.
Lemma swap_renaming : forall n u v, (0 <= u < Z.of_nat n)%Z -> (0 <= v < Z.of_nat n)%Z -> renaming n (swap u v).
Proof.
  intros n u v Hu Hv. split.
  - intros x y. unfold swap. destruct (Z.eq_dec x u), (Z.eq_dec x v), (Z.eq_dec y u), (Z.eq_dec y v); lia.
  - intros x Hx. unfold swap. destruct (Z.eq_dec x u), (Z.eq_dec x v); lia.
Qed.
Lemma renaming_comp : forall n f g, renaming n f -> renaming n g -> renaming n (fun x => f (g x)).
Proof. intros n f g [F1 F2] [G1 G2]. split; auto. Qed.
Lemma renaming_id : forall n, renaming n (fun x => x).
Proof. split; auto. Qed.
Lemma renames : forall n a b, length a = length b -> NoDup a -> NoDup b -> (forall x, In x a -> (0 <= x < Z.of_nat n)%Z) -> (forall x, In x b -> (0 <= x < Z.of_nat n)%Z) ->
  exists f, renaming n f /\ map f a = b.
Proof.
  intros n a. induction a as [|x a IH]; intros [|y b] L Na Nb Ra Rb; try discriminate; [exists (fun x => x); split; [apply renaming_id|reflexivity]|].
  inversion Na as [|? ? Hx Na']; inversion Nb as [|? ? Hy Nb']; subst.
  destruct (IH b) as (f & F & E); try assumption; [cbn in L; lia|intros; apply Ra; right; assumption|intros; apply Rb; right; assumption|].
  assert (U : ~ In (f x) b) by (rewrite <- E; intros H; apply in_map_iff in H; destruct H as (x' & E' & H'); apply (ren_inj _ _ F) in E'; congruence).
  exists (fun z => swap (f x) y (f z)). split.
  - apply (renaming_comp n (swap (f x) y) f); [|assumption]. apply swap_renaming; [apply (ren_in _ _ F), Ra; left; reflexivity|apply Rb; left; reflexivity].
  - cbn [map]. f_equal.
    + unfold swap. destruct (Z.eq_dec (f x) (f x)); congruence.
    + rewrite <- (map_map f (swap (f x) y)), E. rewrite <- (map_id b) at 2. apply map_ext_in. intros z Hz. unfold swap. destruct (Z.eq_dec z (f x)); [congruence|]. destruct (Z.eq_dec z y); congruence.
Qed.

(** ** Renamed draws give renamed results. *)
Definition rename_rng (f : Z -> Z) (r : rng) : rng := mk_rng (map f (norep r)) (fun b => map f (block r b)).
Definition rename_res (f : Z -> Z) (r : res (list Z)) : res (list Z) := match r with Ok l => Ok (map f l) | Raise e => Raise e end.
Lemma map_upd : forall (f : Z -> Z) l i x, map f (upd l i x) = upd (map f l) i (f x).
Proof. intros f l. induction l as [|y l IH]; intros [|i] x; cbn; try reflexivity. rewrite IH. reflexivity. Qed.
Section Equivariant.
  Variable f : Z -> Z.
  Hypothesis INJ : forall x y, f x = f y -> x = y.
  Lemma redraw_rename : forall fuel k bl i sel x res j b,
    redraw fuel k (fun b => map f (bl b)) i (map f sel) (f x) (map f res) j b =
    match redraw fuel k bl i sel x res j b with Ok (x, res, j, b) => Ok (f x, map f res, j, b) | Raise e => Raise e end.
  Proof.
    induction fuel as [|fuel IH]; intros k bl i sel x res j b; cbn [redraw];
      destruct (in_dec Z.eq_dec x sel) as [I|I], (in_dec Z.eq_dec (f x) (map f sel)) as [I'|I']; try reflexivity;
      try (exfalso; apply I', in_map; exact I); try (exfalso; apply I; apply in_map_iff in I'; destruct I' as (x' & E & H); apply INJ in E; congruence).
    rewrite nth_error_map. destruct (nth_error res j) as [y|]; cbn [option_map]; [|reflexivity]. destruct (S j =? 2 * k).
    - rewrite <- IH. rewrite map_app, <- firstn_map, map_upd. reflexivity.
    - rewrite <- IH, map_upd. reflexivity.
  Qed.
  Lemma dedup_rename : forall fuel k bl todo i sel res j b,
    dedup_loop fuel k (fun b => map f (bl b)) todo i (map f sel) (map f res) j b = rename_res f (dedup_loop fuel k bl todo i sel res j b).
  Proof.
    intros fuel k bl todo. induction todo as [|todo IH]; intros i sel res j b; cbn [dedup_loop]; [reflexivity|].
    rewrite nth_error_map. destruct (nth_error res i) as [x|]; cbn [option_map]; [|reflexivity]. rewrite redraw_rename.
    destruct (redraw fuel k bl i sel x res j b) as [[[[x' res'] j'] b']|e]; cbn [bind]; [|reflexivity]. rewrite <- IH. reflexivity.
  Qed.
  Lemma sample_rename : forall fuel r n k, sample_n_k fuel (rename_rng f r) n k = rename_res f (sample_n_k fuel r n k).
  Proof.
    intros fuel r n k. unfold sample_n_k. destruct ((0 <=? k)%Z && (k <=? n)%Z); [|reflexivity]. destruct (k =? 0)%Z; [reflexivity|]. destruct (n <=? 3 * k)%Z; [reflexivity|].
    cbn [block rename_rng]. pose proof (dedup_rename fuel (Z.to_nat k) (block r) (Z.to_nat k) 0 [] (block r 0) (Z.to_nat k) 1) as E. cbn [map] in E. rewrite E. clear E.
    destruct (dedup_loop _ _ _ _ _ _ _ _ _) as [l|e]; cbn [rename_res bind]; [|reflexivity]. rewrite firstn_map. reflexivity.
  Qed.
End Equivariant.

(** ** The set of draws is closed under renaming. *)
Lemma in_zrange : forall n x, In x (zrange n) <-> (0 <= x < Z.of_nat n)%Z.
Proof.
  intros n x. unfold zrange. rewrite in_map_iff. split; [intros (i & <- & H); apply in_seq in H; lia|]. intros H. exists (Z.to_nat x). split; [lia|]. apply in_seq. lia.
Qed.
Lemma zrange_nodup : forall n, NoDup (zrange n).
Proof. intros n. unfold zrange. apply FinFun.Injective_map_NoDup; [intros x y; lia|apply seq_NoDup]. Qed.
Lemma in_all_seqs : forall n L l, In l (all_seqs n L) <-> length l = L /\ forall x, In x l -> (0 <= x < Z.of_nat n)%Z.
Proof.
  intros n L. induction L as [|L IH]; intros l; cbn [all_seqs].
  - split; [intros [<-|[]]; split; [reflexivity|intros x []]|intros [E _]; destruct l; [left; reflexivity|discriminate]].
  - rewrite in_flat_map. split.
    + intros (x & Hx & H). apply in_map_iff in H. destruct H as (l' & <- & Hl). apply IH in Hl. destruct Hl as [E R]. split; [cbn; congruence|]. intros y [<-|Hy]; [apply in_zrange; assumption|auto].
    + intros [E R]. destruct l as [|x l]; [discriminate|]. exists x. split; [apply in_zrange, R; left; reflexivity|]. apply in_map, IH. split; [cbn in E; lia|]. intros y Hy. apply R. right. assumption.
Qed.
Lemma flat_map_nodup : forall A B (f : A -> list B) l, NoDup l -> (forall x, In x l -> NoDup (f x)) -> (forall x y z, In x l -> In y l -> In z (f x) -> In z (f y) -> x = y) -> NoDup (flat_map f l).
Proof.
  intros A B f l. induction l as [|x l IH]; intros N H D; [constructor|]. inversion N as [|? ? Hx N']; subst. cbn [flat_map].
  assert (G : forall a b : list B, NoDup a -> NoDup b -> (forall z, In z a -> ~ In z b) -> NoDup (a ++ b)).
  { intros a b Na Nb Dab. induction Na as [|z a Hz Na IHa]; [assumption|]. cbn. constructor; [rewrite in_app_iff; intros [I|I]; [auto|apply (Dab z (or_introl eq_refl) I)]|]. apply IHa. intros z' Hz'. apply Dab. right. assumption. }
  apply G; [apply H; left; reflexivity|apply IH; [assumption|intros; apply H; right; assumption|intros x' y z Hx' Hy; apply D; right; assumption]|].
  intros z Hz Hz'. apply in_flat_map in Hz'. destruct Hz' as (y & Hy & Hzy). apply Hx. rewrite (D x y z (or_introl eq_refl) (or_intror Hy) Hz Hzy). assumption.
Qed.
Lemma all_seqs_nodup : forall n L, NoDup (all_seqs n L).
Proof.
  intros n L. induction L as [|L IH]; cbn [all_seqs]; [repeat constructor; intros []|]. apply flat_map_nodup; [apply zrange_nodup| |].
  - intros x _. apply FinFun.Injective_map_NoDup; [intros a b E; congruence|assumption].
  - intros x y z _ _ Hx Hy. apply in_map_iff in Hx. apply in_map_iff in Hy. destruct Hx as (a & <- & _), Hy as (b & E & _). congruence.
Qed.
Lemma rename_seqs : forall n f L (P : list Z -> bool), renaming n f -> (forall l, P (map f l) = P l) -> Permutation (map (map f) (filter P (all_seqs n L))) (filter P (all_seqs n L)).
Proof.
  intros n f L P [FI FR] HP.
  assert (ND : NoDup (filter P (all_seqs n L))) by (apply NoDup_filter, all_seqs_nodup).
  assert (MI : forall a b, map f a = map f b -> a = b) by (intros a; induction a as [|x a IH]; intros [|y b] E; try discriminate; [reflexivity|]; cbn in E; injection E as E1 E2; f_equal; auto).
  assert (ND' : NoDup (map (map f) (filter P (all_seqs n L)))) by (apply FinFun.Injective_map_NoDup; [intros a b; apply MI|assumption]).
  apply NoDup_Permutation_bis; [assumption|rewrite map_length; lia|].
  intros l Hl. apply in_map_iff in Hl. destruct Hl as (l' & <- & Hl'). apply filter_In in Hl'. destruct Hl' as [I Q]. apply filter_In. split; [|rewrite HP; assumption].
  apply in_all_seqs in I. destruct I as [E R]. apply in_all_seqs. split; [rewrite map_length; assumption|]. intros x Hx. apply in_map_iff in Hx. destruct Hx as (y & <- & Hy). auto.
Qed.
Lemma no_dup_spec : forall l, no_dup l = true <-> NoDup l.
Proof.
  intros l. induction l as [|x l IH]; cbn [no_dup]; [split; [constructor|reflexivity]|]. destruct (in_dec Z.eq_dec x l) as [I|I]; cbn [andb].
  - split; [discriminate|]. intros N. inversion N; contradiction.
  - rewrite IH. split; [constructor; assumption|]. intros N. inversion N; assumption.
Qed.
Lemma no_dup_rename : forall n f l, renaming n f -> no_dup (map f l) = no_dup l.
Proof.
  intros n f l [FI _]. apply Bool.eq_true_iff_eq. rewrite !no_dup_spec. split; [apply NoDup_map_inv|]. intros N. apply FinFun.Injective_map_NoDup; assumption.
Qed.

(** Sums over the draws do not change if all draws are renamed. *)
Lemma tot_permutation : forall A (g : A -> R) l l', Permutation l l' -> total_of g l = total_of g l'.
Proof. intros A g l l' H. induction H; rewrite ?tot_cons; try lra. Qed.
Lemma tot_flat_map : forall A B' (f : B' -> R) (g : A -> list B') l, total_of f (flat_map g l) = total_of (fun x => total_of f (g x)) l.
Proof. intros A B' f g l. induction l as [|x l IH]; [reflexivity|]. cbn [flat_map]. rewrite tot_app, tot_cons, IH. reflexivity. Qed.
Lemma stream_rename : forall f k B a l, stream k B (map f a) (map f l) = rename_rng f (stream k B a l).
Proof.
  intros f k B a l. unfold rename_rng, stream. cbn [norep block]. f_equal. apply functional_extensionality. intros [|b]; [apply firstn_map|]. destruct (b <? B); [rewrite skipn_map; apply firstn_map|apply firstn_map].
Qed.
Lemma ensemble_rename : forall n k B f (g : res (list Z) -> R) fuel, renaming n f ->
  total_of (fun r => g (drawn fuel n k r)) (ensemble n k B) = total_of (fun r => g (rename_res f (drawn fuel n k r))) (ensemble n k B).
Proof.
  intros n k B f g fuel F. unfold ensemble. rewrite !tot_flat_map.
  rewrite <- (tot_permutation _ _ _ _ (rename_seqs n f k no_dup F (fun l => no_dup_rename n f l F))). rewrite tot_map. apply tot_ext. intros a _. rewrite !tot_map.
  assert (FT : forall l : list (list Z), filter (fun _ => true) l = l) by (induction l as [|x l IH]; cbn; congruence).
  pose proof (rename_seqs n f ((2 + B) * k) (fun _ => true) F (fun l => eq_refl)) as P. rewrite FT in P.
  rewrite <- (tot_permutation _ _ _ _ P). rewrite tot_map. apply tot_ext. intros l _. f_equal. unfold drawn.
  rewrite <- (sample_rename f (ren_inj _ _ F)), stream_rename. reflexivity.
Qed.

(** ** Every result is distinct. *)
Lemma in_firstn' : forall A (l : list A) i y, In y (firstn i l) -> In y l.
Proof. intros A l i y H. rewrite <- (firstn_skipn i l). apply in_or_app. left. exact H. Qed.
Lemma in_skipn' : forall A (l : list A) i y, In y (skipn i l) -> In y l.
Proof. intros A l i y H. rewrite <- (firstn_skipn i l). apply in_or_app. right. exact H. Qed.
Lemma stream_ok : forall n k B l a, (length l = (2 + B) * k)%nat -> (forall x, In x l -> (0 <= x < Z.of_nat n)%Z) -> distinct_in_range (Z.of_nat n) (Z.of_nat k) a ->
  rng_ok (Z.of_nat n) (Z.of_nat k) (stream k B a l).
Proof.
  intros n k B l a L R A. split; [exact A|]. cbn [block norep]. split; [|split].
  - cbn [block stream]. rewrite firstn_length. nia.
  - intros [|b] Hb; [lia|]. cbn [block stream]. destruct (Nat.ltb_spec b B); rewrite firstn_length, ?skipn_length; nia.
  - intros [|b] x; cbn [block stream]; [intros H; apply R, (in_firstn' _ _ _ _ H)|]. destruct (b <? B); intros H; apply in_firstn' in H; [apply in_skipn' in H|]; auto.
Qed.
Lemma ensemble_ok : forall n k B r, In r (ensemble n k B) -> rng_ok (Z.of_nat n) (Z.of_nat k) r.
Proof.
  intros n k B r Hr. unfold ensemble in Hr. apply in_flat_map in Hr. destruct Hr as (a & Ha & Hr). apply filter_In in Ha. destruct Ha as [Ha Na]. apply in_all_seqs in Ha. destruct Ha as [La Ra].
  apply in_map_iff in Hr. destruct Hr as (s & <- & Hs). apply in_all_seqs in Hs. destruct Hs as [Ls Rs]. apply stream_ok; try assumption. split; [lia|]. split; [apply no_dup_spec|]; assumption.
Qed.
Lemma drawn_distinct : forall fuel n k B r l, In r (ensemble n k B) -> drawn fuel n k r = Ok l -> distinct_in_range (Z.of_nat n) (Z.of_nat k) l.
Proof. intros fuel n k B r l Hr Hl. unfold drawn in Hl. pose proof (@sample_n_k_sound fuel _ _ _ (ensemble_ok n k B r Hr)) as S. rewrite Hl in S. apply S. Qed.

(** ** All results are equally frequent. *)
Definition ind (b : bool) : R := if b then 1%R else 0%R.
Lemma count_total : forall A (P : A -> bool) l, INR (length (filter P l)) = total_of (fun x => ind (P x)) l.
Proof. intros A P l. induction l as [|x l IH]; [reflexivity|]. cbn [filter]. rewrite tot_cons, <- IH. unfold ind. destruct (P x); [cbn [length]; rewrite S_INR; lra|lra]. Qed.
Lemma uniform : forall fuel n k B a b, distinct_in_range (Z.of_nat n) (Z.of_nat k) a -> distinct_in_range (Z.of_nat n) (Z.of_nat k) b -> ways fuel n k B a = ways fuel n k B b.
Proof.
  intros fuel n k B a b (La & Na & Ra) (Lb & Nb & Rb). destruct (renames n a b) as (f & F & E); try assumption; [lia|]. apply INR_eq. unfold ways. rewrite !count_total.
  set (g := fun l (r : res (list Z)) => ind match r with Ok l' => if list_eq_dec Z.eq_dec l' l then true else false | Raise _ => false end).
  change (total_of (fun r => g a (drawn fuel n k r)) (ensemble n k B) = total_of (fun r => g b (drawn fuel n k r)) (ensemble n k B)).
  rewrite (ensemble_rename n k B f (g b) fuel F). apply tot_ext. intros r _. unfold g. destruct (drawn fuel n k r) as [l|e]; cbn [rename_res]; [|reflexivity].
  assert (MI : forall u v, map f u = map f v -> u = v) by (intros u; induction u as [|x u IH]; intros [|y v] E'; try discriminate; [reflexivity|]; cbn in E'; injection E' as E1 E2; f_equal; [apply (ren_inj _ _ F); assumption|auto]).
  destruct (list_eq_dec Z.eq_dec l a) as [D|D], (list_eq_dec Z.eq_dec (map f l) b) as [D'|D']; try reflexivity; exfalso; [apply D'; congruence|apply D, MI; congruence].
Qed.

(** ** Every result occurs. *)
Lemma dedup_distinct : forall fuel k bl todo i sel res j b, NoDup (firstn todo (skipn i res)) -> (forall x, In x (firstn todo (skipn i res)) -> ~ In x sel) -> (i + todo <= length res)%nat ->
  dedup_loop fuel k bl todo i sel res j b = Ok res.
Proof.
  intros fuel k bl todo. induction todo as [|todo IH]; intros i sel res j b N D L; cbn [dedup_loop]; [reflexivity|].
  destruct (nth_error res i) as [x|] eqn:E; [|apply nth_error_None in E; lia].
  assert (SK : skipn i res = x :: skipn (S i) res).
  { clear - E. revert res E. induction i as [|i IH]; intros [|y res] E; try discriminate; cbn in *; [congruence|apply IH; assumption]. }
  rewrite SK in N, D. cbn [firstn] in N, D. inversion N as [|? ? Hx N']; subst.
  assert (R : redraw fuel k bl i sel x res j b = Ok (x, res, j, b)) by (destruct fuel; cbn [redraw]; destruct (in_dec Z.eq_dec x sel) as [I|I]; try reflexivity; exfalso; apply (D x (or_introl eq_refl) I)).
  rewrite R. cbn [bind]. apply IH; [assumption| |lia]. intros y Hy [<-|Hs]; [contradiction|]. apply (D y (or_intror Hy) Hs).
Qed.
Lemma possible : forall fuel n k B a, distinct_in_range (Z.of_nat n) (Z.of_nat k) a -> (0 < ways fuel n k B a)%nat.
Proof.
  intros fuel n k B a (La & Na & Ra). assert (Lk : length a = k) by lia.
  assert (KN : (k <= n)%nat).
  { rewrite <- Lk. rewrite <- (seq_length n 0), <- (map_length Z.of_nat). apply NoDup_incl_length; [assumption|]. intros x Hx. apply in_zrange. auto. }
  assert (W : exists r, In r (ensemble n k B) /\ drawn fuel n k r = Ok a).
  { exists (stream k B a (a ++ repeat 0%Z ((1 + B) * k))). split.
    - unfold ensemble. apply in_flat_map. exists a. split; [apply filter_In; split; [apply in_all_seqs; split; assumption|apply no_dup_spec; assumption]|].
      apply in_map. apply in_all_seqs. split; [rewrite app_length, repeat_length; lia|]. intros x Hx. apply in_app_or in Hx. destruct Hx as [Hx|Hx]; [auto|]. destruct k as [|k]; [rewrite Nat.mul_0_r in Hx; destruct Hx|]. apply repeat_spec in Hx. lia.
    - unfold drawn, sample_n_k. destruct (Z.leb_spec 0 (Z.of_nat k)), (Z.leb_spec (Z.of_nat k) (Z.of_nat n)); cbn [andb]; try lia. destruct (Z.eqb_spec (Z.of_nat k) 0).
      + assert (a = []) as -> by (destruct a; [reflexivity|cbn in Lk; lia]). reflexivity.
      + destruct (Z.leb_spec (Z.of_nat n) (3 * Z.of_nat k)); [reflexivity|]. rewrite Nat2Z.id. cbn [block stream].
        assert (FK : firstn k (firstn (2 * k) (a ++ repeat 0%Z ((1 + B) * k))) = a) by (rewrite firstn_firstn, Nat.min_l by lia; rewrite <- Lk at 1; rewrite firstn_app, firstn_all, Nat.sub_diag; cbn [firstn]; apply app_nil_r).
        rewrite dedup_distinct; cbn [skipn bind]; rewrite ?FK; [reflexivity|assumption|intros x _ []|]. rewrite firstn_length, app_length, repeat_length. nia. }
  destruct W as (r & Hr & Er). unfold ways. destruct (filter _ _) as [|r' l'] eqn:EF; [|cbn; lia]. exfalso.
  assert (I : In r []).
  { rewrite <- EF. apply filter_In. split; [assumption|]. rewrite Er. destruct (list_eq_dec Z.eq_dec a a); congruence. } destruct I.
Qed.

(** ** The mean of a sample is the mean of all. *)
Lemma tot_swap : forall A B' (f : A -> B' -> R) l l', total_of (fun x => total_of (f x) l') l = total_of (fun y => total_of (fun x => f x y) l) l'.
Proof.
  intros A B' f l l'. induction l as [|x l IH].
  - cbn. induction l' as [|y l' IH]; [reflexivity|]. rewrite tot_cons, <- IH. cbn. lra.
  - rewrite tot_cons, IH, <- tot_add. apply tot_ext. intros y _. rewrite tot_cons. reflexivity.
Qed.
Definition has (x : Z) (l : list Z) : bool := if in_dec Z.eq_dec x l then true else false.
Lemma tot_has_one : forall (f : Z -> R) s x, NoDup s -> In x s -> total_of (fun y => f y * ind (if Z.eq_dec x y then true else false))%R s = f x.
Proof.
  intros f s x. induction s as [|y s IH]; intros N I; [destruct I|]. inversion N as [|? ? Hy N']; subst. rewrite tot_cons. destruct I as [<-|I].
  - destruct (Z.eq_dec y y); [|congruence]. rewrite (tot_ext _ (fun _ => 0%R) s); [rewrite tot_const; cbn [ind]; lra|]. intros z Hz. destruct (Z.eq_dec y z); [congruence|cbn [ind]; lra].
  - rewrite IH by assumption. destruct (Z.eq_dec x y); [congruence|cbn [ind]; lra].
Qed.
Lemma tot_has : forall (f : Z -> R) s l, NoDup s -> NoDup l -> (forall x, In x l -> In x s) -> total_of f l = total_of (fun y => f y * ind (has y l))%R s.
Proof.
  intros f s l Ns. induction l as [|x l IH]; intros N I.
  - rewrite (tot_ext _ (fun _ => 0%R) s); [rewrite tot_const; cbn; lra|intros y _; cbn; lra].
  - inversion N as [|? ? Hx N']; subst. rewrite tot_cons, IH by (try assumption; intros; apply I; right; assumption). rewrite <- (tot_has_one f s x Ns (I x (or_introl eq_refl))), <- tot_add. apply tot_ext.
    intros y _. unfold has. destruct (Z.eq_dec x y) as [D|D], (in_dec Z.eq_dec y l), (in_dec Z.eq_dec y (x :: l)) as [J|J]; cbn [ind]; try lra; exfalso; cbn in J; try subst y; intuition congruence.
Qed.
Lemma fair : forall fuel n k B f, (INR n * sum_drawn fuel n k B f = INR (results fuel n k B) * INR k * total_of f (zrange n))%R.
Proof.
  intros fuel n k B f.
  set (c := fun x => total_of (fun r => ind match drawn fuel n k r with Ok l => has x l | Raise _ => false end) (ensemble n k B)).
  assert (G : forall h, sum_drawn fuel n k B h = total_of (fun x => h x * c x)%R (zrange n)).
  { intros h. unfold sum_drawn. transitivity (total_of (fun r => total_of (fun x => h x * ind match drawn fuel n k r with Ok l => has x l | Raise _ => false end)%R (zrange n)) (ensemble n k B)).
    - apply tot_ext. intros r Hr. destruct (drawn fuel n k r) as [l|e] eqn:E.
      + destruct (drawn_distinct fuel n k B r l Hr E) as (_ & Nl & Rl). apply tot_has; [apply zrange_nodup|assumption|]. intros x Hx. apply in_zrange. auto.
      + rewrite (tot_ext _ (fun _ => 0%R)); [rewrite tot_const; lra|intros; cbn [ind]; lra].
    - rewrite tot_swap. apply tot_ext. intros x _. rewrite tot_scale. reflexivity. }
  assert (EQ : forall x y, In x (zrange n) -> In y (zrange n) -> c x = c y).
  { intros x y Hx Hy. apply in_zrange in Hx. apply in_zrange in Hy. unfold c.
    set (g := fun z (r : res (list Z)) => ind match r with Ok l => has z l | Raise _ => false end).
    change (total_of (fun r => g x (drawn fuel n k r)) (ensemble n k B) = total_of (fun r => g y (drawn fuel n k r)) (ensemble n k B)).
    pose proof (swap_renaming n x y Hx Hy) as F. rewrite (ensemble_rename n k B (swap x y) (g y) fuel F). apply tot_ext. intros r _. unfold g. destruct (drawn fuel n k r) as [l|e]; cbn [rename_res]; [|reflexivity].
    assert (SX : swap x y x = y) by (unfold swap; destruct (Z.eq_dec x x); congruence). unfold has.
    destruct (in_dec Z.eq_dec x l) as [I|I], (in_dec Z.eq_dec y (map (swap x y) l)) as [I'|I']; try reflexivity; exfalso.
    - apply I'. apply in_map_iff. exists x. split; assumption.
    - apply I. apply in_map_iff in I'. destruct I' as (z & E & Hz). assert (z = x) as -> by (apply (ren_inj _ _ F); congruence). exact Hz. }
  assert (T : (total_of c (zrange n) = INR (results fuel n k B) * INR k)%R).
  { pose proof (G (fun _ => 1%R)) as E. rewrite (tot_ext _ c) in E by (intros; lra). rewrite <- E. unfold sum_drawn, results. rewrite count_total, Rmult_comm, <- tot_scale. apply tot_ext. intros r Hr.
    destruct (drawn fuel n k r) as [l|e] eqn:El; cbn [ind]; [|lra]. destruct (drawn_distinct fuel n k B r l Hr El) as (Ll & _ & _). rewrite tot_const. replace (length l) with k by lia. lra. }
  rewrite G, <- T. destruct n as [|n]; [cbn; lra|]. set (z := 0%Z). assert (Hz : In z (zrange (S n))) by (apply in_zrange; unfold z; lia).
  rewrite (tot_ext _ (fun x => c z * f x)%R) by (intros x Hx; rewrite (EQ x z Hx Hz); lra). rewrite tot_scale.
  rewrite (tot_ext c (fun _ => c z)) by (intros x Hx; apply EQ; assumption). rewrite tot_const. unfold zrange at 2. rewrite map_length, seq_length. ring.
Qed.

(** ** Replay buffers. *)
Lemma tot_by_index : forall A (f : A -> R) l, total_of f l = total_of (fun i => match nth_error l (Z.to_nat i) with Some w => f w | None => 0%R end) (zrange (length l)).
Proof.
  intros A f l. unfold zrange. rewrite tot_map. induction l as [|x l IH]; [reflexivity|]. cbn [length seq]. rewrite !tot_cons, IH. cbn [nth_error Z.to_nat Z.of_nat]. f_equal.
  rewrite <- seq_shift, tot_map. apply tot_ext. intros i _. rewrite !Nat2Z.id. reflexivity.
Qed.
Lemma fair_queue : forall A fuel B (q : raq A) k (f : A -> R) (S : rng -> res (list A)),
  (forall r, S r = (assert! k <=? raq_len q in let! ixs := sample_n_k fuel r (Z.of_nat (raq_len q)) (Z.of_nat k) in raq_gets q ixs)) ->
  (INR (raq_len q) * total_of (fun r => match S r with Ok ws => total_of f ws | Raise _ => 0%R end) (ensemble (raq_len q) k B)
   = INR (results fuel (raq_len q) k B) * INR k * total_of f (raq_iter q))%R.
Proof.
  intros A fuel B q k f S HS. rewrite (tot_by_index _ f (raq_iter q)), <- raq_len_iter, <- fair. f_equal. unfold sum_drawn. apply tot_ext. intros r Hr. rewrite HS. unfold drawn.
  destruct (Nat.leb_spec k (raq_len q)) as [K|K].
  - destruct (sample_n_k fuel r (Z.of_nat (raq_len q)) (Z.of_nat k)) as [ixs|e] eqn:E; cbn [bind]; [|reflexivity].
    destruct (drawn_distinct fuel (raq_len q) k B r ixs Hr E) as (_ & _ & R). destruct (@raq_gets_spec _ q ixs) as (ws & -> & HF); [intros i Hi; rewrite <- raq_len_iter; apply R; exact Hi|].
    clear - HF. induction HF as [|i w ixs ws Hw HF IH]; [reflexivity|]. rewrite !tot_cons, IH, Hw. reflexivity.
  - unfold sample_n_k. destruct (Z.leb_spec 0 (Z.of_nat k)), (Z.leb_spec (Z.of_nat k) (Z.of_nat (raq_len q))); cbn [andb]; try lia; reflexivity.
Qed.
Lemma fair_replay : forall T fuel B (b : rb T) k f,
  (INR (rb_len b) * sum_sampled fuel B b k f = INR (results fuel (rb_len b) k B) * INR k * total_of f (raq_iter (nr_mem b)))%R.
Proof. intros T fuel B b k f. exact (fair_queue _ fuel B (nr_mem b) k f (fun r => rb_sample fuel r b k) (fun r => eq_refl)). Qed.
Lemma fair_transitions : forall T fuel B (b : erb T) k f,
  (INR (erb_len b) * sum_transitions fuel B b k f = INR (results fuel (erb_len b) k B) * INR k * total_of f (raq_iter (er_mem b)))%R.
Proof. intros T fuel B b k f. exact (fair_queue _ fuel B (er_mem b) k f (fun r => erb_sample fuel r b k) (fun r => eq_refl)). Qed.
Lemma fair_episodes : forall T fuel B (b : erb T) k f,
  (INR (erb_n_episodes b) * sum_episodes fuel B b k f = INR (results fuel (erb_n_episodes b) k B) * INR k * total_of f (raq_iter (er_eps b)))%R.
Proof.
  intros T fuel B b k f. apply (fair_queue _ fuel B (er_eps b) k f (fun r => erb_sample_episodes fuel r (fun _ => O) b k None)). intros r. unfold erb_sample_episodes, erb_n_episodes. destruct (k <=? raq_len (er_eps b)); [|reflexivity].
  destruct (sample_n_k fuel r (Z.of_nat (raq_len (er_eps b))) (Z.of_nat k)) as [ixs|e]; cbn [bind]; [|reflexivity]. destruct (raq_gets (er_eps b) ixs); reflexivity.
Qed.

(** ** Subsequences of episodes. *)
Lemma in_window : forall L m i t, (i + m <= L)%nat -> (In t (firstn m (skipn i (seq 0 L))) <-> (i <= t < i + m)%nat).
Proof.
  intros L m i t H.
  assert (E : firstn m (skipn i (seq 0 L)) = seq i m).
  { replace L with (i + (m + (L - i - m)))%nat by lia. rewrite seq_app, skipn_app, skipn_all2 by (rewrite seq_length; lia). rewrite seq_length, Nat.sub_diag. cbn [skipn app]. rewrite Nat.add_0_l, seq_app, firstn_app, firstn_all2 by (rewrite seq_length; lia).
    rewrite seq_length, Nat.sub_diag. cbn [firstn]. apply app_nil_r. }
  rewrite E. rewrite in_seq. reflexivity.
Qed.
Lemma count_interval : forall n lo hi s, (s <= lo <= hi)%nat -> (hi <= s + n)%nat -> length (filter (fun i => (lo <=? i) && (i <? hi)) (seq s n)) = (hi - lo)%nat.
Proof.
  induction n as [|n IH]; intros lo hi s H1 H2; [cbn; lia|]. cbn [seq filter]. destruct (Nat.leb_spec lo s), (Nat.ltb_spec s hi); cbn [andb length].
  - destruct (Nat.eq_dec (S s) hi) as [D|D].
    + assert (Z : forall k a, (hi <= a)%nat -> length (filter (fun i => (lo <=? i) && (i <? hi)) (seq a k)) = 0%nat).
      { induction k as [|k IHk]; intros a Ha; [reflexivity|]. cbn [seq filter]. destruct (Nat.ltb_spec a hi); [lia|]. rewrite andb_false_r. apply IHk. lia. }
      rewrite Z by lia. lia.
    + assert (lo = s) by lia. subst s.
      assert (E : length (filter (fun i => (lo <=? i) && (i <? hi)) (seq (S lo) n)) = length (filter (fun i => (S lo <=? i) && (i <? hi)) (seq (S lo) n))).
      { f_equal. apply filter_ext_in. intros i Hi. apply in_seq in Hi. destruct (Nat.leb_spec lo i), (Nat.leb_spec (S lo) i); try lia; reflexivity. }
      rewrite E, IH by lia. lia.
  - assert (lo = hi) by lia. subst. replace (hi - hi)%nat with 0%nat by lia. apply length_zero_iff_nil. destruct (filter _ _) as [|x l] eqn:E; [reflexivity|]. assert (I : In x (x :: l)) by (left; reflexivity). rewrite <- E in I. apply filter_In in I. destruct I as [_ I]. apply andb_prop in I. destruct I as [I1 I2]. apply Nat.leb_le in I1. apply Nat.ltb_lt in I2. lia.
  - rewrite IH by lia. reflexivity.
  - lia.
Qed.
Lemma starts : forall L m t, (t < L)%nat -> starts_with L m t = if L <=? m then (L - m + 1)%nat else Nat.min (Nat.min (t + 1) (L - t)) (Nat.min m (L - m + 1)).
Proof.
  intros L m t Ht. unfold starts_with, random_subseq. rewrite seq_length. destruct (Nat.leb_spec L m) as [C|C].
  - rewrite (filter_ext_in _ (fun _ => true)).
    + assert (FT : forall l : list nat, filter (fun _ => true) l = l) by (induction l as [|x l IH]; cbn; congruence). rewrite FT, seq_length. reflexivity.
    + intros i _. destruct (in_dec Nat.eq_dec t (seq 0 L)) as [I|I]; [reflexivity|]. exfalso. apply I, in_seq. lia.
  - rewrite (filter_ext_in _ (fun i => (t + 1 - m <=? i) && (i <? Nat.min (t + 1) (L - m + 1)))).
    + destruct m as [|m]; [|rewrite count_interval; lia].
      replace (Nat.min _ (Nat.min 0 _)) with 0%nat by lia. apply length_zero_iff_nil. destruct (filter _ _) as [|x l] eqn:E; [reflexivity|]. assert (I : In x (x :: l)) by (left; reflexivity). rewrite <- E in I. apply filter_In in I. destruct I as [_ I]. apply andb_prop in I. destruct I as [I1 I2]. apply Nat.leb_le in I1. apply Nat.ltb_lt in I2. lia.
    + intros i Hi. apply in_seq in Hi. pose proof (in_window L m i t ltac:(lia)) as W. destruct (in_dec Nat.eq_dec t (firstn m (skipn i (seq 0 L)))) as [I|I], (Nat.leb_spec (t + 1 - m) i), (Nat.ltb_spec i (Nat.min (t + 1) (L - m + 1))); cbn [andb]; try reflexivity; exfalso; [apply W in I; lia|apply W in I; lia|apply W in I; lia|apply I, W; lia].
Qed.

(** ** No run needs more than [fuel] refills. *)
Lemma redraw_refills : forall fuel k bl bl' i sel x res j b, (k <= j < 2 * k)%nat -> (forall c, (c * k + 2 * k <= b * k + j + fuel)%nat -> bl c = bl' c) ->
  redraw fuel k bl i sel x res j b = redraw fuel k bl' i sel x res j b /\
  forall x' res' j' b', redraw fuel k bl i sel x res j b = Ok (x', res', j', b') -> (k <= j' < 2 * k)%nat /\ (b' * k + j' <= b * k + j + fuel)%nat.
Proof.
  induction fuel as [|fuel IH]; intros k bl bl' i sel x res j b J A; cbn [redraw]; destruct (in_dec Z.eq_dec x sel).
  - split; [reflexivity|discriminate].
  - split; [reflexivity|]. intros ? ? ? ? E. injection E as <- <- <- <-. lia.
  - destruct (nth_error res j) as [y|]; [|split; [reflexivity|discriminate]]. destruct (Nat.eqb_spec (S j) (2 * k)) as [D|D].
    + rewrite <- (A b) by lia. destruct (IH k bl bl' i sel y (firstn k (upd res i y) ++ bl b) k (S b)) as [E Q]; [lia|intros c Hc; apply A; cbn in Hc; lia|]. split; [exact E|]. intros x' res' j' b' H. specialize (Q x' res' j' b' H). cbn in Q. lia.
    + destruct (IH k bl bl' i sel y (upd res i y) (S j) b) as [E Q]; [lia|intros c Hc; apply A; lia|]. split; [exact E|]. intros x' res' j' b' H. specialize (Q x' res' j' b' H). lia.
  - split; [reflexivity|]. intros ? ? ? ? E. injection E as <- <- <- <-. lia.
Qed.
Lemma dedup_refills : forall fuel k bl bl' todo i sel res j b, (k <= j < 2 * k)%nat -> (forall c, (c * k + 2 * k <= b * k + j + todo * fuel)%nat -> bl c = bl' c) ->
  dedup_loop fuel k bl todo i sel res j b = dedup_loop fuel k bl' todo i sel res j b.
Proof.
  intros fuel k bl bl' todo. induction todo as [|todo IH]; intros i sel res j b J A; cbn [dedup_loop]; [reflexivity|]. destruct (nth_error res i) as [x|]; [|reflexivity].
  destruct (redraw_refills fuel k bl bl' i sel x res j b J) as [E Q]; [intros c Hc; apply A; cbn; nia|]. rewrite <- E. destruct (redraw fuel k bl i sel x res j b) as [[[[x' res'] j'] b']|e]; cbn [bind]; [|reflexivity].
  destruct (Q x' res' j' b' eq_refl) as [J' P]. apply IH; [assumption|]. intros c Hc. apply A. cbn. nia.
Qed.
Lemma refills : forall fuel r r' n k, norep r = norep r' -> (forall b, (b <= fuel)%nat -> block r b = block r' b) -> sample_n_k fuel r n k = sample_n_k fuel r' n k.
Proof.
  intros fuel r r' n k N A. unfold sample_n_k. destruct (Z.leb_spec 0 k), (Z.leb_spec k n); cbn [andb]; try reflexivity. destruct (Z.eqb_spec k 0); [reflexivity|]. rewrite N. destruct (n <=? 3 * k)%Z; [reflexivity|].
  rewrite (A O) by lia. rewrite (dedup_refills fuel (Z.to_nat k) (block r) (block r')); [reflexivity|lia|]. intros c Hc. apply A. nia.
Qed.
