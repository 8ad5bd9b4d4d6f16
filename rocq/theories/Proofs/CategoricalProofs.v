From Coq Require Import QArith Qround Qabs Qminmax Lqa.
From Verif Require Import Base.PyBase Model.Categorical Spec.WrapperSpec Spec.CategoricalSpec Proofs.QSumFacts.
Set Implicit Arguments.
Local Open Scope nat_scope.

Lemma qclip_clamp : forall lo hi x, (qclip lo hi x == qclamp lo hi x)%Q.
Proof.
  intros lo hi x. unfold qclip, qclamp.
  destruct (Qle_bool lo x) eqn:E1; [apply Qle_bool_iff in E1|].
  - assert (M : (Qmax x lo == x)%Q) by (apply Q.max_l; exact E1). rewrite M.
    destruct (Qle_bool x hi) eqn:E2.
    + apply Qle_bool_iff in E2. rewrite Q.min_l by exact E2. reflexivity.
    + rewrite Q.min_r; [reflexivity|]. destruct (Qlt_le_dec hi x); [Lqa.lra|]. apply Qle_bool_iff in q. congruence.
  - assert (L : (x < lo)%Q) by (destruct (Qlt_le_dec x lo); [assumption|apply Qle_bool_iff in q; congruence]).
    assert (M : (Qmax x lo == lo)%Q) by (apply Q.max_r; Lqa.lra). rewrite M.
    destruct (Qle_bool lo hi) eqn:E2.
    + apply Qle_bool_iff in E2. rewrite Q.min_l by exact E2. reflexivity.
    + rewrite Q.min_r; [reflexivity|]. destruct (Qlt_le_dec hi lo); [Lqa.lra|]. apply Qle_bool_iff in q. congruence.
Qed.
Lemma qclamp_range : forall lo hi x, (lo <= hi -> lo <= qclamp lo hi x /\ qclamp lo hi x <= hi)%Q.
Proof.
  intros lo hi x H. unfold qclamp. split.
  - apply Q.min_glb; [apply Q.le_max_r|exact H].
  - apply Q.le_min_r.
Qed.
Lemma qclamp_id : forall lo hi x, (lo <= x -> x <= hi -> qclamp lo hi x == x)%Q.
Proof. intros lo hi x H1 H2. unfold qclamp. rewrite Q.max_l by exact H1. apply Q.min_l. exact H2. Qed.

(** ** scatter_add *)
Definition at_index (k : nat) (l : list (Z * Q)) : Q :=
  qsum (map (fun p => if (fst p =? Z.of_nat k)%Z then snd p else 0%Q) l).

Lemma scatter_spec : forall l arr, (forall p, In p l -> (0 <= fst p < Z.of_nat (length arr))%Z) ->
  exists arr', scatter_add arr l = Ok arr' /\ length arr' = length arr /\
    forall k, k < length arr -> (nth k arr' 0 == nth k arr 0 + at_index k l)%Q.
Proof.
  induction l as [|[i v] l IH]; intros arr H.
  - exists arr. split; [reflexivity|]. split; [reflexivity|]. intros k Hk. unfold at_index. cbn. ring.
  - assert (Hi := H (i, v) (or_introl eq_refl)). cbn [fst] in Hi.
    cbn [scatter_add]. unfold py_get, py_set.
    assert (E : py_index (length arr) i = Some (Z.to_nat i)).
    { unfold py_index. replace (0 <=? i)%Z with true by (symmetry; apply Z.leb_le; lia).
      replace (i <? Z.of_nat (length arr))%Z with true by (symmetry; apply Z.ltb_lt; lia). reflexivity. }
    rewrite E. destruct (nth_error arr (Z.to_nat i)) as [x|] eqn:Ex.
    2: { apply nth_error_None in Ex. lia. }
    cbn [bind].
    assert (Len : forall T (a : list T) j y, length (upd a j y) = length a).
    { intros T. induction a as [|h a IHa]; intros [|j] y; cbn; auto. }
    destruct (IH (upd arr (Z.to_nat i) (x + v)%Q)) as (arr' & E' & L & N).
    { intros p Hp. rewrite Len. apply H. right. exact Hp. }
    exists arr'. split; [exact E'|]. split; [rewrite L; apply Len|].
    intros k Hk. rewrite N by (rewrite Len; exact Hk). unfold at_index. cbn [map fst snd]. rewrite qsum_cons.
    assert (U : forall (a : list Q) j y k, j < length a -> nth k (upd a j y) 0%Q = if k =? j then y else nth k a 0%Q).
    { induction a as [|h a IHa]; intros [|j] y [|k'] Hj; cbn in *; try lia; auto. apply IHa. lia. }
    rewrite U by lia. destruct (k =? Z.to_nat i) eqn:Ek.
    + apply Nat.eqb_eq in Ek. replace (i =? Z.of_nat k)%Z with true by (symmetry; apply Z.eqb_eq; lia).
      subst k. rewrite (nth_error_nth _ _ 0%Q Ex). ring.
    + apply Nat.eqb_neq in Ek. replace (i =? Z.of_nat k)%Z with false by (symmetry; apply Z.eqb_neq; lia). ring.
Qed.

(** ** The hat function *)
Definition hat (b : Q) (i : nat) : Q :=
  ((if (Qfloor b =? Z.of_nat i)%Z then 1 - (b - zq (Qfloor b)) else 0)
   + (if (Qceiling b =? Z.of_nat i)%Z then b - zq (Qfloor b) else 0))%Q.

Lemma ceil_cases : forall b, (b == zq (Qfloor b) /\ Qceiling b = Qfloor b)%Q \/
  ((zq (Qfloor b) < b)%Q /\ Qceiling b = (Qfloor b + 1)%Z).
Proof.
  intros b. destruct (Qeq_dec b (zq (Qfloor b))) as [E|N].
  - left. split; [exact E|]. rewrite E at 1. unfold zq. rewrite Qceiling_Z. reflexivity.
  - right. assert (L : (zq (Qfloor b) < b)%Q).
    { assert (H := Qfloor_le b). unfold zq in *. destruct (Qlt_le_dec (inject_Z (Qfloor b)) b); [assumption|].
      exfalso. apply N. Lqa.lra. }
    split; [exact L|]. assert (H1 := Qlt_floor b). assert (H2 := Qceiling_lt b). assert (H3 := Qle_ceiling b).
    unfold zq in L.
    assert ((Qfloor b < Qceiling b)%Z). { rewrite Zlt_Qlt. Lqa.lra. }
    assert ((Qceiling b - 1 < Qfloor b + 1)%Z). { rewrite Zlt_Qlt. Lqa.lra. }
    lia.
Qed.

Lemma hat_share : forall dz v0 b x i, (0 < dz -> x == v0 + b * dz -> hat b i == share dz x (atom v0 dz i))%Q.
Proof.
  intros dz v0 b x i Hd Hx. unfold share, atom.
  assert (A : (Qabs (x - (v0 + inject_Z (Z.of_nat i) * dz)) / dz == Qabs (b - inject_Z (Z.of_nat i)))%Q).
  { rewrite Hx. setoid_replace (v0 + b * dz - (v0 + inject_Z (Z.of_nat i) * dz))%Q
      with ((b - inject_Z (Z.of_nat i)) * dz)%Q by ring.
    rewrite Qabs_Qmult, (Qabs_pos dz) by Lqa.lra. field. Lqa.lra. }
  rewrite A. unfold hat, zq. set (ii := inject_Z (Z.of_nat i)).
  assert (F1 := Qfloor_le b). assert (F2 := Qlt_floor b). rewrite inject_Z_plus in F2.
  assert (I1 : inject_Z 1 = 1%Q) by reflexivity. rewrite I1 in F2.
  set (f := Qfloor b) in *.
  assert (Ab : forall u, (0 <= u -> Qabs u == u)%Q) by (intros; apply Qabs_pos; assumption).
  assert (An : forall u, (u <= 0 -> Qabs u == - u)%Q) by (intros; apply Qabs_neg; assumption).
  destruct (Z.eqb_spec f (Z.of_nat i)) as [E|N].
  - assert (Ei : (ii == inject_Z f)%Q) by (unfold ii; rewrite E; reflexivity).
    rewrite (Ab (b - ii)%Q) by Lqa.lra.
    rewrite Q.max_r by Lqa.lra.
    destruct (ceil_cases b) as [[B C]|[B C]]; fold f in B, C; unfold zq in B; rewrite C.
    + replace (f =? Z.of_nat i)%Z with true by (symmetry; apply Z.eqb_eq; exact E). Lqa.lra.
    + replace (f + 1 =? Z.of_nat i)%Z with false by (symmetry; apply Z.eqb_neq; lia). Lqa.lra.
  - destruct (Z.eqb_spec (f + 1) (Z.of_nat i)) as [E'|N'].
    + assert (Ei : (ii == inject_Z f + 1)%Q) by (unfold ii; rewrite <- E', inject_Z_plus; reflexivity).
      rewrite (An (b - ii)%Q) by Lqa.lra. rewrite Q.max_r by Lqa.lra.
      destruct (ceil_cases b) as [[B C]|[B C]]; fold f in B, C; unfold zq in B; rewrite C.
      * replace (f =? Z.of_nat i)%Z with false by (symmetry; apply Z.eqb_neq; exact N). Lqa.lra.
      * replace (f + 1 =? Z.of_nat i)%Z with true by (symmetry; apply Z.eqb_eq; exact E'). Lqa.lra.
    + assert (C0 : (if (Qceiling b =? Z.of_nat i)%Z then b - inject_Z f else 0) == 0).
      { destruct (ceil_cases b) as [[B C]|[B C]]; fold f in B, C; rewrite C.
        - replace (f =? Z.of_nat i)%Z with false by (symmetry; apply Z.eqb_neq; exact N). reflexivity.
        - replace (f + 1 =? Z.of_nat i)%Z with false by (symmetry; apply Z.eqb_neq; exact N'). reflexivity. }
      rewrite C0.
      assert (D : (Z.of_nat i <= f - 1 \/ f + 2 <= Z.of_nat i)%Z) by lia.
      assert (Qabs (b - ii) >= 1)%Q.
      { destruct D as [D|D].
        - rewrite Zle_Qle in D. unfold Z.sub in D. rewrite inject_Z_plus in D. fold ii in D.
          change (inject_Z (- (1))) with (-1 # 1)%Q in D. rewrite (Ab (b - ii)%Q) by Lqa.lra. Lqa.lra.
        - rewrite Zle_Qle in D. rewrite inject_Z_plus in D. fold ii in D.
          change (inject_Z 2) with (2 # 1)%Q in D. rewrite (An (b - ii)%Q) by Lqa.lra. Lqa.lra. }
      rewrite Q.max_l by Lqa.lra. Lqa.lra.
Qed.

(** ** Rows of the flat array *)
Lemma at_index_app : forall k a b, (at_index k (a ++ b) == at_index k a + at_index k b)%Q.
Proof. intros. unfold at_index. rewrite map_app. apply qsum_app. Qed.
Lemma at_index_concat : forall k ls, (at_index k (concat ls) == qsum (map (at_index k) ls))%Q.
Proof.
  intros k ls. induction ls as [|l ls IH]; [reflexivity|]. cbn [concat map]. rewrite at_index_app, IH, qsum_cons. reflexivity.
Qed.
Lemma sum_row : forall T (g : nat -> T -> Q) rows s b row, nth_error rows b = Some row ->
  (forall b' row', b' <> s + b -> In row' rows -> (g b' row' == 0)%Q) ->
  (qsum (map (fun r => g (fst r) (snd r)) (combine (seq s (length rows)) rows)) == g (s + b)%nat row)%Q.
Proof.
  intros T g. induction rows as [|r rows IH]; intros s b row Hb H; [destruct b; discriminate|].
  cbn [length seq combine map fst snd]. rewrite qsum_cons. destruct b as [|b].
  - injection Hb as <-. rewrite Nat.add_0_r. rewrite qsum_zero; [ring|].
    intros [b' row'] Hin. cbn [fst snd]. assert (Hi := in_combine_l _ _ _ _ Hin). apply in_combine_r in Hin. apply in_seq in Hi.
    apply H; [lia|right; exact Hin].
  - rewrite (H s r) by (try lia; left; reflexivity). rewrite (IH (S s) b row Hb).
    + replace (S s + b) with (s + S b) by lia. ring.
    + intros b' row' Hb' Hin. apply H; [lia|right; exact Hin].
Qed.

Section Projection.
Variables (v0 dz : Q) (z : list Q).
Hypothesis Hz : evenly_spaced v0 dz z.
Let n := length z.
Let vmax := atom v0 dz (n - 1).

Lemma nn : zq (Z.of_nat n - 1) = inject_Z (Z.of_nat (n - 1)).
Proof. destruct Hz as (_ & H & _). unfold zq, n. f_equal. lia. Qed.

Section Cell.
Variables (z0 vm d : Q).
Hypothesis Hz0 : (z0 == v0)%Q.
Hypothesis Hvm : (vm == vmax)%Q.
Hypothesis Hd : (d == dz)%Q.
Definition cell (v : Q) : Q := qclip 0 (zq (Z.of_nat n - 1)) ((qclip z0 vm v - z0) / d)%Q.

Lemma vmax_ge : (v0 <= vmax)%Q.
Proof.
  destruct Hz as (Hdz & _). unfold vmax, atom.
  assert (0 <= inject_Z (Z.of_nat (n - 1)))%Q by (change 0%Q with (inject_Z 0); rewrite <- Zle_Qle; lia).
  assert (0 <= inject_Z (Z.of_nat (n - 1)) * dz)%Q by (apply Qmult_le_0_compat; Lqa.lra). Lqa.lra.
Qed.

Lemma cell_value : forall v, (qclamp v0 vmax v == v0 + cell v * dz)%Q /\
  (0 <= cell v)%Q /\ (cell v <= inject_Z (Z.of_nat (n - 1)))%Q.
Proof.
  intros v. destruct Hz as (Hdz & Hn & _).
  assert (Hc : (qclip z0 vm v == qclamp v0 vmax v)%Q).
  { rewrite qclip_clamp. unfold qclamp. rewrite Hz0, Hvm. reflexivity. }
  assert (Hr := qclamp_range v vmax_ge). set (c := qclamp v0 vmax v) in *.
  assert (Hq : ((qclip z0 vm v - z0) / d == (c - v0) / dz)%Q).
  { rewrite Hc, Hz0, Hd. reflexivity. }
  assert (Hb : (0 <= (c - v0) / dz /\ (c - v0) / dz <= inject_Z (Z.of_nat (n - 1)))%Q).
  { split; [apply Qle_shift_div_l|apply Qle_shift_div_r]; try assumption; [Lqa.lra|].
    unfold vmax, atom in Hr. Lqa.lra. }
  assert (E : (cell v == (c - v0) / dz)%Q).
  { unfold cell. rewrite qclip_clamp. unfold qclamp. rewrite Hq, nn. apply qclamp_id; apply Hb. }
  split; [|rewrite E; exact Hb]. rewrite E. field. Lqa.lra.
Qed.

Lemma floor_range : forall b, (0 <= b)%Q -> (b <= inject_Z (Z.of_nat (n - 1)))%Q ->
  (0 <= Qfloor b < Z.of_nat n)%Z /\ (0 <= Qceiling b < Z.of_nat n)%Z.
Proof.
  intros b H1 H2. destruct Hz as (_ & Hn & _). fold n in Hn.
  assert (A : (0 <= Qfloor b)%Z). { change 0%Z with (Qfloor (inject_Z 0)). apply Qfloor_resp_le. exact H1. }
  assert (B : (Qceiling b <= Z.of_nat (n - 1))%Z). { rewrite <- (Qceiling_Z (Z.of_nat (n - 1))). apply Qceiling_resp_le. exact H2. }
  assert (C := Qfloor_le b). assert (D := Qle_ceiling b).
  assert ((Qfloor b <= Qceiling b)%Z) by (rewrite Zle_Qle; Lqa.lra). lia.
Qed.
End Cell.

(** The contribution of one row. *)
Definition row_lower (o : nat) (cs : list (Q * Q)) : list (Z * Q) :=
  map (fun c => ((Qfloor (fst c) + Z.of_nat (o * n))%Z, (snd c * (1 - (fst c - zq (Qfloor (fst c)))))%Q)) cs.
Definition row_upper (o : nat) (cs : list (Q * Q)) : list (Z * Q) :=
  map (fun c => ((Qceiling (fst c) + Z.of_nat (o * n))%Z, (snd c * (fst c - zq (Qfloor (fst c))))%Q)) cs.
Definition good_cells (cs : list (Q * Q)) : Prop :=
  forall c, In c cs -> (0 <= fst c)%Q /\ (fst c <= inject_Z (Z.of_nat (n - 1)))%Q.

Lemma other_row : forall o b i cs, good_cells cs -> i < n -> o <> b ->
  (at_index (b * n + i)%nat (row_lower o cs) == 0)%Q /\ (at_index (b * n + i)%nat (row_upper o cs) == 0)%Q.
Proof.
  intros o b i cs Hg Hi Ho. unfold at_index, row_lower, row_upper. rewrite !map_map. cbn [fst snd].
  split; apply qsum_zero; intros c Hc; destruct (Hg c Hc) as [H1 H2]; destruct (floor_range H1 H2) as [F C].
  - replace (Qfloor (fst c) + Z.of_nat (o * n) =? Z.of_nat (b * n + i))%Z with false; [reflexivity|].
    symmetry. apply Z.eqb_neq. intros E. apply Ho.
    assert (Z.to_nat (Qfloor (fst c)) + o * n = b * n + i) by lia. nia.
  - replace (Qceiling (fst c) + Z.of_nat (o * n) =? Z.of_nat (b * n + i))%Z with false; [reflexivity|].
    symmetry. apply Z.eqb_neq. intros E. apply Ho.
    assert (Z.to_nat (Qceiling (fst c)) + o * n = b * n + i) by lia. nia.
Qed.
Lemma own_row : forall b i cs, (at_index (b * n + i)%nat (row_lower b cs) + at_index (b * n + i)%nat (row_upper b cs)
  == qsum (map (fun c => snd c * hat (fst c) i) cs))%Q.
Proof.
  intros b i cs. unfold at_index, row_lower, row_upper. rewrite !map_map. cbn [fst snd].
  rewrite <- qsum_add. apply qsum_ext. intros c _. unfold hat.
  replace (Qfloor (fst c) + Z.of_nat (b * n) =? Z.of_nat (b * n + i))%Z with (Qfloor (fst c) =? Z.of_nat i)%Z by lia.
  replace (Qceiling (fst c) + Z.of_nat (b * n) =? Z.of_nat (b * n + i))%Z with (Qceiling (fst c) =? Z.of_nat i)%Z by lia.
  destruct (Qfloor (fst c) =? Z.of_nat i)%Z, (Qceiling (fst c) =? Z.of_nat i)%Z; ring.
Qed.

Lemma rows_in : forall (f : nat -> list (Q * Q) -> list (Z * Q)) rows s p,
  In p (concat (map (fun r => f (fst r) (snd r)) (combine (seq s (length rows)) rows))) ->
  exists b row, s <= b < s + length rows /\ In row rows /\ In p (f b row).
Proof.
  intros f rows s p H. apply in_concat in H. destruct H as (l & Hl & Hp). apply in_map_iff in Hl.
  destruct Hl as ([b row] & <- & Hc). exists b, row. assert (Hs := in_combine_l _ _ _ _ Hc). apply in_seq in Hs.
  split; [lia|]. split; [apply (in_combine_r _ _ _ _ Hc)|exact Hp].
Qed.

Lemma scatter_rows : forall rows, (forall r, In r rows -> good_cells r) ->
  exists out1 out2,
    scatter_add (repeat 0%Q (length rows * n))
      (concat (map (fun r => row_lower (fst r) (snd r)) (combine (seq 0 (length rows)) rows))) = Ok out1 /\
    scatter_add out1 (concat (map (fun r => row_upper (fst r) (snd r)) (combine (seq 0 (length rows)) rows))) = Ok out2 /\
    length out2 = length rows * n /\
    forall b i row, nth_error rows b = Some row -> i < n ->
      (nth (b * n + i)%nat out2 0 == qsum (map (fun c => snd c * hat (fst c) i) row))%Q.
Proof.
  intros rows Hg.
  assert (B : forall b x, (0 <= x < Z.of_nat n)%Z -> b < length rows ->
              (0 <= x + Z.of_nat (b * n) < Z.of_nat (length rows * n))%Z).
  { intros b x Hx Hb. assert (b * n + n <= length rows * n) by nia. lia. }
  destruct (@scatter_spec (concat (map (fun r => row_lower (fst r) (snd r)) (combine (seq 0 (length rows)) rows)))
             (repeat 0%Q (length rows * n))) as (o1 & E1 & L1 & N1).
  { intros p Hp. rewrite repeat_length. apply rows_in in Hp. destruct Hp as (b & row & Hb & Hr & Hp).
    unfold row_lower in Hp. apply in_map_iff in Hp. destruct Hp as (c & <- & Hc). cbn [fst].
    destruct (Hg _ Hr _ Hc) as [H1 H2]. apply B; [apply (floor_range H1 H2)|lia]. }
  rewrite repeat_length in *.
  destruct (@scatter_spec (concat (map (fun r => row_upper (fst r) (snd r)) (combine (seq 0 (length rows)) rows))) o1)
    as (o2 & E2 & L2 & N2).
  { intros p Hp. rewrite L1. apply rows_in in Hp. destruct Hp as (b & row & Hb & Hr & Hp).
    unfold row_upper in Hp. apply in_map_iff in Hp. destruct Hp as (c & <- & Hc). cbn [fst].
    destruct (Hg _ Hr _ Hc) as [H1 H2]. apply B; [apply (floor_range H1 H2)|lia]. }
  exists o1, o2. split; [exact E1|]. split; [exact E2|]. split; [lia|].
  intros b i row Hb Hi. assert (Hlt : b < length rows) by (apply nth_error_Some; congruence).
  assert (Hk : b * n + i < length rows * n) by nia.
  rewrite N2 by lia. rewrite N1 by lia. rewrite nth_repeat. rewrite !at_index_concat, !map_map.
  rewrite (@sum_row _ (fun o cs => at_index (b * n + i) (row_lower o cs)) rows 0 b row Hb).
  2: { intros o cs Ho Hin. apply other_row; [apply Hg; exact Hin|exact Hi|exact Ho]. }
  rewrite (@sum_row _ (fun o cs => at_index (b * n + i) (row_upper o cs)) rows 0 b row Hb).
  2: { intros o cs Ho Hin. apply other_row; [apply Hg; exact Hin|exact Hi|exact Ho]. }
  rewrite <- (own_row b i row). change (0 + b)%nat with b. ring.
Qed.

Lemma z_get : forall i, i < n -> exists x, nth_error z i = Some x /\ (x == atom v0 dz i)%Q.
Proof.
  intros i Hi. destruct Hz as (_ & _ & H). destruct (nth_error z i) as [x|] eqn:E.
  - exists x. split; [reflexivity|]. apply H. exact E.
  - apply nth_error_None in E. unfold n in Hi. lia.
Qed.

Lemma py_get_nat : forall T (l : list T) i x, nth_error l i = Some x -> py_get l (Z.of_nat i) = Ok x.
Proof.
  intros T l i x H. unfold py_get, py_index. assert (i < length l) by (apply nth_error_Some; congruence).
  replace (0 <=? Z.of_nat i)%Z with true by (symmetry; apply Z.leb_le; lia).
  replace (Z.of_nat i <? Z.of_nat (length l))%Z with true by (symmetry; apply Z.ltb_lt; lia).
  rewrite Nat2Z.id, H. reflexivity.
Qed.
Lemma py_get_last : forall T (l : list T) x, nth_error l (length l - 1) = Some x -> py_get l (-1) = Ok x.
Proof.
  intros T l x H. unfold py_get, py_index. assert (length l - 1 < length l) by (apply nth_error_Some; congruence).
  cbn [Z.leb Z.compare]. replace (- Z.of_nat (length l) <=? -1)%Z with true by (symmetry; apply Z.leb_le; lia).
  replace (Z.to_nat (Z.of_nat (length l) + -1)) with (length l - 1) by lia. rewrite H. reflexivity.
Qed.

Lemma nth_combine : forall S T (a : list S) (b : list T) i x y,
  nth_error a i = Some x -> nth_error b i = Some y -> nth_error (combine a b) i = Some (x, y).
Proof.
  intros S T. induction a as [|u a IH]; intros [|v b] [|i] x y Ha Hb; cbn in *; try discriminate; [congruence|auto].
Qed.

Lemma as_rows_nth : forall m batch flat b, length flat = batch * m -> b < batch ->
  exists r, nth_error (as_rows m batch flat) b = Some r /\ length r = m /\
    forall i, i < m -> nth_error r i = Some (nth (b * m + i) flat 0%Q).
Proof.
  intros m batch flat b L Hb. exists (firstn m (skipn (b * m) flat)).
  assert (b * m + m <= batch * m) by nia.
  split; [|split].
  - unfold as_rows. rewrite nth_error_map. rewrite (nth_error_nth' _ 0) by (rewrite seq_length; exact Hb).
    rewrite seq_nth by exact Hb. reflexivity.
  - rewrite firstn_length, skipn_length. lia.
  - intros i Hi. rewrite (nth_error_nth' _ 0%Q) by (rewrite firstn_length, skipn_length; lia).
    f_equal. rewrite <- (firstn_skipn (b * m) flat) at 2.
    rewrite app_nth2 by (rewrite firstn_length; lia). rewrite firstn_length, Nat.min_l by lia.
    replace (b * m + i - b * m) with i by lia.
    rewrite <- (firstn_skipn m (skipn (b * m) flat)) at 2.
    rewrite app_nth1; [reflexivity|]. rewrite firstn_length, skipn_length. lia.
Qed.

Lemma proj_hat : forall y probs, length probs = length y ->
  (forall r, In r y -> length r = n) -> (forall r, In r probs -> length r = n) ->
  exists (cl : Q -> Q) out, categorical_projection y probs z = Ok out /\ length out = length y /\
    (forall v, (qclamp v0 vmax v == v0 + cl v * dz)%Q /\ (0 <= cl v)%Q /\ (cl v <= inject_Z (Z.of_nat (n - 1)))%Q) /\
    forall b yr pr, nth_error y b = Some yr -> nth_error probs b = Some pr ->
      exists r, nth_error out b = Some r /\ length r = n /\
        forall i x, nth_error r i = Some x ->
          (x == qsum (map (fun c => snd c * hat (cl (fst c)) i) (combine yr pr)))%Q.
Proof.
  intros y probs Hl Hy Hp.
  assert (Hn : 2 <= n) by (destruct Hz as (_ & H & _); exact H).
  destruct (@z_get 0) as (z0 & G0 & Q0); [lia|]. destruct (@z_get 1) as (z1 & G1 & Q1); [lia|].
  destruct (@z_get (n - 1)) as (vm & Gm & Qm); [lia|].
  assert (Hz0 : (z0 == v0)%Q). { rewrite Q0. unfold atom. cbn [Z.of_nat]. change (inject_Z 0) with 0%Q. ring. }
  assert (Hd : (z1 - z0 == dz)%Q). { rewrite Q1, Hz0. unfold atom. change (inject_Z (Z.of_nat 1)) with 1%Q. ring. }
  set (cl := cell z0 vm (z1 - z0)%Q).
  set (rows := map (fun p => combine (fst p) (snd p)) (combine (map (map cl) y) probs)).
  assert (Hrows : length rows = length y).
  { unfold rows. rewrite map_length, combine_length, map_length. lia. }
  assert (Hcl : forall v, (qclamp v0 vmax v == v0 + cl v * dz)%Q /\ (0 <= cl v)%Q /\ (cl v <= inject_Z (Z.of_nat (n - 1)))%Q)
    by (intros v; apply cell_value; assumption).
  assert (Hgood : forall r, In r rows -> good_cells r).
  { intros r Hr c Hc. unfold rows in Hr. apply in_map_iff in Hr. destruct Hr as ([br pr] & <- & Hin). cbn [fst snd] in Hc.
    apply in_combine_l in Hin. apply in_map_iff in Hin. destruct Hin as (yr & <- & _).
    destruct c as [u w]. apply in_combine_l in Hc. apply in_map_iff in Hc. destruct Hc as (v & <- & _).
    cbn [fst]. split; apply Hcl. }
  destruct (scatter_rows rows Hgood) as (o1 & o2 & E1 & E2 & L2 & N2).
  exists cl, (as_rows n (length y) o2). split; [|split; [|split; [exact Hcl|]]].
  - unfold categorical_projection. fold n.
    replace (forallb (fun r => length r =? n) y) with true
      by (symmetry; apply forallb_forall; intros r Hr; apply Nat.eqb_eq; auto).
    rewrite Hl, Nat.eqb_refl. cbn [andb].
    replace (forallb (fun r => length r =? n) probs) with true
      by (symmetry; apply forallb_forall; intros r Hr; apply Nat.eqb_eq; auto).
    change 1%Z with (Z.of_nat 1) at 1. rewrite (py_get_nat _ _ G1). cbn [bind].
    change 0%Z with (Z.of_nat 0) at 1. rewrite (py_get_nat _ _ G0). cbn [bind].
    rewrite (py_get_last _ Gm). cbn [bind].
    rewrite map_map.
    replace (map (fun x => map (fun v => qclip 0 (zq (Z.of_nat n - 1)) ((v - z0) / (z1 - z0))%Q) (map (qclip z0 vm) x)) y)
      with (map (map cl) y) by (apply map_ext; intros r; rewrite map_map; reflexivity).
    fold rows. rewrite <- Hrows.
    change (concat (map (fun r => map (fun c => ((Qfloor (fst c) + Z.of_nat (fst r * n))%Z,
      (snd c * (1 - (fst c - zq (Qfloor (fst c)))))%Q)) (snd r)) (combine (seq 0 (length rows)) rows)))
      with (concat (map (fun r => row_lower (fst r) (snd r)) (combine (seq 0 (length rows)) rows))).
    rewrite E1. cbn [bind].
    change (concat (map (fun r => map (fun c => ((Qceiling (fst c) + Z.of_nat (fst r * n))%Z,
      (snd c * (fst c - zq (Qfloor (fst c))))%Q)) (snd r)) (combine (seq 0 (length rows)) rows)))
      with (concat (map (fun r => row_upper (fst r) (snd r)) (combine (seq 0 (length rows)) rows))).
    rewrite E2. reflexivity.
  - unfold as_rows. rewrite map_length. apply seq_length.
  - intros b yr pr Hb Hpb. assert (Hlt : b < length y) by (apply nth_error_Some; congruence).
    destruct (@as_rows_nth n (length y) o2 b) as (r & R1 & R2 & R3); [lia|exact Hlt|].
    exists r. split; [exact R1|]. split; [exact R2|]. intros i x Hx.
    assert (Hi : i < n) by (rewrite <- R2; apply nth_error_Some; congruence).
    rewrite (R3 i Hi) in Hx. injection Hx as <-.
    assert (Hrow : nth_error rows b = Some (combine (map cl yr) pr)).
    { unfold rows. rewrite nth_error_map. rewrite (@nth_combine _ _ (map (map cl) y) probs b (map cl yr) pr); [reflexivity| |exact Hpb].
      rewrite nth_error_map, Hb. reflexivity. }
    rewrite (N2 b i _ Hrow Hi).
    clear. revert pr. induction yr as [|u yr IH]; intros [|w pr]; try reflexivity.
    cbn [map combine]. rewrite !qsum_cons, IH. reflexivity.
Qed.

(** The specification: linear interpolation. *)
Lemma proj_share : forall y probs, length probs = length y ->
  (forall r, In r y -> length r = n) -> (forall r, In r probs -> length r = n) ->
  exists out, categorical_projection y probs z = Ok out /\ length out = length y /\
    forall b yr pr, nth_error y b = Some yr -> nth_error probs b = Some pr ->
      exists r, nth_error out b = Some r /\ length r = n /\
        (forall i x, nth_error r i = Some x ->
          (x == expect (fun v => share dz (qclamp v0 vmax v) (atom v0 dz i)) (combine yr pr))%Q) /\
        (qsum r == qsum pr)%Q /\
        (expect (fun v => v) (combine z r) == expect (qclamp v0 vmax) (combine yr pr))%Q /\
        ((forall p, In p pr -> 0 <= p)%Q -> (forall x, In x r -> 0 <= x)%Q).
Proof.
  intros y probs Hl Hy Hp. destruct (proj_hat y probs Hl Hy Hp) as (cl & out & E & L & Hcl & H).
  exists out. split; [exact E|]. split; [exact L|]. intros b yr pr Hb Hpb.
  destruct (H b yr pr Hb Hpb) as (r & R1 & R2 & R3). exists r. split; [exact R1|]. split; [exact R2|].
  assert (Hdz : (0 < dz)%Q) by (apply Hz).
  assert (Hshare : forall i x, nth_error r i = Some x ->
          (x == expect (fun v => share dz (qclamp v0 vmax v) (atom v0 dz i)) (combine yr pr))%Q).
  { intros i x Hx. rewrite (R3 i x Hx). unfold expect. apply qsum_ext. intros [v p] _. cbn [fst snd].
    rewrite (@hat_share dz v0 (cl v) (qclamp v0 vmax v) i Hdz (proj1 (Hcl v))). reflexivity. }
  assert (Hyr : length yr = n) by (apply Hy; eapply nth_error_In; eauto).
  assert (Hpr : length pr = n) by (apply Hp; eapply nth_error_In; eauto).
  assert (Hf : forall v, (0 <= Qfloor (cl v) < Z.of_nat n)%Z /\ (0 <= Qceiling (cl v) < Z.of_nat n)%Z).
  { intros v. apply floor_range; apply Hcl. }
  (* sums of the hat function *)
  assert (Hsum : forall (w : nat -> Q) v,
     (qsum (map (fun i => w i * hat (cl v) i) (seq 0 n))
      == w (Z.to_nat (Qfloor (cl v))) * (1 - (cl v - zq (Qfloor (cl v))))
         + w (Z.to_nat (Qceiling (cl v))) * (cl v - zq (Qfloor (cl v))))%Q).
  { intros w v. destruct (Hf v) as [F C].
    rewrite (qsum_ext _ (fun i => (if i =? Z.to_nat (Qfloor (cl v)) then w (Z.to_nat (Qfloor (cl v))) * (1 - (cl v - zq (Qfloor (cl v)))) else 0)
              + (if i =? Z.to_nat (Qceiling (cl v)) then w (Z.to_nat (Qceiling (cl v))) * (cl v - zq (Qfloor (cl v))) else 0))%Q).
    - rewrite qsum_add, !qsum_single by lia. reflexivity.
    - intros i _. unfold hat.
      replace (Qfloor (cl v) =? Z.of_nat i)%Z with (i =? Z.to_nat (Qfloor (cl v))) by lia.
      replace (Qceiling (cl v) =? Z.of_nat i)%Z with (i =? Z.to_nat (Qceiling (cl v))) by lia.
      destruct (i =? Z.to_nat (Qfloor (cl v))) eqn:E1; destruct (i =? Z.to_nat (Qceiling (cl v))) eqn:E2;
        try apply Nat.eqb_eq in E1; try apply Nat.eqb_eq in E2; subst; try ring.
      rewrite E2. ring. }
  split; [exact Hshare|]. split; [|split].
  - rewrite (@qsum_pos r (fun i => qsum (map (fun c => snd c * hat (cl (fst c)) i)%Q (combine yr pr))) R3), R2.
    rewrite (qsum_swap (fun i c => snd c * hat (cl (fst c)) i)%Q).
    rewrite (qsum_ext _ (fun c => snd c)).
    + clear - Hyr Hpr. assert (Hlen : length yr = length pr) by congruence. clear -Hlen.
      revert pr Hlen. induction yr as [|u yr IH]; intros [|p pr] Hlen; try discriminate; [reflexivity|].
      cbn [combine map snd]. rewrite !qsum_cons, IH by (cbn in Hlen; lia). reflexivity.
    + intros [v p] _. cbn [fst snd]. rewrite (qsum_scale p (fun i => hat (cl v) i)).
      rewrite (qsum_ext (fun i => hat (cl v) i) (fun i => 1 * hat (cl v) i)%Q) by (intros; ring).
      rewrite (Hsum (fun _ => 1%Q)). ring.
  - unfold expect.
    rewrite (@qsum_pos (map (fun p => (snd p * fst p)%Q) (combine z r))
              (fun i => atom v0 dz i * qsum (map (fun c => snd c * hat (cl (fst c)) i) (combine yr pr)))%Q).
    2: { intros i x Hx. rewrite nth_error_map in Hx. destruct (nth_error (combine z r) i) as [[u w]|] eqn:Ec; [|discriminate].
         injection Hx as <-. cbn [fst snd].
         assert (Hi : i < n). { assert (i < length (combine z r)) by (apply nth_error_Some; congruence).
           rewrite combine_length in H0. unfold n. lia. }
         destruct (@z_get i Hi) as (zi & Gi & Qi).
         destruct (nth_error r i) as [ri|] eqn:Er; [|apply nth_error_None in Er; lia].
         rewrite (@nth_combine _ _ z r i zi ri Gi Er) in Ec. injection Ec as <- <-. rewrite Qi, (R3 i ri Er). ring. }
    rewrite map_length, combine_length, R2. fold n. rewrite Nat.min_id.
    rewrite (qsum_ext _ (fun i => qsum (map (fun c => atom v0 dz i * (snd c * hat (cl (fst c)) i)) (combine yr pr)))%Q)
      by (intros; rewrite <- qsum_scale; reflexivity).
    rewrite (qsum_swap (fun i c => atom v0 dz i * (snd c * hat (cl (fst c)) i))%Q).
    apply qsum_ext. intros [v p] _. cbn [fst snd].
    rewrite (qsum_ext _ (fun i => p * (atom v0 dz i * hat (cl v) i))%Q) by (intros; ring).
    rewrite qsum_scale, Hsum. rewrite (proj1 (Hcl v)).
    destruct (Hf v) as [F C]. unfold atom. rewrite !Z2Nat.id by lia.
    destruct (ceil_cases (cl v)) as [[B D]|[B D]]; rewrite D; unfold zq in *.
    + set (f := inject_Z (Qfloor (cl v))) in *. set (k := cl v) in *. clearbody f k. 
      setoid_replace (k - f)%Q with 0%Q by Lqa.lra. rewrite B. ring.
    + rewrite inject_Z_plus. change (inject_Z 1) with 1%Q. ring.
  - intros Hpos x Hx. apply In_nth_error in Hx. destruct Hx as (i & Hx). rewrite (Hshare i x Hx).
    unfold expect. apply qsum_nonneg. intros u Hu. apply in_map_iff in Hu. destruct Hu as ([v p] & <- & Hin).
    cbn [fst snd]. apply in_combine_r in Hin. apply Qmult_le_0_compat; [apply Hpos; exact Hin|].
    unfold share. apply Q.le_max_l.
Qed.
End Projection.

(** ** argmax *)
Lemma argmax_from_spec : forall l pre best bi,
  nth_error pre bi = Some best -> (forall x, In x pre -> x <= best)%Q ->
  exists m, nth_error (pre ++ l) (argmax_from best bi (length pre) l) = Some m /\
            (forall x, In x (pre ++ l) -> x <= m)%Q.
Proof.
  induction l as [|x l IH]; intros pre best bi Hb Hm; cbn [argmax_from].
  - exists best. rewrite app_nil_r. auto.
  - replace (pre ++ x :: l) with ((pre ++ [x]) ++ l) by (rewrite <- app_assoc; reflexivity).
    replace (S (length pre)) with (length (pre ++ [x])) by (rewrite app_length; cbn; lia).
    destruct (Qle_bool x best) eqn:E.
    + apply Qle_bool_iff in E. apply IH.
      * rewrite nth_error_app1; [exact Hb|]. apply nth_error_Some. congruence.
      * intros y Hy. apply in_app_or in Hy. destruct Hy as [Hy|[<-|[]]]; auto.
    + assert (best < x)%Q by (destruct (Qlt_le_dec best x); [assumption|apply Qle_bool_iff in q; congruence]).
      apply IH.
      * rewrite nth_error_app2 by lia. rewrite Nat.sub_diag. reflexivity.
      * intros y Hy. apply in_app_or in Hy. destruct Hy as [Hy|[<-|[]]]; [|Lqa.lra].
        specialize (Hm y Hy). Lqa.lra.
Qed.
Lemma argmax_spec : forall l, l <> [] -> exists a m, argmax l = Ok a /\ nth_error l a = Some m /\ (forall x, In x l -> x <= m)%Q.
Proof.
  intros [|x l] H; [contradiction|]. cbn [argmax].
  destruct (@argmax_from_spec l [x] x 0) as (m & Hm & Hall); [reflexivity| |].
  - intros y [<-|[]]. Lqa.lra.
  - exists (argmax_from x 0 1 l), m. split; [reflexivity|]. split; [exact Hm|exact Hall].
Qed.

Lemma dist_q_nth : forall z qd a d, nth_error qd a = Some d ->
  exists m, nth_error (dist_q_values z qd) a = Some m /\ (m == meanv z d)%Q.
Proof.
  intros z qd a d H. unfold dist_q_values. rewrite nth_error_map, H. eexists. split; [reflexivity|].
  unfold meanv, expect. clear. revert z. induction d as [|p d IH]; intros [|v z]; try reflexivity.
  cbn [combine map fold_right fst snd]. rewrite IH. rewrite qsum_cons. cbn [fst snd]. ring.
Qed.
Lemma greedy_spec : forall z qd, qd <> [] -> exists a d, greedy_action z qd = Ok a /\ nth_error qd a = Some d /\
  (forall d', In d' qd -> meanv z d' <= meanv z d)%Q.
Proof.
  intros z qd H. destruct (@argmax_spec (dist_q_values z qd)) as (a & m & E & Ha & Hm).
  - destruct qd; [contradiction|discriminate].
  - assert (La : a < length qd). { assert (a < length (dist_q_values z qd)) by (apply nth_error_Some; congruence).
      unfold dist_q_values in H0. rewrite map_length in H0. exact H0. }
    destruct (nth_error qd a) as [d|] eqn:Ed; [|apply nth_error_None in Ed; lia].
    exists a, d. split; [exact E|]. split; [exact Ed|]. intros d' Hd'. apply In_nth_error in Hd'. destruct Hd' as (i & Hi).
    destruct (@dist_q_nth z qd i d' Hi) as (m' & Hm' & E'). destruct (@dist_q_nth z qd a d Ed) as (m0 & Hm0 & E0).
    rewrite Ha in Hm0. injection Hm0 as <-. rewrite <- E', <- E0. apply Hm. eapply nth_error_In. exact Hm'.
Qed.

Lemma mapM_spec : forall X Y (f : X -> res Y) (P : X -> Y -> Prop) l, (forall x, In x l -> exists y, f x = Ok y /\ P x y) ->
  exists ys, mapM f l = Ok ys /\ Forall2 P l ys.
Proof.
  intros X Y f P. induction l as [|x l IH]; intros H; [exists []; split; [reflexivity|constructor]|].
  destruct (H x (or_introl eq_refl)) as (y & Ey & Py). destruct IH as (ys & Es & Ps); [intros; apply H; right; assumption|].
  exists (y :: ys). cbn [mapM]. rewrite Ey. cbn [bind]. rewrite Es. split; [reflexivity|constructor; assumption].
Qed.
Lemma Forall2_nth : forall X Y (P : X -> Y -> Prop) l l', Forall2 P l l' -> forall i x, nth_error l i = Some x ->
  exists y, nth_error l' i = Some y /\ P x y.
Proof. intros X Y P l l' H. induction H as [|x y l l' Hp _ IH]; intros [|i] u Hu; try discriminate; cbn in *; [injection Hu as <-; eauto|eauto]. Qed.
Lemma Forall2_len : forall X Y (P : X -> Y -> Prop) l l', Forall2 P l l' -> length l = length l'.
Proof. intros X Y P l l' H. induction H; cbn; congruence. Qed.
Lemma Forall2_in_r : forall X Y (P : X -> Y -> Prop) l l', Forall2 P l l' -> forall y, In y l' -> exists x, In x l /\ P x y.
Proof.
  intros X Y P l l' H. induction H as [|x y l l' Hp _ IH]; intros u Hu; [destruct Hu|].
  destruct Hu as [<-|Hu]; [exists x; split; [left; reflexivity|exact Hp]|].
  destruct (IH u Hu) as (x' & Hx & Hpx). exists x'. split; [right; exact Hx|exact Hpx].
Qed.


Lemma target_row : forall v0 dz z batch dists, evenly_spaced v0 dz z -> length dists = length batch ->
  (forall d, In d dists -> length d = length z) ->
  exists out, categorical_projection (map (shifted_atoms z) batch) dists z = Ok out /\ length out = length batch /\
  forall b x d, nth_error batch b = Some x -> nth_error dists b = Some d ->
    exists r, nth_error out b = Some r /\ length r = length z /\ (qsum r == qsum d)%Q /\
      (meanv z r == expect (fun v => qclamp v0 (atom v0 dz (length z - 1)) (backup x v)) (combine z d))%Q /\
      ((forall p, In p d -> 0 <= p)%Q -> (forall p, In p r -> 0 <= p)%Q) /\
      ((qsum d == 1)%Q -> (forall v, In v z -> v0 <= backup x v /\ backup x v <= atom v0 dz (length z - 1))%Q ->
       (meanv z r == backup x (meanv z d))%Q).
Proof.
  intros v0 dz z batch dists Hz Hl Hd.
  destruct (@proj_share v0 dz z Hz (map (shifted_atoms z) batch) dists) as (out & E & L & H).
  - rewrite map_length. exact Hl.
  - intros r Hr. apply in_map_iff in Hr. destruct Hr as (x & <- & _). unfold shifted_atoms. apply map_length.
  - exact Hd.
  - exists out. split; [exact E|]. rewrite map_length in L. split; [exact L|].
    intros b x d Hb Hbd. destruct (H b (shifted_atoms z x) d) as (r & R1 & R2 & _ & R4 & R5 & R6).
    + rewrite nth_error_map, Hb. reflexivity.
    + exact Hbd.
    + exists r. split; [exact R1|]. split; [exact R2|]. split; [exact R4|].
      assert (M : (meanv z r == expect (fun v => qclamp v0 (atom v0 dz (length z - 1)) (backup x v)) (combine z d))%Q).
      { unfold meanv. rewrite R5. unfold expect, shifted_atoms. clear.
        assert (G : forall v, (c_reward x + (1 - (if c_terminal x then 1 else 0)) * c_discount x * v == backup x v)%Q).
        { intros v. unfold backup. destruct (c_terminal x); ring. }
        generalize (atom v0 dz (length z - 1)). intros vm. revert d. induction z as [|v z IH]; intros [|p d]; try reflexivity.
        cbn [map combine]. rewrite !qsum_cons, IH. cbn [fst snd].
        unfold qclamp. rewrite G. reflexivity. }
      split; [exact M|]. split; [exact R6|]. intros Hs Hin. rewrite M.
      assert (Hld : length z = length d) by (symmetry; apply Hd; eapply nth_error_In; eauto).
      unfold backup at 2. unfold meanv.
      transitivity (c_reward x * qsum d + (if c_terminal x then 0 else c_discount x) * expect (fun v => v) (combine z d))%Q.
      2: { rewrite Hs. ring. }
      clear -Hin Hld. unfold expect. revert Hin. generalize (atom v0 dz (length z - 1)). intros vm Hin. revert d Hld.
      induction z as [|v z IH]; intros [|p d] Hld; try discriminate; [cbn; ring|].
      cbn [map combine fst snd]. rewrite !qsum_cons, IH.
      * cbn [fst snd]. rewrite qclamp_id by (apply Hin; left; reflexivity). unfold backup. ring.
      * intros u Hu. apply Hin. right. exact Hu.
      * cbn in Hld. lia.
Qed.

Lemma target_spec : forall v0 dz z batch next, evenly_spaced v0 dz z -> length next = length batch ->
  (forall qd, In qd next -> qd <> [] /\ forall d, In d qd -> length d = length z) ->
  exists out, categorical_target z batch next = Ok out /\ length out = length batch /\
  forall b x qd, nth_error batch b = Some x -> nth_error next b = Some qd ->
    exists a d r, nth_error qd a = Some d /\ (forall d', In d' qd -> meanv z d' <= meanv z d)%Q /\
      nth_error out b = Some r /\ length r = length z /\ (qsum r == qsum d)%Q /\
      (meanv z r == expect (fun v => qclamp v0 (atom v0 dz (length z - 1)) (backup x v)) (combine z d))%Q /\
      ((forall p, In p d -> 0 <= p)%Q -> (forall p, In p r -> 0 <= p)%Q) /\
      ((qsum d == 1)%Q -> (forall v, In v z -> v0 <= backup x v /\ backup x v <= atom v0 dz (length z - 1))%Q ->
       (meanv z r == backup x (meanv z d))%Q).
Proof.
  intros v0 dz z batch next Hz Hl Hq.
  destruct (@mapM_spec _ _ (max_as_distribution z) (fun qd d => (exists a, nth_error qd a = Some d) /\
      (forall d', In d' qd -> meanv z d' <= meanv z d)%Q) next) as (dists & Em & F).
  { intros qd Hin. destruct (Hq qd Hin) as [Hne _]. destruct (@greedy_spec z qd Hne) as (a & d & Ea & Ed & Hm).
    exists d. unfold max_as_distribution, action_dist. rewrite Ea. cbn [bind]. rewrite Ed. split; [reflexivity|]. eauto. }
  assert (Hld : length dists = length batch) by (rewrite <- Hl; symmetry; apply (Forall2_len F)).
  destruct (@target_row v0 dz z batch dists Hz Hld) as (out & E & L & H).
  { intros d Hin. destruct (Forall2_in_r F _ Hin) as (qd & Hqd & (a & Ha) & _).
    apply (proj2 (Hq qd Hqd)). eapply nth_error_In. exact Ha. }
  exists out. unfold categorical_target. rewrite Em. cbn [bind]. split; [exact E|]. split; [exact L|].
  intros b x qd Hb Hqd. destruct (Forall2_nth F _ Hqd) as (d & Hd & (a & Ha) & Hmax).
  destruct (H b x d Hb Hd) as (r & R). exists a, d, r. split; [exact Ha|]. split; [exact Hmax|exact R].
Qed.

Lemma double_target_spec : forall v0 dz z batch next online, evenly_spaced v0 dz z ->
  length next = length batch -> length online = length batch ->
  (forall b qd qo, nth_error next b = Some qd -> nth_error online b = Some qo ->
     qo <> [] /\ length qo = length qd /\ forall d, In d qd -> length d = length z) ->
  exists out, categorical_double_target z batch next online = Ok out /\ length out = length batch /\
  forall b x qd qo, nth_error batch b = Some x -> nth_error next b = Some qd -> nth_error online b = Some qo ->
    exists a o d r, nth_error qo a = Some o /\ (forall o', In o' qo -> meanv z o' <= meanv z o)%Q /\
      nth_error qd a = Some d /\
      nth_error out b = Some r /\ length r = length z /\ (qsum r == qsum d)%Q /\
      (meanv z r == expect (fun v => qclamp v0 (atom v0 dz (length z - 1)) (backup x v)) (combine z d))%Q /\
      ((forall p, In p d -> 0 <= p)%Q -> (forall p, In p r -> 0 <= p)%Q) /\
      ((qsum d == 1)%Q -> (forall v, In v z -> v0 <= backup x v /\ backup x v <= atom v0 dz (length z - 1))%Q ->
       (meanv z r == backup x (meanv z d))%Q).
Proof.
  intros v0 dz z batch next online Hz Hl Ho Hq.
  destruct (@mapM_spec _ _ (greedy_action z) (fun qo a => exists o, nth_error qo a = Some o /\
      (forall o', In o' qo -> meanv z o' <= meanv z o)%Q) online) as (acts & Ea & Fa).
  { intros qo Hin. apply In_nth_error in Hin. destruct Hin as (b & Hb).
    destruct (nth_error next b) as [qd|] eqn:En.
    2: { apply nth_error_None in En. assert (b < length online) by (apply nth_error_Some; congruence). lia. }
    destruct (Hq b qd qo En Hb) as [Hne _]. destruct (@greedy_spec z qo Hne) as (a & o & Eg & En' & Hm). eauto. }
  assert (La : length acts = length next) by (rewrite <- (Forall2_len Fa); congruence).
  destruct (@mapM_spec _ _ (fun p => action_dist (fst p) (snd p)) (fun p d => nth_error (fst p) (snd p) = Some d)
              (combine next acts)) as (dists & Ed & Fd).
  { intros [qd a] Hin. apply In_nth_error in Hin. destruct Hin as (b & Hb). cbn [fst snd].
    assert (Hb' : b < length (combine next acts)) by (apply nth_error_Some; congruence). rewrite combine_length in Hb'.
    destruct (nth_error next b) as [qd'|] eqn:En; [|apply nth_error_None in En; lia].
    destruct (nth_error acts b) as [a'|] eqn:Ea'; [|apply nth_error_None in Ea'; lia].
    rewrite (@nth_combine _ _ next acts b qd' a' En Ea') in Hb. injection Hb as -> ->.
    destruct (nth_error online b) as [qo|] eqn:Eo; [|apply nth_error_None in Eo; lia].
    destruct (Hq b qd qo En Eo) as (_ & Hlen & _). destruct (Forall2_nth Fa _ Eo) as (a' & Ha' & o & Hoa & _).
    rewrite Ea' in Ha'. injection Ha' as <-.
    destruct (nth_error qd a) as [d|] eqn:Ed.
    - exists d. unfold action_dist. rewrite Ed. auto.
    - apply nth_error_None in Ed. assert (a < length qo) by (apply nth_error_Some; congruence). lia. }
  assert (Hld : length dists = length batch).
  { rewrite <- (Forall2_len Fd), combine_length. lia. }
  assert (Hd : forall b qd, nth_error next b = Some qd -> exists a d qo o, nth_error online b = Some qo /\ nth_error qo a = Some o /\
     (forall o', In o' qo -> meanv z o' <= meanv z o)%Q /\ nth_error qd a = Some d /\ nth_error dists b = Some d).
  { intros b qd En. assert (b < length next) by (apply nth_error_Some; congruence).
    destruct (nth_error online b) as [qo|] eqn:Eo; [|apply nth_error_None in Eo; lia].
    destruct (Forall2_nth Fa _ Eo) as (a & Ha & o & Hoa & Hom).
    destruct (Forall2_nth Fd _ (@nth_combine _ _ next acts b qd a En Ha)) as (d & Hdd & Hp). cbn [fst snd] in Hp.
    exists a, d, qo, o. auto. }
  destruct (@target_row v0 dz z batch dists Hz Hld) as (out & E & L & H).
  { intros d Hin. apply In_nth_error in Hin. destruct Hin as (b & Hb).
    assert (b < length dists) by (apply nth_error_Some; congruence).
    destruct (nth_error next b) as [qd|] eqn:En; [|apply nth_error_None in En; lia].
    destruct (Hd b qd En) as (a & d' & qo & o & Eo & _ & _ & Hqa & Hdb). rewrite Hb in Hdb. injection Hdb as <-.
    apply (proj2 (proj2 (Hq b qd qo En Eo))). eapply nth_error_In. exact Hqa. }
  exists out. unfold categorical_double_target. rewrite Ea. cbn [bind]. rewrite Ed. cbn [bind].
  split; [exact E|]. split; [exact L|].
  intros b x qd qo Hb Hqd Hqo. destruct (Hd b qd Hqd) as (a & d & qo' & o & Eo & Hao & Hmax & Hqa & Hdb).
  rewrite Hqo in Eo. injection Eo as <-. destruct (H b x d Hb Hdb) as (r & R).
  exists a, o, d, r. auto.
Qed.
