(** The tree queue represents a plain list; its cached values are aggregates. *)
From Verif Require Import Base.ListFacts Model.Num Model.TreeQueue.
Set Implicit Arguments.

Lemma repeat_app_add {A} (x : A) n m : repeat x n ++ repeat x m = repeat x (n + m).
Proof. induction n; simpl; congruence. Qed.

Lemma nth_upd_same {A} (l : list A) i x d : i < length l -> nth i (upd l i x) d = x.
Proof. revert i; induction l as [|h t IH]; intros [|i]; simpl; intros H; auto; try lia. apply IH; lia. Qed.
Lemma nth_upd_other {A} (l : list A) i j x d : i <> j -> nth j (upd l i x) d = nth j l d.
Proof. revert i j; induction l as [|h t IH]; intros [|i] [|j]; simpl; intros H; auto; try lia. Qed.

Lemma map_upd {A B} (f : A -> B) l i x : map f (upd l i x) = upd (map f l) i (f x).
Proof. revert i; induction l as [|h t IH]; intros [|i]; simpl; auto. now rewrite IH. Qed.

Fixpoint somes {V} (l : list (option V)) : list V :=
  match l with [] => [] | Some v :: t => v :: somes t | None :: t => somes t end.

Lemma somes_app {V} (a b : list (option V)) : somes (a ++ b) = somes a ++ somes b.
Proof. induction a as [|[v|] t IH]; simpl; congruence. Qed.
Lemma somes_repeat {V} n : somes (repeat (@None V) n) = [].
Proof. induction n; simpl; auto. Qed.
Lemma somes_map {V} (l : list V) : somes (map Some l) = l.
Proof. induction l; simpl; congruence. Qed.

Section T0.
  Context {V : Type}.

  (** The leaves of a tree of depth [d], left to right. *)
  Fixpoint cells (d : nat) (t : node V) : list (option V) :=
    match d, t with
    | O, Leaf v => [Some v]
    | O, _ => [None]
    | S d', Node l r _ => cells d' l ++ cells d' r
    | S _, _ => repeat None (2 ^ d)
    end.

  Lemma cells_length d t : length (cells d t) = 2 ^ d.
  Proof.
    revert t; induction d as [|d IH]; intros t.
    - destruct t; reflexivity.
    - cbn [cells]. destruct t; try apply repeat_length.
      rewrite app_length, !IH. simpl. lia.
  Qed.

  Lemma cells_Empty d : cells d Empty = repeat None (2 ^ d).
  Proof. destruct d; reflexivity. Qed.

  Lemma center il d : ((il + (il + Z.of_nat (2 ^ S d))) / 2 = il + Z.of_nat (2 ^ d))%Z.
  Proof. rewrite Nat.pow_succ_r', Nat2Z.inj_mul.
         replace (il + (il + Z.of_nat 2 * Z.of_nat (2 ^ d)))%Z with ((il + Z.of_nat (2 ^ d)) * 2)%Z by lia.
         apply Z.div_mul. lia. Qed.

  Lemma pow_pos d : 0 < 2 ^ d.
  Proof. induction d; simpl; lia. Qed.

  Lemma depth_width d : d < 2 ^ d.
  Proof. induction d; simpl; lia. Qed.

  Lemma rep_cells_len d t a b (l : list V) : cells d t = repeat None a ++ map Some l ++ repeat None b ->
    2 ^ d = a + length l + b.
  Proof. intros H. apply (f_equal (@length _)) in H.
         rewrite cells_length, !app_length, !repeat_length, map_length in H. lia. Qed.

  Lemma width_pow il d : width il (il + Z.of_nat (2 ^ d)) = 2 ^ d.
  Proof. unfold width. lia. Qed.

End T0.

Section T.
  Context {V : Type}.
  Variable op : list V -> V.
  Variable Agg : list V -> V -> Prop.
  Hypothesis Agg1 : forall v, Agg [v] v.
  Hypothesis Agg_op1 : forall l v, Agg l v -> Agg l (op [v]).
  Hypothesis Agg_op2 : forall l1 l2 v1 v2, Agg l1 v1 -> Agg l2 v2 -> Agg (l1 ++ l2) (op [v1; v2]).

  Fixpoint wf (d : nat) (t : node V) : Prop :=
    match d, t with
    | _, Empty => True
    | O, Leaf _ => True
    | S d', Node l r v =>
        wf d' l /\ wf d' r /\ somes (cells d' l ++ cells d' r) <> [] /\
        Agg (somes (cells d' l ++ cells d' r)) v
    | _, _ => False
    end.

  Lemma wf_Empty d : wf d Empty.
  Proof. destruct d; exact I. Qed.

  Lemma wf_vals d t : wf d t ->
    (t = Empty /\ somes (cells d t) = []) \/
    (exists v, node_vals t = [v] /\ Agg (somes (cells d t)) v /\ somes (cells d t) <> []).
  Proof.
    destruct t as [|v|l r v]; intros H.
    - left. rewrite cells_Empty, somes_repeat. auto.
    - right. exists v. destruct d; [|destruct H]. simpl. repeat split; auto. discriminate.
    - right. exists v. destruct d; [destruct H|]. cbn in H. destruct H as (_ & _ & H1 & H2). auto.
  Qed.

  Lemma wf_reduce d l r : wf d l -> wf d r ->
    wf (S d) (reduce op l r) /\ cells (S d) (reduce op l r) = cells d l ++ cells d r.
  Proof.
    intros Hl Hr. unfold reduce.
    destruct (wf_vals _ _ Hl) as [[-> El]|(v1 & -> & A1 & N1)];
    destruct (wf_vals _ _ Hr) as [[-> Er]|(v2 & -> & A2 & N2)]; cbn [node_vals app].
    - split; [exact I|]. rewrite !cells_Empty. cbn [cells]. rewrite repeat_app_add.
      f_equal. simpl. lia.
    - split; [|reflexivity]. cbn [wf]. rewrite somes_app, El. cbn [app]. auto.
    - split; [|reflexivity]. cbn [wf]. rewrite somes_app, Er, app_nil_r. auto.
    - split; [|reflexivity]. cbn [wf]. rewrite somes_app. repeat split; auto.
      intros H. apply app_eq_nil in H. tauto.
  Qed.

  Lemma write_spec d : forall fuel il ir t key value,
    d < fuel -> ir = (il + Z.of_nat (2 ^ d))%Z -> (il <= key < ir)%Z -> wf d t ->
    exists t', write op fuel il ir t key value = Ok (nth (Z.to_nat (key - il)) (cells d t) None, t') /\
      wf d t' /\ cells d t' = upd (cells d t) (Z.to_nat (key - il)) value.
  Proof.
    induction d as [|d IH]; intros [|fuel] il ir t key value Hf Hir Hk Hwf; try lia; cbn [write].
    - cbn in Hir. destruct (ir - il =? 1)%Z eqn:E; [|lia].
      replace (key - il)%Z with 0%Z by lia. cbn [Z.to_nat].
      destruct t as [|v|l r v]; try (destruct Hwf; fail);
        (eexists; split; [reflexivity|]; destruct value; cbn; auto).
    - destruct (ir - il =? 1)%Z eqn:E; [pose proof (pow_pos d); rewrite Nat.pow_succ_r' in Hir; lia|].
      subst ir. rewrite center.
      set (p := 2 ^ d) in *.
      assert (Hl2 : Z.of_nat (2 ^ S d) = (2 * Z.of_nat p)%Z) by (rewrite Nat.pow_succ_r'; fold p; lia).
      destruct t as [|v|l r v]; [| destruct Hwf |].
      + destruct (key <? il + Z.of_nat p)%Z eqn:Ek.
        * destruct (IH fuel il (il + Z.of_nat p)%Z Empty key value ltac:(lia) eq_refl ltac:(lia) (wf_Empty d)) as (l' & -> & Hw & Hc).
          cbn [bind]. destruct (wf_reduce d _ _ Hw (wf_Empty d)) as (Hw' & Hc').
          eexists; split; [|split; [exact Hw'|]].
          -- f_equal. f_equal. rewrite cells_Empty. cbn [cells].
             rewrite !nth_repeat. reflexivity.
          -- rewrite Hc', Hc, cells_Empty. cbn [cells].
             rewrite <- upd_app_l by (rewrite repeat_length; fold p; lia).
             f_equal. rewrite repeat_app_add. f_equal. simpl; lia.
        * destruct (IH fuel (il + Z.of_nat p)%Z (il + Z.of_nat (2 ^ S d))%Z Empty key value ltac:(lia) ltac:(lia) ltac:(lia) (wf_Empty d)) as (l' & -> & Hw & Hc).
          cbn [bind]. destruct (wf_reduce d _ _ (wf_Empty d) Hw) as (Hw' & Hc').
          eexists; split; [|split; [exact Hw'|]].
          -- f_equal. f_equal. rewrite cells_Empty. cbn [cells].
             rewrite !nth_repeat. reflexivity.
          -- rewrite Hc', Hc, cells_Empty. cbn [cells].
             replace (repeat None (2 ^ S d)) with (repeat (@None V) p ++ repeat None p)
               by (rewrite repeat_app_add; f_equal; simpl; lia).
             rewrite upd_app_r by (rewrite repeat_length; lia).
             rewrite repeat_length. fold p. f_equal. f_equal. lia.
      + destruct Hwf as (Hwl & Hwr & _ & _).
        destruct (key <? il + Z.of_nat p)%Z eqn:Ek.
        * destruct (IH fuel il (il + Z.of_nat p)%Z l key value ltac:(lia) eq_refl ltac:(lia) Hwl) as (l' & -> & Hw & Hc).
          cbn [bind]. destruct (wf_reduce d _ _ Hw Hwr) as (Hw' & Hc').
          eexists; split; [|split; [exact Hw'|]].
          -- f_equal. f_equal. cbn [cells]. rewrite app_nth1; auto. rewrite cells_length. fold p. lia.
          -- rewrite Hc', Hc. cbn [cells]. rewrite upd_app_l; auto. rewrite cells_length. fold p. lia.
        * destruct (IH fuel (il + Z.of_nat p)%Z (il + Z.of_nat (2 ^ S d))%Z r key value ltac:(lia) ltac:(lia) ltac:(lia) Hwr) as (r' & -> & Hw & Hc).
          cbn [bind]. destruct (wf_reduce d _ _ Hwl Hw) as (Hw' & Hc').
          eexists; split; [|split; [exact Hw'|]].
          -- f_equal. f_equal. cbn [cells]. rewrite app_nth2; rewrite cells_length; fold p; [|lia].
             f_equal. lia.
          -- rewrite Hc', Hc. cbn [cells]. rewrite upd_app_r; rewrite cells_length; fold p; [|lia].
             f_equal. f_equal. lia.
  Qed.

  (** The queue [q] stores the list [l] (oldest first). *)
  Definition tq_rep (q : tq V) (l : list V) : Prop :=
    tq_len q = Z.of_nat (length l) /\
    match tq_body q with
    | None => l = []
    | Some (il, ir, t) =>
        l <> [] /\ exists d a b, ir = (il + Z.of_nat (2 ^ d))%Z /\ il = (- Z.of_nat a)%Z /\
        wf d t /\ cells d t = repeat None a ++ map Some l ++ repeat None b
    end.

  Lemma rep_init : tq_rep tq_init [].
  Proof. split; reflexivity. Qed.

  (** Writing a present value at a stored position. *)
  Lemma tq_write_rep q l i v : tq_rep q l -> i < length l ->
    exists q' x, nth_error l i = Some x /\
      tq_write op q (Z.of_nat i) (Some v) = Ok (Some x, q') /\ tq_rep q' (upd l i v).
  Proof.
    intros [Hlen Hb] Hi. unfold tq_write.
    destruct (tq_body q) as [[[il ir] t]|]; [|subst l; simpl in Hi; lia].
    destruct Hb as (Hne & d & a & b & Hir & Hil & Hw & Hc).
    pose proof (rep_cells_len _ _ _ _ _ Hc) as Hp.
    destruct (@write_spec d (width il ir) il ir t (Z.of_nat i) (Some v)) as (t' & -> & Hw' & Hc'); auto; try lia.
    { rewrite Hir, width_pow. apply depth_width. }
    cbn [bind]. rewrite Hc in *.
    replace (Z.to_nat (Z.of_nat i - il)) with (a + i) in * by lia.
    destruct (nth_error l i) as [x|] eqn:Ex; [|apply nth_error_None in Ex; lia].
    eexists; exists x. split; [auto|]. split.
    - f_equal. f_equal. rewrite app_nth2; rewrite repeat_length; [|lia].
      replace (a + i - a) with i by lia. rewrite app_nth1 by (rewrite map_length; lia).
      erewrite nth_error_nth; [reflexivity|]. rewrite nth_error_map, Ex. reflexivity.
    - split; cbn [tq_len tq_body].
      + now rewrite upd_length.
      + split.
        * intros E. apply (f_equal (@length V)) in E. rewrite upd_length in E. simpl in E. lia.
        * exists d, a, b. repeat split; auto. rewrite Hc'.
          rewrite upd_app_r; rewrite repeat_length; [|lia].
          f_equal. replace (a + i - a) with i by lia.
          rewrite upd_app_l by (rewrite map_length; lia). now rewrite map_upd.
  Qed.

  Lemma tq_set_spec q l i v : tq_rep q l ->
    if (0 <=? i)%Z && (i <? Z.of_nat (length l))%Z
    then exists q', tq_set op q i v = Ok q' /\ tq_rep q' (upd l (Z.to_nat i) v)
    else tq_set op q i v = Raise AssertionError.
  Proof.
    intros Hr. unfold tq_set. rewrite (proj1 Hr).
    destruct ((0 <=? i)%Z && (i <? Z.of_nat (length l))%Z) eqn:E; [|reflexivity].
    destruct (@tq_write_rep q l (Z.to_nat i) v Hr ltac:(lia)) as (q' & x & _ & H & Hr').
    rewrite Z2Nat.id in H by lia. rewrite H. cbn [bind]. eauto.
  Qed.

  Lemma tq_append_spec q l v : tq_rep q l ->
    exists q', tq_append op q v = Ok q' /\ tq_rep q' (l ++ [v]).
  Proof.
    intros [Hlen Hb]. unfold tq_append. rewrite Hlen.
    destruct (Z.of_nat (length l) =? 0)%Z eqn:E0.
    - destruct l; [|cbn [length] in E0; lia]. eexists; split; [reflexivity|].
      split; [reflexivity|]. cbn [tq_body]. split; [discriminate|].
      exists 0, 0, 0. cbn. auto.
    - destruct (tq_body q) as [[[il ir] t]|]; [|subst l; cbn [length] in E0; lia].
      destruct Hb as (Hne & d & a & b & Hir & Hil & Hw & Hc).
      pose proof (rep_cells_len _ _ _ _ _ Hc) as Hp.
      assert (H : exists d' b' t', (if (ir =? Z.of_nat (length l))%Z
          then match node_vals t with
               | [] => Raise ValueError
               | rv :: _ => Ok (il, (ir + (ir - il))%Z, Node t Empty rv) end
          else Ok (il, ir, t)) = Ok (il, (il + Z.of_nat (2 ^ d'))%Z, t') /\ wf d' t' /\
          cells d' t' = repeat None a ++ map Some l ++ repeat None (S b')).
      { destruct (ir =? Z.of_nat (length l))%Z eqn:Eir.
        - assert (b = 0) by lia. subst b.
          destruct (wf_vals _ _ Hw) as [[-> He]|(rv & Hv & Ha & Hn)].
          + rewrite Hc, !somes_app, somes_map, !somes_repeat, app_nil_r in He. cbn in He. congruence.
          + rewrite Hv. exists (S d), (2 ^ d - 1), (Node t Empty rv). split.
            * f_equal. f_equal. f_equal. rewrite Nat.pow_succ_r'. lia.
            * cbn [wf cells]. rewrite cells_Empty, somes_app, somes_repeat, app_nil_r.
              split; [repeat split; auto using wf_Empty|].
              replace (S (2 ^ d - 1)) with (2 ^ d) by (pose proof (pow_pos d); lia).
              rewrite Hc, <- !app_assoc. reflexivity.
        - destruct b as [|b]; [exfalso; lia|]. exists d, b, t. rewrite <- Hir. auto. }
      destruct H as (d' & b' & t' & -> & Hw' & Hc'). cbn [bind].
      pose proof (rep_cells_len _ _ _ _ _ Hc') as Hp'.
      unfold tq_write. cbn [tq_body tq_len].
      destruct (@write_spec d' (width il (il + Z.of_nat (2 ^ d'))) il (il + Z.of_nat (2 ^ d'))%Z t' (Z.of_nat (length l)) (Some v)) as (t2 & -> & Hw2 & Hc2); auto; try lia.
      { rewrite width_pow. apply depth_width. }
      cbn [bind]. rewrite Hc' in *.
      replace (Z.to_nat (Z.of_nat (length l) - il)) with (a + length l) in * by lia.
      rewrite app_nth2; rewrite repeat_length; [|lia].
      replace (a + length l - a) with (length l) by lia.
      rewrite app_nth2; rewrite map_length; [|lia]. rewrite Nat.sub_diag. cbn [repeat nth tq_len tq_body].
      eexists; split; [reflexivity|]. split; cbn [tq_len tq_body].
      + rewrite app_length. simpl. lia.
      + split; [destruct l; discriminate|]. exists d', a, b'. repeat split; auto.
        rewrite Hc2. rewrite upd_app_r; rewrite repeat_length; [|lia].
        replace (a + length l - a) with (length l) by lia.
        rewrite upd_app_r; rewrite map_length; [|lia]. rewrite Nat.sub_diag.
        cbn [repeat upd]. rewrite map_app, <- app_assoc. reflexivity.
  Qed.

  Lemma tq_popleft_spec q l : tq_rep q l ->
    match l with
    | [] => tq_popleft op q = Raise AssertionError
    | x :: t => exists q', tq_popleft op q = Ok (Some x, q') /\ tq_rep q' t
    end.
  Proof.
    intros [Hlen Hb]. unfold tq_popleft. rewrite Hlen.
    destruct l as [|x l].
    { reflexivity. }
    cbn [length]. destruct (0 <? Z.of_nat (S (length l)))%Z eqn:E; [|lia].
    unfold tq_write. destruct (tq_body q) as [[[il ir] t]|]; [|discriminate].
    destruct Hb as (Hne & d & a & b & Hir & Hil & Hw & Hc).
    pose proof (rep_cells_len _ _ _ _ _ Hc) as Hp. cbn [length] in Hp.
    destruct (@write_spec d (width il ir) il ir t 0%Z None) as (t' & -> & Hw' & Hc'); auto; try lia.
    { rewrite Hir, width_pow. apply depth_width. }
    cbn [bind tq_body tq_len]. rewrite Hc in *.
    replace (Z.to_nat (0 - il)) with a in * by lia.
    rewrite app_nth2; rewrite repeat_length; [|lia]. rewrite Nat.sub_diag. cbn [map app nth].
    rewrite upd_app_r, repeat_length, Nat.sub_diag in Hc' by (rewrite repeat_length; lia).
    cbn [map app upd] in Hc'.
    assert (Hc2 : cells d t' = repeat None (S a) ++ map Some l ++ repeat None b).
    { rewrite Hc'. replace (S a) with (a + 1) by lia. rewrite <- repeat_app_add, <- app_assoc. reflexivity. }
    clear Hc'. rewrite Hlen. cbn [length].
    destruct (Z.of_nat (S (length l)) - 1 =? 0)%Z eqn:E0.
    - destruct l as [|y l]; [|cbn [length] in E0; lia]. eexists; split; [reflexivity|]. split; reflexivity.
    - assert (Hl : l <> []) by (intros ->; cbn [length] in E0; lia).
      destruct d as [|d].
      { exfalso. cbn in Hp. destruct l; [congruence|]. cbn [length] in Hp. lia. }
      replace (il - 1 + (ir - 1))%Z with ((il - 1) + ((il - 1) + Z.of_nat (2 ^ S d)))%Z by lia.
      rewrite center.
      destruct (il - 1 + Z.of_nat (2 ^ d) =? 0)%Z eqn:Ec.
      + destruct t' as [|v|tl tr v].
        * exfalso. rewrite cells_Empty in Hc2. apply (f_equal somes) in Hc2.
          rewrite !somes_app, somes_map, !somes_repeat, app_nil_r in Hc2. cbn in Hc2. congruence.
        * destruct Hw'.
        * destruct Hw' as (Hwl & Hwr & _ & _). eexists; split; [reflexivity|].
          split; cbn [tq_len tq_body]; [lia|]. split; [auto|].
          exists d, 0, b. repeat split; auto.
          -- rewrite Nat.pow_succ_r' in Hir. lia.
          -- lia.
          -- cbn [cells] in Hc2. cbn [repeat app].
             assert (HS : S a = length (cells d tl)) by (rewrite cells_length; lia).
             apply app_eq_length in Hc2; [|now rewrite repeat_length].
             apply Hc2.
      + eexists; split; [reflexivity|]. split; cbn [tq_len tq_body]; [lia|]. split; [auto|].
        exists (S d), (S a), b. split; [lia|]. split; [lia|]. auto.
  Qed.

  (** The reported aggregate. *)
  Lemma tq_value_spec q l : tq_rep q l ->
    match l with
    | [] => tq_value q = Ok None
    | _ => exists v, tq_value q = Ok (Some v) /\ Agg l v
    end.
  Proof.
    intros [Hlen Hb]. unfold tq_value. rewrite Hlen. destruct l as [|x l]; [reflexivity|].
    cbn [length]. destruct (Z.of_nat (S (length l)) =? 0)%Z eqn:E; [lia|].
    destruct (tq_body q) as [[[il ir] t]|]; [|discriminate].
    destruct Hb as (Hne & d & a & b & Hir & Hil & Hw & Hc).
    destruct (wf_vals _ _ Hw) as [[-> He]|(v & Hv & Ha & Hn)].
    - exfalso. rewrite Hc, !somes_app, somes_map, !somes_repeat, app_nil_r in He. discriminate.
    - rewrite Hv. exists v. split; auto.
      rewrite Hc, !somes_app, somes_map, !somes_repeat, app_nil_r in Ha. exact Ha.
  Qed.
End T.
