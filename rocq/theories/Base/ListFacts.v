(** Generic list facts used by the proofs (no model content). *)
From Verif Require Export Base.PyBase.
Set Implicit Arguments.

Section Upd.
  Context {A : Type}.
  Implicit Types (l : list A) (i j : nat).

  Lemma upd_length l i x : length (upd l i x) = length l.
  Proof. revert i; induction l as [|h t IH]; intros [|i]; simpl; auto. Qed.

  Lemma nth_error_upd_same l i x : i < length l -> nth_error (upd l i x) i = Some x.
  Proof. revert i; induction l as [|h t IH]; intros [|i]; simpl; intros H; try lia; auto.
         apply IH; lia. Qed.

  Lemma nth_error_upd_other l i j x : i <> j -> nth_error (upd l i x) j = nth_error l j.
  Proof. revert i j; induction l as [|h t IH]; intros [|i] [|j]; simpl; intros H; auto; try lia. Qed.

  Lemma upd_app_l l1 l2 i x : i < length l1 -> upd (l1 ++ l2) i x = upd l1 i x ++ l2.
  Proof. revert i; induction l1 as [|h t IH]; intros [|i]; simpl; intros H; try lia; auto.
         f_equal; apply IH; lia. Qed.

  Lemma upd_app_r l1 l2 i x : length l1 <= i -> upd (l1 ++ l2) i x = l1 ++ upd l2 (i - length l1) x.
  Proof. revert i; induction l1 as [|h t IH]; intros i; simpl; intros H.
         - now rewrite Nat.sub_0_r.
         - destruct i as [|i]; [lia|]. simpl. f_equal. apply IH; lia. Qed.

  Lemma upd_rev l i x : i < length l -> upd (rev l) i x = rev (upd l (length l - 1 - i) x).
  Proof.
    revert i; induction l as [|h t IH]; simpl; intros i H; [lia|].
    destruct (Nat.eq_dec i (length t)) as [->|Hne].
    - rewrite upd_app_r by (rewrite rev_length; lia).
      rewrite rev_length, Nat.sub_diag.
      replace (length t - 0 - length t) with 0 by lia. reflexivity.
    - rewrite upd_app_l by (rewrite rev_length; lia).
      rewrite IH by lia.
      replace (length t - 0 - i) with (S (length t - 1 - i)) by lia. reflexivity.
  Qed.

  Lemma nth_error_rev l i : i < length l -> nth_error (rev l) i = nth_error l (length l - 1 - i).
  Proof.
    revert i; induction l as [|h t IH]; simpl; intros i H; [lia|].
    destruct (Nat.eq_dec i (length t)) as [->|Hne].
    - rewrite nth_error_app2 by (rewrite rev_length; lia).
      rewrite rev_length, Nat.sub_diag.
      replace (length t - 0 - length t) with 0 by lia. reflexivity.
    - rewrite nth_error_app1 by (rewrite rev_length; lia).
      rewrite IH by lia.
      replace (length t - 0 - i) with (S (length t - 1 - i)) by lia. reflexivity.
  Qed.

  Lemma upd_out l i x : length l <= i -> upd l i x = l.
  Proof. revert i; induction l as [|h t IH]; intros [|i]; simpl; intros H; auto; try lia.
         f_equal; apply IH; lia. Qed.

  Lemma upd_upd l i x y : upd (upd l i x) i y = upd l i y.
  Proof. revert i; induction l as [|h t IH]; intros [|i]; simpl; auto. f_equal; auto. Qed.

  Lemma upd_comm l i j x y : i <> j -> upd (upd l i x) j y = upd (upd l j y) i x.
  Proof. revert i j; induction l as [|h t IH]; intros [|i] [|j]; simpl; intros H; auto; try lia.
         f_equal; apply IH; lia. Qed.

  Lemma upd_self l i x : nth_error l i = Some x -> upd l i x = l.
  Proof. revert i; induction l as [|h t IH]; intros [|i]; simpl; intros H; auto; try congruence.
         f_equal; auto. Qed.
End Upd.

Lemma skipn_skipn_add {A} (l : list A) a b : skipn a (skipn b l) = skipn (a + b) l.
Proof. revert b; induction l as [|h t IH]; intros b.
       - now rewrite !skipn_nil.
       - destruct b as [|b]; [now rewrite Nat.add_0_r|].
         replace (a + S b) with (S (a + b)) by lia. simpl. apply IH. Qed.

Lemma nth_error_ext {A} (l1 l2 : list A) :
  length l1 = length l2 ->
  (forall i, i < length l1 -> nth_error l1 i = nth_error l2 i) -> l1 = l2.
Proof.
  revert l2; induction l1 as [|a t IH]; intros [|b t2]; simpl; intros Hl H; auto; try lia.
  f_equal.
  - specialize (H 0 ltac:(lia)). simpl in H. congruence.
  - apply IH; [lia|]. intros i Hi. apply (H (S i)). lia.
Qed.

Lemma app_eq_length {A} (a b c d : list A) : a ++ b = c ++ d -> length a = length c -> a = c /\ b = d.
Proof.
  revert c; induction a as [|x a IH]; intros [|y c]; simpl; intros H Hl; auto; try lia.
  injection H as -> H. destruct (IH _ H ltac:(lia)) as [-> ->]. auto.
Qed.
