(** Proofs about the errors that DQN reports for its samples. *)
From Coq Require Import Reals List Lia Lra.
From Verif Require Import Base.PyBase Model.Distributions Model.Targets.
Import ListNotations.
Local Open Scope R_scope.

Lemma errors_nth : forall y t i a b, nth_error y i = Some a -> nth_error t i = Some b -> nth_error (errors_out y t) i = Some (Rabs (a - b)).
Proof.
  induction y as [|a0 y IH]; intros [|b0 t] [|i] a b Y T; try discriminate.
  - injection Y as ->. injection T as ->. reflexivity.
  - exact (IH t i a b Y T).
Qed.
Lemma errors_len : forall y t, length y = length t -> length (errors_out y t) = length y.
Proof. induction y as [|a y IH]; intros [|b t] L; try discriminate; [reflexivity|]. cbn in *. f_equal. apply IH. congruence. Qed.

Lemma row_loss_abs : forall clip a b, row_loss clip a b = let d := Rabs (a - b) in if clip then if Rle_dec d 1 then / 2 * d ^ 2 else d - / 2 else d ^ 2 / 2.
Proof. intros [|] a b; unfold row_loss, huber; cbv zeta; [destruct (Rle_dec (Rabs (a - b)) 1); lra|]. rewrite pow2_abs. reflexivity. Qed.
Lemma row_loss_lt : forall clip a b c d, Rabs (a - b) < Rabs (c - d) -> row_loss clip a b < row_loss clip c d.
Proof.
  intros clip a b c d L. rewrite !row_loss_abs. pose proof (Rabs_pos (a - b)) as P. cbv zeta. generalize dependent (Rabs (a - b)). generalize (Rabs (c - d)). intros x z L P.
  assert (Q : z ^ 2 < x ^ 2) by nra. destruct clip; [|lra]. destruct (Rle_dec z 1), (Rle_dec x 1); try lra. assert (z ^ 2 <= 1) by nra. lra.
Qed.
Lemma reported_errors : forall clip y t, length y = length t ->
  length (errors_out y t) = length y /\ Forall (fun e => 0 <= e) (errors_out y t) /\
  (forall i a b, nth_error y i = Some a -> nth_error t i = Some b ->
    nth_error (errors_out y t) i = Some (Rabs (a - b)) /\ (Rabs (a - b) = 0 <-> a = b)) /\
  (forall i j a b c d e f, nth_error y i = Some a -> nth_error t i = Some b -> nth_error y j = Some c -> nth_error t j = Some d ->
    nth_error (errors_out y t) i = Some e -> nth_error (errors_out y t) j = Some f -> (e <= f <-> row_loss clip a b <= row_loss clip c d)).
Proof.
  intros clip y t L. split; [apply errors_len, L|]. split; [|split].
  - clear L. revert t. induction y as [|a y IH]; intros [|b t]; cbn; constructor; [apply Rabs_pos|apply IH].
  - intros i a b Y T. split; [apply errors_nth; assumption|]. split; intro E; [|subst; rewrite Rminus_diag_eq by reflexivity; apply Rabs_R0].
    destruct (Req_dec (a - b) 0) as [Z|Z]; [lra|]. apply Rabs_no_R0 in Z. contradiction.
  - intros i j a b c d e f Y T Y' T' E F. rewrite (errors_nth _ _ _ _ _ Y T) in E. rewrite (errors_nth _ _ _ _ _ Y' T') in F. injection E as <-. injection F as <-. split; intro H.
    + destruct H as [H|H]; [left; apply row_loss_lt, H|]. right. rewrite !row_loss_abs, H. reflexivity.
    + destruct (Rle_dec (Rabs (a - b)) (Rabs (c - d))) as [G|G]; [exact G|]. apply Rnot_le_lt in G. apply (row_loss_lt clip) in G. lra.
Qed.
