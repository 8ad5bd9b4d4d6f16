(** Finite sums of rationals. *)
From Coq Require Import QArith Lqa.
From Verif Require Import Base.PyBase Spec.WrapperSpec.
Set Implicit Arguments.
Local Open Scope nat_scope.

Lemma qsum_app : forall a b, (qsum (a ++ b) == qsum a + qsum b)%Q.
Proof.
  induction a as [|x a IH]; intros b; cbn [app].
  - change (qsum []) with 0%Q. ring.
  - change (qsum (x :: a ++ b)) with (x + qsum (a ++ b))%Q. change (qsum (x :: a)) with (x + qsum a)%Q. rewrite IH. ring.
Qed.
Lemma qsum_cons : forall x a, (qsum (x :: a) == x + qsum a)%Q.
Proof. intros. reflexivity. Qed.
Lemma qsum_ext : forall A (f g : A -> Q) l, (forall x, In x l -> f x == g x)%Q -> (qsum (map f l) == qsum (map g l))%Q.
Proof.
  intros A f g l. induction l as [|x l IH]; intros H; [reflexivity|]. cbn [map]. rewrite !qsum_cons, IH.
  - rewrite (H x) by (left; reflexivity). reflexivity.
  - intros y Hy. apply H. right. exact Hy.
Qed.
Lemma qsum_add : forall A (f g : A -> Q) l, (qsum (map (fun x => f x + g x) l) == qsum (map f l) + qsum (map g l))%Q.
Proof. intros A f g l. induction l as [|x l IH]; cbn [map]; [reflexivity|]. rewrite !qsum_cons, IH. ring. Qed.
Lemma qsum_scale : forall A c (f : A -> Q) l, (qsum (map (fun x => c * f x) l) == c * qsum (map f l))%Q.
Proof. intros A c f l. induction l as [|x l IH]; cbn [map]; [cbn; ring|]. rewrite !qsum_cons, IH. ring. Qed.
Lemma qsum_zero : forall A (f : A -> Q) l, (forall x, In x l -> f x == 0)%Q -> (qsum (map f l) == 0)%Q.
Proof.
  intros A f l H. rewrite (qsum_ext f (fun _ => 0%Q)) by exact H.
  induction l as [|x l IH]; [reflexivity|]. cbn [map]. rewrite qsum_cons, IH by (intros; apply H; right; assumption). ring.
Qed.
Lemma qsum_swap : forall A B (f : A -> B -> Q) la lb,
  (qsum (map (fun a => qsum (map (f a) lb)) la) == qsum (map (fun b => qsum (map (fun a => f a b) la)) lb))%Q.
Proof.
  intros A B f la. induction la as [|a la IH]; intros lb; cbn [map].
  - symmetry. apply qsum_zero. intros. reflexivity.
  - rewrite qsum_cons, IH. rewrite <- qsum_add. apply qsum_ext. intros b _. symmetry. apply qsum_cons.
Qed.
Lemma qsum_nonneg : forall l, (forall x, In x l -> 0 <= x)%Q -> (0 <= qsum l)%Q.
Proof.
  induction l as [|x l IH]; intros H; [cbn; Lqa.lra|]. rewrite qsum_cons.
  assert (0 <= x)%Q by (apply H; left; reflexivity). assert (0 <= qsum l)%Q by (apply IH; intros; apply H; right; assumption).
  Lqa.lra.
Qed.
Lemma qsum_le : forall A (f g : A -> Q) l, (forall x, In x l -> f x <= g x)%Q -> (qsum (map f l) <= qsum (map g l))%Q.
Proof.
  intros A f g l. induction l as [|x l IH]; intros H; [cbn; Lqa.lra|]. cbn [map]. rewrite !qsum_cons.
  assert (f x <= g x)%Q by (apply H; left; reflexivity).
  assert (qsum (map f l) <= qsum (map g l))%Q by (apply IH; intros; apply H; right; assumption). Lqa.lra.
Qed.

(** A sum over positions with a single non-zero term. *)
Lemma qsum_single_from : forall n s k (v : Q), s <= k < s + n ->
  (qsum (map (fun i => if i =? k then v else 0) (seq s n)) == v)%Q.
Proof.
  induction n as [|n IH]; intros s k v H; [lia|]. cbn [seq map]. rewrite qsum_cons.
  destruct (s =? k) eqn:E.
  - apply Nat.eqb_eq in E. subst s. rewrite qsum_zero; [ring|]. intros i Hi. apply in_seq in Hi.
    replace (i =? k) with false by (symmetry; apply Nat.eqb_neq; lia). reflexivity.
  - apply Nat.eqb_neq in E. rewrite IH by lia. ring.
Qed.
Lemma qsum_single : forall n k (v : Q), k < n -> (qsum (map (fun i => if i =? k then v else 0) (seq 0 n)) == v)%Q.
Proof. intros. apply qsum_single_from. lia. Qed.

Lemma qsum_pos_from : forall (l : list Q) s (g : nat -> Q),
  (forall i x, nth_error l i = Some x -> (x == g (s + i)%nat)%Q) -> (qsum l == qsum (map g (seq s (length l))))%Q.
Proof.
  induction l as [|x l IH]; intros s g H; [reflexivity|]. cbn [length seq map]. rewrite !qsum_cons.
  rewrite (H 0 x eq_refl), Nat.add_0_r. rewrite (IH (S s) g); [reflexivity|].
  intros i y Hy. rewrite (H (S i) y Hy). replace (s + S i) with (S s + i) by lia. reflexivity.
Qed.
Lemma qsum_pos : forall (l : list Q) (g : nat -> Q),
  (forall i x, nth_error l i = Some x -> (x == g i)%Q) -> (qsum l == qsum (map g (seq 0 (length l))))%Q.
Proof. intros l g H. apply qsum_pos_from. exact H. Qed.
