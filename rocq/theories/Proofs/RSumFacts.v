(** Facts about finite sums of reals. *)
From Coq Require Import Reals List Lia Lra.
From Verif Require Import Spec.SumSpec.
Import ListNotations.
Local Open Scope R_scope.

Section T.
  Context {X : Type}.
  Implicit Types (f g : X -> R) (l : list X).
  Lemma tot_cons : forall f x l, total_of f (x :: l) = f x + total_of f l.
  Proof. reflexivity. Qed.
  Lemma tot_app : forall f a b, total_of f (a ++ b) = total_of f a + total_of f b.
  Proof. intros f a b. induction a as [|x a IH]; [unfold total_of; cbn; ring|]. rewrite <- app_comm_cons, !tot_cons, IH. ring. Qed.
  Lemma tot_ext : forall f g l, (forall x, In x l -> f x = g x) -> total_of f l = total_of g l.
  Proof. induction l as [|x l IH]; intros H; [reflexivity|]. rewrite !tot_cons, (H x), IH by (intros; try apply H; cbn; auto). reflexivity. Qed.
  Lemma tot_add : forall f g l, total_of (fun x => f x + g x) l = total_of f l + total_of g l.
  Proof. induction l as [|x l IH]; [unfold total_of; cbn; ring|]. rewrite !tot_cons, IH. ring. Qed.
  Lemma tot_scale : forall c f l, total_of (fun x => c * f x) l = c * total_of f l.
  Proof. induction l as [|x l IH]; [unfold total_of; cbn; ring|]. rewrite !tot_cons, IH. ring. Qed.
  Lemma tot_opp : forall f l, total_of (fun x => - f x) l = - total_of f l.
  Proof. induction l as [|x l IH]; [unfold total_of; cbn; ring|]. rewrite !tot_cons, IH. ring. Qed.
  Lemma tot_sub : forall f g l, total_of (fun x => f x - g x) l = total_of f l - total_of g l.
  Proof. induction l as [|x l IH]; [unfold total_of; cbn; ring|]. rewrite !tot_cons, IH. ring. Qed.
  Lemma tot_const : forall c l, total_of (fun _ => c) l = INR (length l) * c.
  Proof. induction l as [|x l IH]; [unfold total_of; cbn; ring|]. rewrite tot_cons, IH. cbn [length]. rewrite S_INR. ring. Qed.
  Lemma tot_le : forall f g l, (forall x, In x l -> f x <= g x) -> total_of f l <= total_of g l.
  Proof.
    induction l as [|x l IH]; intros H; [unfold total_of; cbn; lra|]. rewrite !tot_cons. pose proof (H x (or_introl eq_refl)). specialize (IH (fun y Hy => H y (or_intror Hy))). lra.
  Qed.
  Lemma tot_nonneg : forall f l, (forall x, In x l -> 0 <= f x) -> 0 <= total_of f l.
  Proof. induction l as [|x l IH]; intros H; [unfold total_of; cbn; lra|]. rewrite tot_cons. pose proof (H x (or_introl eq_refl)). specialize (IH (fun y Hy => H y (or_intror Hy))). lra. Qed.
  Lemma tot_pos : forall f l, l <> [] -> (forall x, In x l -> 0 < f x) -> 0 < total_of f l.
  Proof.
    intros f [|x l] N H; [congruence|]. rewrite tot_cons. pose proof (H x (or_introl eq_refl)).
    pose proof (tot_nonneg f l (fun y Hy => Rlt_le _ _ (H y (or_intror Hy)))). lra.
  Qed.
  Lemma tot_ge_one : forall f l x, (forall y, In y l -> 0 <= f y) -> In x l -> f x <= total_of f l.
  Proof.
    induction l as [|y l IH]; intros x H I; [destruct I|]. rewrite tot_cons. pose proof (H y (or_introl eq_refl)).
    pose proof (tot_nonneg f l (fun z Hz => H z (or_intror Hz))). destruct I as [<-|I]; [lra|]. specialize (IH x (fun z Hz => H z (or_intror Hz)) I). lra.
  Qed.
  Lemma tot_zero : forall f l, (forall x, In x l -> 0 <= f x) -> total_of f l = 0 -> forall x, In x l -> f x = 0.
  Proof. intros f l H E x I. pose proof (tot_ge_one f l x H I). pose proof (H x I). lra. Qed.
  Lemma tot_fold : forall f l, fold_right Rplus 0 (map f l) = total_of f l.
  Proof. induction l as [|x l IH]; [reflexivity|]. cbn [map fold_right]. rewrite IH. reflexivity. Qed.
End T.
Lemma tot_map : forall X Y (h : X -> Y) (f : Y -> R) l, total_of f (map h l) = total_of (fun x => f (h x)) l.
Proof. induction l as [|x l IH]; [reflexivity|]. cbn [map]. rewrite !tot_cons, IH. reflexivity. Qed.

Lemma below_ext : forall m f g, (forall i, (i < m)%nat -> f i = g i) -> sum_below m f = sum_below m g.
Proof. induction m as [|m IH]; intros f g H; [reflexivity|]. cbn. rewrite (IH f g), (H m) by (intros; try apply H; lia). reflexivity. Qed.
Lemma below_scale : forall m c f, sum_below m (fun i => c * f i) = c * sum_below m f.
Proof. induction m as [|m IH]; intros; cbn; [ring|]. rewrite IH. ring. Qed.
Lemma below_S : forall m f, sum_below (S m) f = f O + sum_below m (fun i => f (S i)).
Proof. induction m as [|m IH]; intros f; [cbn; ring|]. cbn [sum_below] in *. rewrite IH. ring. Qed.
Lemma prod_S : forall m f, prod_below (S m) f = f O * prod_below m (fun i => f (S i)).
Proof. induction m as [|m IH]; intros f; [cbn; ring|]. cbn [prod_below] in *. rewrite IH. ring. Qed.
Lemma prod_ext : forall m f g, (forall i, (i < m)%nat -> f i = g i) -> prod_below m f = prod_below m g.
Proof. induction m as [|m IH]; intros f g H; [reflexivity|]. cbn. rewrite (IH f g), (H m) by (intros; try apply H; lia). reflexivity. Qed.
