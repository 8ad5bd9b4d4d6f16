From Coq Require Import QArith Reals Lqa Lra Lia Field.
From Verif Require Import Base.PyBase Model.Num Model.GymEnv Model.ActionMaps Spec.WrapperSpec Spec.ActionSpec.
Set Implicit Arguments.
Local Open Scope nat_scope.

(** ** NormalizeActionSpace *)
Definition nrm (l h a : Q) : Q := ((a + 1) * ((h - l) / (2 # 1)) + l)%Q.

Lemma normalize_cons : forall l h a low high as_,
  normalize_action QNum (l :: low) (h :: high) (a :: as_)
  = let! r := normalize_action QNum low high as_ in Ok (nrm l h a :: r).
Proof.
  intros. unfold normalize_action. cbn [zipw map].
  destruct (zipw (nsub QNum) high low) as [w|]; [|reflexivity]. cbn [bind map zipw].
  destruct (zipw (nmul QNum) _ _) as [y|]; [|reflexivity]. cbn [bind map zipw].
  destruct (zipw (nadd QNum) y low) as [y'|]; reflexivity.
Qed.

Lemma qnrm : forall l h a, (nrm l h a == l + (a + 1) / (2 # 1) * (h - l))%Q.
Proof. intros. unfold nrm. field. Qed.

Lemma nrm_range : forall l h a, (l <= h -> -1 # 1 <= a -> a <= 1 -> l <= nrm l h a /\ nrm l h a <= h)%Q.
Proof.
  intros l h a Hl H1 H2. rewrite qnrm.
  assert (Ha : (0 <= (a + 1) / (2 # 1) /\ (a + 1) / (2 # 1) <= 1)%Q).
  { split; [apply Qle_shift_div_l|apply Qle_shift_div_r]; try reflexivity; Lqa.lra. }
  destruct Ha as [Ha Hb]. revert Ha Hb. generalize ((a + 1) / (2 # 1))%Q. intros t Ha Hb. split; Lqa.nra.
Qed.

Lemma normalize_into : forall low high, Forall2 Qle low high -> forall a, unit_box (length low) a ->
  exists b, normalize_action QNum low high a = Ok b /\ in_box Qle low high b.
Proof.
  induction 1 as [|l h low high Hlh _ IH]; intros a Ha.
  - inversion Ha; subst. exists []. split; [reflexivity|constructor].
  - inversion Ha as [|? ? ? ? ? ? [H1 H2] H3]; subst. destruct (IH _ H3) as (b & Hb & Hbox).
    rewrite normalize_cons, Hb. eexists. split; [reflexivity|]. constructor; [|exact Hbox].
    apply nrm_range; auto.
Qed.

Lemma normalize_onto : forall low high, Forall2 Qle low high -> forall b, in_box Qle low high b ->
  exists a r, unit_box (length low) a /\ normalize_action QNum low high a = Ok r /\ veq r b.
Proof.
  induction 1 as [|l h low high Hlh _ IH]; intros b Hb.
  - inversion Hb; subst. exists [], []. repeat split; constructor.
  - inversion Hb as [|? ? v ? ? ? [H1 H2] H3]; subst. destruct (IH _ H3) as (a & r & Ha & Hr & Hv).
    destruct (Qlt_le_dec l h) as [Hlt|Hge].
    + exists (((2 # 1) * (v - l) / (h - l) - 1)%Q :: a). rewrite normalize_cons, Hr.
      eexists. split; [|split; [reflexivity|]].
      * constructor; [|exact Ha].
        assert ((0 <= (2 # 1) * (v - l) / (h - l) /\ (2 # 1) * (v - l) / (h - l) <= 2 # 1)%Q) as [A1 A2].
        { split; [apply Qle_shift_div_l|apply Qle_shift_div_r]; Lqa.lra. }
        split; Lqa.lra.
      * constructor; [|exact Hv]. rewrite qnrm. field. Lqa.lra.
    + exists (0%Q :: a). rewrite normalize_cons, Hr. eexists. split; [|split; [reflexivity|]].
      * constructor; [|exact Ha]. split; Lqa.lra.
      * constructor; [|exact Hv]. rewrite qnrm. assert (E : (h - l == 0)%Q) by Lqa.lra. rewrite E.
        assert (l == v)%Q by Lqa.lra. Lqa.lra.
Qed.

Lemma F2_length : forall T U (R : T -> U -> Prop) l l', Forall2 R l l' -> length l = length l'.
Proof. intros T U R l l' H. induction H; cbn; [reflexivity|]. f_equal. assumption. Qed.

Lemma normalize_ends : forall low high, length low = length high ->
  exists b0 b1, normalize_action QNum low high (repeat (-1 # 1)%Q (length low)) = Ok b0 /\
    normalize_action QNum low high (repeat 1%Q (length low)) = Ok b1 /\ veq b0 low /\ veq b1 high.
Proof.
  induction low as [|l low IH]; intros [|h high] H; try discriminate.
  - exists [], []. repeat split; constructor.
  - injection H as H. destruct (IH _ H) as (b0 & b1 & H0 & H1 & V0 & V1).
    cbn [length repeat]. rewrite !normalize_cons, H0, H1. cbn [bind].
    eexists _, _. split; [reflexivity|]. split; [reflexivity|].
    split; (constructor; [rewrite qnrm; field|assumption]).
Qed.

Lemma normalize_affine : forall t low high a a' b b',
  normalize_action QNum low high a = Ok b -> normalize_action QNum low high a' = Ok b' ->
  exists c, normalize_action QNum low high (mix t a a') = Ok c /\ veq c (mix t b b').
Proof.
  intros t. induction low as [|l low IH]; intros high a a' b b' H H'.
  - destruct high as [|h high]; [|discriminate]. destruct a; [|discriminate]. destruct a'; [|discriminate].
    injection H as <-. injection H' as <-. exists []. split; [reflexivity|constructor].
  - destruct high as [|h high]; [discriminate|].
    destruct a as [|x a]; [cbn in H; unfold normalize_action in H; cbn [zipw map] in H;
      destruct (zipw (nsub QNum) high low); discriminate|].
    destruct a' as [|x' a']; [cbn in H'; unfold normalize_action in H'; cbn [zipw map] in H';
      destruct (zipw (nsub QNum) high low); discriminate|].
    rewrite normalize_cons in H, H'.
    destruct (normalize_action QNum low high a) as [r|] eqn:Er; [|discriminate].
    destruct (normalize_action QNum low high a') as [r'|] eqn:Er'; [|discriminate].
    injection H as <-. injection H' as <-.
    destruct (IH _ _ _ _ _ Er Er') as (c & Hc & Hv).
    change (mix t (x :: a) (x' :: a')) with (((1 - t) * x + t * x')%Q :: mix t a a').
    rewrite normalize_cons, Hc. eexists. split; [reflexivity|].
    constructor; [|exact Hv]. cbn [fst snd]. rewrite !qnrm. field.
Qed.

(** ** Histories of filtered environments *)
Lemma filtered_run : forall A B O X (E : env B O X) (f : A -> res B) ops ops' (e : est E),
  Forall2 (fun o o' => match o with Reset => o' = Reset | Step a => exists b, f a = Ok b /\ o' = Step b end) ops ops' ->
  run (action_filtered f E) e ops = run E e ops'.
Proof.
  intros A B O X E f ops ops' e H. revert e. induction H as [|o o' ops ops' Ho _ IH]; intros e; [reflexivity|].
  destruct o as [|a].
  - subst o'. cbn [run exec]. cbn [action_filtered ereset].
    destruct (ereset E e) as [[e1 x]|]; [|reflexivity]. cbn [bind]. rewrite IH. reflexivity.
  - destruct Ho as (b & Hb & ->). cbn [run exec]. cbn [action_filtered estep]. rewrite Hb. cbn [bind].
    destruct (estep E e b) as [[e1 x]|]; [|reflexivity]. cbn [bind]. rewrite IH. reflexivity.
Qed.

Lemma normalized_env : forall O X (E : env (list Q) O X) low high ops (e : est E), Forall2 Qle low high ->
  (forall a, In (Step a) ops -> unit_box (length low) a) ->
  exists ops', run (action_filtered (normalize_action QNum low high) E) e ops = run E e ops' /\
    Forall2 (fun o o' => match o with
                         | Reset => o' = Reset
                         | Step a => exists b, normalize_action QNum low high a = Ok b /\ o' = Step b /\ in_box Qle low high b
                         end) ops ops'.
Proof.
  intros O X E low high ops e Hl Ha.
  assert (exists ops', Forall2 (fun o o' => match o with
                         | Reset => o' = Reset
                         | Step a => exists b, normalize_action QNum low high a = Ok b /\ o' = Step b /\ in_box Qle low high b
                         end) ops ops') as (ops' & H).
  { induction ops as [|o ops IH]; [exists []; constructor|].
    destruct IH as (ops' & H); [intros; apply Ha; right; assumption|].
    destruct o as [|a].
    - exists (Reset :: ops'). constructor; auto.
    - destruct (@normalize_into low high Hl a) as (b & Hb & Hbox); [apply Ha; left; reflexivity|].
      exists (Step b :: ops'). constructor; [exists b; auto|exact H]. }
  exists ops'. split; [|exact H]. apply filtered_run.
  clear - H. induction H as [|o o' ops ops' Ho _ IH]; constructor; auto.
  destruct o; auto. destruct Ho as (b & Hb & Ho & _). eauto.
Qed.

(** ** RandomizeAction *)
Ltac use_run IH :=
  lazymatch type of IH with
  | ?L = _ => match goal with |- context [run (randomize_action ?E ?f) ?s ?o] =>
                change (run (randomize_action E f) s o) with L end
  end; rewrite IH.
Lemma randomize_run : forall O X (E : env nat O X) fraction ops d k (e : est E),
  let new j a := if Qltb (fst (d j)) fraction then snd (d j) else a in
  match run E e (replace_actions new k ops) with
  | Ok (e', xs) => exists k', run (randomize_action E fraction) (d, k, e) ops = Ok ((d, k', e'), xs)
  | Raise ex => run (randomize_action E fraction) (d, k, e) ops = Raise ex
  end.
Proof.
  intros O X E fraction ops d k e new. revert k e. induction ops as [|o ops IH]; intros k e.
  - cbn. exists k. reflexivity.
  - destruct o as [|a]; cbn [replace_actions run exec].
    + cbn [randomize_action ereset]. destruct (ereset E e) as [[e1 x]|]; [|reflexivity]. cbn [bind].
      specialize (IH k e1). destruct (run E e1 (replace_actions new k ops)) as [[e' xs]|ex]; cbn [bind].
      * destruct IH as (k' & IH). exists k'. use_run IH. reflexivity.
      * use_run IH. reflexivity.
    + cbn [randomize_action estep]. fold (new k a). destruct (estep E e (new k a)) as [[e1 x]|]; [|reflexivity]. cbn [bind].
      specialize (IH (S k) e1). destruct (run E e1 (replace_actions new (S k) ops)) as [[e' xs]|ex]; cbn [bind].
      * destruct IH as (k' & IH). exists k'. use_run IH. reflexivity.
      * use_run IH. reflexivity.
Qed.

Lemma replace_same : forall A (new : nat -> A -> A) ops k, (forall j a, new j a = a) -> replace_actions new k ops = ops.
Proof. intros A new ops k H. revert k. induction ops as [|[|a] ops IH]; intros k; cbn; rewrite ?IH, ?H; reflexivity. Qed.

Lemma replace_in : forall A B (new : nat -> A -> B) ops k b, In (Step b) (replace_actions new k ops) ->
  exists j a, In (Step a) ops /\ b = new j a.
Proof.
  intros A B new ops. induction ops as [|[|a] ops IH]; intros k b H; cbn in H; [contradiction| |].
  - destruct H as [H|H]; [discriminate|]. destruct (IH _ _ H) as (j & x & Hx & E). exists j, x. split; [right|]; auto.
  - destruct H as [H|H].
    + injection H as <-. exists k, a. split; [left|]; reflexivity.
    + destruct (IH _ _ H) as (j & x & Hx & E). exists j, x. split; [right|]; auto.
Qed.

Lemma randomize_history : forall O X (E : env nat O X) f fraction d, randomize_init f = Ok fraction ->
  (forall ops (e : est E),
   let new j a := if Qltb (fst (d j)) f then snd (d j) else a in
   match run E e (replace_actions new 0 ops) with
   | Ok (e', xs) => exists k', run (randomize_action E fraction) (d, 0, e) ops = Ok ((d, k', e'), xs)
   | Raise ex => run (randomize_action E fraction) (d, 0, e) ops = Raise ex
   end /\
   (forall n, (forall a, In (Step a) ops -> a < n) -> (forall j, snd (d j) < n) ->
      forall b, In (Step b) (replace_actions new 0 ops) -> b < n)) /\
  ((forall j, (0 <= fst (d j) /\ fst (d j) < 1)%Q) ->
   (f == 0 -> forall ops, replace_actions (fun j a => if Qltb (fst (d j)) f then snd (d j) else a) 0 ops = ops)%Q /\
   (f == 1 -> forall j (a : nat), (if Qltb (fst (d j)) f then snd (d j) else a) = snd (d j))%Q).
Proof.
  intros O X E f fraction d Hf. unfold randomize_init in Hf.
  destruct (Qle_bool 0 f && Qle_bool f 1) eqn:Eb; [|discriminate]. injection Hf as <-.
  split.
  - intros ops e new. split; [apply randomize_run|].
    intros n Ha Hd b Hb. destruct (replace_in _ _ _ _ Hb) as (j & a & Hin & ->). unfold new.
    destruct (Qltb _ _); auto.
  - intros Hd. split.
    + intros H0 ops. apply replace_same. intros j a. unfold Qltb.
      replace (Qle_bool f (fst (d j))) with true; [reflexivity|]. symmetry. apply Qle_bool_iff. rewrite H0. apply Hd.
    + intros H1 j a. unfold Qltb.
      destruct (Qle_bool f (fst (d j))) eqn:E1; [|reflexivity]. apply Qle_bool_iff in E1.
      destruct (Hd j) as [_ H2]. rewrite H1 in E1. exfalso. Lqa.lra.
Qed.

Local Open Scope R_scope.

(** ** tanh *)
Lemma tanh_exp : forall x, tanh x = 1 - 2 / (exp (2 * x) + 1).
Proof.
  intros x. unfold tanh, sinh, cosh. replace (2 * x) with (x + x) by ring. rewrite exp_plus, exp_Ropp.
  pose proof (exp_pos x) as H. assert (0 < exp x * exp x) by (apply Rmult_lt_0_compat; exact H).
  field. repeat split; nra.
Qed.

Lemma tanh_bounds : forall x, -1 < tanh x < 1.
Proof.
  intros x. rewrite tanh_exp. pose proof (exp_pos (2 * x)) as H.
  assert (0 < 2 / (exp (2 * x) + 1)) by (apply Rdiv_lt_0_compat; lra).
  assert (2 / (exp (2 * x) + 1) < 2); [|lra].
  apply Rmult_lt_reg_r with (exp (2 * x) + 1); [lra|]. unfold Rdiv.
  rewrite Rmult_assoc, Rinv_l by lra. lra.
Qed.

Lemma tanh_lt : forall x y, x < y -> tanh x < tanh y.
Proof.
  intros x y H. rewrite !tanh_exp. pose proof (exp_pos (2 * x)). pose proof (exp_pos (2 * y)).
  assert (exp (2 * x) < exp (2 * y)) by (apply exp_increasing; lra).
  apply Rplus_lt_compat_l. apply Ropp_lt_contravar. unfold Rdiv. apply Rmult_lt_compat_l; [lra|].
  apply Rinv_lt_contravar; nra.
Qed.

Lemma tanh_onto : forall t, -1 < t < 1 -> exists x, tanh x = t.
Proof.
  intros t H. exists (ln ((1 + t) / (1 - t)) / 2). rewrite tanh_exp.
  replace (2 * (ln ((1 + t) / (1 - t)) / 2)) with (ln ((1 + t) / (1 - t))) by field.
  rewrite exp_ln by (apply Rdiv_lt_0_compat; lra). field. lra.
Qed.

Definition bt (x l h : R) : R := tanh x * ((h - l) / 2) + (h + l) / 2.
Lemma bound_cons : forall x l h xs low high,
  bound_by_tanh (x :: xs) (l :: low) (h :: high)
  = let! r := bound_by_tanh xs low high in Ok (bt x l h :: r).
Proof.
  intros. unfold bound_by_tanh. cbn [zipw map].
  destruct (zipw Rminus high low) as [w|]; [|reflexivity]. cbn [bind map zipw].
  destruct (zipw Rplus high low) as [w'|]; [|reflexivity]. cbn [bind map zipw].
  destruct (zipw Rmult _ _) as [y|]; [|reflexivity]. cbn [bind map zipw].
  destruct (zipw Rplus y _) as [y'|]; reflexivity.
Qed.

Lemma bt_range : forall x l h, l < h -> l < bt x l h < h.
Proof. intros x l h H. unfold bt. pose proof (tanh_bounds x). nra. Qed.

Lemma bound_into : forall low high, Forall2 Rlt low high -> forall x, length x = length low ->
  exists y, bound_by_tanh x low high = Ok y /\ in_box Rlt low high y.
Proof.
  induction 1 as [|l h low high Hlh _ IH]; intros [|x xs] Hx; try discriminate.
  - exists []. split; [reflexivity|constructor].
  - injection Hx as Hx. destruct (IH _ Hx) as (y & Hy & Hbox). rewrite bound_cons, Hy.
    eexists. split; [reflexivity|]. constructor; [|exact Hbox]. apply bt_range. exact Hlh.
Qed.

Lemma bound_onto : forall low high, Forall2 Rlt low high -> forall y, in_box Rlt low high y ->
  exists x, bound_by_tanh x low high = Ok y.
Proof.
  induction 1 as [|l h low high Hlh _ IH]; intros y Hy.
  - inversion Hy; subst. exists []. reflexivity.
  - inversion Hy as [|? ? v ? ? ? [H1 H2] H3]; subst. destruct (IH _ H3) as (xs & Hxs).
    destruct (@tanh_onto ((v - (h + l) / 2) / ((h - l) / 2))) as (x & Hx).
    { assert (0 < (h - l) / 2) by lra.
      assert (E0 : (v - (h + l) / 2) / ((h - l) / 2) * ((h - l) / 2) = v - (h + l) / 2) by (field; lra). split.
      - apply Rmult_lt_reg_r with ((h - l) / 2); [lra|]. rewrite E0. lra.
      - apply Rmult_lt_reg_r with ((h - l) / 2); [lra|]. rewrite E0. lra. }
    exists (x :: xs). rewrite bound_cons, Hxs. cbn [bind]. unfold bt. rewrite Hx. do 2 f_equal. field. lra.
Qed.

(** Larger preactivations give larger values. *)
Lemma bound_mono : forall low high, Forall2 Rlt low high -> forall x x' y y',
  bound_by_tanh x low high = Ok y -> bound_by_tanh x' low high = Ok y' ->
  Forall2 Rlt x x' -> Forall2 Rlt y y'.
Proof.
  induction 1 as [|l h low high Hlh _ IH]; intros x x' y y' Hy Hy' Hx.
  - destruct Hx; [|discriminate]. injection Hy as <-. injection Hy' as <-. constructor.
  - destruct Hx as [|x0 x0' x x' H0 Hx].
    + unfold bound_by_tanh in Hy. cbn [zipw map] in Hy. destruct (zipw Rminus high low); [|discriminate].
      cbn [bind zipw] in Hy. destruct (zipw Rplus high low); discriminate.
    + rewrite bound_cons in Hy, Hy'.
      destruct (bound_by_tanh x low high) as [r|] eqn:Er; [|discriminate].
      destruct (bound_by_tanh x' low high) as [r'|] eqn:Er'; [|discriminate].
      injection Hy as <-. injection Hy' as <-. constructor; [|eapply IH; eauto].
      unfold bt. pose proof (tanh_lt H0). nra.
Qed.

(** ** Clipping *)
Lemma clip_nearest : forall x low high, (match low, high with Some l, Some h => l <= h | _, _ => True end) ->
  nearest low high x (clip x low high).
Proof.
  intros x low high H. unfold nearest, between, clip.
  destruct low as [l|]; destruct high as [h|]; unfold Rmax, Rmin; repeat destruct (Rle_dec _ _);
    repeat split; try lra; intros y' Hy; unfold Rabs; repeat destruct (Rcase_abs _); lra.
Qed.


Lemma zipw_ok : forall X Y Z (f : X -> Y -> Z) xs ys, length xs = length ys ->
  exists zs, zipw f xs ys = Ok zs /\ length zs = length xs /\
    forall i x y, nth_error xs i = Some x -> nth_error ys i = Some y -> nth_error zs i = Some (f x y).
Proof.
  induction xs as [|x xs IH]; intros [|y ys] H; try discriminate.
  - exists []. split; [reflexivity|]. split; [reflexivity|]. intros [|i] ? ? E; discriminate.
  - injection H as H. destruct (IH _ H) as (zs & E & L & N). cbn [zipw]. rewrite E. cbn [bind].
    eexists. split; [reflexivity|]. split; [cbn; lia|].
    intros [|i] x' y' Hx Hy; cbn in *; [congruence|eauto].
Qed.

Lemma nth_some : forall T (l : list T) i, (i < length l)%nat -> exists x, nth_error l i = Some x.
Proof. intros T l i H. destruct (nth_error l i) eqn:E; [eauto|]. apply nth_error_None in E. lia. Qed.

Lemma gaussian_nearest : forall low high a noise, length noise = length a ->
  (match low with Some l => length l = length a | None => True end) ->
  (match high with Some h => length h = length a | None => True end) ->
  (match low, high with Some l, Some h => Forall2 Rle l h | _, _ => True end) ->
  exists b, additive_gaussian low high a noise = Ok b /\ length b = length a /\
    forall i x z, nth_error a i = Some x -> nth_error noise i = Some z ->
      exists y, nth_error b i = Some y /\ nearest (bnd low i) (bnd high i) (x + z) y.
Proof.
  intros low high a noise Hn Hl Hh Hle. unfold additive_gaussian.
  destruct (@zipw_ok _ _ _ Rplus a noise) as (y & Ey & Ly & Ny); [lia|]. rewrite Ey. cbn [bind].
  set (bounds := fun b : option (list R) => match b with Some l => map Some l | None => repeat None (length y) end).
  assert (Hb : forall b, (match b with Some l => length l = length a | None => True end) ->
            length (bounds b) = length y /\ forall i, (i < length y)%nat -> nth_error (bounds b) i = Some (bnd b i)).
  { intros [l|] Hlen; unfold bounds, bnd.
    - rewrite map_length. split; [lia|]. intros i Hi. rewrite nth_error_map.
      destruct (@nth_some _ l i) as (v & Ev); [lia|]. rewrite Ev. reflexivity.
    - rewrite repeat_length. split; [reflexivity|]. intros i Hi. apply nth_error_repeat. exact Hi. }
  assert (Hclip : exists b, (let! z := zipw (fun x l => (x, l)) y (bounds low) in
             zipw (fun p h => clip (fst p) (snd p) h) z (bounds high)) = Ok b /\ length b = length a /\
             forall i x z, nth_error a i = Some x -> nth_error noise i = Some z ->
             nth_error b i = Some (clip (x + z) (bnd low i) (bnd high i))).
  { destruct (Hb low Hl) as [L1 N1]. destruct (Hb high Hh) as [L2 N2].
    destruct (@zipw_ok _ _ _ (fun (x : R) (l : option R) => (x, l)) y (bounds low)) as (q & Eq & Lq & Nq); [lia|].
    rewrite Eq. cbn [bind].
    destruct (@zipw_ok _ _ _ (fun (p : R * option R) h => clip (fst p) (snd p) h) q (bounds high)) as (b & Eb & Lb & Nb); [lia|].
    exists b. split; [exact Eb|]. split; [lia|]. intros i x z Hx Hz.
    assert (Hi : (i < length y)%nat) by (rewrite Ly; apply nth_error_Some; congruence).
    rewrite (Nb i (x + z, bnd low i) (bnd high i)); [reflexivity| |apply N2; exact Hi].
    apply Nq; [|apply N1; exact Hi]. apply Ny; assumption. }
  assert (Hcmp : forall i, match bnd low i, bnd high i with Some l, Some h => l <= h | _, _ => True end).
  { intros i. destruct low as [l|], high as [h|]; cbn; auto.
    - clear -Hle. revert i. induction Hle as [|u v l h H _ IH]; intros [|i]; cbn; auto. apply IH.
    - destruct (nth_error l i); exact I. }
  destruct low as [l|], high as [h|].
  4: { exists y. split; [reflexivity|]. split; [exact Ly|]. intros i x z Hx Hz. exists (x + z).
       split; [apply Ny; assumption|]. split; [repeat split|]. intros y' _. cbn. rewrite Rminus_eq_0, Rabs_R0. apply Rabs_pos. }
  all: destruct Hclip as (b & Eb & Lb & Nb); exists b; split; [exact Eb|]; split; [exact Lb|];
    intros i x z Hx Hz; eexists; split; [apply Nb; eassumption|]; apply clip_nearest; apply Hcmp.
Qed.
