From Coq Require Import Reals List Arith Bool Lia Lra.
From Verif Require Import Base.PyBase Model.Quadratic Model.Distributions Model.ActionMaps Model.Networks Spec.SumSpec Spec.ActionSpec Spec.DistributionSpec Spec.NetworkSpec
  Proofs.RSumFacts Proofs.ActionMapsProofs Proofs.DistributionProofs.
Import ListNotations.
Local Open Scope R_scope.

Lemma lin_len : forall l x, length (lin l x) = a_out l.
Proof. intros. unfold lin. rewrite map_length, seq_length. reflexivity. Qed.
Lemma apply_ok : forall l x, a_in l = Some (length x) -> apply_linear l x = Ok (lin l x).
Proof. intros l x H. unfold apply_linear. rewrite H, Nat.eqb_refl. reflexivity. Qed.
Lemma apply_lazy : forall l x, a_in l = None -> apply_linear l x = Ok (lin l x).
Proof. intros l x H. unfold apply_linear. rewrite H. reflexivity. Qed.
Lemma apply_bad : forall l x n, a_in l = Some n -> length x <> n -> apply_linear l x = Raise TypeError.
Proof. intros l x n H N. unfold apply_linear. rewrite H. destruct (Nat.eqb_spec n (length x)); [congruence|reflexivity]. Qed.

Lemma chain_app : forall a n m b k, chain n a m -> chain m b k -> chain n (a ++ b) k.
Proof. induction a; intros n m b k H1 H2; inversion H1; subst; [exact H2|]. cbn. constructor; [assumption|]. eapply IHa; eassumption. Qed.

Lemma hidden_ok : forall act layers n m x, chain n layers m -> length x = n ->
  exists h, hidden_forward act layers x = Ok h /\ length h = m /\ forall l, perceptron act (layers ++ [l]) x = lin l h.
Proof.
  induction layers as [|l layers IH]; intros n m x C L; inversion C; subst.
  - exists x. cbn. auto.
  - cbn [hidden_forward]. rewrite apply_ok by assumption. cbn [bind].
    destruct (IH (a_out l) m (map act (lin l x))) as (h & E & Lh & P); [assumption|rewrite map_length; apply lin_len|].
    exists h. split; [exact E|]. split; [exact Lh|]. intros l'. cbn [app perceptron]. rewrite <- (P l'). destruct layers; reflexivity.
Qed.
Lemma chain_split : forall a n l m, chain n (a ++ [l]) m -> exists k, chain n a k /\ a_in l = Some k /\ a_out l = m.
Proof.
  induction a as [|b a IH]; intros n l m H; cbn in H; inversion H as [|? ? ? ? A C]; subst.
  - inversion C; subst. exists n. repeat split; [constructor|assumption].
  - destruct (IH _ _ _ C) as (k & C1 & A1 & A2). exists k. split; [constructor; assumption|auto].
Qed.
Lemma mlp_forward_ok : forall act m n o x, chain n (layers_of m) o -> length x = n ->
  mlp_forward act m x = Ok (perceptron act (layers_of m) x) /\ length (perceptron act (layers_of m) x) = o.
Proof.
  intros act m n o x C L. destruct (chain_split _ _ _ _ C) as (k & C1 & A & O). destruct (hidden_ok act _ _ _ _ C1 L) as (h & E & Lh & P).
  unfold mlp_forward, layers_of. rewrite E, P. cbn [bind]. rewrite apply_ok by congruence. split; [reflexivity|]. rewrite lin_len. exact O.
Qed.
Lemma mlp_forward_bad : forall act m n o x, chain n (layers_of m) o -> length x <> n -> mlp_forward act m x = Raise TypeError.
Proof.
  intros act m n o x C L. unfold mlp_forward, layers_of in *. destruct (m_hidden m) as [|l ls]; cbn in C; inversion C; subst; cbn [hidden_forward bind].
  - eapply apply_bad; eassumption.
  - rewrite (apply_bad l x) with (n := n) by assumption. reflexivity.
Qed.

(** Building. *)
Section Build.
  Variable init : nat -> matrix * (nat -> R).
  Definition some2 (p : nat * nat) : option nat * option nat := (Some (fst p), Some (snd p)).
  Lemma new_linears_ok : forall hs n k, exists ls, new_linears init k (map some2 (combine (n :: hs) hs)) = Ok ls /\ chain n ls (last hs n) /\ map a_out ls = hs.
  Proof.
    induction hs as [|h hs IH]; intros n k.
    - exists []. split; [reflexivity|]. split; [constructor|reflexivity].
    - change (map some2 (combine (n :: h :: hs) (h :: hs))) with ((Some n, Some h) :: map some2 (combine (h :: hs) hs)). cbn [new_linears new_linear bind]. destruct (IH h (S k)) as (ls & E & C & O).
      assert (Q : last (h :: hs) n = last hs h). { clear. revert h n. induction hs; intros h n; [reflexivity|]. cbn [last] in *. destruct hs; [reflexivity|]. apply (IHhs h n). }
      rewrite E. cbn [bind]. eexists. split; [reflexivity|]. split; [constructor; [reflexivity|cbn [a_out]; rewrite Q; exact C]|]. cbn. f_equal. exact O.
  Qed.
  Lemma combine_somes : forall a b : list nat, combine (map Some a) (map Some b) = map some2 (combine a b).
  Proof. induction a; intros [|y b]; cbn; [reflexivity..|]. f_equal. apply IHa. Qed.
  Lemma last_somes : forall (l : list nat) d d', l <> [] -> last (map Some l) d = Some (last l d').
  Proof. induction l as [|x l IH]; intros d d' H; [congruence|]. destruct l; [reflexivity|]. apply (IH d d'). discriminate. Qed.
  Lemma build_mlp_ok : forall n o hs, exists m, build_mlp init (Some n) (Some o) (map Some hs) = Ok m /\ chain n (layers_of m) o /\ map a_out (m_hidden m) = hs.
  Proof.
    intros n o [|h hs].
    - cbn. eexists. split; [reflexivity|]. split; [|reflexivity]. repeat constructor.
    - unfold build_mlp. cbn [map]. destruct (new_linears_ok (h :: hs) n 0) as (ls & E & C & O). rewrite combine_somes || idtac.
      change ((Some n, Some h) :: combine (Some h :: map Some hs) (map Some hs)) with (some2 (n, h) :: combine (map Some (h :: hs)) (map Some hs)).
      rewrite combine_somes. change (some2 (n, h) :: map some2 (combine (h :: hs) hs)) with (map some2 (combine (n :: h :: hs) (h :: hs))).
      rewrite E. cbn [bind]. change (Some h :: map Some hs) with (map Some (h :: hs)). rewrite (last_somes (h :: hs) None n) by discriminate. cbn [new_linear bind].
      eexists. split; [reflexivity|]. split; [|exact O]. unfold layers_of. cbn [m_hidden m_output]. eapply chain_app; [exact C|]. constructor; [reflexivity|]. cbn. constructor.
  Qed.
  Lemma hidden_list : forall n_in h n, ((Some n_in, Some h) :: repeat (Some h, Some h) n) = map some2 (combine (n_in :: repeat h (S n)) (repeat h (S n))).
  Proof.
    intros n_in h n. cbn [repeat combine map]. unfold some2 at 1. cbn [fst snd]. f_equal. induction n; [reflexivity|]. cbn [repeat combine map]. f_equal. exact IHn.
  Qed.
  Lemma last_repeat : forall n (h d : nat), last (repeat h (S n)) d = h.
  Proof. induction n; intros h d; [reflexivity|]. cbn [repeat last] in *. apply IHn. Qed.
  Lemma map_repeat' : forall X Y (f : X -> Y) x n, map f (repeat x n) = repeat (f x) n.
  Proof. induction n; cbn; congruence. Qed.
  Lemma a_out_len : forall ls (hs : list nat), map a_out ls = hs -> length ls = length hs.
  Proof. intros. subst. rewrite map_length. reflexivity. Qed.
  Lemma build_gauss_ok : forall n_in a n h t, exists p, build_gauss init n_in a n (Some h) t = Ok p /\
    chain n_in (gp_hidden p ++ [gp_mean p]) a /\ chain n_in (gp_hidden p ++ [gp_var p]) (var_size t a) /\ map a_out (gp_hidden p) = repeat h n.
  Proof.
    intros n_in a [|n] h t.
    - cbn. eexists. split; [reflexivity|]. repeat split; repeat constructor.
    - unfold build_gauss. rewrite hidden_list. destruct (new_linears_ok (repeat h (S n)) n_in 0) as (ls & E & C & O). rewrite E. rewrite last_repeat in C. cbn [bind new_linear].
      eexists. split; [reflexivity|]. cbn [gp_hidden gp_mean gp_var]. split; [|split; [|exact O]]; (eapply chain_app; [exact C|]; constructor; [reflexivity|constructor]).
  Qed.
  Lemma build_gauss_none : forall n_in a h t, exists p, build_gauss init n_in a 0 h t = Ok p /\
    chain n_in (gp_hidden p ++ [gp_mean p]) a /\ chain n_in (gp_hidden p ++ [gp_var p]) (var_size t a) /\ gp_hidden p = [].
  Proof. intros. cbn. eexists. split; [reflexivity|]. repeat split; repeat constructor. Qed.
  Lemma build_independent_ok : forall n_in a n h, exists m, build_independent init n_in a (S n) (Some h) = Ok m /\ chain n_in (layers_of m) a /\ map a_out (m_hidden m) = repeat h (S n).
  Proof.
    intros n_in a n h. unfold build_independent. replace (S n - 1)%nat with n by lia. rewrite hidden_list. destruct (new_linears_ok (repeat h (S n)) n_in 0) as (ls & E & C & O). rewrite E.
    rewrite last_repeat in C. cbn [bind new_linear]. eexists. split; [reflexivity|]. split; [|exact O]. unfold layers_of. cbn [m_hidden m_output]. eapply chain_app; [exact C|]. constructor; [reflexivity|constructor].
  Qed.
  Lemma build_fixed_ok : forall n_in a n h, exists m, build_fixed init n_in a n (Some h) = Ok m /\ chain n_in (layers_of m) a /\ map a_out (m_hidden m) = repeat h n.
  Proof.
    intros n_in a [|n] h; [cbn; eexists; split; [reflexivity|]; split; [repeat constructor|reflexivity]|].
    unfold build_fixed. rewrite hidden_list. destruct (new_linears_ok (repeat h (S n)) n_in 0) as (ls & E & C & O). rewrite E.
    rewrite last_repeat in C. cbn [bind new_linear]. eexists. split; [reflexivity|]. split; [|exact O]. unfold layers_of. cbn [m_hidden m_output]. eapply chain_app; [exact C|]. constructor; [reflexivity|constructor].
  Qed.
End Build.

(** Bounded actions. *)
Lemma deterministic_ok : forall act low high m n x, Forall2 Rlt low high -> chain n (layers_of m) (length low) -> length x = n ->
  exists y, deterministic_policy act (Some (low, high)) m x = Ok y /\ in_box Rlt low high y.
Proof.
  intros act low high m n x B C L. unfold deterministic_policy. destruct (mlp_forward_ok act m _ _ _ C L) as [E Ll]. rewrite E. cbn [bind]. apply bound_into; assumption.
Qed.

Lemma softplus_pos : forall x, 0 < softplus x.
Proof. intros x. unfold softplus. rewrite <- ln_1 at 1. apply ln_increasing; pose proof (exp_pos x); lra. Qed.

Lemma box_len : forall low high y : vec, in_box Rlt low high y -> length y = length low.
Proof. intros low high y H. induction H; cbn; congruence. Qed.
Lemma bound_ok : forall bound a (y : vec), bounds_ok bound a -> length y = a ->
  exists mean : vec, match bound with Some (low, high) => bound_by_tanh y low high | None => Ok y end = Ok mean /\ length mean = a /\ within_bounds bound mean.
Proof.
  intros [[low high]|] a y B L; [|exists y; cbn; auto]. destruct B as [B La]. destruct (@bound_into low high B y) as (m & E & I); [congruence|].
  exists m. split; [exact E|]. split; [rewrite (box_len _ _ _ I); exact La|exact I].
Qed.
Lemma broadcast_ok : forall t a v, length v = var_size t a -> exists w, broadcast_to v a = Ok w /\ length w = a /\ forall s, In s w -> In s v.
Proof.
  intros t a v L. unfold broadcast_to. destruct (Nat.eqb_spec (length v) a) as [Q|Q]; [exists v; auto|].
  destruct t; cbn in L; [|congruence]. destruct v as [|s [|]]; try discriminate. exists (repeat s a). split; [reflexivity|]. split; [apply repeat_length|].
  intros z Hz. apply repeat_spec in Hz. subst. left. reflexivity.
Qed.
Lemma gauss_ok : forall act bound min_var p n_in a t x, chain n_in (gp_hidden p ++ [gp_mean p]) a -> chain n_in (gp_hidden p ++ [gp_var p]) (var_size t a) -> bounds_ok bound a -> length x = n_in ->
  exists mean var, gauss_forward act bound min_var p x = Ok (mean, var) /\ length mean = a /\ length var = a /\ within_bounds bound mean /\ (forall v, In v var -> min_var < v) /\
    (bound = None -> mean = perceptron act (gp_hidden p ++ [gp_mean p]) x).
Proof.
  intros act bound min_var p n_in a t x C1 C2 B L. destruct (chain_split _ _ _ _ C1) as (k & K1 & A1 & O1). destruct (chain_split _ _ _ _ C2) as (k' & K2 & A2 & O2).
  assert (U : forall ls n m m', chain n ls m -> chain n ls m' -> m = m'). { clear. induction ls; intros n m m' H1 H2; inversion H1; inversion H2; subst; [reflexivity|]. eapply IHls; eassumption. }
  rewrite (U _ _ _ _ K2 K1) in A2. destruct (hidden_ok act _ _ _ _ K1 L) as (h & E & Lh & P). unfold gauss_forward. rewrite E. cbn [bind].
  rewrite apply_ok by congruence. cbn [bind]. destruct (bound_ok bound a (lin (gp_mean p) h) B) as (mean & Em & Lm & Wm); [rewrite lin_len; exact O1|]. rewrite Em. cbn [bind].
  rewrite apply_ok by congruence. cbn [bind]. destruct (broadcast_ok t a (map softplus (lin (gp_var p) h))) as (w & Ew & Lw & Iw); [rewrite map_length, lin_len; exact O2|]. rewrite Lm, Ew. cbn [bind].
  eexists mean, _. split; [reflexivity|]. split; [exact Lm|]. split; [rewrite map_length; exact Lw|]. split; [exact Wm|]. split.
  - intros v Hv. apply in_map_iff in Hv. destruct Hv as (s & <- & Hs). apply Iw in Hs. apply in_map_iff in Hs. destruct Hs as (z & <- & _). pose proof (softplus_pos z). lra.
  - intros ->. rewrite P. injection Em as <-. reflexivity.
Qed.
Lemma independent_ok : forall act bound var_func param m n_in a t x, chain n_in (layers_of m) a -> length param = var_size t a -> (forall z, 0 < var_func z) -> bounds_ok bound a -> length x = n_in ->
  exists mean var, independent_forward act bound var_func param m x = Ok (mean, var) /\ length mean = a /\ length var = a /\ within_bounds bound mean /\ (forall v, In v var -> 0 < v) /\
    (bound = None -> mean = perceptron act (layers_of m) x).
Proof.
  intros act bound var_func param m n_in a t x C Lp VP B L. unfold independent_forward, deterministic_policy. destruct (mlp_forward_ok act m _ _ _ C L) as [E Ll]. rewrite E. cbn [bind].
  destruct (bound_ok bound a _ B Ll) as (mean & Em & Lm & Wm). rewrite Em. cbn [bind]. destruct (broadcast_ok t a (map var_func param)) as (w & Ew & Lw & Iw); [rewrite map_length; exact Lp|]. rewrite Lm, Ew. cbn [bind].
  exists mean, w. split; [reflexivity|]. split; [exact Lm|]. split; [exact Lw|]. split; [exact Wm|]. split.
  - intros v Hv. apply Iw, in_map_iff in Hv. destruct Hv as (s & <- & _). apply VP.
  - intros ->. injection Em as <-. reflexivity.
Qed.

(** Affine functions. *)
Lemma blend_len : forall t x y, length x = length y -> length (blend t x y) = length x.
Proof. intros t. unfold blend. induction x; intros [|b y] H; cbn in *; try discriminate; [reflexivity|]. f_equal. apply IHx. lia. Qed.
Lemma blend_nth : forall t x y j, length x = length y -> nth j (blend t x y) 0 = (1 - t) * nth j x 0 + t * nth j y 0.
Proof.
  intros t. unfold blend. induction x as [|a x IH]; intros [|b y] j H; cbn in *; try discriminate; [destruct j; ring|].
  destruct j; [reflexivity|]. apply IH. lia.
Qed.
Lemma vec_ext : forall x y : vec, length x = length y -> (forall j, (j < length x)%nat -> nth j x 0 = nth j y 0) -> x = y.
Proof. intros x y L H. apply (nth_ext x y 0 0 L H). Qed.
Lemma lin_nth : forall l x i, (i < a_out l)%nat -> nth i (lin l x) 0 = sum_below (length x) (fun j => a_W l i j * nth j x 0) + a_b l i.
Proof.
  intros l x i H. unfold lin. set (f := fun i => sum_below (length x) (fun j => a_W l i j * nth j x 0) + a_b l i).
  rewrite (nth_indep _ 0 (f 0%nat)) by (rewrite map_length, seq_length; exact H). rewrite (map_nth f), seq_nth by exact H. reflexivity.
Qed.
Lemma lin_affine : forall l t x y, length x = length y -> lin l (blend t x y) = blend t (lin l x) (lin l y).
Proof.
  intros l t x y L. apply vec_ext; [rewrite blend_len by (rewrite !lin_len; reflexivity); rewrite !lin_len; reflexivity|].
  intros i Hi. rewrite lin_len in Hi. rewrite blend_nth by (rewrite !lin_len; reflexivity). rewrite !lin_nth by exact Hi. rewrite blend_len by exact L. rewrite <- L.
  assert (Q : sum_below (length x) (fun j => a_W l i j * nth j (blend t x y) 0) =
    (1 - t) * sum_below (length x) (fun j => a_W l i j * nth j x 0) + t * sum_below (length x) (fun j => a_W l i j * nth j y 0)).
  { generalize (length x). intros n. induction n as [|n IH]; cbn [sum_below]; [ring|]. rewrite IH, blend_nth by exact L. ring. }
  rewrite Q. ring.
Qed.
Lemma no_hidden_affine : forall act m n o, m_hidden m = [] -> chain n (layers_of m) o -> affine_function n (mlp_forward act m).
Proof.
  intros act m n o H C x y t Lx Ly. unfold layers_of in C. rewrite H in C. inversion C; subst. unfold mlp_forward. rewrite H. cbn [hidden_forward bind].
  exists (lin (m_output m) x), (lin (m_output m) y). rewrite !apply_ok by (rewrite ?blend_len by congruence; congruence). rewrite lin_affine by congruence. auto.
Qed.
Lemma gauss_affine : forall act min_var p n_in a t x y s, gp_hidden p = [] -> chain n_in (gp_hidden p ++ [gp_mean p]) a -> chain n_in (gp_hidden p ++ [gp_var p]) (var_size t a) ->
  length x = n_in -> length y = n_in -> exists mx vx my vy mb vb, gauss_forward act None min_var p x = Ok (mx, vx) /\ gauss_forward act None min_var p y = Ok (my, vy) /\
    gauss_forward act None min_var p (blend s x y) = Ok (mb, vb) /\ mb = blend s mx my.
Proof.
  intros act min_var p n_in a t x y s H C1 C2 Lx Ly.
  destruct (gauss_ok act None min_var p n_in a t x C1 C2 I Lx) as (mx & vx & E1 & _ & _ & _ & _ & P1).
  destruct (gauss_ok act None min_var p n_in a t y C1 C2 I Ly) as (my & vy & E2 & _ & _ & _ & _ & P2).
  destruct (gauss_ok act None min_var p n_in a t (blend s x y) C1 C2 I) as (mb & vb & E3 & _ & _ & _ & _ & P3); [rewrite blend_len; congruence|].
  exists mx, vx, my, vy, mb, vb. repeat split; auto. rewrite P1, P2, P3 by reflexivity. rewrite H. cbn [app perceptron]. apply lin_affine. congruence.
Qed.

(** The state-independent policy without hidden layers has one. *)
Lemma independent_zero : forall init n_in a, exists m l, build_independent init n_in a 0 None = Ok m /\ m_hidden m = [l] /\ a_out l = n_in /\
  forall act x, mlp_forward act m x = Ok (perceptron act (layers_of m) x).
Proof.
  intros init n_in a. unfold build_independent. cbn. eexists _, _. split; [reflexivity|]. split; [reflexivity|]. split; [reflexivity|].
  intros act x. unfold mlp_forward. cbn [m_hidden hidden_forward m_output]. rewrite apply_lazy by reflexivity. cbn [bind]. rewrite apply_lazy by reflexivity. reflexivity.
Qed.
Lemma independent_zero_not_affine : exists init m, build_independent init 1 1 0 None = Ok m /\ ~ affine_function 1 (mlp_forward (Rmax 0) m).
Proof.
  exists (fun _ => (fun _ _ => 1, fun _ => 0)). eexists. split; [reflexivity|]. intros H. destruct (H [-1] [1] (/ 2) eq_refl eq_refl) as (fx & fy & E1 & E2 & E3).
  cbn in E1, E2, E3. injection E1 as <-. injection E2 as <-. injection E3 as E3. revert E3. unfold Rmax. repeat destruct Rle_dec; lra.
Qed.

(** Late actions. *)
Lemma late_ok : forall act init init' n_obs n_action h n, exists q, build_late init init' n_obs n_action h (S n) = Ok q /\
  forall s a, length s = n_obs -> length a = n_action -> exists v, late_forward act q s a = Ok [v] /\ [v] = perceptron act (layers_of (lq_mlp q)) (map act (perceptron act (layers_of (lq_obs q)) s) ++ a).
Proof.
  intros act init init' n_obs n_action h n. unfold build_late. cbn [Nat.leb]. destruct (build_mlp_ok init n_obs h []) as (o & Eo & Co & _). cbn [map] in Eo. rewrite Eo. cbn [bind].
  replace (S n - 1)%nat with n by lia. destruct (build_mlp_ok init' (h + n_action) 1 (repeat h n)) as (m & Em & Cm & _). rewrite map_repeat' in Em. rewrite Em. cbn [bind].
  eexists. split; [reflexivity|]. intros s a Ls La. unfold late_forward. cbn [lq_obs lq_mlp]. destruct (mlp_forward_ok act o _ _ _ Co Ls) as [E L]. rewrite E. cbn [bind].
  destruct (mlp_forward_ok act m _ _ (map act (perceptron act (layers_of o) s) ++ a) Cm) as [E2 L2]; [rewrite app_length, map_length; lia|]. rewrite E2.
  destruct (perceptron act (layers_of m) _) as [|v [|]]; try discriminate. eexists. split; reflexivity.
Qed.
Lemma sum_below_app : forall n m f, sum_below (n + m) f = sum_below n f + sum_below m (fun j => f (n + j)%nat).
Proof. intros n. induction m as [|m IH]; intros f; [rewrite Nat.add_0_r; cbn; ring|]. rewrite Nat.add_succ_r. cbn [sum_below]. rewrite IH. ring. Qed.
Lemma late_one : forall act init init' n_obs n_action h q s s' a a', build_late init init' n_obs n_action h 1 = Ok q ->
  length s = n_obs -> length s' = n_obs -> length a = n_action -> length a' = n_action ->
  exists v1 v2 v3 v4, late_forward act q s a = Ok [v1] /\ late_forward act q s a' = Ok [v2] /\ late_forward act q s' a = Ok [v3] /\ late_forward act q s' a' = Ok [v4] /\ v1 - v2 = v3 - v4.
Proof.
  intros act init init' n_obs n_action h q s s' a a' E Ls Ls' La La'. unfold build_late in E. cbn in E. injection E as <-.
  assert (F : forall t b, length t = n_obs -> length b = n_action -> exists c, late_forward act (mk_late (mk_mlp [] (mk_affine (Some n_obs) h (fst (init 0%nat)) (snd (init 0%nat)))) (mk_mlp [] (mk_affine (Some (h + n_action)%nat) 1 (fst (init' 0%nat)) (snd (init' 0%nat))))) t b =
     Ok [c + sum_below n_action (fun j => fst (init' 0%nat) 0%nat (h + j)%nat * nth j b 0)] /\ forall b', length b' = n_action -> late_forward act (mk_late (mk_mlp [] (mk_affine (Some n_obs) h (fst (init 0%nat)) (snd (init 0%nat)))) (mk_mlp [] (mk_affine (Some (h + n_action)%nat) 1 (fst (init' 0%nat)) (snd (init' 0%nat))))) t b' =
     Ok [c + sum_below n_action (fun j => fst (init' 0%nat) 0%nat (h + j)%nat * nth j b' 0)]).
  { intros t b Lt Lb. set (l1 := mk_affine (Some n_obs) h (fst (init 0%nat)) (snd (init 0%nat))). set (l2 := mk_affine (Some (h + n_action)%nat) 1 (fst (init' 0%nat)) (snd (init' 0%nat))).
    set (g := map act (lin l1 t)). assert (Lg : length g = h) by (unfold g; rewrite map_length, lin_len; reflexivity).
    assert (G : forall b', length b' = n_action -> late_forward act (mk_late (mk_mlp [] l1) (mk_mlp [] l2)) t b' =
      Ok [(sum_below h (fun j => fst (init' 0%nat) 0%nat j * nth j g 0) + snd (init' 0%nat) 0%nat) + sum_below n_action (fun j => fst (init' 0%nat) 0%nat (h + j)%nat * nth j b' 0)]).
    { intros b' Lb'. unfold late_forward, mlp_forward. cbn [lq_obs lq_mlp m_hidden m_output hidden_forward bind]. rewrite (apply_ok l1) by (cbn; congruence). cbn [bind]. fold g.
      change (map act (lin l1 t)) with g. rewrite (apply_ok l2 (g ++ b')) by (rewrite app_length, Lg, Lb'; reflexivity). f_equal. unfold lin. cbn [a_out l2 seq map a_W a_b]. rewrite app_length, Lg, Lb', sum_below_app.
      rewrite (below_ext h (fun j => fst (init' 0%nat) 0%nat j * nth j (g ++ b') 0) (fun j => fst (init' 0%nat) 0%nat j * nth j g 0)) by (intros j Hj; rewrite app_nth1 by lia; reflexivity).
      rewrite (below_ext n_action (fun j => fst (init' 0%nat) 0%nat (h + j)%nat * nth (h + j) (g ++ b') 0) (fun j => fst (init' 0%nat) 0%nat (h + j)%nat * nth j b' 0)).
      - f_equal. ring.
      - intros j Hj. rewrite app_nth2 by lia. replace (h + j - length g)%nat with j by lia. reflexivity. }
    eexists. split; [apply G, Lb|exact G]. }
  destruct (F s a Ls La) as (c & E1 & G1). destruct (F s' a Ls' La) as (c' & E3 & G3). rewrite E1, E3, (G1 a' La'), (G3 a' La'). do 4 eexists. repeat split; try reflexivity. ring.
Qed.

(** Distributional values. *)
Lemma reshape_ok : forall n w x, length x = (n * w)%nat -> length (reshape n w x) = n /\ forall r, In r (reshape n w x) -> length r = w.
Proof.
  induction n as [|n IH]; intros w x L; [split; [reflexivity|intros r []]|]. cbn [reshape length]. destruct (IH w (skipn w x)) as [A B]; [rewrite skipn_length; cbn in L; lia|].
  split; [congruence|]. intros r [<-|Hr]; [rewrite firstn_length; cbn in L; lia|auto].
Qed.
Lemma atom_bounds : forall p z lo hi, length p = length z -> probability p -> (forall v, In v z -> lo <= v <= hi) -> lo <= atom_mean z p <= hi.
Proof.
  intros p z lo hi L [NN S] B. unfold atom_mean.
  assert (G : forall p z, length p = length z -> (forall x, In x p -> 0 <= x) -> (forall v, In v z -> lo <= v <= hi) ->
    lo * total_of (fun x => x) p <= fsum (zipr Rmult p z) <= hi * total_of (fun x => x) p).
  { clear. induction p as [|x p IH]; intros [|v z] L NN B; cbn in *; try discriminate; [lra|]. destruct (IH z) as [I1 I2]; [lia|intros; apply NN; auto|intros; apply B; auto|].
    pose proof (NN x (or_introl eq_refl)). pose proof (B v (or_introl eq_refl)). assert (lo * x <= x * v) by nra. assert (x * v <= hi * x) by nra. unfold total_of, fsum in *. rewrite !Rmult_plus_distr_l. lra. }
  specialize (G p z L NN B). rewrite S in G. lra.
Qed.
Lemma linspace_bounds : forall lo hi n v, (2 <= n)%nat -> lo < hi -> In v (linspace lo hi n) -> lo <= v <= hi.
Proof.
  intros lo hi n v Hn H Hv. unfold linspace in Hv. apply in_map_iff in Hv. destruct Hv as (i & <- & Hi). apply in_seq in Hi.
  assert (P : 0 < INR (n - 1)) by (apply lt_0_INR; lia). assert (A : 0 <= INR i) by apply pos_INR. assert (B : INR i <= INR (n - 1)) by (apply le_INR; lia).
  assert (Q : INR i * ((hi - lo) / INR (n - 1)) = (INR i / INR (n - 1)) * (hi - lo)) by (field; lra). rewrite Q.
  assert (0 <= INR i / INR (n - 1) <= 1). { split; [apply Rmult_le_pos; [exact A|left; apply Rinv_0_lt_compat, P]|]. apply (Rmult_le_reg_r (INR (n - 1))); [exact P|]. unfold Rdiv. rewrite Rmult_assoc, Rinv_l by lra. lra. }
  nra.
Qed.
Lemma linspace_ends : forall lo hi n, (2 <= n)%nat -> length (linspace lo hi n) = n /\ nth 0 (linspace lo hi n) 0 = lo /\ nth (n - 1) (linspace lo hi n) 0 = hi /\
  forall i, (S i < n)%nat -> nth (S i) (linspace lo hi n) 0 - nth i (linspace lo hi n) 0 = (hi - lo) / INR (n - 1).
Proof.
  intros lo hi n Hn. assert (P : 0 < INR (n - 1)) by (apply lt_0_INR; lia).
  assert (N : forall i, (i < n)%nat -> nth i (linspace lo hi n) 0 = lo + INR i * ((hi - lo) / INR (n - 1))).
  { intros i Hi. unfold linspace. set (f := fun i => lo + INR i * ((hi - lo) / INR (n - 1))). rewrite (nth_indep _ 0 (f 0%nat)) by (rewrite map_length, seq_length; exact Hi). rewrite (map_nth f), seq_nth by exact Hi. reflexivity. }
  split; [unfold linspace; rewrite map_length, seq_length; reflexivity|]. split; [rewrite N by lia; cbn; ring|]. split; [rewrite N by lia; field; lra|].
  intros i Hi. rewrite !N by lia. rewrite S_INR. ring.
Qed.
Lemma distributional_ok : forall act init n_obs n_actions n_atoms v_min v_max h n, (2 <= n_atoms)%nat -> v_min < v_max ->
  exists m z, build_distributional init n_obs n_actions n_atoms v_min v_max h n = Ok (m, z) /\ z = linspace v_min v_max n_atoms /\
  forall x, length x = n_obs -> exists rows, distributional_forward act n_actions n_atoms m x = Ok rows /\ length rows = n_actions /\
    forall r, In r rows -> length r = n_atoms /\ probability r /\ (forall p, In p r -> 0 < p) /\ v_min <= atom_mean z r <= v_max.
Proof.
  intros act init n_obs n_actions n_atoms v_min v_max h n Hn Hv. unfold build_distributional. destruct (Nat.leb_spec 2 n_atoms); [|lia]. destruct (Rlt_dec v_min v_max) as [lt|]; [|contradiction].
  destruct (build_mlp_ok init n_obs (n_actions * n_atoms) (repeat h n)) as (m & Em & Cm & _). rewrite map_repeat' in Em. rewrite Em. cbn [bind].
  eexists m, _. split; [reflexivity|]. split; [reflexivity|]. intros x Lx. unfold distributional_forward. destruct (mlp_forward_ok act m _ _ _ Cm Lx) as [E L]. rewrite E. cbn [bind].
  destruct (reshape_ok n_actions n_atoms _ L) as [A B]. eexists. split; [reflexivity|]. split; [rewrite map_length; exact A|]. intros r Hr. apply in_map_iff in Hr. destruct Hr as (u & <- & Hu).
  pose proof (B u Hu) as Lu. assert (NE : u <> []) by (intros ->; cbn in Lu; lia). split; [rewrite softmax_len; exact Lu|]. split; [apply softmax_prob, NE|]. split; [intros p Hp; apply (softmax_pos u NE p Hp)|].
  apply atom_bounds; [rewrite softmax_len, Lu; symmetry; apply linspace_ends; exact Hn|apply softmax_prob, NE|]. intros v Hvv. apply (linspace_bounds _ _ n_atoms); assumption.
Qed.

(** Batch normalisation outside training is affine. *)
Lemma indexed_len : forall X Y (f : nat -> X -> Y) l k, length (indexed f k l) = length l.
Proof. induction l; intros; cbn; auto. Qed.
Lemma bn_len : forall b x, length (apply_bn b x) = length x.
Proof. intros. apply indexed_len. Qed.
Lemma bn_affine : forall b t x y, length x = length y -> apply_bn b (blend t x y) = blend t (apply_bn b x) (apply_bn b y).
Proof.
  intros b t. unfold apply_bn, blend. generalize 0%nat. intros k x. revert k. induction x as [|u x IH]; intros k [|v y] L; cbn in *; try discriminate; [reflexivity|].
  f_equal; [unfold Rdiv; ring|]. apply IH. lia.
Qed.
Lemma bnq_one : forall act q n k a, mb_hidden (nq_hidden q) = [] -> a_in (mb_output (nq_hidden q)) = Some n -> a_out (mb_output (nq_hidden q)) = k ->
  a_in (nq_v q) = Some k -> a_in (nq_mu q) = Some k -> a_out (nq_mu q) = a ->
  forall x y t, length x = n -> length y = n -> exists vx mx vy my, bnq_forward act q x = Ok (vx, mx) /\ bnq_forward act q y = Ok (vy, my) /\ bnq_forward act q (blend t x y) = Ok (blend t vx vy, blend t mx my).
Proof.
  intros act q n k a H A1 O1 A2 A3 O3 x y t Lx Ly.
  assert (G : forall z, length z = n -> bnq_forward act q z = Ok (let w := match mb_input (nq_hidden q) with Some b => apply_bn b z | None => z end in (lin (nq_v q) (lin (mb_output (nq_hidden q)) w), lin (nq_mu q) (lin (mb_output (nq_hidden q)) w)))).
  { intros z Lz. unfold bnq_forward, mlpbn_forward. rewrite H. cbn [hidden_bn_forward bind]. set (w := match mb_input (nq_hidden q) with Some b => apply_bn b z | None => z end).
    assert (Lw : length w = n) by (unfold w; destruct (mb_input (nq_hidden q)); rewrite ?bn_len; exact Lz).
    rewrite apply_ok by congruence. cbn [bind]. rewrite apply_ok by (rewrite lin_len; congruence). cbn [bind]. rewrite apply_ok by (rewrite lin_len; congruence). reflexivity. }
  rewrite (G x Lx), (G y Ly), G by (rewrite blend_len; congruence). cbv zeta. do 4 eexists. split; [reflexivity|]. split; [reflexivity|].
  assert (Q : match mb_input (nq_hidden q) with Some b => apply_bn b (blend t x y) | None => blend t x y end =
    blend t (match mb_input (nq_hidden q) with Some b => apply_bn b x | None => x end) (match mb_input (nq_hidden q) with Some b => apply_bn b y | None => y end)).
  { destruct (mb_input (nq_hidden q)); [apply bn_affine; congruence|reflexivity]. }
  rewrite Q. set (wx := match mb_input (nq_hidden q) with Some b => apply_bn b x | None => x end). set (wy := match mb_input (nq_hidden q) with Some b => apply_bn b y | None => y end).
  assert (LW : length wx = length wy) by (unfold wx, wy; destruct (mb_input (nq_hidden q)); rewrite ?bn_len; congruence).
  rewrite (lin_affine (mb_output (nq_hidden q))) by exact LW. rewrite !lin_affine by (rewrite !lin_len; reflexivity). reflexivity.
Qed.

(** The documented formula of the bounded mean. *)
Lemma documented_mean : forall y low high, low < high -> bound_by_tanh [y] [low] [high] = Ok [low + (high - low) / 2 + tanh y * ((high - low) / 2)] /\
  low + (high - low) / 2 + tanh y * ((high - low) / 2) <> low + tanh y * (high - low) / 2.
Proof. intros y low high H. split; [cbn; f_equal; f_equal; field|]. intros Q. assert ((high - low) / 2 = 0) by lra. lra. Qed.

(** The heads for images. *)
Local Open Scope nat_scope.
Lemma conv_out_ok : forall s k st n, 0 < st -> 0 < n -> (conv_out s k st = Some n <-> k + (n - 1) * st <= s < k + n * st).
Proof.
  intros s k st n Hs Hn. unfold conv_out. destruct (Nat.leb_spec k s).
  - pose proof (Nat.div_mod (s - k) st). pose proof (Nat.mod_upper_bound (s - k) st). split.
    + intros [= <-]. nia.
    + intros B. f_equal. assert ((s - k) / st = n - 1); [|lia]. symmetry. apply Nat.div_unique with (r := (s - k) - (n - 1) * st); nia.
  - split; [discriminate|]. nia.
Qed.
Lemma conv_pos : forall s k st n, conv_out s k st = Some n -> 0 < n.
Proof. intros s k st n. unfold conv_out. destruct (Nat.leb k s); [|discriminate]. intros [= <-]. rewrite Nat.add_1_r. apply Nat.lt_0_succ. Qed.
Lemma nature_square : forall s, nature_accepts s s = true <-> 84 <= s <= 91.
Proof.
  intros s. unfold nature_accepts, conv_map. destruct (conv_out s 8 4) as [a|] eqn:E1.
  - destruct (conv_out a 4 2) as [b|] eqn:E2.
    + destruct (conv_out b 3 1) as [c|] eqn:E3.
      * pose proof (conv_pos _ _ _ _ E1). pose proof (conv_pos _ _ _ _ E2). pose proof (conv_pos _ _ _ _ E3).
        apply conv_out_ok in E1; [|lia..]. apply conv_out_ok in E2; [|lia..]. apply conv_out_ok in E3; [|lia..]. rewrite Nat.eqb_eq. split; intros Q; [assert (c = 7) by nia; lia|]. assert (c = 7) by lia. subst c. reflexivity.
      * split; [discriminate|]. intros Q. exfalso. unfold conv_out in E3. destruct (Nat.leb_spec 3 b); [discriminate|]. pose proof (conv_pos _ _ _ _ E1). pose proof (conv_pos _ _ _ _ E2).
        apply conv_out_ok in E1; [|lia..]. apply conv_out_ok in E2; lia.
    + split; [discriminate|]. intros Q. exfalso. unfold conv_out in E2. destruct (Nat.leb_spec 4 a); [discriminate|]. pose proof (conv_pos _ _ _ _ E1). apply conv_out_ok in E1; lia.
  - split; [discriminate|]. intros Q. exfalso. unfold conv_out in E1. destruct (Nat.leb_spec 8 s); [discriminate|]. lia.
Qed.
Lemma nips_square : forall s, nips_accepts s s = true <-> 84 <= s <= 91.
Proof.
  intros s. unfold nips_accepts, conv_map. destruct (conv_out s 8 4) as [a|] eqn:E1.
  - destruct (conv_out a 4 2) as [b|] eqn:E2.
    + pose proof (conv_pos _ _ _ _ E1). pose proof (conv_pos _ _ _ _ E2).
      apply conv_out_ok in E1; [|lia..]. apply conv_out_ok in E2; [|lia..]. rewrite Nat.eqb_eq. split; intros Q; [assert (b = 9) by nia; lia|]. assert (b = 9) by lia. subst b. reflexivity.
    + split; [discriminate|]. intros Q. exfalso. unfold conv_out in E2. destruct (Nat.leb_spec 4 a); [discriminate|]. pose proof (conv_pos _ _ _ _ E1). apply conv_out_ok in E1; lia.
  - split; [discriminate|]. intros Q. exfalso. unfold conv_out in E1. destruct (Nat.leb_spec 8 s); [discriminate|]. lia.
Qed.
Local Close Scope nat_scope.

(** The statements in terms of the constructors. *)
Lemma mlp_ok : forall init n o hs, exists m, build_mlp init (Some n) (Some o) (map Some hs) = Ok m /\ chain n (layers_of m) o /\ map a_out (m_hidden m) = hs /\
  forall act x, (length x = n -> mlp_forward act m x = Ok (perceptron act (layers_of m) x) /\ length (perceptron act (layers_of m) x) = o) /\
    (length x <> n -> mlp_forward act m x = Raise TypeError).
Proof.
  intros init n o hs. destruct (build_mlp_ok init n o hs) as (m & E & C & O). exists m. do 3 (split; [assumption|]). intros act x.
  split; intros L; [apply (mlp_forward_ok act m n o x C L)|apply (mlp_forward_bad act m n o x C L)].
Qed.
Lemma gauss_built : forall init n_in a n h t, exists p, build_gauss init n_in a n (Some h) t = Ok p /\ map a_out (gp_hidden p) = repeat h n /\
  forall act bound min_var x, bounds_ok bound a -> length x = n_in ->
  exists mean var, gauss_forward act bound min_var p x = Ok (mean, var) /\ length mean = a /\ length var = a /\ within_bounds bound mean /\ (forall v, In v var -> min_var < v) /\
    (bound = None -> mean = perceptron act (gp_hidden p ++ [gp_mean p]) x).
Proof.
  intros init n_in a n h t. destruct (build_gauss_ok init n_in a n h t) as (p & E & C1 & C2 & O). exists p. split; [exact E|]. split; [exact O|].
  intros act bound min_var x B L. apply (gauss_ok act bound min_var p n_in a t x C1 C2 B L).
Qed.
Lemma independent_built : forall init n_in a n h, exists m, build_independent init n_in a (S n) (Some h) = Ok m /\ map a_out (m_hidden m) = repeat h (S n) /\
  forall act bound var_func param t x, length param = var_size t a -> (forall z, 0 < var_func z) -> bounds_ok bound a -> length x = n_in ->
  exists mean var, independent_forward act bound var_func param m x = Ok (mean, var) /\ length mean = a /\ length var = a /\ within_bounds bound mean /\ (forall v, In v var -> 0 < v) /\
    (bound = None -> mean = perceptron act (layers_of m) x).
Proof.
  intros init n_in a n h. destruct (build_independent_ok init n_in a n h) as (m & E & C & O). exists m. split; [exact E|]. split; [exact O|].
  intros act bound var_func param t x Lp VP B L. apply (independent_ok act bound var_func param m n_in a t x C Lp VP B L).
Qed.
Lemma fixed_built : forall init n_in a n h, exists m, build_fixed init n_in a n (Some h) = Ok m /\ map a_out (m_hidden m) = repeat h n /\
  forall act bound x, bounds_ok bound a -> length x = n_in ->
  exists mean, deterministic_policy act bound m x = Ok mean /\ length mean = a /\ within_bounds bound mean /\ (bound = None -> mean = perceptron act (layers_of m) x).
Proof.
  intros init n_in a n h. destruct (build_fixed_ok init n_in a n h) as (m & E & C & O). exists m. split; [exact E|]. split; [exact O|].
  intros act bound x B L. unfold deterministic_policy. destruct (mlp_forward_ok act m _ _ _ C L) as [F Ll]. rewrite F. cbn [bind]. destruct (bound_ok bound a _ B Ll) as (mean & Em & Lm & Wm).
  exists mean. split; [exact Em|]. split; [exact Lm|]. split; [exact Wm|]. intros ->. injection Em as <-. reflexivity.
Qed.
Lemma gauss_none_affine : forall init n_in a h t act min_var, exists p, build_gauss init n_in a 0 h t = Ok p /\
  forall x y s, length x = n_in -> length y = n_in -> exists mx vx my vy vb, gauss_forward act None min_var p x = Ok (mx, vx) /\ gauss_forward act None min_var p y = Ok (my, vy) /\
    gauss_forward act None min_var p (blend s x y) = Ok (blend s mx my, vb).
Proof.
  intros init n_in a h t act min_var. destruct (build_gauss_none init n_in a h t) as (p & E & C1 & C2 & O). exists p. split; [exact E|]. intros x y s Lx Ly.
  destruct (gauss_affine act min_var p n_in a t x y s O C1 C2 Lx Ly) as (mx & vx & my & vy & mb & vb & E1 & E2 & E3 & ->). exists mx, vx, my, vy, vb. auto.
Qed.
Lemma independent_default : (forall init n_in a, exists m l, build_independent init n_in a 0 None = Ok m /\ m_hidden m = [l] /\ a_out l = n_in) /\
  exists init m, build_independent init 1 1 0 None = Ok m /\ ~ affine_function 1 (mlp_forward (Rmax 0) m).
Proof. split; [|exact independent_zero_not_affine]. intros init n_in a. destruct (independent_zero init n_in a) as (m & l & E & H & O & _). eauto. Qed.
Lemma distributional_built : forall act init n_obs n_actions n_atoms v_min v_max h n, (2 <= n_atoms)%nat -> v_min < v_max ->
  exists m z, build_distributional init n_obs n_actions n_atoms v_min v_max h n = Ok (m, z) /\
    (length z = n_atoms /\ nth 0 z 0 = v_min /\ nth (n_atoms - 1) z 0 = v_max /\ forall i, (S i < n_atoms)%nat -> nth (S i) z 0 - nth i z 0 = (v_max - v_min) / INR (n_atoms - 1)) /\
  forall x, length x = n_obs -> exists rows, distributional_forward act n_actions n_atoms m x = Ok rows /\ length rows = n_actions /\
    forall r, In r rows -> length r = n_atoms /\ probability r /\ (forall p, In p r -> 0 < p) /\ v_min <= atom_mean z r <= v_max.
Proof.
  intros act init n_obs n_actions n_atoms v_min v_max h n Hn Hv. destruct (distributional_ok act init n_obs n_actions n_atoms v_min v_max h n Hn Hv) as (m & z & E & -> & P).
  exists m, (linspace v_min v_max n_atoms). split; [exact E|]. split; [apply linspace_ends, Hn|exact P].
Qed.
Lemma late_built : forall act init init' n_obs n_action h, build_late init init' n_obs n_action h 0 = Raise AssertionError /\
  forall n, exists q, build_late init init' n_obs n_action h (S n) = Ok q /\
  forall s a, length s = n_obs -> length a = n_action -> exists v, late_forward act q s a = Ok [v] /\ [v] = perceptron act (layers_of (lq_mlp q)) (map act (perceptron act (layers_of (lq_obs q)) s) ++ a).
Proof. intros. split; [reflexivity|]. intros n. apply late_ok. Qed.
Lemma documented_mean_differs : forall y low high, low < high -> exists mean, bound_by_tanh [y] [low] [high] = Ok [mean] /\ low < mean < high /\ mean <> low + tanh y * (high - low) / 2.
Proof.
  intros y low high H. destruct (documented_mean y low high H) as [E N]. eexists. split; [exact E|]. split; [|exact N].
  destruct (@bound_into [low] [high] (Forall2_cons _ _ H (Forall2_nil _)) [y] eq_refl) as (z & E' & B). rewrite E in E'. injection E' as <-. inversion B; subst. assumption.
Qed.

Lemma indexed_nth : forall X Y (f : nat -> X -> Y) l k i dx dy, (i < length l)%nat -> nth i (indexed f k l) dy = f (k + i)%nat (nth i l dx).
Proof.
  induction l as [|x l IH]; intros k i dx dy H; cbn in H; [lia|]. destruct i as [|i]; cbn; [rewrite Nat.add_0_r; reflexivity|]. rewrite (IH (S k) i dx dy) by lia. f_equal. lia.
Qed.
Lemma bn_standardised : forall b x, (forall i, 0 < bn_var b i + bn_eps b) -> standardised b x (apply_bn b x).
Proof.
  intros b x P. split; [apply bn_len|]. intros i Hi. unfold apply_bn. rewrite (indexed_nth _ _ _ x 0 i 0 0 Hi). cbn [Nat.add]. field. pose proof (sqrt_lt_R0 _ (P i)). lra.
Qed.
Lemma hidden_bn_ok : forall act layers n m x, chain n (map fst layers) m -> (forall l b, In (l, b) layers -> forall i, 0 < bn_var b i + bn_eps b) -> length x = n ->
  exists z, hidden_bn_forward act layers x = Ok z /\ normalised_run act layers x z /\ length z = m.
Proof.
  induction layers as [|[l b] layers IH]; intros n m x C P L; cbn [map fst] in C; inversion C as [|? ? ? ? A C']; subst.
  - exists x. split; [reflexivity|]. split; [constructor|reflexivity].
  - cbn [hidden_bn_forward]. rewrite apply_ok by assumption. cbn [bind].
    destruct (IH (a_out l) m (map act (apply_bn b (lin l x))) C') as (z & E & N & Lz); [intros l' b' H; apply (P l' b'); right; exact H|rewrite map_length, bn_len; apply lin_len|].
    exists z. split; [exact E|]. split; [|exact Lz]. apply run_cons with (y := apply_bn b (lin l x)); [apply bn_standardised, (P l b); left; reflexivity|exact N].
Qed.
Lemma mlpbn_ok : forall act m n o x, chain n (map fst (mb_hidden m) ++ [mb_output m]) o -> (forall l b, In (l, b) (mb_hidden m) -> forall i, 0 < bn_var b i + bn_eps b) ->
  (forall b, mb_input m = Some b -> forall i, 0 < bn_var b i + bn_eps b) -> length x = n ->
  exists x' z, match mb_input m with None => x' = x | Some b => standardised b x x' end /\ normalised_run act (mb_hidden m) x' z /\ mlpbn_forward act m x = Ok (lin (mb_output m) z) /\ length (lin (mb_output m) z) = o.
Proof.
  intros act m n o x C P PI L. destruct (chain_split _ _ _ _ C) as (k & C1 & A & O).
  set (x' := match mb_input m with Some b => apply_bn b x | None => x end).
  assert (Lx : length x' = n) by (unfold x'; destruct (mb_input m); rewrite ?bn_len; exact L).
  destruct (hidden_bn_ok act (mb_hidden m) n k x' C1 P Lx) as (z & E & N & Lz). exists x', z. split; [unfold x'; destruct (mb_input m) as [b|]; [apply bn_standardised, (PI b eq_refl)|reflexivity]|].
  split; [exact N|]. unfold mlpbn_forward. fold x'. rewrite E. cbn [bind]. rewrite apply_ok by congruence. split; [reflexivity|]. rewrite lin_len. exact O.
Qed.
Lemma sa_built : forall init n_obs n_action hs, exists m, build_mlp init (Some (n_obs + n_action)%nat) (Some 1%nat) (map Some hs) = Ok m /\
  forall act s a, length s = n_obs -> length a = n_action -> exists v, sa_forward act m s a = Ok [v] /\ [v] = perceptron act (layers_of m) (s ++ a).
Proof.
  intros init n_obs n_action hs. destruct (build_mlp_ok init (n_obs + n_action)%nat 1%nat hs) as (m & E & C & O). exists m. split; [exact E|]. intros act s a Ls La. unfold sa_forward.
  destruct (mlp_forward_ok act m _ _ (s ++ a) C) as [F Ll]; [rewrite app_length; lia|]. rewrite F. destruct (perceptron act (layers_of m) (s ++ a)) as [|v [|]]; try discriminate. eexists. split; reflexivity.
Qed.
