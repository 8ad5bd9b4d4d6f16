(** C32: actions are mapped into the action space; C56: OU noise. *)
From Coq Require Import Floats QArith Reals Lra.
From Verif Require Import Base.PyBase Model.Num Model.GymEnv Model.ActionMaps Spec.WrapperSpec Spec.ActionSpec
     Proofs.ActionMapsProofs Proofs.OUProofs.
Local Open Scope nat_scope.

(** NormalizeActionSpace, in exact arithmetic: [-1,1]^d is mapped into and onto the
    box, endpoints to endpoints, affinely. *)
Theorem C32_normalize_action : forall low high, Forall2 Qle low high ->
  (forall a, unit_box (length low) a ->
     exists b, normalize_action QNum low high a = Ok b /\ in_box Qle low high b) /\
  (forall b, in_box Qle low high b ->
     exists a r, unit_box (length low) a /\ normalize_action QNum low high a = Ok r /\ veq r b) /\
  (exists b0 b1, normalize_action QNum low high (repeat (-1 # 1)%Q (length low)) = Ok b0 /\
     normalize_action QNum low high (repeat 1%Q (length low)) = Ok b1 /\ veq b0 low /\ veq b1 high) /\
  (forall t a a' b b', normalize_action QNum low high a = Ok b -> normalize_action QNum low high a' = Ok b' ->
     exists c, normalize_action QNum low high (mix t a a') = Ok c /\ veq c (mix t b b')).
Proof.
  intros low high H. split; [exact (normalize_into H)|]. split; [exact (normalize_onto H)|].
  split; [apply normalize_ends; exact (F2_length H)|]. intros t. exact (normalize_affine t low high).
Qed.
Print Assumptions C32_normalize_action.
Example C32_normalize_example : Forall2 Qle [-2 # 1; 0]%Q [4 # 1; 1]%Q /\ unit_box 2 [0; 1 # 2]%Q /\
  exists b, normalize_action QNum [-2 # 1; 0]%Q [4 # 1; 1]%Q [0; 1 # 2]%Q = Ok b /\ map Qred b = [1; 3 # 4]%Q.
Proof.
  split; [repeat constructor; discriminate|]. split; [repeat constructor; discriminate|].
  eexists. split; vm_compute; reflexivity.
Qed.

(** ... in every history of the wrapped env: the inner env only gets actions of its box. *)
Theorem C32_normalized_env : forall O X (E : env (list Q) O X) low high ops (e : est E), Forall2 Qle low high ->
  (forall a, In (Step a) ops -> unit_box (length low) a) ->
  exists ops', run (action_filtered (normalize_action QNum low high) E) e ops = run E e ops' /\
    Forall2 (fun o o' => match o with
                         | Reset => o' = Reset
                         | Step a => exists b, normalize_action QNum low high a = Ok b /\ o' = Step b /\ in_box Qle low high b
                         end) ops ops'.
Proof. exact @normalized_env. Qed.
Print Assumptions C32_normalized_env.

(** In IEEE doubles the box is left: low = -2.7, high = 0.1 and action 1 give
    0.10000000000000009. *)
Theorem C32_normalize_float_refuted : exists b,
  normalize_action FNum [-0x1.599999999999ap+1]%float [0x1.999999999999ap-4]%float [1]%float = Ok [b] /\
  PrimFloat.ltb 0x1.999999999999ap-4%float b = true.
Proof. eexists. split; vm_compute; reflexivity. Qed.
Print Assumptions C32_normalize_float_refuted.

(** RandomizeAction: in every history exactly the steps whose draw is below
    random_fraction get the random action drawn, all others their own; only valid
    actions are passed on; fraction 0 changes nothing, fraction 1 everything. *)
Theorem C32_randomize_action : forall O X (E : env nat O X) f fraction d, randomize_init f = Ok fraction ->
  (forall ops (e : est E),
   let new j a := if Qltb (fst (d j)) f then snd (d j) else a in
   match run E e (replace_actions new 0 ops) with
   | Ok (e', xs) => exists k', run (randomize_action E fraction) (d, 0, e) ops = Ok ((d, k', e'), xs)
   | Raise ex => run (randomize_action E fraction) (d, 0, e) ops = Raise ex
   end /\
   (forall n, (forall a, In (Step a) ops -> a < n) -> (forall j, snd (d j) < n) ->
      forall b, In (Step b) (replace_actions new 0 ops) -> b < n)) /\
  ((forall j, (0 <= fst (d j) /\ fst (d j) < 1)%Q) ->
   (f == 0 -> forall ops, replace_actions (fun j a => if Qltb (fst (d j)) f then snd (d j) else a) 0 ops = ops)%Q /\
   (f == 1 -> forall j (a : nat), (if Qltb (fst (d j)) f then snd (d j) else a) = snd (d j))%Q).
Proof. exact @randomize_history. Qed.
Print Assumptions C32_randomize_action.
Definition echo : env nat nat unit :=
  mk_env (fun n a => Ok (n, mk_sout a 1%Q false (mk_info false tt))) (fun _ => Ok (0, 0)) (fun _ => 0).
Example C32_randomize_example :
  let d := fun j => if j =? 1 then ((1 # 4)%Q, 7) else ((3 # 4)%Q, 8) in
  randomize_init (1 # 2) = Ok (1 # 2)%Q /\
  exists w xs, run (randomize_action echo (1 # 2)) (d, 0, 0) [Reset; Step 1; Step 2; Step 3] = Ok (w, xs) /\
    map out_obs xs = [0; 1; 7; 3].
Proof. split; [reflexivity|]. do 2 eexists. split; reflexivity. Qed.

(** bound_by_tanh (and scale_by_tanh, the same formula): always strictly inside the
    bounds, every inner point is reached, and larger inputs give larger outputs. *)
Theorem C32_bound_by_tanh : forall low high, Forall2 Rlt low high ->
  (forall x, length x = length low -> exists y, bound_by_tanh x low high = Ok y /\ in_box Rlt low high y) /\
  (forall y, in_box Rlt low high y -> exists x, bound_by_tanh x low high = Ok y) /\
  (forall x x' y y', bound_by_tanh x low high = Ok y -> bound_by_tanh x' low high = Ok y' ->
     Forall2 Rlt x x' -> Forall2 Rlt y y').
Proof. intros low high H. split; [exact (bound_into H)|]. split; [exact (bound_onto H)|exact (bound_mono H)]. Qed.
Print Assumptions C32_bound_by_tanh.
Example C32_tanh_example : Forall2 Rlt [-2; 0]%R [4; 1]%R /\ bound_by_tanh [0; 0]%R [-2; 0]%R [4; 1]%R = Ok [1; 1 / 2]%R.
Proof.
  split; [repeat constructor; lra|]. unfold bound_by_tanh. cbn. replace (tanh 0) with 0%R.
  2: { rewrite tanh_exp, Rmult_0_r, exp_0. lra. }
  do 2 f_equal; [lra|]. f_equal. lra.
Qed.

(** AdditiveGaussian: every entry is the allowed value nearest to action + noise. *)
Theorem C32_additive_gaussian : forall low high a noise, length noise = length a ->
  (match low with Some l => length l = length a | None => True end) ->
  (match high with Some h => length h = length a | None => True end) ->
  (match low, high with Some l, Some h => Forall2 Rle l h | _, _ => True end) ->
  exists b, additive_gaussian low high a noise = Ok b /\ length b = length a /\
    forall i x z, nth_error a i = Some x -> nth_error noise i = Some z ->
      exists y, nth_error b i = Some y /\ nearest (bnd low i) (bnd high i) (x + z)%R y.
Proof. exact gaussian_nearest. Qed.
Print Assumptions C32_additive_gaussian.
Example C32_gaussian_example : additive_gaussian (Some [0]%R) (Some [1]%R) [1 / 2]%R [2]%R = Ok [1]%R.
Proof. unfold additive_gaussian, clip. cbn. do 2 f_equal. unfold Rmax, Rmin. repeat destruct (Rle_dec _ _); lra. Qed.

(** C56: after any number of calls the action is the greedy action plus a noise in
    closed form: [mu] plus a linear combination of the standard normal draws. *)
Theorem C56_ou_closed_form : forall p d calls, Forall (wide d) calls ->
  exists s bs, ou_run p None calls = Ok (s, bs) /\ length bs = length calls /\
    forall k i, k < length calls -> i < d ->
      (nth i (nth k bs []) 0
       = acti calls k i
         + ou_noise (ou_mu p) (ou_theta p) (ou_sigma p)
             (if ou_start_with_mu p then 0 else ou_sigma p / sqrt (2 * ou_theta p - ou_theta p ^ 2))
             (fun j => zi calls j i) k)%R.
Proof. exact ou_closed_form. Qed.
Print Assumptions C56_ou_closed_form.

(** For independent unit-variance draws: started with noise the process is
    stationary with variance sigma^2 / (2 theta - theta^2) and geometric
    autocorrelation; started at mu its variance grows towards that value. *)
Theorem C56_ou_stationary : forall theta sigma k m, (0 < theta < 2)%R ->
  (ou_cov theta sigma (sigma / sqrt (2 * theta - theta ^ 2)) k (k + m)
   = (1 - theta) ^ m * (sigma ^ 2 / (2 * theta - theta ^ 2)))%R /\
  (ou_cov theta sigma 0 k k = sigma ^ 2 / (2 * theta - theta ^ 2) * (1 - (1 - theta) ^ (2 * k)))%R.
Proof.
  intros theta sigma k m H. split; [exact (ou_stationary sigma k m H)|]. apply ou_from_mu.
  cbn [pow]. assert (0 < theta * (2 - theta))%R by (apply Rmult_lt_0_compat; lra). lra.
Qed.
Print Assumptions C56_ou_stationary.
Example C56_example : let p := mk_ou 1 (1 / 2) 1 true in
  Forall (wide 1) [([0], [5]); ([2], [4])]%R /\
  exists s, ou_run p None [([0], [5]); ([2], [4])]%R = Ok (s, [[1]; [7]])%R.
Proof.
  split; [repeat constructor|]. eexists. cbn. do 2 f_equal. repeat (f_equal; try lra).
Qed.
