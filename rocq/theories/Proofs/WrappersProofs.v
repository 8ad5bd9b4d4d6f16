From Coq Require Import QArith Lqa.
From Verif Require Import Base.PyBase Model.GymEnv Model.Wrappers Spec.WrapperSpec.
Set Implicit Arguments.
Local Open Scope nat_scope.

Lemma bind_ok : forall (T U : Type) (x : res T) (f : T -> res U) u,
  bind x f = Ok u -> exists t, x = Ok t /\ f t = Ok u.
Proof. intros T U [t|ex] f u H; [eauto|discriminate]. Qed.

Section Proofs.
Context {A O X : Type}.
Notation env := (env A O X).

Lemma run_app : forall (E : env) ops1 e ops2,
  run E e (ops1 ++ ops2) =
  let! r := run E e ops1 in let '(e1, xs1) := r in
  let! r2 := run E e1 ops2 in let '(e2, xs2) := r2 in Ok (e2, xs1 ++ xs2).
Proof.
  intros E. induction ops1 as [|o rest IH]; intros e ops2.
  - cbn [app run bind]. destruct (run E e ops2) as [[e2 xs2]|ex]; reflexivity.
  - cbn [app run]. destruct (exec E e o) as [[e1 x]|ex]; [|reflexivity]. cbn [bind].
    rewrite IH. destruct (run E e1 rest) as [[e2 xs]|ex]; [|reflexivity]. cbn [bind].
    destruct (run E e2 ops2) as [[e3 ys]|ex]; reflexivity.
Qed.

Lemma ran_nil : forall (E : env) e, ran E e [] e.
Proof. reflexivity. Qed.

Lemma ran_one : forall (E : env) e o e' x, exec E e o = Ok (e', x) -> ran E e [(o, x)] e'.
Proof. intros. unfold ran. cbn [map fst snd run]. rewrite H. reflexivity. Qed.

Lemma ran_app : forall (E : env) l1 l2 e e1 e2, ran E e l1 e1 -> ran E e1 l2 e2 -> ran E e (l1 ++ l2) e2.
Proof.
  intros E l1 l2 e e1 e2 H1 H2. unfold ran in *. rewrite !map_app, run_app, H1. cbn [bind].
  rewrite H2. reflexivity.
Qed.

Lemma ran_cons : forall (E : env) o x l e e1 e2, exec E e o = Ok (e1, x) -> ran E e1 l e2 -> ran E e ((o, x) :: l) e2.
Proof. intros. change ((o, x) :: l) with ([(o, x)] ++ l). eapply ran_app; [apply ran_one; eassumption|assumption]. Qed.

(** *** One-to-one wrappers *)

Ltac inv_run H :=
  cbn [run] in H; apply bind_ok in H; destruct H as ((?e1 & ?x) & ?Hex & H);
  apply bind_ok in H; destruct H as ((?e2 & ?xs) & ?Hrun & H); inversion H; subst; clear H.

Lemma exec_reset : forall (E : env) e e' x, exec E e Reset = Ok (e', x) ->
  exists o, x = OReset o /\ ereset E e = Ok (e', o).
Proof.
  intros E e e' x H. cbn [exec] in H. apply bind_ok in H. destruct H as ((e1 & o) & H1 & H2).
  inversion H2; subst. eauto.
Qed.

Lemma exec_step : forall (E : env) e a e' x, exec E e (Step a) = Ok (e', x) ->
  exists s, x = OStep s /\ estep E e a = Ok (e', s).
Proof.
  intros E e a e' x H. cbn [exec] in H. apply bind_ok in H. destruct H as ((e1 & o) & H1 & H2).
  inversion H2; subst. eauto.
Qed.

Definition starts_ok (n : option nat) (ops : list (op A)) : Prop :=
  match n, ops with None, Step _ :: _ => False | _, _ => True end.

Lemma starts_next : forall n o ops, starts_ok n (o :: ops) ->
  starts_ok (match o with Reset => Some 0 | Step _ => option_map S n end) ops.
Proof. intros [n|] [|a] ops H; cbn in *; tauto. Qed.

Lemma ctl_exec : forall (E : env) limit n e o e1 x, starts_ok n [o] -> exec E e o = Ok (e1, x) ->
  exec (continuing_time_limit E limit) (n, e) o =
  Ok ((match o with Reset => Some 0 | Step _ => option_map S n end, e1),
      flag_needs_reset (reached limit (steps_since n [o])) x).
Proof.
  intros E limit n e [|a] e1 x Hs H.
  - destruct (exec_reset _ _ H) as (o & -> & Hr). cbn. unfold ctl_reset. cbn [snd]. rewrite Hr. reflexivity.
  - destruct (exec_step _ _ _ H) as (s & -> & Hr). destruct n as [n|]; [|destruct Hs].
    cbn [exec continuing_time_limit est estep]. unfold ctl_step. cbn [fst snd]. rewrite Hr. cbn [bind option_map].
    unfold steps_since. cbn [fold_left option_map reached]. rewrite Nat.add_1_r.
    destruct s as [ob r d [nr ot]]. cbn [so_obs so_rew so_done so_info other needs_reset].
    destruct (limit <=? Z.of_nat (S n))%Z; unfold flag_needs_reset; cbn [so_obs so_rew so_done so_info needs_reset other].
    + rewrite orb_true_r. reflexivity.
    + rewrite orb_false_r. reflexivity.
Qed.

Lemma ctl_run : forall (E : env) limit ops n e e' xs, starts_ok n ops -> run E e ops = Ok (e', xs) ->
  exists ys, run (continuing_time_limit E limit) (n, e) ops = Ok ((steps_since n ops, e'), ys) /\
    length ys = length xs /\
    forall i x, nth_error xs i = Some x ->
      nth_error ys i = Some (flag_needs_reset (reached limit (steps_since n (firstn (S i) ops))) x).
Proof.
  intros E limit. induction ops as [|o ops IH]; intros n e e' xs Hs H.
  - cbn in H. inversion H; subst. exists []. split; [reflexivity|]. split; [reflexivity|].
    intros [|i] x Hx; discriminate.
  - inv_run H.
    assert (Hs1 : starts_ok n [o]) by (destruct n, o; cbn in *; tauto).
    pose proof (ctl_exec E limit n e o Hs1 Hex) as Hc.
    destruct (IH _ _ _ _ (starts_next n o ops Hs) Hrun) as (ys & Hy & Hl & Hn).
    cbn [run]. rewrite Hc. cbn [bind]. rewrite Hy. cbn [bind].
    eexists. split; [reflexivity|]. split; [cbn; lia|].
    intros [|i] y Hi.
    + cbn in Hi. inversion Hi; subst. reflexivity.
    + cbn [nth_error] in *. rewrite (Hn _ _ Hi). reflexivity.
Qed.

Lemma ctl_raise : forall (E : env) limit ops n e ex, starts_ok n ops -> run E e ops = Raise ex ->
  run (continuing_time_limit E limit) (n, e) ops = Raise ex.
Proof.
  intros E limit. induction ops as [|o ops IH]; intros n e ex Hs H; [discriminate|].
  cbn [run] in H. destruct (exec E e o) as [[e1 x]|ex1] eqn:Hex; cbn [bind] in H.
  - assert (Hs1 : starts_ok n [o]) by (destruct n, o; cbn in *; tauto).
    pose proof (ctl_exec E limit n e o Hs1 Hex) as Hc.
    destruct (run E e1 ops) as [[e2 xs]|ex2] eqn:Hrun; cbn [bind] in H; [discriminate|]. inversion H; subst.
    cbn [run]. rewrite Hc. cbn [bind]. rewrite (IH _ _ _ (starts_next n o ops Hs) Hrun). reflexivity.
  - inversion H; subst. cbn [run]. destruct o as [|a].
    + cbn [exec continuing_time_limit est ereset]. unfold ctl_reset. cbn [snd].
      cbn [exec] in Hex. destruct (ereset E e) as [[e1 o]|ex1]; [discriminate|]. inversion Hex; subst. reflexivity.
    + destruct n as [n|]; [|destruct Hs]. cbn [exec continuing_time_limit est estep]. unfold ctl_step. cbn [fst snd].
      cbn [exec] in Hex. destruct (estep E e a) as [[e1 o]|ex1]; [discriminate|]. inversion Hex; subst. reflexivity.
Qed.

Lemma time_limit : forall (E : env) limit ops e,
  (forall a rest, ops = Step a :: rest ->
     run (continuing_time_limit E limit) (None, e) ops = Raise AssertionError) /\
  ((forall a rest, ops <> Step a :: rest) ->
   match run E e ops with
   | Raise ex => run (continuing_time_limit E limit) (None, e) ops = Raise ex
   | Ok (e', xs) =>
       exists ys, run (continuing_time_limit E limit) (None, e) ops = Ok ((steps_since None ops, e'), ys) /\
       length ys = length xs /\
       forall i x, nth_error xs i = Some x ->
         nth_error ys i = Some (flag_needs_reset (reached limit (steps_since None (firstn (S i) ops))) x)
   end).
Proof.
  intros E limit ops e. split.
  - intros a rest ->. reflexivity.
  - intros Hne. assert (Hs : starts_ok None ops) by (destruct ops as [|[|a] r]; cbn; auto; eapply Hne; reflexivity).
    destruct (run E e ops) as [[e' xs]|ex] eqn:H.
    + apply ctl_run; assumption.
    + apply ctl_raise; assumption.
Qed.

Lemma tl_exec : forall (E : env) limit n e o e1 x, exec E e o = Ok (e1, x) ->
  exec (timestep_limited E limit) (S n, e) o =
  Ok ((match o with Reset => 1 | Step _ => S (S n) end, e1),
      flag_done (reached limit (steps_since (Some n) [o])) x).
Proof.
  intros E limit n e [|a] e1 x H.
  - destruct (exec_reset _ _ H) as (o & -> & Hr). cbn. unfold tl_reset. cbn [snd]. rewrite Hr. reflexivity.
  - destruct (exec_step _ _ _ H) as (s & -> & Hr).
    cbn [exec timestep_limited est estep]. unfold tl_step. cbn [fst snd]. rewrite Hr. cbn [bind].
    unfold steps_since. cbn [fold_left option_map reached]. rewrite Nat.add_1_r.
    destruct s as [ob r d i]. cbn [so_obs so_rew so_done so_info].
    destruct (limit <=? Z.of_nat (S n))%Z; unfold flag_done; cbn [so_obs so_rew so_done so_info].
    + rewrite orb_true_r. reflexivity.
    + rewrite orb_false_r. reflexivity.
Qed.

Lemma timestep_limit : forall (E : env) limit ops n e,
  match run E e ops with
  | Raise ex => run (timestep_limited E limit) (S n, e) ops = Raise ex
  | Ok (e', xs) =>
      exists s ys, run (timestep_limited E limit) (S n, e) ops = Ok ((s, e'), ys) /\
      length ys = length xs /\
      forall i x, nth_error xs i = Some x ->
        nth_error ys i = Some (flag_done (reached limit (steps_since (Some n) (firstn (S i) ops))) x)
  end.
Proof.
  intros E limit. induction ops as [|o ops IH]; intros n e.
  - cbn. exists (S n), []. split; [reflexivity|]. split; [reflexivity|]. intros [|i] x Hx; discriminate.
  - cbn [run]. destruct (exec E e o) as [[e1 x]|ex] eqn:Hex; cbn [bind].
    + rewrite (tl_exec E limit n e o Hex). cbn [bind].
      assert (Hn : exists m, match o with Reset => 1 | Step _ => S (S n) end = S m /\
                   Some m = match o with Reset => Some 0 | Step _ => option_map S (Some n) end)
        by (destruct o; eauto).
      destruct Hn as (m & Em & Es). rewrite Em. specialize (IH m e1).
      destruct (run E e1 ops) as [[e2 xs]|ex]; cbn [bind].
      * destruct IH as (s & ys & Hy & Hl & Hn). rewrite Hy. cbn [bind]. do 2 eexists. split; [reflexivity|].
        split; [cbn; lia|]. intros [|i] y Hi.
        -- cbn in Hi. inversion Hi; subst. reflexivity.
        -- cbn [nth_error] in *. rewrite (Hn _ _ Hi). unfold steps_since at 2. cbn [firstn fold_left].
           rewrite <- Es. reflexivity.
      * rewrite IH. reflexivity.
    + destruct o as [|a].
      * cbn [exec timestep_limited est ereset]. unfold tl_reset. cbn [snd].
        cbn [exec] in Hex. destruct (ereset E e) as [[e1 o]|ex1]; [discriminate|]. inversion Hex; subst. reflexivity.
      * cbn [exec timestep_limited est estep]. unfold tl_step. cbn [fst snd].
        cbn [exec] in Hex. destruct (estep E e a) as [[e1 o]|ex1]; [discriminate|]. inversion Hex; subst. reflexivity.
Qed.

(** *** Frame stacking *)

Lemma lastn_length : forall (T : Type) k (l : list T), length (lastn k l) = Nat.min k (length l).
Proof. intros. unfold lastn. rewrite skipn_length. lia. Qed.

Lemma lastn_push : forall (T : Type) k (l : list T) x, deque_push k (lastn k l) x = lastn k (l ++ [x]).
Proof.
  intros T k l x. unfold deque_push, lastn. rewrite !app_length, skipn_length. cbn [length].
  destruct (le_lt_dec (length l) k).
  - replace (length l - k) with 0 by lia. rewrite skipn_O. f_equal. lia.
  - replace (length l - (length l - k) + 1 - k) with 1 by lia.
    assert (Hsk : skipn (length l - k) (l ++ [x]) = skipn (length l - k) l ++ [x]).
    { rewrite skipn_app. replace (length l - k - length l) with 0 by lia. reflexivity. }
    rewrite <- Hsk. replace (length l + 1 - k) with (length l - k + 1) by lia.
    generalize (l ++ [x]), (length l - k). clear. intros l n. revert l.
    induction n as [|n IH]; intro l; [reflexivity|]. destruct l as [|y l]; [reflexivity|]. exact (IH l).
Qed.

Lemma push_many : forall (T : Type) k (l : list T) x n,
  Nat.iter n (fun q => deque_push k q x) (lastn k l) = lastn k (l ++ repeat x n).
Proof.
  intros T k l x. induction n as [|n IH].
  - cbn. rewrite app_nil_r. reflexivity.
  - cbn [Nat.iter nat_rect]. change (nat_rect _ (lastn k l) _ n) with (Nat.iter n (fun q => deque_push k q x) (lastn k l)).
    rewrite IH, lastn_push, <- app_assoc. f_equal. f_equal. symmetry. apply repeat_cons.
Qed.

Lemma lastn_all : forall (T : Type) k (l r : list T), k <= length r -> lastn k (l ++ r) = lastn k r.
Proof.
  intros T k l r H. unfold lastn. rewrite app_length.
  replace (length l + length r - k) with (length l + (length r - k)) by lia.
  induction l; [reflexivity|]. cbn [app length Nat.add skipn]. exact IHl.
Qed.

Lemma lastn_id : forall (T : Type) k (l : list T), length l <= k -> lastn k l = l.
Proof. intros. unfold lastn. replace (length l - k) with 0 by lia. reflexivity. Qed.

Lemma window_one : forall (T : Type) k (o : T), window k [o] = repeat o k.
Proof.
  intros. unfold window. rewrite <- repeat_cons. change (o :: repeat o k) with ([o] ++ repeat o k).
  rewrite lastn_all by (rewrite repeat_length; lia). apply lastn_id. rewrite repeat_length; lia.
Qed.

Lemma window_reset : forall (T : Type) k (q : list T) o, length q <= k ->
  Nat.iter k (fun q => deque_push k q o) q = window k [o].
Proof.
  intros T k q o H. rewrite <- (@lastn_id _ k q H), push_many, window_one, lastn_all by (rewrite repeat_length; lia).
  apply lastn_id. rewrite repeat_length; lia.
Qed.

Lemma window_push : forall (T : Type) k (ep : list T) o, ep <> [] ->
  deque_push k (window k ep) o = window k (ep ++ [o]).
Proof.
  intros T k [|x ep] o H; [congruence|]. unfold window. cbn [app]. rewrite lastn_push.
  rewrite <- app_assoc. reflexivity.
Qed.

Lemma window_length : forall (T : Type) k (ep : list T), ep <> [] -> length (window k ep) = k.
Proof.
  intros T k [|x ep] H; [congruence|]. unfold window. rewrite lastn_length, app_length, repeat_length. lia.
Qed.

Definition next_ep (ep : list O) (x : out O X) : list O :=
  match x with OReset o => [o] | OStep s => ep ++ [so_obs s] end.

Lemma next_ep_ne : forall ep x, next_ep ep x <> [].
Proof. intros ep [o|s]; cbn; [discriminate|]. destruct ep; discriminate. Qed.

Lemma fs_exec : forall (E : env) k ep q e o e1 x,
  (ep = [] -> o = Reset /\ length q <= k) -> (ep <> [] -> q = window k ep) ->
  exec E e o = Ok (e1, x) ->
  exec (frame_stack E k) (q, e) o = Ok ((window k (next_ep ep x), e1), with_obs (window k (next_ep ep x)) x).
Proof.
  intros E k ep q e [|a] e1 x He Hq H.
  - destruct (exec_reset _ _ H) as (o & -> & Hr). cbn [exec frame_stack est ereset]. unfold fs_reset. cbn [fst snd].
    rewrite Hr. cbn [bind].
    assert (length q <= k).
    { destruct ep as [|y ep]; [apply He; reflexivity|]. rewrite Hq, window_length by discriminate. lia. }
    rewrite window_reset by assumption. unfold get_ob.
    rewrite window_length by discriminate. rewrite Nat.eqb_refl. reflexivity.
  - destruct (exec_step _ _ _ H) as (s & -> & Hr). cbn [exec frame_stack est estep]. unfold fs_step. cbn [fst snd].
    rewrite Hr. cbn [bind].
    assert (Hne : ep <> []) by (intro Hn; destruct (He Hn); discriminate).
    rewrite (Hq Hne), window_push by assumption. unfold get_ob.
    rewrite window_length by (destruct ep; discriminate). rewrite Nat.eqb_refl. reflexivity.
Qed.

Lemma fs_run : forall (E : env) k ops ep q e e' xs,
  (ep = [] -> (forall a rest, ops <> Step a :: rest) /\ length q <= k) -> (ep <> [] -> q = window k ep) ->
  run E e ops = Ok (e', xs) ->
  exists q' ys, run (frame_stack E k) (q, e) ops = Ok ((q', e'), ys) /\ length ys = length xs /\
    forall i x, nth_error xs i = Some x ->
      nth_error ys i = Some (with_obs (window k (fold_left next_ep (firstn (S i) xs) ep)) x).
Proof.
  intros E k. induction ops as [|o ops IH]; intros ep q e e' xs He Hq H.
  - cbn in H. inversion H; subst. exists q, []. split; [reflexivity|]. split; [reflexivity|].
    intros [|i] x Hx; discriminate.
  - inv_run H.
    assert (He1 : ep = [] -> o = Reset /\ length q <= k).
    { intro Hn. destruct (He Hn) as [H1 H2]. split; [|exact H2]. destruct o; [reflexivity|]. exfalso. eapply H1; reflexivity. }
    pose proof (@fs_exec E k ep q e o e1 x He1 Hq Hex) as Hc.
    destruct (IH (next_ep ep x) (window k (next_ep ep x)) e1 e' xs0) as (q' & ys & Hy & Hl & Hn).
    { intro Hn. destruct (next_ep_ne ep x Hn). }
    { reflexivity. }
    { exact Hrun. }
    cbn [run]. rewrite Hc. cbn [bind]. rewrite Hy. cbn [bind]. do 2 eexists. split; [reflexivity|]. split; [cbn; lia|].
    intros [|i] y Hi.
    + cbn in Hi. inversion Hi; subst. reflexivity.
    + cbn [nth_error] in *. rewrite (Hn _ _ Hi). reflexivity.
Qed.

Lemma frame_stack_windows : forall (E : env) k ops e e' xs,
  run E e (Reset :: ops) = Ok (e', xs) ->
  exists q ys, run (frame_stack E k) ([], e) (Reset :: ops) = Ok ((q, e'), ys) /\ length ys = length xs /\
    forall i x, nth_error xs i = Some x ->
      nth_error ys i = Some (with_obs (window k (episode (firstn (S i) xs))) x).
Proof.
  intros E k ops e e' xs H. apply (@fs_run E k (Reset :: ops) [] [] e e' xs).
  - intros _. split; [discriminate|cbn; lia].
  - congruence.
  - exact H.
Qed.

(** *** Wrappers with several inner calls *)

Lemma history : forall (E W : env) (inner : est W -> est E) (Inv : est W -> Prop)
  (R : op A -> out O X -> list (op A * out O X) -> Prop),
  (forall w o w' y, Inv w -> exec W w o = Ok (w', y) ->
     Inv w' /\ exists log, R o y log /\ ran E (inner w) log (inner w')) ->
  forall ops w w' ys, Inv w -> run W w ops = Ok (w', ys) ->
  exists logs, Forall3 R ops ys logs /\ ran E (inner w) (concat logs) (inner w').
Proof.
  intros E W inner Inv R Hstep. induction ops as [|o ops IH]; intros w w' ys HI H.
  - cbn in H. inversion H; subst. exists []. split; [constructor|apply ran_nil].
  - cbn [run] in H. apply bind_ok in H. destruct H as ((w1 & y) & Hex & H).
    apply bind_ok in H. destruct H as ((w2 & ys1) & Hrun & H). inversion H; subst.
    destruct (Hstep _ _ _ _ HI Hex) as (HI1 & log & HR & Hran).
    destruct (IH _ _ _ HI1 Hrun) as (logs & HF & Hr). exists (log :: logs). split; [constructor; assumption|].
    cbn [concat]. eapply ran_app; eassumption.
Qed.

Variable omax : O -> O -> O.

Lemma skip_loop_spec : forall (E : env) skip a n i total buf e t' buf' e' x,
  skip_loop E skip a n i total buf e = Ok (t', buf', e', x) -> i + n = skip ->
  exists ss, ran E e (map (fun s => (Step a, OStep s)) (ss ++ [x])) e' /\
    Forall (fun s => terminal s = false) ss /\ length ss < n /\ (S (length ss) < n -> terminal x = true) /\
    (t' == total + qsum (map (@so_rew O X) (ss ++ [x])))%Q /\
    (S (length ss) = n -> snd buf' = so_obs x /\
       fst buf' = match rev ss with p :: _ => so_obs p | [] => fst buf end) /\
    (skip = 1 -> fst buf' = fst buf).
Proof.
  intros E skip a. induction n as [|n IH]; intros i total buf e t' buf' e' x H Hi; [discriminate|].
  cbn [skip_loop] in H. apply bind_ok in H. destruct H as ((e1 & s) & Hs & H).
  assert (Hex : exec E e (Step a) = Ok (e1, OStep s)) by (cbn [exec]; rewrite Hs; reflexivity).
  set (buf1 := if i + 2 =? skip then (so_obs s, snd buf) else buf) in H.
  set (buf2 := if i + 1 =? skip then (fst buf1, so_obs s) else buf1) in H.
  assert (Hfin : forall r, Ok ((total + so_rew s)%Q, buf2, e1, s) = Ok (t', buf', e', x) ->
            terminal s = true \/ n = 0 -> r = 0 ->
            exists ss, ran E e (map (fun s => (Step a, OStep s)) (ss ++ [x])) e' /\
    Forall (fun s => terminal s = false) ss /\ length ss < S n /\ (S (length ss) < S n -> terminal x = true) /\
    (t' == total + qsum (map (@so_rew O X) (ss ++ [x])))%Q /\
    (S (length ss) = S n -> snd buf' = so_obs x /\
       fst buf' = match rev ss with p :: _ => so_obs p | [] => fst buf end) /\
    (skip = 1 -> fst buf' = fst buf)).
  { intros r Hok Ht _. inversion Hok; subst t' buf' e1 s. exists [].
    split; [apply ran_one; exact Hex|]. split; [constructor|]. split; [cbn; lia|].
    split; [cbn; intro; destruct Ht; [assumption|lia]|].
    split; [cbn; rewrite Qplus_0_r; reflexivity|].
    split.
    - intro Hl. cbn in Hl. unfold buf2, buf1. destruct (Nat.eqb_spec (i + 1) skip); [|lia].
      destruct (Nat.eqb_spec (i + 2) skip); [lia|]. split; reflexivity.
    - intro H1. unfold buf2, buf1. destruct (Nat.eqb_spec (i + 1) skip); destruct (Nat.eqb_spec (i + 2) skip); try lia; reflexivity. }
  destruct (terminal s) eqn:Ht; [eapply Hfin; eauto|].
  destruct n as [|n]; [eapply Hfin; eauto|].
  assert (Hbuf2 : buf2 = buf1) by (unfold buf2; destruct (Nat.eqb_spec (i + 1) skip); [lia|reflexivity]).
  destruct (IH (i + 1) _ _ _ _ _ _ _ H ltac:(lia)) as (ss & Hran & Hf & Hl & Hst & Ht' & Hb & Hsk).
  exists (s :: ss). cbn [app map].
  split; [eapply ran_cons; eassumption|]. split; [constructor; assumption|]. split; [cbn; lia|].
  split; [cbn [length]; intro; apply Hst; lia|].
  split; [rewrite Ht'; cbn [qsum fold_right]; fold (qsum (map (@so_rew O X) (ss ++ [x]))); ring|].
  split.
  - cbn [length]. intro Hlen. destruct (Hb ltac:(lia)) as [H1 H2]. split; [exact H1|]. rewrite H2, Hbuf2. cbn [rev].
    destruct (rev ss) as [|p r] eqn:Er.
    + cbn [app]. apply (f_equal (@length _)) in Er. rewrite rev_length in Er. cbn in Er.
      unfold buf1. destruct (Nat.eqb_spec (i + 2) skip); [reflexivity|lia].
    + reflexivity.
  - intro H1. lia.
Qed.

Lemma max_and_skip_history : forall (E : env) skip zero1 zero2 ops e w' ys,
  run (max_and_skip omax E skip) ((zero1, zero2), e) ops = Ok (w', ys) ->
  exists logs, Forall3 (ms_rel omax skip zero1) ops ys logs /\ ran E e (concat logs) (snd w').
Proof.
  intros E skip zero1 zero2 ops e w' ys H.
  apply (@history E (max_and_skip omax E skip) snd (fun w => skip = 1 -> fst (fst w) = zero1) (ms_rel omax skip zero1)) in H; [exact H| |reflexivity].
  clear. intros [[b1 b2] e] [|a] w' y HI H; cbn [fst snd] in *.
  - cbn [exec max_and_skip est ereset] in H. unfold ms_reset in H. cbn [fst snd] in H.
    apply bind_ok in H. destruct H as (((b' & e1) & o) & H1 & H). apply bind_ok in H1. destruct H1 as ((e2 & o2) & Hr & H1).
    inversion H1; subst. inversion H; subst. cbn [fst snd]. split; [exact HI|].
    exists [(Reset, OReset o)]. split; [reflexivity|]. apply ran_one. cbn [exec]. rewrite Hr. reflexivity.
  - cbn [exec max_and_skip est estep] in H. unfold ms_step in H. cbn [fst snd] in H.
    apply bind_ok in H. destruct H as (((b' & e1) & s) & H1 & H). apply bind_ok in H1.
    destruct H1 as ((((t & b2') & e2) & x) & Hr & H1). inversion H1; subst. inversion H; subst. cbn [fst snd].
    destruct (@skip_loop_spec E skip a skip 0 _ _ _ _ _ _ _ Hr eq_refl) as (ss & Hran & Hf & Hl & Hst & Ht' & Hb & Hsk).
    split; [intro H0; rewrite (Hsk H0); apply HI; exact H0|].
    eexists. split; [|exact Hran]. cbn [ms_rel]. exists ss, x. split.
    + split; [reflexivity|]. split; [exact Hf|]. split; [exact Hl|]. split; [exact Hst|].
      split; [cbn [so_rew]; rewrite Ht', Qplus_0_l; reflexivity|]. split; reflexivity.
    + intro Hlen. cbn [so_obs]. destruct (Hb Hlen) as [-> H2]. f_equal. rewrite H2.
      destruct (rev ss) as [|p r] eqn:Er; [|reflexivity].
      apply (f_equal (@length _)) in Er. rewrite rev_length in Er. cbn in Er. cbn [fst]. apply HI. lia.
Qed.

Lemma repeat_loop_spec : forall (E : env) a n total e t' e' x,
  repeat_loop E a n total e = Ok (t', e', x) ->
  exists ss, ran E e (map (fun s => (Step a, OStep s)) (ss ++ [x])) e' /\
    Forall (fun s => so_done s = false) ss /\ length ss < n /\ (S (length ss) < n -> so_done x = true) /\
    (t' == total + qsum (map (@so_rew O X) (ss ++ [x])))%Q.
Proof.
  intros E a. induction n as [|n IH]; intros total e t' e' x H; [discriminate|].
  cbn [repeat_loop] in H. apply bind_ok in H. destruct H as ((e1 & s) & Hs & H).
  assert (Hex : exec E e (Step a) = Ok (e1, OStep s)) by (cbn [exec]; rewrite Hs; reflexivity).
  assert (Hfin : Ok ((total + so_rew s)%Q, e1, s) = Ok (t', e', x) -> so_done s = true \/ n = 0 ->
    exists ss, ran E e (map (fun s => (Step a, OStep s)) (ss ++ [x])) e' /\
    Forall (fun s => so_done s = false) ss /\ length ss < S n /\ (S (length ss) < S n -> so_done x = true) /\
    (t' == total + qsum (map (@so_rew O X) (ss ++ [x])))%Q).
  { intros Hok Ht. inversion Hok; subst t' e1 s. exists [].
    split; [apply ran_one; exact Hex|]. split; [constructor|]. split; [cbn; lia|].
    split; [cbn; intro; destruct Ht; [assumption|lia]|]. cbn; rewrite Qplus_0_r; reflexivity. }
  destruct (so_done s) eqn:Ht; [auto|]. destruct n as [|n]; [auto|].
  destruct (IH _ _ _ _ _ H) as (ss & Hran & Hf & Hl & Hst & Ht').
  exists (s :: ss). cbn [app map].
  split; [eapply ran_cons; eassumption|]. split; [constructor; assumption|]. split; [cbn; lia|].
  split; [cbn [length]; intro; apply Hst; lia|].
  rewrite Ht'; cbn [qsum fold_right]; fold (qsum (map (@so_rew O X) (ss ++ [x]))); ring.
Qed.

Lemma action_repeated_history : forall (E : env) n ops e w' ys,
  run (action_repeated E n) e ops = Ok (w', ys) ->
  exists logs, Forall3 (rep_rel n) ops ys logs /\ ran E e (concat logs) w'.
Proof.
  intros E n ops e w' ys H.
  apply (@history E (action_repeated E n) (fun e => e) (fun _ => True) (rep_rel n)) in H; [exact H| |exact I].
  clear. intros e [|a] w' y _ H; split; try exact I.
  - cbn [exec action_repeated est ereset] in H. apply bind_ok in H. destruct H as ((e1 & o) & Hr & H).
    inversion H; subst. exists [(Reset, OReset o)]. split; [reflexivity|]. apply ran_one. cbn [exec]. rewrite Hr. reflexivity.
  - cbn [exec action_repeated est estep] in H. apply bind_ok in H. destruct H as ((e1 & s) & H1 & H).
    apply bind_ok in H1. destruct H1 as (((t & e2) & x) & Hr & H1). inversion H1; subst. inversion H; subst.
    destruct (@repeat_loop_spec E a n _ _ _ _ _ Hr) as (ss & Hran & Hf & Hl & Hst & Ht').
    eexists. split; [|exact Hran]. exists ss, x. split; [|reflexivity].
    split; [reflexivity|]. split; [exact Hf|]. split; [exact Hl|]. split; [exact Hst|].
    split; [cbn [so_rew]; rewrite Ht', Qplus_0_l; reflexivity|]. split; reflexivity.
Qed.

(** *** NoopResetEnv *)
Variable noop : A.

Lemma noop_loop_spec : forall (E : env) n o0 e obs e',
  noop_loop noop E n (Some o0) e = Ok (obs, e') ->
  exists o log, obs = Some o /\ noops noop n o0 log o /\ ran E e log e'.
Proof.
  intros E. induction n as [|n IH]; intros o0 e obs e' H.
  - cbn in H. inversion H; subst. exists o0, []. split; [reflexivity|]. split; [constructor|apply ran_nil].
  - cbn [noop_loop] in H. apply bind_ok in H. destruct H as ((e1 & s) & Hs & H).
    assert (Hex : exec E e (Step noop) = Ok (e1, OStep s)) by (cbn [exec]; rewrite Hs; reflexivity).
    destruct (terminal s) eqn:Ht.
    + apply bind_ok in H. destruct H as ((e2 & o1) & Hr & H).
      destruct (IH _ _ _ _ H) as (o & log & -> & Hn & Hran).
      do 2 eexists. split; [reflexivity|]. split; [apply noops_over; eassumption|].
      eapply ran_cons; [exact Hex|]. eapply ran_cons; [|exact Hran]. cbn [exec]. rewrite Hr. reflexivity.
    + destruct (IH _ _ _ _ H) as (o & log & -> & Hn & Hran).
      do 2 eexists. split; [reflexivity|]. split; [apply noops_live; eassumption|].
      eapply ran_cons; [exact Hex|exact Hran].
Qed.

Lemma noop_loop_none : forall (E : env) n o0 e, n <> 0 ->
  noop_loop noop E n None e = noop_loop noop E n (Some o0) e.
Proof. intros E [|n] o0 e H; [congruence|reflexivity]. Qed.

Lemma noop_reset_history : forall (E : env) draws k ops e w' ys,
  run (noop_reset noop E) (draws, k, e) ops = Ok (w', ys) ->
  exists logs, Forall3 (nr_rel noop (fun n => exists j, n = draws j)) ops ys logs /\ ran E e (concat logs) (snd w').
Proof.
  intros E draws k ops e w' ys H.
  apply (@history E (noop_reset noop E) snd (fun w => fst (fst w) = draws)
           (nr_rel noop (fun n => exists j, n = draws j))) in H; [exact H| |reflexivity].
  clear. intros [[d k] e] [|a] w' y HI H; cbn [fst snd] in *; subst d.
  - cbn [exec noop_reset est ereset] in H. unfold nr_reset in H.
    apply bind_ok in H. destruct H as ((((d & k1) & e1) & o) & H1 & H). inversion H; subst. clear H.
    apply bind_ok in H1. destruct H1 as ((e2 & o0) & Hr & H1).
    destruct (Nat.ltb_spec 0 (draws k)) as [Hlt|]; [|discriminate].
    apply bind_ok in H1. destruct H1 as ((obs & e3) & Hl & H1).
    rewrite (noop_loop_none E o0 e2) in Hl by lia.
    destruct (@noop_loop_spec E _ _ _ _ _ Hl) as (o' & log & -> & Hn & Hran). inversion H1; subst. split; [reflexivity|].
    eexists. split.
    + do 3 eexists. split; [exists k; reflexivity|]. split; [exact Hlt|]. split; [reflexivity|exact Hn].
    + cbn [snd]. eapply ran_cons; [|exact Hran]. cbn [exec]. rewrite Hr. reflexivity.
  - cbn [exec noop_reset est estep snd fst] in H. apply bind_ok in H. destruct H as ((w1 & s) & H1 & H).
    apply bind_ok in H1. destruct H1 as ((e2 & x) & Hr & H1). inversion H1; subst. inversion H; subst. split; [reflexivity|].
    eexists. split; [reflexivity|]. apply ran_one. cbn [exec snd]. rewrite Hr. reflexivity.
Qed.

Lemma noops_fresh : forall n (o0 : O) (log : list (op A * out O X)) o, noops noop n o0 log o ->
  length (filter (fun p => match fst p with Step _ => true | Reset => false end) log) = n /\
  (n <> 0 -> exists l, (exists s, log = l ++ [(Step noop, OStep s)] /\ terminal s = false /\ o = so_obs s) \/
                       log = l ++ [(Reset, OReset o)]).
Proof.
  induction 1 as [o|n o0 s log o Ht H [IH1 IH2]|n o0 s o1 log o Ht H [IH1 IH2]].
  - split; [reflexivity|congruence].
  - split; [cbn; congruence|]. intros _. destruct n as [|n].
    + inversion H; subst. exists []. left. exists s. auto.
    + destruct (IH2 ltac:(discriminate)) as (l & [(s' & -> & H1 & H2)| ->]).
      * exists ((Step noop, OStep s) :: l). left. exists s'. auto.
      * exists ((Step noop, OStep s) :: l). right. reflexivity.
  - split; [cbn; congruence|]. intros _. destruct n as [|n].
    + inversion H; subst. exists [(Step noop, OStep s)]. right. reflexivity.
    + destruct (IH2 ltac:(discriminate)) as (l & [(s' & -> & H1 & H2)| ->]).
      * exists ((Step noop, OStep s) :: (Reset, OReset o1) :: l). left. exists s'. auto.
      * exists ((Step noop, OStep s) :: (Reset, OReset o1) :: l). right. reflexivity.
Qed.

(** *** EpisodicLifeEnv *)

Lemma last_step_S : forall (ops : list (op A)) (xs : list (out O X)) o x i,
  last_step (o :: ops) (x :: xs) (S i) =
  match last_step ops xs i with
  | Some s => Some s
  | None => match o, x with Step _, OStep s => Some s | _, _ => None end
  end.
Proof.
  intros ops xs o x i. unfold last_step. cbn [firstn combine fold_left].
  set (f := fun (acc : option (sout O X)) (p : op A * out O X) => match p with (Step _, OStep s) => Some s | _ => acc end).
  change (match (o, x) with (Step _, OStep s) => Some s | _ => None end) with
         (match o, x with Step _, OStep s => Some s | _, _ => None end).
  generalize (combine (firstn i ops) (firstn i xs)).
  intro l. generalize (match o, x with Step _, OStep s => Some s | _, _ => None end).
  assert (G : forall l acc, fold_left f l acc = match fold_left f l None with Some s => Some s | None => acc end).
  { clear. induction l as [|p l IH]; intro acc; [reflexivity|]. cbn [fold_left].
    rewrite (IH (f acc p)), (IH (f None p)). destruct (fold_left f l None); [reflexivity|].
    destruct p as [[|a] [o'|s]]; reflexivity. }
  intro acc. apply G.
Qed.

Lemma el_run : forall (E : env) ops l over e w' ys,
  run (episodic_life noop E) (l, over, e) ops = Ok (w', ys) ->
  exists calls es xs,
    run E e calls = Ok (snd w', xs) /\ length calls = length ops /\ length xs = length ops /\
    length ys = length ops /\ length es = length ops /\
    (forall i, i <= length ops -> exists ei, nth_error (e :: es) i = Some ei /\
        run E e (firstn i calls) = Ok (ei, firstn i xs)) /\
    (forall i o, nth_error ops i = Some o ->
      exists c x y ei ej, nth_error calls i = Some c /\ nth_error xs i = Some x /\ nth_error ys i = Some y /\
        nth_error (e :: es) i = Some ei /\ nth_error es i = Some ej /\
        let before := if i =? 0 then l else elives E ei in
        let real := match last_step ops xs i with Some s => terminal s | None => over end in
        match o with
        | Step a => c = Step a /\ exists s, x = OStep s /\
            y = OStep (mk_sout (so_obs s) (so_rew s)
                   (so_done s || ((0 <? elives E ej) && (elives E ej <? before))) (so_info s))
        | Reset => c = (if real then Reset else Step noop) /\ y = OReset (out_obs x)
        end).
Proof.
  intros E. induction ops as [|o ops IH]; intros l over e w' ys H.
  - cbn in H. inversion H; subst. exists [], [], []. cbn [snd length]. split; [reflexivity|].
    do 4 (split; [reflexivity|]). split.
    + intros i Hi. assert (i = 0) by lia. subst. exists e. split; reflexivity.
    + intros [|i] o Ho; discriminate.
  - cbn [run] in H. apply bind_ok in H. destruct H as ((w1 & y) & Hex & H).
    apply bind_ok in H. destruct H as ((w2 & ys1) & Hrun & H). inversion H; subst w2 ys. clear H.
    assert (Hone : exists c x, exec E e c = Ok (snd w1, x) /\ fst (fst w1) = elives E (snd w1) /\
              snd (fst w1) = (match o, x with Step _, OStep s => terminal s | _, _ => over end) /\
              match o with
              | Step a => c = Step a /\ exists s, x = OStep s /\
                  y = OStep (mk_sout (so_obs s) (so_rew s)
                        (so_done s || ((0 <? elives E (snd w1)) && (elives E (snd w1) <? l))) (so_info s))
              | Reset => c = (if over then Reset else Step noop) /\ y = OReset (out_obs x)
              end).
    { destruct o as [|a].
      - cbn [exec episodic_life est ereset] in Hex. unfold el_reset in Hex. cbn [fst snd] in Hex.
        apply bind_ok in Hex. destruct Hex as ((w & ob) & H1 & H2). inversion H2; subst. clear H2.
        apply bind_ok in H1. destruct H1 as ((e1 & o1) & H1 & H2). inversion H2; subst. clear H2.
        destruct over.
        + exists Reset, (OReset ob). cbn [exec snd fst]. rewrite H1. auto.
        + apply bind_ok in H1. destruct H1 as ((e2 & s) & H1 & H2). inversion H2; subst.
          exists (Step noop), (OStep s). cbn [exec snd fst]. rewrite H1. auto.
      - cbn [exec episodic_life est estep] in Hex. unfold el_step in Hex. cbn [fst snd] in Hex.
        apply bind_ok in Hex. destruct Hex as ((w & ob) & H1 & H2). inversion H2; subst. clear H2.
        apply bind_ok in H1. destruct H1 as ((e1 & s) & H1 & H2). inversion H2; subst. clear H2.
        exists (Step a), (OStep s). cbn [exec snd fst]. rewrite H1. cbn [bind]. split; [reflexivity|].
        split; [reflexivity|]. split; [reflexivity|]. split; [reflexivity|]. exists s. split; [reflexivity|].
        f_equal. f_equal. rewrite andb_comm.
        destruct ((0 <? elives E e1) && (elives E e1 <? l)); [rewrite orb_true_r|rewrite orb_false_r]; reflexivity. }
    destruct w1 as [[l1 over1] e1]. cbn [fst snd] in Hone.
    destruct Hone as (c & x & Hc & -> & -> & Hm).
    destruct (IH _ _ _ _ _ Hrun) as (calls & es & xs & Hr & Hlc & Hlx & Hly & Hle & Hpre & Hi).
    exists (c :: calls), (e1 :: es), (x :: xs).
    split; [cbn [run]; rewrite Hc; cbn [bind]; rewrite Hr; reflexivity|].
    do 4 (split; [cbn; lia|]). split.
    + intros [|i] Hle'.
      * exists e. split; reflexivity.
      * destruct (Hpre i ltac:(cbn in Hle'; lia)) as (ei & Hn & Hrn). exists ei. split; [exact Hn|].
        cbn [firstn run]. rewrite Hc. cbn [bind]. rewrite Hrn. reflexivity.
    + intros [|i] o' Ho.
      * cbn in Ho. inversion Ho; subst o'. exists c, x, y, e, e1. do 5 (split; [reflexivity|]). exact Hm.
      * cbn [nth_error] in Ho. destruct (Hi i o' Ho) as (c' & x' & y' & ei & ej & H1 & H2 & H3 & H4 & H5 & H6).
        exists c', x', y', ei, ej. do 3 (split; [assumption|]). split; [exact H4|]. split; [exact H5|].
        cbn zeta in *. rewrite last_step_S. cbn [Nat.eqb].
        assert (Hb : (if i =? 0 then elives E e1 else elives E ei) = elives E ei).
        { destruct i; [|reflexivity]. cbn in H4. inversion H4; subst. reflexivity. }
        rewrite Hb in H6.
        assert (Hl : match last_step ops xs i with Some s => terminal s
                     | None => match o, x with Step _, OStep s => terminal s | _, _ => over end end =
                     match match last_step ops xs i with Some s => Some s
                     | None => match o, x with Step _, OStep s => Some s | _, _ => None end end
                     with Some s => terminal s | None => over end).
        { destruct (last_step ops xs i); [reflexivity|]. destruct o; [reflexivity|]. destruct x; reflexivity. }
        rewrite <- Hl. exact H6.
Qed.

(** *** FireResetEnv *)
Variables fire second : A.

Lemma fire_reset_log : forall (E : env) e e' ob, ereset (fire_reset fire second E) e = Ok (e', ob) ->
  exists o0 s1 r1 s2 r2,
    ran E e ((Reset, OReset o0) :: (Step fire, OStep s1) :: map (fun o => (Reset, OReset o)) r1
             ++ (Step second, OStep s2) :: map (fun o => (Reset, OReset o)) r2) e' /\
    length r1 = (if terminal s1 then 1 else 0) /\ length r2 = (if terminal s2 then 1 else 0) /\
    ob = so_obs s2.
Proof.
  intros E e e' ob H. cbn [fire_reset ereset] in H. unfold fr_reset in H.
  apply bind_ok in H. destruct H as ((e1 & o0) & Hr & H).
  apply bind_ok in H. destruct H as ((x1 & e2) & H1 & H).
  apply bind_ok in H. destruct H as ((x2 & e3) & H2 & H). inversion H; subst. clear H.
  assert (G : forall e a x e', fire_part E e a = Ok (x, e') ->
     exists s r, ran E e ((Step a, OStep s) :: map (fun o => (Reset, OReset o)) r) e' /\
       length r = (if terminal s then 1 else 0) /\ x = so_obs s).
  { clear. intros e a x e' H. unfold fire_part in H. apply bind_ok in H. destruct H as ((e1 & s) & Hs & H).
    assert (Hex : exec E e (Step a) = Ok (e1, OStep s)) by (cbn [exec]; rewrite Hs; reflexivity).
    destruct (terminal s) eqn:Ht.
    - apply bind_ok in H. destruct H as ((e2 & o) & Hr & H). inversion H; subst. exists s, [o]. rewrite Ht.
      split; [|split; reflexivity]. cbn [map]. eapply ran_cons; [exact Hex|]. apply ran_one. cbn [exec]. rewrite Hr. reflexivity.
    - inversion H; subst. exists s, []. rewrite Ht. split; [|split; reflexivity]. apply ran_one. exact Hex. }
  destruct (G _ _ _ _ H1) as (s1 & r1 & R1 & L1 & _). destruct (G _ _ _ _ H2) as (s2 & r2 & R2 & L2 & ->).
  exists o0, s1, r1, s2, r2. split; [|auto].
  eapply ran_cons; [cbn [exec]; rewrite Hr; reflexivity|].
  exact (ran_app R1 R2).
Qed.

(** *** Reward wrappers *)
Lemma map_reward_run : forall f (E : env) ops e,
  run (map_reward f E) e ops =
  let! r := run E e ops in
  let '(e', xs) := r in
  Ok (e', map (fun x => match x with
                        | OReset o => OReset o
                        | OStep s => OStep (mk_sout (so_obs s) (f (so_rew s)) (so_done s) (so_info s))
                        end) xs).
Proof.
  intros f E. induction ops as [|o ops IH]; intro e; [reflexivity|].
  cbn [run]. destruct o as [|a]; cbn [exec map_reward est estep ereset].
  - destruct (ereset E e) as [[e1 o]|ex]; [|reflexivity]. cbn [bind].
    change (mk_env _ _ _) with (map_reward f E). rewrite IH.
    destruct (run E e1 ops) as [[e2 xs]|ex]; reflexivity.
  - destruct (estep E e a) as [[e1 s]|ex]; [|reflexivity]. cbn [bind].
    change (mk_env _ _ _) with (map_reward f E). rewrite IH.
    destruct (run E e1 ops) as [[e2 xs]|ex]; reflexivity.
Qed.

Lemma qsign_spec : forall q, ((0 < q -> qsign q = 1) /\ (q == 0 -> qsign q = 0) /\ (q < 0 -> qsign q = -1 # 1))%Q.
Proof.
  intros [n d]. unfold qsign, Qlt, Qeq, inject_Z. cbn [Qnum Qden].
  repeat split; intro H; f_equal.
  - apply Z.sgn_pos. lia.
  - apply Z.sgn_null. lia.
  - apply Z.sgn_neg. lia.
Qed.
End Proofs.
