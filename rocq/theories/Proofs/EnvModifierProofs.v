From Coq Require Import QArith Qminmax List Arith Lia Lqa.
From Verif Require Import Base.PyBase Model.GymEnv Model.EnvModifiers Spec.EnvModifierSpec.
Import ListNotations.
Local Open Scope nat_scope.

Section P.
Context {A O X : Type}.
Notation obj := (obj A O X).

Lemma action_perform : forall (E : obj) f cs e, perform (make_action_filtered E f) e cs = perform E e (map (map_action f) cs).
Proof.
  induction cs as [|c cs IH]; intros e; [reflexivity|]. cbn [perform map].
  replace (invoke (make_action_filtered E f) e c) with (invoke E e (map_action f c)) by (destruct c; reflexivity).
  destruct (invoke E e (map_action f c)) as [[e1 r]|]; cbn; [|reflexivity]. rewrite IH. reflexivity.
Qed.
Lemma reward_perform : forall (E : obj) f cs e, perform (make_reward_filtered E f) e cs = let! r := perform E e cs in Ok (fst r, map (map_result (fun o => o) f) (snd r)).
Proof.
  induction cs as [|c cs IH]; intros e; [reflexivity|]. cbn [perform map].
  assert (EQ : invoke (make_reward_filtered E f) e c = let! r := invoke E e c in Ok (fst r, map_result (fun o => o) f (snd r))).
  { destruct c; cbn; [destruct (oreset E e) as [[]|]|destruct (ostep E e a) as [[]|]|destruct (orender E e close)|destruct (oclose E e)]; reflexivity. }
  rewrite EQ. destruct (invoke E e c) as [[e1 r]|]; cbn; [|reflexivity]. rewrite IH. destruct (perform E e1 cs) as [[]|]; reflexivity.
Qed.
Lemma action_b : forall (E : obj) f cs, behaviour (make_action_filtered E f) cs = behaviour E (map (map_action f) cs).
Proof. intros. unfold behaviour. cbn. rewrite action_perform. reflexivity. Qed.
Lemma reward_b : forall (E : obj) f cs, behaviour (make_reward_filtered E f) cs = let! r := behaviour E cs in Ok (map (map_result (fun o => o) f) r).
Proof. intros. unfold behaviour. cbn. rewrite reward_perform. destruct (perform E (now E) cs) as [[]|]; reflexivity. Qed.
Lemma filters_ok : forall (ms : list (@modifier A)) fa fr, filters ms = Some (fa, fr) -> forall (E : obj) cs,
  behaviour (modify E ms) cs = let! rs := behaviour E (map (map_action fa) cs) in Ok (map (map_result (fun o => o) fr) rs).
Proof.
  induction ms as [|m ms IH]; intros fa fr H E cs; cbn in H.
  - injection H as <- <-. cbn. replace (map (map_action (fun a => a)) cs) with cs by (symmetry; rewrite <- (map_id cs) at 2; apply map_ext; intros []; reflexivity).
    destruct (behaviour E cs) as [l|]; cbn; [|reflexivity]. f_equal. symmetry. rewrite <- (map_id l) at 2. apply map_ext. intros [| [] |]; reflexivity.
  - destruct (filters ms) as [[ga gr]|]; [|discriminate]. unfold modify. cbn [fold_left]. change (fold_left apply_modifier ms (apply_modifier E m)) with (modify (apply_modifier E m) ms).
    rewrite (IH ga gr eq_refl). destruct m; try discriminate; injection H as <- <-; cbn [apply_modifier].
    + rewrite action_b, map_map. replace (map (fun x => map_action f (map_action ga x)) cs) with (map (map_action (fun a => f (ga a))) cs); [reflexivity|]. apply map_ext. intros []; reflexivity.
    + rewrite reward_b. destruct (behaviour E (map (map_action ga) cs)); cbn; [|reflexivity]. rewrite map_map. f_equal. apply map_ext. intros [| [] |]; reflexivity.
    + unfold make_reward_clipped. rewrite reward_b. destruct (behaviour E (map (map_action ga) cs)); cbn; [|reflexivity]. rewrite map_map. f_equal. apply map_ext. intros [| [] |]; reflexivity.
Qed.

Lemma perform_app : forall (E : obj) c1 c2 e, perform E e (c1 ++ c2) = let! r := perform E e c1 in let! rr := perform E (fst r) c2 in Ok (fst rr, snd r ++ snd rr).
Proof.
  induction c1 as [|c c1 IH]; intros c2 e; cbn.
  - destruct (perform E e c2) as [[]|]; reflexivity.
  - destruct (invoke E e c) as [[e1 r]|]; cbn; [|reflexivity]. rewrite IH. destruct (perform E e1 c1) as [[e2 rs]|]; cbn; [|reflexivity]. destruct (perform E e2 c2) as [[]|]; reflexivity.
Qed.
Lemma made_perform : forall (E : obj) cs e, perform (make_rendered E) e cs =
  let! r := perform E e (flat_map (rendered_calls false true) cs) in Ok (fst r, rendered_results false true cs (snd r)).
Proof.
  induction cs as [|c cs IH]; intros e; [reflexivity|]. cbn [perform flat_map]. rewrite perform_app.
  destruct c as [|a|b|]; cbn.
  - destruct (oreset E e) as [[e1 o]|]; cbn; [|reflexivity]. rewrite IH. destruct (perform E e1 _) as [[]|]; reflexivity.
  - destruct (ostep E e a) as [[e1 o]|]; cbn; [|reflexivity]. destruct (orender E e1 false) as [e2|]; cbn; [|reflexivity]. rewrite IH. destruct (perform E e2 _) as [[]|]; reflexivity.
  - destruct (orender E e b) as [e1|]; cbn; [|reflexivity]. rewrite IH. destruct (perform E e1 _) as [[]|]; reflexivity.
  - destruct (orender E e true) as [e1|]; cbn; [|reflexivity]. destruct (oclose E e1) as [e2|]; cbn; [|reflexivity]. rewrite IH. destruct (perform E e2 _) as [[]|]; reflexivity.
Qed.
Lemma wrap_perform : forall (E : obj) cs e, perform (render_wrapper E) e cs =
  let! r := perform E e (flat_map (rendered_calls true false) cs) in Ok (fst r, rendered_results true false cs (snd r)).
Proof.
  induction cs as [|c cs IH]; intros e; [reflexivity|]. cbn [perform flat_map]. rewrite perform_app.
  destruct c as [|a|b|]; cbn.
  - destruct (oreset E e) as [[e1 o]|]; cbn; [|reflexivity]. destruct (orender E e1 false) as [e2|]; cbn; [|reflexivity]. rewrite IH. destruct (perform E e2 _) as [[]|]; reflexivity.
  - destruct (ostep E e a) as [[e1 o]|]; cbn; [|reflexivity]. destruct (orender E e1 false) as [e2|]; cbn; [|reflexivity]. rewrite IH. destruct (perform E e2 _) as [[]|]; reflexivity.
  - destruct (orender E e b) as [e1|]; cbn; [|reflexivity]. rewrite IH. destruct (perform E e1 _) as [[]|]; reflexivity.
  - destruct (oclose E e) as [e2|]; cbn; [|reflexivity]. rewrite IH. destruct (perform E e2 _) as [[]|]; reflexivity.
Qed.
Lemma rendered_ok : forall (E : obj) cs, behaviour (make_rendered E) cs = let! rs := behaviour E (flat_map (rendered_calls false true) cs) in Ok (rendered_results false true cs rs).
Proof. intros. unfold behaviour. cbn [now make_rendered]. rewrite made_perform. destruct (perform E (now E) _) as [[]|]; reflexivity. Qed.
Lemma wrapper_ok : forall (E : obj) cs, behaviour (render_wrapper E) cs = let! rs := behaviour E (flat_map (rendered_calls true false) cs) in Ok (rendered_results true false cs rs).
Proof. intros. unfold behaviour. cbn [now render_wrapper]. rewrite wrap_perform. destruct (perform E (now E) _) as [[]|]; reflexivity. Qed.

Definition observation_step (ob : option O) (r : result O X) : option O := match r with RReset o => Some o | RStep s => Some (so_obs s) | RNone => ob end.
Lemma cast_perform : forall {O'} (astype : O -> O') (E : obj) cs s, perform (cast_observation astype E) s cs =
  let! r := perform E (snd s) cs in Ok ((fold_left observation_step (snd r) (fst s), fst r), map (map_result astype (fun r => r)) (snd r)).
Proof.
  induction cs as [|c cs IH]; intros [ob e]; [reflexivity|]. cbn [perform fst snd].
  destruct c as [|a|b|]; cbn.
  - destruct (oreset E e) as [[e1 o]|]; cbn; [|reflexivity]. rewrite IH. cbn. destruct (perform E e1 cs) as [[]|]; reflexivity.
  - destruct (ostep E e a) as [[e1 o]|]; cbn; [|reflexivity]. rewrite IH. cbn. destruct (perform E e1 cs) as [[]|]; reflexivity.
  - destruct (orender E e b) as [e1|]; cbn; [|reflexivity]. rewrite IH. cbn. destruct (perform E e1 cs) as [[]|]; reflexivity.
  - destruct (oclose E e) as [e1|]; cbn; [|reflexivity]. rewrite IH. cbn. destruct (perform E e1 cs) as [[]|]; reflexivity.
Qed.
Lemma cast_ok : forall {O'} (astype : O -> O') (E : obj) cs,
  behaviour (cast_observation astype E) cs = (let! rs := behaviour E cs in Ok (map (map_result astype (fun r => r)) rs)) /\
  (forall s rs, perform (cast_observation astype E) (now (cast_observation astype E)) cs = Ok (s, rs) -> exists rs0, behaviour E cs = Ok rs0 /\ fst s = last_observation rs0).
Proof.
  intros. unfold behaviour. rewrite cast_perform. cbn [now cast_observation snd fst]. destruct (perform E (now E) cs) as [[e l]|]; cbn.
  - split; [reflexivity|]. intros s rs H. injection H as <- <-. exists l. split; reflexivity.
  - split; [reflexivity|]. discriminate.
Qed.

(** Limits and repetitions. *)
Lemma steps_only : forall (E : obj) as_ e e' rs, perform E e (map KStep as_) = Ok (e', rs) -> length (dones rs) = length as_.
Proof.
  induction as_ as [|a as_ IH]; intros e e' rs H; cbn in H; [injection H as <- <-; reflexivity|].
  destruct (ostep E e a) as [[e1 x]|]; cbn in H; [|discriminate]. destruct (perform E e1 (map KStep as_)) as [[e2 r2]|] eqn:E2; cbn in H; [|discriminate].
  injection H as <- <-. cbn. f_equal. exact (IH _ _ _ E2).
Qed.
Lemma loop_endless : forall (E : obj) a n q last e e' x, endless E -> (forall y, last = Some y -> so_done y = false) -> repeated_loop E a n q last e = Ok (e', x) -> so_done x = false.
Proof.
  induction n as [|n IH]; intros q last e e' x HE HL H; cbn in H.
  - destruct last as [y|]; [|discriminate]. injection H as <- <-. cbn. exact (HL y eq_refl).
  - destruct (ostep E e a) as [[e1 y]|] eqn:ES; cbn in H; [|discriminate]. pose proof (HE _ _ _ _ ES) as D. rewrite D in H.
    apply (IH _ _ _ _ _ HE) in H; [assumption|]. intros z Z. injection Z as <-. assumption.
Qed.
Lemma limit_run : forall (E : obj) L as_ t e s rs, endless E -> perform (make_timestep_limited E L) (t, e) (map KStep as_) = Ok (s, rs) ->
  dones rs = map (fun k => Z.leb L (Z.of_nat k)) (seq t (length as_)).
Proof.
  induction as_ as [|a as_ IH]; intros t e s rs HE H; cbn in H; [injection H as <- <-; reflexivity|].
  destruct (ostep E e a) as [[e1 x]|] eqn:ES; cbn in H; [|discriminate]. destruct (perform _ _ _) as [[e2 r2]|] eqn:E2 in H; cbn in H; [|discriminate].
  injection H as <- <-. apply IH in E2; [|assumption]. cbn [dones flat_map]. cbn. unfold dones in E2. rewrite E2, (HE _ _ _ _ ES). rewrite Nat.add_1_r.
  destruct (Z.leb L (Z.of_nat t)); reflexivity.
Qed.
Lemma repeated_endless : forall (E : obj) n, endless E -> endless (make_action_repeated E n).
Proof. intros E n HE e a e' x H. cbn in H. apply (loop_endless E a n 0%Q None e e' x HE) in H; [assumption|discriminate]. Qed.

(** One repeated step on the limited environment, [t] counting from 1. *)
Lemma repeat_limited : forall (E : obj) a L n q last t e s x, endless E -> (forall y, last = Some y -> so_done y = false) ->
  repeated_loop (make_timestep_limited E L) a n q last (t, e) = Ok (s, x) ->
  (so_done x = false /\ fst s = t + n /\ (n = 0 \/ (Z.of_nat (t + n) <= L)%Z)) \/ (so_done x = true /\ 0 < n /\ (L < Z.of_nat (fst s))%Z /\ t < fst s <= t + n).
Proof.
  induction n as [|n IH]; intros q last t e s x HE HL H; cbn in H.
  - destruct last as [y|]; [|discriminate]. injection H as <- <-. left. cbn. rewrite Nat.add_0_r. auto.
  - destruct (ostep E e a) as [[e1 y]|] eqn:ES; cbn in H; [|discriminate]. rewrite (HE _ _ _ _ ES) in H.
    destruct (Z.leb_spec L (Z.of_nat t)) as [LE|GT].
    + injection H as <- <-. right. cbn. repeat split; try lia.
    + apply IH in H; [|assumption|intros z Z; injection Z as <-; reflexivity]. destruct H as [(D & F & N)|(D & N & F & B)].
      * left. repeat split; [assumption|lia|]. right. destruct N as [->|N]; lia.
      * right. repeat split; [assumption|lia|lia|lia|lia].
Qed.
Lemma repeat_limited_run : forall (E : obj) L n as_ k t e s rs, 0 < n -> endless E ->
  perform (make_action_repeated (make_timestep_limited E L) n) (t, e) (map KStep as_) = Ok (s, rs) ->
  (t = 1 + k * n /\ (k = 0 \/ (Z.of_nat (k * n) < L)%Z)) \/ ((L < Z.of_nat t)%Z /\ (L <= Z.of_nat (k * n))%Z) ->
  dones rs = map (fun j => Z.leb L (Z.of_nat (j * n))) (seq (S k) (length as_)).
Proof.
  induction as_ as [|a as_ IH]; intros k t e s rs HN HE H INV; cbn [map perform invoke] in H; [injection H as <- <-; reflexivity|].
  destruct (ostep (make_action_repeated (make_timestep_limited E L) n) (t, e) a) as [[[t1 e1] x]|] eqn:ES; cbn [bind] in H; [|discriminate].
  cbn [fst snd] in H. match type of H with context [perform ?F ?s ?l] => destruct (perform F s l) as [[e2 r2]|] eqn:E2; cbn [bind fst snd] in H; [|discriminate] end.
  injection H as <- <-. cbn [dones flat_map snd fst app] in *. cbn in ES.
  apply (repeat_limited E a L n 0%Q None t e (t1, e1) x HE) in ES; [|discriminate]. cbn [fst] in ES.
  assert (M : S k * n = k * n + n) by lia.
  cbn [length seq map]. destruct ES as [(D & F & N)|(D & N & F & B)]; rewrite D.
  - destruct N as [N|N]; [lia|]. assert (LT : (Z.of_nat (S k * n) < L)%Z) by (destruct INV as [(-> & _)|(I1 & I2)]; lia).
    replace (Z.leb L (Z.of_nat (S k * n))) with false by (symmetry; apply Z.leb_gt; lia). f_equal. change (flat_map _ r2) with (dones r2).
    eapply IH; [assumption|assumption|exact E2|]. left. destruct INV as [(-> & _)|(I1 & I2)]; [split; [lia|right; lia]|lia].
  - replace (Z.leb L (Z.of_nat (S k * n))) with true by (symmetry; apply Z.leb_le; destruct INV as [(-> & _)|(I1 & I2)]; lia). f_equal. change (flat_map _ r2) with (dones r2).
    eapply IH; [assumption|assumption|exact E2|]. right. split; [lia|]. destruct INV as [(-> & _)|(I1 & I2)]; lia.
Qed.
Lemma orders_ok : forall (E : obj) L n pre as_ rs, 0 < n -> endless E -> pre = [] \/ pre = [KReset] ->
  (behaviour (modify E [Limited L; Repeated n]) (pre ++ map KStep as_) = Ok rs -> dones rs = map (fun k => Z.leb L (Z.of_nat (k * n))) (seq 1 (length as_))) /\
  (behaviour (modify E [Repeated n; Limited L]) (pre ++ map KStep as_) = Ok rs -> dones rs = map (fun k => Z.leb L (Z.of_nat k)) (seq 1 (length as_))).
Proof.
  intros E L n pre as_ rs HN HE HP. unfold behaviour, modify. cbn [fold_left apply_modifier]. destruct HP as [->| ->]; cbn [app].
  { split; intros H; match type of H with context [perform ?F ?s ?l] => destruct (perform F s l) as [[s2 r2]|] eqn:E2; cbn [bind fst snd] in H; [|discriminate] end; injection H as <-.
    - eapply (repeat_limited_run E L n as_ 0 1 (now E)); [assumption|assumption|exact E2|]. left. split; [reflexivity|left; reflexivity].
    - eapply (limit_run (make_action_repeated E n) L as_ 1); [apply repeated_endless; assumption|exact E2]. }
  split; intros H.
  - cbn [perform invoke now make_action_repeated make_timestep_limited oreset] in H. cbn [bind snd fst] in H.
    destruct (oreset E (now E)) as [[e o]|]; cbn [bind fst snd] in H; [|discriminate].
    match type of H with context [perform ?F ?s ?l] => destruct (perform F s l) as [[s2 r2]|] eqn:E2; cbn [bind fst snd] in H; [|discriminate] end.
    injection H as <-. cbn [dones flat_map app]. change (flat_map _ r2) with (dones r2). eapply (repeat_limited_run E L n as_ 0 1 e); [assumption|assumption|exact E2|]. left. split; [reflexivity|left; reflexivity].
  - cbn [perform invoke now make_action_repeated make_timestep_limited oreset] in H. cbn [bind snd fst] in H.
    destruct (oreset E (now E)) as [[e o]|]; cbn [bind fst snd] in H; [|discriminate].
    match type of H with context [perform ?F ?s ?l] => destruct (perform F s l) as [[s2 r2]|] eqn:E2; cbn [bind fst snd] in H; [|discriminate] end.
    injection H as <-. cbn [dones flat_map app]. change (flat_map _ r2) with (dones r2).
    eapply (limit_run (make_action_repeated E n) L as_ 1 e); [apply repeated_endless; assumption|exact E2].
Qed.

Lemma clip_bounds : forall lo hi x, (lo <= hi)%Q -> (lo <= Qmin (Qmax x lo) hi <= hi)%Q.
Proof. intros. split; [apply Q.min_glb; [apply Q.le_max_r|assumption]|apply Q.le_min_r]. Qed.
Lemma clip_in : forall lo hi x, (lo <= x <= hi)%Q -> (Qmin (Qmax x lo) hi == x)%Q.
Proof. intros lo hi x [H1 H2]. rewrite Q.min_l; rewrite Q.max_l; try assumption; reflexivity. Qed.
Lemma rewards_all : forall (P : Q -> Prop) (E : obj), (forall e a e' x, ostep E e a = Ok (e', x) -> P (so_rew x)) -> forall cs rs, behaviour E cs = Ok rs -> Forall P (rewards rs).
Proof.
  intros P E HP cs rs H. unfold behaviour in H. destruct (perform E (now E) cs) as [[e l]|] eqn:EP; [|discriminate]. cbn in H. injection H as ->.
  revert EP. generalize (now E). revert e rs. induction cs as [|c cs IH]; intros e rs s H; cbn in H; [injection H as <- <-; constructor|].
  destruct (invoke E s c) as [[s1 r]|] eqn:EI; cbn in H; [|discriminate]. destruct (perform E s1 cs) as [[s2 r2]|] eqn:E2; cbn in H; [|discriminate]. injection H as <- <-.
  unfold rewards. cbn. apply Forall_app. split; [|eapply IH; eassumption].
  destruct c as [|a|b|]; cbn in EI.
  - destruct (oreset E s) as [[]|]; [|discriminate]. cbn in EI. injection EI as <- <-. constructor.
  - destruct (ostep E s a) as [[]|] eqn:ES; [|discriminate]. cbn in EI. injection EI as <- <-. constructor; [eapply HP; eassumption|constructor].
  - destruct (orender E s b); [|discriminate]. cbn in EI. injection EI as <- <-. constructor.
  - destruct (oclose E s); [|discriminate]. cbn in EI. injection EI as <- <-. constructor.
Qed.
Lemma clipped_step : forall (E : obj) lo hi e a e' x, (lo <= hi)%Q -> ostep (make_reward_clipped E lo hi) e a = Ok (e', x) -> (lo <= so_rew x <= hi)%Q.
Proof. intros E lo hi e a e' x LH H. cbn in H. destruct (ostep E e a) as [[]|]; [|discriminate]. cbn in H. injection H as <- <-. cbn. apply clip_bounds. assumption. Qed.
Lemma loop_rewards : forall (E : obj) lo hi a, (forall e e' x, ostep E e a = Ok (e', x) -> (lo <= so_rew x <= hi)%Q) -> forall n m q last e e' x,
  (inject_Z (Z.of_nat m) * lo <= q <= inject_Z (Z.of_nat m) * hi)%Q -> (last <> None -> 0 < m) -> repeated_loop E a n q last e = Ok (e', x) ->
  exists k, 0 < k <= m + n /\ (inject_Z (Z.of_nat k) * lo <= so_rew x <= inject_Z (Z.of_nat k) * hi)%Q.
Proof.
  intros E lo hi a HB. induction n as [|n IH]; intros m q last e e' x HQ HL H; cbn in H.
  - destruct last as [y|]; [|discriminate]. injection H as <- <-. exists m. cbn. assert (0 < m) by (apply HL; discriminate). split; [lia|assumption].
  - destruct (ostep E e a) as [[e1 y]|] eqn:ES; cbn in H; [|discriminate]. pose proof (HB _ _ _ ES) as B.
    assert (Q2 : (inject_Z (Z.of_nat (S m)) * lo <= q + so_rew y <= inject_Z (Z.of_nat (S m)) * hi)%Q).
    { replace (Z.of_nat (S m)) with (Z.of_nat m + 1)%Z by lia. rewrite inject_Z_plus. change (inject_Z 1) with 1%Q. revert HQ B. generalize (inject_Z (Z.of_nat m)). intros z HQ B.
      rewrite !Qmult_plus_distr_l, !Qmult_1_l. lra. }
    destruct (so_done y).
    + injection H as <- <-. exists (S m). split; [lia|exact Q2].
    + apply (IH (S m)) in H; [|assumption|intros _; lia]. destruct H as (k & K1 & K2). exists k. split; [lia|assumption].
Qed.
Lemma clip_ok : forall (E : obj) lo hi cs rs, (lo <= hi)%Q ->
  (behaviour (make_reward_clipped E lo hi) cs = Ok rs -> Forall (fun r => (lo <= r <= hi)%Q) (rewards rs)) /\
  (forall n, behaviour (modify E [Repeated n; RewardClipped lo hi]) cs = Ok rs -> Forall (fun r => (lo <= r <= hi)%Q) (rewards rs)) /\
  (forall n, behaviour (modify E [RewardClipped lo hi; Repeated n]) cs = Ok rs ->
     Forall (fun r => exists k, 0 < k <= n /\ (inject_Z (Z.of_nat k) * lo <= r <= inject_Z (Z.of_nat k) * hi)%Q) (rewards rs)) /\
  (forall x, (lo <= x <= hi)%Q -> (Qmin (Qmax x lo) hi == x)%Q).
Proof.
  intros E lo hi cs rs LH. split; [|split; [|split]].
  - apply rewards_all. intros e a e' x. apply clipped_step. assumption.
  - intros n. unfold modify. cbn [fold_left apply_modifier]. apply rewards_all. intros e a e' x. apply clipped_step. assumption.
  - intros n. unfold modify. cbn [fold_left apply_modifier]. apply rewards_all. intros e a e' x H. cbn in H.
    apply (loop_rewards (make_reward_clipped E lo hi) lo hi a) with (m := 0) in H; [exact H| | |].
    + intros s s' y. apply clipped_step. assumption.
    + cbn. rewrite !Qmult_0_l. split; apply Qle_refl.
    + congruence.
  - intros x. apply clip_in.
Qed.
End P.
