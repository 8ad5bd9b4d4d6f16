From Coq Require Import QArith.
From Verif Require Import Base.PyBase Base.Effects Model.TrainAgent Model.Evaluator Spec.EvaluatorSpec.
Local Open Scope nat_scope.

Definition ev_inv (m0 : Q) (save_best : bool) (done : list ecall) (e : evaluator) : Prop :=
  ev_lines e = done /\ is_max m0 (map ec_score done) (ev_max e) /\
  (if save_best then records m0 (map ec_score done) (ev_best e) else ev_best e = []).

Lemma floor_crosses k t t' : (0 < k)%Z -> (t <= t')%Z -> ((t - t mod k + k <= t')%Z <-> crosses k t t').
Proof.
  intros Hk Ht. pose proof (Z.div_mod t k ltac:(lia)) as H. pose proof (Z.mod_pos_bound t k Hk) as Hb.
  split.
  - intros Hc. exists (t / k + 1)%Z. lia.
  - intros (m & H1 & H2). assert (t / k < m)%Z by nia. nia.
Qed.

Lemma floor_same k t t' : (0 < k)%Z -> (t <= t')%Z -> ~ crosses k t t' -> (t - t mod k = t' - t' mod k)%Z.
Proof.
  intros Hk Ht Hc. assert (Hd : (t / k = t' / k)%Z).
  { pose proof (Z.div_le_mono t t' k Hk Ht). destruct (Z.eq_dec (t/k) (t'/k)); [auto|]. exfalso. apply Hc.
    exists (t' / k)%Z. pose proof (Z.div_mod t k ltac:(lia)). pose proof (Z.mod_pos_bound t k Hk).
    pose proof (Z.div_mod t' k ltac:(lia)). pose proof (Z.mod_pos_bound t' k Hk). nia. }
  pose proof (Z.div_mod t k ltac:(lia)). pose proof (Z.div_mod t' k ltac:(lia)). rewrite Hd in *. lia.
Qed.

Lemma ev_update m0 sb done e t k m :
  ev_inv m0 sb done e -> ev_inv m0 sb (done ++ [(t, k, m)]) (evaluate_and_update_max_score sb e t k m).
Proof.
  intros (Hl & [Hin Hmax] & Hb). unfold evaluate_and_update_max_score. cbn [ev_prev ev_max ev_lines ev_best].
  destruct (Qle_bool m (ev_max e)) eqn:El; cbn [negb].
  - apply Qle_bool_iff in El. split; [cbn [ev_lines]; rewrite Hl; auto|]. split.
    + cbn [ev_max]. rewrite map_app. split.
      * destruct Hin as [<-|Hin]; [left; auto|right; apply in_or_app; auto].
      * intros x [<-|Hx]; [apply Hmax; left; auto|]. apply in_app_or in Hx as [Hx|[<-|[]]]; [apply Hmax; right; auto|exact El].
    + cbn [ev_best]. destruct sb; auto. rewrite map_app. apply rec_old; auto. exists (ev_max e). auto.
  - assert (Hlt : (ev_max e < m)%Q) by (apply Qnot_le_lt; intros H; apply Qle_bool_iff in H; congruence).
    split; [cbn [ev_lines]; rewrite Hl; auto|]. split.
    + cbn [ev_max]. rewrite map_app. split; [right; apply in_or_app; right; left; auto|].
      intros x [<-|Hx].
      * apply Qlt_le_weak. eapply Qle_lt_trans; [|exact Hlt]. apply Hmax. left; auto.
      * apply in_app_or in Hx as [Hx|[<-|[]]]; [|apply Qle_refl].
        apply Qlt_le_weak. eapply Qle_lt_trans; [|exact Hlt]. apply Hmax. right; auto.
    + cbn [ev_best]. destruct sb; auto. rewrite map_app. apply rec_new; auto.
      intros y Hy. eapply Qle_lt_trans; [|exact Hlt]. apply Hmax, Hy.
Qed.

Lemma ev_run_ok m0 sb k : (0 < k)%Z -> forall calls t0 done e, ev_inv m0 sb done e -> (ev_prev e = t0 - t0 mod k)%Z ->
  nondecreasing t0 calls ->
  let '(e', outs) := ev_run k sb e calls in on_schedule k t0 calls outs /\ ev_inv m0 sb (done ++ evaluated calls outs) e'.
Proof.
  intros Hk. induction calls as [|[[t n] m] calls IH]; intros t0 done e Hinv Hp Hnd.
  { cbn. split; [constructor|]. now rewrite app_nil_r. }
  destruct Hnd as [Ht Hnd]. cbn [ec_t fst snd] in Ht, Hnd. cbn [ev_run]. unfold evaluate_if_necessary.
  destruct (ev_prev e + k <=? t)%Z eqn:E.
  - assert (Hc : crosses k t0 t) by (apply floor_crosses; auto; lia).
    pose proof (ev_update m0 sb done e t n m Hinv) as Hup.
    set (e1 := evaluate_and_update_max_score sb e t n m) in *.
    specialize (IH t (done ++ [(t, n, m)]) (mk_evaluator (t - t mod k) (ev_max e1) (ev_lines e1) (ev_best e1)) Hup eq_refl Hnd).
    destruct (ev_run _ _ _ _) as [e' outs]. destruct IH as [H1 H2]. split; [apply (@os_yes k t0 (t, n, m)); auto|].
    cbn [evaluated]. now rewrite <- app_assoc in H2.
  - assert (Hc : ~ crosses k t0 t) by (rewrite <- floor_crosses by auto; lia).
    specialize (IH t done e Hinv). rewrite Hp in IH. specialize (IH (floor_same _ _ _ Hk Ht Hc) Hnd).
    destruct (ev_run _ _ _ _) as [e' outs]. destruct IH as [H1 H2]. split; [apply (@os_no k t0 (t, n, m)); auto|auto].
Qed.

Lemma evaluator_ok m0 sb k offset calls : (0 < k)%Z -> nondecreasing offset calls ->
  let '(e, outs) := ev_run k sb (evaluator_init m0 k offset) calls in
  on_schedule k offset calls outs /\
  ev_lines e = evaluated calls outs /\
  is_max m0 (map ec_score (evaluated calls outs)) (ev_max e) /\
  (if sb then records m0 (map ec_score (evaluated calls outs)) (ev_best e) else ev_best e = []).
Proof.
  intros Hk Hnd. apply (ev_run_ok m0 sb k Hk calls offset [] (evaluator_init m0 k offset)); auto.
  split; [auto|]. split; [split; [left; auto|intros x [<-|[]]; apply Qle_refl]|].
  cbn. destruct sb; auto. constructor.
Qed.
