(** Proofs about the updates of ACER. *)
From Coq Require Import Reals List Lra Lia FunctionalExtensionality.
From Verif Require Import Base.PyBase Model.Acer Model.AcerUpdate Spec.AcerSpec Spec.AcerUpdateSpec Proofs.AcerProofs.
Import ListNotations.
Local Open Scope R_scope.

Section L.
  Variable huge : R.
  Variable constrain : out -> out -> (R -> res R) -> R -> res R.
  Variable c : acer_conf.
  Hypothesis M : mild c.

  Lemma importance_one : forall p, 0 < p -> compute_importance p p = Ok 1.
  Proof. intros p P. unfold compute_importance. destruct (Req_EM_T p 0); [lra|]. f_equal. field. lra. Qed.
  Lemma full_one : forall p, full_importance huge p p = 1.
  Proof. intro p. unfold full_importance. destruct (Req_EM_T p 0); [reflexivity|]. field. lra. Qed.
  Lemma no_correction : forall k v (acts : list act), 1 <= k -> Forall (fun x => a_mu x = a_pi x) acts -> full_correction huge k v acts = 0.
  Proof.
    intros k v acts K F. unfold full_correction. induction F as [|x acts E F IH]; [cbn; lra|].
    cbn [map fold_right]. unfold correction_weight at 1. rewrite E, full_one, Rmax_right by lra. lra.
  Qed.
  Lemma acts_recorded : forall s theta, Forall (fun x => a_mu x = a_pi x) (acts_at (recorded s) theta).
  Proof. intros. apply Forall_forall. intros x I. apply in_map_iff in I as (a & <- & _). reflexivity. Qed.
  Lemma pg_recorded : forall s adv theta, s_mu s = None -> possible s ->
    policy_gradient_loss huge true (c_truncation c) (acts_at (recorded s) theta) (o_v (s_out s) 0) (act_at (recorded s) theta (s_action s)) adv =
    policy_gradient_loss huge false (c_truncation c) (acts_at s theta) (o_v (s_out s) 0) (act_at s theta (s_action s)) adv.
  Proof.
    intros s adv theta N P. unfold policy_gradient_loss. cbn [a_pi a_mu a_lp act_at recorded s_out s_mu].
    rewrite importance_one by exact P. cbn [bind]. unfold mild in M. destruct (c_truncation c) as [k|].
    - rewrite no_correction by (auto using acts_recorded). rewrite Rmin_right by lra. f_equal. ring.
    - f_equal. ring.
  Qed.
  Lemma step_recorded : forall s adv theta, s_mu s = None -> possible s -> one_step_pi_loss huge constrain c (recorded s) adv theta = one_step_pi_loss huge constrain c s adv theta.
  Proof.
    intros s adv theta N P. unfold one_step_pi_loss. rewrite N. cbn [recorded s_mu s_out s_avg].
    replace (fun theta => policy_gradient_loss huge true (c_truncation c) (acts_at (recorded s) theta) (o_v (s_out s) 0) (act_at (recorded s) theta (s_action (recorded s))) adv)
      with (fun theta => policy_gradient_loss huge false (c_truncation c) (acts_at s theta) (o_v (s_out s) 0) (act_at s theta (s_action s)) adv);
      [pose proof (pg_recorded s adv theta N P) as E; change (s_action (recorded s)) with (s_action s); destruct (c_trust c); [reflexivity|rewrite E; reflexivity]|].
    apply functional_extensionality. intro th. pose proof (pg_recorded s adv th N P) as E. cbn [recorded s_action] in *. exact (eq_sym E) || exact E.
  Qed.
  Lemma loop_recorded : forall last theta h, Forall (fun s => s_mu s = None /\ possible s) h ->
    loss_loop huge constrain c last theta (map recorded h) = loss_loop huge constrain c last theta h.
  Proof.
    induction h as [|s h IH]; intro F; [reflexivity|]. inversion F as [|? ? [N P] F']; subst. cbn [map loss_loop]. rewrite (IH F').
    destruct (loss_loop huge constrain c last theta h) as [[[pl ql] [qr qo]]|]; [|reflexivity]. cbn [bind].
    unfold rho_of. rewrite N. cbn [recorded s_mu s_out s_action s_reward]. rewrite importance_one by exact P. cbn [bind].
    rewrite step_recorded by assumption. reflexivity.
  Qed.
  Lemma loss_recorded : forall last h theta, Forall (fun s => s_mu s = None /\ possible s) h ->
    acer_loss huge constrain c last (map recorded h) theta = acer_loss huge constrain c last h theta.
  Proof. intros. unfold acer_loss. rewrite loop_recorded by assumption. rewrite map_length. reflexivity. Qed.
End L.

Section H.
  Context {X H : Type}.
  Variable net avg : H -> X -> out * H.
  Lemma remember_none : forall steps h ha, Forall (fun s => s_mu s = None) (fst (remember net avg h ha steps)).
  Proof.
    induction steps as [|[[x a] r] steps IH]; intros h ha; cbn [remember]; [constructor|].
    destruct (net h x) as [o h']. destruct (avg ha x) as [oa ha']. specialize (IH h' ha'). destruct (remember net avg h' ha' steps) as [rest hs].
    constructor; [reflexivity|exact IH].
  Qed.
  Lemma loop_store : forall last terminal steps h ha,
    replay_loop net avg h ha (store net h steps last terminal) = (map recorded (fst (remember net avg h ha steps)), fst (snd (remember net avg h ha steps))).
  Proof.
    intros last terminal. induction steps as [|[[x a] r] steps IH]; intros h ha; [reflexivity|].
    cbn [store remember]. destruct (net h x) as [o h'] eqn:N. cbn [replay_loop t_state]. rewrite N. destruct (avg ha x) as [oa ha'].
    rewrite IH. destruct (remember net avg h' ha' steps) as [rest hs]. reflexivity.
  Qed.
  Lemma store_last : forall last terminal steps h, steps <> [] -> exists pre t, store net h steps last terminal = pre ++ [t] /\ t_next t = last /\ t_terminal t = terminal.
  Proof.
    intros last terminal. induction steps as [|[[x a] r] steps IH]; intros h NE; [congruence|]. cbn [store]. destruct (net h x) as [o h'].
    destruct steps as [|s steps].
    - exists []. eexists. split; [reflexivity|]. split; reflexivity.
    - destruct (IH h') as (pre & t & E & E1 & E2); [congruence|]. rewrite E. match goal with |- exists _ _, ?x :: _ = _ /\ _ => exists (x :: pre), t end. split; [reflexivity|]. auto.
  Qed.
  Lemma replay_own : forall h ha steps last (terminal : bool), steps <> [] ->
    let '(b, own) := on_policy net avg h ha steps (if terminal then None else Some last) in
    from_replay net avg h ha (store net h steps last terminal) = Ok (b, map recorded own) /\ Forall (fun s => s_mu s = None) own.
  Proof.
    intros h ha steps last terminal NE. unfold on_policy, from_replay. rewrite loop_store. pose proof (remember_none steps h ha) as F.
    destruct (store_last last terminal steps h NE) as (pre & t & E & E1 & E2). rewrite E, rev_app_distr. cbn [rev app]. rewrite E1, E2.
    destruct (remember net avg h ha steps) as [own [h1 h2]]. cbn [fst snd] in *. split; [|exact F]. destruct terminal; reflexivity.
  Qed.
End H.

Lemma replay_update : forall (X H : Type) (net avg : H -> X -> out * H) huge constrain c h ha steps last (terminal : bool),
  mild c -> steps <> [] ->
  let '(b, own) := on_policy net avg h ha steps (if terminal then None else Some last) in
  Forall possible own ->
  exists b' replayed, from_replay net avg h ha (store net h steps last terminal) = Ok (b', replayed) /\
    forall theta, acer_loss huge constrain c b' replayed theta = acer_loss huge constrain c b own theta.
Proof.
  intros X H net avg huge constrain c h ha steps last terminal M NE. pose proof (replay_own net avg h ha steps last terminal NE) as R.
  destruct (on_policy net avg h ha steps _) as [b own]. destruct R as [R F]. intro P. exists b, (map recorded own). split; [exact R|].
  intro theta. apply loss_recorded; [exact M|]. rewrite Forall_forall in *. intros s I. split; auto.
Qed.
Lemma mid_episode : forall huge constrain, exists b b' own replayed,
  on_policy counter counter 1%nat 1%nat [(tt, 0%nat, 0)] None = (b, own) /\
  from_replay counter counter 0%nat 0%nat (store counter 1%nat [(tt, 0%nat, 0)] tt true) = Ok (b', replayed) /\
  acer_loss huge constrain plain_conf b own 0 = Ok (3 / 2) /\ acer_loss huge constrain plain_conf b' replayed 0 = Ok 0.
Proof.
  intros huge constrain. do 4 eexists. split; [reflexivity|]. split; [reflexivity|]. split.
  - unfold acer_loss, loss_loop, rho_of, one_step_pi_loss, policy_gradient_loss. cbn [bind plain_conf c_trust c_by_steps c_gamma c_beta c_pi_coef c_q_coef c_use_opc s_mu s_out s_reward s_action o_v o_q o_entropy nth counter fst].
    unfold act_at. cbn. f_equal. lra.
  - unfold acer_loss, loss_loop, rho_of, one_step_pi_loss, policy_gradient_loss.
    cbn [bind plain_conf c_trust c_by_steps c_gamma c_beta c_pi_coef c_q_coef c_use_opc c_truncation s_mu s_out s_reward s_action o_v o_q o_lp o_entropy o_pi nth counter fst
      t_mu t_act t_rew t_terminal t_state t_next act_at a_pi a_mu a_lp].
    rewrite !importance_one by lra. cbn [bind]. unfold full_correction, acts_at.
    cbn [bind s_out o_pi length seq map fold_right act_at a_lp o_lp nth]. apply f_equal. change (INR 0) with 0. lra.
Qed.

Lemma Forall2_len : forall A B (P : A -> B -> Prop) l l', Forall2 P l l' -> length l = length l'.
Proof. intros A B P l l' F. induction F; cbn; congruence. Qed.
Lemma loop_parts : forall huge constrain c last theta h hs pl ql rr, Forall2 numbers h hs -> loss_loop huge constrain c last theta h = Ok (pl, ql, rr) ->
  rr = snd (acer_returns (c_gamma c) true 1 last hs) /\
  exists ls qs, pl = total ls /\ ql = total qs /\ length ls = length h /\ length qs = length h /\
    forall t s, nth_error h t = Some s -> exists ret opc l, nth_error (fst (acer_returns (c_gamma c) true 1 last hs)) t = Some (ret, opc) /\ nth_error ls t = Some l /\
      one_step_pi_loss huge constrain c s ((if c_use_opc c then opc else ret) - o_v (s_out s) 0) theta = Ok l /\
      nth_error qs t = Some ((ret - nth (s_action s) (o_q (s_out s) theta) 0) ^ 2 / 2).
Proof.
  intros huge constrain c last theta h hs pl ql rr F. revert pl ql rr. induction F as [|s x h hs N F IH]; intros pl ql rr E.
  - cbn [loss_loop] in E. injection E as <- <- <-. split; [reflexivity|]. exists [], []. do 4 (split; [reflexivity|]). intros [|t] s E; discriminate.
  - cbn [loss_loop] in E. destruct (loss_loop huge constrain c last theta h) as [[[pl1 ql1] [qr qo]]|]; [|discriminate]. cbn [bind] in E.
    destruct (IH _ _ _ eq_refl) as (R & ls & qs & -> & -> & L1 & L2 & G). destruct N as (NR & N1 & N2 & N3). rewrite NR in E. cbn [bind] in E.
    cbn [acer_returns]. destruct (acer_returns (c_gamma c) true 1 last hs) as [rets [qr' qo']]. cbn [snd fst] in *. injection R as -> ->.
    set (adv := (if c_use_opc c then _ else _) - _) in E. destruct (one_step_pi_loss huge constrain c s adv theta) as [l|] eqn:P; [|discriminate]. cbn [bind] in E.
    injection E as <- <- <-. split; [rewrite N1, N2, N3; reflexivity|]. rewrite N1.
    eexists (l :: ls), (_ :: qs). split; [cbn [total fold_right]; apply Rplus_comm|]. split; [cbn [total fold_right]; rewrite Rplus_comm; reflexivity|].
    split; [cbn [length]; congruence|]. split; [cbn [length]; congruence|]. intros [|t] s' E.
    + cbn [nth_error] in E. injection E as <-. do 3 eexists. split; [reflexivity|]. split; [reflexivity|]. split; [exact P|reflexivity].
    + exact (G t s' E).
Qed.
Lemma loss_parts : forall huge constrain c last theta h hs loss, Forall2 numbers h hs -> acer_loss huge constrain c last h theta = Ok loss ->
  let ret := retrace (c_gamma c) last (Rmin 1) hs in
  let opc := retrace (c_gamma c) last (fun _ => 1) hs in
  exists ls qs, length ls = length h /\ length qs = length h /\
    (forall t s, nth_error h t = Some s ->
      (exists l, nth_error ls t = Some l /\ one_step_pi_loss huge constrain c s ((if c_use_opc c then opc t else ret t) - o_v (s_out s) 0) theta = Ok l) /\
      nth_error qs t = Some ((ret t - nth (s_action s) (o_q (s_out s) theta) 0) ^ 2 / 2)) /\
    loss = let n := if c_by_steps c then INR (length h) else 1 in (c_pi_coef c * total ls + c_q_coef c * total qs) / n.
Proof.
  intros huge constrain c last theta h hs loss F E ret opc. unfold acer_loss in E. destruct (loss_loop huge constrain c last theta h) as [[[pl ql] rr]|] eqn:L; [|discriminate].
  cbn [bind] in E. destruct (loop_parts _ _ _ _ _ _ _ _ _ _ F L) as (_ & ls & qs & -> & -> & L1 & L2 & G). exists ls, qs. split; [exact L1|]. split; [exact L2|]. split.
  - intros t s N. destruct (G t s N) as (rt & op & l & A & B & C & D).
    assert (T : (t < length hs)%nat) by (rewrite <- (Forall2_len _ _ _ _ _ F); apply nth_error_Some; congruence).
    pose proof (retrace_returns (c_gamma c) true 1%nat last hs t T) as RR. rewrite A in RR. injection RR as -> ->.
    split; [exists l; split; [exact B|exact C]|exact D].
  - cbv zeta. destruct (c_by_steps c); injection E as <-; unfold Rdiv; [|rewrite Rinv_1]; ring.
Qed.

Lemma strict_truncation : forall huge constrain, possible fair_step /\
  acer_loss huge constrain strict_conf 0 [fair_step] 0 = Ok 1 /\ acer_loss huge constrain strict_conf 0 (map recorded [fair_step]) 0 = Ok (1 / 2).
Proof.
  intros huge constrain. split; [unfold possible; cbn; lra|]. unfold fair_step, recorded. split.
  - unfold acer_loss, loss_loop, rho_of, one_step_pi_loss, policy_gradient_loss.
    cbn [bind strict_conf c_trust c_by_steps c_gamma c_beta c_pi_coef c_q_coef c_use_opc c_truncation s_mu s_out s_reward s_action o_v o_q o_lp o_entropy o_pi nth act_at a_lp].
    apply f_equal. lra.
  - unfold acer_loss, loss_loop, rho_of, one_step_pi_loss, policy_gradient_loss.
    cbn [map bind strict_conf c_trust c_by_steps c_gamma c_beta c_pi_coef c_q_coef c_use_opc c_truncation s_mu s_out s_avg s_reward s_action o_v o_q o_lp o_entropy o_pi nth act_at a_pi a_mu a_lp].
    rewrite !importance_one by lra. cbn [bind]. rewrite (Rmin_left (1 / 2) 1) by lra. unfold full_correction, acts_at.
    cbn [s_out s_mu o_pi length seq map fold_right act_at a_lp a_q a_pi o_lp o_q nth]. apply f_equal. lra.
Qed.
Lemma two_steps : forall huge constrain, mild plain_conf /\ exists own,
  on_policy counter counter 0%nat 0%nat [(tt, 0%nat, 1); (tt, 0%nat, 1)] (Some tt) = (INR 2, own) /\ length own = 2%nat /\ Forall possible own /\
  acer_loss huge constrain plain_conf (INR 2) own 0 = Ok (15 / 2).
Proof.
  intros huge constrain. split; [unfold mild; cbn [plain_conf c_truncation]; lra|]. eexists. split; [reflexivity|]. split; [reflexivity|]. split.
  - apply Forall_cons; [unfold possible; cbn; lra|]. apply Forall_cons; [unfold possible; cbn; lra|]. apply Forall_nil.
  - unfold acer_loss, loss_loop, rho_of, one_step_pi_loss, policy_gradient_loss.
    cbn [bind plain_conf c_trust c_by_steps c_gamma c_beta c_pi_coef c_q_coef c_use_opc c_truncation s_mu s_out s_reward s_action o_v o_q o_lp o_entropy o_pi nth counter fst act_at a_lp].
    apply f_equal. rewrite (Rmin_left 1 1) by lra. change (INR 0) with 0. change (INR 1) with 1. replace (INR 2) with 2 by (cbn; lra). lra.
Qed.
