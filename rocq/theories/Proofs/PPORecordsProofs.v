From Coq Require Import Reals Permutation.
From Coq Require Import Lra.
From Verif Require Import Base.PyBase Model.Categorical Model.PPOLoss Model.PPORecords Spec.PPORecordsSpec Proofs.WrappersProofs.
Set Implicit Arguments.
Local Open Scope nat_scope.

Section P.
Variables O A F H P N D : Type.
Variable net : P -> H -> F -> (D * R) * H.
Variable zero : H.
Variable log_prob : D -> A -> R.
Variable phi : O -> F.
Variable normalize : N -> F -> F.
Variable experience : N -> list F -> N.
Variable recurrent : bool.
Variable interval : nat.
Variable train : P -> option N -> list (list (rec O A H)) -> P.
Notation ev := (evaluate net zero phi normalize recurrent).
Notation feat := (feature phi normalize).
Notation tr := (tr O A H).
Notation slot := (slot O A H).
Notation agent := (agent O A H P N).

Definition good (p : P) (n : option N) (t : tr) : Prop := t_next_rs t = snd (ev p n (t_rs t) (t_state t)).
Definition plain (t : tr) : Prop := recurrent = false -> t_rs t = None /\ t_next_rs t = None.
Definition act_of (p : P) (n : option N) (h : option H) (o : O) (a : A) : O * A * R * R := (o, a, log_prob (fst (fst (ev p n h o))) a, snd (fst (ev p n h o))).
Definition acted p n (t : tr) := act_of p n (t_rs t) (t_state t) (t_action t).
Fixpoint linked (ep : list tr) : Prop :=
  match ep with
  | t :: ((t' :: _) as rest) => (t_next t = t_state t' /\ t_next_rs t = t_rs t') /\ linked rest
  | _ => True
  end.
Definition chunk p n (ep : list tr) : Prop := Forall (good p n) ep /\ linked ep /\ Forall plain ep.
Definition rec_of p n (t : tr) : rec O A H :=
  mk_rec t (log_prob (fst (fst (ev p n (t_rs t) (t_state t)))) (t_action t)) (snd (fst (ev p n (t_rs t) (t_state t)))) (snd (fst (ev p n (t_next_rs t) (t_next t)))).

Lemma linked_app : forall e1 e2, linked (e1 ++ e2) -> linked e1 /\ linked e2.
Proof.
  induction e1 as [|t e1 IH]; intros e2 L; [split; [exact I|exact L]|]. destruct e1 as [|t' e1].
  - split; [exact I|]. cbn in L. destruct e2; [exact I|apply L].
  - cbn [app] in L. destruct L as [L1 L2]. destruct (IH e2 L2) as [A1 A2]. split; [split; [exact L1|exact A1]|exact A2].
Qed.
Lemma linked_snoc : forall ep t, linked ep -> (forall l t0, ep = l ++ [t0] -> t_next t0 = t_state t /\ t_next_rs t0 = t_rs t) -> linked (ep ++ [t]).
Proof.
  induction ep as [|t0 ep IH]; intros t L X; [exact I|]. destruct ep as [|t1 ep].
  - cbn. split; [apply (X [] t0); reflexivity|exact I].
  - cbn [app]. destruct L as [L1 L2]. split; [exact L1|]. apply IH; [exact L2|]. intros l t2 E. apply (X (t0 :: l) t2). rewrite E. reflexivity.
Qed.
Lemma chunk_infix : forall p n e1 e2 e3, chunk p n (e1 ++ e2 ++ e3) -> chunk p n e2.
Proof.
  intros p n e1 e2 e3 (G & L & PL). apply Forall_app in G. destruct G as [_ G]. apply Forall_app in G. apply Forall_app in PL. destruct PL as [_ PL]. apply Forall_app in PL.
  apply linked_app in L. destruct L as [_ L]. apply linked_app in L. split; [apply G|]. split; [apply L|apply PL].
Qed.

(** Running the network along an episode gives what it gave when acting. *)
Lemma ev_rec : forall p n h o, recurrent = true -> net p (or_zero zero h) (feat n o) = (fst (ev p n h o), or_zero zero (snd (ev p n h o))).
Proof. intros p n h o RC. unfold evaluate. destruct (net p (or_zero zero h) (feat n o)) as [dv h']. rewrite RC. reflexivity. Qed.
Lemma ev_plain : forall p n o, fst (ev p n None o) = fst (net p zero (feat n o)).
Proof. intros p n o. unfold evaluate. cbn. destruct (net p zero (feat n o)) as [dv h']. reflexivity. Qed.
Lemma along_states : forall p n, recurrent = true -> forall ep h, Forall (good p n) ep -> linked ep -> (forall t l, ep = t :: l -> t_rs t = h) ->
  along net p (or_zero zero h) (map (feat n) (map (@t_state O A H) ep)) = map (fun t => fst (ev p n (t_rs t) (t_state t))) ep.
Proof.
  intros p n RC ep. induction ep as [|t ep IH]; intros h G L X; [reflexivity|]. cbn [map along]. pose proof (X t ep eq_refl) as <-. rewrite (ev_rec _ _ _ _ RC).
  f_equal. inversion G as [|? ? G1 G2]; subst. rewrite <- G1. apply IH; [exact G2| |].
  - destruct ep; [exact I|apply L].
  - intros t' l ->. symmetry. apply L.
Qed.
Lemma along_nexts : forall p n, recurrent = true -> forall ep h, Forall (good p n) ep -> linked ep -> (forall t l, ep = t :: l -> t_next_rs t = h) ->
  along net p (or_zero zero h) (map (feat n) (map (@t_next O A H) ep)) = map (fun t => fst (ev p n (t_next_rs t) (t_next t))) ep.
Proof.
  intros p n RC ep. induction ep as [|t ep IH]; intros h G L X; [reflexivity|]. cbn [map along]. pose proof (X t ep eq_refl) as <-. rewrite (ev_rec _ _ _ _ RC).
  f_equal. inversion G as [|? ? G1 G2]; subst. apply IH; [exact G2| |].
  - destruct ep; [exact I|apply L].
  - intros t' l ->. destruct L as [[L1 L2] _]. inversion G2 as [|? ? G3 _]; subst. rewrite G3, <- L1, <- L2. reflexivity.
Qed.
Lemma forward_map : forall p n (f : tr -> O) (g : tr -> option H) (q : tr -> D * R) eps firsts,
  Forall2 (fun ep t0 => along net p (or_zero zero (g t0)) (map (feat n) (map f ep)) = map q ep) eps firsts ->
  forward net zero phi normalize p n (map (map f) eps) (map g firsts) = map q (concat eps).
Proof.
  intros p n f g q eps firsts HF. unfold forward. induction HF as [|ep t0 eps firsts E HF IH]; [reflexivity|]. cbn. rewrite IH, E, map_app. reflexivity.
Qed.
Lemma firsts_of : forall (eps : list (list tr)) firsts, mapM (@first_of O A H) eps = Ok firsts -> Forall2 (fun ep t0 => exists l, ep = t0 :: l) eps firsts.
Proof.
  induction eps as [|ep eps IH]; intros firsts E; cbn in E; [inversion E; constructor|]. destruct ep as [|t ep]; [discriminate|]. cbn in E.
  destruct (mapM (@first_of O A H) eps) as [fs|x] eqn:M; [|discriminate]. cbn in E. inversion E; subst. constructor; [exists ep; reflexivity|]. apply IH. reflexivity.
Qed.
Lemma firsts_ok : forall (eps : list (list tr)), Forall (fun ep => ep <> []) eps -> exists firsts, mapM (@first_of O A H) eps = Ok firsts.
Proof.
  induction eps as [|ep eps IH]; intros NE; [exists []; reflexivity|]. inversion NE as [|? ? N1 N2]; subst. destruct (IH N2) as [fs M]. destruct ep as [|t ep]; [congruence|].
  exists (t :: fs). cbn. rewrite M. reflexivity.
Qed.
Lemma states_forward : forall p n, recurrent = true -> forall eps firsts, Forall (chunk p n) eps -> Forall2 (fun ep t0 => exists l, ep = t0 :: l) eps firsts ->
  Forall2 (fun ep t0 => along net p (or_zero zero (t_rs t0)) (map (feat n) (map (@t_state O A H) ep)) = map (fun t => fst (ev p n (t_rs t) (t_state t))) ep) eps firsts.
Proof.
  intros p n RC eps firsts C F2. induction F2 as [|ep t0 eps firsts (l & E) F2 IH]; [constructor|]. inversion C as [|? ? C1 C2]; subst. constructor; [|apply IH, C2].
  destruct C1 as (G & L & _). apply along_states; [exact RC|exact G|exact L|]. intros t l' E. inversion E; reflexivity.
Qed.
Lemma nexts_forward : forall p n, recurrent = true -> forall eps firsts, Forall (chunk p n) eps -> Forall2 (fun ep t0 => exists l, ep = t0 :: l) eps firsts ->
  Forall2 (fun ep t0 => along net p (or_zero zero (t_next_rs t0)) (map (feat n) (map (@t_next O A H) ep)) = map (fun t => fst (ev p n (t_next_rs t) (t_next t))) ep) eps firsts.
Proof.
  intros p n RC eps firsts C F2. induction F2 as [|ep t0 eps firsts (l & E) F2 IH]; [constructor|]. inversion C as [|? ? C1 C2]; subst. constructor; [|apply IH, C2].
  destruct C1 as (G & L & _). apply along_nexts; [exact RC|exact G|exact L|]. intros t l' E. inversion E; reflexivity.
Qed.
Lemma zip_map : forall (f g : tr -> D * R) l, zip_records log_prob l (map f l) (map g l) = map (fun t => mk_rec t (log_prob (fst (f t)) (t_action t)) (snd (f t)) (snd (g t))) l.
Proof. intros f g l. induction l as [|t l IH]; [reflexivity|]. cbn. destruct (f t) as [d v], (g t) as [d' v']. rewrite IH. reflexivity. Qed.
Lemma regroup_map : forall T U (f : T -> U) (l : list (list T)), regroup (map (@length T) l) (map f (concat l)) = map (map f) l.
Proof.
  intros T U f l. induction l as [|x l IH]; [reflexivity|]. cbn. rewrite map_app. rewrite firstn_app, skipn_app, map_length, Nat.sub_diag.
  replace (firstn (length x) (map f x)) with (map f x) by (rewrite <- (map_length f x), firstn_all; reflexivity).
  replace (skipn (length x) (map f x)) with (@nil U) by (rewrite <- (map_length f x), skipn_all; reflexivity). cbn. rewrite app_nil_r, IH. reflexivity.
Qed.
Lemma plain_ev : forall p n (eps : list (list tr)), recurrent = false -> Forall (chunk p n) eps ->
  map (fun t => fst (net p zero (feat n (t_state t)))) (concat eps) = map (fun t => fst (ev p n (t_rs t) (t_state t))) (concat eps) /\
  map (fun t => fst (net p zero (feat n (t_next t)))) (concat eps) = map (fun t => fst (ev p n (t_next_rs t) (t_next t))) (concat eps).
Proof.
  intros p n eps RC C. assert (PL : forall t, In t (concat eps) -> plain t).
  { intros t I. apply in_concat in I. destruct I as (ep & I1 & I2). rewrite Forall_forall in C. destruct (C ep I1) as (_ & _ & PL). rewrite Forall_forall in PL. apply PL, I2. }
  split; apply map_ext_in; intros t I; destruct (PL t I RC) as [E1 E2]; rewrite ?E1, ?E2; symmetry; apply ev_plain.
Qed.
Lemma add_records_ok : forall p n eps data, Forall (chunk p n) eps -> add_records net zero log_prob phi normalize recurrent p n eps = Ok data -> data = map (map (rec_of p n)) eps.
Proof.
  intros p n eps data C E. unfold add_records in E. destruct recurrent eqn:RC in E.
  - destruct (mapM (@first_of O A H) eps) as [firsts|x] eqn:M; [|discriminate]. cbn [bind] in E. pose proof (firsts_of _ M) as F2.
    rewrite (@forward_map p n (@t_state O A H) (@t_rs O A H) (fun t => fst (ev p n (t_rs t) (t_state t))) _ _ (states_forward RC C F2)), (@forward_map p n (@t_next O A H) (@t_next_rs O A H) (fun t => fst (ev p n (t_next_rs t) (t_next t))) _ _ (nexts_forward RC C F2)), zip_map in E. injection E as <-. apply regroup_map.
  - destruct (plain_ev RC C) as [E1 E2]. rewrite E1, E2, zip_map in E. injection E as <-. apply regroup_map.
Qed.
Lemma add_records_total : forall p n eps, Forall (fun ep => ep <> []) eps -> exists data, add_records net zero log_prob phi normalize recurrent p n eps = Ok data.
Proof.
  intros p n eps NE. unfold add_records. destruct recurrent; [|eexists; reflexivity]. destruct (firsts_ok NE) as [fs M]. rewrite M. cbn. eexists. reflexivity.
Qed.

Lemma recompute_ok : forall p n qs, Forall (chunk p n) qs -> Forall (fun q => q <> []) qs ->
  recompute net zero log_prob phi normalize recurrent p n (map (map (rec_of p n)) qs) = Ok (map (fun r => (r_logp r, r_v r)) (concat (map (map (rec_of p n)) qs))).
Proof.
  intros p n qs C NE. unfold recompute.
  assert (E1 : map (@r_tr O A H) (concat (map (map (rec_of p n)) qs)) = concat qs).
  { rewrite concat_map, map_map. f_equal. rewrite <- (map_id qs) at 2. apply map_ext. intros q. rewrite map_map. cbn. apply map_id. }
  assert (E2 : map (map (@r_tr O A H)) (map (map (rec_of p n)) qs) = qs).
  { rewrite map_map. rewrite <- (map_id qs) at 2. apply map_ext. intros q. rewrite map_map. cbn. apply map_id. }
  assert (E3 : map (map (fun r => t_state (r_tr r))) (map (map (rec_of p n)) qs) = map (map (@t_state O A H)) qs).
  { rewrite map_map. apply map_ext. intros q. rewrite map_map. reflexivity. }
  rewrite E1, E2, E3.
  assert (OUT : (if recurrent then let! firsts := mapM (@first_of O A H) qs in Ok (forward net zero phi normalize p n (map (map (@t_state O A H)) qs) (map (@t_rs O A H) firsts))
    else Ok (map (fun t => fst (net p zero (feat n (t_state t)))) (concat qs))) = Ok (map (fun t => fst (ev p n (t_rs t) (t_state t))) (concat qs))).
  { destruct recurrent eqn:RC at 1.
    - destruct (firsts_ok NE) as [fs M]. rewrite M. cbn [bind]. rewrite (@forward_map p n (@t_state O A H) (@t_rs O A H) (fun t => fst (ev p n (t_rs t) (t_state t))) _ _ (states_forward RC C (firsts_of _ M))). reflexivity.
    - destruct (plain_ev RC C) as [G _]. rewrite G. reflexivity. }
  rewrite OUT. cbn [bind]. f_equal. rewrite <- concat_map. generalize (concat qs). intros l. induction l as [|t l IH]; [reflexivity|]. cbn. rewrite IH. reflexivity.
Qed.

(** What an update is given. *)
Definition update_ok (acc : list (O * A * R * R)) (p : P) (n : option N) (data : list (list (rec O A H))) : Prop :=
  Permutation (map as_act (concat data)) acc /\
  (forall pieces, Forall (piece_of data) pieces -> recompute net zero log_prob phi normalize recurrent p n pieces = Ok (map (fun r => (r_logp r, r_v r)) (concat pieces))) /\
  (forall ep before r1 r2 after, In ep data -> ep = before ++ r1 :: r2 :: after -> t_next (r_tr r1) = t_state (r_tr r2) /\ r_next_v r1 = r_v r2) /\
  (forall r, In r (concat data) -> r_next_v r = snd (fst (ev p n (t_next_rs (r_tr r)) (t_next (r_tr r))))).
Fixpoint claims (acc : list (O * A * R * R)) (es : list (event O A H P N)) : Prop :=
  match es with
  | [] => True
  | EAct o a l v :: es => claims (acc ++ [(o, a, l, v)]) es
  | EUpdate p n n' data :: es => update_ok acc p n data /\ claims [] es
  end.
Lemma claims_app : forall es1 es2 acc, claims acc es1 -> claims (since acc es1) es2 -> claims acc (es1 ++ es2).
Proof. induction es1 as [|[o a l v|p n n' data] es1 IH]; intros es2 acc C1 C2; cbn in *; [exact C2|apply IH; assumption|]. split; [apply C1|]. apply IH; [apply C1|exact C2]. Qed.
Lemma claims_at : forall es1 acc p n n' data es2, claims acc (es1 ++ EUpdate p n n' data :: es2) -> update_ok (since acc es1) p n data.
Proof. induction es1 as [|[o a l v|p0 n0 n0' data0] es1 IH]; intros acc p n n' data es2 C; cbn in *; [apply C|eapply IH; exact C|]. eapply IH. apply C. Qed.
Lemma since_app : forall (es1 es2 : list (event O A H P N)) acc, since acc (es1 ++ es2) = since (since acc es1) es2.
Proof. induction es1 as [|[o a l v|p n n' data] es1 IH]; intros es2 acc; cbn; [reflexivity|apply IH|apply IH]. Qed.

Lemma data_ok : forall p n eps acc, Forall (chunk p n) eps -> Permutation (concat (map (map (acted p n)) eps)) acc -> update_ok acc p n (map (map (rec_of p n)) eps).
Proof.
  intros p n eps acc C PM. split; [|split; [|split]].
  - rewrite <- concat_map, map_map. rewrite <- concat_map in PM. exact PM.
  - intros pieces HP. assert (Q : exists qs, pieces = map (map (rec_of p n)) qs /\ Forall (chunk p n) qs /\ Forall (fun q => q <> []) qs).
    { induction HP as [|piece pieces (NE & b & a & I) HP IH]; [exists []; split; [reflexivity|split; constructor]|]. destruct IH as (qs & -> & Q1 & Q2).
      apply in_map_iff in I. destruct I as (ep & E & I). apply map_eq_app in E. destruct E as (l1 & l2' & -> & E1 & E2). apply map_eq_app in E2. destruct E2 as (l2 & l3 & -> & E2 & E3).
      exists (l2 :: qs). split; [cbn; rewrite E2; reflexivity|]. split; constructor; [|exact Q1| |exact Q2].
      - rewrite Forall_forall in C. eapply chunk_infix. apply C, I.
      - intros ->. apply NE. rewrite <- E2. reflexivity. }
    destruct Q as (qs & -> & Q1 & Q2). apply recompute_ok; assumption.
  - intros ep b r1 r2 a I E. apply in_map_iff in I. destruct I as (e & <- & I). apply map_eq_app in E. destruct E as (l1 & l2 & -> & E1 & E2).
    destruct l2 as [|t1 [|t2 l2]]; try discriminate. cbn in E2. injection E2 as <- <- <-. rewrite Forall_forall in C. destruct (C _ I) as (_ & L & _).
    apply linked_app in L. destruct L as [_ [[L1 L2] _]]. cbn. split; [exact L1|]. rewrite L1, L2. reflexivity.
  - intros r I. rewrite <- concat_map in I. apply in_map_iff in I. destruct I as (t & <- & _). reflexivity.
Qed.

(** The invariant. *)
Definition slot_ok p n (ex : option O) (s : slot) : Prop :=
  chunk p n (s_ep s) /\ (recurrent = false -> s_rs s = None /\ s_prev s = None) /\
  match s_last s with
  | Some (o, a) => s_rs s = snd (ev p n (s_prev s) o) /\ (forall l t, s_ep s = l ++ [t] -> t_next t = o /\ t_next_rs t = s_prev s)
  | None => forall l t, s_ep s = l ++ [t] -> ex = Some (t_next t) /\ t_next_rs t = s_rs s
  end.
Definition slot_acts p n (s : slot) : list (O * A * R * R) :=
  map (acted p n) (s_ep s) ++ match s_last s with Some (o, a) => [act_of p n (s_prev s) o a] | None => [] end.
Definition free (s : slot) : Prop := s_last s = None.
Definition Inv (g : agent) (exs : list (option O)) (acc : list (O * A * R * R)) : Prop :=
  let p := g_params g in let n := g_norm g in
  Forall (chunk p n) (g_memory g) /\ Forall (fun ep => ep <> []) (g_memory g) /\ Forall2 (slot_ok p n) exs (g_slots g) /\
  Permutation (concat (map (map (acted p n)) (g_memory g)) ++ concat (map (slot_acts p n) (g_slots g))) acc.

Lemma store_ok : forall p n ex s o r d, slot_ok p n ex s -> (s_last s = None -> s_ep s = []) ->
  slot_ok p n (Some o) (store_slot o r d s) /\ free (store_slot o r d s) /\ slot_acts p n (store_slot o r d s) = slot_acts p n s.
Proof.
  intros p n ex [ep lst prev rs] o r d (C & PL & X) FR. unfold store_slot. cbn [s_ep s_last s_prev s_rs] in *. destruct lst as [[o0 a]|].
  - destruct X as [X1 X2]. destruct C as (G & L & PP). cbn. split; [|split; [reflexivity|]].
    + split; [split; [|split]|split].
      * cbn. apply Forall_app. split; [exact G|]. constructor; [exact X1|constructor].
      * cbn. apply linked_snoc; [exact L|]. intros l t0 E. destruct (X2 l t0 E) as [A1 A2]. cbn. split; assumption.
      * cbn. apply Forall_app. split; [exact PP|]. constructor; [|constructor]. intros RC. destruct (PL RC) as [A1 A2]. cbn. split; assumption.
      * cbn. intros RC. split; [apply PL, RC|reflexivity].
      * cbn. intros l t E. apply app_inj_tail in E. destruct E as [_ <-]. cbn. split; reflexivity.
    + unfold slot_acts. cbn. rewrite map_app, app_nil_r. reflexivity.
  - rewrite (FR eq_refl) in *. split; [|split; [reflexivity|]].
    + split; [exact C|]. split; [cbn; intros RC; split; [apply PL, RC|reflexivity]|]. cbn. intros l t E. destruct l; discriminate.
    + reflexivity.
Qed.
Lemma chunk_nil : forall p n, chunk p n [].
Proof. intros p n. split; [constructor|split; [exact I|constructor]]. Qed.

Definition ex_of (w : row O) : option O := let '(o, _, _, ended) := w in if (ended : bool) then None else Some o.
Lemma observe_ok : forall p n rows ss exs fin ss', length rows = length ss -> Forall2 (slot_ok p n) exs ss -> Forall (fun s => s_last s = None -> s_ep s = []) ss ->
  observe zero rows ss = Ok (fin, ss') ->
  Forall (chunk p n) fin /\ Forall (fun ep => ep <> []) fin /\ Forall2 (slot_ok p n) (map ex_of rows) ss' /\ Forall free ss' /\
  Permutation (concat (map (map (acted p n)) fin) ++ concat (map (slot_acts p n) ss')) (concat (map (slot_acts p n) ss)).
Proof.
  intros p n rows. induction rows as [|[[[o r] d] e] rows IH]; intros [|s ss] exs fin ss' LN SK FR OB; try discriminate.
  - cbn in OB. inversion OB; subst. cbn. repeat split; constructor.
  - cbn [observe] in OB. inversion SK as [|ex ? exs' ? SK1 SK2]; subst. inversion FR as [|? ? FR1 FR2]; subst.
    destruct (store_ok o r d SK1 FR1) as (S1 & S2 & S3). set (s1 := store_slot o r d s) in *.
    apply bind_ok in OB. destruct OB as ([f1 t1] & E1 & OB). apply bind_ok in OB. destruct OB as ([f2 t2] & E2 & OB). injection OB as <- <-. cbn [fst snd].
    destruct (IH _ _ _ _ (eq_add_S _ _ LN) SK2 FR2 E2) as (C & NE & SK' & F' & PM).
    destruct e.
    + apply bind_ok in E1. destruct E1 as ([ep s2] & E1 & E3). injection E3 as <- <-. cbn [fst snd]. unfold end_slot in E1. destruct (s_ep s1) as [|t0 ep0] eqn:EP; [discriminate|].
      rewrite <- EP in E1. injection E1 as <- <-. destruct S1 as (C1 & PL & X). split; [|split; [|split; [|split]]].
      * cbn. constructor; assumption.
      * cbn. constructor; [rewrite EP; discriminate|exact NE].
      * cbn. constructor; [|exact SK']. split; [apply chunk_nil|]. split.
        -- cbn. intros RC. destruct (PL RC) as [A1 A2]. rewrite A1. split; [reflexivity|exact A2].
        -- cbn. rewrite S2. intros l t E. destruct l; discriminate.
      * constructor; [exact S2|exact F'].
      * unfold free in S2. assert (Z1 : slot_acts p n s1 = map (acted p n) (s_ep s1)) by (unfold slot_acts; rewrite S2; apply app_nil_r).
        assert (Z2 : slot_acts p n (mask zero (mk_slot [] (s_last s1) (s_prev s1) (s_rs s1))) = []) by (unfold slot_acts; cbn; rewrite S2; reflexivity).
        cbn [map concat app]. rewrite Z2, <- S3, Z1. cbn [app]. rewrite <- app_assoc. apply Permutation_app_head. exact PM.
    + injection E1 as <- <-. cbn. split; [exact C|]. split; [exact NE|]. split; [constructor; assumption|]. split; [constructor; assumption|].
      rewrite S3. etransitivity; [|apply Permutation_app_head; exact PM]. apply Permutation_app_swap_app.
Qed.

Lemma update_inv : forall g exs acc g' es, Inv g exs acc -> Forall free (g_slots g) ->
  update_if_ready net zero log_prob phi normalize experience recurrent interval train g = Ok (g', es) ->
  claims acc es /\ Inv g' exs (since acc es) /\ Forall free (g_slots g').
Proof.
  intros g exs acc g' es (C & NE & SK & PM) FR E. unfold update_if_ready in E. destruct (interval <=? _); [|injection E as <- <-; split; [exact I|split; [split; [exact C|split; [exact NE|split; [exact SK|exact PM]]]|exact FR]]].
  set (eps := g_memory g ++ filter (@nonempty_ep O A H) (map (@s_ep O A H) (g_slots g))) in *.
  assert (CE : Forall (chunk (g_params g) (g_norm g)) eps).
  { apply Forall_app. split; [exact C|]. apply Forall_forall. intros ep I. apply filter_In in I. destruct I as [I _]. apply in_map_iff in I. destruct I as (s & <- & I).
    clear - SK I. induction SK as [|ex s0 exs ss S1 SK IH]; [contradiction|]. destruct I as [->|I]; [apply S1|apply IH, I]. }
  destruct (add_records net zero log_prob phi normalize recurrent (g_params g) (g_norm g) eps) as [data|x] eqn:AR; [|discriminate]. cbn [bind] in E.
  apply (add_records_ok CE) in AR. injection E as <- <-. split; [|split].
  - cbn. split; [|exact I]. subst data. apply data_ok; [exact CE|]. etransitivity; [|exact PM]. unfold eps. rewrite map_app, concat_app. apply Permutation_app_head.
    clear - FR. induction (g_slots g) as [|s ss IH]; [constructor|]. inversion FR as [|? ? F1 F2]; subst. cbn. unfold slot_acts at 1. unfold free in F1. rewrite F1, app_nil_r.
    destruct (s_ep s) as [|t ep] eqn:EP; cbn; [apply IH, F2|]. constructor. apply Permutation_app_head. apply IH, F2.
  - split; [constructor|]. split; [constructor|]. cbn [g_params g_norm g_memory g_slots]. split.
    + match goal with |- Forall2 (slot_ok ?a ?b) _ _ => generalize a; intros pp; generalize b; intros nn end.
      clear - SK FR. induction SK as [|ex s exs ss S1 SK IH]; [constructor|]. inversion FR as [|? ? F1 F2]; subst. cbn. constructor; [|apply IH, F2].
      destruct S1 as (_ & PL & _). split; [apply chunk_nil|]. split; [exact PL|]. cbn. unfold free in F1. rewrite F1. intros l t E. destruct l; discriminate.
    + cbn [map concat app]. match goal with |- Permutation (concat (map (slot_acts ?a ?b) _)) _ => generalize a; intros pp; generalize b; intros nn end.
      clear - FR. induction (g_slots g) as [|s ss IH]; [constructor|]. inversion FR as [|? ? F1 F2]; subst. cbn. unfold slot_acts at 1. cbn. unfold free in F1. rewrite F1. apply IH, F2.
  - cbn. clear - FR. apply Forall_map. exact FR.
Qed.

Lemma act_inv : forall g exs exs' acc oas, Inv g exs acc -> Forall free (g_slots g) -> length exs' = length exs -> Forall2 (fun e oa => forall o, e = Some o -> fst oa = o) exs oas ->
  let x := act_all net zero log_prob phi normalize recurrent oas g in
  claims acc (snd x) /\ Inv (fst x) exs' (since acc (snd x)) /\ Forall (fun s => s_last s <> None) (g_slots (fst x)).
Proof.
  intros [p n mem ss] exs exs' acc oas (C & NE & SK & PM) FR LE F2. unfold act_all. cbn [g_params g_norm g_memory g_slots fst snd] in *.
  assert (G : forall acc2, (forall es, Forall (fun e => exists o a l v, e = EAct o a l v) es -> claims acc2 es) -> True) by (intros; exact I). clear G.
  set (xs := map _ (combine oas ss)).
  assert (K : exists new, Forall2 (slot_ok p n) exs' (map fst xs) /\ Forall (fun s => s_last s <> None) (map fst xs) /\
    (forall acc2, claims acc2 (map snd xs) /\ since acc2 (map snd xs) = acc2 ++ new) /\
    Permutation (concat (map (slot_acts p n) (map fst xs))) (concat (map (slot_acts p n) ss) ++ new)).
  { clear PM C NE mem acc. unfold xs. clear xs. revert exs' oas LE F2. induction SK as [|ex s exs ss S1 SK IH]; intros exs' oas LE F2.
    - inversion F2; subst. destruct exs'; [|discriminate]. exists []. cbn. split; [constructor|]. split; [constructor|]. split; [intros acc2; split; [exact I|rewrite app_nil_r; reflexivity]|constructor].
    - inversion F2 as [|? [o a] ? oas' X1 X2]; subst. inversion FR as [|? ? FR1 FR2]; subst. destruct exs' as [|ex' exs']; [discriminate|].
      destruct (IH FR2 exs' oas' (eq_add_S _ _ LE) X2) as (new & K1 & K2 & K3 & K4). unfold free in FR1.
      destruct S1 as (C1 & PL & X). rewrite FR1 in X. cbn [fst] in X1.
      destruct (ev p n (s_rs s) o) as [[d v] h'] eqn:EV.
      assert (AS : act_slot net zero log_prob phi normalize recurrent p n o a s = (mk_slot (s_ep s) (Some (o, a)) (s_rs s) h', EAct o a (log_prob d a) v)) by (unfold act_slot; rewrite EV; reflexivity).
      cbn [combine map fst snd]. rewrite AS. cbn [fst snd]. exists (act_of p n (s_rs s) o a :: new). split; [|split; [|split]].
      + constructor; [|exact K1]. split; [exact C1|]. split.
        * cbn. intros RC. destruct (PL RC) as [A1 A2]. split; [|exact A1]. unfold evaluate in EV. rewrite RC in EV. destruct (net _ _ _). inversion EV. reflexivity.
        * cbn. split; [rewrite EV; reflexivity|]. intros l t E. destruct (X l t E) as [A1 A2]. split; [symmetry; apply X1; exact A1|exact A2].
      + constructor; [cbn; discriminate|exact K2].
      + intros acc2. cbn [claims since]. destruct (K3 (acc2 ++ [(o, a, log_prob d a, v)])) as [Q1 Q2]. split; [exact Q1|]. rewrite Q2. rewrite <- app_assoc. unfold act_of. rewrite EV. reflexivity.
      + assert (Z1 : slot_acts p n s = map (acted p n) (s_ep s)) by (unfold slot_acts; rewrite FR1; apply app_nil_r).
        assert (Z2 : slot_acts p n (mk_slot (s_ep s) (Some (o, a)) (s_rs s) h') = map (acted p n) (s_ep s) ++ [act_of p n (s_rs s) o a]) by reflexivity.
        cbn [map concat]. rewrite Z1, Z2. rewrite <- !app_assoc. apply Permutation_app_head. cbn. etransitivity; [|apply Permutation_middle]. constructor. exact K4. }
  destruct K as (new & K1 & K2 & K3 & K4). destruct (K3 acc) as [Q1 Q2]. split; [exact Q1|]. split; [|exact K2]. split; [exact C|]. split; [exact NE|]. split; [exact K1|].
  cbn [g_params g_norm g_memory g_slots]. rewrite Q2, K4, app_assoc. apply Permutation_app_tail. exact PM.
Qed.

Notation step := (step net zero log_prob phi normalize experience recurrent interval train).
Notation runs := (runs net zero log_prob phi normalize experience recurrent interval train).

Lemma observe_inv : forall g exs acc rows fin ss', Inv g exs acc -> length rows = length (g_slots g) -> Forall (fun s => s_last s = None -> s_ep s = []) (g_slots g) ->
  observe zero rows (g_slots g) = Ok (fin, ss') -> Inv (with_slots g fin ss') (map ex_of rows) acc /\ Forall free ss'.
Proof.
  intros g exs acc rows fin ss' (C & NE & SK & PM) LN FR OB. destruct (@observe_ok (g_params g) (g_norm g) rows (g_slots g) exs fin ss' LN SK FR OB) as (C1 & N1 & S1 & F1 & P1). split; [|exact F1].
  unfold with_slots. split; [apply Forall_app; split; assumption|]. split; [apply Forall_app; split; assumption|]. split; [exact S1|]. cbn [g_params g_norm g_memory g_slots].
  rewrite map_app, concat_app, <- app_assoc, P1. exact PM.
Qed.

(** One env. *)
Definition one (g : agent) (acc : list (O * A * R * R)) : Prop := length (g_slots g) = 1 /\ Inv g [None] acc.
Lemma one_idle : forall g acc, one g acc -> Forall (fun s => s_last s = None -> s_ep s = []) (g_slots g).
Proof.
  intros g acc (LN & _ & _ & SK & _). inversion SK as [|? s ? ss S1 S2]; subst. inversion S2; subst. constructor; [|constructor]. intros FR. destruct S1 as (_ & _ & X). rewrite FR in X.
  destruct (s_ep s) as [|t ep] using rev_ind; [reflexivity|]. destruct (X _ _ eq_refl). discriminate.
Qed.
Lemma single_step : forall g c g' es acc, one g acc -> match c with CAct _ _ _ | CStop _ _ _ => True | _ => False end -> step g c = Ok (g', es) -> claims acc es /\ one g' (since acc es).
Proof.
  intros g c g' es acc ON OK E. pose proof (one_idle ON) as ID. destruct ON as [LN IV]. destruct c as [o r a|o r d| |]; try contradiction; cbn [PPORecords.step] in E.
  - apply bind_ok in E. destruct E as ([fin ss'] & OB & E). apply bind_ok in E. destruct E as ([g1 es1] & UP & E). cbn [fst snd] in *.
    destruct (@observe_inv g _ acc [(o, r, false, false)] fin ss' IV (eq_sym LN) ID OB) as [IV1 F1].
    destruct (update_inv IV1 F1 UP) as (CL & IV2 & F2).
    pose proof (@act_inv g1 (map ex_of [(o, r, false, false)]) [None] (since acc es1) [(o, a)] IV2 F2 eq_refl) as AC.
    destruct AC as (CL2 & IV3 & _); [constructor; [intros o' E'; injection E' as ->; reflexivity|constructor]|].
    destruct (act_all net zero log_prob phi normalize recurrent [(o, a)] g1) as [g2 es2]. cbn [fst snd] in *. injection E as <- <-.
    split; [apply claims_app; assumption|]. rewrite since_app. split; [|exact IV3]. destruct IV3 as (_ & _ & SK & _). inversion SK as [|? ? ? ? _ S2]; subst. inversion S2; subst. reflexivity.
  - destruct (match g_slots g with s :: _ => _ | [] => _ end); [|discriminate]. cbn [bind] in E. apply bind_ok in E. destruct E as ([fin ss'] & OB & E). cbn [fst snd] in *.
    destruct (@observe_inv g _ acc [(o, r, d, true)] fin ss' IV (eq_sym LN) ID OB) as [IV1 F1].
    assert (IV2 : Inv (with_slots g fin (map (fun s => mk_slot (s_ep s) (s_last s) (s_prev s) None) ss')) [None] acc).
    { destruct IV1 as (C & NE & SK & PM). split; [exact C|]. split; [exact NE|]. cbn [g_params g_norm g_memory g_slots with_slots] in *. cbn in SK.
      inversion SK as [|? s ? ss S1 S2]; subst. inversion S2; subst. split; [|exact PM]. cbn. constructor; [|constructor]. destruct S1 as (C1 & PL & X). split; [exact C1|].
      inversion F1 as [|? ? FR _]; subst. unfold free in FR. split; [cbn; intros RC; split; [reflexivity|apply PL, RC]|]. cbn. rewrite FR in *. intros l t E'. destruct (X l t E'). discriminate. }
    assert (F2 : Forall free (map (fun s => mk_slot (s_ep s) (s_last s) (s_prev s) (@None H)) ss')) by (apply Forall_map; exact F1).
    destruct (update_inv IV2 F2 E) as (CL & IV3 & _). split; [exact CL|]. split; [|exact IV3]. destruct IV3 as (_ & _ & SK & _). inversion SK as [|? ? ? ? _ S2]; subst. inversion S2; subst. reflexivity.
Qed.
Lemma single_run : forall cs g acc g' es, one g acc -> single cs -> runs g cs = Ok (g', es) -> claims acc es.
Proof.
  induction cs as [|c cs IH]; intros g acc g' es ON S E; cbn [PPORecords.runs] in E; [injection E as <- <-; exact I|].
  apply bind_ok in E. destruct E as ([g1 es1] & E1 & E). apply bind_ok in E. destruct E as ([g2 es2] & E2 & E). injection E as <- <-. inversion S as [|? ? S1 S2]; subst.
  destruct (@single_step g c g1 es1 acc ON S1 E1) as [CL ON1]. apply claims_app; [exact CL|]. eapply IH; [exact ON1|exact S2|exact E2].
Qed.

(** Many envs. *)
Lemma batch_run : forall cs g exs acting acc g' es, Inv g exs acc -> (acting = true -> Forall free (g_slots g)) -> (acting = false -> Forall (fun s => s_last s <> None) (g_slots g)) ->
  batch exs acting cs -> runs g cs = Ok (g', es) -> claims acc es.
Proof.
  induction cs as [|c cs IH]; intros g exs acting acc g' es IV FA FB B E; cbn [PPORecords.runs] in E; [injection E as <- <-; exact I|].
  apply bind_ok in E. destruct E as ([g1 es1] & E1 & E). apply bind_ok in E. destruct E as ([g2 es2] & E2 & E). injection E as <- <-. cbn [fst snd] in *.
  destruct c as [o r a|o r d|oas|rows]; cbn [batch] in B; try contradiction; cbn [PPORecords.step] in E1.
  - destruct B as (-> & F2 & B). destruct (length oas =? length (g_slots g)); [|discriminate]. cbn [bind] in E1. assert (E1' : act_all net zero log_prob phi normalize recurrent oas g = (g1, es1)) by (clear - E1; congruence).
    destruct (@act_inv g exs exs acc oas IV (FA eq_refl) eq_refl F2) as (CL & IV1 & L1). rewrite E1' in CL, IV1, L1. cbn [fst snd] in *.
    apply claims_app; [exact CL|]. eapply (IH g1 exs false); [exact IV1|discriminate|intros _; exact L1|exact B|exact E2].
  - destruct B as (-> & LN & B). apply bind_ok in E1. destruct E1 as ([fin ss'] & OB & UP). cbn [fst snd] in *.
    assert (ID : Forall (fun s => s_last s = None -> s_ep s = []) (g_slots g)) by (eapply Forall_impl; [|apply FB; reflexivity]; intros s X Y; contradiction).
    assert (LN2 : length rows = length (g_slots g)) by (destruct IV as (_ & _ & SK & _); rewrite LN; clear - SK; induction SK; cbn; congruence).
    destruct (@observe_inv g _ acc rows fin ss' IV LN2 ID OB) as [IV1 F1]. destruct (update_inv IV1 F1 UP) as (CL & IV2 & F2).
    apply claims_app; [exact CL|]. eapply (IH g1 (map ex_of rows) true); [exact IV2|intros _; exact F2|discriminate|exact B|exact E2].
Qed.

Lemma start_inv : forall p n k, Inv (mk_agent p n [] (repeat (@new_slot O A H) k)) (repeat None k) [].
Proof.
  intros p n k. split; [constructor|]. split; [constructor|]. cbn. split.
  - induction k as [|k IH]; cbn; constructor; [|exact IH]. split; [apply chunk_nil|]. split; [cbn; intros _; split; reflexivity|]. cbn. intros l t E. destruct l; discriminate.
  - induction k as [|k IH]; cbn; [constructor|exact IH].
Qed.
Theorem records_true : forall p0 n0 k cs g es, (k = 1 /\ single cs \/ batch (repeat None k) true cs) -> runs (mk_agent p0 n0 [] (repeat (@new_slot O A H) k)) cs = Ok (g, es) ->
  forall es1 p n n' data es2, es = es1 ++ EUpdate p n n' data :: es2 ->
  Permutation (map as_act (concat data)) (since [] es1) /\
  (forall ep before r1 r2 after, In ep data -> ep = before ++ r1 :: r2 :: after -> t_next (r_tr r1) = t_state (r_tr r2) /\ r_next_v r1 = r_v r2) /\
  (forall r, In r (concat data) -> r_next_v r = snd (fst (ev p n (t_next_rs (r_tr r)) (t_next (r_tr r))))) /\
  (forall pieces, Forall (piece_of data) pieces -> recompute net zero log_prob phi normalize recurrent p n pieces = Ok (map (fun r => (r_logp r, r_v r)) (concat pieces))).
Proof.
  intros p0 n0 k cs g es HC RN es1 p n n' data es2 E.
  assert (CL : claims [] es).
  { destruct HC as [[-> S]|B].
    - eapply single_run; [|exact S|exact RN]. split; [reflexivity|]. apply (start_inv p0 n0 1).
    - eapply (@batch_run cs _ _ true); [apply start_inv| |discriminate|exact B|exact RN]. intros _. cbn. clear. induction k; cbn; constructor; [reflexivity|assumption]. }
  subst es. destruct (claims_at _ _ _ _ _ _ _ CL) as (U1 & U2 & U3 & U4). split; [exact U1|]. split; [exact U3|]. split; [exact U4|exact U2].
Qed.

(** Without a normalizer of observations the first minibatch of an update starts from ratio 1. *)
Lemma no_norm : forall cs g g' es, g_norm g = None -> runs g cs = Ok (g', es) -> forall p n n' data, In (EUpdate p n n' data) es -> n = None /\ n' = None.
Proof.
  assert (U : forall g g' es, g_norm g = None -> update_if_ready net zero log_prob phi normalize experience recurrent interval train g = Ok (g', es) ->
    g_norm g' = None /\ forall p n n' data, In (EUpdate p n n' data) es -> n = None /\ n' = None).
  { intros g g' es Hn E. unfold update_if_ready in E. destruct (interval <=? _); [|injection E as <- <-; split; [exact Hn|intros ? ? ? ? []]].
    apply bind_ok in E. destruct E as (data & _ & E). rewrite Hn in E. injection E as <- <-. cbn. split; [reflexivity|]. intros p n n' d [E|[]]. inversion E; subst. split; reflexivity. }
  assert (B : forall oas g p n n' data, ~ In (EUpdate p n n' data) (snd (act_all net zero log_prob phi normalize recurrent oas g))).
  { intros oas g p n n' data I. unfold act_all in I. cbn [snd] in I. rewrite map_map in I. apply in_map_iff in I. destruct I as (z & E & _). unfold act_slot in E.
    destruct (ev _ _ _ _) as [[d v] h]. discriminate. }
  assert (S : forall c g g' es, g_norm g = None -> step g c = Ok (g', es) -> g_norm g' = None /\ forall p n n' data, In (EUpdate p n n' data) es -> n = None /\ n' = None).
  { intros c g g' es Hn E. destruct c as [o r a|o r d|oas|rows]; cbn [PPORecords.step] in E.
    - apply bind_ok in E. destruct E as ([fin ss'] & OB & E). apply bind_ok in E. destruct E as ([g1 es1] & UP & E). cbn [fst snd] in *. pose proof (B [(o, a)] g1) as B1.
      assert (N1 : g_norm (fst (act_all net zero log_prob phi normalize recurrent [(o, a)] g1)) = g_norm g1) by reflexivity.
      destruct (act_all net zero log_prob phi normalize recurrent [(o, a)] g1) as [g2 es2]. cbn [fst snd] in *. injection E as <- <-.
      destruct (U (with_slots g fin ss') g1 es1 Hn UP) as [U1 U2]. split; [congruence|]. intros p n n' data I. apply in_app_or in I. destruct I as [I|I]; [eapply U2, I|]. exfalso. eapply B1, I.
    - destruct (match g_slots g with s :: _ => _ | [] => _ end); [|discriminate]. cbn [bind] in E. apply bind_ok in E. destruct E as ([fin ss'] & OB & E). eapply (U _ g' es); [|exact E]. exact Hn.
    - destruct (length oas =? length (g_slots g)); [|discriminate]. cbn [bind] in E. assert (E' : act_all net zero log_prob phi normalize recurrent oas g = (g', es)) by (clear - E; congruence).
      pose proof (B oas g) as B1. assert (N1 : g_norm (fst (act_all net zero log_prob phi normalize recurrent oas g)) = g_norm g) by reflexivity. rewrite E' in *. cbn [fst snd] in *.
      split; [congruence|]. intros p n n' data I. exfalso. eapply B1, I.
    - apply bind_ok in E. destruct E as ([fin ss'] & OB & E). eapply (U _ g' es); [|exact E]. exact Hn. }
  induction cs as [|c cs IH]; intros g g' es Hn E p n n' data I; cbn [PPORecords.runs] in E; [injection E as <- <-; contradiction|].
  apply bind_ok in E. destruct E as ([g1 es1] & E1 & E). apply bind_ok in E. destruct E as ([g2 es2] & E2 & E). injection E as <- <-. destruct (S c g g1 es1 Hn E1) as [S1 S2].
  cbn [fst snd] in *. apply in_app_or in I. destruct I as [I|I]; [eapply S2, I|]. eapply IH; [exact S1|exact E2|exact I].
Qed.
Theorem first_ratio : forall p0 k cs g es, (k = 1 /\ single cs \/ batch (repeat None k) true cs) -> runs (mk_agent p0 None [] (repeat (@new_slot O A H) k)) cs = Ok (g, es) ->
  forall p n n' data, In (EUpdate p n n' data) es -> forall pieces, Forall (piece_of data) pieces ->
  exists new, recompute net zero log_prob phi normalize recurrent p n' pieces = Ok new /\ length new = length (concat pieces) /\
    Forall2 (fun r x => prob_ratio (fst x) (r_logp r) = 1%R /\ snd x = r_v r) (concat pieces) new.
Proof.
  intros p0 k cs g es HC RN p n n' data I pieces HP. destruct (@no_norm cs (mk_agent p0 None [] (repeat (@new_slot O A H) k)) g es eq_refl RN p n n' data I) as [-> ->].
  apply in_split in I. destruct I as (es1 & es2 & E). destruct (@records_true p0 None k cs g es HC RN es1 p None None data es2 E) as (_ & _ & _ & RC). rewrite (RC _ HP).
  eexists. split; [reflexivity|]. split; [apply map_length|]. clear. induction (concat pieces) as [|r l IH]; cbn; constructor; [|exact IH]. cbn. split; [|reflexivity].
  unfold prob_ratio. rewrite Rminus_diag_eq by reflexivity. apply exp_0.
Qed.

(** Nothing raises. *)
Lemma observe_total : forall rows ss, Forall (fun s : slot => s_last s <> None) ss -> length rows = length ss -> exists x, observe zero rows ss = Ok x.
Proof.
  induction rows as [|[[[o r] d] e] rows IH]; intros [|s ss] L LN; try discriminate; cbn [observe]; [eexists; reflexivity|]. inversion L as [|? ? L1 L2]; subst.
  destruct (IH ss L2 (eq_add_S _ _ LN)) as [z E]. rewrite E. destruct e; [|cbn; eexists; reflexivity]. unfold store_slot. destruct (s_last s) as [[o0 a]|]; [|congruence].
  unfold end_slot. cbn [s_ep]. destruct (s_ep s); cbn; eexists; reflexivity.
Qed.
Lemma update_total : forall g exs acc, Inv g exs acc -> exists x, update_if_ready net zero log_prob phi normalize experience recurrent interval train g = Ok x.
Proof.
  intros g exs acc (_ & NE & _). unfold update_if_ready. destruct (interval <=? _); [|eexists; reflexivity].
  destruct (@add_records_total (g_params g) (g_norm g) (g_memory g ++ filter (@nonempty_ep O A H) (map (@s_ep O A H) (g_slots g)))) as [data E].
  - apply Forall_app. split; [exact NE|]. apply Forall_forall. intros ep I. apply filter_In in I. destruct I as [_ I]. intros ->. discriminate.
  - rewrite E. cbn. eexists. reflexivity.
Qed.
Lemma batch_total : forall cs g exs acting acc, Inv g exs acc -> (acting = true -> Forall free (g_slots g)) -> (acting = false -> Forall (fun s => s_last s <> None) (g_slots g)) ->
  batch exs acting cs -> exists x, runs g cs = Ok x.
Proof.
  induction cs as [|c cs IH]; intros g exs acting acc IV FA FB B; [eexists; reflexivity|]. cbn [PPORecords.runs].
  assert (LE : length exs = length (g_slots g)) by (destruct IV as (_ & _ & SK & _); clear - SK; induction SK; cbn; congruence).
  destruct c as [o r a|o r d|oas|rows]; cbn [batch] in B; try contradiction; cbn [PPORecords.step].
  - destruct B as (-> & F2 & B). assert (LN : length oas = length (g_slots g)) by (rewrite <- LE; clear - F2; induction F2; cbn; congruence). rewrite (proj2 (Nat.eqb_eq _ _) LN). cbn [bind].
    destruct (@act_inv g exs exs acc oas IV (FA eq_refl) eq_refl F2) as (CL & IV1 & L1). destruct (act_all net zero log_prob phi normalize recurrent oas g) as [g1 es1]. cbn [fst snd] in *.
    destruct (IH g1 exs false _ IV1) as [x E]; [discriminate|intros _; exact L1|exact B|]. rewrite E. cbn. eexists. reflexivity.
  - destruct B as (-> & LN & B). rewrite LE in LN. destruct (observe_total rows (FB eq_refl) LN) as [[fin ss'] OB]. rewrite OB. cbn [bind fst snd].
    assert (ID : Forall (fun s => s_last s = None -> s_ep s = []) (g_slots g)) by (eapply Forall_impl; [|apply FB; reflexivity]; intros s X Y; contradiction).
    destruct (@observe_inv g _ acc rows fin ss' IV LN ID OB) as [IV1 F1]. destruct (update_total IV1) as [[g1 es1] UP]. rewrite UP. cbn [bind fst snd].
    destruct (update_inv IV1 F1 UP) as (CL & IV2 & F2). destruct (IH g1 (map ex_of rows) true _ IV2) as [x E]; [intros _; exact F2|discriminate|exact B|]. rewrite E. cbn. eexists. reflexivity.
Qed.
Lemma single_total : forall cs g acting acc, one g acc -> (acting = true -> Forall (fun s => s_last s <> None) (g_slots g)) -> proper acting cs -> exists x, runs g cs = Ok x.
Proof.
  induction cs as [|c cs IH]; intros g acting acc ON LA PR; [eexists; reflexivity|]. cbn [PPORecords.runs]. pose proof (one_idle ON) as ID. pose proof ON as [LN IV].
  destruct c as [o r a|o r d|oas|rows]; cbn [proper] in PR; try contradiction.
  - assert (E : exists g1 es1, step g (CAct o r a) = Ok (g1, es1) /\ Forall (fun s => s_last s <> None) (g_slots g1)).
    { cbn [PPORecords.step]. destruct (observe zero [(o, r, false, false)] (g_slots g)) as [[fin ss']|x] eqn:OB.
      - cbn [bind fst snd]. destruct (@observe_inv g _ acc [(o, r, false, false)] fin ss' IV (eq_sym LN) ID OB) as [IV1 F1]. destruct (update_total IV1) as [[g1 es1] UP]. rewrite UP. cbn [bind fst snd].
        destruct (update_inv IV1 F1 UP) as (CL & IV2 & F2).
        destruct (@act_inv g1 (map ex_of [(o, r, false, false)]) [None] (since acc es1) [(o, a)] IV2 F2 eq_refl) as (_ & _ & L1); [constructor; [intros o' E'; injection E' as ->; reflexivity|constructor]|].
        destruct (act_all net zero log_prob phi normalize recurrent [(o, a)] g1) as [g2 es2]. cbn [fst snd] in *. do 2 eexists. split; [reflexivity|exact L1].
      - destruct (g_slots g) as [|s [|]]; try discriminate. }
    destruct E as (g1 & es1 & E & L1). rewrite E. cbn [bind fst snd]. destruct (@single_step g (CAct o r a) g1 es1 acc ON I E) as [_ ON1].
    destruct (IH g1 true _ ON1 (fun _ => L1) PR) as [x Ex]. rewrite Ex. cbn. eexists. reflexivity.
  - destruct PR as [-> PR]. specialize (LA eq_refl).
    assert (E : exists g1 es1, step g (CStop o r d) = Ok (g1, es1)).
    { cbn [PPORecords.step]. assert (A1 : match g_slots g with s :: _ => match s_last s with Some _ => true | None => false end | [] => false end = true).
      { destruct (g_slots g) as [|s ss]; [discriminate|]. inversion LA as [|? ? L1 _]; subst. destruct (s_last s); [reflexivity|congruence]. }
      rewrite A1. cbn [bind]. destruct (@observe_total [(o, r, d, true)] (g_slots g) LA (eq_sym LN)) as [[fin ss'] OB]. rewrite OB. cbn [bind fst snd].
      destruct (@observe_inv g _ acc [(o, r, d, true)] fin ss' IV (eq_sym LN) ID OB) as [(_ & NE & _) _].
      unfold update_if_ready. destruct (interval <=? _); [|do 2 eexists; reflexivity]. cbn [g_params g_norm g_memory g_slots with_slots].
      edestruct add_records_total as [data AR]; [|rewrite AR; cbn; do 2 eexists; reflexivity].
      apply Forall_app. split; [exact NE|]. apply Forall_forall. intros ep J. apply filter_In in J. destruct J as [_ J]. intros ->. discriminate. }
    destruct E as (g1 & es1 & E). rewrite E. cbn [bind fst snd]. destruct (@single_step g (CStop o r d) g1 es1 acc ON I E) as [_ ON1].
    destruct (IH g1 false _ ON1 ltac:(discriminate) PR) as [x Ex]. rewrite Ex. cbn. eexists. reflexivity.
Qed.
Theorem never_raises : forall p0 n0 k cs, (k = 1 /\ proper false cs \/ batch (repeat None k) true cs) -> exists g es, runs (mk_agent p0 n0 [] (repeat (@new_slot O A H) k)) cs = Ok (g, es).
Proof.
  intros p0 n0 k cs [[-> PR]|B].
  - destruct (@single_total cs (mk_agent p0 n0 [] (repeat (@new_slot O A H) 1)) false []) as [[g es] E]; [split; [reflexivity|apply (start_inv p0 n0 1)]|discriminate|exact PR|]. eauto.
  - destruct (@batch_total cs (mk_agent p0 n0 [] (repeat (@new_slot O A H) k)) (repeat None k) true [] (start_inv p0 n0 k)) as [[g es] E]; [|discriminate|exact B|eauto].
    intros _. cbn. clear. induction k; cbn; constructor; [reflexivity|assumption].
Qed.

(** An episode starts with the recurrent state zero. *)
Definition fresh (exs : list (option O)) (ss : list slot) : Prop := Forall2 (fun e s => e = None -> or_zero zero (s_rs s) = zero) exs ss.
Lemma observe_fresh : forall rows ss fin ss', length rows = length ss -> observe zero rows ss = Ok (fin, ss') -> fresh (map ex_of rows) ss'.
Proof.
  induction rows as [|[[[o r] d] e] rows IH]; intros [|s ss] fin ss' LN OB; try discriminate; cbn [observe] in OB; [injection OB as <- <-; constructor|].
  apply bind_ok in OB. destruct OB as ([f1 t1] & E1 & OB). apply bind_ok in OB. destruct OB as ([f2 t2] & E2 & OB). injection OB as <- <-. cbn [fst snd map].
  constructor; [|eapply IH; [apply (eq_add_S _ _ LN)|exact E2]]. destruct e; [|cbn; discriminate]. intros _. apply bind_ok in E1. destruct E1 as ([ep s2] & E1 & E3). injection E3 as <- <-.
  cbn [snd]. unfold mask. cbn. destruct (s_rs s2); reflexivity.
Qed.
Lemma update_rs : forall g g' es, update_if_ready net zero log_prob phi normalize experience recurrent interval train g = Ok (g', es) -> map (@s_rs O A H) (g_slots g') = map (@s_rs O A H) (g_slots g).
Proof.
  intros g g' es E. unfold update_if_ready in E. destruct (interval <=? _); [|injection E as <- <-; reflexivity]. apply bind_ok in E. destruct E as (data & _ & E). injection E as <- <-.
  cbn. rewrite map_map. reflexivity.
Qed.
Lemma fresh_rs : forall exs ss ss', map (@s_rs O A H) ss' = map (@s_rs O A H) ss -> fresh exs ss -> fresh exs ss'.
Proof.
  intros exs ss ss' E FR. revert ss' E. induction FR as [|e s exs ss F1 FR IH]; intros [|s' ss'] E; try discriminate; [constructor|]. cbn in E. injection E as E1 E2.
  constructor; [rewrite E1; exact F1|]. apply IH, E2.
Qed.
Lemma batch_fresh : forall cs1 g exs acting cs2 g1 es1, length exs = length (g_slots g) -> (acting = true -> fresh exs (g_slots g)) -> batch exs acting (cs1 ++ cs2) -> runs g cs1 = Ok (g1, es1) ->
  exists acting', batch (expected exs cs1) acting' cs2 /\ length (expected exs cs1) = length (g_slots g1) /\ (acting' = true -> fresh (expected exs cs1) (g_slots g1)).
Proof.
  induction cs1 as [|c cs IH]; intros g exs acting cs2 g1 es1 LN FR B E; cbn [PPORecords.runs] in E; [injection E as <- <-; exists acting; cbn; auto|].
  apply bind_ok in E. destruct E as ([g2 es2] & E1 & E). apply bind_ok in E. destruct E as ([g3 es3] & E2 & E). injection E as <- <-. cbn [fst snd] in *.
  destruct c as [o r a|o r d|oas|rows]; cbn [batch app] in B; try contradiction; cbn [PPORecords.step] in E1.
  - destruct B as (-> & F2 & B). destruct (length oas =? length (g_slots g)) eqn:EL; [|discriminate]. apply Nat.eqb_eq in EL. cbn [bind] in E1.
    assert (E1' : act_all net zero log_prob phi normalize recurrent oas g = (g2, es2)) by (clear - E1; congruence).
    unfold expected. cbn [fold_left]. eapply (IH g2 exs false); [|discriminate|exact B|exact E2]. rewrite LN. injection E1' as <- _. cbn. rewrite !map_length, combine_length, EL. symmetry. apply Nat.min_id.
  - destruct B as (-> & L2 & B). apply bind_ok in E1. destruct E1 as ([fin ss'] & OB & UP). cbn [fst snd] in *. rewrite LN in L2.
    pose proof (@observe_fresh rows _ _ _ L2 OB) as F1. pose proof (@update_rs _ _ _ UP) as RS. pose proof (@fresh_rs (map ex_of rows) ss' (g_slots g2) RS F1) as F2.
    unfold expected. cbn [fold_left]. eapply (IH g2 (map ex_of rows) true); [|intros _; exact F2|exact B|exact E2]. clear - F2. induction F2; cbn; congruence.
Qed.
Lemma runs_app : forall cs1 cs2 g, runs g (cs1 ++ cs2) = (let! x := runs g cs1 in let! y := runs (fst x) cs2 in Ok (fst y, snd x ++ snd y)).
Proof.
  induction cs1 as [|c cs1 IH]; intros cs2 g; cbn [app PPORecords.runs bind fst snd]; [destruct (runs g cs2) as [[g2 es2]|x]; reflexivity|].
  destruct (step g c) as [[g1 es1]|x]; [|reflexivity]. cbn [bind fst snd]. rewrite IH. destruct (runs g1 cs1) as [[g2 es2]|x]; [|reflexivity]. cbn [bind fst snd].
  destruct (runs g2 cs2) as [[g3 es3]|x]; [|reflexivity]. cbn [bind fst snd]. rewrite app_assoc. reflexivity.
Qed.
Lemma act_fresh : forall p n o a (s : slot), or_zero zero (s_rs s) = zero ->
  snd (act_slot net zero log_prob phi normalize recurrent p n o a s) = (let '(d, v) := fst (net p zero (feat n o)) in EAct o a (log_prob d a) v).
Proof. intros p n o a s E. unfold act_slot, evaluate. rewrite E. destruct (net p zero (feat n o)) as [[d v] h]. reflexivity. Qed.
Theorem batch_starts : forall p0 n0 k cs oas g es, batch (repeat None k) true (cs ++ [CBatchAct oas]) -> runs (mk_agent p0 n0 [] (repeat (@new_slot O A H) k)) (cs ++ [CBatchAct oas]) = Ok (g, es) ->
  exists es' acts, es = es' ++ acts /\ length acts = length oas /\
    forall i o a, nth_error (expected (repeat None k) cs) i = Some None -> nth_error oas i = Some (o, a) ->
    nth_error acts i = Some (let '(d, v) := fst (net (g_params g) zero (feat (g_norm g) o)) in EAct o a (log_prob d a) v).
Proof.
  intros p0 n0 k cs oas g es B RN. rewrite runs_app in RN. apply bind_ok in RN. destruct RN as ([g1 es1] & R1 & RN). cbn [fst snd] in RN. apply bind_ok in RN. destruct RN as ([g2 es2] & R2 & RN).
  injection RN as <- <-. cbn [fst snd] in *. exists es1, es2. split; [reflexivity|].
  assert (F0 : fresh (repeat None k) (repeat (@new_slot O A H) k)) by (clear; induction k; cbn; constructor; [reflexivity|assumption]).
  destruct (@batch_fresh cs (mk_agent p0 n0 [] (repeat (@new_slot O A H) k)) (repeat None k) true [CBatchAct oas] g1 es1) as (acting & B1 & LN & FR); [cbn; rewrite !repeat_length; reflexivity|intros _; exact F0|exact B|exact R1|].
  cbn [batch] in B1. destruct B1 as (-> & _ & _). specialize (FR eq_refl). cbn [PPORecords.runs PPORecords.step] in R2. destruct (length oas =? length (g_slots g1)) eqn:EL; [|discriminate].
  apply Nat.eqb_eq in EL. cbn [bind fst snd] in R2. unfold act_all in R2. cbn [fst snd] in R2. rewrite app_nil_r in R2. injection R2 as <- <-. cbn [g_params g_norm].
  split; [rewrite !map_length, combine_length, EL; apply Nat.min_id|]. intros i o a E1 E2. rewrite map_map. clear - FR E1 E2.
  unfold fresh in FR. revert i oas E1 E2. induction FR as [|e s exs ss F1 FR IH]; intros [|i] [|oa oas] E1 E2; try discriminate.
  - cbn in *. injection E1 as ->. injection E2 as ->. cbn [fst snd]. f_equal. apply act_fresh, F1. reflexivity.
  - cbn in *. apply IH; assumption.
Qed.
Lemma single_idle : forall cs g acc g1 es1, one g acc -> single cs -> runs g cs = Ok (g1, es1) -> exists acc1, one g1 acc1.
Proof.
  induction cs as [|c cs IH]; intros g acc g' es ON S E; cbn [PPORecords.runs] in E; [injection E as <- <-; exists acc; exact ON|].
  apply bind_ok in E. destruct E as ([g1 es1] & E1 & E). apply bind_ok in E. destruct E as ([g2 es2] & E2 & E). injection E as <- <-. inversion S as [|? ? S1 S2]; subst.
  destruct (@single_step g c g1 es1 acc ON S1 E1) as [CL ON1]. eapply IH; [exact ON1|exact S2|exact E2].
Qed.
Theorem single_starts : forall p0 n0 cs o r a g es, single cs -> (cs = [] \/ exists cs' o' r' d, cs = cs' ++ [CStop o' r' d]) ->
  runs (mk_agent p0 n0 [] (repeat (@new_slot O A H) 1)) (cs ++ [CAct o r a]) = Ok (g, es) ->
  exists es', es = es' ++ [let '(d, v) := fst (net (g_params g) zero (feat (g_norm g) o)) in EAct o a (log_prob d a) v].
Proof.
  intros p0 n0 cs o r a g es S HC RN. rewrite runs_app in RN. apply bind_ok in RN. destruct RN as ([g1 es1] & R1 & RN). cbn [fst snd] in RN. apply bind_ok in RN. destruct RN as ([g2 es2] & R2 & RN).
  injection RN as <- <-. cbn [fst snd] in *.
  assert (ST : exists s, g_slots g1 = [s] /\ s_rs s = None /\ s_last s = None).
  { destruct HC as [->|(cs' & o' & r' & d & ->)].
    - cbn in R1. injection R1 as <- <-. eexists. split; [reflexivity|split; reflexivity].
    - rewrite runs_app in R1. apply bind_ok in R1. destruct R1 as ([g3 es3] & R3 & R1). cbn [fst snd] in R1. apply bind_ok in R1. destruct R1 as ([g4 es4] & R4 & R1). injection R1 as <- <-. cbn [fst snd] in *.
      apply Forall_app in S. destruct S as [S1 _].
      destruct (@single_idle cs' (mk_agent p0 n0 [] (repeat (@new_slot O A H) 1)) [] g3 es3 ltac:(split; [reflexivity|apply (start_inv p0 n0 1)]) S1 R3) as (acc3 & ON3).
      pose proof (one_idle ON3) as ID. destruct ON3 as [LN IV]. cbn [PPORecords.runs] in R4. apply bind_ok in R4. destruct R4 as ([g5 es5] & R5 & R4). cbn [bind fst snd] in R4. injection R4 as <- <-.
      cbn [PPORecords.step] in R5. destruct (match g_slots g3 with s :: _ => _ | [] => _ end); [|discriminate]. cbn [bind] in R5. apply bind_ok in R5. destruct R5 as ([fin ss'] & OB & UP). cbn [fst snd] in *.
      destruct (@observe_inv g3 _ acc3 [(o', r', d, true)] fin ss' IV (eq_sym LN) ID OB) as [(_ & _ & SK & _) F1]. cbn in SK. inversion SK as [|? s ? ss _ S2]; subst. inversion S2; subst.
      inversion F1 as [|? ? FR _]; subst. unfold update_if_ready in UP. destruct (interval <=? _).
      + apply bind_ok in UP. destruct UP as (data & _ & UP). injection UP as <- <-. eexists. split; [reflexivity|]. split; [reflexivity|exact FR].
      + injection UP as <- <-. eexists. split; [reflexivity|]. split; [reflexivity|exact FR]. }
  destruct ST as (s & E & RS & FR). cbn [PPORecords.runs PPORecords.step] in R2. rewrite E in R2. cbn [observe bind fst snd] in R2. unfold store_slot in R2. rewrite FR in R2. cbn [bind fst snd app] in R2.
  apply bind_ok in R2. destruct R2 as ([g3 es3] & R3 & R2). cbn [fst snd] in R2. injection R2 as <- <-. apply bind_ok in R3. destruct R3 as ([g4 es4] & UP & R3). cbn [fst snd] in R3.
  pose proof (@update_rs _ _ _ UP) as U. cbn in U. rewrite RS in U. destruct (g_slots g4) as [|s4 [|]] eqn:E4; try discriminate. cbn in U. injection U as U.
  unfold act_all in R3. rewrite E4 in R3. cbn [combine map fst snd] in R3. injection R3 as <- <-. cbn [g_params g_norm]. exists (es1 ++ es4). rewrite app_nil_r, app_assoc. f_equal. f_equal.
  apply act_fresh. rewrite U. reflexivity.
Qed.
End P.

(** With a normalizer it need not. *)
Lemma normalizer_case : exists g es1 data es2,
  shift_runs (mk_agent tt (Some 0) [] (repeat (@new_slot R unit unit) 1)) [CAct 0%R 0%R tt; CAct 0%R 0%R tt] = Ok (g, es1 ++ EUpdate tt (Some 0) (Some 1) data :: es2) /\
  Forall (piece_of data) data /\
  exists new, recompute shift_net tt (fun d (_ : unit) => d) (fun o : R => o) (fun n f => (f + INR n)%R) false tt (Some 1) data = Ok new /\
  ~ Forall2 (fun r x => prob_ratio (fst x) (r_logp r) = 1%R) (concat data) new.
Proof.
  unfold shift_runs. do 4 eexists. split; [cbn; repeat f_equal; match goal with |- [?a; ?b; ?c] = _ => exact (eq_refl : [a; b; c] = [a] ++ b :: [c]) end|]. split.
  - constructor; [|constructor]. split; [discriminate|]. exists [], []. left. reflexivity.
  - eexists. split; [cbn; reflexivity|]. intros F. inversion F as [|? ? ? ? F1 _]; subst. cbn in F1. unfold prob_ratio in F1.
    assert (X : (0 + 1 - (0 + 0) = 1)%R) by lra. rewrite X in F1. pose proof (exp_ineq1 1). lra.
Qed.
