(** C86: environment modifiers and transparent wrappers change exactly what they say, in every
    combination of filters, and rendering never changes what the agent sees. *)
From Coq Require Import QArith Qminmax List Arith.
From Verif Require Import Base.PyBase Model.GymEnv Model.EnvModifiers Spec.EnvModifierSpec Proofs.EnvModifierProofs.
Import ListNotations.
Local Open Scope nat_scope.

(** Any number of action and reward filters and clippings, in any order: the environment receives
    each action after all the action filters, the one added last first, and the user each reward
    after all the reward filters, the one added first first; nothing else changes. *)
Theorem C86_filters : forall (A O X : Type) (ms : list (@modifier A)) fa fr, filters ms = Some (fa, fr) -> forall (E : obj A O X) cs,
  behaviour (modify E ms) cs = let! rs := behaviour E (map (map_action fa) cs) in Ok (map (map_result (fun o => o) fr) rs).
Proof. exact @filters_ok. Qed.
(** make_rendered adds a render after every step and a closing render before closing, and gives
    the results of the other calls. *)
Theorem C86_rendered : forall (A O X : Type) (E : obj A O X) cs,
  behaviour (make_rendered E) cs = let! rs := behaviour E (flat_map (rendered_calls false true) cs) in Ok (rendered_results false true cs rs).
Proof. exact @rendered_ok. Qed.
(** The Render wrapper adds a render after every reset and step. *)
Theorem C86_render_wrapper : forall (A O X : Type) (E : obj A O X) cs,
  behaviour (render_wrapper E) cs = let! rs := behaviour E (flat_map (rendered_calls true false) cs) in Ok (rendered_results true false cs rs).
Proof. exact @wrapper_ok. Qed.
(** CastObservation casts every observation, changes nothing else and remembers the last
    observation before casting. *)
Theorem C86_cast : forall (A O X O' : Type) (astype : O -> O') (E : obj A O X) cs,
  behaviour (cast_observation astype E) cs = (let! rs := behaviour E cs in Ok (map (map_result astype (fun r => r)) rs)) /\
  (forall s rs, perform (cast_observation astype E) (now (cast_observation astype E)) cs = Ok (s, rs) -> exists rs0, behaviour E cs = Ok rs0 /\ fst s = last_observation rs0).
Proof. exact @cast_ok. Qed.
(** A time limit L added before repeating actions n times counts the environment's steps, added
    after it counts the agent's: the k-th step since a reset, or since
    the modification, of an environment that never ends is done exactly from k * n >= L, resp. k >= L. *)
Theorem C86_limit_orders : forall (A O X : Type) (E : obj A O X) L n pre as_ rs, 0 < n -> endless E -> pre = [] \/ pre = [KReset] ->
  (behaviour (modify E [Limited L; Repeated n]) (pre ++ map KStep as_) = Ok rs -> dones rs = map (fun k => Z.leb L (Z.of_nat (k * n))) (seq 1 (length as_))) /\
  (behaviour (modify E [Repeated n; Limited L]) (pre ++ map KStep as_) = Ok rs -> dones rs = map (fun k => Z.leb L (Z.of_nat k)) (seq 1 (length as_))).
Proof. exact @orders_ok. Qed.
(** Clipped rewards are in the range; if the clipping was added before repeating actions, the sum of
    k <= n clipped rewards is in k times the range.  Rewards in the range are kept. *)
Theorem C86_clipped : forall (A O X : Type) (E : obj A O X) lo hi cs rs, (lo <= hi)%Q ->
  (behaviour (make_reward_clipped E lo hi) cs = Ok rs -> Forall (fun r => (lo <= r <= hi)%Q) (rewards rs)) /\
  (forall n, behaviour (modify E [Repeated n; RewardClipped lo hi]) cs = Ok rs -> Forall (fun r => (lo <= r <= hi)%Q) (rewards rs)) /\
  (forall n, behaviour (modify E [RewardClipped lo hi; Repeated n]) cs = Ok rs ->
     Forall (fun r => exists k, 0 < k <= n /\ (inject_Z (Z.of_nat k) * lo <= r <= inject_Z (Z.of_nat k) * hi)%Q) (rewards rs)) /\
  (forall x, (lo <= x <= hi)%Q -> (Qmin (Qmax x lo) hi == x)%Q).
Proof. exact @clip_ok. Qed.
Print Assumptions C86_filters.
Print Assumptions C86_rendered.
Print Assumptions C86_render_wrapper.
Print Assumptions C86_cast.
Print Assumptions C86_limit_orders.
Print Assumptions C86_clipped.

(** An endless environment that counts: the action is added to the state and is the reward. *)
Definition adder : obj Z Z unit :=
  mk_obj Z 0%Z (fun e a => Ok ((e + a)%Z, mk_sout (e + a)%Z (inject_Z a) false (mk_info false tt))) (fun _ => Ok (0%Z, 0%Z)) (fun e _ => Ok e) (fun e => Ok e).
Example C86_endless : endless adder.
Proof. intros e a e' x H. cbn in H. injection H as <- <-. reflexivity. Qed.
(** Two action filters and two reward filters. *)
Example C86_filters_example :
  behaviour (modify adder [ActionFiltered (Z.add 1); RewardFiltered (Qplus 1); ActionFiltered (Z.mul 2); RewardClipped 0 5]) [KReset; KStep 1%Z; KStep 3%Z]
  = Ok [RReset 0%Z; RStep (mk_sout 3%Z 4 false (mk_info false tt)); RStep (mk_sout 10%Z 5 false (mk_info false tt))].
Proof. reflexivity. Qed.
Example C86_orders_example :
  option_map dones (match behaviour (modify adder [Limited 5; Repeated 2]) (KReset :: map KStep [1; 1; 1; 1]%Z) with Ok r => Some r | _ => None end) = Some [false; false; true; true] /\
  option_map dones (match behaviour (modify adder [Repeated 2; Limited 3]) (KReset :: map KStep [1; 1; 1; 1]%Z) with Ok r => Some r | _ => None end) = Some [false; false; true; true].
Proof. split; reflexivity. Qed.
