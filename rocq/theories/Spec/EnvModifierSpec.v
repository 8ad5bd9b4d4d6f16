(** What modified environments should do, in terms of the calls the original one gets and of its
    answers. *)
From Coq Require Import QArith Qminmax List.
From Verif Require Import Base.PyBase Model.GymEnv Model.EnvModifiers.
Import ListNotations.
Local Open Scope nat_scope.

Definition map_action {A} (f : A -> A) (c : call A) : call A := match c with KStep a => KStep (f a) | _ => c end.
Definition map_result {O O' X} (ob : O -> O') (rew : Q -> Q) (r : result O X) : result O' X :=
  match r with
  | RReset o => RReset (ob o)
  | RStep s => RStep (mk_sout (ob (so_obs s)) (rew (so_rew s)) (so_done s) (so_info s))
  | RNone => RNone
  end.
(** What a list of filters, added one after the other, does to actions and rewards: the filter added
    last sees the action first and the reward last.  [None] if there are other modifiers. *)
Fixpoint filters {A} (ms : list (@modifier A)) : option ((A -> A) * (Q -> Q)) :=
  match ms with
  | [] => Some (fun a => a, fun r => r)
  | m :: ms =>
      match filters ms with
      | None => None
      | Some (fa, fr) =>
          match m with
          | ActionFiltered f => Some (fun a => f (fa a), fr)
          | RewardFiltered f => Some (fa, fun r => fr (f r))
          | RewardClipped low high => Some (fa, fun r => fr (Qmin (Qmax r low) high))
          | _ => None
          end
      end
  end.
(** The calls that a call becomes, and which of their results is returned. *)
Definition rendered_calls {A} (on_reset on_close : bool) (c : call A) : list (call A) :=
  match c with
  | KStep a => [KStep a; KRender false]
  | KReset => if on_reset then [KReset; KRender false] else [KReset]
  | KClose => if on_close then [KRender true; KClose] else [KClose]
  | KRender b => [KRender b]
  end.
Definition rendered_results {A O X} (on_reset on_close : bool) : list (call A) -> list (result O X) -> list (result O X) :=
  fix go cs rs :=
    match cs with
    | [] => []
    | c :: cs =>
        match c, rs with
        | KStep _, r :: _ :: rs => r :: go cs rs
        | KReset, r :: rs => r :: go cs (if on_reset then tl rs else rs)
        | KClose, r :: rs => if on_close then match rs with r :: rs => r :: go cs rs | [] => [] end else r :: go cs rs
        | KRender _, r :: rs => r :: go cs rs
        | _, _ => []
        end
    end.
(** The last observation given. *)
Definition last_observation {O X} (rs : list (result O X)) : option O :=
  fold_left (fun ob r => match r with RReset o => Some o | RStep s => Some (so_obs s) | RNone => ob end) rs None.
(** The environment never ends an episode. *)
Definition endless {A O X} (E : obj A O X) : Prop := forall e a e' x, ostep E e a = Ok (e', x) -> so_done x = false.
Definition dones {O X} (rs : list (result O X)) : list bool := flat_map (fun r => match r with RStep s => [so_done s] | _ => [] end) rs.
Definition rewards {O X} (rs : list (result O X)) : list Q := flat_map (fun r => match r with RStep s => [so_rew s] | _ => [] end) rs.
