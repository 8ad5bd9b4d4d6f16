(** What a user of a preprocessed Atari game may do and what happens to the game itself. *)
From Coq Require Import QArith.
From Verif Require Import Base.PyBase Model.GymEnv Model.Wrappers Model.AtariStack Spec.WrapperSpec.
Set Implicit Arguments.
Local Open Scope nat_scope.

(** Users reset first, step only in an episode, reset when an episode is over (or when they want to) and do not reset twice in a row. *)
Inductive phase := Fresh | JustReset | Playing | Over.
Definition allowed {A} (ph : phase) (o : op A) : Prop :=
  match o, ph with
  | Reset, (Fresh | Playing | Over) => True
  | Step _, (JustReset | Playing) => True
  | _, _ => False
  end.
Definition next_phase {O X} (x : out O X) : phase := match x with OReset _ => JustReset | OStep s => if terminal s then Over else Playing end.
Fixpoint obeys {A O X} (ph : phase) (ops : list (op A)) (ys : list (out O X)) : Prop :=
  match ops, ys with
  | [], [] => True
  | o :: ops, y :: ys => allowed ph o /\ obeys (next_phase y) ops ys
  | _, _ => False
  end.

(** In the calls made to the game, no step comes before the first reset, and no more than [k] steps come between two resets; [c] counts those made already. *)
Fixpoint within {A} (k : nat) (c : option nat) (calls : list (op A)) : Prop :=
  match calls with
  | [] => True
  | Reset :: calls => within k (Some 0) calls
  | Step _ :: calls => match c with None => False | Some j => S j <= k /\ within k (Some (S j)) calls end
  end.

(** One call by the user, given the calls it made to the game, whose lives were [lives] before and [lives'] after, and the number [c] of steps of the game since its
    reset, after the call.  A step repeats its action 1 to 4 times, until the game is over or asks for a reset or the limit is reached; rewards are summed, and reduced
    to their sign if they are clipped; an episode is done when the game is over or, if lives are episodes, a life is lost and another is left; a reset is due when the game
    asks for it or at the limit. *)
Definition step_of_game {A O O' X} (clip life : bool) (limit : nat) (a : A) (y : sout O' X) (log : list (op A * out O X)) (lives lives' c : nat) : Prop :=
  exists ss z, log = map (fun s => (Step a, OStep s)) (ss ++ [z]) /\ length ss < 4 /\
    Forall (fun s => so_done s = false /\ needs_reset (so_info s) = false) ss /\
    (length ss < 3 -> so_done z = true \/ needs_reset (so_info z) = true \/ limit <= c) /\
    (let r := qsum (map (@so_rew O X) (ss ++ [z])) in if clip then (so_rew y == 0 /\ r == 0 \/ so_rew y == 1 /\ 0 < r \/ so_rew y == -1 # 1 /\ r < 0)%Q else (so_rew y == r)%Q) /\
    so_done y = so_done z || (life && ((0 <? lives') && (lives' <? lives))) /\
    needs_reset (so_info y) = needs_reset (so_info z) || (limit <=? c).

(** A reset makes only resets and steps with the given actions. *)
Definition reset_of_game {A O X} (acts : list A) (log : list (op A * out O X)) : Prop :=
  Forall (fun p => match fst p with Reset => True | Step a => In a acts end) log.

(** A history of the user's calls with the calls to the game that each of them made, from the state [e] of the game after [c] steps since its reset. *)
Inductive played {A O O' X} (E : env A O X) (clip life : bool) (limit : nat) (acts : list A) :
  est E -> option nat -> list (op A) -> list (out O' X) -> list (list (op A * out O X)) -> Prop :=
| played_none : forall e c, played E clip life limit acts e c [] [] []
| played_call : forall e c o y log e' ops ys logs,
    ran E e log e' ->
    match o, y with
    | Step a, OStep s => exists n, steps_since c (map fst log) = Some n /\ step_of_game clip life limit a s log (elives E e) (elives E e') n
    | Reset, OReset _ => reset_of_game acts log
    | _, _ => False
    end ->
    played E clip life limit acts e' (steps_since c (map fst log)) ops ys logs ->
    played E clip life limit acts e c (o :: ops) (y :: ys) (log :: logs).

(** The same without a limit: only the game itself can end an episode or ask for a reset. *)
Definition step_unlimited {A O O' X} (clip life : bool) (a : A) (y : sout O' X) (log : list (op A * out O X)) (lives lives' : nat) : Prop :=
  exists ss z, log = map (fun s => (Step a, OStep s)) (ss ++ [z]) /\ length ss < 4 /\
    Forall (fun s => so_done s = false /\ needs_reset (so_info s) = false) ss /\
    (length ss < 3 -> so_done z = true \/ needs_reset (so_info z) = true) /\
    (let r := qsum (map (@so_rew O X) (ss ++ [z])) in if clip then (so_rew y == 0 /\ r == 0 \/ so_rew y == 1 /\ 0 < r \/ so_rew y == -1 # 1 /\ r < 0)%Q else (so_rew y == r)%Q) /\
    so_done y = so_done z || (life && ((0 <? lives') && (lives' <? lives))) /\
    needs_reset (so_info y) = needs_reset (so_info z).
Inductive played_unlimited {A O O' X} (E : env A O X) (clip life : bool) (acts : list A) : est E -> list (op A) -> list (out O' X) -> list (list (op A * out O X)) -> Prop :=
| unlimited_none : forall e, played_unlimited E clip life acts e [] [] []
| unlimited_call : forall e o y log e' ops ys logs,
    ran E e log e' ->
    match o, y with
    | Step a, OStep s => step_unlimited clip life a s log (elives E e) (elives E e')
    | Reset, OReset _ => reset_of_game acts log
    | _, _ => False
    end ->
    played_unlimited E clip life acts e' ops ys logs ->
    played_unlimited E clip life acts e (o :: ops) (y :: ys) (log :: logs).
(** The first call to the game is a reset. *)
Definition reset_first {A O X} (log : list (op A * out O X)) : Prop := match log with (Step _, _) :: _ => False | _ => True end.

(** The frame made of the [k]-th observation: warped, scaled if that is asked for, and, if frames flicker, blank when the [k]-th coin says so. *)
Definition frame {O P} (opt : options) (warp : O -> P) (scaled blank : P -> P) (coins : nat -> bool) (k : nat) (o : O) : P :=
  let p := if scale opt then scaled (warp o) else warp o in
  if flicker opt && coins k then blank p else p.
Fixpoint frames {O P X} (look : nat -> O -> P) (k : nat) (xs : list (out O X)) : list (out P X) :=
  match xs with [] => [] | x :: xs => with_obs (look k (out_obs x)) x :: frames look (S k) xs end.
(** The same result with the sign of the reward. *)
Definition sign_of_reward {O X} (clip : bool) (x : out O X) : out O X :=
  match x with
  | OStep s => OStep (mk_sout (so_obs s) (if clip then (if Qle_bool (so_rew s) 0 then if Qle_bool 0 (so_rew s) then 0 else -1 # 1 else 1) else so_rew s)%Q (so_done s) (so_info s))
  | OReset o => OReset o
  end.

(** A game that counts its steps since its reset, pays 1 for each step, is never over by itself, and loses one of its 3 lives at the fifth step. *)
Definition counting_game : env nat nat unit :=
  mk_env (fun n (_ : nat) => Ok (S n, mk_sout (S n) 1%Q false (mk_info false tt))) (fun _ => Ok (0, 0)) (fun n => if n <? 5 then 3 else 2).
(** It, preprocessed with episodic lives and nothing else, with a limit of 6 steps, one no-op at each reset; and the steps the game has made since its reset. *)
Definition counted : live_env nat (list nat) unit :=
  wrap_deepmind 0 1 2 (mk_options true false false false false false) (fun o : nat => o) (fun o => o) (fun o => o) (fun _ => false)
    (make_atari Nat.max 0 0 (mk_live counting_game 0) (Some 6%Z) (fun _ => 1)).
Definition counted_steps (w : est (l_env counted)) : nat := snd (snd (snd (snd w))).
