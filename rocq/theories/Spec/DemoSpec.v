(** What a demonstration run did, read off the calls it made. *)
From Verif Require Import Base.PyBase Model.TrainAgent Model.Evaluator Model.CollectDemos.
Set Implicit Arguments.
Local Open Scope nat_scope.

(** The limit collect_demonstrations implements: one more than max_episode_len. *)
Definition demo_limit (maxlen : option Z) : option Z := option_map (fun m => m + 1)%Z maxlen.

Section S.
  Context {Obs Act Rw : Type}.
  Notation dev := (@dev Obs Act Rw).
  Notation demo := (@demo Obs Act Rw).
  (** Longest allowed episode: the code makes an episode end when this many steps
      were made. *)
  Variable limit : option Z.

  Definition dm_done (x : demo) : bool := snd (fst x).
  Definition dm_needs (x : demo) : bool := snd x.

  (** The records written, and the same grouped by episode (one per reset). *)
  Fixpoint dataset (tr : list dev) : list demo :=
    match tr with [] => [] | DWrite x :: tr => x :: dataset tr | _ :: tr => dataset tr end.
  Definition d_add_last (gs : list (list demo)) (x : demo) : list (list demo) := removelast gs ++ [last gs [] ++ [x]].
  Definition d_add_event (gs : list (list demo)) (e : dev) : list (list demo) :=
    match e with DReset _ => gs ++ [[]] | DWrite x => d_add_last gs x | _ => gs end.
  Definition d_episodes (tr : list dev) : list (list demo) := fold_left d_add_event tr [].

  (** The [k]-th step (from 1) ends the episode. *)
  Definition d_ends_at (k : nat) (x : demo) : Prop := dm_done x = true \/ dm_needs x = true \/ limit = Some (Z.of_nat k).
  Definition d_running (g : list demo) : Prop := forall i x, nth_error g i = Some x -> ~ d_ends_at (S i) x.
  Definition d_complete (g : list demo) : Prop := exists g0 x, g = g0 ++ [x] /\ d_running g0 /\ d_ends_at (length g) x.

  (** The protocol: what is written is exactly the interaction. *)
  Inductive dphase :=
  | RReset
  | RAct (o : Obs) (len : nat)
  | RStep (o : Obs) (a : Act) (len : nat)
  | RWrite (x : demo) (len : nat)
  | RSeen (o : Obs) (len : nat) (over : bool)
  | RDone.
  Inductive dpstep : dphase -> dev -> dphase -> Prop :=
  | r_reset o : dpstep RReset (DReset o) (RAct o 0)
  | r_act o len a : dpstep (RAct o len) (DAct o a) (RStep o a len)
  | r_step o a len o' r d n : dpstep (RStep o a len) (DStep a o' r d n) (RWrite (o, a, r, o', d, n) len)
  | r_write o a r o' d n len over : (over = true <-> d_ends_at (S len) (o, a, r, o', d, n)) ->
      dpstep (RWrite (o, a, r, o', d, n) len) (DWrite (o, a, r, o', d, n)) (RSeen o' (S len) over)
  | r_go_on o len a : dpstep (RSeen o len false) (DAct o a) (RStep o a len)
  | r_stop o len : dpstep (RSeen o len true) DStop RReset
  | r_quit o len : dpstep (RSeen o len false) DStop RDone.
  Inductive dpath : dphase -> list dev -> dphase -> Prop :=
  | dp_nil p : dpath p [] p
  | dp_cons p e p' l p'' : dpstep p e p' -> dpath p' l p'' -> dpath p (e :: l) p''.

  Definition from_dworld (w : @dworld Obs Act Rw) (e : exc) : Prop :=
    exists tr, d_reset w tr = Raise e \/ d_act w tr = Raise e \/ d_step w tr = Raise e \/ d_write w tr = Raise e \/ d_stop w tr = Raise e.
End S.
