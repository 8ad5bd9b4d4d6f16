(** What ACER and PCL must do with an interaction, read off the calls alone. *)
From Verif Require Import Base.PyBase Model.SegmentAgent.
Set Implicit Arguments.

(** [t_max], if given, is positive. *)
Definition positive (n : option nat) : Prop := match n with Some m => 0 < m | None => True end.
(** How many segments make one update: ACER updates after every segment. *)
Definition batch_of (c : sconf) : nat := match c_kind c with KAcer => 1 | KPcl => c_batch c end.

Section S.
  Context {Obs Act D Rw : Type}.

  (** One step of an episode: the state, the action and the distribution it was
      drawn from, the reward, the next state and whether that is terminal. *)
  Record step := mk_step { st_s : Obs; st_a : Act; st_mu : D; st_r : Rw; st_next : Obs; st_done : bool }.

  (** The interaction as episodes: the finished ones, and the steps known of the
      running one.  [cur] is the last state, action and distribution, whose
      outcome the next call tells. *)
  Fixpoint episodes_of (cur : option (Obs * Act * D)) (ep : list step) (ops : list (sop Obs Act D Rw))
    : list (list step) * list step * option (Obs * Act * D) :=
    match ops with
    | [] => ([], ep, cur)
    | SAct o r a d :: ops =>
      match cur with
      | Some (s, a', d') => episodes_of (Some (o, a, d)) (ep ++ [mk_step s a' d' r o false]) ops
      | None => episodes_of (Some (o, a, d)) ep ops
      end
    | SStop o r done :: ops =>
      match cur with
      | Some (s, a', d') => let '(eps, op, cur) := episodes_of None [] ops in ((ep ++ [mk_step s a' d' r o done]) :: eps, op, cur)
      | None => episodes_of None ep ops
      end
    | SStopEp :: ops => episodes_of cur ep ops
    end.

  (** The segments of an episode: consecutive runs of [n] steps ([None]: no
      limit), and what is left. *)
  Definition full {A} (n : option nat) (l : list A) : list (list A) :=
    match n with
    | Some n => map (fun j => firstn n (skipn (j * n) l)) (seq 0 (length l / n))
    | None => []
    end.
  Definition remainder {A} (n : option nat) (l : list A) : list A :=
    match n with Some n => skipn (length l / n * n) l | None => l end.
  Definition segments {A} (n : option nat) (l : list A) : list (list A) :=
    full n l ++ match remainder n l with [] => [] | r => [r] end.

  (** All segments to train on: those of finished episodes, and the full ones of
      the running one. *)
  Definition all_segments (n : option nat) (eps : list (list step)) (ep : list step) : list (list step) :=
    concat (map (segments n) eps) ++ full n ep.

  (** What the loss of a segment gets: its steps, and the state to take the value
      of beyond the end, unless the end is terminal. *)
  Definition loss_of (seg : list step) : sev Obs Act D Rw :=
    VLoss (map (fun x => (st_s x, st_a x, st_mu x, st_r x)) seg)
      (match rev seg with x :: _ => if st_done x then None else Some (st_next x) | [] => None end).

  (** The work for the [j]-th segment (from 1): its loss; after every [batch]
      segments one update and [replays] replay updates.  Without online updates:
      the replay updates. *)
  Definition work_of (online : bool) (batch replays : nat) (j : nat) (seg : list step) : list (sev Obs Act D Rw) :=
    if online then loss_of seg :: (if j mod batch =? 0 then VUpdate :: repeat VReplay replays else [])
    else repeat VReplay replays.
  Fixpoint work_from (online : bool) (batch replays j : nat) (segs : list (list step)) : list (sev Obs Act D Rw) :=
    match segs with
    | [] => []
    | x :: segs => work_of online batch replays j x ++ work_from online batch replays (S j) segs
    end.

  (** What goes to the replay buffer: every step with the action that followed;
      the last step of a finished episode with its own. *)
  Fixpoint with_next (ep : list step) (z : Act) : list (sev Obs Act D Rw) :=
    match ep with
    | [] => []
    | x :: t => VAppend (mk_strans (st_s x) (st_a x) (st_r x) (st_next x) (match t with [] => z | y :: _ => st_a y end) (st_done x) (st_mu x)) :: with_next t z
    end.
  Definition stored_closed (ep : list step) : list (sev Obs Act D Rw) :=
    match rev ep with [] => [] | x :: _ => with_next ep (st_a x) ++ [VEnd] end.
  Definition stored_open (ep : list step) (cur : option (Obs * Act * D)) : list (sev Obs Act D Rw) :=
    match cur with Some (_, a, _) => with_next ep a | None => [] end.

  Definition is_buffer (e : sev Obs Act D Rw) : bool := match e with VAppend _ | VEnd => true | _ => false end.
  Definition is_work (e : sev Obs Act D Rw) : bool := negb (is_buffer e).

  (** A stop comes only after an action. *)
  Fixpoint sformed (open : bool) (ops : list (sop Obs Act D Rw)) : bool :=
    match ops with
    | [] => true
    | SAct _ _ _ _ :: ops => sformed true ops
    | SStop _ _ _ :: ops => open && sformed false ops
    | SStopEp :: ops => sformed open ops
    end.
End S.
Arguments step : clear implicits.
