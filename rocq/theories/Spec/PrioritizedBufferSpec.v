(** Specification of the prioritized buffer on plain lists of
    (item, priority) pairs, oldest first. *)
From Coq Require Import QArith.
From Verif Require Import Base.PyBase Model.Num Model.Random Model.TreeQueue Model.PrioritizedBuffer
     Spec.PrioritySpec Spec.RandomSpec.
Set Implicit Arguments.
Open Scope Q_scope.

(** Observation of a tree queue through its own interface: pop everything. *)
Fixpoint drain {V} (op : list V -> V) (n : nat) (q : tq V) : list (option V) :=
  match n with
  | O => []
  | S n => match tq_popleft op q with
           | Ok (v, q') => v :: drain op n q'
           | Raise _ => []
           end
  end.

(** Sampling weights / priorities currently stored, as seen by popping. *)
Definition weights {X} (b : pb QNum X) : list (option Q) := drain (op_sum QNum) (length (pb_data b)) (pb_sums b).
Definition priorities {X} (b : pb QNum X) : list (option Q) := drain (op_min QNum) (length (pb_data b)) (pb_mins b).

Section S.
  Context {X : Type}.

  (** Keep the newest [c] entries. *)
  Definition keep (c : option nat) (l : list (X * Q)) : list (X * Q) :=
    match c with None => l | Some c => skipn (length l - c) l end.

  (** The documented way to use the buffer: add items, remove the oldest, and
      sample-then-update the priorities of the sampled items. *)
  Inductive use :=
  | UAppend (x : X) (p : option Q)
  | UPopleft
  | UUpdate (n : nat) (ur : Q) (d : draws QNum) (ps : list Q).

  Inductive use_out :=
  | OUnit | OItem (x : X)
  | OSampled (xs : list X) (probs : list Q) (min_prob : Q).

  (** Selection probability of an item with priority [p] among priorities
      [pris]. *)
  Definition sel_prob (ur : Q) (pris : list Q) (p : Q) : Q :=
    ur / inject_Z (Z.of_nat (length pris)) + (1 - ur) * p / sumQ pris.

  (** Admissible random inputs of one sampling call on a buffer of [len] items. *)
  Definition draws_ok (len n : nat) (ur : Q) (d : draws QNum) : Prop :=
    0 <= ur <= 1 /\ (d_nuni d <= n)%nat /\ (n <= len)%nat /\
    (forall k, 0 <= d_us d k < 1) /\
    rng_ok (Z.of_nat len) (Z.of_nat (d_nuni d)) (d_rng d) /\
    (exists r, sample_n_k (d_fuel d) (d_rng d) (Z.of_nat len) (Z.of_nat (d_nuni d)) = Ok r).

  (** Calls that respect the documented preconditions in the state [l]. *)
  Definition use_pre (cap : option nat) (l : list (X * Q)) (u : use) : Prop :=
    match u with
    | UAppend _ p => (match p with Some p => 0 < p | None => True end) /\ cap <> Some 0%nat
    | UPopleft => l <> []
    | UUpdate n ur d ps => l <> [] /\ draws_ok (length l) n ur d /\ length ps = n /\ (forall p, In p ps -> 0 < p)
    end.

  (** New priority list after giving item [ixs_k] the priority [ps_k]. *)
  Definition set_pris (l : list (X * Q)) (ips : list (nat * Q)) : list (X * Q) :=
    fold_left (fun l ip => match nth_error l (fst ip) with
                           | Some (x, _) => upd l (fst ip) (x, snd ip)
                           | None => l
                           end) ips l.

  Definition maxQ (a b : Q) : Q := if Qltb a b then b else a.

  (** One use, on the plain list; second component: largest priority so far. *)
  Inductive use_step (cap : option nat) : list (X * Q) * Q -> use -> use_out -> list (X * Q) * Q -> Prop :=
  | us_append l m x p :
      use_step cap (l, m) (UAppend x p) OUnit
               (keep cap (l ++ [(x, match p with Some p => p | None => m end)]), m)
  | us_popleft l m x p :
      use_step cap ((x, p) :: l, m) UPopleft (OItem x) (l, m)
  | us_update l m n ur (d : draws QNum) ps ixs nu (us : list Q) w0 w' xs probs min_prob :
      (* [ixs]: the positions sampled; the first [nu] uniformly, the others by weight *)
      length ixs = n -> NoDup ixs ->
      nu = (if Qltb 0 ur then d_nuni d else 0%nat) ->
      us = map (d_us d) (seq 0 (n - nu)) ->
      (if Qltb 0 ur then sample_n_k (d_fuel d) (d_rng d) (Z.of_nat (length l)) (Z.of_nat nu)
       else Ok []) = Ok (map Z.of_nat (firstn nu ixs)) ->
      w0 = zero_at (map snd l) (firstn nu ixs) ->
      picks w0 us (skipn nu ixs) w' ->
      Forall2 (fun i x => nth_error (map fst l) i = Some x) ixs xs ->
      Forall2 (fun i pr => exists p, nth_error (map snd l) i = Some p /\ pr == sel_prob ur (map snd l) p) ixs probs ->
      (exists m, is_minQ (map snd l) m /\ min_prob == sel_prob ur (map snd l) m) ->
      use_step cap (l, m) (UUpdate n ur d ps) (OSampled xs probs min_prob)
               (set_pris l (combine ixs ps), fold_left maxQ ps m).

  (** The same use executed by the model of the code. *)
  Definition use_exec (b : pb QNum X) (u : use) : res (use_out * pb QNum X) :=
    match u with
    | UAppend x p => let! b' := pb_append b x p in Ok (OUnit, b')
    | UPopleft => let! (x, b') := pb_popleft b in Ok (OItem x, b')
    | UUpdate n ur d ps =>
      let! (xs, probs, mp, b1) := pb_sample b n ur d in
      let! b2 := pb_set_last b1 ps in
      Ok (OSampled xs probs mp, b2)
    end.

  (** "The buffer [b] stores exactly the pairs [l], all sampling weights equal
      the priorities, and the default priority is [m]." *)
  Definition stores (b : pb QNum X) (l : list (X * Q)) (m : Q) : Prop :=
    pb_data b = map fst l /\
    priorities b = map (fun e => Some (snd e)) l /\
    weights b = map (fun e => Some (snd e)) l /\
    pb_max b = m.

  (** A history of uses on the plain list, each meeting its precondition. *)
  Inductive use_steps (cap : option nat) : list (X * Q) * Q -> list (use * use_out) -> list (X * Q) * Q -> Prop :=
  | use_nil s : use_steps cap s [] s
  | use_cons s u o s' us s'' :
      use_step cap s u o s' -> use_steps cap s' us s'' -> use_steps cap s ((u, o) :: us) s''.

  (** A list of uses each of which meets its precondition in every state the
      preceding ones can lead to. *)
  Inductive safe (cap : option nat) : list (X * Q) * Q -> list use -> Prop :=
  | safe_nil s : safe cap s []
  | safe_cons s u us :
      use_pre cap (fst s) u ->
      (forall o s', use_step cap s u o s' -> safe cap s' us) -> safe cap s (u :: us).

  Fixpoint use_run (b : pb QNum X) (us : list use) : res (list (use * use_out) * pb QNum X) :=
    match us with
    | [] => Ok ([], b)
    | u :: t => let! (o, b1) := use_exec b u in
                let! (os, b2) := use_run b1 t in
                Ok ((u, o) :: os, b2)
    end.
End S.
Arguments use : clear implicits.
Arguments use_out : clear implicits.
Arguments OUnit {X}.
Arguments UPopleft {X}.
Arguments UUpdate {X}.
