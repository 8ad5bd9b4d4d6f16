(** What users of stateless recurrent links rely on: one sequence at a time,
    without batches, sections or state queues. *)
From Verif Require Import Base.PyBase Model.Categorical Model.StatelessRecurrent.
Set Implicit Arguments.

Section Spec.
Variables U V : Type.
Notation link := (link U V).
Notation sst := (sst V).
Notation rstate := (rstate V).
Notation val := (val U).

(** The rows of a value: row t of a tuple holds the t-th rows of its arrays. *)
Definition rows (v : val) : list (list U) :=
  match v with VArr xs => map (fun x => [x]) xs | VTup xss => zip_star xss end.

(** Walking over the recurrent layers of a container; the states given (one
    per recurrent layer) are consumed in order. *)
Definition each_rec {B} (f : link -> B) :=
  fix go (ls : list link) : list B :=
  match ls with
  | [] => []
  | l :: ls => if is_recurrent l then f l :: go ls else go ls
  end.
Definition zip_rec {A B} (f : link -> A -> B) :=
  fix go (ls : list link) (xs : list A) : list B :=
  match ls with
  | [] => []
  | l :: ls => if is_recurrent l then match xs with [] => [] | x :: xs => f l x :: go ls xs end else go ls xs
  end.
Definition all_rec {A} (P : link -> A -> Prop) :=
  fix go (ls : list link) (xs : list A) : Prop :=
  match ls with
  | [] => xs = []
  | l :: ls => if is_recurrent l then match xs with [] => False | x :: xs => P l x /\ go ls xs end else go ls xs
  end.

(** The zero state of a link: what a missing state stands for. *)
Fixpoint zero_state (l : link) : sst :=
  match l with
  | LLstm p => SLstm (lstm_zero p) (lstm_zero p)
  | LGru p => SGru (gru_zero p)
  | LFun _ | LTup _ => SNone
  | LSeq ls | LBranch ls =>
      STup (each_rec zero_state ls)
  end.

(** A per-sequence state with every missing part replaced by zeros. *)
Fixpoint filled (l : link) (s : sst) {struct l} : sst :=
  match s with
  | SNone => zero_state l
  | STup ss =>
      match l with
      | LSeq ls | LBranch ls =>
          STup (zip_rec filled ls ss)
      | _ => s
      end
  | _ => s
  end.

(** A per-sequence state has the structure of the link (parts may be None). *)
Fixpoint shaped (l : link) (s : sst) {struct l} : Prop :=
  match s with
  | SNone => True
  | SLstm _ _ => match l with LLstm _ => True | _ => False end
  | SGru _ => match l with LGru _ => True | _ => False end
  | STup ss =>
      match l with
      | LSeq ls | LBranch ls =>
          all_rec shaped ls ss
      | _ => False
      end
  end.

(** A batched state for [n] sequences; parts may be None when [opt] holds. *)
Fixpoint batched (opt : bool) (l : link) (n : nat) (rs : rstate) {struct l} : Prop :=
  match rs with
  | RNone => opt = true
  | RLstm h c => match l with LLstm _ => length h = n /\ length c = n | _ => False end
  | RGru h => match l with LGru _ => length h = n | _ => False end
  | RTup rss =>
      match l with
      | LSeq ls | LBranch ls =>
          all_rec (fun l r => batched opt l n r) ls rss
      | _ => False
      end
  end.

(** Running a link on one sequence from one state.  A tuple given to a
    recurrent link has no meaning and is not reached from typed links. *)
Definition arr (v : val) : list U := match v with VArr xs => xs | VTup _ => [] end.

(** Layers one after the other, each recurrent one with its own state. *)
Definition seq1 (run : link -> list U -> sst -> val * sst) :=
  fix go (ls : list link) (v : val) (ss : list sst) : val * list sst :=
  match ls with
  | [] => (v, [])
  | l :: ls =>
      match l with
      | LFun f => go ls (VArr (map f (rows v))) ss
      | LTup fs => go ls (VTup (map (fun f => map f (rows v)) fs)) ss
      | _ =>
          let vs := run l (arr v) (hd SNone ss) in
          let r := go ls (fst vs) (tl ss) in (fst r, snd vs :: snd r)
      end
  end.
(** Layers side by side, each with its own state. *)
Definition branch1 (run : link -> sst -> val * sst) :=
  fix go (ls : list link) (ss : list sst) : list (val * sst) :=
  match ls with
  | [] => []
  | l :: ls => run l (hd SNone ss) :: go ls (tl ss)
  end.

Fixpoint run1 (l : link) (xs : list U) (s : sst) {struct l} : val * sst :=
  match l with
  | LLstm p =>
      let hc := match s with SLstm h c => (h, c) | _ => (lstm_zero p, lstm_zero p) end in
      let r := run_lstm p (fst hc) (snd hc) xs in
      (VArr (snd r), SLstm (fst (fst r)) (snd (fst r)))
  | LGru p =>
      let h := match s with SGru h => h | _ => gru_zero p end in
      let r := run_gru p h xs in (VArr (snd r), SGru (fst r))
  | LFun f => (VArr (map (fun x => f [x]) xs), SNone)
  | LTup fs => (VTup (map (fun f => map (fun x => f [x]) xs) fs), SNone)
  | LSeq ls =>
      let ss := match s with STup ss => ss | _ => repeat SNone (n_rec ls) end in
      let r := seq1 run1 ls (VArr xs) ss in
      (fst r, STup (snd r))
  | LBranch ls =>
      let ss := match s with STup ss => ss | _ => repeat SNone (length ls) end in
      let rs := branch1 (fun l => run1 l xs) ls ss in
      (VTup (map (fun r => arr (fst r)) rs), STup (map snd rs))
  end.

(** Which recurrent links make sense on sequences that are arrays: recurrent
    layers are given arrays, branches are recurrent and return arrays.
    [Some None] is an array output, [Some (Some k)] a tuple of k > 0 arrays. *)
Definition seq_ty (ty : link -> option (option nat)) :=
  fix go (t : option nat) (ls : list link) : option (option nat) :=
  match ls with
  | [] => Some t
  | l :: ls =>
      match l with
      | LFun _ => go None ls
      | LTup fs => if length fs =? 0 then None else go (Some (length fs)) ls
      | _ => match t, ty l with None, Some t' => go t' ls | _, _ => None end
      end
  end.
Definition branch_ty (ty : link -> option (option nat)) :=
  fix go (ls : list link) : bool :=
  match ls with
  | [] => true
  | l :: ls => match ty l with Some None => go ls | _ => false end
  end.

Fixpoint out_ty (l : link) : option (option nat) :=
  match l with
  | LLstm _ | LGru _ => Some None
  | LFun _ | LTup _ => None
  | LSeq ls => seq_ty out_ty None ls
  | LBranch ls => if length ls =? 0 then None else if branch_ty out_ty ls then Some (Some (length ls)) else None
  end.

(** A sequence of [n] time steps. *)
Definition steps (n : nat) (v : val) : Prop :=
  match v with
  | VArr xs => length xs = n
  | VTup xss => xss <> [] /\ forall xs, In xs xss -> length xs = n
  end.
(** Arrays, or tuples of [k] arrays. *)
Definition has_ty (t : option nat) (v : val) : Prop :=
  match t, v with
  | None, VArr _ => True
  | Some k, VTup xss => length xss = k
  | _, _ => False
  end.

(** Two sequences one after the other. *)
Definition after (v w : val) : val :=
  match v, w with
  | VArr a, VArr b => VArr (a ++ b)
  | VTup a, VTup b => VTup (map (fun p => fst p ++ snd p) (combine a b))
  | _, _ => v
  end.

(** The start positions of all sequences but the first. *)
Fixpoint starts (acc : nat) (lens : list nat) : list nat :=
  match lens with
  | [] | [_] => []
  | n :: lens => (acc + n) :: starts (acc + n) lens
  end.
End Spec.

(** A concrete model for the examples: integers as rows and as state columns.
    The LSTM adds the input to h and counts in c; the GRU adds the input. *)
Definition ex_lstm : lstm Z Z :=
  {| lstm_cell := fun h c x => ((h + x, c + 1), h + x + c)%Z; lstm_zero := 0%Z |}.
Definition ex_gru : gru Z Z := {| gru_cell := fun h x => (h + x, h + x)%Z; gru_zero := 0%Z |}.
Definition ex_link : link Z Z :=
  LSeq [LFun (fun r => fold_right Z.add 1%Z r); LLstm ex_lstm;
        LBranch [LGru ex_gru; LSeq [LGru ex_gru; LFun (fun r => fold_right Z.add 0%Z r)]];
        LFun (fun r => fold_right Z.add 0%Z r)].
