(** Stateless recurrent links: chainerrl/links/stateless_recurrent.py,
    stateless_recurrent_sequential.py and stateless_recurrent_branched.py.

    What is abstracted.  An array whose first axis is time or batch is the
    list of its rows, a row being an element of an arbitrary type [U].  A
    recurrent array of shape (n_layers, batch_size, out_size) is the list of
    its columns [h[:, i]], a column being an element of an arbitrary type [V].
    L.NStepLSTM and L.NStepGRU / NStepRNNReLU / NStepRNNTanh are chainer's: by
    their contract they run one cell over each sequence of the batch, starting
    from that sequence's state (zeros if no state is given), independently of
    the other sequences; the cells are arbitrary functions here.
    Non-recurrent layers are arbitrary functions applied to each row (so a
    layer that mixes rows, such as batch normalization, is outside the
    model).  Tuples of arrays are modelled, tuples of tuples are not (they
    raise TypeError here). *)
From Verif Require Import Base.PyBase Model.Categorical.
From Coq Require Import QArith.
Local Open Scope nat_scope.
Set Implicit Arguments.

Section Links.
Variables U V : Type.

(** A sequence or a concatenation of sequences: an array, or a tuple of
    arrays. *)
Inductive val := VArr (xs : list U) | VTup (xss : list (list U)).

(** L.NStepLSTM: new (h, c) and output for one step; [lstm_zero] is a zero
    column, of shape (n_layers, out_size). *)
Record lstm := { lstm_cell : V -> V -> U -> (V * V) * U; lstm_zero : V }.
(** L.NStepGRU, L.NStepRNNReLU, L.NStepRNNTanh. *)
Record gru := { gru_cell : V -> U -> V * U; gru_zero : V }.

(** A link: chainer's recurrent links, a layer returning one array, a layer
    returning a tuple of arrays, StatelessRecurrentSequential and
    StatelessRecurrentBranched. *)
Inductive link :=
| LLstm (p : lstm)
| LGru (p : gru)
| LFun (f : list U -> U)
| LTup (fs : list (list U -> U))
| LSeq (ls : list link)
| LBranch (ls : list link).

(** Batched recurrent state: None, (h, c), h, or the tuple of the states of
    the recurrent children. *)
Inductive rstate :=
| RNone
| RLstm (h c : list V)
| RGru (h : list V)
| RTup (rss : list rstate).

(** Recurrent state of one sequence, as returned by get_recurrent_state_at for
    an integer index. *)
Inductive sst :=
| SNone
| SLstm (h c : V)
| SGru (h : V)
| STup (ss : list sst).

(** chainerrl/links/stateless_recurrent.py:126-141 [is_recurrent_link]. *)
Definition is_recurrent (l : link) : bool :=
  match l with LFun _ | LTup _ => false | _ => true end.

(** Python's [zip( *ls)] on a list of lists: as long as the shortest. *)
Fixpoint zip_cons {A} (l : list A) (rest : list (list A)) : list (list A) :=
  match l, rest with
  | x :: l, r :: rest => (x :: r) :: zip_cons l rest
  | _, _ => []
  end.
Fixpoint zip_star {A} (ls : list (list A)) : list (list A) :=
  match ls with
  | [] => []
  | [l] => map (fun x => [x]) l
  | l :: ls => zip_cons l (zip_star ls)
  end.

(** chainer's F.split_axis(xs, sections, axis=0) for increasing indices: the
    pieces xs[0:s1], xs[s1:s2], ..., xs[sn:]. *)
Fixpoint split_axis {A} (start : nat) (sections : list nat) (xs : list A) : list (list A) :=
  match sections with
  | [] => [skipn start xs]
  | s :: sections => firstn (s - start) (skipn start xs) :: split_axis s sections xs
  end.

(** chainerrl/links/stateless_recurrent.py:144-158 [split_batched_sequences]. *)
Definition split_batched (v : val) (sections : list nat) : list val :=
  match v with
  | VTup xss => map VTup (zip_star (map (split_axis 0 sections) xss))
  | VArr xs => map VArr (split_axis 0 sections xs)
  end.

Definition as_arr (v : val) : res (list U) :=
  match v with VArr xs => Ok xs | VTup _ => Raise TypeError end.
(** [seq[i]] for a tuple of arrays.  A list that mixes arrays and tuples is
    simplified to TypeError. *)
Definition tuple_at (i : nat) (v : val) : res (list U) :=
  match v with
  | VTup xss => match nth_error xss i with Some xs => Ok xs | None => Raise IndexError end
  | VArr _ => Raise TypeError
  end.

(** chainerrl/links/stateless_recurrent.py:161-180 [concatenate_sequences]. *)
Definition concat_seqs (seqs : list val) : res val :=
  match seqs with
  | [] => Raise IndexError
  | VTup t :: _ =>
      let! cols := mapM (fun i => let! parts := mapM (tuple_at i) seqs in Ok (concat parts))
                        (seq 0 (length t)) in
      Ok (VTup cols)
  | VArr _ :: _ => let! parts := mapM as_arr seqs in Ok (VArr (concat parts))
  end.

(** [len(x)] as stateless_recurrent_sequential.py:39 uses it: the number of
    rows of an array, but the number of components of a tuple. *)
Definition py_len (v : val) : nat :=
  match v with VArr xs => length xs | VTup xss => length xss end.

(** [np.cumsum]. *)
Fixpoint cumsum_from (acc : nat) (l : list nat) : list nat :=
  match l with [] => [] | x :: l => (acc + x) :: cumsum_from (acc + x) l end.

(** stateless_recurrent_sequential.py:39: [np.cumsum([len(x) for x in
    sequences[:-1]])]. *)
Definition sections_of (seqs : list val) : list nat := cumsum_from 0 (map py_len (removelast seqs)).

(** The rows a non-recurrent layer sees, called as [layer(h)] or [layer( *h)]
    (stateless_recurrent_sequential.py:52-55). *)
Definition rows_of (v : val) : res (list (list U)) :=
  match v with
  | VArr xs => Ok (map (fun x => [x]) xs)
  | VTup [] => Raise TypeError
  | VTup ((xs :: _) as t) => if forallb (fun y => length y =? length xs) t then Ok (zip_star t)
                             else Raise ValueError
  end.
Definition call_layer (l : link) (v : val) : res val :=
  match l with
  | LFun f => let! rows := rows_of v in Ok (VArr (map f rows))
  | LTup fs => let! rows := rows_of v in Ok (VTup (map (fun f => map f rows) fs))
  | _ => Raise TypeError
  end.

(** The local variables (h, seq_mode) of n_step_forward: a list of sequences,
    or one concatenated batch. *)
Inductive outp := OSplit (vs : list val) | OConcat (v : val).

Definition to_split (sections : list nat) (h : outp) : list val :=
  match h with OSplit vs => vs | OConcat v => split_batched v sections end.
Definition to_concat (h : outp) : res val :=
  match h with OSplit vs => concat_seqs vs | OConcat v => Ok v end.

(** One sequence through an LSTM / a GRU (chainer's contract). *)
Fixpoint run_lstm (p : lstm) (h c : V) (xs : list U) : (V * V) * list U :=
  match xs with
  | [] => ((h, c), [])
  | x :: xs =>
      let hcy := lstm_cell p h c x in
      let r := run_lstm p (fst (fst hcy)) (snd (fst hcy)) xs in
      (fst r, snd hcy :: snd r)
  end.
Fixpoint run_gru (p : gru) (h : V) (xs : list U) : V * list U :=
  match xs with
  | [] => (h, [])
  | x :: xs => let hy := gru_cell p h x in let r := run_gru p (fst hy) xs in (fst r, snd hy :: snd r)
  end.

(** End of call_recurrent_link for chainer's links and of n_step_forward: the
    output in the requested mode. *)
Definition output (split : bool) (vs : list val) : res outp :=
  if split then Ok (OSplit vs) else let! v := concat_seqs vs in Ok (OConcat v).

(** stateless_recurrent_sequential.py:40-55, the loop over the layers.
    [call] is call_recurrent_link with output_mode='split'; [queue] is the
    state queue, in evaluation order (the code reverses it and pops from the
    end). *)
Definition seq_loop (call : link -> list val -> rstate -> res (outp * rstate)) (sections : list nat) :=
  fix go (ls : list link) (h : outp) (queue new : list rstate) {struct ls}
    : res (outp * (list rstate * list rstate)) :=
  match ls with
  | [] => Ok (h, (queue, new))
  | l :: ls =>
      if is_recurrent l then
        match queue with
        | [] => Raise IndexError
        | r :: queue =>
            let! hr := call l (to_split sections h) r in
            go ls (fst hr) queue (new ++ [snd hr])
        end
      else
        let! v := to_concat h in
        let! v' := call_layer l v in
        go ls (OConcat v') queue new
  end.

(** stateless_recurrent_branched.py:22-24: the calls of the children, over
    [zip(self, recurrent_state)]. *)
Definition branch_loop (call : link -> rstate -> res (outp * rstate)) :=
  fix go (ls : list link) (rss : list rstate) {struct ls} : res (list (outp * rstate)) :=
  match ls, rss with
  | l :: ls, r :: rss => let! o := call l r in let! os := go ls rss in Ok (o :: os)
  | _, _ => Ok []
  end.

Definition split_of (o : outp) : res (list val) :=
  match o with OSplit vs => Ok vs | OConcat _ => Raise TypeError end.
Definition concat_of (o : outp) : res (list U) :=
  match o with OConcat v => as_arr v | OSplit _ => Raise TypeError end.

(** chainerrl/links/stateless_recurrent.py:183-218 [call_recurrent_link],
    stateless_recurrent_sequential.py:28-65 and
    stateless_recurrent_branched.py:18-32 [n_step_forward].  [split] stands
    for output_mode == 'split'. *)
Fixpoint n_step (l : link) (split : bool) (seqs : list val) (rs : rstate) {struct l}
  : res (outp * rstate) :=
  match l with
  | LLstm p =>
      let n := length seqs in
      let! hc := match rs with
                 | RNone => Ok (repeat (lstm_zero p) n, repeat (lstm_zero p) n)
                 | RLstm h c => Ok (h, c)
                 | _ => Raise ValueError
                 end in
      let! xss := mapM as_arr seqs in
      if (length (fst hc) =? n) && (length (snd hc) =? n) then
        let outs := map (fun q => run_lstm p (fst (fst q)) (snd (fst q)) (snd q))
                        (combine (combine (fst hc) (snd hc)) xss) in
        let! o := output split (map (fun r => VArr (snd r)) outs) in
        Ok (o, RLstm (map (fun r => fst (fst r)) outs) (map (fun r => snd (fst r)) outs))
      else Raise ValueError
  | LGru p =>
      let n := length seqs in
      let! h := match rs with
                | RNone => Ok (repeat (gru_zero p) n)
                | RGru h => Ok h
                | _ => Raise ValueError
                end in
      let! xss := mapM as_arr seqs in
      if length h =? n then
        let outs := map (fun q => run_gru p (fst q) (snd q)) (combine h xss) in
        let! o := output split (map (fun r => VArr (snd r)) outs) in
        Ok (o, RGru (map fst outs))
      else Raise ValueError
  | LFun _ | LTup _ => Raise ValueError
  | LSeq ls =>
      if length seqs =? 0 then Raise AssertionError else
      let k := length (filter is_recurrent ls) in
      let! queue := match rs with
                    | RNone => Ok (repeat RNone k)
                    | RTup q => if length q =? k then Ok q else Raise AssertionError
                    | _ => Raise TypeError
                    end in
      let sections := sections_of seqs in
      let! hq := seq_loop (fun l => n_step l true) sections ls (OSplit seqs) queue [] in
      let! h := (if split then Ok (OSplit (to_split sections (fst hq)))
                 else let! v := to_concat (fst hq) in Ok (OConcat v)) in
      if length (fst (snd hq)) =? 0 then
        if length (snd (snd hq)) =? k then Ok (h, RTup (snd (snd hq))) else Raise AssertionError
      else Raise AssertionError
  | LBranch ls =>
      let! queue := match rs with
                    | RNone => Ok (repeat RNone (length ls))
                    | RTup q => Ok q
                    | _ => Raise TypeError
                    end in
      let! os := branch_loop (fun l => n_step l split seqs) ls queue in
      if length os =? 0 then Raise ValueError else
      if split then
        if length os =? length ls then
          let! yss := mapM (fun o => split_of (fst o)) os in
          match yss with
          | ys :: _ =>
              if length ys =? length seqs then
                let! arrs := mapM (mapM as_arr) yss in
                Ok (OSplit (map VTup (zip_star arrs)), RTup (map snd os))
              else Raise AssertionError
          | [] => Raise ValueError
          end
        else Raise AssertionError
      else
        let! ys := mapM (fun o => concat_of (fst o)) os in
        Ok (OConcat (VTup ys), RTup (map snd os))
  end.

(** chainerrl/links/stateless_recurrent.py:8-24 [split_one_step_batch_input]
    for an array: [F.split_axis(xs, len(xs), axis=0)], one sequence of one row
    per element of the batch; and :64-80 [__call__]. *)
Definition call_one_step (l : link) (xs : list U) (rs : rstate) : res (outp * rstate) :=
  n_step l false (map (fun x => VArr [x]) xs) rs.

(** [mask = ones_like(h); mask[:, indices] = 0; h * mask]: the columns at the
    indices become zero, the others are kept. *)
Definition mask_columns (zero : V) (idx : list nat) (h : list V) : res (list V) :=
  if forallb (fun i => i <? length h) idx then
    Ok (map (fun q => if existsb (Nat.eqb (fst q)) idx then zero else snd q)
            (combine (seq 0 (length h)) h))
  else Raise IndexError.

(** Operations on the states of the recurrent children, in order
    ([zip(links, recurrent_states)] after the assertion on the lengths). *)
Definition over_children {A B} (op : link -> A -> res B) :=
  fix go (ls : list link) (xs : list A) {struct ls} : res (list B) :=
  match ls with
  | [] => Ok []
  | l :: ls =>
      if is_recurrent l then
        match xs with
        | [] => Raise AssertionError
        | x :: xs => let! y := op l x in let! ys := go ls xs in Ok (y :: ys)
        end
      else go ls xs
  end.

Definition n_rec (ls : list link) : nat := length (filter is_recurrent ls).

(** chainerrl/links/stateless_recurrent.py:254-278 [mask_recurrent_state_at]
    and :221-226 [mask_recurrent_states_of_links_at]. *)
Fixpoint mask_at (l : link) (rs : rstate) (idx : list nat) {struct l} : res rstate :=
  match rs with
  | RNone => Ok RNone
  | _ =>
      match l with
      | LLstm p =>
          match rs with
          | RLstm h c =>
              if length c =? length h then
                let! c' := mask_columns (lstm_zero p) idx c in
                let! h' := mask_columns (lstm_zero p) idx h in
                Ok (RLstm h' c')
              else Raise ValueError
          | _ => Raise ValueError
          end
      | LGru p =>
          match rs with
          | RGru h => let! h' := mask_columns (gru_zero p) idx h in Ok (RGru h')
          | _ => Raise AttributeError
          end
      | LFun _ | LTup _ => Raise ValueError
      | LSeq ls | LBranch ls =>
          match rs with
          | RTup rss =>
              if length rss =? n_rec ls then
                let! rss' := over_children (fun l r => mask_at l r idx) ls rss in Ok (RTup rss')
              else Raise AssertionError
          | _ => Raise TypeError
          end
      end
  end.

Definition column (h : list V) (i : nat) : res V :=
  match nth_error h i with Some v => Ok v | None => Raise IndexError end.

(** chainerrl/links/stateless_recurrent.py:281-304 [get_recurrent_state_at]
    and :229-235 [get_recurrent_states_of_links_at], for a non-negative
    integer index.  The entry point is the method of a recurrent link, so a
    container handed None returns a list of Nones. *)
Fixpoint get_at (l : link) (rs : rstate) (i : nat) {struct l} : res sst :=
  match l with
  | LLstm p =>
      match rs with
      | RNone => Ok SNone
      | RLstm h c => let! hv := column h i in let! cv := column c i in Ok (SLstm hv cv)
      | _ => Raise ValueError
      end
  | LGru p =>
      match rs with
      | RNone => Ok SNone
      | RGru h => let! hv := column h i in Ok (SGru hv)
      | _ => Raise AttributeError
      end
  | LFun _ | LTup _ => match rs with RNone => Ok SNone | _ => Raise ValueError end
  | LSeq ls | LBranch ls =>
      match rs with
      | RNone => Ok (STup (repeat SNone (n_rec ls)))
      | RTup rss =>
          if length rss =? n_rec ls then
            let! ss := over_children (fun l r => match r with RNone => Ok SNone | _ => get_at l r i end) ls rss in
            Ok (STup ss)
          else Raise AssertionError
      | _ => Raise TypeError
      end
  end.

(** chainerrl/links/stateless_recurrent.py:307-352
    [concatenate_recurrent_states] and :238-251
    [concatenate_recurrent_states_of_links], for states obtained with an
    integer index (2-dimensional arrays) or None. *)
Fixpoint concat_states (l : link) (ss : list sst) {struct l} : res rstate :=
  match l with
  | LLstm p =>
      let! cols := mapM (fun s => match s with
                                  | SNone => Ok (lstm_zero p, lstm_zero p)
                                  | SLstm h c => Ok (h, c)
                                  | _ => Raise ValueError
                                  end) ss in
      if length ss =? 0 then Raise ValueError else Ok (RLstm (map fst cols) (map snd cols))
  | LGru p =>
      let! cols := mapM (fun s => match s with
                                  | SNone => Ok (gru_zero p)
                                  | SGru h => Ok h
                                  | _ => Raise AttributeError
                                  end) ss in
      if length ss =? 0 then Raise ValueError else Ok (RGru cols)
  | LFun _ | LTup _ => Raise ValueError
  | LSeq ls | LBranch ls =>
      let k := n_rec ls in
      let! tuples := mapM (fun s => match s with
                                    | SNone => Ok (repeat SNone k)
                                    | STup t => if length t =? k then Ok t else Raise AssertionError
                                    | _ => Raise AssertionError
                                    end) ss in
      let transposed := zip_star tuples in
      if length transposed =? k then
        let! rss := over_children concat_states ls transposed in Ok (RTup rss)
      else Raise AssertionError
  end.
End Links.
Arguments LFun {U V} f.
Arguments LTup {U V} fs.
Arguments LLstm {U V} p.
Arguments LGru {U V} p.
Arguments LSeq {U V} ls.
Arguments LBranch {U V} ls.
Arguments RNone {V}.
Arguments SNone {V}.
