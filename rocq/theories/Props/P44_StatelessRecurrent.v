(** C44: batched recurrent state handling round-trips, and a batch of
    variable-length sequences is processed as the sequences one by one. *)
From Verif Require Import Base.PyBase Model.Categorical Model.StatelessRecurrent Spec.StatelessRecurrentSpec
  Proofs.StatelessRecurrentProofs Proofs.RecurrentResumeProofs.

(** Extracting state j from concatenated states gives the j-th state (missing
    parts as zeros). *)
Theorem C44_get_of_concatenate : forall U V (l : link U V) ss, is_recurrent l = true -> ss <> [] ->
  (forall s, In s ss -> shaped l s) ->
  exists rs, concat_states l ss = Ok rs /\ batched false l (length ss) rs /\
    forall j s, nth_error ss j = Some s -> get_at l rs j = Ok (filled l s).
Proof. exact cat_get. Qed.
Print Assumptions C44_get_of_concatenate.

Example C44_get_of_concatenate_case :
  concat_states ex_link [SNone; STup [SLstm 1 2; STup [SGru 3; STup [SGru 4]]]]%Z
  = Ok (RTup [RLstm [0; 1] [0; 2]; RTup [RGru [0; 3]; RTup [RGru [0; 4]]]])%Z.
Proof. reflexivity. Qed.

(** Extracting every state of a batch and concatenating them gives the batch. *)
Theorem C44_concatenate_of_get : forall U V (l : link U V) n rs, is_recurrent l = true -> 0 < n ->
  batched false l n rs ->
  exists ss, mapM (get_at l rs) (seq 0 n) = Ok ss /\ concat_states l ss = Ok rs.
Proof. exact get_cat. Qed.
Print Assumptions C44_concatenate_of_get.

Example C44_concatenate_of_get_case :
  batched false ex_link 2 (RTup [RLstm [0; 1] [0; 2]; RTup [RGru [0; 3]; RTup [RGru [0; 4]]]])%Z.
Proof. cbn. auto 10. Qed.

(** Masking makes exactly the given states zero and leaves the others. *)
Theorem C44_mask : forall U V (l : link U V) opt n rs idx, is_recurrent l = true -> batched opt l n rs ->
  (forall i, In i idx -> i < n) ->
  exists rs', mask_at l rs idx = Ok rs' /\ batched opt l n rs' /\
    forall j s s', get_at l rs j = Ok s -> get_at l rs' j = Ok s' -> j < n ->
      filled l s' = if existsb (Nat.eqb j) idx then zero_state l else filled l s.
Proof. exact mask_ok. Qed.
Print Assumptions C44_mask.

Example C44_mask_case :
  mask_at ex_link (RTup [RLstm [5; 1] [6; 2]; RTup [RGru [7; 3]; RNone]])%Z [0]
  = Ok (RTup [RLstm [0; 1] [0; 2]; RTup [RGru [0; 3]; RNone]])%Z.
Proof. reflexivity. Qed.

(** The state of every index can be extracted. *)
Theorem C44_get_total : forall U V (l : link U V) opt n rs i, batched opt l n rs -> i < n ->
  is_recurrent l = true -> exists s, get_at l rs i = Ok s /\ shaped l s.
Proof. exact get_ok. Qed.
Print Assumptions C44_get_total.

(** Splitting at the start positions undoes concatenation, for arrays and for
    tuples of arrays. *)
Theorem C44_split_of_concat : forall U t (vs : list (val U)) lens, vs <> [] ->
  Forall2 (fun v n => has_ty t v /\ steps n v) vs lens ->
  exists v, concat_seqs vs = Ok v /\ split_batched v (starts 0 lens) = vs.
Proof. exact cat_split. Qed.
Print Assumptions C44_split_of_concat.

Example C44_split_of_concat_case :
  concat_seqs [VTup [[1; 2]; [3; 4]]; VTup [[5]; [6]]] = Ok (VTup [[1; 2; 5]; [3; 4; 6]])
  /\ split_batched (VTup [[1; 2; 5]; [3; 4; 6]]) (starts 0 [2; 1]) = [VTup [[1; 2]; [3; 4]]; VTup [[5]; [6]]].
Proof. split; reflexivity. Qed.

(** The forward computation of a batch of sequences of any lengths: in both
    output modes it succeeds, the output for sequence j and its new state are
    those of the single-sequence semantics [run1], and the 'concat' output is
    the concatenation of the 'split' output. *)
Theorem C44_forward : forall U V (l : link U V), is_recurrent l = true -> forall t, out_ty l = Some t ->
  forall xss rs, xss <> [] -> batched true l (length xss) rs ->
  exists rs' vs v, n_step l true (map (@VArr U) xss) rs = Ok (OSplit vs, rs') /\
    concat_seqs vs = Ok v /\ n_step l false (map (@VArr U) xss) rs = Ok (OConcat v, rs') /\
    batched false l (length xss) rs' /\
    Forall2 (fun v n => has_ty t v /\ steps n v) vs (map (@length U) xss) /\
    forall j xs s, nth_error xss j = Some xs -> get_at l rs j = Ok s ->
      exists w s', nth_error vs j = Some w /\ run1 l xs s = (w, s') /\ get_at l rs' j = Ok s'.
Proof. exact fwd_ok. Qed.
Print Assumptions C44_forward.

(** The same without [run1]: a sequence in a batch gives what it gives alone. *)
Theorem C44_forward_alone : forall U V (l : link U V) t xss rs j xs s,
  is_recurrent l = true -> out_ty l = Some t ->
  batched true l (length xss) rs -> nth_error xss j = Some xs -> get_at l rs j = Ok s ->
  exists vs rs' v rs1 rs1' s', n_step l true (map (@VArr U) xss) rs = Ok (OSplit vs, rs') /\
    nth_error vs j = Some v /\ get_at l rs' j = Ok s' /\
    concat_states l [s] = Ok rs1 /\ n_step l true [VArr xs] rs1 = Ok (OSplit [v], rs1') /\
    get_at l rs1' 0 = Ok s'.
Proof. exact forward_alone. Qed.
Print Assumptions C44_forward_alone.

Example C44_forward_case :
  out_ty ex_link = Some None /\
  n_step ex_link true [VArr [1; 2; 3]; VArr [4]]%Z RNone
  = Ok (OSplit [VArr [4; 16; 38]; VArr [10]], RTup [RLstm [9; 5] [3; 1]; RTup [RGru [19; 5]; RTup [RGru [19; 5]]]])%Z
  /\ n_step ex_link true [VArr [4]]%Z RNone
  = Ok (OSplit [VArr [10]], RTup [RLstm [5] [1]; RTup [RGru [5]; RTup [RGru [5]]]])%Z.
Proof. split; [reflexivity|]. split; reflexivity. Qed.

(** One step of a batch (the call of the link). *)
Theorem C44_one_step : forall U V (l : link U V) t xs rs, is_recurrent l = true -> out_ty l = Some t -> xs <> [] ->
  batched true l (length xs) rs ->
  exists vs v rs', call_one_step l xs rs = Ok (OConcat v, rs') /\ batched false l (length xs) rs' /\
    concat_seqs vs = Ok v /\ length vs = length xs /\
    forall j x s, nth_error xs j = Some x -> get_at l rs j = Ok s ->
      exists w s', nth_error vs j = Some w /\ run1 l [x] s = (w, s') /\ get_at l rs' j = Ok s'.
Proof. exact call_ok. Qed.
Print Assumptions C44_one_step.

(** A sequence may be processed in pieces, carrying the state over. *)
Theorem C44_resume : forall U V (l : link U V) xs ys s, is_recurrent l = true -> out_ty l <> None -> shaped l s ->
  let r1 := run1 l xs s in let r2 := run1 l ys (snd r1) in
  run1 l (xs ++ ys) s = (after (fst r1) (fst r2), snd r2).
Proof. exact resume. Qed.
Print Assumptions C44_resume.

Example C44_resume_case : run1 ex_link [1; 2; 3]%Z SNone
  = (after (VArr [4; 16]) (VArr [38]), STup [SLstm 9 3; STup [SGru 19; STup [SGru 19]]])%Z
  /\ run1 ex_link [1; 2]%Z SNone = (VArr [4; 16], STup [SLstm 5 2; STup [SGru 8; STup [SGru 8]]])%Z.
Proof. split; reflexivity. Qed.

(** The documentation also allows sequences that are tuples of arrays.  Then
    n_step_forward of StatelessRecurrentSequential splits at wrong positions,
    because the length of a tuple is not the number of steps: sequences of 3
    steps and 1 step come out as 2 steps and 2 steps, mixing the first two
    sequences. *)
Theorem C44_tuple_sequences_refuted :
  exists (l : link Z Z) v1 v2 w1 w2 rs u1 u2 rs1 rs2,
    has_ty (Some 2) v1 /\ steps 3 v1 /\ has_ty (Some 2) v2 /\ steps 1 v2 /\
    n_step l true [v1; v2] RNone = Ok (OSplit [w1; w2], rs) /\
    n_step l true [v1] RNone = Ok (OSplit [u1], rs1) /\ n_step l true [v2] RNone = Ok (OSplit [u2], rs2) /\
    steps 2 w1 /\ steps 2 w2 /\ steps 3 u1 /\ steps 1 u2.
Proof.
  exists (LSeq [LFun (fun r => fold_right Z.add 0%Z r); LGru ex_gru]),
    (VTup [[1; 2; 3]; [4; 5; 6]])%Z, (VTup [[7]; [8]])%Z,
    (VArr [5; 12])%Z, (VArr [9; 24])%Z, (RTup [RGru [12; 24]])%Z, (VArr [5; 12; 21])%Z, (VArr [15])%Z,
    (RTup [RGru [21]])%Z, (RTup [RGru [15]])%Z.
  assert (F : forall (n : nat) (a b : list Z), length a = n -> length b = n ->
                forall xs, In xs [a; b] -> length xs = n)
    by (intros n a b Ha Hb xs [<-|[<-|[]]]; assumption).
  split; [reflexivity|]. split; [split; [discriminate | apply F; reflexivity]|].
  split; [reflexivity|]. split; [split; [discriminate | apply F; reflexivity]|].
  split; [reflexivity|]. split; [reflexivity|]. split; [reflexivity|].
  split; [reflexivity|]. split; [reflexivity|]. split; reflexivity.
Qed.
Print Assumptions C44_tuple_sequences_refuted.
