(** C75: parameters shared between the processes of asynchronous training. *)
From Coq Require Import List Arith String Lia.
From Verif Require Import Base.PyBase Model.Sharing Spec.SharingSpec Proofs.SharingProofs.
Import ListNotations.
Local Open Scope string_scope.

(** Sharing a link keeps every value: each parameter and persistent value gets its own new
    shared buffer holding what it held, under its own name; nothing else changes. *)
Theorem C75_share : forall V (m : mem V) (l : link V), wf l -> (forall p k v, get p l = Some (k, v) -> valid m v) ->
  exists ext l' d, share_params m l = Ok (mk_mem (m_shared m ++ ext) (m_priv m), l', d) /\
    (forall p k v, get p l = Some (k, v) -> exists s, passoc p d = Some s /\ get p l' = Some (k, as_shared s v) /\
       List.length (m_shared m) <= s /\ nth_error (m_shared m ++ ext) s = Some (mk_buf (item_of v) (read m v))) /\
    (forall p, get p l = None -> get p l' = None /\ passoc p d = None) /\
    (forall p q s, passoc p d = Some s -> passoc q d = Some s -> p = q).
Proof. exact share_ok. Qed.

(** All processes train one model.  The first process shares its link; every process
    attaches its own link of the same shape.  Then, for every interleaving of any writes,
    each process sees in its link exactly the one common set of arrays to which all writes
    were applied in order, and its private arrays are changed by nobody else. *)
Theorem C75_one_model : forall V (m : mem V) (l : link V) (others : nat -> link V), wf l -> (forall p k v, get p l = Some (k, v) -> valid m v) ->
  (forall q, wf (others q) /\ same_shape l (others q)) ->
  exists m' l' d, share_params m l = Ok (m', l', d) /\
    forall (privs : nat -> list (buffer V)) ops,
      let w0 := mk_world (m_shared m') privs in
      exists links, (forall q, set_shared_params (mem_of w0 q) (others q) d = Ok (links q)) /\
        let paths := map fst (named Param l ++ named Persistent l) in
        let s := common_run (mk_common (map (read_at m l) paths) (fun q => map (@b_data V) (privs q))) ops in
        forall q, views paths links (run paths links w0 ops) q = c_global s /\ locals (run paths links w0 ops) q = c_local s q.
Proof. exact shared_training. Qed.

(** Attaching: exactly the named arrays are replaced; a name the link does not have is
    an AssertionError. *)
Theorem C75_attach : forall V (m : mem V) (l : link V) d, wf l -> fits m d l ->
  ((forall p, passoc p d <> None -> get p l <> None) ->
   exists l', set_shared_params m l d = Ok l' /\
     forall p, get p l' = match get p l with Some (k, v) => match passoc p d with Some s => Some (k, as_shared s v) | None => Some (k, v) end | None => None end) /\
  ((exists p, passoc p d <> None /\ get p l = None) -> set_shared_params m l d = Raise AssertionError).
Proof. exact set_shared_get. Qed.

(** But not the other way round: a parameter that is not among the shared ones silently
    stays private to its process. *)
Theorem C75_unknown_parameter_refuted : forall V (m : mem V) (l : link V) d p kv, wf l -> fits m d l -> (forall p, passoc p d <> None -> get p l <> None) ->
  get p l = Some kv -> passoc p d = None -> exists l', set_shared_params m l d = Ok l' /\ get p l' = Some kv.
Proof. exact unknown_private. Qed.

(** Optimizer states of four-byte items are shared likewise; any other item size (a
    float64 or float16 model) ends in a ValueError. *)
Theorem C75_optimizer_item_size_refuted : forall V (m : mem V) (es : list (path * arr)), NoDup (map fst es) -> (forall p a, In (p, a) es -> valid m (VArr V a)) ->
  ((forall p a, In (p, a) es -> a_item a = 4) ->
    exists ext es' d, share_states m es = Ok (mk_mem (m_shared m ++ ext) (m_priv m), es', d) /\
     forall i p a, nth_error es i = Some (p, a) -> nth_error es' i = Some (p, mk_arr (Shared (List.length (m_shared m) + i)) (a_item a) (a_size a)) /\
       nth_error (m_shared m ++ ext) (List.length (m_shared m) + i) = Some (mk_buf 4 (read m (VArr V a)))) /\
  ((exists p a, In (p, a) es /\ a_item a <> 4 /\ 0 < a_size a) -> share_states m es = Raise ValueError).
Proof. exact states_ok. Qed.

(** Seeds: train_agent_async gives every process its own seed; run_async by itself gives
    all of them the same one. *)
Theorem C75_own_seeds : forall rng (parent : rng) n, NoDup (train_async_seeds parent n) /\ List.length (train_async_seeds parent n) = n.
Proof. exact own_seeds. Qed.
(** The second half of this: children forked from one generator draw one seed. *)
Theorem C75_run_async_seeds_refuted : forall rng (draw : rng -> nat * rng) parent n i j a b,
  nth_error (run_async_seeds draw parent n) i = Some a -> nth_error (run_async_seeds draw parent n) j = Some b -> a = b.
Proof. exact forked_seeds. Qed.

(** Non-vacuity: a chain with a weight, a counter and a child; two processes write. *)
Definition C75_mem : mem nat := mk_mem [] [mk_buf 4 [1; 2]; mk_buf 4 [7]].
Definition C75_link : link nat :=
  Lk [("W", (Param, VArr nat (mk_arr (Priv 0) 4 2))); ("n", (Persistent, VScalar 8 0))]
     [("l1", Lk [("b", (Param, VArr nat (mk_arr (Priv 1) 4 1)))] [])].
Example C75_wf : wf C75_link.
Proof.
  constructor; cbn.
  - repeat constructor; cbn; intuition congruence.
  - repeat constructor; cbn; intuition congruence.
  - repeat constructor; cbn; intuition congruence.
Qed.
Example C75_valid : forall p k v, get p C75_link = Some (k, v) -> valid C75_mem v.
Proof.
  assert (H : Forall (fun pv => valid C75_mem (snd pv)) (named Param C75_link ++ named Persistent C75_link)).
  { repeat constructor; cbn; try lia; try (eexists; split; [reflexivity|split; reflexivity]). }
  rewrite Forall_forall in H. intros p k v G. apply (H (p, v)). apply in_app_iff. destruct k; [left|right]; apply (named_get _ _ _ C75_wf), G.
Qed.
Example C75_case :
  let ops := [mk_op 0 (Global 1) (fun g _ => map S (nth 1 g [])); mk_op 1 (Global 1) (fun g _ => map S (nth 1 g []));
              mk_op 1 (Local 0) (fun g _ => nth 1 g []); mk_op 0 (Global 0) (fun g _ => map S (nth 0 g []))] in
  match share_params C75_mem C75_link with
  | Ok (m', l', d) =>
    let paths := map fst d in
    let w := run paths (fun _ => l') (mk_world (m_shared m') (fun _ => [mk_buf 4 [5]])) ops in
    (paths, views paths (fun _ => l') w 0, views paths (fun _ => l') w 1, locals w 0, locals w 1) =
    ([["W"]; ["l1"; "b"]; ["n"]], [[2; 3]; [9]; [0]], [[2; 3]; [9]; [0]], [[5]], [[9]])
  | Raise _ => False
  end.
Proof. reflexivity. Qed.
Example C75_float64_case : share_states (mk_mem [] [mk_buf 8 [1; 2]]) [(["W"; "ms"], mk_arr (Priv 0) 8 2)] = Raise ValueError.
Proof. reflexivity. Qed.

Print Assumptions C75_share.
Print Assumptions C75_one_model.
Print Assumptions C75_attach.
Print Assumptions C75_unknown_parameter_refuted.
Print Assumptions C75_optimizer_item_size_refuted.
Print Assumptions C75_own_seeds.
Print Assumptions C75_run_async_seeds_refuted.
