(** C89: the cache of pretrained models, shared by processes that download, fail and die at any time. *)
From Coq Require Import List Arith Bool String Lia.
From Verif Require Import Base.PyBase Model.PretrainedModels Spec.PretrainedSpec Proofs.PretrainedProofs.
Import ListNotations.

(** Whatever processes do, fail and die, in whatever order: a zip file in the download cache or in the
    directory of a model is that of its url and not cut off, every unpacked file is one of the model, and only one process at
    a time is in download_and_store_model. *)
Theorem C89_safe : forall K (Keq : forall a b : K, {a = b} + {a <> b}) (hash : K -> nat) served, (forall k k', hash k = hash k' -> k = k') ->
  forall es, let s := run Keq hash served fresh_disk es in
  (forall k z, cache s (hash k) = Some z -> z = served k) /\ (forall k z, store s k = Some z -> z = served k) /\ (forall k n d, files s k n = Some d -> In (n, d) (served k)) /\
  (forall p q, in_store (pcs s p) = true -> in_store (pcs s q) = true -> p = q).
Proof. exact @safe. Qed.
(** A call that returns with is_cached = False has left the complete model, now and after everything that follows. *)
Theorem C89_first : forall K (Keq : forall a b : K, {a = b} + {a <> b}) (hash : K -> nat) served, (forall k k', hash k = hash k' -> k = k') ->
  forall es later k p, pcs (run Keq hash served fresh_disk es) p = Returned k false -> complete served (run Keq hash served fresh_disk (es ++ later)) k.
Proof. exact @first_complete. Qed.
(** If nobody died or failed while unpacking the model, every call returns with the complete model. *)
Theorem C89_complete_partial : forall K (Keq : forall a b : K, {a = b} + {a <> b}) (hash : K -> nat) served, (forall k k', hash k = hash k' -> k = k') ->
  forall es k p c, undisturbed Keq hash served k fresh_disk es -> pcs (run Keq hash served fresh_disk es) p = Returned k c -> complete served (run Keq hash served fresh_disk es) k.
Proof. exact @undisturbed_complete. Qed.
(** Otherwise not: after one death, or one exception, while unpacking, the next call returns the path of a model that is
    not there, and no further calls will ever repair it. *)
Theorem C89_crash_refuted : forall K (Keq : forall a b : K, {a = b} + {a <> b}) (hash : K -> nat) served, (forall k k', hash k = hash k' -> k = k') ->
  forall k stop, stop = Crash 0 \/ stop = Fail 0 -> served k <> [] -> exists es, interruptions es = 1 /\ In stop es /\ pcs (run Keq hash served fresh_disk es) 1 = Returned k true /\
  forall later, ~ complete served (run Keq hash served fresh_disk (es ++ later)) k.
Proof. exact @broken_forever. Qed.
(** Any number of processes download a model only once, plus at most once more for every death or failure. *)
Theorem C89_once : forall K (Keq : forall a b : K, {a = b} + {a <> b}) (hash : K -> nat) served, (forall k k', hash k = hash k' -> k = k') ->
  forall es k, only_models es -> count_occ Keq (downloads (run Keq hash served fresh_disk es)) k <= S (interruptions es).
Proof. exact @downloads_ok. Qed.
(** Temporary directories are left only by processes that died, one for each death; failures leave none. *)
Theorem C89_temporary : forall K (Keq : forall a b : K, {a = b} + {a <> b}) (hash : K -> nat) served es p, resting (pcs (run Keq hash served fresh_disk es) p) = true ->
  temps (run Keq hash served fresh_disk es) p <= crashes_of p es.
Proof. exact @temps_ok. Qed.
(** No deadlock: from every situation all calls can end. *)
Theorem C89_no_deadlock : forall K (Keq : forall a b : K, {a = b} + {a <> b}) (hash : K -> nat) served, (forall k k', hash k = hash k' -> k = k') ->
  forall es, exists qs, forall p, resting (pcs (run Keq hash served fresh_disk (es ++ map Step qs)) p) = true.
Proof. exact @all_rest. Qed.
(** A direct call of cached_download may return a path from which the file has been moved away, without any failure. *)
Theorem C89_cached_download_refuted : forall K (Keq : forall a b : K, {a = b} + {a <> b}) (hash : K -> nat) served k, exists es, interruptions es = 0 /\
  pcs (run Keq hash served fresh_disk es) 0 = GotPath k /\ cache (run Keq hash served fresh_disk es) (hash k) = None.
Proof. exact @path_gone. Qed.
(** Exactly the algorithms and types of the table are accepted; the rest raise AssertionError before anything is done. *)
Theorem C89_supported : forall alg env ty, (forall l, table_of alg pretrained = Some l -> In ty l -> download_model_key alg env ty = Ok (alg, remove_all (String.length env) "NoFrameskip-v4" env, ty)) /\
  ((forall l, table_of alg pretrained = Some l -> ~ In ty l) -> download_model_key alg env ty = Raise AssertionError).
Proof. exact key_ok. Qed.
(** The name of a game and the name of its Atari environment ask for the same model. *)
Theorem C89_same_model : forall alg game ty, ~ occurs "NoFrameskip-v4" game -> download_model_key alg (String.append game "NoFrameskip-v4") ty = download_model_key alg game ty.
Proof. exact same_model. Qed.
(** The default type is not available for every algorithm that has a model. *)
Theorem C89_default_refuted : exists alg l, table_of alg pretrained = Some l /\ l <> [] /\ forall env, download_model_default alg env = Raise AssertionError.
Proof. exact default_unsupported. Qed.
Print Assumptions C89_safe.
Print Assumptions C89_first.
Print Assumptions C89_complete_partial.
Print Assumptions C89_crash_refuted.
Print Assumptions C89_once.
Print Assumptions C89_temporary.
Print Assumptions C89_no_deadlock.
Print Assumptions C89_cached_download_refuted.
Print Assumptions C89_supported.
Print Assumptions C89_same_model.
Print Assumptions C89_default_refuted.

(** Two processes ask for the same model; one waits, the other downloads and unpacks it: one download, both complete. *)
Definition ex_served (k : nat) : list (nat * nat) := [(1, k); (2, 10 + k)].
Definition ex_events : list (event nat) := [Call 0 5; Call 1 5; Step 0; Step 1; Step 1] ++ repeat (Step 0) 13 ++ repeat (Step 1) 4.
Example C89_example : let s := run Nat.eq_dec (fun k => k) ex_served fresh_disk ex_events in
  pcs s 0 = Returned 5 false /\ pcs s 1 = Returned 5 true /\ downloads s = [5] /\ files s 5 1 = Some 5 /\ files s 5 2 = Some 15 /\ only_models ex_events /\ undisturbed Nat.eq_dec (fun k => k) ex_served 5 fresh_disk ex_events.
Proof.
  cbv zeta. repeat split; try (vm_compute; reflexivity). intros p k H. unfold ex_events in H. cbn in H. repeat (destruct H as [H|H]; [discriminate|]). exact H.
Qed.
(** A download fails half-way and leaves no temporary directory; the second attempt succeeds. *)
Example C89_retry : let s := run Nat.eq_dec (fun k => k) ex_served fresh_disk (Call 0 5 :: repeat (Step 0) 5 ++ [Fail 0; Step 0]) in
  pcs s 0 = Raised 5 /\ temps s 0 = 0 /\ models_lock s = None /\
  pcs (run Nat.eq_dec (fun k => k) ex_served s (Call 1 5 :: repeat (Step 1) 14)) 1 = Returned 5 false.
Proof. vm_compute. auto. Qed.
Example C89_breakout : download_model_key "DQN" "BreakoutNoFrameskip-v4" "best" = Ok ("DQN", "Breakout", "best")%string /\ ~ occurs "NoFrameskip-v4" "Breakout".
Proof. split; [reflexivity|]. intros (a & b & E). apply (f_equal String.length) in E. rewrite !length_append in E. cbn in E. lia. Qed.
