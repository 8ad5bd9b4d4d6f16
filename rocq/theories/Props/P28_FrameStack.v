(** C28, C31: frame stacking and time limits. *)
From Coq Require Import QArith.
From Verif Require Import Base.PyBase Model.GymEnv Model.Wrappers Model.VectorEnv Spec.WrapperSpec Spec.VectorSpec
     Proofs.WrappersProofs Proofs.VectorFrameStackProofs.
Local Open Scope nat_scope.

(** C28, single env: for every environment and every history of calls beginning
    with a reset, the stacked env makes exactly the same inner calls, returns the
    same rewards, dones and infos, and as observation the last [k] frames of the
    current episode, oldest first, padded with the reset observation. *)
Theorem C28_frame_stack : forall (A O X : Type) (E : env A O X) k ops e e' xs,
  run E e (Reset :: ops) = Ok (e', xs) ->
  exists q ys, run (frame_stack E k) ([], e) (Reset :: ops) = Ok ((q, e'), ys) /\ length ys = length xs /\
    forall i x, nth_error xs i = Some x ->
      nth_error ys i = Some (with_obs (window k (episode (firstn (S i) xs))) x).
Proof. exact @frame_stack_windows. Qed.
Print Assumptions C28_frame_stack.

(** C28, vector env with masked resets. *)
Theorem C28_vector_frame_stack : forall (A O X : Type) (V : venv A O X) k,
  answers_all V -> 0 < v_num V -> forall o ops v v' xs,
  resets_all o -> Forall (op_fits (v_num V)) (o :: ops) ->
  vrun V v (o :: ops) = Ok (v', xs) ->
  exists frames ys, vrun (vector_frame_stack V k) (vfs_init V, v) (o :: ops) = Ok ((frames, v'), ys) /\
    length ys = length xs /\
    forall t x, nth_error xs t = Some x -> exists y, nth_error ys t = Some y /\ width_ y = v_num V /\
      forall i xi, item x i = Some xi ->
        item y i = Some (with_obs (window k (vepisode i (firstn (S t) (combine (o :: ops) xs)))) xi).
Proof. exact @vector_frame_stack_windows. Qed.
Print Assumptions C28_vector_frame_stack.

(** An environment that counts: observation n, reward 1, done at 100. *)
Definition counter : env unit nat unit :=
  mk_env (fun n _ => Ok (S n, mk_sout (S n) 1%Q (100 <=? S n) (mk_info false tt)))
         (fun _ => Ok (0, 0)) (fun _ => 0).
Definition obs_of {O X} (l : list (out O X)) : list O := map out_obs l.
Example C28_example : exists e' xs, run counter 7 [Reset; Step tt; Step tt; Step tt; Reset] = Ok (e', xs) /\
  obs_of xs = [0; 1; 2; 3; 0] /\
  exists w ys, run (frame_stack counter 3) ([], 7) [Reset; Step tt; Step tt; Step tt; Reset] = Ok (w, ys) /\
  obs_of ys = [[0; 0; 0]; [0; 0; 1]; [0; 1; 2]; [1; 2; 3]; [0; 0; 0]].
Proof. do 2 eexists. split; [reflexivity|]. split; [reflexivity|]. do 2 eexists. split; reflexivity. Qed.

Definition counters : venv unit nat unit :=
  mk_venv 2 (fun (v : list nat) (_ : list unit) => Ok (map S v, map (fun n => mk_sout (S n) 1%Q false (mk_info false tt)) v))
          (fun (v : list nat) (m : option (list bool)) => let v := map (fun p : bool * nat => if fst p then snd p else 0)
                                   (combine (match m with Some m => m | None => [false; false] end) v) in Ok (v, v)).
Example C28_vector_example : exists v' xs,
  vrun counters [5; 5] [VReset None; VStep [tt; tt]; VReset (Some [true; false]); VStep [tt; tt]] = Ok (v', xs) /\
  exists w ys, vrun (vector_frame_stack counters 2) (vfs_init counters, [5; 5])
     [VReset None; VStep [tt; tt]; VReset (Some [true; false]); VStep [tt; tt]] = Ok (w, ys) /\
  map (fun y => match y with VOReset l => l | VOStep ss => map (@so_obs _ _) ss end) ys =
  [[[0; 0]; [0; 0]]; [[0; 1]; [0; 1]]; [[0; 1]; [0; 0]]; [[1; 2]; [0; 1]]].
Proof. do 2 eexists. split; [reflexivity|]. do 2 eexists. split; reflexivity. Qed.

(** C31, ContinuingTimeLimit: stepping before the first reset is refused; any other
    history behaves as that of the inner env (including its exceptions), except that
    a step result also asks for a reset exactly when the number of steps since the
    last reset has reached the limit. *)
Theorem C31_continuing_time_limit : forall (A O X : Type) (E : env A O X) limit ops e,
  (forall a rest, ops = Step a :: rest ->
     run (continuing_time_limit E limit) (None, e) ops = Raise AssertionError) /\
  ((forall a rest, ops <> Step a :: rest) ->
   match run E e ops with
   | Raise ex => run (continuing_time_limit E limit) (None, e) ops = Raise ex
   | Ok (e', xs) =>
       exists ys, run (continuing_time_limit E limit) (None, e) ops = Ok ((steps_since None ops, e'), ys) /\
       length ys = length xs /\
       forall i x, nth_error xs i = Some x ->
         nth_error ys i = Some (flag_needs_reset (reached limit (steps_since None (firstn (S i) ops))) x)
   end).
Proof. exact @time_limit. Qed.
Print Assumptions C31_continuing_time_limit.
Example C31_example : exists w ys,
  run (continuing_time_limit counter 2) (None, 7) [Reset; Step tt; Step tt; Reset; Step tt] = Ok (w, ys) /\
  map (fun y => match y with OReset _ => None | OStep s => Some (so_done s, needs_reset (so_info s)) end) ys =
  [None; Some (false, false); Some (false, true); None; Some (false, false)].
Proof. do 2 eexists. split; reflexivity. Qed.

(** C31, make_timestep_limited: the same with [done]; steps are counted from the
    last reset or, before any reset, from the installation of the limit. *)
Theorem C31_timestep_limited : forall (A O X : Type) (E : env A O X) limit ops e,
  match run E e ops with
  | Raise ex => run (timestep_limited E limit) (1, e) ops = Raise ex
  | Ok (e', xs) =>
      exists s ys, run (timestep_limited E limit) (1, e) ops = Ok ((s, e'), ys) /\
      length ys = length xs /\
      forall i x, nth_error xs i = Some x ->
        nth_error ys i = Some (flag_done (reached limit (steps_since (Some 0) (firstn (S i) ops))) x)
  end.
Proof. intros A O X E limit ops e. exact (timestep_limit E limit ops 0 e). Qed.
Print Assumptions C31_timestep_limited.
Example C31_timestep_example : exists w ys,
  run (timestep_limited counter 2) (1, 7) [Reset; Step tt; Step tt; Reset; Step tt] = Ok (w, ys) /\
  map (fun y => match y with OReset _ => None | OStep s => Some (so_done s) end) ys =
  [None; Some false; Some true; None; Some false].
Proof. do 2 eexists. split; reflexivity. Qed.
