(** C33: the C51 projection. *)
From Coq Require Import QArith.
From Verif Require Import Base.PyBase Model.Categorical Spec.WrapperSpec Spec.CategoricalSpec Proofs.CategoricalProofs.
Local Open Scope nat_scope.

(** Every output weight is the linear interpolation share of the clipped input
    atoms; mass, (clipped) mean and sign are preserved, row by row. *)
Theorem C33_projection : forall v0 dz z, evenly_spaced v0 dz z ->
  let n := length z in let vmax := atom v0 dz (n - 1) in
  forall y probs, length probs = length y ->
  (forall r, In r y -> length r = n) -> (forall r, In r probs -> length r = n) ->
  exists out, categorical_projection y probs z = Ok out /\ length out = length y /\
    forall b yr pr, nth_error y b = Some yr -> nth_error probs b = Some pr ->
      exists r, nth_error out b = Some r /\ length r = n /\
        (forall i x, nth_error r i = Some x ->
          (x == expect (fun v => share dz (qclamp v0 vmax v) (atom v0 dz i)) (combine yr pr))%Q) /\
        (qsum r == qsum pr)%Q /\
        (expect (fun v => v) (combine z r) == expect (qclamp v0 vmax) (combine yr pr))%Q /\
        ((forall p, In p pr -> 0 <= p)%Q -> (forall x, In x r -> 0 <= x)%Q).
Proof. exact proj_share. Qed.
Print Assumptions C33_projection.
Example C33_example : evenly_spaced (-1 # 1) (1 # 1) [-1 # 1; 0; 1]%Q /\
  exists out, categorical_projection [[-1 # 2; 1 # 4; 3]]%Q [[1 # 2; 1 # 4; 1 # 4]]%Q [-1 # 1; 0; 1]%Q = Ok out /\
  map (map Qred) out = [[1 # 4; 7 # 16; 5 # 16]]%Q.
Proof.
  split.
  - split; [reflexivity|]. split; [cbn; lia|]. intros [|[|[|i]]] x H; cbn in H; try (injection H as <-; reflexivity).
    destruct i; discriminate.
  - eexists. split; vm_compute; reflexivity.
Qed.

(** The target distribution of CategoricalDQN: that of an action with maximal mean
    under the target network, shifted by the Bellman backup.  If the shifted atoms
    stay within the support its mean is the Bellman target of that mean. *)
Theorem C33_categorical_target : forall v0 dz z batch next, evenly_spaced v0 dz z -> length next = length batch ->
  (forall qd, In qd next -> qd <> [] /\ forall d, In d qd -> length d = length z) ->
  exists out, categorical_target z batch next = Ok out /\ length out = length batch /\
  forall b x qd, nth_error batch b = Some x -> nth_error next b = Some qd ->
    exists a d r, nth_error qd a = Some d /\ (forall d', In d' qd -> meanv z d' <= meanv z d)%Q /\
      nth_error out b = Some r /\ length r = length z /\ (qsum r == qsum d)%Q /\
      (meanv z r == expect (fun v => qclamp v0 (atom v0 dz (length z - 1)) (backup x v)) (combine z d))%Q /\
      ((forall p, In p d -> 0 <= p)%Q -> (forall p, In p r -> 0 <= p)%Q) /\
      ((qsum d == 1)%Q -> (forall v, In v z -> v0 <= backup x v /\ backup x v <= atom v0 dz (length z - 1))%Q ->
       (meanv z r == backup x (meanv z d))%Q).
Proof. exact target_spec. Qed.
Print Assumptions C33_categorical_target.

(** CategoricalDoubleDQN: the action is greedy for the online network. *)
Theorem C33_categorical_double_target : forall v0 dz z batch next online, evenly_spaced v0 dz z ->
  length next = length batch -> length online = length batch ->
  (forall b qd qo, nth_error next b = Some qd -> nth_error online b = Some qo ->
     qo <> [] /\ length qo = length qd /\ forall d, In d qd -> length d = length z) ->
  exists out, categorical_double_target z batch next online = Ok out /\ length out = length batch /\
  forall b x qd qo, nth_error batch b = Some x -> nth_error next b = Some qd -> nth_error online b = Some qo ->
    exists a o d r, nth_error qo a = Some o /\ (forall o', In o' qo -> meanv z o' <= meanv z o)%Q /\
      nth_error qd a = Some d /\
      nth_error out b = Some r /\ length r = length z /\ (qsum r == qsum d)%Q /\
      (meanv z r == expect (fun v => qclamp v0 (atom v0 dz (length z - 1)) (backup x v)) (combine z d))%Q /\
      ((forall p, In p d -> 0 <= p)%Q -> (forall p, In p r -> 0 <= p)%Q) /\
      ((qsum d == 1)%Q -> (forall v, In v z -> v0 <= backup x v /\ backup x v <= atom v0 dz (length z - 1))%Q ->
       (meanv z r == backup x (meanv z d))%Q).
Proof. exact double_target_spec. Qed.
Print Assumptions C33_categorical_double_target.
Example C33_target_example : let z := [-1 # 1; 0; 1]%Q in
  let batch := [mk_cexp (1 # 2) false (1 # 2); mk_cexp 1 true (1 # 2)]%Q in
  let nx := [[[1; 0; 0]; [0; 1; 0]]; [[1; 0; 0]; [0; 1; 0]]]%Q in
  let on := [[[0; 0; 1]; [0; 1; 0]]; [[1; 0; 0]; [0; 1; 0]]]%Q in
  (exists out, categorical_target z batch nx = Ok out /\ map (map Qred) out = [[0; 1 # 2; 1 # 2]; [0; 0; 1]]%Q) /\
  (exists out, categorical_double_target z batch nx on = Ok out /\ map (map Qred) out = [[0; 1; 0]; [0; 0; 1]]%Q).
Proof. split; eexists; split; vm_compute; reflexivity. Qed.
