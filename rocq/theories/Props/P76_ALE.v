(** C76: the Atari environment repeats actions, sums rewards, shows the last screens and
    ends episodes as documented, for every emulator. *)
From Coq Require Import List Arith ZArith Bool Lia.
From Verif Require Import Base.PyBase Model.ALEEnv Spec.ALESpec Proofs.ALEProofs.
Import ListNotations.

(** One step of a running episode: the action is repeated up to frame_skip frames, until
    the first frame that ends the episode; the reward is the total of those frames; done
    says whether the last one ended it (game over, or a life lost if so configured); a new
    image, the maximum of the last two screens, is shown exactly if it did not. *)
Theorem C76_step : forall E S I (act : E -> nat -> E * Z) (screen : E -> S) lives over (join : S -> S -> S) (process : S -> I) legal n fs treat, 1 <= fs ->
  forall st action a, ready lives n st -> is_terminal over treat st = false -> py_get legal action = Ok a ->
  exists k st', repeated act lives over treat fs (emu st) a k /\ emu st' = after act (emu st) a k /\ ready lives n st' /\
    is_terminal over treat st' = stops act lives over treat (emu st) a k /\
    screens st' = (if stops act lives over treat (emu st) a k then screens st
                   else last_items n (screens st ++ [image screen join process act (emu st) a k])) /\
    step act screen lives over join process legal n fs treat action st =
      Ok (screens st', snd (play act (emu st) (repeat a k)), stops act lives over treat (emu st) a k, st').
Proof. exact (fun E S I act screen lives over => step_ok E S I act screen lives over (fun e => e)). Qed.

(** A finished episode refuses further steps. *)
Theorem C76_step_after_end : forall E S I (act : E -> nat -> E * Z) (screen : E -> S) lives over (join : S -> S -> S) (process : S -> I) legal n fs treat st action,
  is_terminal over treat st = true -> step act screen lives over join process legal n fs treat action st = Raise AssertionError.
Proof. exact step_after_end. Qed.

(** Reset starts a new game only if the last one is over, then plays the null actions and
    shows blank screens and one image. *)
Theorem C76_reset : forall E S I (act : E -> nat -> E * Z) (screen : E -> S) lives (over : E -> bool) (reset_game : E -> E) (join : S -> S -> S) (process : S -> I) blank n treat k (st : ale E S I),
  exists st',
    let e := after act (if over (emu st) then reset_game (emu st) else emu st) 0 k in
    reset act screen lives over reset_game join process blank n k st = Ok (last_items n (repeat blank (n - 1) ++ [first_image screen join process e]), st') /\
    emu st' = e /\ ready lives n st' /\ is_terminal over treat st' = over e /\
    screens st' = last_items n (repeat blank (n - 1) ++ [first_image screen join process e]) /\ length (screens st') = n.
Proof. exact (fun E S I act screen lives over rg join process blank n treat => reset_ok E S I act screen lives over rg join process blank n 1 treat (le_n 1)). Qed.

(** Whole episodes: the emulator plays exactly the repeated actions, in order, the rewards
    add up to those of all these frames, only the last step can end the episode, and every
    observation is the last n of the images so far. *)
Theorem C76_episode : forall E S I (act : E -> nat -> E * Z) (screen : E -> S) lives over (join : S -> S -> S) (process : S -> I) legal n fs treat, 1 <= fs ->
  forall actions shown st out st', ready lives n st -> screens st = last_items n shown ->
  steps act screen lives over join process legal n fs treat actions st = Ok (out, st') ->
  exists al images, length al = length actions /\ length out = length actions /\
    emu st' = fst (play act (emu st) (expand al)) /\ zsum (map (fun x => snd (fst x)) out) = snd (play act (emu st) (expand al)) /\
    (forall i action, nth_error actions i = Some action -> exists a k o,
       let e := fst (play act (emu st) (expand (firstn i al))) in
       py_get legal action = Ok a /\ nth_error al i = Some (a, k) /\ repeated act lives over treat fs e a k /\
       nth_error out i = Some (o, snd (play act e (repeat a k)), stops act lives over treat e a k) /\
       (stops act lives over treat e a k = true -> Datatypes.S i = length actions) /\
       (stops act lives over treat e a k = false -> nth_error images i = Some (image screen join process act e a k)) /\
       o = last_items n (shown ++ firstn (if stops act lives over treat e a k then i else Datatypes.S i) images)).
Proof. exact (fun E S I act screen lives over => episode_ok E S I act screen lives over (fun e => e)). Qed.

(** The null actions of reset may themselves end the game; the environment is then
    returned in a state in which every step fails. *)
Theorem C76_game_over_in_reset_refuted : forall E S I (act : E -> nat -> E * Z) (screen : E -> S) lives (over : E -> bool) (reset_game : E -> E) (join : S -> S -> S) (process : S -> I) blank legal n fs treat, 1 <= fs -> forall k (st : ale E S I),
  over (after act (if over (emu st) then reset_game (emu st) else emu st) 0 k) = true ->
  exists o st', reset act screen lives over reset_game join process blank n k st = Ok (o, st') /\
    forall action, step act screen lives over join process legal n fs treat action st' = Raise AssertionError.
Proof. exact over_in_nullops. Qed.

(** Non-vacuity: an emulator that counts frames, rewards each with its number, takes a life
    at frame 6 and is over at frame 9. *)
Definition C76_act (e a : nat) : nat * Z := (e + 1, Z.of_nat (e + 1)).
Definition C76_lives (e : nat) : nat := if e <? 6 then 3 else 2.
Definition C76_over (e : nat) : bool := 9 <=? e.
Definition C76_init : ale nat nat nat := mk_ale 0 3 false None [0; 0] 0%Z.
Example C76_case :
  match reset C76_act (fun e => e) C76_lives C76_over (fun _ => 0) Nat.max (fun s => s * 10) 0 2 1 C76_init with
  | Ok (o, st) => (o, match steps C76_act (fun e => e) C76_lives C76_over Nat.max (fun s => s * 10) [0; 1] 2 4 true [0%Z; 1%Z] st with Ok (out, _) => out | Raise _ => [] end)
  | Raise _ => ([], [])
  end = ([0; 10], [([10; 50], 14%Z, false); ([10; 50], 6%Z, true)]).
Proof. vm_compute. reflexivity. Qed.
Example C76_ready : ready C76_lives 2 C76_init.
Proof. split; reflexivity. Qed.
Example C76_nullops_case : C76_over (after C76_act (if C76_over 0 then 0 else 0) 0 9) = true.
Proof. reflexivity. Qed.

Print Assumptions C76_step.
Print Assumptions C76_step_after_end.
Print Assumptions C76_reset.
Print Assumptions C76_episode.
Print Assumptions C76_game_over_in_reset_refuted.
