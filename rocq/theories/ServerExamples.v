(** * ServerExamples: schedules of the server that meet, or break, what is relied on. *)
From Verif Require Import Base ServerModel ServerSpec ServerProofs1 ServerProofs2 ServerProofs3 ServerProofs4.
Open Scope string_scope.

Definition no_names : nat -> list string := fun _ => ["Info"; "Resources"].
Definition small_work (n : nat) (a : act) : option string :=
  match a with ATable "Resources" => Some "[1,2]" | _ => None end.

(** A server whose simulation was loaded before the start and has three time steps. *)
Definition srun (rep : list act) := run no_names small_work true rep 3.

(** A client asks for an echo, a table, a registration and the registry; a repeating action sleeps in
    every time step; the simulation is paused and goes on after an unpause. *)
Definition good_schedule : list label :=
  [ LConsumed; LConnect; LRecv (AEcho "hi"); LRecv (ATable "Resources"); LRecv (ARegister ["T"]);
    LSim; LSim; LWake; LConsume; LConsume; LSim; LConsume; LConsume; LConsumed;
    LTask 0; LTask 1; LTask 3; LSend; LTask 2; LWork 1; LSim; LTask 1; LTask 3; LStagedDone;
    LRecv ARegistry; LRecv APause; LWake; LConsume; LConsume; LConsumed; LTask 4; LBeat; LTask 5;
    LSim; LSim; LSend; LSend; LRecv AUnpause; LSim; LMon; LTask 5; LStagedDone; LSim; LSim; LSim; LSend ].

Example good_runs : exists s,
  srun [ASleep] (start true []) good_schedule =
    Some (s, [EvQueued (AEcho "hi"); EvQueued (ATable "Resources"); EvQueued (ARegister ["T"]);
              EvStarted (AEcho "hi"); EvStarted (ATable "Resources"); EvRepeated ASleep;
              EvStarted (ARegister ["T"]); EvStarted ASleep;
              EvPut (MEcho "hi"); EvSent (MEcho "hi"); EvRegister ["T"];
              EvPut (MTable "Resources" "[1,2]"); EvQueued ARegistry; EvQueued APause;
              EvStarted ARegistry; EvStarted APause; EvPut (MRegistry ["T"]); EvPut MBeat; EvPaused;
              EvSent (MTable "Resources" "[1,2]"); EvSent (MRegistry ["T"]); EvUnpaused; EvStep;
              EvSent MBeat]) /\
  all_done s /\ sendq s = [] /\ calm s /\ running 3 s.
Proof.
  eexists. split; [vm_compute; reflexivity|]. split.
  - split; [vm_compute; reflexivity|]. cbn. repeat (constructor; [eexists; reflexivity|]). constructor.
  - split; [vm_compute; reflexivity|]. split.
    + repeat split; try (vm_compute; reflexivity); [constructor|].
      intros i a p N. right. left. do 6 (destruct i as [|i]; [cbn in N; injection N as <- <-; eexists; reflexivity|]).
      destruct i; discriminate N.
    + vm_compute. exact I.
Qed.

(** ** What goes wrong *)

(** The client asks for a pause and then for an unpause; the monitor gets to the unpause first. *)
Definition overtaken : list label :=
  [ LConsumed; LConnect; LRecv APause; LRecv AUnpause; LMon; LWake; LConsume; LConsumed; LTask 0 ].

Lemma overtaken_for_ever : exists s es,
  srun [] (start true []) overtaken = Some (s, es) /\ mq s = [] /\ aq s = [] /\
  forall ls s' es', srun [] s ls = Some (s', es') -> no_unpause_asked ls -> steps es' = O.
Proof.
  eexists _, _. split; [vm_compute; reflexivity|]. split; [reflexivity|]. split; [reflexivity|].
  intros ls s' es' R N.
  assert (U : unpauses es' = O).
  { refine (no_unpause_run _ _ _ [] _ _ ls _ _ _ _ _ N R).
    - constructor.
    - split; [intros []|]. split; [intros []|]. intros p [H|[]]. discriminate H.
    - exact I. }
  destruct (pause_holds _ _ _ _ _ _ _ _ _ _ R eq_refl U) as [_ H]. cbn in H. lia.
Qed.

(** Two pauses, begun together; then an unpause; then a request. *)
Definition paused_twice : list label :=
  [ LConsumed; LConnect; LRecv APause; LRecv APause; LWake; LConsume; LConsume; LConsumed;
    LTask 0; LTask 1; LRecv AUnpause; LMon; LRecv (AEcho "hello?") ].

Lemma paused_twice_for_ever : exists s es,
  srun [] (start true []) paused_twice = Some (s, es) /\ pausek s = None /\ aq s = [AEcho "hello?"] /\
  forall ls s' es', srun [] s ls = Some (s', es') -> started es' = [] /\ steps es' = O.
Proof.
  eexists _, _. split; [vm_compute; reflexivity|]. split; [reflexivity|]. split; [reflexivity|].
  intros ls s' es' R. refine (lost_for_ever _ _ _ _ _ O ls _ _ _ _ _ R).
  - split; [|discriminate]. repeat split; cbn; auto. intros [H|[]]. discriminate H.
  - discriminate.
Qed.

(** A request made while the simulation is paused. *)
Definition asked_while_paused : list label :=
  [ LConsumed; LConnect; LRecv APause; LWake; LConsume; LConsumed; LTask 0; LRecv (AEcho "hello?") ].

Lemma asked_while_paused_waits : exists s es,
  srun [] (start true []) asked_while_paused = Some (s, es) /\ aq s = [AEcho "hello?"] /\
  forall ls s' es', srun [] s ls = Some (s', es') -> unpauses es' = O -> started es' = [].
Proof.
  eexists _, _. split; [vm_compute; reflexivity|]. split; [reflexivity|].
  intros ls s' es' R U. refine (waits_run _ _ _ _ _ O ls _ _ _ _ R U).
  repeat split; cbn; auto.
Qed.

(** A repeating pause: all three time steps end without any unpause. *)
Definition skipped_pause : list label :=
  [ LSim; LSim; LSim; LConsume; LSim; LSim; LSim;
    LSim; LSim; LConsume; LSim; LSim; LSim;
    LSim; LSim; LConsume; LSim; LSim; LSim ].

Example skipped_pause_runs : exists s es,
  srun [APause] (start true []) skipped_pause = Some (s, es) /\ steps es = 3%nat /\
  ~ In EvPaused es /\ ~ In EvUnpaused es.
Proof.
  eexists _, _. split; [vm_compute; reflexivity|]. split; [vm_compute; reflexivity|].
  split; cbn; intuition discriminate.
Qed.

(** A shutdown "when the queue is empty" with a request on the queue. *)
Definition early_shutdown : list label :=
  [ LConsumed; LConnect; LRecv ASleep; LWake; LConsume; LConsumed; LTask 0;
    LRecv (AEcho "last"); LRecv (AShutdown false); LMon; LMon; LStop ].

Example early_shutdown_runs : exists s es,
  srun [] (start true []) early_shutdown = Some (s, es) /\ stopped s = true /\ In EvStopped es /\
  aq s = [AEcho "last"].
Proof.
  eexists _, _. split; [vm_compute; reflexivity|]. split; [reflexivity|]. split; [vm_compute; auto 20|reflexivity].
Qed.

(** A message the server does not know, then a new connection and a request: the answer is lost. *)
Definition lost_answer : list label :=
  [ LConsumed; LConnect; LBad; LConnect; LRecv (AEcho "hi"); LWake; LConsume; LConsumed; LTask 0; LOrphan ].

Example lost_answer_runs : exists s es,
  srun [] (start true []) lost_answer = Some (s, es) /\ losts es = [MEcho "hi"] /\ sents es = [] /\
  sendq s = [].
Proof. eexists _, _. split; [vm_compute; reflexivity|]. repeat split; vm_compute; reflexivity. Qed.

(** An unpause with parameters ends the server. *)
Definition killed : list label := [ LConsumed; LConnect; LRecv AUnpauseArgs; LMon ].

Example killed_runs : exists s es,
  srun [] (start true []) killed = Some (s, es) /\ stopped s = true /\ In EvStopped es.
Proof. eexists _, _. split; [vm_compute; reflexivity|]. split; [reflexivity|vm_compute; auto]. Qed.

(** A shutdown asked for while the simulation is paused and two requests wait. *)
Definition shutdown_while_paused : list label :=
  [ LConsumed; LConnect; LRecv APause; LWake; LConsume; LConsumed; LTask 0;
    LRecv (AEcho "a"); LRecv (AEcho "b"); LRecv (AShutdown false); LMon; LRecv AUnpause ].

Lemma shutdown_never : exists s es,
  srun [] (start true []) shutdown_while_paused = Some (s, es) /\ mq s = [AUnpause] /\
  forall ls s' es', srun [] s ls = Some (s', es') ->
    started es' = [] /\ unpauses es' = O /\ ~ In EvStopped es'.
Proof.
  eexists _, _. split; [vm_compute; reflexivity|]. split; [reflexivity|].
  intros ls s' es' R. refine (wedged_for_ever _ _ _ _ _ O ls _ _ _ _ R).
  split; [repeat split; cbn; auto|]. repeat split; cbn; auto.
  intros j a p N NE. destruct j as [|[|j]]; [congruence|discriminate N|discriminate N].
Qed.

(** An input file that cannot be loaded is reported as loaded. *)
Definition bad_load : list label :=
  [ LConsumed; LConnect; LRecv ALoad; LWake; LConsume; LConsumed; LTask 0; LWork 0; LTask 0; LSend ].

Example bad_load_runs : exists s es,
  run no_names small_work false [] 3 (start false []) bad_load = Some (s, es) /\
  sents es = [MLoaded] /\ loaded s = false.
Proof. eexists _, _. split; [vm_compute; reflexivity|]. split; vm_compute; reflexivity. Qed.

(** A time step ends after a pause was performed. *)
Definition late_step : list label :=
  [ LConsumed; LConnect; LRecv APause; LWake; LConsume; LConsumed; LSim; LSim; LSim; LSim; LTask 0; LSim ].

Example late_step_runs : exists s,
  srun [] (start true []) late_step =
    Some (s, [EvQueued APause; EvStarted APause; EvPaused; EvStep]).
Proof. eexists. vm_compute. reflexivity. Qed.

(** A registration, done, without the registry event that is promised. *)
Definition registration : list label :=
  [ LConsumed; LConnect; LRecv (ARegister ["T"]); LWake; LConsume; LConsumed; LTask 0; LStagedDone ].

Example registration_runs : exists s es,
  srun [] (start true []) registration = Some (s, es) /\ In (EvRegister ["T"]) es /\ all_done s /\
  puts es = [].
Proof.
  eexists _, _. split; [vm_compute; reflexivity|]. split; [cbn; auto|]. split; [|reflexivity].
  split; [reflexivity|]. cbn. repeat constructor. eexists. reflexivity.
Qed.
