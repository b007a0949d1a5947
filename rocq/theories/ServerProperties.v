(** * ServerProperties: C62, the simulation server, for every schedule. *)
From Verif Require Import Base ServerModel ServerSpec ServerProofs1 ServerProofs2 ServerProofs3 ServerProofs4
  ServerProofs5 ServerExamples.
Open Scope string_scope.
Open Scope list_scope.

(** In what follows [run names work loads rep dur (start ld initial) ls] is the server with the initial
    actions [initial] and the repeating actions [rep], under the schedule [ls], which says what the client
    sends and which thread or coroutine goes on next. *)

(** Every action put on the queue is begun once, in the order of the queue. *)
Theorem C62_in_order : forall names work loads rep dur ld initial ls s es,
  run names work loads rep dur (start ld initial) ls = Some (s, es) ->
  initial ++ queued es = started es ++ aq s.
Proof.
  intros names work loads rep dur ld initial ls s es R.
  destruct (queue_run _ _ _ _ _ _ _ _ _ _ R) as [Q T]. rewrite T. exact Q.
Qed.
Print Assumptions C62_in_order.

(** Every message but the heartbeats is the answer to one request, with its parameters; no request is
    answered twice; and when everything has been done every request listed in [must_answer] has its answer. *)
Theorem C62_answers : forall names work loads rep dur ld initial ls s es,
  run names work loads rep dur (start ld initial) ls = Some (s, es) ->
  exists by_request : list (nat * msg),
    NoDup (map fst by_request) /\
    Permutation (map snd by_request) (answers (puts es)) /\
    (forall i m, In (i, m) by_request ->
       exists a, nth_error (initial ++ queued es) i = Some a /\ answer_to names work (steps es) a m) /\
    (all_done s -> forall i a, nth_error (initial ++ queued es) i = Some a -> must_answer work ld a ->
       exists m, In (i, m) by_request).
Proof. exact answers_run. Qed.
Print Assumptions C62_answers.

(** Messages leave the server in the order they were made; none is lost as long as no connection ends, and
    at most one for each connection that ended. *)
Theorem C62_messages : forall names work loads rep dur ld initial ls s es,
  run names work loads rep dur (start ld initial) ls = Some (s, es) ->
  puts es = takens es ++ sendq s /\ (length (losts es) <= closes es)%nat /\
  (closes es = O -> puts es = sents es ++ sendq s).
Proof.
  intros names work loads rep dur ld initial ls s es R.
  destruct (send_run _ _ _ _ _ _ _ _ _ _ R) as [P L]. split; [exact P|]. split; [lia|].
  intro C. rewrite <- takens_sents; [exact P|]. destruct (losts es); [reflexivity|cbn in L; lia].
Qed.
Print Assumptions C62_messages.

(** When a time step ends, everything asked for until then has been begun, and the repeating actions have
    been asked for once in each time step, in their order; no more time steps end than the simulation has. *)
Theorem C62_time_step : forall names work loads rep dur ld initial ls s pre post,
  run names work loads rep dur (start ld initial) ls = Some (s, pre ++ EvStep :: post) ->
  started pre = initial ++ queued pre /\
  repeated pre = concat (repeat rep (S (steps pre))) /\ (S (steps pre) <= dur)%nat.
Proof. exact at_step. Qed.
Print Assumptions C62_time_step.

(** Between a pause and the next unpause at most one time step ends: the one that had already looked for a
    pause. *)
Theorem C62_pause : forall names work loads rep dur ld initial ls s pre mid post,
  run names work loads rep dur (start ld initial) ls = Some (s, pre ++ EvPaused :: mid ++ post) ->
  ~ In EvUnpaused mid -> (steps mid <= 1)%nat.
Proof.
  intros names work loads rep dur ld initial ls s pre mid post R U.
  eapply paused_steps; [exact R|]. unfold unpauses.
  destruct (filter _ mid) as [|e r] eqn:F; [reflexivity|].
  assert (X : In e (filter (fun e => match e with EvUnpaused => true | _ => false end) mid))
    by (rewrite F; left; reflexivity).
  apply filter_In in X. destruct e; destruct X as [X Y]; try discriminate Y. contradiction.
Qed.
Print Assumptions C62_pause.

(** That one time step can end. *)
Example C62_pause_late : exists s,
  srun [] (start true []) late_step = Some (s, [EvQueued APause; EvStarted APause; EvPaused; EvStep]).
Proof. exact late_step_runs. Qed.

(** A registry message has exactly the names registered, and not deregistered since, in increasing order. *)
Theorem C62_registry : forall names work loads rep dur ld initial ls s pre l post,
  run names work loads rep dur (start ld initial) ls = Some (s, pre ++ EvPut (MRegistry l) :: post) ->
  increasing l /\ forall x, In x l <-> registered x pre False.
Proof. exact registry_message. Qed.
Print Assumptions C62_registry.

(** Whatever has happened: as long as no pause or shutdown holds it, the server can finish everything asked
    for, send every message to the client that is connected, and let the simulation finish its time step,
    without any further help. *)
Theorem C62_never_stuck : forall names work loads rep dur ld initial ls0 s es0,
  Forall (fun a => is_event a = true /\ no_hold a) rep ->
  run names work loads rep dur (start ld initial) ls0 = Some (s, es0) -> calm s ->
  exists ls s' es, Forall own_label ls /\ run names work loads rep dur s ls = Some (s', es) /\
    all_done s' /\ losts es = [] /\ (conn s = true -> sendq s' = []) /\ (running dur s -> steps es = 1%nat).
Proof.
  intros names work loads rep dur ld initial ls0 s es0 RE R C.
  eapply never_stuck; [exact RE| |exact C]. exists ls0, es0. exact R.
Qed.
Print Assumptions C62_never_stuck.

(** In terms of what can be observed: when every pause asked for has been performed and lifted before the
    next was performed, and no shutdown was asked for, the server can finish everything asked for, send
    every message, and let the time step end. *)
Theorem C62_resumes : forall names work loads rep dur ld initial ls0 s es0,
  Forall (fun a => is_event a = true /\ no_hold a) rep -> Forall no_stop initial -> no_shutdown ls0 ->
  run names work loads rep dur (start ld initial) ls0 = Some (s, es0) ->
  lifted es0 -> pauses_performed (initial ++ queued es0) es0 ->
  exists ls s' es, Forall own_label ls /\ run names work loads rep dur s ls = Some (s', es) /\
    all_done s' /\ losts es = [] /\ (conn s = true -> sendq s' = []) /\ (running dur s -> steps es = 1%nat).
Proof.
  intros names work loads rep dur ld initial ls0 s es0 RE NI NL R L P.
  eapply C62_never_stuck; [exact RE|exact R|]. eapply lifted_calm; eassumption.
Qed.
Print Assumptions C62_resumes.

(** A schedule with a pause, just after it has been lifted, the pause itself and its time step unfinished. *)
Example C62_resumes_example : exists s es,
  srun [ASleep] (start true []) (firstn 40 good_schedule) = Some (s, es) /\
  no_shutdown (firstn 40 good_schedule) /\ lifted es /\ pauses_performed ([] ++ queued es) es /\
  In EvPaused es /\ steps es = O /\ ~ all_done s /\ running 3 s.
Proof.
  eexists _, _. split; [vm_compute; reflexivity|]. split.
  - intros a H. cbn in H. repeat (destruct H as [H|H]; [try discriminate H; injection H as <-; exact I|]). easy.
  - split; [vm_compute; reflexivity|]. split; [vm_compute; reflexivity|]. split; [cbn; auto 25|].
    split; [vm_compute; reflexivity|]. split; [|exact I].
    intros [_ F]. cbn in F. do 5 (inversion_clear F as [|? ? _ F1]; rename F1 into F).
    inversion_clear F as [|? ? [m X] _]. discriminate X.
Qed.

(** A schedule with requests, a repeating action, a pause and an unpause that meets all of the above. *)
Example C62_example : exists s,
  srun [ASleep] (start true []) good_schedule =
    Some (s, [EvQueued (AEcho "hi"); EvQueued (ATable "Resources"); EvQueued (ARegister ["T"]);
              EvStarted (AEcho "hi"); EvStarted (ATable "Resources"); EvRepeated ASleep;
              EvStarted (ARegister ["T"]); EvStarted ASleep;
              EvPut (MEcho "hi"); EvSent (MEcho "hi"); EvRegister ["T"];
              EvPut (MTable "Resources" "[1,2]"); EvQueued ARegistry; EvQueued APause;
              EvStarted ARegistry; EvStarted APause; EvPut (MRegistry ["T"]); EvPut MBeat; EvPaused;
              EvSent (MTable "Resources" "[1,2]"); EvSent (MRegistry ["T"]); EvUnpaused; EvStep;
              EvSent MBeat]) /\
  all_done s /\ sendq s = [] /\ calm s /\ running 3 s.
Proof. exact good_runs. Qed.

(** Not true: that a simulation paused and then unpaused goes on. The unpause can be performed first; then
    no time step ends in any schedule without another unpause. *)
Theorem C62_unpause_refuted : exists ls s es,
  srun [] (start true []) ls = Some (s, es) /\
  (exists a b c, ls = a ++ LRecv APause :: b ++ LRecv AUnpause :: c) /\ mq s = [] /\ aq s = [] /\
  forall ls' s' es', srun [] s ls' = Some (s', es') -> no_unpause_asked ls' -> steps es' = O.
Proof.
  destruct overtaken_for_ever as (s & es & R & M & A & F). exists overtaken, s, es.
  split; [exact R|]. split; [|auto]. exists [LConsumed; LConnect], []. eexists. reflexivity.
Qed.
Print Assumptions C62_unpause_refuted.

(** Not true: that an unpause always ends the pauses there are. After two pauses begun together the first is
    never ended: nothing is begun and no time step ends any more, whatever the client sends. *)
Theorem C62_two_pauses_refuted : exists ls s es,
  srun [] (start true []) ls = Some (s, es) /\ pausek s = None /\ aq s = [AEcho "hello?"] /\
  forall ls' s' es', srun [] s ls' = Some (s', es') -> started es' = [] /\ steps es' = O.
Proof. destruct paused_twice_for_ever as (s & es & H). exists paused_twice, s, es. exact H. Qed.
Print Assumptions C62_two_pauses_refuted.

(** Not true: that requests are answered while the simulation is paused. *)
Theorem C62_paused_requests_refuted : exists ls s es,
  srun [] (start true []) ls = Some (s, es) /\ aq s = [AEcho "hello?"] /\
  forall ls' s' es', srun [] s ls' = Some (s', es') -> unpauses es' = O -> started es' = [].
Proof. destruct asked_while_paused_waits as (s & es & H). exists asked_while_paused, s, es. exact H. Qed.
Print Assumptions C62_paused_requests_refuted.

(** Not true: that a repeating pause pauses every time step. *)
Theorem C62_repeating_pause_refuted : exists ls s es,
  srun [APause] (start true []) ls = Some (s, es) /\ steps es = 3%nat /\
  ~ In EvPaused es /\ ~ In EvUnpaused es.
Proof. destruct skipped_pause_runs as (s & es & H). exists skipped_pause, s, es. exact H. Qed.
Print Assumptions C62_repeating_pause_refuted.

(** Not true: that a registration or deregistration is followed by a registry event: in no schedule, unless
    the client asks for the registry. *)
Theorem C62_registration_refuted :
  (exists ls s es, srun [] (start true []) ls = Some (s, es) /\ In (EvRegister ["T"]) es /\ all_done s /\
     puts es = []) /\
  forall names work loads rep dur ld initial ls s es,
  run names work loads rep dur (start ld initial) ls = Some (s, es) ->
  ~ In ARegistry (initial ++ queued es) -> forall l, ~ In (MRegistry l) (puts es).
Proof.
  split; [destruct registration_runs as (s & es & H); exists registration, s, es; exact H|].
  exact unasked_registry.
Qed.
Print Assumptions C62_registration_refuted.

(** Not true: that a shutdown "when empty" waits until the action queue is empty. *)
Theorem C62_shutdown_refuted : exists ls s es,
  srun [] (start true []) ls = Some (s, es) /\ stopped s = true /\ In EvStopped es /\ aq s = [AEcho "last"].
Proof. destruct early_shutdown_runs as (s & es & H). exists early_shutdown, s, es. exact H. Qed.
Print Assumptions C62_shutdown_refuted.

(** Not true: that a shutdown asked for is performed: behind a pause with two requests waiting it never is,
    and the unpause sent afterwards is never performed either. *)
Theorem C62_shutdown_paused_refuted : exists ls s es,
  srun [] (start true []) ls = Some (s, es) /\ mq s = [AUnpause] /\
  forall ls' s' es', srun [] s ls' = Some (s', es') ->
    started es' = [] /\ unpauses es' = O /\ ~ In EvStopped es'.
Proof. destruct shutdown_never as (s & es & H). exists shutdown_while_paused, s, es. exact H. Qed.
Print Assumptions C62_shutdown_paused_refuted.

(** Not true: that a client that connects again gets the answers to its requests. *)
Theorem C62_reconnect_refuted : exists ls s es,
  srun [] (start true []) ls = Some (s, es) /\ losts es = [MEcho "hi"] /\ sents es = [] /\ sendq s = [].
Proof. destruct lost_answer_runs as (s & es & H). exists lost_answer, s, es. exact H. Qed.
Print Assumptions C62_reconnect_refuted.

(** Not true: that a client cannot end the server but by a shutdown. An unpause with parameters does. *)
Theorem C62_bad_unpause_refuted : exists s es,
  srun [] (start true []) [LConsumed; LConnect; LRecv AUnpauseArgs; LMon] = Some (s, es) /\
  stopped s = true /\ In EvStopped es.
Proof. exact killed_runs. Qed.
Print Assumptions C62_bad_unpause_refuted.

(** Not true: that "loaded" with status ok is sent only when the input file has been loaded. *)
Theorem C62_loaded_refuted : exists ls s es,
  run no_names small_work false [] 3 (start false []) ls = Some (s, es) /\ sents es = [MLoaded] /\
  loaded s = false.
Proof. destruct bad_load_runs as (s & es & H). exists bad_load, s, es. exact H. Qed.
Print Assumptions C62_loaded_refuted.

(** Not true: that the server runs the simulation. It starts it before anything is loaded; then no time step
    ends, whatever the client sends, a load included. *)
Theorem C62_never_runs_refuted : forall names work loads rep dur initial ls s es,
  run names work loads rep dur (start false initial) (LSim :: ls) = Some (s, es) -> steps es = O.
Proof.
  intros names work loads rep dur initial ls s es R.
  apply (run_app _ _ _ _ _ _ [LSim] ls) in R. destruct R as (s1 & e1 & e2 & R1 & R2 & ->).
  cbn in R1. injection R1 as <- <-. eapply failed_for_ever; [|exact R2]. reflexivity.
Qed.
Print Assumptions C62_never_runs_refuted.

(** Such a schedule in which the client loads the input file. *)
Example C62_never_runs_example : exists s es,
  run no_names small_work true [] 3 (start false []) (LSim :: bad_load) = Some (s, es) /\
  sents es = [MLoaded] /\ loaded s = true.
Proof. eexists _, _. split; [vm_compute; reflexivity|]. split; vm_compute; reflexivity. Qed.
