(** * ServerSpec: what a client of the server and the person running it rely on.

    Only the sequence of observable events is used, and for the last part a few plain facts about
    the state. *)
From Coq Require Import Sorting.Sorted.
From Verif Require Import Base ServerModel.

(** The actions put on the action queue after the start, in order. *)
Definition queued (es : list event) : list act :=
  flat_map (fun e => match e with EvQueued a => [a] | EvRepeated a => [a] | _ => [] end) es.

(** Those the simulation put there. *)
Definition repeated (es : list event) : list act :=
  flat_map (fun e => match e with EvRepeated a => [a] | _ => [] end) es.

(** The actions taken from the queue, in order. *)
Definition started (es : list event) : list act :=
  flat_map (fun e => match e with EvStarted a => [a] | _ => [] end) es.

(** The messages made; those taken from the send queue, sent or not; those lost. *)
Definition puts (es : list event) : list msg :=
  flat_map (fun e => match e with EvPut m => [m] | _ => [] end) es.
Definition sents (es : list event) : list msg :=
  flat_map (fun e => match e with EvSent m => [m] | _ => [] end) es.
Definition losts (es : list event) : list msg :=
  flat_map (fun e => match e with EvLost m => [m] | _ => [] end) es.
Definition takens (es : list event) : list msg :=
  flat_map (fun e => match e with EvSent m => [m] | EvLost m => [m] | _ => [] end) es.

(** How often a time step ended; how often a connection ended; how often an unpause was performed. *)
Definition steps (es : list event) : nat :=
  length (filter (fun e => match e with EvStep => true | _ => false end) es).
Definition closes (es : list event) : nat :=
  length (filter (fun e => match e with EvClosed => true | _ => false end) es).
Definition unpauses (es : list event) : nat :=
  length (filter (fun e => match e with EvUnpaused => true | _ => false end) es).

Definition answers (ms : list msg) : list msg :=
  filter (fun m => match m with MBeat => false | _ => true end) ms.

(** [m] is an answer to a request for [a]: it names the parameters of the request, and its data are
    what the backend or the archetype said when at most [now] time steps had ended. *)
Definition answer_to (names : nat -> list string) (work : nat -> act -> option string) (now : nat)
    (a : act) (m : msg) : Prop :=
  match a, m with
  | AEcho s, MEcho s' => s' = s
  | ARegistry, MRegistry _ => True
  | ANames, MNames l => exists n, (n <= now)%nat /\ l = names n
  | ATable q, MTable q' d => q' = q /\ exists n, (n <= now)%nat /\ work n a = Some d
  | AAnnot q, MAnnot q' d => q' = q /\ exists n, (n <= now)%nat /\ work n a = Some d
  | ALoad, MLoaded => True
  | _, _ => False
  end.

(** Requests that get an answer, when the simulation was loaded before the start or not. *)
Definition must_answer (work : nat -> act -> option string) (ld : bool) (a : act) : Prop :=
  match a with
  | AEcho _ | ALoad => True
  | ARegistry | ANames => ld = true
  | ATable _ | AAnnot _ => forall n, work n a <> None
  | _ => False
  end.

(** A table name is registered after these events: registered and not deregistered since. *)
Fixpoint registered (x : string) (es : list event) (before : Prop) : Prop :=
  match es with
  | [] => before
  | EvRegister ts :: r => registered x r (before \/ In x ts)
  | EvDeregister ts :: r => registered x r (before /\ ~ In x ts)
  | _ :: r => registered x r before
  end.

(** In strictly increasing order. *)
Definition increasing (l : list string) : Prop :=
  StronglySorted (fun a b => String.compare a b = Lt) l.

(** Everything asked for has been done. *)
Definition finished (t : act * pc) : Prop := exists m, snd t = PEnd m.
Definition all_done (s : srv) : Prop := aq s = [] /\ Forall finished (tasks s).

(** Nothing in the server holds the simulation back for good: no pause is in force, waiting to be
    performed, or performed and not lifted; no shutdown is under way; no action of the monitor is
    waiting. *)
Definition no_hold (a : act) : Prop :=
  match a with APause | AShutdown _ => False | _ => True end.

Definition calm (s : srv) : Prop :=
  pausek s = None /\ stopped s = false /\ stopping s = false /\ mon s = MPoll /\
  Forall no_hold (aq s) /\
  (forall i a p, nth_error (tasks s) i = Some (a, p) ->
     no_hold a \/ finished (a, p) \/ (a = APause /\ p = PPaused /\ In i (cancelled s))).

(** Every pause performed has been lifted by an unpause, before the next pause was performed. *)
Fixpoint after_pauses (open : bool) (es : list event) : option bool :=
  match es with
  | [] => Some open
  | EvPaused :: r => if open then None else after_pauses true r
  | EvUnpaused :: r => after_pauses false r
  | _ :: r => after_pauses open r
  end.
Definition lifted (es : list event) : Prop := after_pauses false es = Some false.

Definition is_pause (a : act) : bool := match a with APause => true | _ => false end.

(** As many pauses were performed as were asked for. *)
Definition pauses_performed (asked : list act) (es : list event) : Prop :=
  length (filter is_pause asked) =
  length (filter (fun e => match e with EvPaused => true | _ => false end) es).

(** [a] is not a shutdown. *)
Definition no_stop (a : act) : Prop := match a with AShutdown _ => False | _ => True end.

(** The client asks for no shutdown and sends no unpause with parameters. *)
Definition no_shutdown (ls : list label) : Prop :=
  forall a, In (LRecv a) ls -> match a with AShutdown _ | AUnpauseArgs => False | _ => True end.

(** The server's own doing: the client asks for nothing more and stays connected or not as it is, no
    heartbeat is due, no message goes to a connection that is gone, and nobody stops the server. *)
Definition own_label (l : label) : Prop :=
  match l with
  | LRecv _ | LBad | LConnect | LDisconnect | LBeat | LOrphan | LStop => False
  | _ => True
  end.

(** The simulation thread is in its time steps, or about to begin them. *)
Definition running (dur : nat) (s : srv) : Prop :=
  match sim s with
  | SReady => loaded s = true /\ dur <> O
  | SDone | SFail => False
  | _ => True
  end.

(** The client never asks for an unpause. *)
Definition no_unpause_asked (ls : list label) : Prop := ~ In (LRecv AUnpause) ls.
