(** * ServerModel: the simulation server.

    Models cyclus/server.py, cyclus/actions.py, cyclus/events.pyx (the hook the timer calls at the
    end of each time step, src/timer.cc 46-48), and the queues of cyclus/simstate.py 198-220.

    The program runs on several threads: the simulation thread, the worker threads of the executor
    and the thread of the asyncio event loop.  Coroutines of the event loop run without interruption
    between two awaits; the other threads may be interleaved anywhere.  [step] says what one such
    uninterrupted piece does; which piece runs next is the [label], so a list of labels is a
    schedule, and the theorems are about every schedule.  What asyncio guarantees about the order in
    which ready coroutines are resumed is not used.

    Simplified: JSON parameters are one string per action; an [echo] prints nothing; a load that
    fails leaves the backends as they were; the callbacks that still run in the turn of the event
    loop in which it is stopped are any finite number of further steps; one client is connected at a
    time.  Repeating actions are the (name, parameters) pairs the command line makes
    (cyclus/server.py 308-326, 398); callables put in the list by other Python code are not
    modelled.  Signals are not modelled. *)
From Verif Require Import Base.

(** ** Actions and messages *)

(** The actions a client may ask for (cyclus/events.pyx 43-58), with their parameters:
    [AUnpauseArgs] is an unpause or a shutdown, and [ABadArgs] any other action, with parameters it
    does not take, which is noticed only when the action is run (cyclus/actions.py 18-28). *)
Inductive act :=
| AEcho (s : string)
| APause
| AUnpause
| AUnpauseArgs
| ARegister (ts : list string)
| ADeregister (ts : list string)
| ARegistry
| ANames
| ATable (q : string)
| AAnnot (spec : string)
| ASleep
| ALoad
| AShutdown (now : bool)
| ABadArgs.

(** cyclus/events.pyx 43-58 and cyclus/server.py 259-264: unpause and shutdown are monitor actions,
    the others go on the action queue. *)
Definition is_event (a : act) : bool :=
  match a with
  | AUnpause | AUnpauseArgs | AShutdown _ => false
  | _ => true
  end.

(** The messages the server sends (cyclus/actions.py 31-51; cyclus/server.py 297, 304). *)
Inductive msg :=
| MEcho (s : string)
| MRegistry (l : list string)
| MNames (l : list string)
| MTable (q d : string)
| MAnnot (spec d : string)
| MLoaded
| MBeat.

(** ** Sorted sets of table names (the registry of cyclus/memback.pyx 217-252; [sorted] of
    cyclus/actions.py 95) *)
Fixpoint ins (x : string) (l : list string) : list string :=
  match l with
  | [] => [x]
  | y :: r => match String.compare x y with
              | Eq => l
              | Lt => x :: l
              | Gt => y :: ins x r
              end
  end.

(** [curr | tables] (cyclus/actions.py 113) *)
Definition set_union (l ts : list string) : list string := fold_right ins l ts.

(** [curr - tables] (cyclus/actions.py 125) *)
Definition set_diff (l ts : list string) : list string :=
  filter (fun x => negb (existsb (String.eqb x) ts)) l.

(** ** State *)

(** Where a started action stands: not begun; waiting for its pause to be cancelled; its function
    running on a worker thread; that function finished (with a value or an exception); sleeping;
    waiting to shut the server down; finished, with the message it put on the send queue. *)
Inductive pc :=
| PNew
| PPaused
| PWorker
| PGot (r : option string)
| PAsleep
| PShut
| PEnd (m : option msg).

(** cyclus/server.py 220-232: in the inner loop, awaiting the staged tasks, asleep. *)
Inductive cpc := CPoll | CWait | CSleep.

(** cyclus/server.py 235-244: between two actions, or awaiting a shutdown. *)
Inductive mpc := MPoll | MShut.

(** The simulation thread: before [state.run]; in the phases of a time step; putting the repeating
    actions on the queue (the ones left); about to look for a pause; about to look at the queue;
    after the last time step; after an exception. *)
Inductive spc := SReady | SCompute | SQueue (left : list act) | SPause | SEmpty | SDone | SFail.

Record srv := mksrv {
  aq : list act;              (* state.action_queue, simstate.py 208-213 *)
  mq : list act;              (* state.monitor_queue, simstate.py 215-220 *)
  tasks : list (act * pc);    (* the tasks made by the consumer, server.py 226, in order *)
  staged : list nat;          (* staged_tasks, server.py 222 *)
  cons : cpc;
  mon : mpc;
  pausek : option nat;        (* state.tasks['pause']: the task that made it, actions.py 65 *)
  cancelled : list nat;       (* the tasks whose pause has been cancelled, actions.py 74 *)
  registry : list string;     (* memory_backend.registry, sorted *)
  loaded : bool;              (* state.load has been performed, simstate.py 132-139 *)
  conn : bool;                (* a client is connected: websocket_handler is running *)
  orphans : nat;              (* get_send_data tasks nobody awaits any more, server.py 274-280 *)
  sendq : list msg;           (* state.send_queue, simstate.py 198-206 *)
  sim : spc;
  ndone : nat;                (* time steps finished, timer.cc 50 *)
  stopping : bool;            (* loop.stop has been called, actions.py 236 *)
  stopped : bool              (* the event loop has stopped *)
}.

Inductive label :=
| LRecv (a : act)      (* the client's message asking for [a] is handled *)
| LBad                 (* a message that is not an event the server knows *)
| LConnect | LDisconnect
| LSend                (* the next message is sent to the client *)
| LOrphan              (* a forgotten get_send_data takes the next message *)
| LBeat                (* heartbeat *)
| LConsume             (* one turn of the consumer's inner loop *)
| LConsumed            (* the consumer finds the queue empty *)
| LStagedDone          (* the staged tasks have all finished *)
| LWake                (* the consumer's sleep is over *)
| LTask (i : nat)      (* the coroutine of task i is resumed *)
| LWork (i : nat)      (* the worker thread of task i finishes its function *)
| LMon                 (* one turn of the monitor *)
| LSim                 (* one step of the simulation thread *)
| LStop.               (* the event loop stops *)

(** What can be observed, in order. *)
Inductive event :=
| EvQueued (a : act)           (* an action asked for by the client is put on the action queue *)
| EvRepeated (a : act)         (* a repeating action is put on the action queue *)
| EvStarted (a : act)          (* the consumer takes an action from it *)
| EvPaused | EvUnpaused        (* a pause, an unpause is performed *)
| EvRegister (ts : list string) | EvDeregister (ts : list string)
| EvPut (m : msg)              (* a message is put on the send queue *)
| EvSent (m : msg)             (* a message is sent to the client *)
| EvLost (m : msg)             (* a message is taken from the send queue and dropped *)
| EvClosed                     (* the client's connection ends *)
| EvStep                       (* a time step of the simulation ends *)
| EvStopped.                   (* the server ends *)

(** Field updates. *)
Definition w_aq x s := mksrv x (mq s) (tasks s) (staged s) (cons s) (mon s) (pausek s) (cancelled s)
  (registry s) (loaded s) (conn s) (orphans s) (sendq s) (sim s) (ndone s) (stopping s) (stopped s).
Definition w_mq x s := mksrv (aq s) x (tasks s) (staged s) (cons s) (mon s) (pausek s) (cancelled s)
  (registry s) (loaded s) (conn s) (orphans s) (sendq s) (sim s) (ndone s) (stopping s) (stopped s).
Definition w_tasks x s := mksrv (aq s) (mq s) x (staged s) (cons s) (mon s) (pausek s) (cancelled s)
  (registry s) (loaded s) (conn s) (orphans s) (sendq s) (sim s) (ndone s) (stopping s) (stopped s).
Definition w_cons st c s := mksrv (aq s) (mq s) (tasks s) st c (mon s) (pausek s) (cancelled s)
  (registry s) (loaded s) (conn s) (orphans s) (sendq s) (sim s) (ndone s) (stopping s) (stopped s).
Definition w_mon x s := mksrv (aq s) (mq s) (tasks s) (staged s) (cons s) x (pausek s) (cancelled s)
  (registry s) (loaded s) (conn s) (orphans s) (sendq s) (sim s) (ndone s) (stopping s) (stopped s).
Definition w_pause k c s := mksrv (aq s) (mq s) (tasks s) (staged s) (cons s) (mon s) k c
  (registry s) (loaded s) (conn s) (orphans s) (sendq s) (sim s) (ndone s) (stopping s) (stopped s).
Definition w_registry x s := mksrv (aq s) (mq s) (tasks s) (staged s) (cons s) (mon s) (pausek s)
  (cancelled s) x (loaded s) (conn s) (orphans s) (sendq s) (sim s) (ndone s) (stopping s) (stopped s).
Definition w_loaded x s := mksrv (aq s) (mq s) (tasks s) (staged s) (cons s) (mon s) (pausek s)
  (cancelled s) (registry s) x (conn s) (orphans s) (sendq s) (sim s) (ndone s) (stopping s) (stopped s).
Definition w_conn c o s := mksrv (aq s) (mq s) (tasks s) (staged s) (cons s) (mon s) (pausek s)
  (cancelled s) (registry s) (loaded s) c o (sendq s) (sim s) (ndone s) (stopping s) (stopped s).
Definition w_sendq x s := mksrv (aq s) (mq s) (tasks s) (staged s) (cons s) (mon s) (pausek s)
  (cancelled s) (registry s) (loaded s) (conn s) (orphans s) x (sim s) (ndone s) (stopping s) (stopped s).
Definition w_sim x n s := mksrv (aq s) (mq s) (tasks s) (staged s) (cons s) (mon s) (pausek s)
  (cancelled s) (registry s) (loaded s) (conn s) (orphans s) (sendq s) x n (stopping s) (stopped s).
Definition w_stop x y s := mksrv (aq s) (mq s) (tasks s) (staged s) (cons s) (mon s) (pausek s)
  (cancelled s) (registry s) (loaded s) (conn s) (orphans s) (sendq s) (sim s) (ndone s) x y.

Section Server.
(** What other code returns: the names of the tables in the file when so many time steps are done
    (cyclus/lib.pyx 262-279); what the worker function of a table request or of an annotations
    request returns, [None] for an exception (cyclus/actions.py 137-144, 189-202); whether the input
    file can be loaded (cyclus/simstate.py 132-139).  [rep] is state.repeating_actions, [dur] the
    number of time steps. *)
Variable names : nat -> list string.
Variable work : nat -> act -> option string.
Variable loads : bool.
Variable rep : list act.
Variable dur : nat.

(** A coroutine of the event loop can be resumed only when the loop runs and the consumer, which
    does not await in its inner loop (server.py 224-227), is not in the middle of it. *)
Definition loop_free (s : srv) : bool :=
  negb (stopped s) && match cons s with CPoll => false | _ => true end.

Definition set_task (i : nat) (a : act) (p : pc) (s : srv) : srv :=
  w_tasks (firstn i (tasks s) ++ (a, p) :: skipn (S i) (tasks s)) s.

(** Task [i] ends without a message (by returning, or by an exception, which asyncio.wait of
    server.py 230 does not raise). *)
Definition quiet_end (i : nat) (a : act) (s : srv) : srv := set_task i a (PEnd None) s.

(** send_message (actions.py 31-51) and the end of task [i]. *)
Definition end_with (i : nat) (a : act) (m : msg) (s : srv) : srv :=
  set_task i a (PEnd (Some m)) (w_sendq (sendq s ++ [m]) s).

(** unpause (actions.py 69-74) *)
Definition unpause (s : srv) : srv :=
  match pausek s with
  | Some i => w_pause None (i :: cancelled s) s
  | None => s
  end.

(** The coroutine of task [i] from one await to the next (actions.py 54-236).  [None]: it is not
    ready to be resumed. *)
Definition task_step (i : nat) (s : srv) : option (srv * list event) :=
  match nth_error (tasks s) i with
  | None => None
  | Some (a, p) =>
      match a, p with
      | _, PEnd _ => None
      | _, PWorker => None
      (* echo, 54-58 *)
      | AEcho x, PNew => Some (end_with i a (MEcho x) s, [EvPut (MEcho x)])
      (* pause, 61-66 *)
      | APause, PNew => Some (set_task i a PPaused (w_pause (Some i) (cancelled s) s), [EvPaused])
      | APause, PPaused =>
          if existsb (Nat.eqb i) (cancelled s) then Some (quiet_end i a s, []) else None
      (* unpause, 69-74, as an initial action (server.py 390-397) *)
      | AUnpause, PNew => Some (quiet_end i a (unpause s), [EvUnpaused])
      (* TypeError when the action function is called, actions.py 23 *)
      | AUnpauseArgs, PNew => Some (quiet_end i a s, [])
      | ABadArgs, PNew => Some (quiet_end i a s, [])
      (* register_tables, 105-114: send_registry() is called without its argument *)
      | ARegister ts, PNew =>
          if loaded s
          then Some (quiet_end i a (w_registry (set_union (registry s) ts) s), [EvRegister ts])
          else Some (quiet_end i a s, [])
      (* deregister_tables, 117-126: the same *)
      | ADeregister ts, PNew =>
          if loaded s
          then Some (quiet_end i a (w_registry (set_diff (registry s) ts) s), [EvDeregister ts])
          else Some (quiet_end i a s, [])
      (* send_registry_action, 93-102; before the load memory_backend is not a backend *)
      | ARegistry, PNew =>
          if loaded s
          then Some (end_with i a (MRegistry (registry s)) s, [EvPut (MRegistry (registry s))])
          else Some (quiet_end i a s, [])
      (* send_table_names, 129-134 *)
      | ANames, PNew =>
          if loaded s
          then Some (end_with i a (MNames (names (ndone s))) s, [EvPut (MNames (names (ndone s)))])
          else Some (quiet_end i a s, [])
      (* send_table_data 147-169, load 178-186, agent_annotations 205-219 *)
      | ATable _, PNew | AAnnot _, PNew | ALoad, PNew => Some (set_task i a PWorker s, [])
      | ATable q, PGot (Some d) => Some (end_with i a (MTable q d) s, [EvPut (MTable q d)])
      | AAnnot q, PGot (Some d) => Some (end_with i a (MAnnot q d) s, [EvPut (MAnnot q d)])
      | ALoad, PGot _ => Some (end_with i a MLoaded s, [EvPut MLoaded])
      | _, PGot _ => Some (quiet_end i a s, [])
      (* sleep, 172-175 *)
      | ASleep, PNew => Some (set_task i a PAsleep s, [])
      | _, PAsleep => Some (quiet_end i a s, [])
      (* shutdown, 222-236 *)
      | AShutdown true, PNew => Some (quiet_end i a (w_stop true (stopped s) s), [])
      | AShutdown false, PNew => Some (set_task i a PShut s, [])
      | _, PShut =>
          if Nat.leb (length (aq s)) 1
          then Some (quiet_end i a (w_stop true (stopped s) s), []) else None
      | _, PPaused => None
      end
  end.

(** The function a task runs on a worker thread (actions.py 164, 183, 214). *)
Definition work_step (i : nat) (s : srv) : option (srv * list event) :=
  match nth_error (tasks s) i with
  | Some (ALoad, PWorker) =>
      Some (set_task i ALoad (PGot None) (w_loaded (loaded s || loads) s), [])
  | Some (a, PWorker) => Some (set_task i a (PGot (work (ndone s) a)) s, [])
  | _ => None
  end.

(** action_monitor (server.py 235-244).  A TypeError of an unpause with parameters ends the
    coroutine, and with it the gather of server.py 416-422: the server ends. *)
Definition mon_step (s : srv) : option (srv * list event) :=
  match mon s with
  | MShut =>
      if Nat.leb (length (aq s)) 1
      then Some (w_mon MPoll (w_stop true (stopped s) s), []) else None
  | MPoll =>
      match mq s with
      | [] => None
      | AUnpause :: r => Some (unpause (w_mq r s), [EvUnpaused])
      | AShutdown true :: r => Some (w_stop true (stopped s) (w_mq r s), [])
      | AShutdown false :: r => Some (w_mon MShut (w_mq r s), [])
      | _ :: r => Some (w_stop true true (w_mq r s), [EvStopped])
      end
  end.

(** state.run (simstate.py 193-196, with no simulation there when it has not been loaded), the loop
    of timer.cc 22-55, and the hook of events.pyx 15-31. *)
Definition sim_step (s : srv) : option (srv * list event) :=
  match sim s with
  | SReady =>
      if loaded s
      then Some (w_sim (match dur with O => SDone | S _ => SCompute end) (ndone s) s, [])
      else Some (w_sim SFail (ndone s) s, [])
  | SCompute => Some (w_sim (SQueue rep) (ndone s) s, [])
  | SQueue [] => Some (w_sim SPause (ndone s) s, [])
  | SQueue (a :: r) =>
      if is_event a
      then Some (w_sim (SQueue r) (ndone s) (w_aq (aq s ++ [a]) s), [EvRepeated a])
      else Some (w_sim SFail (ndone s) s, [])                      (* KeyError, events.pyx 27 *)
  | SPause =>
      match pausek s with
      | Some _ => Some (s, [])
      | None => Some (w_sim SEmpty (ndone s) s, [])
      end
  | SEmpty =>
      match aq s with
      | _ :: _ => Some (w_sim SPause (ndone s) s, [])
      | [] => Some (w_sim (if Nat.ltb (S (ndone s)) dur then SCompute else SDone) (S (ndone s)) s,
                    [EvStep])
      end
  | SDone | SFail => None
  end.

(** One uninterrupted piece of the program. *)
Definition step (s : srv) (l : label) : option (srv * list event) :=
  match l with
  (* websocket_handler, server.py 270-288, and queue_message_action, 254-267 *)
  | LRecv a =>
      if loop_free s && conn s
      then if is_event a then Some (w_aq (aq s ++ [a]) s, [EvQueued a])
           else Some (w_mq (mq s ++ [a]) s, [])
      else None
  | LBad | LDisconnect =>
      (* an exception leaves the handler before send_task is cancelled, 279-280, 288 *)
      if loop_free s && conn s
      then Some (w_conn false (S (orphans s)) s, [EvClosed])
      else None
  | LConnect =>
      if loop_free s && negb (conn s) then Some (w_conn true (orphans s) s, []) else None
  | LSend =>
      if loop_free s && conn s
      then match sendq s with
           | [] => None
           | m :: r => Some (w_sendq r s, [EvSent m])
           end
      else None
  | LOrphan =>
      if loop_free s
      then match orphans s, sendq s with
           | S n, m :: r => Some (w_conn (conn s) n (w_sendq r s), [EvLost m])
           | _, _ => None
           end
      else None
  (* heartbeat, server.py 291-305 *)
  | LBeat => if loop_free s then Some (w_sendq (sendq s ++ [MBeat]) s, [EvPut MBeat]) else None
  (* action_consumer, server.py 220-232 *)
  | LConsume =>
      if stopped s then None else
      match cons s, aq s with
      | CPoll, a :: r =>
          Some (w_cons (staged s ++ [length (tasks s)]) CPoll
                  (w_tasks (tasks s ++ [(a, PNew)]) (w_aq r s)), [EvStarted a])
      | _, _ => None
      end
  | LConsumed =>
      if stopped s then None else
      match cons s, aq s with
      | CPoll, [] => Some (w_cons (staged s) (match staged s with [] => CSleep | _ => CWait end) s, [])
      | _, _ => None
      end
  | LStagedDone =>
      if stopped s then None else
      match cons s with
      | CWait =>
          if forallb (fun i => match nth_error (tasks s) i with
                               | Some (_, PEnd _) => true
                               | _ => false
                               end) (staged s)
          then Some (w_cons [] CSleep s, []) else None
      | _ => None
      end
  | LWake =>
      if stopped s then None else
      match cons s with CSleep => Some (w_cons (staged s) CPoll s, []) | _ => None end
  | LTask i => if loop_free s then task_step i s else None
  | LWork i => work_step i s
  | LMon => if loop_free s then mon_step s else None
  | LSim => sim_step s
  | LStop => if stopping s && loop_free s then Some (w_stop true true s, [EvStopped]) else None
  end.

(** A schedule; [None] when it asks for something that cannot happen then. *)
Fixpoint run (s : srv) (ls : list label) : option (srv * list event) :=
  match ls with
  | [] => Some (s, [])
  | l :: r =>
      match step s l with
      | None => None
      | Some (s1, e1) =>
          match run s1 r with
          | None => None
          | Some (s2, e2) => Some (s2, e1 ++ e2)
          end
      end
  end.

(** main (server.py 381-422): the initial actions are on the action queue, whatever they are, and
    nothing has been loaded ([ld = false]).  A program that calls state.load() before it starts the
    loop begins with [ld = true]. *)
Definition start (ld : bool) (initial : list act) : srv :=
  mksrv initial [] [] [] CPoll MPoll None [] [] ld false O [] SReady O false false.

End Server.
