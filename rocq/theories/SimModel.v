(** The simulation kernel: timer.cc/.h, agent.cc/.h, facility.cc, institution.cc, region.cc and the agent and
    scheduling part of context.cc/.h, as one state machine.

    Simplifications.
    - An agent's address is its index in a heap that only grows ("dead" agents stay in it, marked); addresses are not
      reused and are ordered by creation. Any use of a dead agent is undefined behaviour ([Undef]).
    - User code is arbitrary: each callback is a program ([prog]) of calls into the kernel chosen by a function of
      the whole simulation state, log included; it sees the results (exceptions too) of its calls and may raise.
      An override of EnterNotify is the base version followed by user code; an override of Decommission is user
      code followed by the base version; BuildNotify, DecomNotify, Tick, Tock and Decision are all user code
      (the default Institution::Tock is the call [CInstTock]); Build is not overridden.
    - CheckDecommissionCondition does not change the simulation. Clone is the generated one (a new agent of the same
      class initialised with InitFrom).
    - The loops over tickers are run sequentially (timer.cc without OpenMP).
    - Snapshot contents, explicit inventories, the event loop hook, version rows and logging are not modelled.
    - User code may not terminate; executions are followed for [fuel] nested steps and stop with [NoFuel] if
      that is not enough. Theorems hold for every [fuel]. *)
From Coq Require Import String List ZArith Bool Arith Lia.
From Verif Require Import Base.
Import ListNotations.
Local Open Scope Z_scope.

(** How a call ends. *)
Inductive out (A : Type) := Normal (a : A) | Raised (e : err) | Undef | NoFuel.
Arguments Normal {A} _. Arguments Raised {A} _. Arguments Undef {A}. Arguments NoFuel {A}.

(** The dynamic class of an agent: subclass of Facility, Institution, Region or of Agent alone. *)
Inductive kind := KFac | KInst | KRegion | KOther.
Definition kind_eqb (a b : kind) : bool :=
  match a, b with KFac, KFac | KInst, KInst | KRegion, KRegion | KOther, KOther => true | _, _ => false end.

(** class Agent, agent.h 440-474: id_, prototype_, spec_, lifetime_, enter_time_, parent_, parent_id_, children_;
    [a_shim] is IsShim() (time_listener.h 47). *)
Record agent := mkA {
  a_id : Z; a_kind : kind; a_shim : bool; a_proto : string; a_spec : string; a_life : Z;
  a_enter : Z; a_parent : option nat; a_pid : Z; a_kids : list nat; a_alive : bool }.

Inductive phase := PBuild | PTick | PExch | PTock | PDecide | PDecom.

(** What can be observed of a simulation: callbacks, calls and database rows, in order. *)
Inductive event :=
| EPhase (p : phase)                              (* a phase of the time step begins *)
| ESnap (l : list nat) (n : Z)                    (* SimInit::Snapshot: the agents recorded, Agent::next_id_ *)
| EFinish (early : bool) (last : Z)               (* row of Finish *)
| EQBuild (proto : string) (parent : option nat)  (* the timer starts a queued build *)
| EQDecom (a : nat)                               (* the timer starts a queued decommissioning *)
| ETick (a : nat) | ETock (a : nat) | EDecide (a : nat) | EExchange
| EReg (a : nat) | EUnreg (a : nat)               (* RegisterTimeListener, UnregisterTimeListener *)
| ESchedB (parent : option nat) (pid : Z) (proto : string) (t : Z)  (* row of BuildSchedule *)
| ESchedD (a : nat) (t : Z)                       (* row of DecomSchedule *)
| EKill
| ENew (a : nat)                                  (* an agent object is constructed *)
| ECreate (proto : string) (a : nat)              (* CreateAgent returns *)
| EProto (name : string) (a : nat)                (* row of Prototypes *)
| EBuild (a : nat) (parent : option nat)          (* Build is called *)
| EEntry (a : nat) (id : Z) (proto : string) (pid life enter : Z)  (* row of AgentEntry *)
| EBuildNotify (parent a : nat) | EDecomNotify (parent a : nat)
| EExit (a : nat) (id : Z) (t : Z)                (* row of AgentExit *)
| EDelete (a : nat).

(** The calls user code can make into the kernel. *)
Inductive cmd :=
| CReg (a : nat) | CUnreg (a : nat)
| CSchedB (parent : option nat) (proto : string) (t : Z)
| CSchedD (a : nat) (t : Z)
| CKill | CSnap
| CNew (k : kind) (shim : bool) (proto spec : string) (life : Z)
| CCreate (want : option kind) (proto : string)
| CAddProto (name : string) (a : nat) (overwrite : bool)
| CBuild (a : nat) (parent : option nat)
| CDecom (a : nat)
| CLife (a : nat) (n : Z) | CLifeForce (a : nat) (n : Z)
| CInstTock (a : nat).

Inductive prog :=
| Done
| Raise (e : err)
| Do (c : cmd) (k : result (option nat) -> prog).

Inductive hook :=
| HTick (a : nat) | HTock (a : nat) | HDecide (a : nat) | HExchange
| HEnter (a : nat) | HDecom (a : nat) | HBuildNotify (p a : nat) | HDecomNotify (p a : nat).

(** Timer, timer.h 95-121. *)
Record timer := mkT {
  tm : Z; dur : Z; killf : bool; snapf : bool;
  tmap : zmap nat; cpp : list nat; py : list nat;
  bq : zmap (list (string * option nat)); dq : zmap (list nat) }.
(** The agent-related part of Context, context.h 355-375, with the heap of agents and Agent::next_id_. *)
Record world := mkW {
  heap : list agent; nid : Z; alist : list nat; protos : list (string * nat);
  nproto : string -> Z; nspec : string -> Z; traders : list nat }.
Record sim := mkS { ti : timer; w : world; log : list (Z * event) }.

Definition emit (e : event) (s : sim) : sim := mkS (ti s) (w s) (log s ++ [(tm (ti s), e)]).
Definition with_ti (f : timer -> timer) (s : sim) : sim := mkS (f (ti s)) (w s) (log s).
Definition with_w (f : world -> world) (s : sim) : sim := mkS (ti s) (f (w s)) (log s).
Definition with_heap (f : list agent -> list agent) (x : world) : world :=
  mkW (f (heap x)) (nid x) (alist x) (protos x) (nproto x) (nspec x) (traders x).

(** Dereferencing an agent pointer. *)
Definition get (s : sim) (a : nat) : option agent :=
  match nth_error (heap (w s)) a with
  | Some x => if a_alive x then Some x else None
  | None => None
  end.
Definition set_agent (a : nat) (x : agent) (s : sim) : sim :=
  with_w (with_heap (fun h => upd h a x)) s.

(** std::set<T*>. *)
Fixpoint pins (x : nat) (l : list nat) : list nat :=
  match l with
  | [] => [x]
  | y :: t => if Nat.ltb x y then x :: l else if Nat.eqb x y then l else y :: pins x t
  end.
Definition pdel (x : nat) (l : list nat) : list nat := filter (fun y => negb (Nat.eqb y x)) l.

(** ** Sequencing *)
Definition M (A : Type) := sim -> out A * sim.
Definition ret {A} (a : A) : M A := fun s => (Normal a, s).
Definition bind {A B} (m : M A) (k : A -> M B) : M B := fun s =>
  match m s with
  | (Normal a, s1) => k a s1
  | (Raised e, s1) => (Raised e, s1)
  | (Undef, s1) => (Undef, s1)
  | (NoFuel, s1) => (NoFuel, s1)
  end.
Notation "x <- m ;; k" := (bind m (fun x => k)) (at level 61, m at next level, right associativity).
Notation "m ;; k" := (bind m (fun _ => k)) (at level 61, right associativity).
Definition modify (f : sim -> sim) : M unit := fun s => (Normal tt, f s).
Definition gets {A} (f : sim -> A) : M A := fun s => (Normal (f s), s).
Definition raise {A} (e : err) : M A := fun s => (Raised e, s).
Definition undef {A} : M A := fun s => (Undef, s).
Definition deref (a : nat) : M agent := fun s =>
  match get s a with Some x => (Normal x, s) | None => (Undef, s) end.
Fixpoint each {A} (f : A -> M unit) (l : list A) : M unit :=
  match l with [] => ret tt | x :: t => f x ;; each f t end.

(** ** Timer *)

(** Timer::RegisterTimeListener, timer.cc 193-200 (context.cc 349-351). *)
Definition register (a : nat) : M unit :=
  x <- deref a ;;
  modify (fun s => emit (EReg a) (with_ti (fun t =>
    mkT (tm t) (dur t) (killf t) (snapf t) (zset (a_id x) a (tmap t))
        (if a_shim x then cpp t else cpp t ++ [a]) (if a_shim x then py t ++ [a] else py t) (bq t) (dq t)) s)).
(** Timer::UnregisterTimeListener, timer.cc 202-215. *)
Definition unregister (a : nat) : M unit :=
  x <- deref a ;;
  modify (fun s => emit (EUnreg a) (with_ti (fun t =>
    mkT (tm t) (dur t) (killf t) (snapf t) (zerase (a_id x) (tmap t))
        (if a_shim x then cpp t else pdel a (cpp t)) (if a_shim x then pdel a (py t) else py t) (bq t) (dq t)) s)).

Definition qpush {A} (t : Z) (x : A) (q : zmap (list A)) : zmap (list A) :=
  zset t (match zfind t q with Some l => l ++ [x] | None => [x] end) q.

(** Timer::SchedBuild, timer.cc 217-222. *)
Definition timer_sched_build (parent : option nat) (proto : string) (t : Z) : M unit := fun s =>
  if Z.leb t (tm (ti s)) then (Raised ValueError, s)
  else (Normal tt, with_ti (fun x =>
    mkT (tm x) (dur x) (killf x) (snapf x) (tmap x) (cpp x) (py x) (qpush t (proto, parent) (bq x)) (dq x)) s).
(** Context::SchedBuild, context.cc 123-138. *)
Definition sched_build (parent : option nat) (proto : string) (t : Z) : M unit :=
  now <- gets (fun s => tm (ti s)) ;;
  let t := if Z.eqb t (-1) then now + 1 else t in
  pid <- match parent with
         | Some p => x <- deref p ;; ret (a_id x)
         | None => ret (-1)
         end ;;
  timer_sched_build parent proto t ;;
  modify (emit (ESchedB parent pid proto t)).

(** The search of Timer::SchedDecom, timer.cc 236-250: the first entry for [m], in queue order, is removed. *)
Fixpoint remove_first (m : nat) (l : list nat) : list nat :=
  match l with
  | [] => []
  | x :: t => if Nat.eqb x m then t else x :: remove_first m t
  end.
Fixpoint drop_decom (m : nat) (q : zmap (list nat)) : zmap (list nat) :=
  match q with
  | [] => []
  | (t, l) :: rest => if existsb (Nat.eqb m) l then (t, remove_first m l) :: rest else (t, l) :: drop_decom m rest
  end.
(** Timer::SchedDecom, timer.cc 224-253. *)
Definition timer_sched_decom (m : nat) (t : Z) : M unit := fun s =>
  if Z.ltb t (tm (ti s)) then (Raised ValueError, s)
  else (Normal tt, with_ti (fun x =>
    mkT (tm x) (dur x) (killf x) (snapf x) (tmap x) (cpp x) (py x) (bq x) (qpush t m (drop_decom m (dq x)))) s).
(** Context::SchedDecom, context.cc 140-153 (m->id() is read for the row). *)
Definition sched_decom (m : nat) (t : Z) : M unit :=
  now <- gets (fun s => tm (ti s)) ;;
  let t := if Z.eqb t (-1) then now else t in
  timer_sched_decom m t ;;
  deref m ;;
  modify (emit (ESchedD m t)).

(** timer.h 50-53 (context.cc 363-369). *)
Definition kill_sim : M unit := modify (fun s => emit EKill (with_ti (fun x =>
  mkT (tm x) (dur x) true (snapf x) (tmap x) (cpp x) (py x) (bq x) (dq x)) s)).
Definition want_snapshot : M unit := modify (with_ti (fun x =>
  mkT (tm x) (dur x) (killf x) true (tmap x) (cpp x) (py x) (bq x) (dq x))).

(** ** Agents *)

(** Agent::Agent, agent.cc 59-70, followed by the setters for prototype, spec and lifetime. *)
Definition construct (k : kind) (shim : bool) (proto spec : string) (life : Z) : M nat := fun s =>
  let a := length (heap (w s)) in
  (Normal a, emit (ENew a) (with_w (fun x =>
     mkW (heap x ++ [mkA (nid x) k shim proto spec life (-1) None (-1) [] true]) (nid x + 1) (pins a (alist x))
         (protos x) (nproto x) (nspec x) (traders x)) s)).

(** Agent::~Agent, agent.cc 72-96. *)
Definition set_parent (p : option nat) (pid : Z) (x : agent) : agent :=
  mkA (a_id x) (a_kind x) (a_shim x) (a_proto x) (a_spec x) (a_life x) (a_enter x) p pid (a_kids x) (a_alive x).
Definition set_kids (l : list nat) (x : agent) : agent :=
  mkA (a_id x) (a_kind x) (a_shim x) (a_proto x) (a_spec x) (a_life x) (a_enter x) (a_parent x) (a_pid x) l (a_alive x).
Definition set_enter (t : Z) (x : agent) : agent :=
  mkA (a_id x) (a_kind x) (a_shim x) (a_proto x) (a_spec x) (a_life x) t (a_parent x) (a_pid x) (a_kids x) (a_alive x).
Definition set_life (n : Z) (x : agent) : agent :=
  mkA (a_id x) (a_kind x) (a_shim x) (a_proto x) (a_spec x) n (a_enter x) (a_parent x) (a_pid x) (a_kids x) (a_alive x).
Definition set_dead (x : agent) : agent :=
  mkA (a_id x) (a_kind x) (a_shim x) (a_proto x) (a_spec x) (a_life x) (a_enter x) (a_parent x) (a_pid x) (a_kids x) false.
Definition modify_agent (a : nat) (f : agent -> agent) : M unit :=
  x <- deref a ;; modify (set_agent a (f x)).
Definition destroy (a : nat) : M unit :=
  x <- deref a ;;
  match a_parent x with
  | Some p => modify_agent p (fun y => set_kids (pdel a (a_kids y)) y)
  | None => ret tt
  end ;;
  each (fun c => modify_agent c (set_parent None (-1))) (a_kids x) ;;
  modify_agent a set_dead ;;
  modify (emit (EDelete a)).
(** Context::DelAgent, context.cc 114-121. *)
Definition del_agent (a : nat) : M unit :=
  inlist <- gets (fun s => existsb (Nat.eqb a) (alist (w s))) ;;
  if inlist then
    modify (with_w (fun x => mkW (heap x) (nid x) (pdel a (alist x)) (protos x) (nproto x) (nspec x) (traders x))) ;;
    destroy a
  else ret tt.

(** Context::RegisterAgent, UnregisterAgent, context.h 342-352. *)
Definition bump (n : string) (d : Z) (f : string -> Z) : string -> Z :=
  fun m => if String.eqb m n then f m + d else f m.
Definition count_agent (x : agent) (d : Z) : M unit := modify (with_w (fun y =>
  mkW (heap y) (nid y) (alist y) (protos y) (bump (a_proto x) d (nproto y)) (bump (a_spec x) d (nspec y)) (traders y))).
Definition set_traders (f : list nat -> list nat) : M unit := modify (with_w (fun y =>
  mkW (heap y) (nid y) (alist y) (protos y) (nproto y) (nspec y) (f (traders y)))).

(** Context::AddPrototype, context.cc 163-186. *)
Fixpoint sfind (n : string) (l : list (string * nat)) : option nat :=
  match l with [] => None | (k, a) :: t => if String.eqb n k then Some a else sfind n t end.
Definition add_prototype (name : string) (a : nat) (overwrite : bool) : M unit :=
  known <- gets (fun s => match sfind name (protos (w s)) with Some _ => true | None => false end) ;;
  if negb overwrite && known then raise KeyError
  else
    deref a ;;
    modify (fun s => emit (EProto name a) (with_w (fun y =>
      mkW (heap y) (nid y) (alist y) ((name, a) :: protos y) (nproto y) (nspec y) (traders y)) s)).

(** Context::CreateAgent<T>, context.h 191-219: [want] is the class T ([None]: Agent). Clone makes a new
    agent of the class of the prototype and calls Agent::InitFrom(Agent* ), agent.cc 19-25. *)
Definition create_agent (want : option kind) (name : string) : M nat :=
  found <- gets (fun s => sfind name (protos (w s))) ;;
  match found with
  | None => raise KeyError
  | Some p =>
      x <- deref p ;;
      a <- construct (a_kind x) (a_shim x) (a_proto x) (a_spec x) (a_life x) ;;
      match want with
      | Some k => if kind_eqb k (a_kind x) then modify (emit (ECreate name a)) ;; ret a
                  else del_agent a ;; raise CastError
      | None => modify (emit (ECreate name a)) ;; ret a
      end
  end.

(** Agent::lifetime(int), agent.cc 110-115, and Agent::lifetime_force, agent.cc 117-129. *)
Definition set_lifetime (a : nat) (n : Z) : M unit :=
  x <- deref a ;;
  if Z.eqb (a_enter x) (-1) then modify (set_agent a (set_life n x)) else raise ValueError.
Definition lifetime_force (a : nat) (n : Z) : M unit :=
  x <- deref a ;;
  if Z.eqb (a_enter x) (-1) then modify (set_agent a (set_life n x))
  else
    now <- gets (fun s => tm (ti s)) ;;
    if Z.leb (a_enter x + n) now then set_lifetime a (now - a_enter x + 1)
    else modify (set_agent a (set_life n x)).

(** Agent::exit_time, agent.h 413-417. *)
Definition exit_time (x : agent) : Z := if Z.eqb (a_life x) (-1) then -1 else a_enter x + a_life x - 1.

(** Agent::Connect, agent.cc 176-186. *)
Definition connect (a : nat) (parent : option nat) : M unit :=
  match parent with
  | Some p =>
      if Nat.eqb p a then raise KeyError
      else
        y <- deref p ;;
        modify_agent a (set_parent (Some p) (a_id y)) ;;
        modify_agent p (fun y => set_kids (pins a (a_kids y)) y)
  | None => ret tt
  end.

(** The base class versions of EnterNotify: agent.cc 172-174, facility.cc 35-39, institution.cc 40-42, region.cc
    28-30. *)
Definition enter_notify (a : nat) : M unit :=
  x <- deref a ;;
  match a_kind x with
  | KFac => count_agent x 1 ;; set_traders (pins a) ;; register a
  | KInst | KRegion => register a
  | KOther => count_agent x 1
  end.

Section User.
(** The user code, and CheckDecommissionCondition. *)
Variable beh : hook -> sim -> prog.
Variable cond : nat -> sim -> bool.

(** Institution::Tock, institution.cc 49-62. *)
Definition inst_tock (i : nat) : M unit :=
  x <- deref i ;;
  each (fun c =>
    y <- deref c ;;
    now <- gets (fun s => tm (ti s)) ;;
    if negb (Z.eqb (a_life y) (-1)) && Z.leb (exit_time y) now then
      ok <- gets (cond c) ;;
      if negb (kind_eqb (a_kind y) KFac) || ok then sched_decom c (-1) else ret tt
    else ret tt) (a_kids x).

(** Agent::Decommission, agent.cc 188-197, and its overrides in facility.cc 50-58, institution.cc 44-47, region.cc 32-35. *)
Definition base_decom (a : nat) : M unit :=
  x <- deref a ;;
  now <- gets (fun s => tm (ti s)) ;;
  modify (emit (EExit a (a_id x) now)) ;;
  count_agent x (-1) ;;
  del_agent a.
Definition kind_decom (a : nat) : M unit :=
  x <- deref a ;;
  match a_kind x with
  | KFac =>
      ok <- gets (cond a) ;;
      if ok then set_traders (pdel a) ;; unregister a ;; base_decom a else raise PlainError
  | KInst | KRegion => unregister a ;; base_decom a
  | KOther => base_decom a
  end.

(** Running user code, at most [fuel] steps deep. A program stops at undefined behaviour; exceptions are values
    it can inspect. Agent::Build is agent.cc 159-170. *)
Fixpoint exec (fuel : nat) (p : prog) {struct fuel} : M unit :=
  match fuel with
  | O => fun s => (NoFuel, s)
  | S f =>
      match p with
      | Done => ret tt
      | Raise e => raise e
      | Do c k => fun s =>
          match
            (match c with
             | CReg a => register a ;; ret None
             | CUnreg a => unregister a ;; ret None
             | CSchedB p n t => sched_build p n t ;; ret None
             | CSchedD a t => sched_decom a t ;; ret None
             | CKill => kill_sim ;; ret None
             | CSnap => want_snapshot ;; ret None
             | CNew k sh pr sp l => a <- construct k sh pr sp l ;; ret (Some a)
             | CCreate want n => a <- create_agent want n ;; ret (Some a)
             | CAddProto n a ov => add_prototype n a ov ;; ret None
             | CBuild a p => 
                 (modify (emit (EBuild a p)) ;;
                  deref a ;;
                  connect a p ;;
                  now <- gets (fun s => tm (ti s)) ;;
                  modify_agent a (set_enter now) ;;
                  enter_notify a ;;
                  prg <- gets (beh (HEnter a)) ;;
                  exec f prg ;;
                  x <- deref a ;;
                  modify (emit (EEntry a (a_id x) (a_proto x) (a_pid x) (a_life x) (a_enter x)))) ;; ret None
             | CDecom a =>
                 (deref a ;;
                  prg <- gets (beh (HDecom a)) ;;
                  exec f prg ;;
                  kind_decom a) ;; ret None
             | CLife a n => set_lifetime a n ;; ret None
             | CLifeForce a n => lifetime_force a n ;; ret None
             | CInstTock a => inst_tock a ;; ret None
             end) s
          with
          | (Normal v, s1) => exec f (k (Ok v)) s1
          | (Raised e, s1) => exec f (k (Throw e)) s1
          | (Undef, s1) => (Undef, s1)
          | (NoFuel, s1) => (NoFuel, s1)
          end
      end
  end.

(** A virtual call on agent [a]: the object must exist. *)
Definition call (fuel : nat) (a : nat) (h : hook) : M unit :=
  deref a ;; prg <- gets (beh h) ;; exec fuel prg.
(** A call from the kernel whose exceptions pass through. *)
Definition do_cmd (fuel : nat) (c : cmd) : M unit :=
  exec fuel (Do c (fun r => match r with Throw e => Raise e | _ => Done end)).

(** Timer::DoBuild, timer.cc 65-80. *)
Definition do_build (fuel : nat) : M unit :=
  l <- gets (fun s => match zfind (tm (ti s)) (bq (ti s)) with Some l => l | None => [] end) ;;
  each (fun x =>
    modify (emit (EQBuild (fst x) (snd x))) ;;
    a <- create_agent None (fst x) ;;
    do_cmd fuel (CBuild a (snd x)) ;;
    match snd x with
    | Some p => deref p ;; modify (emit (EBuildNotify p a)) ;; call fuel p (HBuildNotify p a)
    | None => ret tt
    end) l.

(** The range-for over py_tickers_, timer.cc 85-87 and 102-104: the vector must not change. *)
Definition reg_shim (s : sim) (e : Z * event) : bool :=
  match snd e with
  | EReg a => match nth_error (heap (w s)) a with Some x => a_shim x | None => true end
  | _ => false
  end.
Definition same_list (l l' : list nat) : bool := if list_eq_dec Nat.eq_dec l l' then true else false.
Definition py_loop (fuel : nat) (ev : nat -> event) (h : nat -> hook) : M unit :=
  l <- gets (fun s => py (ti s)) ;;
  each (fun a =>
    deref a ;;
    modify (emit (ev a)) ;;
    s0 <- gets (fun s => s) ;;
    call fuel a (h a) ;;
    s1 <- gets (fun s => s) ;;
    if same_list (py (ti s1)) l && negb (existsb (reg_shim s1) (skipn (length (log s0)) (log s1)))
    then ret tt else undef) l.

(** The indexed loop over cpp_tickers_, timer.cc 90-92 and 107-109: its bound is re-read. *)
Fixpoint cpp_loop (fuel n : nat) (i : nat) (ev : nat -> event) (h : nat -> hook) : M unit :=
  match n with
  | O => fun s => (NoFuel, s)
  | S m =>
      x <- gets (fun s => nth_error (cpp (ti s)) i) ;;
      match x with
      | None => ret tt
      | Some a => deref a ;; modify (emit (ev a)) ;; call fuel a (h a) ;; cpp_loop fuel m (S i) ev h
      end
  end.
(** Timer::DoTick, timer.cc 83-93; Timer::DoTock, timer.cc 101-110. *)
Definition do_tick (fuel : nat) : M unit := py_loop fuel ETick HTick ;; cpp_loop fuel fuel 0 ETick HTick.
Definition do_tock (fuel : nat) : M unit := py_loop fuel ETock HTock ;; cpp_loop fuel fuel 0 ETock HTock.

(** Timer::DoResEx, timer.cc 95-99: the exchanges call back into the traders. *)
Definition do_exchange (fuel : nat) : M unit :=
  modify (emit EExchange) ;; prg <- gets (beh HExchange) ;; exec fuel prg.

(** Timer::DoDecision, timer.cc 124-130: iteration over a std::map that may grow; erasing the current entry
    invalidates the iterator. *)
Fixpoint next_key {V} (k : Z) (m : zmap V) : option (Z * V) :=
  match m with [] => None | (k', v) :: t => if Z.ltb k k' then Some (k', v) else next_key k t end.
Definition unreg_id (s : sim) (k : Z) (e : Z * event) : bool :=
  match snd e with
  | EUnreg a => match nth_error (heap (w s)) a with Some x => Z.eqb (a_id x) k | None => true end
  | _ => false
  end.
Fixpoint decide_loop (fuel n : nat) (cur : option (Z * nat)) : M unit :=
  match n with
  | O => fun s => (NoFuel, s)
  | S m =>
      match cur with
      | None => ret tt
      | Some (k, a) =>
          deref a ;;
          modify (emit (EDecide a)) ;;
          s0 <- gets (fun s => s) ;;
          call fuel a (HDecide a) ;;
          s1 <- gets (fun s => s) ;;
          if existsb (unreg_id s1 k) (skipn (length (log s0)) (log s1)) then undef
          else decide_loop fuel m (next_key k (tmap (ti s1)))
      end
  end.
Definition do_decision (fuel : nat) : M unit :=
  m <- gets (fun s => tmap (ti s)) ;;
  decide_loop fuel fuel (match m with [] => None | e :: _ => Some e end).

(** Timer::DoDecom, timer.cc 181-191. *)
Definition do_decom (fuel : nat) : M unit :=
  l <- gets (fun s => match zfind (tm (ti s)) (dq (ti s)) with Some l => l | None => [] end) ;;
  each (fun a =>
    modify (emit (EQDecom a)) ;;
    x <- deref a ;;
    match a_parent x with
    | Some p => modify (emit (EDecomNotify p a)) ;; call fuel p (HDecomNotify p a)
    | None => ret tt
    end ;;
    do_cmd fuel (CDecom a)) l.

Definition body (p : phase) (fuel : nat) : M unit :=
  match p with
  | PBuild => do_build fuel | PTick => do_tick fuel | PExch => do_exchange fuel
  | PTock => do_tock fuel | PDecide => do_decision fuel | PDecom => do_decom fuel
  end.
Definition do_phase (fuel : nat) (p : phase) : M unit := modify (emit (EPhase p)) ;; body p fuel.

(** The part of SimInit::Snapshot, sim_init.cc 75-105, that concerns agents: the state of every agent in agent_list_
    that has entered is recorded (SnapAgent), and Agent::next_id_. *)
Definition snapped (s : sim) : list nat :=
  filter (fun a => match nth_error (heap (w s)) a with Some x => negb (Z.eqb (a_enter x) (-1)) | None => false end) (alist (w s)).
Definition snapshot (s : sim) : sim := emit (ESnap (snapped s) (nid (w s))) s.

(** Timer::RunSim, timer.cc 19-63. [n] bounds the number of steps; as time_ grows by one in each, the difference
    of duration and start time is enough. *)
Definition step (fuel : nat) : M unit :=
  snap <- gets (fun s => snapf (ti s)) ;;
  (if snap then
     modify (with_ti (fun x => mkT (tm x) (dur x) (killf x) false (tmap x) (cpp x) (py x) (bq x) (dq x))) ;;
     modify snapshot
   else ret tt) ;;
  do_phase fuel PBuild ;; do_phase fuel PTick ;; do_phase fuel PExch ;;
  do_phase fuel PTock ;; do_phase fuel PDecide ;; do_phase fuel PDecom ;;
  modify (with_ti (fun x => mkT (tm x + 1) (dur x) (killf x) (snapf x) (tmap x) (cpp x) (py x) (bq x) (dq x))).
Fixpoint steps (n : nat) (fuel : nat) : M unit :=
  match n with
  | O => ret tt
  | S m =>
      go <- gets (fun s => Z.ltb (tm (ti s)) (dur (ti s))) ;;
      if go then
        step fuel ;;
        kill <- gets (fun s => killf (ti s)) ;;
        if kill then ret tt else steps m fuel
      else ret tt
  end.
Definition run_sim (fuel : nat) : M unit :=
  n <- gets (fun s => Z.to_nat (dur (ti s) - tm (ti s))) ;;
  steps n fuel ;;
  modify (fun s => emit (EFinish (killf (ti s)) (tm (ti s) - 1)) s) ;;
  modify snapshot.

(** A whole simulation: the context is set up by calls to the same interface, then run. The timer starts at [t0]
    (Timer::Initialize, timer.cc 268-281: 0 or the branch time). *)
Definition sim0 (t0 d : Z) : sim :=
  mkS (mkT t0 d false false [] [] [] [] []) (mkW [] 0 [] [] (fun _ => 0) (fun _ => 0) []) [].
Definition simulate (fuel : nat) (setup : prog) (t0 d : Z) : out unit * sim :=
  (exec fuel setup ;; run_sim fuel) (sim0 t0 d).
End User.
