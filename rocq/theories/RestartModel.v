(** * Model of SimInit: what Snapshot and the kernel write, and what Init and Restart read back.

    Definitions only. The database is the list of rows of each table; a table exists from its first row on. All rows
    belong to one simulation, so the SimId condition of sim_init.cc 58-60 is left out (CondInjector is modelled in
    QueryModel). Agents are written as their ids, and an Agent* to a loaded agent as the number of its id. *)
From Coq Require Import String List ZArith Bool Arith Lia.
From Verif Require Import Base SimModel.
Import ListNotations.
Local Open Scope Z_scope.

Section Content.
(** What an agent records about itself in a snapshot (tables AgentState...: prototype, lifetime and the state
    variables of its archetype), and reads back in InitFrom. *)
Context {C : Type}.

(** Row of AgentEntry, agent.cc 226-236 (columns Kind, Spec and Lifetime are not needed here). *)
Record erow := mkE { e_id : Z; e_proto : string; e_pid : Z; e_enter : Z }.

(** The tables SimInit reads. *)
Record db := mkDb {
  t_entry : option (list erow);                        (* AgentEntry *)
  t_exit : option (list (Z * Z));                      (* AgentExit: AgentId, ExitTime *)
  t_build : option (list (Z * string * Z));            (* BuildSchedule: ParentId, Prototype, BuildTime *)
  t_decom : option (list (Z * Z));                     (* DecomSchedule: AgentId, DecomTime *)
  t_state : option (list (Z * Z * C));                 (* AgentState...: AgentId, SimTime, contents *)
  t_inv : option (list (Z * Z * string * Z));          (* AgentStateInventories: AgentId, SimTime, InventoryName, ResourceId *)
  t_next : option (list (Z * string * Z)) }.           (* NextIds: Time, Object, NextId *)

(** ** What is written *)
Section Write.
(** Agent::Snapshot and SnapshotInv of the agents (user code), and the counters other than Agent::next_id_ at the
    time of the snapshot. *)
Variable content : nat -> Z -> C.
Variable inv : nat -> Z -> list (string * list Z).
Variable counter : string -> Z -> Z.

Definition entry_rows (x : Z * event) : list erow :=
  match snd x with EEntry _ id pr pid _ en => [mkE id pr pid en] | _ => [] end.
(** agent.cc 185-188. *)
Definition exit_rows (x : Z * event) : list (Z * Z) :=
  match snd x with EExit _ id t => [(id, t)] | _ => [] end.
(** context.cc 131-136. *)
Definition build_rows (x : Z * event) : list (Z * string * Z) :=
  match snd x with ESchedB _ pid n t => [(pid, n, t)] | _ => [] end.
(** context.cc 147-151. *)
Definition decom_rows (x : Z * event) : list (Z * Z) :=
  match snd x with ESchedD a t => [(Z.of_nat a, t)] | _ => [] end.
(** SimInit::SnapAgent, sim_init.cc 122-144. *)
Definition snap_inv (a : nat) (t : Z) : list (Z * Z * string * Z) :=
  flat_map (fun p => map (fun r => (Z.of_nat a, t, fst p, r)) (snd p)) (inv a t).
(** SimInit::Snapshot, sim_init.cc 75-120. *)
Definition state_rows (x : Z * event) : list (Z * Z * C) :=
  match snd x with ESnap l _ => map (fun a => (Z.of_nat a, fst x, content a (fst x))) l | _ => [] end.
Definition inv_rows (x : Z * event) : list (Z * Z * string * Z) :=
  match snd x with ESnap l _ => flat_map (fun a => snap_inv a (fst x)) l | _ => [] end.
Definition next_rows (x : Z * event) : list (Z * string * Z) :=
  match snd x with
  | ESnap _ n =>
      [(fst x, "Agent"%string, n)] ++
      map (fun o => (fst x, o, counter o (fst x)))
        ["Transaction"; "Composition"; "ResourceState"; "ResourceObj"; "Product"]%string
  | _ => []
  end.
(** A table exists once a row was written. *)
Definition table {A} (l : list A) : option (list A) := match l with [] => None | _ => Some l end.
Definition db_of (l : list (Z * event)) : db :=
  mkDb (table (flat_map entry_rows l)) (table (flat_map exit_rows l)) (table (flat_map build_rows l))
       (table (flat_map decom_rows l)) (table (flat_map state_rows l)) (table (flat_map inv_rows l))
       (table (flat_map next_rows l)).
End Write.

(** ** What is read *)

(** An agent made by LoadInitialAgents. *)
Record lagent := mkL { l_id : Z; l_proto : string; l_enter : Z; l_parent : option Z; l_state : C }.

(** The query for exit rows, sim_init.cc 398-407 (a missing table is no obstacle). *)
Definition gone (t id : Z) (d : db) : bool :=
  match t_exit d with
  | Some l => existsb (fun r => Z.eqb (fst r) id && Z.ltb (snd r) t) l
  | None => false
  end.
(** InitFrom, agent.cc 45-50, through the injectors of sim_init.cc 423-430: the row of the agent at time [t].
    GetVal throws if there is none (query_backend.h 457). *)
Definition own_state (t id : Z) (d : db) : result C :=
  match t_state d with
  | None => Throw IOError
  | Some l =>
      match filter (fun r => Z.eqb (fst (fst r)) id && Z.eqb (snd (fst r)) t) l with
      | [] => Throw StateError
      | r :: _ => Ok (snd r)
      end
  end.
(** The loop of sim_init.cc 391-431. [unbuilt] and parentmap have the same keys and are kept together. *)
Fixpoint load_entries (t : Z) (d : db) (rows : list erow) (unbuilt : zmap (Z * lagent)) : result (zmap (Z * lagent)) :=
  match rows with
  | [] => Ok unbuilt
  | r :: rest =>
      if Z.ltb 0 t && Z.eqb (e_enter r) t then load_entries t d rest unbuilt
      else if gone t (e_id r) d then load_entries t d rest unbuilt
      else
        match own_state t (e_id r) d with
        | Ok c => load_entries t d rest (zset (e_id r) (e_pid r, mkL (e_id r) (e_proto r) (e_enter r) None c) unbuilt)
        | Throw e => Throw e
        | UB => UB
        end
  end.
(** sim_init.cc 384-388: the rows up to time [t]. *)
Definition load_unbuilt (t : Z) (d : db) : result (zmap (Z * lagent)) :=
  match t_entry d with
  | None => Throw IOError
  | Some rows => load_entries t d (filter (fun r => Z.leb (e_enter r) t) rows) []
  end.

(** Agent::Connect, agent.cc 176-186, for a loaded agent. *)
Definition connect_to (p : option Z) (m : lagent) : lagent := mkL (l_id m) (l_proto m) (l_enter m) p (l_state m).
(** The loop of sim_init.cc 434-459: [seen] are the keys of unbuilt before the iterator, [ahead] those from it on.
    [None]: not finished after [fuel] iterations. *)
Fixpoint build_tree (fuel : nat) (seen ahead : zmap (Z * lagent)) (agents : zmap lagent) (enter : list Z) : option (zmap lagent * list Z) :=
  match fuel with
  | O => None
  | Datatypes.S f =>
      match ahead with
      | [] => Some (agents, enter)
      | (id, (pid, m)) :: rest =>
          let '(seen1, agents1, enter1) :=
            if Z.eqb pid (-1) then (seen, zset id (connect_to None m) agents, enter ++ [id])
            else match zfind pid agents with
                 | Some _ => (seen, zset id (connect_to (Some pid) m) agents, enter ++ [id])
                 | None => (seen ++ [(id, (pid, m))], agents, enter)
                 end in
          match rest with
          | [] => build_tree f [] seen1 agents1 enter1
          | _ => build_tree f seen1 rest agents1 enter1
          end
      end
  end.
(** SimInit::LoadInitialAgents, sim_init.cc 378-463: the agents, and the order in which EnterNotify is called. *)
Definition load_agents (fuel : nat) (t : Z) (d : db) : result (option (zmap lagent * list Z)) :=
  match load_unbuilt t d with
  | Ok m => Ok (build_tree fuel [] m [] [])
  | Throw e => Throw e
  | UB => UB
  end.

(** SimInit::LoadInventories, sim_init.cc 465-485, for one agent: the resources to load, by inventory name. *)
Fixpoint add_inv (n : string) (r : Z) (m : list (string * list Z)) : list (string * list Z) :=
  match m with
  | [] => [(n, [r])]
  | (k, l) :: rest => if String.eqb k n then (k, l ++ [r]) :: rest else (k, l) :: add_inv n r rest
  end.
Definition load_inventory (t id : Z) (d : db) : list (string * list Z) :=
  match t_inv d with
  | None => []
  | Some l => fold_left (fun m r => add_inv (snd (fst r)) (snd r) m)
                (filter (fun r => Z.eqb (snd (fst (fst r))) t && Z.eqb (fst (fst (fst r))) id) l) []
  end.

(** agents_[id]: the pointer, NULL if there is none. *)
Definition pointer (agents : zmap lagent) (id : Z) : option nat :=
  match zfind id agents with Some _ => Some (Z.to_nat id) | None => None end.
(** SimInit::LoadBuildSched, sim_init.cc 487-501, with Timer::SchedBuild, timer.cc 217-222, at time [now]. *)
Definition load_builds (now t : Z) (d : db) (agents : zmap lagent) : result (zmap (list (string * option nat))) :=
  match t_build d with
  | None => Ok []
  | Some l =>
      fold_left (fun q r =>
        match q with
        | Ok q => if Z.leb (snd r) now then Throw ValueError
                  else Ok (qpush (snd r) (snd (fst r), pointer agents (fst (fst r))) q)
        | _ => q
        end) (filter (fun r => Z.ltb t (snd r)) l) (Ok [])
  end.
(** SimInit::LoadDecomSched, sim_init.cc 503-516, with Context::SchedDecom, context.cc 140-153, which reads the id
    of the agent through its pointer, and Timer::SchedDecom, timer.cc 224-253. *)
Definition load_decoms (now t : Z) (d : db) (agents : zmap lagent) : result (zmap (list nat)) :=
  match t_decom d with
  | None => Ok []
  | Some l =>
      fold_left (fun q r =>
        match q with
        | Ok q => if Z.ltb (snd r) now then Throw ValueError
                  else match pointer agents (fst r) with
                       | None => UB
                       | Some m => Ok (qpush (snd r) m (drop_decom m q))
                       end
        | _ => q
        end) (filter (fun r => Z.leb t (snd r)) l) (Ok [])
  end.
(** SimInit::LoadNextIds, sim_init.cc 518-540: [ids] are the counters before, by object name. *)
Definition known_object (o : string) : bool :=
  existsb (String.eqb o) ["Agent"; "Transaction"; "Composition"; "ResourceState"; "ResourceObj"; "Product"]%string.
Definition load_next (t : Z) (d : db) (ids : string -> Z) : result (string -> Z) :=
  match t_next d with
  | None => Throw IOError
  | Some l =>
      fold_left (fun r row =>
        match r with
        | Ok f => if known_object (snd (fst row)) then
                    Ok (fun o => if String.eqb o (snd (fst row)) then snd row else f o)
                  else Throw IOError
        | _ => r
        end) (filter (fun row => Z.eqb (fst (fst row)) t) l) (Ok ids)
  end.

(** SimInit::InitBase, sim_init.cc 55-80, from LoadInitialAgents on. While it runs the time is 0: LoadInfo calls
    InitSim with branch time -1 (sim_init.cc 148-180, timer.cc 268-281). [None]: LoadInitialAgents has not finished
    after [fuel] iterations. *)
Record loaded := mkLoaded {
  ld_agents : zmap lagent;
  ld_enter : list Z;
  ld_inv : Z -> list (string * list Z);
  ld_builds : zmap (list (string * option nat));
  ld_decoms : zmap (list nat);
  ld_next : string -> Z }.
Definition init_base (fuel : nat) (t : Z) (d : db) (ids : string -> Z) : result (option loaded) :=
  match load_agents fuel t d with
  | Ok None => Ok None
  | Ok (Some (agents, enter)) =>
      match load_builds 0 t d agents with
      | Ok bq =>
          match load_decoms 0 t d agents with
          | Ok dq =>
              match load_next t d ids with
              | Ok f => Ok (Some (mkLoaded agents enter (fun id => load_inventory t id d) bq dq f))
              | Throw e => Throw e
              | UB => UB
              end
          | Throw e => Throw e
          | UB => UB
          end
      | Throw e => Throw e
      | UB => UB
      end
  | Throw e => Throw e
  | UB => UB
  end.
End Content.
Arguments db : clear implicits.
Arguments lagent : clear implicits.
Arguments loaded : clear implicits.
