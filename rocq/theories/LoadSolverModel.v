(** How commodity priorities travel from the input file to the solver:
    XMLFileLoader::LoadSolver and ProcessCommodities (src/xml_file_loader.cc 207-306),
    QueryResult::GetVal (src/query_backend.h 455-477), SimInit::LoadPreconditioner and
    LoadGreedySolver (src/sim_init.cc 241-292), the GreedySolver constructors
    (src/greedy_solver.cc 19-34).

    Simplifications: the back end returns the rows that were recorded (the SimId column,
    which no one asks for here, is left out); std::map<string, double> is an association
    list in insertion order; the coin-or branch is not modelled. *)
From Coq Require Import String QArith List Bool Arith ZArith Lia.
From Verif Require Import Base GreedyModel ExchangeModel.
Import ListNotations.
Local Open Scope string_scope.
Open Scope Q_scope.

(** A <commodity> element: its name and optional solution_priority. *)
Definition commod_decl := (string * option Q)%type.

(** xml_file_loader.cc 212-223: the priority is -1 if none is given; a repeated name overwrites. *)
Definition declared (ds : list commod_decl) : list (string * Q) :=
  fold_left (fun acc d => mupd String.eqb (fst d)
      (fun _ => match snd d with Some p => p | None => -(1) end) acc) ds [].

(** ProcessCommodities, xml_file_loader.cc 286-306. For an empty map max_element returns
    end(), which is dereferenced. *)
Definition process_commods (m : list (string * Q)) : result (list (string * Q)) :=
  match m with
  | [] => UB
  | (_, x) :: t =>
      let mx := fold_left (fun best p => if Qltb best (snd p) then snd p else best) t x in
      let mx := if Qltb mx 1 then 0 else mx in
      Ok (map (fun p => (fst p, if Qltb (snd p) 1 then mx + 1 else snd p)) m)
  end.

(** A query result: column names and rows. *)
Inductive dbval := DStr (s : string) | DNum (q : Q).
Record table := mkTable { tb_fields : list string; tb_rows : list (list dbval) }.

(** xml_file_loader.cc 226-231: the CommodPriority table. *)
Definition commod_table (m : list (string * Q)) : table :=
  mkTable ["Commodity"; "SolutionPriority"] (map (fun p => [DStr (fst p); DNum (snd p)]) m).

(** QueryResult::GetVal, query_backend.h 455-477. *)
Fixpoint index_of (f : string) (l : list string) : option nat :=
  match l with
  | [] => None
  | x :: t => if String.eqb x f then Some O else option_map S (index_of f t)
  end.
Definition get_val (tb : table) (field : string) (row : nat) : result dbval :=
  match tb_rows tb with
  | [] => Throw StateError
  | rows =>
      match nth_error rows row with
      | None => Throw KeyError
      | Some r =>
          match index_of field (tb_fields tb) with
          | None => Throw KeyError
          | Some i => match nth_error r i with Some v => Ok v | None => UB end
          end
      end
  end.
Definition get_str (tb : table) (f : string) (i : nat) : result string :=
  match get_val tb f i with
  | Ok (DStr s) => Ok s | Ok (DNum _) => Throw CastError | Throw e => Throw e | UB => UB end.
Definition get_num (tb : table) (f : string) (i : nat) : result Q :=
  match get_val tb f i with
  | Ok (DNum s) => Ok s | Ok (DStr _) => Throw CastError | Throw e => Throw e | UB => UB end.

(** The loop of LoadPreconditioner, sim_init.cc 248-252, over rows [i], [i+1], ...
    [col] is the name of the column it reads: "SolutionOrder" (250). *)
Fixpoint read_order (col : string) (tb : table) (i n : nat) (acc : weights) : result weights :=
  match n with
  | O => Ok acc
  | S k =>
      match get_str tb "Commodity" i with
      | Ok c =>
          match get_num tb col i with
          | Ok o => read_order col tb (S i) k (mupd String.eqb c (fun _ => o) acc)
          | Throw e => Throw e
          | UB => UB
          end
      | Throw e => Throw e
      | UB => UB
      end
  end.

(** LoadPreconditioner, sim_init.cc 241-266. [None]: the CommodPriority table does not exist.
    Any std::exception gives NULL. GreedyPreconditioner(order, REVERSE) processes the
    weights. *)
Definition load_precon (col name : string) (tb : option table) : result (option weights) :=
  match tb with
  | None => Ok None
  | Some tb =>
      match read_order col tb 0 (List.length (tb_rows tb)) [] with
      | Throw _ => Ok None
      | UB => UB
      | Ok order =>
          if String.eqb name "greedy" then Ok (Some (process_weights true order))
          else Throw ValueError
      end
  end.

(** LoadGreedySolver, sim_init.cc 268-292: the preconditioner's weights of the solver of
    the simulation. Without a preconditioner the solver makes a default one
    (greedy_solver.cc 23-26), whose weights are empty. *)
Definition load_greedy (col name : string) (tb : option table) : result weights :=
  match load_precon col name tb with
  | Ok None => Ok []
  | Ok (Some w) => Ok w
  | Throw e => Throw e
  | UB => UB
  end.

(** From the input file to the solver. *)
Definition solver_weights (col name : string) (ds : list commod_decl) : result weights :=
  match process_commods (declared ds) with
  | Ok m => load_greedy col name (Some (commod_table m))
  | Throw e => Throw e
  | UB => UB
  end.
(** What the code does. *)
Definition sim_weights : string -> list commod_decl -> result weights := solver_weights "SolutionOrder".
