(** The settings of a simulation, from the input file to the simulation that runs:
    LoadControlParams, LoadSolver, LoadRecipes, LoadPackages and LoadTransportUnits of XMLFileLoader
    (src/xml_file_loader.cc 129-158, 190-361, 450-495), the Add methods and InitSim of Context
    (src/context.cc 189-321), Timer::Initialize (src/timer.cc 268-281), and LoadInfo, LoadRecipes,
    LoadPackages, LoadTransportUnits and LoadSolverInfo of SimInit (src/sim_init.cc 25-74, 148-348).

    Simplifications.
    - boost::lexical_cast<double>, strtod and pyne::nucname::id are functions [lexd], [strtod] and [nucid].
    - The database gives back the rows that were recorded, in that order (C43, C44, C55); a table without
      rows does not exist.
    - An exception ends the program, so the state then left is not kept.
    - The versions of the libraries recorded by InitSim, which nobody reads, are left out. *)
From Coq Require Import String Ascii List ZArith QArith Bool Arith.
From Verif Require Import Base CompModel PackageModel ResourceModel ReloadModel.
From Verif Require PpModel LoaderModel LoadSolverModel BuyModel.
Import PpModel(xml(..), nmatches, get_string, sub_tree, trim).
Import LoaderModel(path, rbind, opt_string, opt_int, element_name, digits, sign).
Import ListNotations.
Local Open Scope string_scope.

(** ** Numbers and flags in text *)
Definition clamp (lo hi z : Z) : Z := Z.max lo (Z.min hi z).
(** strtol(s, NULL, 10): leading white space, a sign, digits; limited to the range of long *)
Definition strtol (s : string) : Z :=
  let '(sg, r) := sign (PpModel.ltrim s) in
  clamp (- 2 ^ 63) (2 ^ 63 - 1) (sg * fst (digits 0 r)).
(** conversion to int and to uint64_t: modulo 2^32 and 2^64 *)
Definition as_int (z : Z) : Z := ((z + 2 ^ 31) mod 2 ^ 32 - 2 ^ 31)%Z.
Definition as_u64 (z : Z) : Z := (z mod 2 ^ 64)%Z.

Section WithLibraries.
Variable lexd : string -> result Q.
Variable strtod : string -> Q.
Variable nucid : string -> result Z.
(** CYCLUS_HAS_COIN *)
Variable has_coin : bool.
Variable E : env.

(** OptionalQuery<bool>, infile_tree.h 141-152. *)
Definition opt_bool (x : xml) (q : PpModel.query) (d : bool) : result bool :=
  rbind (nmatches x q) (fun n =>
    if Nat.eqb n 0 then Ok d
    else rbind (get_string x q 0) (fun s =>
      let s := BuyModel.lower (trim s) in
      Ok (String.eqb s "true" || String.eqb s "t" || String.eqb s "1"))).
(** OptionalQuery<double>, infile_tree.h 166-176. *)
Definition opt_double (x : xml) (q : PpModel.query) (d : Q) : result Q :=
  rbind (nmatches x q) (fun n =>
    if Nat.eqb n 1 then rbind (get_string x q 0) (fun s => lexd (trim s)) else Ok d).

(** ** State *)

(** SimInfo, context.h 45-140; [nil_uuid] is 0. *)
Record siminfo := mkSi {
  si_dur : Z; si_y0 : Z; si_m0 : Z; si_handle : string; si_decay : string;
  si_dt : Z; si_eps : Q; si_epsr : Q; si_expl : bool; si_expc : bool; si_seed : Z; si_stride : Z;
  si_parent : Z; si_ptype : string; si_branch : Z }.

Inductive solver :=
| Greedy (exclusive : bool) (weights : list (string * Q))
| Coin (timeout : Q) (exclusive verbose mps : bool).

(** the parts of Context that settings end up in; [c_now] is the Timer's time and [c_gen] the seed that the
    random number generator was given *)
Record ctx := mkCtx {
  c_si : option siminfo; c_now : Z; c_gen : option Z;
  c_recipes : list (string * nat); c_pkgs : list (string * package); c_units : list (string * transport_unit);
  c_solver : option solver }.
Definition ctx0 : ctx := mkCtx None 0 None [] [] [] None.

(** Info, DecayMode, InfoExplicitInv, TimeStepDur, Epsilon, Recipes, Packages, TransportUnits, CommodPriority,
    SolverInfo, GreedySolverInfo, CoinSolverInfo *)
Record info_row := mkInfo { ir_handle : string; ir_y0 : Z; ir_m0 : Z; ir_dur : Z; ir_seed : Z; ir_stride : Z;
  ir_parent : Z; ir_ptype : string; ir_branch : Z }.
Record tables := mkT {
  t_info : list info_row; t_decay : list string; t_expl : list (bool * bool); t_dt : list Z; t_eps : list (Q * Q);
  t_recipes : list (string * Z); t_pkgs : list package; t_units : list transport_unit;
  t_commod : list (string * Q); t_solver : list (string * bool); t_greedy : list string;
  t_coin : list (Q * bool * bool) }.
Definition tables0 : tables := mkT [] [] [] [] [] [] [] [] [] [] [] [].

(** [g_eps], [g_epsr]: the globals cy_eps and cy_eps_rsrc (context.cc 21-22); [g_unr]: whether the static
    TransportUnit::unrestricted_ exists; [s_w]: compositions and the Compositions table *)
Record st := mkSt { g_eps : Q; g_epsr : Q; g_unr : bool; s_ctx : ctx; s_t : tables; s_w : world }.

Definition on_ctx (f : ctx -> ctx) (s : st) : st := mkSt (g_eps s) (g_epsr s) (g_unr s) (f (s_ctx s)) (s_t s) (s_w s).
Definition on_t (f : tables -> tables) (s : st) : st := mkSt (g_eps s) (g_epsr s) (g_unr s) (s_ctx s) (f (s_t s)) (s_w s).
Definition set_w (w : world) (s : st) : st := mkSt (g_eps s) (g_epsr s) (g_unr s) (s_ctx s) (s_t s) w.
Definition set_tol (e r : Q) (s : st) : st := mkSt e r (g_unr s) (s_ctx s) (s_t s) (s_w s).
Definition made_unr (s : st) : st := mkSt (g_eps s) (g_epsr s) true (s_ctx s) (s_t s) (s_w s).
Definition put_recipe n c (x : ctx) := mkCtx (c_si x) (c_now x) (c_gen x) ((n, c) :: c_recipes x) (c_pkgs x) (c_units x) (c_solver x).
Definition put_pkg n p (x : ctx) := mkCtx (c_si x) (c_now x) (c_gen x) (c_recipes x) ((n, p) :: c_pkgs x) (c_units x) (c_solver x).
Definition put_unit n u (x : ctx) := mkCtx (c_si x) (c_now x) (c_gen x) (c_recipes x) (c_pkgs x) ((n, u) :: c_units x) (c_solver x).
Definition put_solver v (x : ctx) := mkCtx (c_si x) (c_now x) (c_gen x) (c_recipes x) (c_pkgs x) (c_units x) (Some v).
Definition add_recipe_row r t := mkT (t_info t) (t_decay t) (t_expl t) (t_dt t) (t_eps t) (t_recipes t ++ [r]) (t_pkgs t) (t_units t) (t_commod t) (t_solver t) (t_greedy t) (t_coin t).
Definition add_pkg_row r t := mkT (t_info t) (t_decay t) (t_expl t) (t_dt t) (t_eps t) (t_recipes t) (t_pkgs t ++ [r]) (t_units t) (t_commod t) (t_solver t) (t_greedy t) (t_coin t).
Definition add_unit_row r t := mkT (t_info t) (t_decay t) (t_expl t) (t_dt t) (t_eps t) (t_recipes t) (t_pkgs t) (t_units t ++ [r]) (t_commod t) (t_solver t) (t_greedy t) (t_coin t).
Definition add_commod_rows l t := mkT (t_info t) (t_decay t) (t_expl t) (t_dt t) (t_eps t) (t_recipes t) (t_pkgs t) (t_units t) (t_commod t ++ l) (t_solver t) (t_greedy t) (t_coin t).
Definition add_solver_row r t := mkT (t_info t) (t_decay t) (t_expl t) (t_dt t) (t_eps t) (t_recipes t) (t_pkgs t) (t_units t) (t_commod t) (t_solver t ++ [r]) (t_greedy t) (t_coin t).
Definition add_greedy_row r t := mkT (t_info t) (t_decay t) (t_expl t) (t_dt t) (t_eps t) (t_recipes t) (t_pkgs t) (t_units t) (t_commod t) (t_solver t) (t_greedy t ++ [r]) (t_coin t).
Definition add_coin_row r t := mkT (t_info t) (t_decay t) (t_expl t) (t_dt t) (t_eps t) (t_recipes t) (t_pkgs t) (t_units t) (t_commod t) (t_solver t) (t_greedy t) (t_coin t ++ [r]).

(** std::map lookup; the newest entry counts *)
Fixpoint slookup {A} (n : string) (l : list (string * A)) : option A :=
  match l with [] => None | (k, a) :: l => if String.eqb k n then Some a else slookup n l end.

(** ** Context *)

(** InitSim, context.cc 273-321, with Timer::Initialize and RandomNumberGenerator::Initialize. *)
Definition init_rows (si : siminfo) (t : tables) : tables :=
  mkT (t_info t ++ [mkInfo (si_handle si) (si_y0 si) (si_m0 si) (si_dur si) (as_int (si_seed si)) (as_int (si_stride si))
                      (si_parent si) (si_ptype si) (si_branch si)])
      (t_decay t ++ [si_decay si]) (t_expl t ++ [(si_expl si, si_expc si)]) (t_dt t ++ [as_int (si_dt si)])
      (t_eps t ++ [(si_eps si, si_epsr si)])
      (t_recipes t) (t_pkgs t) (t_units t) (t_commod t) (t_solver t) (t_greedy t) (t_coin t).
Definition init_ctx (si : siminfo) (x : ctx) : ctx :=
  mkCtx (Some si) (if Z.ltb (-1) (si_branch si) then si_branch si else 0%Z) (Some (si_seed si))
    (c_recipes x) (c_pkgs x) (c_units x) (c_solver x).
Definition init_sim (si : siminfo) (s : st) : result st :=
  let s := on_t (init_rows si) s in
  if Z.ltb (si_m0 si) 1 || Z.ltb 12 (si_m0 si) then Throw ValueError
  else Ok (on_ctx (init_ctx si) s).

(** AddRecipe, context.cc 189-195. *)
Definition add_recipe (n : string) (c : nat) (s : st) : result st :=
  match nth_error (w_comps (s_w s)) c with
  | None => UB
  | Some x => Ok (on_t (add_recipe_row (n, c_id x)) (on_ctx (put_recipe n c) s))
  end.
(** AddPackage, 204-213.  Package::unpackaged() has been called before. *)
Definition add_package (n : string) (lo hi : Q) (strategy : string) (s : st) : result st :=
  match slookup n (c_pkgs (s_ctx s)) with
  | Some _ => Throw KeyError
  | None => rbind (pkg_create true n lo hi strategy) (fun p =>
              Ok (on_t (add_pkg_row p) (on_ctx (put_pkg n p) s)))
  end.
(** AddTransportUnit, 237-247. *)
Definition add_unit (n : string) (lo hi : Z) (strategy : string) (s : st) : result st :=
  match slookup n (c_units (s_ctx s)) with
  | Some _ => Throw KeyError
  | None => rbind (tu_create (g_unr s) n lo hi strategy) (fun u =>
              Ok (on_t (add_unit_row u) (on_ctx (put_unit n u) s)))
  end.

(** ** The loader *)

(** the loop over the elements that match *)
Fixpoint each_of (f : xml -> st -> result st) (x : xml) (q : PpModel.query) (l : list nat) (s : st) : result st :=
  match l with
  | [] => Ok s
  | i :: l => rbind (sub_tree x q i) (fun y => rbind (f y s) (fun s => each_of f x q l s))
  end.
Definition each (f : xml -> st -> result st) (x : xml) (q : PpModel.query) (s : st) : result st :=
  rbind (nmatches x q) (fun n => each_of f x q (seq 0 n) s).

Definition default_dt : Z := 2629846.   (* context.h 23-27 *)
Definition default_seed : Z := 20160212.
Definition default_stride : Z := 10000.

(** LoadControlParams, xml_file_loader.cc 450-495. *)
Definition load_control (x : xml) (s : st) : result st :=
  rbind (sub_tree x (path ["control"]) 0) (fun qe =>
  rbind (nmatches qe (path ["simhandle"])) (fun n =>
  rbind (if Nat.ltb 0 n then get_string qe (path ["simhandle"]) 0 else Ok "") (fun handle =>
  rbind (get_string qe (path ["duration"]) 0) (fun dur =>
  rbind (get_string qe (path ["startmonth"]) 0) (fun m0 =>
  rbind (get_string qe (path ["startyear"]) 0) (fun y0 =>
  rbind (opt_string qe (path ["decay"]) "manual") (fun d =>
  rbind (opt_bool qe (path ["explicit_inventory"]) false) (fun ei =>
  rbind (opt_bool qe (path ["explicit_inventory_compact"]) false) (fun ec =>
  rbind (opt_int qe (path ["dt"]) default_dt) (fun dt =>
  rbind (opt_double qe (path ["tolerance_generic"]) (1 # 1000000)) (fun eps =>
  rbind (opt_double qe (path ["tolerance_resource"]) (1 # 1000000)) (fun epsr =>
  rbind (opt_int qe (path ["seed"]) default_seed) (fun seed =>
  rbind (opt_int qe (path ["stride"]) default_stride) (fun stride =>
  init_sim (mkSi (as_int (strtol dur)) (as_int (strtol y0)) (as_int (strtol m0)) handle d (as_u64 dt) eps epsr
                 ei ec (as_u64 seed) (as_u64 stride) 0 "init" (-1))
    (set_tol eps epsr s))))))))))))))).

(** LoadSolver, 207-284, with ProcessCommodities, 286-306.  In an empty map ProcessCommodities reads a value past the
    end, which is then not used for anything. *)
Definition read_commod (x : xml) : result (string * option Q) :=
  rbind (get_string x (path ["name"]) 0) (fun n =>
  rbind (opt_double x (path ["solution_priority"]) (-(1))) (fun p => Ok (n, Some p))).
Fixpoint read_commods (x : xml) (l : list nat) : result (list (string * option Q)) :=
  match l with
  | [] => Ok []
  | i :: l => rbind (sub_tree x (path ["commodity"]) i) (fun y =>
              rbind (read_commod y) (fun c => rbind (read_commods x l) (fun cs => Ok (c :: cs))))
  end.
Definition priorities (ds : list (string * option Q)) : result (list (string * Q)) :=
  match ds with [] => Ok [] | _ => LoadSolverModel.process_commods (LoadSolverModel.declared ds) end.
Definition solver_choice (x : xml) : result (string * bool) :=
  rbind (nmatches x (path ["control"; "solver"])) (fun n =>
  if Nat.eqb n 1 then
    rbind (sub_tree x (path ["control"; "solver"]) 0) (fun qe =>
    rbind (nmatches qe (path ["config"])) (fun k =>
    rbind (if Nat.eqb k 1 then rbind (sub_tree qe (path ["config"]) 0) (fun y => element_name y 0) else Ok "greedy") (fun name =>
    rbind (opt_bool qe (path ["allow_exclusive_orders"]) true) (fun exclusive => Ok (name, exclusive)))))
  else Ok ("greedy", true)).
Definition load_solver (x : xml) (s : st) : result st :=
  rbind (nmatches x (path ["commodity"])) (fun n =>
  rbind (read_commods x (seq 0 n)) (fun ds =>
  rbind (priorities ds) (fun m =>
  let s := on_t (add_commod_rows m) s in
  rbind (solver_choice x) (fun '(name, exclusive) =>
  let s := on_t (add_solver_row (name, exclusive)) s in
  if String.eqb name "greedy" then
    rbind (opt_string x (path ["control"; "solver"; "config"; "greedy"; "preconditioner"]) "greedy") (fun p =>
    Ok (on_t (add_greedy_row p) s))
  else if String.eqb name "coin-or" then
    rbind (opt_double x (path ["control"; "solver"; "config"; "coin-or"; "timeout"]) (-(1))) (fun timeout =>
    rbind (opt_bool x (path ["control"; "solver"; "config"; "coin-or"; "verbose"]) false) (fun verbose =>
    rbind (opt_bool x (path ["control"; "solver"; "config"; "coin-or"; "mps"]) false) (fun mps =>
    Ok (on_t (add_coin_row (timeout, verbose, mps)) s))))
  else Throw ValueError)))).

(** ReadRecipe, 129-158. *)
Fixpoint read_nuclides (x : xml) (l : list nat) (v : compmap) : result compmap :=
  match l with
  | [] => Ok v
  | i :: l =>
      rbind (sub_tree x (path ["nuclide"]) i) (fun y =>
      rbind (get_string y (path ["id"]) 0) (fun id =>
      rbind (nucid id) (fun key =>
      rbind (get_string y (path ["comp"]) 0) (fun value =>
      read_nuclides x l (zset key (strtod value) v)))))
  end.
Definition basis_of (b : string) : result bool :=
  if String.eqb b "atom" then Ok true else if String.eqb b "mass" then Ok false else Throw IOError.
Definition read_recipe (x : xml) (w : world) : result (nat * world) :=
  rbind (get_string x (path ["basis"]) 0) (fun b =>
  rbind (basis_of b) (fun atom =>
  rbind (nmatches x (path ["nuclide"])) (fun n =>
  rbind (read_nuclides x (seq 0 n) []) (fun v =>
  match (if atom then create_from_atom E v w else create_from_mass E v w) with
  | (Ok c, w) => Ok (c, w) | (Throw e, _) => Throw e | (UB, _) => UB
  end)))).
(** LoadRecipes, 308-321. *)
Definition load_recipe (qe : xml) (s : st) : result st :=
  rbind (get_string qe (path ["name"]) 0) (fun name =>
  rbind (read_recipe qe (s_w s)) (fun '(c, w) =>
  match comp_record E c w with
  | (Ok _, w) => add_recipe name c (set_w w s)
  | (Throw e, _) => Throw e
  | (UB, _) => UB
  end)).
Definition load_recipes (x : xml) (s : st) : result st := each load_recipe x (path ["recipe"]) s.

(** LoadPackages, 323-342. *)
Definition load_package (qe : xml) (s : st) : result st :=
  rbind (opt_string qe (path ["name"]) "default") (fun name =>
  rbind (opt_double qe (path ["fill_min"]) (g_eps s)) (fun lo =>
  rbind (opt_double qe (path ["fill_max"]) DBL_MAX) (fun hi =>
  rbind (opt_string qe (path ["strategy"]) "first") (fun strategy =>
  add_package name lo hi strategy s)))).
Definition load_packages (x : xml) (s : st) : result st :=
  each load_package x (path ["package"]) (on_t (add_pkg_row pkg_unpackaged) s).

(** LoadTransportUnits, 344-361: the limits are doubles that are converted to int. *)
Definition int_of (q : Q) : result Z := match to_int q with Some z => Ok z | None => UB end.
Definition load_unit (qe : xml) (s : st) : result st :=
  rbind (opt_string qe (path ["name"]) "default") (fun name =>
  rbind (opt_double qe (path ["fill_min"]) (g_eps s)) (fun lo =>
  rbind (opt_double qe (path ["fill_max"]) DBL_MAX) (fun hi =>
  rbind (opt_string qe (path ["strategy"]) "first") (fun strategy =>
  rbind (int_of lo) (fun lo => rbind (int_of hi) (fun hi =>
  add_unit name lo hi strategy s)))))).
Definition load_units (x : xml) (s : st) : result st := each load_unit x (path ["transportunit"]) s.

(** LoadSim, 190-205, up to the archetypes and agents (LoaderModel). *)
Definition load_settings (x : xml) (s : st) : result st :=
  rbind (load_control x s) (fun s => rbind (load_solver x s) (fun s => rbind (load_recipes x s) (fun s =>
  rbind (load_packages x s) (load_units x)))).

(** ** SimInit.  [t] is the database that is read; what is recorded on the way goes to another recorder. *)

(** QueryResult::GetVal for row 0 of a table: Query throws if it does not exist. *)
Definition first {A} (l : list A) : result A := match l with [] => Throw PlainError | a :: _ => Ok a end.

(** LoadInfo, sim_init.cc 148-177. *)
Definition load_info (t : tables) (s : st) : result st :=
  rbind (first (t_info t)) (fun r =>
  rbind (first (t_decay t)) (fun d =>
  rbind (first (t_dt t)) (fun dt =>
  rbind (first (t_eps t)) (fun e =>
  rbind (first (t_expl t)) (fun ex =>
  init_sim (mkSi (ir_dur r) (ir_y0 r) (ir_m0 r) (ir_handle r) d (as_u64 dt) (fst e) (snd e) (fst ex) (snd ex)
                 (as_u64 (ir_seed r)) (as_u64 (ir_stride r)) (ir_parent r) "init" (-1)) s))))).

Fixpoint for_rows {A} (f : A -> st -> result st) (l : list A) (s : st) : result st :=
  match l with [] => Ok s | a :: l => rbind (f a s) (for_rows f l) end.
(** LoadRecipes, 179-193; [d] are the rows of Compositions. *)
Definition reload_recipe (d : list datum) (r : string * Z) (s : st) : result st :=
  match load_composition E d (snd r) (s_w s) with
  | (Ok c, w) => add_recipe (fst r) c (set_w w s)
  | (Throw e, _) => Throw e
  | (UB, _) => UB
  end.
(** LoadPackages, 195-216. *)
Definition reload_package (p : package) (s : st) : result st :=
  if negb (String.eqb (p_name p) unpackaged_name) then add_package (p_name p) (p_fill_min p) (p_fill_max p) (p_strategy p) s
  else Ok (on_t (add_pkg_row pkg_unpackaged) s).
(** LoadTransportUnits, 218-239. *)
Definition reload_unit (u : transport_unit) (s : st) : result st :=
  if negb (String.eqb (tu_name u) unrestricted_name) then add_unit (tu_name u) (tu_fill_min u) (tu_fill_max u) (tu_strategy u) s
  else Ok (on_t (add_unit_row tu_unrestricted) (made_unr s)).

(** LoadGreedySolver, LoadCoinSolver and LoadSolverInfo, 241-348.  What is not initialised is [UB]. *)
Definition commod_of (t : tables) : option LoadSolverModel.table :=
  match t_commod t with [] => None | l => Some (LoadSolverModel.commod_table l) end.
Definition reload_greedy (exclusive : bool) (t : tables) : result solver :=
  let name := match t_greedy t with [] => "greedy" | p :: _ => p end in
  rbind (LoadSolverModel.load_greedy "SolutionOrder" name (commod_of t)) (fun w => Ok (Greedy exclusive w)).
Definition reload_coin (exclusive : bool) (t : tables) : result solver :=
  if has_coin then
    match t_coin t with
    | [] => UB
    | (timeout, verbose, mps) :: _ =>
        Ok (Coin (if Qleb timeout 0 then 300 else timeout) exclusive verbose mps)
    end
  else Throw PlainError.
Definition reload_solver (t : tables) (s : st) : result st :=
  match t_solver t with
  | [] => Throw ValueError
  | (name, exclusive) :: _ =>
      rbind (if String.eqb name "greedy" then reload_greedy exclusive t
             else if String.eqb name "coin-or" then reload_coin exclusive t
             else Throw ValueError)
        (fun v => Ok (on_ctx (put_solver v) s))
  end.

(** Init, 25-30, with InitBase, 49-74, up to the prototypes: [s] is the program, with a new context. *)
Definition start (t : tables) (d : list datum) (s : st) : result st :=
  let s := on_ctx (fun _ => ctx0) s in
  rbind (load_info t s) (fun s =>
  rbind (for_rows (reload_recipe d) (t_recipes t) s) (fun s =>
  rbind (for_rows reload_package (t_pkgs t) s) (fun s =>
  rbind (for_rows reload_unit (t_units t) s) (fun s =>
  reload_solver t s)))).

(** Restart, 32-42: Init, and then InitSim again with the time [at_] and the simulation [id] it continues. *)
Definition as_restart (id at_ : Z) (si : siminfo) : siminfo :=
  mkSi (si_dur si) (si_y0 si) (si_m0 si) (si_handle si) (si_decay si) (si_dt si) (si_eps si) (si_epsr si)
       (si_expl si) (si_expc si) (si_seed si) (si_stride si) id "restart" at_.
Definition restart (t : tables) (d : list datum) (id at_ : Z) (s : st) : result st :=
  rbind (start t d s) (fun s =>
  match c_si (s_ctx s) with Some si => init_sim (as_restart id at_ si) s | None => UB end).

(** What agents get from the context: GetRecipe 197-202, GetPackage 224-235, GetTransportUnit 259-270 of context.cc. *)
Definition get_recipe (n : string) (s : st) : result comp :=
  match slookup n (c_recipes (s_ctx s)) with
  | None => Throw KeyError
  | Some c => match nth_error (w_comps (s_w s)) c with Some x => Ok x | None => UB end
  end.
Definition get_package (n : string) (s : st) : result package :=
  if String.eqb n unpackaged_name then Ok pkg_unpackaged
  else match slookup n (c_pkgs (s_ctx s)) with Some p => Ok p | None => Throw KeyError end.
Definition get_unit (n : string) (s : st) : result transport_unit :=
  if String.eqb n unrestricted_name then Ok tu_unrestricted
  else match slookup n (c_units (s_ctx s)) with Some p => Ok p | None => Throw KeyError end.
End WithLibraries.
