(** Supply, demand and build decisions of the toolkit: src/toolkit/commodity_producer.h/.cc,
    commodity_producer_manager.h/.cc, supply_demand_manager.h/.cc, builder.h and building_manager.h/.cc.

    Simplifications, once for the whole file:
    - doubles are exact rationals, getInfinity() is [None]; an int is an integer, and converting a double that does
      not fit in one is undefined behaviour;
    - objects are numbered in the order of their creation and never destroyed; a call on an object that does not
      exist is undefined behaviour; the managing agent (agent_managed.h) is not modelled;
    - a std::set of pointers is a list without repetitions; where a pointer is inserted depends on its address, which
      is an argument ([pos]) of the registration;
    - a std::map keyed by commodity (compared by name, commodity.h 37-41) is an association list: its order is never
      observable here;
    - a demand function (symbolic_functions.h) is any function of time; a null pointer is [None];
    - the COIN solver is an oracle. *)
From Coq Require Import String QArith List Bool Arith ZArith Lia.
From Verif Require Import Base ProgModel.
Import ListNotations.
Open Scope Q_scope.

(** ** Containers *)

(** std::map::find. *)
Fixpoint sget {A} (k : string) (l : list (string * A)) : option A :=
  match l with
  | [] => None
  | (x, v) :: t => if String.eqb k x then Some v else sget k t
  end.
(** Assignment to an existing or new entry. *)
Fixpoint sput {A} (k : string) (v : A) (l : list (string * A)) : list (string * A) :=
  match l with
  | [] => [(k, v)]
  | (x, u) :: t => if String.eqb k x then (k, v) :: t else (x, u) :: sput k v t
  end.
(** std::map::insert: an existing entry is kept. *)
Definition sins {A} (k : string) (v : A) (l : list (string * A)) : list (string * A) :=
  match sget k l with Some _ => l | None => sput k v l end.
(** std::map::erase. *)
Definition srm {A} (k : string) (l : list (string * A)) : list (string * A) :=
  filter (fun e => negb (String.eqb k (fst e))) l.

(** std::set<T*>::insert and erase. *)
Definition pins (pos x : nat) (l : list nat) : list nat :=
  if existsb (Nat.eqb x) l then l else firstn pos l ++ x :: skipn pos l.
Definition prm (x : nat) (l : list nat) : list nat := filter (fun y => negb (Nat.eqb x y)) l.

(** ** State *)

(** commodity_producer.h 15-21, commodity_producer.cc 6-8, CommodInfo; cyc_limits.h.in 38, kModifierLimit. *)
Record cinfo := mkCI { ci_cap : Q; ci_cost : Q }.
Definition cinfo_default : cinfo := mkCI 0 (10000000000 # 1).
(** commodity_producer.h 23-99, CommodityProducer. *)
Record producer := mkCP { cp_info : list (string * cinfo); cp_dcap : Q; cp_dcost : Q }.
(** supply_demand_manager.h 23-78, SupplyDemandManager. *)
Record sdman := mkSD { sd_fun : list (string * option (Z -> Q)); sd_mans : list nat }.
(** All objects: producers, builders (builder.h 14-38, the set of their producers), building managers (the set of
    their builders), producer managers (the set of their producers), supply-demand managers. *)
Record world := mkW {
  w_prod : list producer; w_build : list (list nat); w_bman : list (list nat); w_pman : list (list nat);
  w_sd : list sdman }.
Definition w_empty : world := mkW [] [] [] [] [].

Definition set_prod (w : world) l := mkW l (w_build w) (w_bman w) (w_pman w) (w_sd w).
Definition set_build (w : world) l := mkW (w_prod w) l (w_bman w) (w_pman w) (w_sd w).
Definition set_bman (w : world) l := mkW (w_prod w) (w_build w) l (w_pman w) (w_sd w).
Definition set_pman (w : world) l := mkW (w_prod w) (w_build w) (w_bman w) l (w_sd w).
Definition set_sd (w : world) l := mkW (w_prod w) (w_build w) (w_bman w) (w_pman w) l.

(** Change one object. *)
Definition at_obj {A} (l : list A) (i : nat) (f : A -> A) : result (list A) :=
  match nth_error l i with Some x => Ok (upd l i (f x)) | None => UB end.
Definition rmap {A B} (f : A -> B) (r : result A) : result B :=
  match r with Ok a => Ok (f a) | Throw e => Throw e | UB => UB end.

(** ** CommodityProducer *)

Definition with_info (x : producer) l := mkCP l (cp_dcap x) (cp_dcost x).
(** commodity_producer.h 64-74, Add with defaults and Add with values. *)
Definition cp_add_info (c : string) (i : cinfo) (x : producer) : producer := with_info x (sins c i (cp_info x)).
Definition cp_add (c : string) (x : producer) : producer := cp_add_info c (mkCI (cp_dcap x) (cp_dcost x)) x.
(** 78-80, Rm. *)
Definition cp_rm (c : string) (x : producer) : producer := with_info x (srm c (cp_info x)).
(** operator[]: an absent entry is made with the default constructor of CommodInfo. *)
Definition cp_entry (c : string) (x : producer) : cinfo :=
  match sget c (cp_info x) with Some i => i | None => cinfo_default end.
(** 51-60, SetCapacity, SetCost. *)
Definition cp_set_cap (c : string) (q : Q) (x : producer) : producer :=
  with_info x (sput c (mkCI q (ci_cost (cp_entry c x))) (cp_info x)).
Definition cp_set_cost (c : string) (q : Q) (x : producer) : producer :=
  with_info x (sput c (mkCI (ci_cap (cp_entry c x)) q) (cp_info x)).
(** 38-46, Capacity and Cost leave the entry they asked for behind. *)
Definition cp_touch (c : string) (x : producer) : producer := with_info x (sput c (cp_entry c x) (cp_info x)).
(** commodity_producer.cc 19-26, ProducedCommodities. *)
Definition cp_produced (x : producer) : list string := map fst (cp_info x).
(** 28-37, Copy. *)
Definition cp_copy (src : producer) (x : producer) : producer :=
  fold_left (fun y c => cp_set_cost c (ci_cost (cp_entry c src)) (cp_set_cap c (ci_cap (cp_entry c src)) (cp_add c y)))
            (cp_produced src) x.

(** ** The calls that change something *)
Inductive op :=
| NewProducer (dcap dcost : Q)
| NewBuilder
| NewBuildingManager
| NewProducerManager
| NewSupplyDemand
| Add (p : nat) (c : string)
| AddInfo (p : nat) (c : string) (cap cost : Q)
| Rm (p : nat) (c : string)
| SetCapacity (p : nat) (c : string) (q : Q)
| SetCost (p : nat) (c : string) (q : Q)
| AskCapacity (p : nat) (c : string)
| AskCost (p : nat) (c : string)
| Copy (p src : nat)
| BuilderReg (pos b p : nat)
| BuilderUnreg (b p : nat)
| ManagerReg (pos m b : nat)
| ManagerUnreg (m b : nat)
| ProducersReg (pos m p : nat)
| ProducersUnreg (m p : nat)
| SupplyReg (pos s m : nat)
| SupplyUnreg (s m : nat)
| RegisterCommodity (s : nat) (c : string) (f : Z -> Q)
| AskDemandFunction (s : nat) (c : string).

(** A pointer to an object that exists. *)
Definition valid {A} (l : list A) (i : nat) : bool := match nth_error l i with Some _ => true | None => false end.

Definition step (w : world) (o : op) : result world :=
  match o with
  (* commodity_producer.cc 10-15; builder.h 17; building_manager.h 48; commodity_producer_manager.h 16;
     supply_demand_manager.h 25 *)
  | NewProducer a b => Ok (set_prod w (w_prod w ++ [mkCP [] a b]))
  | NewBuilder => Ok (set_build w (w_build w ++ [[]]))
  | NewBuildingManager => Ok (set_bman w (w_bman w ++ [[]]))
  | NewProducerManager => Ok (set_pman w (w_pman w ++ [[]]))
  | NewSupplyDemand => Ok (set_sd w (w_sd w ++ [mkSD [] []]))
  | Add p c => rmap (set_prod w) (at_obj (w_prod w) p (cp_add c))
  | AddInfo p c a b => rmap (set_prod w) (at_obj (w_prod w) p (cp_add_info c (mkCI a b)))
  | Rm p c => rmap (set_prod w) (at_obj (w_prod w) p (cp_rm c))
  | SetCapacity p c q => rmap (set_prod w) (at_obj (w_prod w) p (cp_set_cap c q))
  | SetCost p c q => rmap (set_prod w) (at_obj (w_prod w) p (cp_set_cost c q))
  | AskCapacity p c => rmap (set_prod w) (at_obj (w_prod w) p (cp_touch c))
  | AskCost p c => rmap (set_prod w) (at_obj (w_prod w) p (cp_touch c))
  | Copy p s =>
      match nth_error (w_prod w) s with
      | Some src => rmap (set_prod w) (at_obj (w_prod w) p (cp_copy src))
      | None => UB
      end
  (* builder.h 21-28 *)
  | BuilderReg pos b p =>
      if valid (w_prod w) p then rmap (set_build w) (at_obj (w_build w) b (pins pos p)) else UB
  | BuilderUnreg b p => rmap (set_build w) (at_obj (w_build w) b (prm p))
  (* building_manager.h 52-56 *)
  | ManagerReg pos m b =>
      if valid (w_build w) b then rmap (set_bman w) (at_obj (w_bman w) m (pins pos b)) else UB
  | ManagerUnreg m b => rmap (set_bman w) (at_obj (w_bman w) m (prm b))
  (* commodity_producer_manager.h 25-33 *)
  | ProducersReg pos m p =>
      if valid (w_prod w) p then rmap (set_pman w) (at_obj (w_pman w) m (pins pos p)) else UB
  | ProducersUnreg m p => rmap (set_pman w) (at_obj (w_pman w) m (prm p))
  (* supply_demand_manager.h 32-52 and 63-65 *)
  | SupplyReg pos s m =>
      if valid (w_pman w) m
      then rmap (set_sd w) (at_obj (w_sd w) s (fun x => mkSD (sd_fun x) (pins pos m (sd_mans x)))) else UB
  | SupplyUnreg s m => rmap (set_sd w) (at_obj (w_sd w) s (fun x => mkSD (sd_fun x) (prm m (sd_mans x))))
  | RegisterCommodity s c f =>
      rmap (set_sd w) (at_obj (w_sd w) s (fun x => mkSD (sins c (Some f) (sd_fun x)) (sd_mans x)))
  | AskDemandFunction s c =>
      rmap (set_sd w) (at_obj (w_sd w) s (fun x => mkSD (sins c None (sd_fun x)) (sd_mans x)))
  end.

(** ** Queries *)

(** commodity_producer.h 32-34, Produces. *)
Definition produces (w : world) (p : nat) (c : string) : result bool :=
  match nth_error (w_prod w) p with
  | Some x => Ok (match sget c (cp_info x) with Some _ => true | None => false end)
  | None => UB
  end.
(** 38-46: the value returned ([AskCapacity], [AskCost] are the effects). *)
Definition capacity (w : world) (p : nat) (c : string) : result Q :=
  match nth_error (w_prod w) p with Some x => Ok (ci_cap (cp_entry c x)) | None => UB end.
Definition cost (w : world) (p : nat) (c : string) : result Q :=
  match nth_error (w_prod w) p with Some x => Ok (ci_cost (cp_entry c x)) | None => UB end.

(** commodity_producer_manager.cc 7-17, TotalCapacity (an entry that exists is not changed by asking for it). *)
Fixpoint total_from (w : world) (c : string) (ps : list nat) (total : Q) : result Q :=
  match ps with
  | [] => Ok total
  | p :: t =>
      match produces w p c with
      | Ok true => match capacity w p c with Ok q => total_from w c t (total + q) | Throw e => Throw e | UB => UB end
      | Ok false => total_from w c t total
      | Throw e => Throw e
      | UB => UB
      end
  end.
Definition total_capacity (w : world) (m : nat) (c : string) : result Q :=
  match nth_error (w_pman w) m with Some ps => total_from w c ps 0 | None => UB end.

(** supply_demand_manager.cc 9-16, Supply. *)
Fixpoint supply_from (w : world) (c : string) (ms : list nat) (value : Q) : result Q :=
  match ms with
  | [] => Ok value
  | m :: t =>
      match total_capacity w m c with Ok q => supply_from w c t (value + q) | Throw e => Throw e | UB => UB end
  end.
Definition supply (w : world) (s : nat) (c : string) : result Q :=
  match nth_error (w_sd w) s with Some x => supply_from w c (sd_mans x) 0 | None => UB end.

(** supply_demand_manager.h 39-41 and 57-59, ManagesCommodity, Demand (a null function is dereferenced). *)
Definition manages (w : world) (s : nat) (c : string) : result bool :=
  match nth_error (w_sd w) s with
  | Some x => Ok (match sget c (sd_fun x) with Some _ => true | None => false end)
  | None => UB
  end.
Definition demand (w : world) (s : nat) (c : string) (t : Z) : result Q :=
  match nth_error (w_sd w) s with
  | Some x => match sget c (sd_fun x) with Some (Some f) => Ok (f t) | _ => UB end
  | None => UB
  end.

(** ** BuildingManager *)

(** building_manager.h 19-25, BuildOrder. *)
Record border := mkOrder { bo_number : Z; bo_builder : nat; bo_producer : nat }.

(** The locals of SetUp_: objective coefficients, capacities, p_to_b, idx_to_p. *)
Record setup := mkSetup { su_obj : list Q; su_caps : list (nat * Q); su_pb : list (nat * nat); su_ip : list nat }.
(** p_to_b[p]: the last assignment counts (latest first). *)
Fixpoint pb_get (p : nat) (l : list (nat * nat)) : option nat :=
  match l with [] => None | (x, b) :: t => if Nat.eqb p x then Some b else pb_get p t end.

(** building_manager.cc 45-55: one producer of builder [b]. *)
Definition setup_producer (w : world) (c : string) (b : nat) (s : setup) (p : nat) : result setup :=
  match produces w p c with
  | Ok true =>
      match cost w p c, capacity w p c with
      | Ok k, Ok q => Ok (mkSetup (su_obj s ++ [k]) (su_caps s ++ [(length (su_obj s), q)]) ((p, b) :: su_pb s) (su_ip s ++ [p]))
      | _, _ => UB
      end
  | Ok false => Ok s
  | Throw e => Throw e
  | UB => UB
  end.
Fixpoint setup_producers (w : world) (c : string) (b : nat) (s : setup) (ps : list nat) : result setup :=
  match ps with
  | [] => Ok s
  | p :: t => match setup_producer w c b s p with Ok s' => setup_producers w c b s' t | r => r end
  end.
(** 43-57. *)
Fixpoint setup_builders (w : world) (c : string) (s : setup) (bs : list nat) : result setup :=
  match bs with
  | [] => Ok s
  | b :: t =>
      match nth_error (w_build w) b with
      | None => UB
      | Some ps => match setup_producers w c b s ps with Ok s' => setup_builders w c s' t | r => r end
      end
  end.
(** 30-62, SetUp_, and 69-75: the integer program handed to the solver. *)
Definition program (s : setup) (d : Q) : lp :=
  mkLP (length (su_obj s)) (fun i => mkLCol (nth i (su_obj s) 0) 0 None)
       [mkLRow (su_caps s) d None] (seq 0 (length (su_obj s))).

(** static_cast<int>(double): towards zero; undefined when the value does not fit. *)
Definition to_int (q : Q) : option Z :=
  let z := Z.quot (Qnum q) (Zpos (Qden q)) in
  if Z.leb (-2147483648) z && Z.leb z 2147483647 then Some z else None.

(** 79-90: the orders. *)
Fixpoint read_orders (s : setup) (sol : nat -> Q) (is : list nat) : result (list border) :=
  match is with
  | [] => Ok []
  | i :: t =>
      match to_int (sol i) with
      | None => UB
      | Some n =>
          match read_orders s sol t with
          | Ok os =>
              if Z.ltb 0 n then
                match nth_error (su_ip s) i with
                | Some p => match pb_get p (su_pb s) with Some b => Ok (mkOrder n b p :: os) | None => UB end
                | None => UB
                end
              else Ok os
          | r => r
          end
      end
  end.
(** 64-91, Solve_.  Without any column, &v[0] is taken of empty vectors. *)
Definition solve_orders (solver : lp -> nat -> Q) (s : setup) (d : Q) : result (list border) :=
  match su_obj s with
  | [] => UB
  | _ => read_orders s (solver (program s d)) (seq 0 (length (su_obj s)))
  end.
(** 16-28, MakeBuildDecision. *)
Definition set_up (w : world) (m : nat) (c : string) : result setup :=
  match nth_error (w_bman w) m with
  | Some bs => setup_builders w c (mkSetup [] [] [] []) bs
  | None => UB
  end.
Definition make_build_decision (solver : lp -> nat -> Q) (w : world) (m : nat) (c : string) (d : Q) : result (list border) :=
  if Qltb 0 d then
    match set_up w m c with
    | Ok s => solve_orders solver s d
    | Throw e => Throw e
    | UB => UB
    end
  else match nth_error (w_bman w) m with Some _ => Ok [] | None => UB end.
