(** Vocabulary for C53.  A history is a list of calls, the latest first; everything below is read off the history
    and not off the state the model keeps. *)
From Coq Require Import String QArith List Bool Arith ZArith Lia.
From Verif Require Import Base ProgModel ProgSpec SupplyModel.
Import ListNotations.
Open Scope Q_scope.

(** The calls of [h], latest first, lead from nothing to [w]. *)
Inductive reached : list op -> world -> Prop :=
| reached_nil : reached [] w_empty
| reached_cons h w o w' : reached h w -> step w o = Ok w' -> reached (o :: h) w'.

(** How many producers there are, and the defaults a producer was made with. *)
Fixpoint producers_made (h : list op) : nat :=
  match h with [] => O | NewProducer _ _ :: t => S (producers_made t) | _ :: t => producers_made t end.
Fixpoint defaults (h : list op) (p : nat) : option cinfo :=
  match h with
  | [] => None
  | NewProducer a b :: t => if Nat.eqb p (producers_made t) then Some (mkCI a b) else defaults t p
  | _ :: t => defaults t p
  end.

Definition here (p p' : nat) (c c' : string) : bool := Nat.eqb p p' && String.eqb c c'.
Definition otherwise {A} (a b : option A) : option A := match a with Some _ => a | None => b end.
Definition cap_or0 (a : option cinfo) : Q := match a with Some i => ci_cap i | None => 0 end.
Definition cost_or_limit (a : option cinfo) : Q := match a with Some i => ci_cost i | None => 10000000000 # 1 end.

(** What producer [p] makes of commodity [c]: capacity and cost, or nothing. *)
Fixpoint info (h : list op) (p : nat) (c : string) : option cinfo :=
  match h with
  | [] => None
  | Add p' c' :: t => if here p p' c c' then otherwise (info t p c) (defaults t p) else info t p c
  | AddInfo p' c' a b :: t => if here p p' c c' then otherwise (info t p c) (Some (mkCI a b)) else info t p c
  | Rm p' c' :: t => if here p p' c c' then None else info t p c
  | SetCapacity p' c' q :: t => if here p p' c c' then Some (mkCI q (cost_or_limit (info t p c))) else info t p c
  | SetCost p' c' q :: t => if here p p' c c' then Some (mkCI (cap_or0 (info t p c)) q) else info t p c
  | AskCapacity p' c' :: t | AskCost p' c' :: t =>
      if here p p' c c' then otherwise (info t p c) (Some (mkCI 0 (10000000000 # 1))) else info t p c
  | Copy p' s :: t => if Nat.eqb p p' then otherwise (info t s c) (info t p c) else info t p c
  | _ :: t => info t p c
  end.

(** Registrations: what was registered and not unregistered since. *)
Fixpoint builder_has (h : list op) (b p : nat) : Prop :=
  match h with
  | [] => False
  | BuilderReg _ b' p' :: t => b = b' /\ p = p' \/ builder_has t b p
  | BuilderUnreg b' p' :: t => ~ (b = b' /\ p = p') /\ builder_has t b p
  | _ :: t => builder_has t b p
  end.
Fixpoint manager_has (h : list op) (m b : nat) : Prop :=
  match h with
  | [] => False
  | ManagerReg _ m' b' :: t => m = m' /\ b = b' \/ manager_has t m b
  | ManagerUnreg m' b' :: t => ~ (m = m' /\ b = b') /\ manager_has t m b
  | _ :: t => manager_has t m b
  end.
Fixpoint producers_has (h : list op) (m p : nat) : Prop :=
  match h with
  | [] => False
  | ProducersReg _ m' p' :: t => m = m' /\ p = p' \/ producers_has t m p
  | ProducersUnreg m' p' :: t => ~ (m = m' /\ p = p') /\ producers_has t m p
  | _ :: t => producers_has t m p
  end.
Fixpoint supply_has (h : list op) (s m : nat) : Prop :=
  match h with
  | [] => False
  | SupplyReg _ s' m' :: t => s = s' /\ m = m' \/ supply_has t s m
  | SupplyUnreg s' m' :: t => ~ (s = s' /\ m = m') /\ supply_has t s m
  | _ :: t => supply_has t s m
  end.

(** The demand function of a commodity: the first one registered; asking for it before leaves a null one. *)
Fixpoint demand_function (h : list op) (s : nat) (c : string) : option (option (Z -> Q)) :=
  match h with
  | [] => None
  | RegisterCommodity s' c' f :: t =>
      if here s s' c c' then otherwise (demand_function t s c) (Some (Some f)) else demand_function t s c
  | AskDemandFunction s' c' :: t =>
      if here s s' c c' then otherwise (demand_function t s c) (Some None) else demand_function t s c
  | _ :: t => demand_function t s c
  end.

(** [l] lists, once each, the things with property [P]. *)
Definition lists (l : list nat) (P : nat -> Prop) : Prop := NoDup l /\ forall x, In x l <-> P x.

(** Builder [b], registered with manager [m], can have producer [p] of [c] built. *)
Definition offers (h : list op) (m : nat) (c : string) (b p : nat) : Prop :=
  manager_has h m b /\ builder_has h b p /\ info h p c <> None.

Definition cap_of (h : list op) (c : string) (p : nat) : Q := cap_or0 (info h p c).
Definition cost_of (h : list op) (c : string) (p : nat) : Q := cost_or_limit (info h p c).

(** Capacity and cost of a list of (number, producer). *)
Definition plan_cap (h : list op) (c : string) (l : list (Z * nat)) : Q :=
  qsum (map (fun e => inject_Z (fst e) * cap_of h c (snd e)) l).
Definition plan_cost (h : list op) (c : string) (l : list (Z * nat)) : Q :=
  qsum (map (fun e => inject_Z (fst e) * cost_of h c (snd e)) l).
Definition plan_of (os : list border) : list (Z * nat) := map (fun o => (bo_number o, bo_producer o)) os.

(** The solver finds an optimal solution of this manager's program if there is one. *)
Definition solver_right (solver : lp -> nat -> Q) (w : world) (m : nat) (c : string) (d : Q) : Prop :=
  forall s, set_up w m c = Ok s -> (exists sol, optimal (program s d) sol) ->
    optimal (program s d) (solver (program s d)).

(** Carrying out an order: each new producer is a copy of the ordered one and is registered with manager [pm]
    ([k] is the number of producers so far; the calls are listed latest first). *)
Fixpoint build_calls (pm k : nat) (n : nat) (p : nat) : list op :=
  match n with
  | O => []
  | S n' => build_calls pm (S k) n' p ++ [ProducersReg 0 pm k; Copy k p; NewProducer 0 0]
  end.
Fixpoint carry_out (pm k : nat) (os : list border) : list op :=
  match os with
  | [] => []
  | o :: t => carry_out pm (k + Z.to_nat (bo_number o)) t ++ build_calls pm k (Z.to_nat (bo_number o)) (bo_producer o)
  end.

(** How many objects of the other kinds there are. *)
Definition is_new_manager (o : op) : bool := match o with NewBuildingManager => true | _ => false end.
Definition is_new_supply (o : op) : bool := match o with NewSupplyDemand => true | _ => false end.
Definition managers_made (h : list op) : nat := length (filter is_new_manager h).
Definition supplies_made (h : list op) : nat := length (filter is_new_supply h).
