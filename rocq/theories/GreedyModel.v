(** Exchange graph (src/exchange_graph.h/.cc), greedy preconditioner
    (src/greedy_preconditioner.h/.cc) and greedy solver (src/greedy_solver.h/.cc).

    Simplifications, once for the whole file:
    - doubles are exact rationals, except where the code can produce an infinity
      or a NaN (the quotient of a group capacity by a unit capacity), which has
      its own type [num] with the IEEE comparison rules;
    - boost::math::float_distance is a parameter [fd];
    - std::numeric_limits<double>::max() ("unlimited") is [None] in group
      capacities and [PInf] as a quotient: it is larger than any finite number;
    - a zero unit capacity is a positive zero;
    - nodes and groups are indices into two heaps; std::map lookups by
      [operator[]] that insert a default are lookups with that default;
    - the logging, the objective value and the arc ids are not modelled. *)
From Coq Require Import QArith List Bool Arith ZArith Lia String.
From Verif Require Import Base.
Import ListNotations.
Open Scope Q_scope.

(** ** IEEE quotients *)
Inductive num := Fin (q : Q) | PInf | NInf | NaN.

(** double operator<: false as soon as one side is a NaN. *)
Definition nlt (a b : num) : bool :=
  match a, b with
  | NaN, _ | _, NaN => false
  | NInf, NInf => false | NInf, _ => true
  | _, NInf => false
  | PInf, _ => false | _, PInf => true
  | Fin x, Fin y => Qltb x y
  end.

(** double operator/: x/0 is an infinity, 0/0 is a NaN. *)
Definition ndiv (x y : Q) : num :=
  if Qeqb y 0 then (if Qeqb x 0 then NaN else if Qltb 0 x then PInf else NInf)
  else Fin (x / y).

(** std::min(a, b) = (b < a) ? b : a. *)
Definition nmin (a b : num) : num := if nlt b a then b else a.

(** *std::min_element / *std::max_element over a non-empty range: keep the first
    element, replace it whenever a later one is smaller / larger. *)
Definition min_elt (x : num) (l : list num) : num :=
  fold_left (fun best y => if nlt y best then y else best) l x.
Definition max_elt (x : num) (l : list num) : num :=
  fold_left (fun best y => if nlt best y then y else best) l x.

(** std::stable_sort(first, last, lt): insertion sort keeping the input order of
    equivalent elements.  For a strict weak order the stable result is unique, so
    the algorithm is immaterial. *)
Fixpoint ins {A} (lt : A -> A -> bool) (x : A) (l : list A) : list A :=
  match l with
  | [] => [x]
  | y :: t => if lt y x then y :: ins lt x t else x :: l
  end.
Definition stable_sort {A} (lt : A -> A -> bool) (l : list A) : list A :=
  fold_right (ins lt) [] l.

(** ** The graph *)

(** exchange_graph.h 67-107 class Arc; identity and order of an arc are those of
    the pair of its nodes (h 86-93), see [akey]. *)
Record arc := mkArc { a_u : nat; a_v : nat; a_excl : bool; a_exclval : Q }.
Definition akey (a : arc) : nat * nat := (a_u a, a_v a).
Definition keyb (k l : nat * nat) : bool :=
  Nat.eqb (fst k) (fst l) && Nat.eqb (snd k) (snd l).

(** exchange_graph.h 27-60 struct ExchangeNode. [n_group] is NULL until the node
    is added to a group. [n_prefs] and [n_ucaps] are the std::maps keyed by Arc. *)
Record node := mkNode {
  n_group : option nat;
  n_qty : Q;
  n_excl : bool;
  n_commod : string;
  n_agent : Z;
  n_prefs : list ((nat * nat) * Q);
  n_ucaps : list ((nat * nat) * list Q) }.

(** exchange_graph.h 118-195 ExchangeNodeGroup and RequestGroup ([g_qty] is
    RequestGroup::qty_; unused for supply groups). *)
Record group := mkGroup {
  g_qty : Q;
  g_nodes : list nat;
  g_caps : list (option Q);
  g_excl : list (list nat) }.

(** exchange_graph.h 207-274 class ExchangeGraph. *)
Record graph := mkGraph {
  gr_nodes : list node;
  gr_groups : list group;
  gr_req : list nat;
  gr_sup : list nat;
  gr_arcs : list arc;
  gr_matches : list (arc * Q) }.

(** n->prefs[a] and n->unit_capacities[a]: std::map::operator[] (default value
    for a missing key). *)
Fixpoint alookup {V} (d : V) (k : nat * nat) (m : list ((nat * nat) * V)) : V :=
  match m with
  | [] => d
  | (k', v) :: t => if keyb k k' then v else alookup d k t
  end.
Definition pref_of (n : node) (a : arc) : Q := alookup 0 (akey a) (n_prefs n).
Definition ucaps_of (n : node) (a : arc) : list Q := alookup [] (akey a) (n_ucaps n).

(** graph_->node_arc_map().at(n): ExchangeGraph::AddArc (exchange_graph.cc
    127-134) appends each arc to the list of its unode and to that of its vnode. *)
Definition arcs_of (g : graph) (n : nat) : list arc :=
  flat_map (fun a => (if Nat.eqb (a_u a) n then [a] else []) ++
                     (if Nat.eqb (a_v a) n then [a] else [])) (gr_arcs g).

Section Solver.
Variable fd : Q -> Q -> Q.  (* boost::math::float_distance(a, b) *)
Variable eps : Q.           (* eps(), cyc_limits.h.in 9-15 *)

(** cyc_limits.h.in 35: float_ulp_eq. *)
Definition float_ulp_eq : Q := 2.

(** Arc::Arc(unode, vnode), exchange_graph.cc 57-79. *)
Definition arc_new (u v : nat) (nu nv : node) : arc :=
  let ex := n_excl nu || n_excl nv in
  if ex then
    let dist := fd (n_qty nu) (n_qty nv) in
    let val :=
      if n_excl nu && n_excl nv then
        if Qleb (Qabs.Qabs dist) float_ulp_eq then n_qty nu else 0
      else if n_excl nu then
        if Qleb (- float_ulp_eq) dist then n_qty nu else 0
      else
        if Qleb dist float_ulp_eq then n_qty nv else 0 in
    mkArc u v true val
  else mkArc u v false 0.

(** ** Preconditioning *)

(** AvgPref, greedy_preconditioner.cc 21-26. *)
Definition avg_pref (n : node) : Q :=
  match n_prefs n with
  | [] => 0
  | l => qsum (map snd l) / inject_Z (Z.of_nat (List.length l))
  end.

(** commod_weights_: std::map<string, double>. *)
Definition weights := list (string * Q).
Fixpoint wlookup (c : string) (w : weights) : Q :=
  match w with
  | [] => 0
  | (c', x) :: t => if String.eqb c c' then x else wlookup c t
  end.

(** NodeWeight, greedy_preconditioner.cc 133-146. (The insertion of a zero weight
    for an unknown commodity by operator[] does not change later lookups.
    Average preferences of -1 divide by zero; they cannot come from the
    translator, which only adds arcs of positive preference.) *)
Definition node_weight (w : weights) (n : node) : Q :=
  let cw := match w with [] => 1 | _ => wlookup (n_commod n) w end in
  let p := avg_pref n in
  cw * (1 + p / (1 + p)).

(** ProcessWeights_, greedy_preconditioner.cc 81-112, called by the constructors
    (31-43) when the map is not empty; the assert on negative weights is a debug
    check and is not modelled. *)
Fixpoint wmin (x : Q) (w : weights) : Q :=
  match w with [] => x | (_, y) :: t => wmin (if Qltb y x then y else x) t end.
Fixpoint wmax (x : Q) (w : weights) : Q :=
  match w with [] => x | (_, y) :: t => wmax (if Qltb x y then y else x) t end.
Definition process_weights (reverse : bool) (w : weights) : weights :=
  match w with
  | [] => []
  | (_, x) :: t =>
      if reverse then map (fun p => (fst p, wmax x t + wmin x t - snd p)) w else w
  end.

Definition node_at (g : graph) (i : nat) : node :=
  nth i (gr_nodes g) (mkNode None 0 false EmptyString 0%Z [] []).
Definition group_at (g : graph) (i : nat) : group :=
  nth i (gr_groups g) (mkGroup 0 [] [] []).

(** NodeComp, greedy_preconditioner.h 87-92. *)
Definition node_comp (w : weights) (g : graph) (l r : nat) : bool :=
  Qltb (node_weight w (node_at g r)) (node_weight w (node_at g l)).

(** GroupWeight, greedy_preconditioner.cc 115-130. *)
Definition group_weight (w : weights) (g : graph) (G : nat) : Q :=
  match g_nodes (group_at g G) with
  | [] => 0
  | l => qsum (map (fun n => node_weight w (node_at g n)) l)
           / inject_Z (Z.of_nat (List.length l))
  end.

(** GroupComp, greedy_preconditioner.h 96-99. *)
Definition group_comp (w : weights) (g : graph) (l r : nat) : bool :=
  Qltb (group_weight w g r) (group_weight w g l).

Definition set_nodes (g : graph) (G : nat) (ns : list nat) : graph :=
  match nth_error (gr_groups g) G with
  | Some gr =>
      mkGraph (gr_nodes g)
        (upd (gr_groups g) G (mkGroup (g_qty gr) ns (g_caps gr) (g_excl gr)))
        (gr_req g) (gr_sup g) (gr_arcs g) (gr_matches g)
  | None => g
  end.

Definition set_req (g : graph) (l : list nat) : graph :=
  mkGraph (gr_nodes g) (gr_groups g) l (gr_sup g) (gr_arcs g) (gr_matches g).

(** GreedyPreconditioner::Condition, greedy_preconditioner.cc 45-78: sort the
    nodes of each request group by node weight, then the groups by group weight.
    (The weight of a group is computed right after its own nodes are sorted and
    does not depend on other groups' node order; here all are computed from the
    graph after the node sorts.) *)
Definition condition_nodes (w : weights) (g : graph) : graph :=
  fold_left (fun g' G =>
               set_nodes g' G (stable_sort (node_comp w g') (g_nodes (group_at g' G))))
            (gr_req g) g.
Definition condition (w : weights) (g : graph) : graph :=
  let g1 := condition_nodes w g in
  set_req g1 (stable_sort (group_comp w g1) (gr_req g1)).

(** ** The solver *)

(** The solver's n_qty_ and grp_caps_ (greedy_solver.h 151-152) and the matches
    appended to the graph. *)
Record gst := mkGst {
  s_nq : nat -> Q;
  s_caps : nat -> list (option Q);
  s_ms : list (arc * Q) }.

Definition fset {V} (f : nat -> V) (k : nat) (v : V) : nat -> V :=
  fun i => if Nat.eqb i k then v else f i.

(** GetCaps, greedy_solver.cc 136-141. *)
Definition get_caps (g : graph) (st : gst) (G : nat) : gst :=
  let gr := group_at g G in
  mkGst (fold_left (fun f n => fset f n 0) (g_nodes gr) (s_nq st))
        (fset (s_caps st) G (g_caps gr))
        (s_ms st).

(** The quotients pushed by the loop of Capacity, greedy_solver.cc 110-126:
    [None] when group_caps is shorter than unit_caps (out of bounds). *)
Fixpoint quots (gc : list (option Q)) (uc : list Q) : option (list num) :=
  match uc, gc with
  | [], _ => Some []
  | _ :: _, [] => None
  | u :: uc', c :: gc' =>
      match quots gc' uc' with
      | Some r => Some ((match c with None => PInf | Some x => ndiv x u end) :: r)
      | None => None
      end
  end.

(** Capacity(n, a, min_cap, curr_qty), greedy_solver.cc 99-134. *)
Definition node_cap (g : graph) (st : gst) (i : nat) (a : arc) (minc : bool) : result num :=
  let n := node_at g i in
  match n_group n with
  | None => Throw StateError
  | Some G =>
      let left := Fin (n_qty n - s_nq st i) in
      match ucaps_of n a with
      | [] => Ok left
      | uc =>
          match quots (s_caps st G) uc with
          | None => UB
          | Some [] => UB
          | Some (x :: l) =>
              Ok (nmin (if minc then min_elt x l else max_elt x l) left)
          end
      end
  end.

(** Capacity(a, u_curr, v_curr), greedy_solver.cc 84-97. *)
Definition arc_cap (g : graph) (st : gst) (a : arc) : result num :=
  match node_cap g st (a_u a) a false with
  | Ok ucap =>
      match node_cap g st (a_v a) a true with
      | Ok vcap => Ok (nmin ucap vcap)
      | Throw e => Throw e
      | UB => UB
      end
  | Throw e => Throw e
  | UB => UB
  end.

(** The loop of UpdateCapacity, greedy_solver.cc 223-237: [None] when the sizes
    differ (assert, or out of bounds in a release build). *)
Fixpoint take_caps (q : Q) (gc : list (option Q)) (uc : list Q) : option (list (option Q)) :=
  match gc, uc with
  | [], [] => Some []
  | c :: gc', u :: uc' =>
      match take_caps q gc' uc' with
      | Some r => Some ((match c with None => None | Some x => Some (x - q * u) end) :: r)
      | None => None
      end
  | _, _ => None
  end.

(** UpdateCapacity, greedy_solver.cc 218-246 (IsNegative d = d < -eps(),
    cyc_arithmetic / cyc_limits.h.in 21-24). *)
Definition update_cap (g : graph) (st : gst) (i : nat) (a : arc) (q : Q) : result gst :=
  let n := node_at g i in
  match n_group n with
  | None => UB
  | Some G =>
      match take_caps q (s_caps st G) (ucaps_of n a) with
      | None => UB
      | Some c =>
          if Qltb (n_qty n - q) (- eps) then Throw ValueError
          else Ok (mkGst (s_nq st) (fset (s_caps st) G c) (s_ms st))
      end
  end.

(** The body of the inner loop, greedy_solver.cc 166-203. [m] is [match].
    std::min(remain, cap) is finite unless cap is -infinity. For an exclusive
    arc float_distance(-inf, x) throws std::domain_error (PlainError here). *)
Definition tomatch (rem : Q) (c : num) : num := nmin (Fin rem) c.

Definition excl_adjust (a : arc) (t : num) : result num :=
  if a_excl a then
    match t with
    | Fin x => if Qleb float_ulp_eq (fd x (a_exclval a)) then Ok (Fin 0)
               else Ok (Fin (a_exclval a))
    | _ => Throw PlainError
    end
  else Ok t.

Definition do_match (g : graph) (st : gst) (a : arc) (q : Q) : result gst :=
  match update_cap g st (a_u a) a q with
  | Ok st1 =>
      match update_cap g st1 (a_v a) a q with
      | Ok st2 =>
          let nq1 := fset (s_nq st2) (a_u a) (s_nq st2 (a_u a) + q) in
          let nq2 := fset nq1 (a_v a) (nq1 (a_v a) + q) in
          Ok (mkGst nq2 (s_caps st2) (s_ms st2 ++ [(a, q)]))
      | Throw e => Throw e
      | UB => UB
      end
  | Throw e => Throw e
  | UB => UB
  end.

Definition try_arc (g : graph) (target : Q) (m : Q) (st : gst) (a : arc)
  : result (Q * gst) :=
  match arc_cap g st a with
  | Ok c =>
      match excl_adjust a (tomatch (target - m) c) with
      | Ok (Fin q) =>
          if Qltb eps q then
            match do_match g st a q with
            | Ok st' => Ok (m + q, st')
            | Throw e => Throw e
            | UB => UB
            end
          else Ok (m, st)
      | Ok _ => Ok (m, st)   (* -infinity > eps() is false *)
      | Throw e => Throw e
      | UB => UB
      end
  | Throw e => Throw e
  | UB => UB
  end.

(** Inner while loop, greedy_solver.cc 166-205. *)
Fixpoint arcs_loop (g : graph) (target : Q) (arcs : list arc) (m : Q) (st : gst)
  : result (Q * gst) :=
  match arcs with
  | [] => Ok (m, st)
  | a :: rest =>
      if Qleb m target then
        match try_arc g target m st a with
        | Ok (m', st') => arcs_loop g target rest m' st'
        | Throw e => Throw e
        | UB => UB
        end
      else Ok (m, st)
  end.

(** ReqPrefComp, greedy_solver.h 27-35. *)
Definition req_pref_comp (g : graph) (l r : arc) : bool :=
  let lu := n_agent (node_at g (a_u l)) in
  let lv := n_agent (node_at g (a_v l)) in
  let ru := n_agent (node_at g (a_u r)) in
  let rv := n_agent (node_at g (a_v r)) in
  let lp := pref_of (node_at g (a_u l)) l in
  let rp := pref_of (node_at g (a_u r)) r in
  if negb (Qeqb lp rp) then Qltb rp lp
  else (ru <? lu)%Z || ((lu =? ru)%Z && (rv <? lv)%Z).

(** AvgPrefComp, greedy_solver.h 40-46. *)
Definition avg_pref_comp (g : graph) (l r : nat) : bool :=
  let lp := avg_pref (node_at g l) in
  let rp := avg_pref (node_at g r) in
  if negb (Qeqb lp rp) then Qltb rp lp
  else (n_agent (node_at g r) <? n_agent (node_at g l))%Z.

(** Outer while loop, greedy_solver.cc 156-207; a node without arcs is skipped. *)
Fixpoint nodes_loop (g : graph) (target : Q) (nodes : list nat) (m : Q) (st : gst)
  : result (Q * gst) :=
  match nodes with
  | [] => Ok (m, st)
  | n :: rest =>
      if Qleb m target then
        match arcs_loop g target (stable_sort (req_pref_comp g) (arcs_of g n)) m st with
        | Ok (m', st') => nodes_loop g target rest m' st'
        | Throw e => Throw e
        | UB => UB
        end
      else Ok (m, st)
  end.

(** GreedilySatisfySet, greedy_solver.cc 143-210. Sorting the group's nodes in
    place is visible only in the graph's node order afterwards, which only the
    optimisation solver reads (ProgSolveModel.served_order); the sorted list is
    used here without writing it back. *)
Definition satisfy_set (g : graph) (st : gst) (G : nat) : result gst :=
  let gr := group_at g G in
  match nodes_loop g (g_qty gr) (stable_sort (avg_pref_comp g) (g_nodes gr)) 0 st with
  | Ok (_, st') => Ok st'
  | Throw e => Throw e
  | UB => UB
  end.

Fixpoint satisfy_all (g : graph) (Gs : list nat) (st : gst) : result gst :=
  match Gs with
  | [] => Ok st
  | G :: rest =>
      match satisfy_set g st G with
      | Ok st' => satisfy_all g rest st'
      | Throw e => Throw e
      | UB => UB
      end
  end.

(** Init, greedy_solver.cc 48-60 (n_qty_ was cleared just before). The graph's
    matches are extended, so they start from those already there. *)
Definition init (g : graph) : gst :=
  fold_left (get_caps g) (gr_sup g)
    (fold_left (get_caps g) (gr_req g)
       (mkGst (fun _ => 0) (fun _ => []) (gr_matches g))).

(** SolveGraph, greedy_solver.cc 62-80. [w = None]: no preconditioner (NULL). *)
Definition conditioned (w : option weights) (g : graph) : graph :=
  match w with Some ws => condition ws g | None => g end.
Definition solve (w : option weights) (g : graph) : result graph :=
  let g1 := conditioned w g in
  match satisfy_all g1 (gr_req g1) (init g1) with
  | Ok st => Ok (mkGraph (gr_nodes g1) (gr_groups g1) (gr_req g1) (gr_sup g1)
                         (gr_arcs g1) (s_ms st))
  | Throw e => Throw e
  | UB => UB
  end.

End Solver.
