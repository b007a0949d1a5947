(** Translation of an exchange graph into a linear program and back (src/prog_translator.h/.cc), the
    costs of src/exchange_solver.cc 12-24 and 89-101, and ProgSolver::SolveGraph (src/prog_solver.cc 57-98).

    Simplifications, once for the whole file:
    - doubles are exact rationals; getInfinity() is [None] as an upper bound, and is what an unlimited
      capacity ([None] in the graph) is as well (both are DBL_MAX);
    - the COIN solver is an oracle: the theorems speak about every solution it may return (every feasible
      one, or every optimal one), so its tolerances, its time limit and its heuristics are not modelled;
    - a CoinPackedVector is the list of its (index, value) pairs; the order of the pairs is not observable;
    - the copies of an Arc used as keys of unit_capacities carry the same data as the arc of the graph with
      the same nodes (they are copies of it), and Arc::pref is the preference stored in the request node
      (exchange_translator.h 97 and 247 set both to the same value);
    - the vectors obj_coeffs, col_ubs, col_lbs are functions of the column number (their size, the number of
      arcs and request groups, is at least the number of columns of the matrix);
    - writing the MPS file, messages and logging are not modelled. *)
From Coq Require Import String QArith List Bool Arith ZArith Lia.
From Verif Require Import Base GreedyModel.
Import ListNotations.
Open Scope Q_scope.

(** A row of the matrix with its bounds; a column's cost and bounds. *)
Record lrow := mkLRow { lr_coef : list (nat * Q); lr_lb : Q; lr_ub : option Q }.
Record lcol := mkLCol { lc_obj : Q; lc_lb : Q; lc_ub : option Q }.
(** prog_translator.h 20-27 ProgTranslatorContext, plus the columns declared integer. *)
Record lp := mkLP { lp_ncols : nat; lp_col : nat -> lcol; lp_rows : list lrow; lp_int : list nat }.

(** g_->arc_ids()[a] (exchange_graph.cc 127-134: insert keeps the id of the first arc between the two nodes). *)
Fixpoint index_of (k : nat * nat) (l : list arc) : option nat :=
  match l with
  | [] => None
  | a :: t => if keyb k (akey a) then Some O else option_map S (index_of k t)
  end.
(** operator[] makes an entry with id 0 for an arc that is not in the graph. *)
Definition arc_id (g : graph) (k : nat * nat) : nat :=
  match index_of k (gr_arcs g) with Some i => i | None => O end.
(** The arc with these nodes. *)
Definition arc_of (g : graph) (k : nat * nat) : arc :=
  match index_of k (gr_arcs g) with
  | Some i => nth i (gr_arcs g) (mkArc 0 0 false 0)
  | None => mkArc (fst k) (snd k) false 0
  end.
Definition arc_pref (g : graph) (k : nat * nat) : Q := pref_of (node_at g (fst k)) (arc_of g k).

(** exchange_solver.cc 12-15, Cost.  A zero preference divides by zero: [None]. *)
Definition arc_cost (g : graph) (excl : bool) (k : nat * nat) : option Q :=
  let a := arc_of g k in
  let p := arc_pref g k in
  if Qeqb p 0 then None
  else Some ((if excl && a_excl a then a_exclval a else 1) / p).

(** exchange_graph.h 153-161, HasArcs. *)
Definition has_arcs (g : graph) (gr : group) : bool :=
  existsb (fun n => match n_prefs (node_at g n) with [] => false | _ => true end) (g_nodes gr).

(** State of a translation: columns, rows, and the next faux arc. *)
Record xst := mkXst { x_col : nat -> lcol; x_rows : list lrow; x_off : nat }.

Definition col_set (f : nat -> lcol) (i : nat) (c : lcol) : nat -> lcol := fset f i c.

(** prog_translator.cc 149-158: the coefficient of an arc in a capacity row. *)
Definition coeff (g : graph) (excl : bool) (k : nat * nat) (u : Q) : Q :=
  if excl && a_excl (arc_of g k) then u * a_exclval (arc_of g k) else u.

(** prog_translator.cc 139-168: the entries of capacity row [j] (without the faux arc). *)
Definition cap_entries (g : graph) (excl : bool) (gr : group) (j : nat) : list (nat * Q) :=
  flat_map (fun n => flat_map (fun e : (nat * nat) * list Q =>
              match nth_error (snd e) j with
              | Some u => [(arc_id g (fst e), coeff g excl (fst e) u)]
              | None => []
              end) (n_ucaps (node_at g n))) (g_nodes gr).

(** prog_translator.cc 160-166: cost and bounds of a request's arc; CheckPref (60-70) throws for a
    preference that is not positive. *)
Definition set_arc_col (g : graph) (excl : bool) (n : nat) (k : nat * nat) (f : nat -> lcol) : result (nat -> lcol) :=
  if Qleb (arc_pref g k) 0 then Throw ValueError
  else
    match arc_cost g excl k with
    | None => UB
    | Some c =>
        Ok (col_set f (arc_id g k)
              (mkLCol c 0 (if excl && a_excl (arc_of g k) then Some 1 else Some (n_qty (node_at g n)))))
    end.
Fixpoint set_arc_cols (g : graph) (excl : bool) (l : list (nat * (nat * nat))) (f : nat -> lcol) : result (nat -> lcol) :=
  match l with
  | [] => Ok f
  | (n, k) :: t =>
      match set_arc_col g excl n k f with
      | Ok f' => set_arc_cols g excl t f'
      | Throw e => Throw e
      | UB => UB
      end
  end.
(** The arcs of the nodes of a group, with their node. *)
Definition group_keys (g : graph) (gr : group) : list (nat * (nat * nat)) :=
  flat_map (fun n => map (fun e => (n, fst e)) (n_ucaps (node_at g n))) (g_nodes gr).

(** A node has more unit capacities on an arc than its group has capacities: cap_rows[j] out of range. *)
Definition too_many_ucaps (g : graph) (gr : group) : bool :=
  existsb (fun n => existsb (fun e : (nat * nat) * list Q => Nat.ltb (length (g_caps gr)) (length (snd e)))
                            (n_ucaps (node_at g n))) (g_nodes gr).

(** prog_translator.cc 176-189: one capacity row. *)
Definition big_cap : Q := inject_Z 1000000000000000.  (* 1e15 *)
Definition row_lb (c : option Q) : Q :=
  match c with None => big_cap | Some x => if Qltb big_cap x then big_cap else x end.
Definition cap_row (g : graph) (excl request : bool) (gr : group) (faux : nat) (j : nat) (c : option Q) : lrow :=
  let es := cap_entries g excl gr j in
  if request then mkLRow (es ++ [(faux, 1)]) (row_lb c) None else mkLRow es 0 c.
Fixpoint cap_rows_from (g : graph) (excl request : bool) (gr : group) (faux j : nat) (cs : list (option Q)) : list lrow :=
  match cs with
  | [] => []
  | c :: t => cap_row g excl request gr faux j c :: cap_rows_from g excl request gr faux (S j) t
  end.

(** prog_translator.cc 191-215: one row per exclusive node group with arcs. *)
Definition excl_row (g : graph) (ns : list nat) : list lrow :=
  match flat_map (fun n => map (fun a => (arc_id g (akey a), 1)) (arcs_of g n)) ns with
  | [] => []
  | es => [mkLRow es 0 (Some 1)]
  end.
Definition excl_rows (g : graph) (gr : group) : list lrow := flat_map (excl_row g) (g_excl gr).

(** prog_translator.cc 128-216, XlateGrp_. *)
Definition xlate_grp (g : graph) (excl request : bool) (gr : group) (x : xst) : result xst :=
  if request && negb (has_arcs g gr) then Ok x
  else if too_many_ucaps g gr then UB
  else
    match (if request then set_arc_cols g excl (group_keys g gr) (x_col x) else Ok (x_col x)) with
    | Throw e => Throw e
    | UB => UB
    | Ok col =>
        Ok (mkXst col
             (x_rows x ++ cap_rows_from g excl request gr (x_off x) 0 (g_caps gr) ++
              (if excl then excl_rows g gr else []))
             (if request then S (x_off x) else x_off x))
    end.
Fixpoint xlate_grps (g : graph) (excl request : bool) (Gs : list nat) (x : xst) : result xst :=
  match Gs with
  | [] => Ok x
  | G :: t =>
      match xlate_grp g excl request (group_at g G) x with
      | Ok x' => xlate_grps g excl request t x'
      | Throw e => Throw e
      | UB => UB
      end
  end.

(** prog_translator.cc 51-58 Init and 72-104 Translate, then 106-124 Populate. *)
Definition zero_col : lcol := mkLCol 0 0 (Some 0).
Definition to_prog (g : graph) (excl : bool) (pseudo : Q) : result lp :=
  let n := length (gr_arcs g) in
  match xlate_grps g excl false (gr_sup g) (mkXst (fun _ => zero_col) [] n) with
  | Throw e => Throw e
  | UB => UB
  | Ok x =>
      match xlate_grps g excl true (gr_req g) x with
      | Throw e => Throw e
      | UB => UB
      | Ok x =>
          Ok (mkLP (n + length (filter (fun G => has_arcs g (group_at g G)) (gr_req g)))
                   (fun i => if Nat.leb n i && Nat.ltb i (x_off x) then mkLCol pseudo 0 None else x_col x i)
                   (x_rows x)
                   (if excl then map (fun a => arc_id g (akey a)) (filter a_excl (gr_arcs g)) else []))
      end
  end.

(** prog_translator.cc 218-231, FromProg. *)
Definition flow (excl : bool) (a : arc) (x : Q) : Q := if excl && a_excl a then x * a_exclval a else x.
Fixpoint from_prog (eps : Q) (excl : bool) (arcs : list arc) (i : nat) (sol : nat -> Q) : list (arc * Q) :=
  match arcs with
  | [] => []
  | a :: t =>
      (if Qltb eps (flow excl a (sol i)) then [(a, flow excl a (sol i))] else []) ++ from_prog eps excl t (S i) sol
  end.
Definition prog_matches (eps : Q) (excl : bool) (g : graph) (sol : nat -> Q) : list (arc * Q) :=
  from_prog eps excl (gr_arcs g) 0 sol.

(** exchange_solver.cc 89-101, PseudoCostByPref, with ArcCost = Cost(a, exclusive_orders_) (exchange_solver.h).
    1/excl_val of a zero exclusive value is an infinity: times a zero cost it is a NaN, which std::max(max_cost, NaN)
    ignores; otherwise the pseudo-cost is infinite ([None]). *)
Fixpoint pseudo_from (g : graph) (excl : bool) (arcs : list arc) (m : Q) : option Q :=
  match arcs with
  | [] => Some m
  | a :: t =>
      match arc_cost g excl (akey a) with
      | None => None
      | Some c =>
          if a_excl a && Qltb (a_exclval a) 1 then
            if Qeqb (a_exclval a) 0 then (if Qeqb c 0 then pseudo_from g excl t m else None)
            else pseudo_from g excl t (qmax m (c * (1 / a_exclval a)))
          else pseudo_from g excl t (qmax m c)
      end
  end.
Definition pseudo_cost (g : graph) (excl : bool) : option Q :=
  option_map (fun m => m * (1 + (1 # 10))) (pseudo_from g excl (gr_arcs g) 0).
