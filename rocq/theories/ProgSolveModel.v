(** ProgSolver::SolveGraph (prog_solver.cc 55-93) and a whole exchange solved with it. *)
From Coq Require Import String QArith List Bool Arith ZArith Lia.
From Verif Require Import Base GreedyModel ExchangeModel ProgModel.
Import ListNotations.
Open Scope Q_scope.

(** GreedilySatisfySet sorts the nodes of each request group in place (greedy_solver.cc 144-145); the
    optimisation solver sees the graph after that. *)
Definition served_order (g : graph) : graph :=
  fold_left (fun g' G => set_nodes g' G (stable_sort (avg_pref_comp g') (g_nodes (group_at g' G)))) (gr_req g) g.
(** ExchangeGraph::ClearMatches, exchange_graph.h 229. *)
Definition cleared (g : graph) : graph :=
  mkGraph (gr_nodes g) (gr_groups g) (gr_req g) (gr_sup g) (gr_arcs g) [].

Section Solve.
Variable fd : Q -> Q -> Q.
Variable mgr : nat -> Z.
Variable eps : Q.

(** prog_solver.cc 55-67. The greedy solver (default preconditioner, no weights) runs first and its
    matches are dropped; then the pseudo-cost is computed and the program made. An infinite pseudo-cost (see
    ProgModel.pseudo_from) makes a program that is not one; it is left out ([UB]). *)
Definition prog_made (excl : bool) (g : graph) : result (graph * lp) :=
  match solve fd eps (Some []) g with
  | Ok g1 =>
      let g2 := cleared (served_order g1) in
      match pseudo_cost g2 excl with
      | None => UB
      | Some ps =>
          match to_prog g2 excl ps with
          | Ok p => Ok (g2, p)
          | Throw e => Throw e
          | UB => UB
          end
      end
  | Throw e => Throw e
  | UB => UB
  end.
(** prog_solver.cc 55-93. [solver] stands for SolveProg (COIN): it maps a program to the values of its
    columns. The objective value returned, the time limit, the log and the MPS file are not modelled. *)
Definition prog_solve (excl : bool) (solver : lp -> nat -> Q) (g : graph) : result graph :=
  match prog_made excl g with
  | Ok (g2, p) => Ok (mkGraph (gr_nodes g2) (gr_groups g2) (gr_req g2) (gr_sup g2) (gr_arcs g2)
                              (prog_matches eps excl g2 (solver p)))
  | Throw e => Throw e
  | UB => UB
  end.

(** ExchangeManager::Execute, exchange_manager.h 35-68, with this solver. *)
Definition prog_exchange (excl : bool) (solver : lp -> nat -> Q) (m : market) : result (list trade) :=
  match x_bbr m with
  | [] => Ok []
  | _ =>
      match translate fd mgr m with
      | Ok (_, (g, t)) =>
          match prog_solve excl solver g with
          | Ok g' => back_all t (gr_matches g')
          | Throw e => Throw e
          | UB => UB
          end
      | Throw e => Throw e
      | UB => UB
      end
  end.
End Solve.
