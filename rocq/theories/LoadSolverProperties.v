(** C22: commodity priorities. *)
From Coq Require Import String QArith List Bool Arith ZArith Lia Lqa.
From Verif Require Import Base GreedyModel GreedySpec GreedyExamples ExchangeModel LoadSolverModel LoadSolverProofs.
Import ListNotations.
Open Scope Q_scope.

(** Declared priorities do not reach the solver: the loader reads the column "SolutionOrder", the
    table has "SolutionPriority", and the exception is taken for a missing table. Whatever is declared, the
    solver gets no weights at all. *)
Theorem C22_priorities_ignored_refuted : forall (name : string) (ds : list commod_decl),
  ds <> [] -> sim_weights name ds = Ok [].
Proof. exact sim_ignores. Qed.
Print Assumptions C22_priorities_ignored_refuted.

(** It shows in what is traded: A has priority 1, B has 2; of two requests of 5 and a supply of 5,
    the request for B is served and the one for A is not. With the right column name
    it is the other way around. *)
Theorem C22_lower_priority_served_refuted : exists ds g w g' GA GB,
  declared ds = [("A"%string, 1); ("B"%string, 2)] /\
  well_built fdx g /\ sim_weights "greedy" ds = Ok w /\ solve fdx (1 # 1000) (Some w) g = Ok g' /\
  In GA (gr_req g) /\ In GB (gr_req g) /\
  (forall n, In n (g_nodes (group_at g GA)) -> n_commod (node_at g n) = "A"%string) /\
  (forall n, In n (g_nodes (group_at g GB)) -> n_commod (node_at g n) = "B"%string) /\
  g_qty (group_at g GA) == 5 /\ on_group g (gr_matches g') GA == 0 /\
  g_qty (group_at g GB) == 5 /\ on_group g (gr_matches g') GB == 5 /\
  exists w' g'', solver_weights "SolutionPriority" "greedy" ds = Ok w' /\
    solve fdx (1 # 1000) (Some w') g = Ok g'' /\
    on_group g (gr_matches g'') GA == 5 /\ on_group g (gr_matches g'') GB == 0.
Proof. exact priorities_refuted_proof. Qed.
Print Assumptions C22_lower_priority_served_refuted.

(** The rest of the path is right: recorded priorities are the declared ones, undeclared
    commodities come after all declared ones ... *)
Theorem C22_recorded_priorities : forall (ds : list commod_decl) (m : list (string * Q)),
  process_commods (declared ds) = Ok m ->
  forall c p, mfind String.eqb c (declared ds) = Some p ->
    exists p', mfind String.eqb c m = Some p' /\ (1 <= p -> p' = p) /\
      (p < 1 -> forall c2 p2, mfind String.eqb c2 (declared ds) = Some p2 -> 1 <= p2 -> p2 < p').
Proof. exact processed. Qed.
Print Assumptions C22_recorded_priorities.

(** ... and if the column names matched, a smaller priority number would be a larger weight. Missing for the
    full claim: the column names do not match. *)
Theorem C22_matching_column_partial : forall (ds : list commod_decl) (m : list (string * Q)),
  process_commods (declared ds) = Ok m ->
  exists w, solver_weights "SolutionPriority" "greedy" ds = Ok w /\
  forall c1 c2 p1 p2, mfind String.eqb c1 m = Some p1 -> mfind String.eqb c2 m = Some p2 ->
    p1 < p2 -> wlookup c2 w < wlookup c1 w.
Proof. exact matching_order. Qed.
Print Assumptions C22_matching_column_partial.

(** Three commodities, one without a priority: recorded as 2, 5 and 6. *)
Example C22_ex : process_commods (declared [("A"%string, Some 2); ("B"%string, None); ("C"%string, Some 5)])
  = Ok [("A"%string, 2); ("B"%string, 5 + 1); ("C"%string, 5)] /\
  sim_weights "greedy" [("A"%string, Some 2); ("B"%string, None); ("C"%string, Some 5)] = Ok [].
Proof. split; vm_compute; reflexivity. Qed.
