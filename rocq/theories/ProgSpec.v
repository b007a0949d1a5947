(** Vocabulary for the optimisation solver (C52): solutions of a linear program, and graphs as the exchange
    builds them.  Nothing here refers to how the program is made. *)
From Coq Require Import String QArith List Bool Arith ZArith Lia.
From Verif Require Import Base GreedyModel GreedySpec ProgModel.
Import ListNotations.
Open Scope Q_scope.

(** Value of a row, and of the objective. *)
Definition row_val (es : list (nat * Q)) (sol : nat -> Q) : Q := qsum (map (fun e => snd e * sol (fst e)) es).
Definition objective (p : lp) (sol : nat -> Q) : Q :=
  qsum (map (fun i => lc_obj (lp_col p i) * sol i) (seq 0 (lp_ncols p))).

(** The solver may return any point that satisfies the bounds, the rows and the integrality... *)
Definition feasible (p : lp) (sol : nat -> Q) : Prop :=
  (forall i, (i < lp_ncols p)%nat -> lc_lb (lp_col p i) <= sol i /\ within (sol i) (lc_ub (lp_col p i))) /\
  (forall r, In r (lp_rows p) -> lr_lb r <= row_val (lr_coef r) sol /\ within (row_val (lr_coef r) sol) (lr_ub r)) /\
  (forall i, In i (lp_int p) -> exists z, sol i == inject_Z z).
(** ... or, when it proves optimality, a cheapest one. *)
Definition optimal (p : lp) (sol : nat -> Q) : Prop :=
  feasible p sol /\ forall sol', feasible p sol' -> objective p sol <= objective p sol'.

(** A graph as the exchange builds it, as far as the program is concerned: one arc per pair of nodes; the unit
    capacities of a node are those of its own arcs; the nodes of a group are different nodes, in that group; the
    request (bid) node of an arc is in one of the request (supply) groups, with as many unit capacities as the group has
    capacities, and is listed there with its preference. *)
Record prog_ready (g : graph) : Prop := mkPR {
  pr_keys : NoDup (map akey (gr_arcs g));
  pr_ukeys : forall n, NoDup (map fst (n_ucaps (node_at g n)));
  pr_nodes : forall G, In G (gr_req g ++ gr_sup g) -> NoDup (g_nodes (group_at g G));
  pr_group : forall G n, In G (gr_req g ++ gr_sup g) -> In n (g_nodes (group_at g G)) -> n_group (node_at g n) = Some G;
  pr_groups : NoDup (gr_req g ++ gr_sup g);
  pr_u : forall G n k, In G (gr_req g) -> In n (g_nodes (group_at g G)) -> In k (map fst (n_ucaps (node_at g n))) ->
    exists a, In a (gr_arcs g) /\ akey a = k /\ a_u a = n;
  pr_v : forall G n k, In G (gr_sup g) -> In n (g_nodes (group_at g G)) -> In k (map fst (n_ucaps (node_at g n))) ->
    exists a, In a (gr_arcs g) /\ akey a = k /\ a_v a = n;
  pr_arc : forall a, In a (gr_arcs g) -> exists GU GV,
    In GU (gr_req g) /\ In (a_u a) (g_nodes (group_at g GU)) /\
    In GV (gr_sup g) /\ In (a_v a) (g_nodes (group_at g GV)) /\
    length (ucaps_of (node_at g (a_u a)) a) = length (g_caps (group_at g GU)) /\
    length (ucaps_of (node_at g (a_v a)) a) = length (g_caps (group_at g GV)) /\
    In (akey a) (map fst (n_prefs (node_at g (a_u a))));
  pr_caps : forall G, In G (gr_req g) -> g_caps (group_at g G) <> [];
  pr_pos : forall n e u, In e (n_ucaps (node_at g n)) -> In u (snd e) -> 0 < u;
  pr_len : forall G n e, In G (gr_req g ++ gr_sup g) -> In n (g_nodes (group_at g G)) -> In e (n_ucaps (node_at g n)) ->
    length (snd e) = length (g_caps (group_at g G));
  pr_excl : forall G ns n, In G (gr_req g ++ gr_sup g) -> In ns (g_excl (group_at g G)) -> In n ns ->
    In n (g_nodes (group_at g G)) /\ n_excl (node_at g n) = true;
  pr_exarc : forall a, In a (gr_arcs g) -> a_excl a = n_excl (node_at g (a_u a)) || n_excl (node_at g (a_v a));
  pr_val : forall a, In a (gr_arcs g) -> 0 <= a_exclval a
}.

(** What the solution sends along each arc: column [i] belongs to the [i]-th arc. *)
Definition flows (g : graph) (sol : nat -> Q) : list (arc * Q) :=
  combine (gr_arcs g) (map sol (seq 0 (length (gr_arcs g)))).

(** The arc touches a node of [ns]. *)
Definition touches (a : arc) (ns : list nat) : Prop := In (a_u a) ns \/ In (a_v a) ns.
