(** C17-C21: what the greedy exchange solver and its preconditioner guarantee. *)
From Coq Require Import String QArith List Bool Arith ZArith Lia Lqa Permutation Sorted Qabs.
From Verif Require Import Base GreedyModel GreedySpec GreedyProofs1 GreedyProofs2 GreedyProofs3
  GreedyProofs4 GreedyProofs5 GreedyProofs6 GreedyExamples.
Import ListNotations.
Open Scope Q_scope.

(** *** C17: supply capacities *)

(** Solving a well-built graph never throws and never reads out of bounds. *)
Theorem C17_solve_succeeds : forall (fd : Q -> Q -> Q) (eps tol : Q) (w : option weights) (g : graph),
  fd_ok fd tol -> tol <= eps -> well_built fd g ->
  exists g', solve fd eps w g = Ok g'.
Proof. exact (fun fd eps tol w g FD TE WB => match solve_run fd eps tol w g FD TE WB with
                         | ex_intro _ h (conj E _) => ex_intro _ h E end). Qed.
Print Assumptions C17_solve_succeeds.

(** Every constraint of every supply group bounds what is matched, up to the
    tolerance of the exclusive-order comparison times the largest unit capacity. *)
Theorem C17_supply_capacity : forall (fd : Q -> Q -> Q) (eps tol : Q) (w : option weights) (g g' : graph),
  fd_ok fd tol -> tol <= eps -> well_built fd g -> solve fd eps w g = Ok g' ->
  forall G i c U,
    nth_error (g_caps (group_at g G)) i = Some (Some c) ->
    0 <= U ->
    (forall a, In a (gr_arcs g) -> vgroup g a = Some G -> vunit g a i <= U) ->
    vload g (gr_matches g') G i <= c + tol * U.
Proof. exact (fun fd eps tol w g g' FD TE WB SV => sup_bound_g fd eps tol w g FD TE WB g' SV). Qed.
Print Assumptions C17_supply_capacity.

(** The example graph (GreedyExamples.exG) meets the hypotheses with tolerance 0, is
    solved, and its first supply constraint (13) is used for 12.5. *)
Example C17_ex : fd_ok fdx 0 /\ 0 <= 1 # 1000 /\ well_built fdx exG /\
  match solve fdx (1 # 1000) None exG with
  | Ok g => Qeqb (vload exG (gr_matches g) 2 0) (25 # 2) = true | _ => False end.
Proof. split; [exact fdx_ok|split; [discriminate|split; [exact exG_wb|exact exG_load]]]. Qed.

(** With an exact comparison the constraint holds outright. *)
Theorem C17_supply_capacity_exact : forall (fd : Q -> Q -> Q) (eps tol : Q) (w : option weights) (g g' : graph),
  fd_ok fd tol -> tol <= eps -> well_built fd g -> solve fd eps w g = Ok g' ->
  forall G i c, tol == 0 ->
    nth_error (g_caps (group_at g G)) i = Some (Some c) ->
    vload g (gr_matches g') G i <= c.
Proof. exact (fun fd eps tol w g g' FD TE WB SV => sup_bound_exact fd eps tol w g FD TE WB g' SV). Qed.
Print Assumptions C17_supply_capacity_exact.

(** The hypothesis that unit capacities are positive is needed. Here a supply group
    has the constraints "1" and "5"; the first bid uses up the first constraint
    exactly, the second bid does not use it (unit capacity 0). 0/0 is a NaN, which
    hides the second constraint: 100 is matched where 4 are left. *)
Theorem C17_zero_unit_refuted : exists g g' G i c,
  (forall n k l, In (k, l) (n_ucaps (node_at g n)) -> Forall (fun x => 0 <= x) l) /\
  (forall G i c, nth_error (g_caps (group_at g G)) i = Some (Some c) -> 0 < c) /\
  solve fdx (1 # 1000) None g = Ok g' /\
  nth_error (g_caps (group_at g G)) i = Some (Some c) /\
  c < vload g (gr_matches g') G i.
Proof. exact zero_unit_refuted_proof. Qed.
Print Assumptions C17_zero_unit_refuted.

(** *** C18: requests are not over-satisfied *)

(** Never more than the request group's quantity. *)
Theorem C18_group_quantity : forall (fd : Q -> Q -> Q) (eps tol : Q) (w : option weights) (g g' : graph),
  fd_ok fd tol -> tol <= eps -> well_built fd g -> solve fd eps w g = Ok g' ->
  forall G, In G (gr_req g) -> on_group g (gr_matches g') G <= g_qty (group_at g G) + tol.
Proof. exact (fun fd eps tol w g g' FD TE WB SV => group_bound_g fd eps tol w g FD TE WB g' SV). Qed.
Print Assumptions C18_group_quantity.

(** In the example both request groups get exactly what they want. *)
Example C18_ex : match solve fdx (1 # 1000) None exG with
  | Ok g => Qeqb (on_group exG (gr_matches g) 0) 10 && Qeqb (on_group exG (gr_matches g) 1) 5 = true
  | _ => False end.
Proof. vm_compute. reflexivity. Qed.

(** Never more than the quantity of a request node, nor of a bid node. *)
Theorem C18_node_quantity : forall (fd : Q -> Q -> Q) (eps tol : Q) (w : option weights) (g g' : graph),
  fd_ok fd tol -> tol <= eps -> well_built fd g -> solve fd eps w g = Ok g' ->
  forall n, on_unode (gr_matches g') n <= n_qty (node_at g n) + tol /\
            on_vnode (gr_matches g') n <= n_qty (node_at g n) + tol.
Proof. exact (fun fd eps tol w g g' FD TE WB SV => node_bound_g fd eps tol w g FD TE WB g' SV). Qed.
Print Assumptions C18_node_quantity.

(** Among the constraints of a request group at least one holds ... *)
Theorem C18_one_constraint : forall (fd : Q -> Q -> Q) (eps tol : Q) (w : option weights) (g g' : graph),
  fd_ok fd tol -> tol <= eps -> well_built fd g -> solve fd eps w g = Ok g' ->
  forall G, g_caps (group_at g G) <> [] ->
  exists i c, nth_error (g_caps (group_at g G)) i = Some c /\
    forall y U, c = Some y -> 0 <= U ->
      (forall a, In a (gr_arcs g) -> ugroup g a = Some G -> uunit g a i <= U) ->
      uload g (gr_matches g') G i <= y + tol * U.
Proof. exact (fun fd eps tol w g g' FD TE WB SV => req_bound_g fd eps tol w g FD TE WB g' SV). Qed.
Print Assumptions C18_one_constraint.

(** ... so a single constraint (the one every translated portfolio has) holds. *)
Theorem C18_single_constraint : forall (fd : Q -> Q -> Q) (eps tol : Q) (w : option weights) (g g' : graph),
  fd_ok fd tol -> tol <= eps -> well_built fd g -> solve fd eps w g = Ok g' ->
  forall G c U, g_caps (group_at g G) = [Some c] -> 0 <= U ->
    (forall a, In a (gr_arcs g) -> ugroup g a = Some G -> uunit g a 0 <= U) ->
    uload g (gr_matches g') G 0 <= c + tol * U.
Proof. exact (fun fd eps tol w g g' FD TE WB SV => req_bound_single fd eps tol w g FD TE WB g' SV). Qed.
Print Assumptions C18_single_constraint.

(** With several constraints on a request group the tighter ones are ignored. *)
Theorem C18_every_constraint_refuted : exists g g' G i c,
  well_built fdx g /\ solve fdx (1 # 1000) None g = Ok g' /\ In G (gr_req g) /\
  nth_error (g_caps (group_at g G)) i = Some (Some c) /\
  c < uload g (gr_matches g') G i.
Proof. exact every_constraint_refuted_proof. Qed.
Print Assumptions C18_every_constraint_refuted.

(** *** C19: exclusive orders *)

(** A match on an exclusive arc carries the whole exclusive order. *)
Theorem C19_all_or_nothing : forall (fd : Q -> Q -> Q) (eps tol : Q) (w : option weights) (g g' : graph),
  fd_ok fd tol -> tol <= eps -> well_built fd g -> solve fd eps w g = Ok g' ->
  forall a q, In (a, q) (gr_matches g') -> a_excl a = true ->
    (n_excl (unode g a) = true -> q = n_qty (unode g a)) /\
    (n_excl (unode g a) = false -> q = n_qty (vnode g a)) /\
    (n_excl (vnode g a) = true -> Qabs (q - n_qty (vnode g a)) <= tol).
Proof. exact (fun fd eps tol w g g' FD TE WB SV => excl_match fd eps tol w g FD TE WB g' SV). Qed.
Print Assumptions C19_all_or_nothing.

(** In the example the exclusive request (node 1, quantity 5) is matched. *)
Example C19_ex : match solve fdx (1 # 1000) None exG with
  | Ok g => exists q, nth_error (gr_matches g) 2 = Some (ex_arc 1 4, q) /\ q = n_qty (unode exG (ex_arc 1 4)) /\
      n_excl (unode exG (ex_arc 1 4)) = true
  | _ => False end.
Proof. vm_compute. exists 5. auto. Qed.

(** An exclusive request is matched at most once. *)
Theorem C19_request_once : forall (fd : Q -> Q -> Q) (eps tol : Q) (w : option weights) (g g' : graph),
  fd_ok fd tol -> tol <= eps -> well_built fd g -> solve fd eps w g = Ok g' ->
  forall m1 a q m2 b r m3, gr_matches g' = m1 ++ (a, q) :: m2 ++ (b, r) :: m3 ->
    a_u a = a_u b -> n_excl (unode g a) = false.
Proof. exact (fun fd eps tol w g g' FD TE WB SV => excl_once_u fd eps tol w g FD TE WB g' SV). Qed.
Print Assumptions C19_request_once.

(** An exclusive bid is matched at most once. *)
Theorem C19_bid_once : forall (fd : Q -> Q -> Q) (eps tol : Q) (w : option weights) (g g' : graph),
  fd_ok fd tol -> tol <= eps -> well_built fd g -> solve fd eps w g = Ok g' ->
  forall m1 a q m2 b r m3, 2 * tol <= eps ->
    gr_matches g' = m1 ++ (a, q) :: m2 ++ (b, r) :: m3 ->
    a_v a = a_v b -> n_excl (vnode g a) = false.
Proof. exact (fun fd eps tol w g g' FD TE WB SV => excl_once_v fd eps tol w g FD TE WB g' SV). Qed.
Print Assumptions C19_bid_once.

(** But two exclusive bids of the same object (an exclusive node group, over which
    "flow is only allowed to flow over one", exchange_graph.h 141-149) are both
    matched: the solver never reads the exclusive node groups. *)
Theorem C19_same_object_refuted : exists g g' G grp a q b r,
  well_built fdx g /\ solve fdx (1 # 1000) None g = Ok g' /\
  In G (gr_sup g) /\ In grp (g_excl (group_at g G)) /\
  In (a, q) (gr_matches g') /\ In (b, r) (gr_matches g') /\
  In (a_v a) grp /\ In (a_v b) grp /\ a_v a <> a_v b.
Proof. exact same_object_refuted_proof. Qed.
Print Assumptions C19_same_object_refuted.

(** *** C20: preference order and exhaustion *)

(** Of two matches of the same request group, the earlier one belongs to a request of
    at least the same average preference and, for the same request, has at least
    the same preference. *)
Theorem C20_preference_order : forall (fd : Q -> Q -> Q) (eps tol : Q) (w : option weights) (g g' : graph),
  fd_ok fd tol -> tol <= eps -> well_built fd g -> solve fd eps w g = Ok g' ->
  forall l1 a q l2 b r l3, gr_matches g' = l1 ++ (a, q) :: l2 ++ (b, r) :: l3 ->
    ugroup g a = ugroup g b ->
    avg_pref (unode g b) <= avg_pref (unode g a) /\
    (a_u a = a_u b -> pref_of (unode g b) b <= pref_of (unode g a) a).
Proof. exact (fun fd eps tol w g g' FD TE WB SV => order_g fd eps tol w g FD TE WB g' SV). Qed.
Print Assumptions C20_preference_order.

(** In the example the better bid (node 3, preference 2) is used up before node 2
    (preference 1) is touched, and with a quantity of 8 on node 2 only 6 are taken. *)
Example C20_ex : match solve fdx (1 # 1000) None exG with
  | Ok g => Qeq_ms (gr_matches g) [(ex_arc 0 3, 4); (ex_arc 0 2, 6); (ex_arc 1 4, 5)] = true
  | _ => False end.
Proof. vm_compute. reflexivity. Qed.

(** Request groups are served one after the other, in the order of the conditioned
    graph. *)
Theorem C20_group_order : forall (fd : Q -> Q -> Q) (eps tol : Q) (w : option weights) (g g' : graph),
  fd_ok fd tol -> tol <= eps -> well_built fd g -> solve fd eps w g = Ok g' ->
  forall l1 a q l2 b r l3, gr_matches g' = l1 ++ (a, q) :: l2 ++ (b, r) :: l3 ->
    exists GA GB, ugroup g a = Some GA /\ ugroup g b = Some GB /\
      (GA = GB \/ exists x y z, gr_req g' = x ++ GA :: y ++ GB :: z).
Proof. exact (fun fd eps tol w g g' FD TE WB SV => group_order_g fd eps tol w g FD TE WB g' SV). Qed.
Print Assumptions C20_group_order.

(** With a preconditioner, groups of larger weight are served first. *)
Theorem C20_heavier_groups_first : forall (fd : Q -> Q -> Q) (eps tol : Q) (w : option weights) (g g' : graph),
  fd_ok fd tol -> tol <= eps -> well_built fd g -> solve fd eps w g = Ok g' ->
  forall ws l1 a q l2 b r l3 GA GB, w = Some ws ->
    gr_matches g' = l1 ++ (a, q) :: l2 ++ (b, r) :: l3 ->
    ugroup g a = Some GA -> ugroup g b = Some GB ->
    group_weight ws g GB <= group_weight ws g GA.
Proof. exact (fun fd eps tol w g g' FD TE WB SV => group_weight_order fd eps tol w g FD TE WB g' SV). Qed.
Print Assumptions C20_heavier_groups_first.

(** When an arc is matched, no better arc of the group still had room: nothing above
    eps for a divisible arc, not the whole order for an exclusive one. *)
Theorem C20_better_first : forall (fd : Q -> Q -> Q) (eps tol : Q) (w : option weights) (g g' : graph),
  fd_ok fd tol -> tol <= eps -> well_built fd g -> solve fd eps w g = Ok g' ->
  forall l1 b r l2 a G, gr_matches g' = l1 ++ (b, r) :: l2 ->
    In a (gr_arcs g) -> ugroup g a = Some G -> ugroup g b = Some G ->
    (avg_pref (unode g b) < avg_pref (unode g a) \/
     (a_u a = a_u b /\ pref_of (unode g b) b < pref_of (unode g a) a)) ->
    if a_excl a then (exists q, In (a, q) l1) \/ a_exclval a <= eps \/
         ~ (a_exclval a <= g_qty (group_at g G) - on_group g l1 G /\ room g l1 a (a_exclval a))
    else forall q, eps < q -> q <= g_qty (group_at g G) - on_group g l1 G -> ~ room g l1 a q.
Proof. exact (fun fd eps tol w g g' FD TE WB SV => first_choice_g fd eps tol w g FD TE WB g' SV). Qed.
Print Assumptions C20_better_first.

(** At the end, if something is still wanted by a group, no arc of the group can take
    it: no quantity above eps fits on a divisible arc, and an exclusive arc is
    matched or its order does not fit. *)
Theorem C20_nothing_left : forall (fd : Q -> Q -> Q) (eps tol : Q) (w : option weights) (g g' : graph),
  fd_ok fd tol -> tol <= eps -> well_built fd g -> solve fd eps w g = Ok g' ->
  forall a G, In a (gr_arcs g) -> ugroup g a = Some G ->
    on_group g (gr_matches g') G <= g_qty (group_at g G) ->
    if a_excl a then (exists q, In (a, q) (gr_matches g')) \/ a_exclval a <= eps \/
         ~ (a_exclval a <= g_qty (group_at g G) - on_group g (gr_matches g') G /\
            room g (gr_matches g') a (a_exclval a))
    else forall q, eps < q -> q <= g_qty (group_at g G) - on_group g (gr_matches g') G ->
           ~ room g (gr_matches g') a q.
Proof. exact (fun fd eps tol w g g' FD TE WB SV => exhausted_g fd eps tol w g FD TE WB g' SV). Qed.
Print Assumptions C20_nothing_left.

(** Matches are on arcs of the graph and larger than eps. *)
Theorem C20_matches_are_real : forall (fd : Q -> Q -> Q) (eps tol : Q) (w : option weights) (g g' : graph),
  fd_ok fd tol -> tol <= eps -> well_built fd g -> solve fd eps w g = Ok g' ->
  forall a q, In (a, q) (gr_matches g') -> In a (gr_arcs g) /\ eps < q.
Proof. exact (fun fd eps tol w g g' FD TE WB SV => match_real fd eps tol w g FD TE WB g' SV). Qed.
Print Assumptions C20_matches_are_real.

(** *** C21: preconditioning *)

(** Conditioning keeps nodes, arcs, supply groups, quantities and capacities; it
    permutes the request groups and the nodes of each. *)
Theorem C21_only_reorders : forall (ws : weights) (g : graph),
  let h := condition ws g in
  gr_nodes h = gr_nodes g /\ gr_arcs h = gr_arcs g /\ gr_sup h = gr_sup g /\
  gr_matches h = gr_matches g /\
  Permutation (gr_req h) (gr_req g) /\
  forall G, Permutation (g_nodes (group_at h G)) (g_nodes (group_at g G)) /\
            g_qty (group_at h G) = g_qty (group_at g G) /\
            g_caps (group_at h G) = g_caps (group_at g G) /\
            g_excl (group_at h G) = g_excl (group_at g G).
Proof. exact only_reorders_proof. Qed.
Print Assumptions C21_only_reorders.

(** Portfolios end up in decreasing weight, the requests of each portfolio too. *)
Theorem C21_groups_sorted : forall (ws : weights) (g : graph),
  StronglySorted (fun x y => portfolio_weight ws g y <= portfolio_weight ws g x) (gr_req (condition ws g)).
Proof. exact groups_sorted. Qed.
Print Assumptions C21_groups_sorted.

Theorem C21_nodes_sorted : forall (ws : weights) (g : graph) G, In G (gr_req g) ->
  StronglySorted (fun x y => request_weight ws (node_at g y) <= request_weight ws (node_at g x))
    (g_nodes (group_at (condition ws g) G)).
Proof. exact nodes_sorted. Qed.
Print Assumptions C21_nodes_sorted.

(** In particular a commodity of at least twice the weight is served first whatever the
    (non-negative) preferences, ... *)
Theorem C21_heavier_first : forall ws g G x y, In G (gr_req g) ->
  (forall k v, In (k, v) (n_prefs (node_at g x)) -> 0 <= v) -> (forall k v, In (k, v) (n_prefs (node_at g y)) -> 0 <= v) ->
  0 < declared_weight ws (n_commod (node_at g x)) -> 0 <= declared_weight ws (n_commod (node_at g y)) ->
  2 * declared_weight ws (n_commod (node_at g y)) <= declared_weight ws (n_commod (node_at g x)) ->
  ~ precedes (g_nodes (group_at (condition ws g) G)) y x.
Proof. exact heavier_first. Qed.
Print Assumptions C21_heavier_first.

(** ... and between requests of equal weight the one preferred more on average goes
    first. *)
Theorem C21_preferred_first : forall ws g G x y, In G (gr_req g) ->
  (forall k v, In (k, v) (n_prefs (node_at g y)) -> 0 <= v) ->
  0 < declared_weight ws (n_commod (node_at g x)) ->
  declared_weight ws (n_commod (node_at g x)) == declared_weight ws (n_commod (node_at g y)) ->
  mean_pref (node_at g y) < mean_pref (node_at g x) ->
  ~ precedes (g_nodes (group_at (condition ws g) G)) y x.
Proof. exact preferred_first. Qed.
Print Assumptions C21_preferred_first.

(** Weights given lightest-first are turned around: the order of the declared
    commodities is exactly reversed and no weight becomes negative. *)
Theorem C21_reverse_weights : forall (ws : weights) c d, NoDup (map fst ws) ->
  In c (map fst ws) -> In d (map fst ws) ->
  (forall e, In e (map fst ws) -> 0 <= wlookup e ws) ->
  (wlookup c (process_weights true ws) <= wlookup d (process_weights true ws) <->
   wlookup d ws <= wlookup c ws) /\
  0 <= wlookup c (process_weights true ws).
Proof. exact reverse_weights_proof. Qed.
Print Assumptions C21_reverse_weights.

Example C21_ex : gr_req (condition [("fuel"%string, 2)] exG) = [0%nat; 1%nat] /\
  wlookup "a" (process_weights true [("a"%string, 1); ("b"%string, 3)]) == 3.
Proof. vm_compute. split; reflexivity. Qed.

(** A portfolio of a request for "ash" (mean preference 9) and one for "fuel" (mean
    preference 1): with weight 2 against 1 the request for fuel goes first, without weights
    the request for ash. *)
Definition two_reqs : graph := mkGraph
  [mkNode (Some 0%nat) 1 false "ash" 1 [((0%nat, 2%nat), 8); ((0%nat, 3%nat), 10)] []; mkNode (Some 0%nat) 1 false "fuel" 1 [((1%nat, 4%nat), 1)] []]
  [mkGroup 2 [0%nat; 1%nat] [] []] [0%nat] [] [] [].
Example C21_ex_weights :
  g_nodes (group_at (condition [("ash"%string, 1); ("fuel"%string, 2)] two_reqs) 0) = [1%nat; 0%nat] /\
  g_nodes (group_at (condition [] two_reqs) 0) = [0%nat; 1%nat] /\
  mean_pref (node_at two_reqs 0) == 9 /\ mean_pref (node_at two_reqs 1) == 1 /\
  declared_weight [("ash"%string, 1); ("fuel"%string, 2)] "fuel" = 2.
Proof. vm_compute. repeat split; reflexivity. Qed.
