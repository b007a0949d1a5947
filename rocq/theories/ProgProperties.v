(** C52: what the optimisation-based exchange solver guarantees, for every solution the
    external solver may return. *)
From Coq Require Import String QArith List Bool Arith ZArith Lia Lqa.
From Verif Require Import Base GreedyModel GreedySpec GreedyExamples ProgModel ProgSpec
  ProgProofs1 ProgProofs2 ProgProofs3 ProgProofs4 ProgProofs5.
Import ListNotations.
Open Scope Q_scope.

(** A program is made, unless a preference is zero or negative; that is a ValueError. *)
Theorem C52_program_made : forall g excl pseudo, prog_ready g ->
  (to_prog g excl pseudo = Throw ValueError /\ exists a, In a (gr_arcs g) /\ pref_of (unode g a) a <= 0) \/
  (exists p, to_prog g excl pseudo = Ok p /\ forall a, In a (gr_arcs g) -> 0 < pref_of (unode g a) a).
Proof. exact prog_refuses. Qed.
Print Assumptions C52_program_made.

(** It always has a solution (demand may be left unmet). *)
Theorem C52_feasible : forall g excl pseudo p, prog_ready g -> to_prog g excl pseudo = Ok p ->
  (forall G j c, nth_error (g_caps (group_at g G)) j = Some (Some c) -> 0 <= c) ->
  (forall a, In a (gr_arcs g) -> 0 <= n_qty (unode g a)) ->
  exists sol, feasible p sol.
Proof. exact always_feasible. Qed.
Print Assumptions C52_feasible.

(** Whatever feasible solution comes back, the matches respect every constraint of
    every supply group. *)
Theorem C52_supply_capacity : forall g excl pseudo p sol eps,
  prog_ready g -> to_prog g excl pseudo = Ok p -> feasible p sol ->
  forall G j c, In G (gr_sup g) -> nth_error (g_caps (group_at g G)) j = Some c ->
  within (vload g (prog_matches eps excl g sol) G j) c.
Proof. exact supply_respected. Qed.
Print Assumptions C52_supply_capacity.

(** Matches lie on arcs of the graph, at most one per arc, above the tolerance and on
    positive preferences; a divisible match is at most what the request asked for, an
    exclusive one is exactly the exclusive quantity. *)
Theorem C52_matches : forall g excl pseudo p sol eps,
  prog_ready g -> to_prog g excl pseudo = Ok p -> feasible p sol -> 0 <= eps ->
  NoDup (map fst (prog_matches eps excl g sol)) /\
  forall a q, In (a, q) (prog_matches eps excl g sol) ->
    In a (gr_arcs g) /\ eps < q /\ 0 < pref_of (unode g a) a /\
    (excl && a_excl a = false -> q <= n_qty (unode g a)) /\
    (excl && a_excl a = true -> q == a_exclval a).
Proof.
  exact (fun g excl pseudo p sol eps PR TP FE He => conj (matches_once g excl sol eps PR)
    (fun a q H => match match_basic g excl pseudo p sol eps PR TP a q H with conj A (conj B C) =>
       conj A (conj B (conj C (conj (match_qty g excl pseudo p sol eps PR TP FE a q H)
                                    (match_excl g excl pseudo p sol eps PR TP FE He a q H)))) end)).
Qed.
Print Assumptions C52_matches.

(** At most one order is matched among the nodes that offer, or ask for, the same thing
    exclusively. *)
Theorem C52_exclusive : forall g pseudo p sol eps,
  prog_ready g -> to_prog g true pseudo = Ok p -> feasible p sol -> 0 <= eps ->
  forall G ns a1 q1 a2 q2, In G (gr_req g ++ gr_sup g) -> In ns (g_excl (group_at g G)) ->
  In (a1, q1) (prog_matches eps true g sol) -> In (a2, q2) (prog_matches eps true g sol) ->
  touches a1 ns -> touches a2 ns -> a1 = a2.
Proof. exact (fun g pseudo p sol eps PR TP FE He G ns a1 q1 a2 q2 => excl_group g true pseudo p sol eps PR TP FE He G ns a1 q1 a2 q2 eq_refl). Qed.
Print Assumptions C52_exclusive.

(** The example of C17 (GreedyExamples.exG; one of its arcs is exclusive) is ready, its
    program has the solution 6, 4, 1 (the exclusive order of 5), and this uses 12.5 of 13. *)
Example C52_ex : prog_ready exG /\ to_prog exG true (55 # 10) = Ok exG_lp /\ pseudo_cost exG true = Some (55 # 10) /\
  feasible exG_lp (sol_of [6; 4; 1; 0; 0]) /\
  map snd (prog_matches (1 # 1000000) true exG (sol_of [6; 4; 1; 0; 0])) = [6; 4; 5] /\
  Qeqb (vload exG (prog_matches (1 # 1000000) true exG (sol_of [6; 4; 1; 0; 0])) 2 0) (25 # 2) = true.
Proof.
  split; [exact exG_ready|]. split; [reflexivity|]. split; [vm_compute; reflexivity|]. split; [exact exG_feasible|].
  split; vm_compute; reflexivity.
Qed.

(** A cheapest solution without exclusive orders does not give a request group more
    than its loosest constraint. *)
Theorem C52_request_group : forall g pseudo p sol eps G,
  prog_ready g -> to_prog g false pseudo = Ok p -> optimal p sol -> 0 <= eps ->
  (forall G j c, nth_error (g_caps (group_at g G)) j = Some (Some c) -> 0 <= c) ->
  In G (gr_req g) ->
  exists j c, nth_error (g_caps (group_at g G)) j = Some c /\ within (uload g (prog_matches eps false g sol) G j) c.
Proof. exact request_loosest. Qed.
Print Assumptions C52_request_group.

(** No avoidable unmet demand: if an arc could carry more (its request and every
    constraint of its supply group have room), then its request group is satisfied
    (up to the 1e15 the code caps demands at). *)
Theorem C52_no_avoidable_shortage : forall g pseudo p sol G GV a q,
  prog_ready g -> pseudo_cost g false = Some pseudo -> to_prog g false pseudo = Ok p -> optimal p sol ->
  In (a, q) (flows g sol) -> ugroup g a = Some G -> vgroup g a = Some GV ->
  (forall j, (j < length (g_caps (group_at g G)))%nat -> 1 <= uunit g a j) ->
  q < n_qty (unode g a) ->
  (forall j c, nth_error (g_caps (group_at g GV)) j = Some (Some c) -> vload g (flows g sol) GV j < c) ->
  forall j c, nth_error (g_caps (group_at g G)) j = Some (Some c) -> c <= inject_Z (10 ^ 15) ->
  c <= uload g (flows g sol) G j.
Proof. exact no_avoidable. Qed.
Print Assumptions C52_no_avoidable_shortage.

(** A request for 10 and two bids with room for 20 each: the split 4 to 6 is cheapest
    (o4_opt), the first arc could carry more, and the demand is met. *)
Example C52_ex_opt : prog_ready o4 /\ pseudo_cost o4 false = Some (11 # 10) /\ to_prog o4 false (11 # 10) = Ok o4_lp /\
  optimal o4_lp (sol_of [4; 6; 0]) /\ In (mkArc 0 1 false 0, 4) (flows o4 (sol_of [4; 6; 0])) /\
  Qltb 4 (n_qty (unode o4 (mkArc 0 1 false 0))) = true /\ Qltb (vload o4 (flows o4 (sol_of [4; 6; 0])) 1 0) 20 = true /\
  Qeqb (uload o4 (flows o4 (sol_of [4; 6; 0])) 0 0) 10 = true.
Proof.
  split; [exact o4_ready|]. split; [vm_compute; reflexivity|]. split; [reflexivity|]. split; [exact o4_opt|].
  split; [vm_compute; auto|]. split; [|split]; vm_compute; reflexivity.
Qed.

(** What the program does not guarantee.  The quantity of a bid does not limit it: only
    the constraints of its portfolio do. *)
Theorem C52_bid_offer_refuted : exists g pseudo p sol a q, prog_ready g /\ pseudo_cost g false = Some pseudo /\
  to_prog g false pseudo = Ok p /\ optimal p sol /\
  In (a, q) (prog_matches (1 # 1000000) false g sol) /\ n_qty (vnode g a) < q.
Proof. exact offer_exceeded. Qed.
Print Assumptions C52_bid_offer_refuted.

(** A request with several bids may receive more than it asked for (each arc is bounded
    by the request, their sum is not). *)
Theorem C52_request_refuted : exists g pseudo p sol n, prog_ready g /\ pseudo_cost g false = Some pseudo /\
  to_prog g false pseudo = Ok p /\ optimal p sol /\
  n_qty (node_at g n) < on_unode (prog_matches (1 # 1000000) false g sol) n.
Proof. exact request_exceeded. Qed.
Print Assumptions C52_request_refuted.

(** With exclusive orders the cheapest solution may exceed every constraint of a request
    group. *)
Theorem C52_exclusive_overfill_refuted : exists g pseudo p sol G, prog_ready g /\ pseudo_cost g true = Some pseudo /\
  to_prog g true pseudo = Ok p /\ optimal p sol /\ In G (gr_req g) /\
  forall j c, nth_error (g_caps (group_at g G)) j = Some c ->
    ~ within (uload g (prog_matches (1 # 1000000) true g sol) G j) c.
Proof. exact exclusive_over. Qed.
Print Assumptions C52_exclusive_overfill_refuted.
