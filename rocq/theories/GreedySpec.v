(** Independent vocabulary for the exchange properties: how much was matched, what
    a set of matches uses of each constraint, and whether an arc still has room.
    Nothing here refers to the solver's state. *)
From Coq Require Import String QArith List Bool Arith ZArith Lia.
From Verif Require Import Base GreedyModel.
Import ListNotations.
Open Scope Q_scope.

Definition unode (g : graph) (a : arc) : node := node_at g (a_u a).
Definition vnode (g : graph) (a : arc) : node := node_at g (a_v a).

(** The group of the request (bid) end of the arc. *)
Definition ugroup (g : graph) (a : arc) : option nat := n_group (unode g a).
Definition vgroup (g : graph) (a : arc) : option nat := n_group (vnode g a).

(** Unit capacity of the arc for the i-th constraint of its request (bid) group. *)
Definition uunit (g : graph) (a : arc) (i : nat) : Q := nth i (ucaps_of (unode g a) a) 0.
Definition vunit (g : graph) (a : arc) (i : nat) : Q := nth i (ucaps_of (vnode g a) a) 0.

Definition is_group (o : option nat) (G : nat) : bool :=
  match o with Some H => Nat.eqb H G | None => false end.

Definition sum_over (ms : list (arc * Q)) (f : arc -> Q -> Q) : Q :=
  qsum (map (fun p => f (fst p) (snd p)) ms).

(** Quantity matched on the arcs of a request (bid) node. *)
Definition on_unode (ms : list (arc * Q)) (n : nat) : Q :=
  sum_over ms (fun a q => if Nat.eqb (a_u a) n then q else 0).
Definition on_vnode (ms : list (arc * Q)) (n : nat) : Q :=
  sum_over ms (fun a q => if Nat.eqb (a_v a) n then q else 0).

(** Quantity matched for a request group. *)
Definition on_group (g : graph) (ms : list (arc * Q)) (G : nat) : Q :=
  sum_over ms (fun a q => if is_group (ugroup g a) G then q else 0).

(** Use of the i-th constraint of a request (bid) group. *)
Definition uload (g : graph) (ms : list (arc * Q)) (G i : nat) : Q :=
  sum_over ms (fun a q => if is_group (ugroup g a) G then q * uunit g a i else 0).
Definition vload (g : graph) (ms : list (arc * Q)) (G i : nat) : Q :=
  sum_over ms (fun a q => if is_group (vgroup g a) G then q * vunit g a i else 0).

(** [x] does not exceed the capacity [c] ([None]: unlimited). *)
Definition within (x : Q) (c : option Q) : Prop :=
  match c with None => True | Some y => x <= y end.

(** After the matches [ms], the quantity [q] could be added on arc [a]: it fits in
    both nodes, in every constraint of the bid group, and in at least one
    constraint of the request group (a request is limited by its loosest
    constraint, greedy_solver.cc 128-131). *)
Definition room (g : graph) (ms : list (arc * Q)) (a : arc) (q : Q) : Prop :=
  on_unode ms (a_u a) + q <= n_qty (unode g a) /\
  on_vnode ms (a_v a) + q <= n_qty (vnode g a) /\
  (forall G i c, vgroup g a = Some G -> nth_error (g_caps (group_at g G)) i = Some c ->
     within (vload g ms G i + q * vunit g a i) c) /\
  (forall G, ugroup g a = Some G -> g_caps (group_at g G) <> [] ->
     exists i c, nth_error (g_caps (group_at g G)) i = Some c /\
                 within (uload g ms G i + q * uunit g a i) c).

(** The weights that decide in which order requests are served: a request weighs its
    commodity's declared weight (1 if none is declared for any commodity, 0 if there are
    some but not for this one), raised by up to a factor of two with its mean
    preference; a portfolio weighs the mean of its requests. *)
Definition mean_of (l : list Q) : Q :=
  match l with [] => 0 | _ => qsum l / inject_Z (Z.of_nat (length l)) end.
Definition declared_weight (ws : weights) (c : string) : Q :=
  match ws with
  | [] => 1
  | _ => match find (fun p => String.eqb c (fst p)) ws with Some p => snd p | None => 0 end
  end.
Definition mean_pref (n : node) : Q := mean_of (map snd (n_prefs n)).
Definition request_weight (ws : weights) (n : node) : Q :=
  declared_weight ws (n_commod n) * (1 + mean_pref n / (1 + mean_pref n)).
Definition portfolio_weight (ws : weights) (g : graph) (G : nat) : Q :=
  mean_of (map (fun n => request_weight ws (node_at g n)) (g_nodes (group_at g G))).
(** [y] comes somewhere before [x] in the list. *)
Definition precedes {A} (l : list A) (y x : A) : Prop := exists l1 l2 l3, l = l1 ++ y :: l2 ++ x :: l3.

(** What the code assumes about float_distance: arguments at most two units in the
    last place apart differ by at most [tol] ([tol = 0]: exact comparison); and a
    smaller or equal second argument is at a non-positive distance. *)
Definition fd_ok (fd : Q -> Q -> Q) (tol : Q) : Prop :=
  0 <= tol /\
  (forall a b, fd a b <= 2 -> b <= a + tol) /\
  (forall a b, -(2) <= fd a b -> a <= b + tol) /\
  (forall a b, b <= a -> fd a b <= 0).

(** A graph as the public API builds it: arcs link a node of a request group to a
    node of a supply group, each node is (once) in the group it points to, arcs are made
    by the Arc constructor, every node has one unit capacity per constraint of
    its group on each of its arcs, and no match has been added yet. Unit
    capacities are positive and quantities and capacities are not negative. *)
Record well_built (fd : Q -> Q -> Q) (g : graph) : Prop := mkWB {
  wb_arc : forall a, In a (gr_arcs g) ->
    exists GU GV,
      ugroup g a = Some GU /\ In GU (gr_req g) /\ In (a_u a) (g_nodes (group_at g GU)) /\
      vgroup g a = Some GV /\ In GV (gr_sup g) /\ In (a_v a) (g_nodes (group_at g GV)) /\
      length (ucaps_of (unode g a) a) = length (g_caps (group_at g GU)) /\
      length (ucaps_of (vnode g a) a) = length (g_caps (group_at g GV)) /\
      Forall (fun x => 0 < x) (ucaps_of (unode g a) a) /\
      Forall (fun x => 0 < x) (ucaps_of (vnode g a) a) /\
      a = arc_new fd (a_u a) (a_v a) (unode g a) (vnode g a);
  wb_req : forall G n, In G (gr_req g) -> In n (g_nodes (group_at g G)) ->
    n_group (node_at g n) = Some G;
  wb_nodes : forall G, In G (gr_req g) -> NoDup (g_nodes (group_at g G));
  wb_disj : forall G, In G (gr_req g) -> ~ In G (gr_sup g);
  wb_nodup : NoDup (gr_req g);
  wb_caps : forall G i c, nth_error (g_caps (group_at g G)) i = Some (Some c) -> 0 <= c;
  wb_qty : forall n, 0 <= n_qty (node_at g n);
  wb_target : forall G, In G (gr_req g) -> 0 <= g_qty (group_at g G);
  wb_fresh : gr_matches g = [] }.
