(** Concrete graphs: one meeting all hypotheses, and the witnesses of the refuted
    claims. *)
From Coq Require Import String QArith List Bool Arith ZArith Lia Lqa Permutation Sorted Qabs.
From Verif Require Import Base GreedyModel GreedySpec GreedyProofs1 GreedyProofs2 GreedyProofs3
  GreedyProofs4 GreedyProofs5.
Import ListNotations.
Open Scope Q_scope.

(** ** A concrete exchange used to show that the hypotheses can be met

    Request group 0 wants 10 (node 0, divisible; its bids are nodes 2 and 3),
    request group 1 wants 5 exclusively (node 1; bid node 4). Supply group 2
    holds nodes 2, 3 and 4, with the constraints "at most 13" and "unlimited". *)
Definition fdx (a b : Q) : Q := if Qeqb a b then 0 else if Qltb a b then 3 else - (3).

Lemma fdx_ok : fd_ok fdx 0.
Proof.
  unfold fd_ok, fdx. split; [lra|].
  repeat split; intros a b; destruct (Qeqb_spec a b); try destruct (Qltb_spec a b); lra.
Qed.

Definition exN (G : nat) (q : Q) (ex : bool) (ag : Z) prefs caps :=
  mkNode (Some G) q ex "fuel" ag prefs caps.
Definition ex_nodes : list node :=
  [ exN 0 10 false 1 [((0%nat, 2%nat), 1); ((0%nat, 3%nat), 2)]
      [((0%nat, 2%nat), [1]); ((0%nat, 3%nat), [1])];
    exN 1 5 true 2 [((1%nat, 4%nat), 1)] [((1%nat, 4%nat), [1])];
    exN 2 8 false 3 [] [((0%nat, 2%nat), [1; 2])];
    exN 2 4 false 4 [] [((0%nat, 3%nat), [1; 2])];
    exN 2 6 false 3 [] [((1%nat, 4%nat), [(1 # 2)%Q; 1])] ].
Definition ex_arc (u v : nat) : arc :=
  arc_new fdx u v (nth u ex_nodes (exN 9 0 false 0 [] [])) (nth v ex_nodes (exN 9 0 false 0 [] [])).
Definition exG : graph :=
  mkGraph ex_nodes
    [ mkGroup 10 [0%nat] [Some 10] []; mkGroup 5 [1%nat] [Some 5] [[1%nat]];
      mkGroup 0 [2%nat; 3%nat; 4%nat] [Some 13; None] [] ]
    [0%nat; 1%nat] [2%nat]
    [ex_arc 0 2; ex_arc 0 3; ex_arc 1 4] [].

Ltac nodecase n := destruct n as [|[|[|[|[|n]]]]]; vm_compute; try discriminate.

Lemma exG_wb : well_built fdx exG.
Proof.
  constructor.
  - intros a [<-|[<-|[<-|[]]]].
    + exists 0%nat, 2%nat. vm_compute. repeat split; auto; repeat constructor.
    + exists 0%nat, 2%nat. vm_compute. repeat split; auto; repeat constructor.
    + exists 1%nat, 2%nat. vm_compute. repeat split; auto; repeat constructor.
  - intros G n [<-|[<-|[]]] [<-|[]]; reflexivity.
  - intros G [<-|[<-|[]]]; repeat constructor; auto.
  - intros G [<-|[<-|[]]] [E|[]]; discriminate.
  - repeat constructor; simpl; intuition discriminate.
  - intros G i c. destruct G as [|[|[|[|G]]]]; destruct i as [|[|[|i]]]; intros E;
      vm_compute in E; try discriminate; injection E as <-; vm_compute; discriminate.
  - intros n. nodecase n; destruct n; vm_compute; discriminate.
  - intros G [<-|[<-|[]]]; vm_compute; discriminate.
  - reflexivity.
Qed.

(** The solver takes the preferred bid first (4 from node 3), then 6 from node 2,
    then the exclusive order of 5. *)
Definition exG_matches : list (arc * Q) :=
  [(ex_arc 0 3, 4); (ex_arc 0 2, 6); (ex_arc 1 4, 5)].
Definition exG' : graph :=
  mkGraph (gr_nodes exG) (gr_groups exG) (gr_req exG) (gr_sup exG) (gr_arcs exG) exG_matches.
Definition Qeq_ms (x y : list (arc * Q)) : bool :=
  forallb (fun p => Qeqb (snd (fst p)) (snd (snd p)) &&
                    keyb (akey (fst (fst p))) (akey (fst (snd p)))) (combine x y) &&
  Nat.eqb (List.length x) (List.length y).
Example exG_solve :
  match solve fdx (1 # 1000) None exG with
  | Ok g => Qeq_ms (gr_matches g) exG_matches = true
  | _ => False
  end.
Proof. vm_compute. reflexivity. Qed.
Example exG_solve_weights :
  match solve fdx (1 # 1000) (Some [("fuel"%string, 2)]) exG with
  | Ok g => List.length (gr_matches g) = 3%nat
  | _ => False
  end.
Proof. vm_compute. reflexivity. Qed.


Example exG_load : match solve fdx (1 # 1000) None exG with
  | Ok g => Qeqb (vload exG (gr_matches g) 2 0) (25 # 2) = true | _ => False end.
Proof. vm_compute. reflexivity. Qed.

(** ** A zero unit capacity *)
Definition zN (G : nat) (q : Q) (ag : Z) prefs caps := mkNode (Some G) q false "fuel" ag prefs caps.
Definition z_nodes : list node :=
  [ zN 0 1 1 [((0%nat, 2%nat), 1)] [((0%nat, 2%nat), [1])];
    zN 1 100 2 [((1%nat, 3%nat), 1)] [((1%nat, 3%nat), [1])];
    zN 2 1 3 [] [((0%nat, 2%nat), [1; 1])];
    zN 2 100 3 [] [((1%nat, 3%nat), [0; 1])] ].
Definition zG : graph :=
  mkGraph z_nodes
    [ mkGroup 1 [0%nat] [Some 1] []; mkGroup 100 [1%nat] [Some 100] [];
      mkGroup 0 [2%nat; 3%nat] [Some 1; Some 5] [] ]
    [0%nat; 1%nat] [2%nat]
    [mkArc 0 2 false 0; mkArc 1 3 false 0] [].

Definition solved (g : graph) : graph :=
  match solve fdx (1 # 1000) None g with Ok h => h | _ => g end.

Lemma zero_unit_refuted_proof : exists g g' G i c,
  (forall n k l, In (k, l) (n_ucaps (node_at g n)) -> Forall (fun x => 0 <= x) l) /\
  (forall G i c, nth_error (g_caps (group_at g G)) i = Some (Some c) -> 0 < c) /\
  solve fdx (1 # 1000) None g = Ok g' /\
  nth_error (g_caps (group_at g G)) i = Some (Some c) /\
  c < vload g (gr_matches g') G i.
Proof.
  exists zG, (solved zG), 2%nat, 1%nat, 5. split; [|split; [|split; [|split]]].
  - intros n k l. destruct n as [|[|[|[|n]]]]; cbn.
    5:{ destruct n; intros []. }
    all: intros [E|[]]; injection E as _ <-; repeat constructor; discriminate.
  - intros G i c. destruct G as [|[|[|[|G]]]]; destruct i as [|[|[|i]]]; intros E;
      vm_compute in E; try discriminate; injection E as <-; reflexivity.
  - vm_compute. reflexivity.
  - reflexivity.
  - vm_compute. reflexivity.
Qed.

(** ** Two constraints on a request group *)
Definition r_nodes : list node :=
  [ zN 0 10 1 [((0%nat, 1%nat), 1)] [((0%nat, 1%nat), [1; 1])];
    zN 1 10 2 [] [] ].
Definition rG : graph :=
  mkGraph r_nodes [ mkGroup 10 [0%nat] [Some 10; Some 3] []; mkGroup 0 [1%nat] [] [] ]
    [0%nat] [1%nat] [mkArc 0 1 false 0] [].

Lemma rG_wb : well_built fdx rG.
Proof.
  constructor.
  - intros a [<-|[]]. exists 0%nat, 1%nat. vm_compute. repeat split; auto; repeat constructor.
  - intros G n [<-|[]] [<-|[]]; reflexivity.
  - intros G [<-|[]]; repeat constructor; auto.
  - intros G [<-|[]] [E|[]]; discriminate.
  - repeat constructor; simpl; intuition discriminate.
  - intros G i c. destruct G as [|[|[|G]]]; destruct i as [|[|[|i]]]; intros E;
      vm_compute in E; try discriminate; injection E as <-; vm_compute; discriminate.
  - intros n. nodecase n; destruct n; vm_compute; discriminate.
  - intros G [<-|[]]; vm_compute; discriminate.
  - reflexivity.
Qed.

Lemma every_constraint_refuted_proof : exists g g' G i c,
  well_built fdx g /\ solve fdx (1 # 1000) None g = Ok g' /\ In G (gr_req g) /\
  nth_error (g_caps (group_at g G)) i = Some (Some c) /\
  c < uload g (gr_matches g') G i.
Proof.
  exists rG, (solved rG), 0%nat, 1%nat, 3.
  split; [exact rG_wb|split; [|split; [|split]]].
  - vm_compute. reflexivity.
  - left; reflexivity.
  - reflexivity.
  - vm_compute. reflexivity.
Qed.

(** ** Two exclusive bids of one object *)
Definition xN (G : nat) (q : Q) (ex : bool) (ag : Z) prefs := mkNode (Some G) q ex "fuel" ag prefs [].
Definition x_nodes : list node :=
  [ xN 0 5 false 1 [((0%nat, 2%nat), 1)]; xN 1 5 false 2 [((1%nat, 3%nat), 1)];
    xN 2 5 true 3 []; xN 2 5 true 3 [] ].
Definition xG : graph :=
  mkGraph x_nodes
    [ mkGroup 5 [0%nat] [] []; mkGroup 5 [1%nat] [] [];
      mkGroup 0 [2%nat; 3%nat] [] [[2%nat; 3%nat]] ]
    [0%nat; 1%nat] [2%nat]
    [mkArc 0 2 true 5; mkArc 1 3 true 5] [].

Lemma xG_wb : well_built fdx xG.
Proof.
  constructor.
  - intros a [<-|[<-|[]]].
    + exists 0%nat, 2%nat. vm_compute. repeat split; auto; repeat constructor.
    + exists 1%nat, 2%nat. vm_compute. repeat split; auto; repeat constructor.
  - intros G n [<-|[<-|[]]] [<-|[]]; reflexivity.
  - intros G [<-|[<-|[]]]; repeat constructor; auto.
  - intros G [<-|[<-|[]]] [E|[]]; discriminate.
  - repeat constructor; simpl; intuition discriminate.
  - intros G i c. destruct G as [|[|[|[|G]]]]; destruct i as [|[|[|i]]]; intros E;
      vm_compute in E; discriminate.
  - intros n. nodecase n; destruct n; vm_compute; discriminate.
  - intros G [<-|[<-|[]]]; vm_compute; discriminate.
  - reflexivity.
Qed.

Lemma same_object_refuted_proof : exists g g' G grp a q b r,
  well_built fdx g /\ solve fdx (1 # 1000) None g = Ok g' /\
  In G (gr_sup g) /\ In grp (g_excl (group_at g G)) /\
  In (a, q) (gr_matches g') /\ In (b, r) (gr_matches g') /\
  In (a_v a) grp /\ In (a_v b) grp /\ a_v a <> a_v b.
Proof.
  exists xG, (solved xG), 2%nat, [2%nat; 3%nat], (mkArc 0 2 true 5), 5, (mkArc 1 3 true 5), 5.
  split; [exact xG_wb|].
  split; [vm_compute; reflexivity|].
  assert (E : gr_matches (solved xG) = [(mkArc 0 2 true 5, 5); (mkArc 1 3 true 5, 5)])
    by (vm_compute; reflexivity).
  rewrite E. simpl. repeat split; auto.
Qed.

(** ** Assembled statements *)
Lemma only_reorders_proof : forall (ws : weights) (g : graph),
  let h := condition ws g in
  gr_nodes h = gr_nodes g /\ gr_arcs h = gr_arcs g /\ gr_sup h = gr_sup g /\
  gr_matches h = gr_matches g /\
  Permutation (gr_req h) (gr_req g) /\
  forall G, Permutation (g_nodes (group_at h G)) (g_nodes (group_at g G)) /\
            g_qty (group_at h G) = g_qty (group_at g G) /\
            g_caps (group_at h G) = g_caps (group_at g G) /\
            g_excl (group_at h G) = g_excl (group_at g G).
Proof.
  intros ws g. cbn zeta. destruct (condition_same ws g). auto 10.
Qed.

Lemma reverse_weights_proof : forall (ws : weights) c d, NoDup (map fst ws) ->
  In c (map fst ws) -> In d (map fst ws) ->
  (forall e, In e (map fst ws) -> 0 <= wlookup e ws) ->
  (wlookup c (process_weights true ws) <= wlookup d (process_weights true ws) <->
   wlookup d ws <= wlookup c ws) /\
  0 <= wlookup c (process_weights true ws).
Proof.
  intros ws c d ND Hc Hd P. split; [|apply process_rev_range; auto].
  destruct (process_rev_lookup ws c Hc) as [K [E1 E2]]. rewrite E1, (E2 d Hd). split; lra.
Qed.
