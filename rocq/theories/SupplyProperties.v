(** C53: supply, demand and build decisions of the toolkit.  Histories ([reached]) are lists of calls, latest first. *)
From Coq Require Import String QArith List Bool Arith ZArith Lia Lqa.
From Verif Require Import Base GreedySpec ProgModel ProgSpec SupplyModel SupplySpec SupplyProofs SupplyProofs2 SupplyProofs3
  SupplyProofs4 SupplyExamples.
Import ListNotations.
Open Scope Q_scope.
Open Scope list_scope.

(** What a producer answers. *)
Theorem C53_producer : forall h w p c, reached h w -> (p < producers_made h)%nat ->
  produces w p c = Ok (match info h p c with Some _ => true | None => false end) /\
  capacity w p c = Ok (cap_or0 (info h p c)) /\ cost w p c = Ok (cost_or_limit (info h p c)).
Proof. exact ask_spec. Qed.
Print Assumptions C53_producer.
Example C53_ex_producer : info ex_h 0 "c"%string = Some (mkCI 3 2) /\ info ex_h 1 "c"%string = Some (mkCI 5 3) /\ info ex_h 1 "d"%string = None.
Proof. repeat split. Qed.

(** Asking for the capacity of something that is not produced makes the producer a producer of it. *)
Theorem C53_ask_refuted : exists h w w' p c, reached h w /\ produces w p c = Ok false /\
  step w (AskCapacity p c) = Ok w' /\ produces w' p c = Ok true.
Proof.
  exists [NewProducer 7 1], (mkW [mkCP [] 7 1] [] [] [] []), (mkW [mkCP [("c"%string, cinfo_default)] 7 1] [] [] [] []), O, "c"%string.
  split; [|repeat split]. eapply reached_cons; [constructor|reflexivity].
Qed.
Print Assumptions C53_ask_refuted.

(** The supply: every registered manager counts once, and in it every registered producer once, with its capacity. *)
Theorem C53_supply : forall h w s c ms ps, reached h w -> (s < supplies_made h)%nat ->
  lists ms (supply_has h s) -> (forall m, lists (ps m) (producers_has h m)) ->
  exists q, supply w s c = Ok q /\ q == qsum (map (fun m => qsum (map (cap_of h c) (ps m))) ms).
Proof. exact supply_spec. Qed.
Print Assumptions C53_supply.
Theorem C53_supply_lists : forall h w, reached h w ->
  (forall s, exists ms, lists ms (supply_has h s)) /\ exists ps, forall m, lists (ps m) (producers_has h m).
Proof. exact lists_ex. Qed.
Print Assumptions C53_supply_lists.
Example C53_ex_supply : supply ex_w 0 "c" = Ok 4 /\ supply ex_w 0 "x" = Ok 0 /\ producers_has ex_h 0 2 /\ supply_has ex_h 0 0 /\
  (0 < supplies_made ex_h)%nat.
Proof. split; [vm_compute; reflexivity|]. split; [vm_compute; reflexivity|]. cbn. repeat split; auto. Qed.

(** The demand is that of the function registered first; without one the call is undefined. *)
Theorem C53_demand : forall h w s c t, reached h w -> (s < supplies_made h)%nat ->
  demand w s c t = match demand_function h s c with Some (Some f) => Ok (f t) | _ => UB end /\
  manages w s c = Ok (match demand_function h s c with Some _ => true | None => false end).
Proof. exact demand_spec. Qed.
Print Assumptions C53_demand.
Example C53_ex_demand : demand ex_w 0 "c" 0 = Ok 15 /\ demand ex_w 0 "c" 3 = Ok 18 /\ demand ex_w 0 "d" 0 = UB /\ manages ex_w 0 "d" = Ok false.
Proof. vm_compute. repeat split. Qed.

(** Orders: nothing without demand; otherwise only producers on offer, from a builder that has them, at least one each. *)
Theorem C53_no_demand : forall solver w m c d os, d <= 0 -> make_build_decision solver w m c d = Ok os -> os = [].
Proof. exact no_demand. Qed.
Print Assumptions C53_no_demand.
Theorem C53_orders : forall solver h w m c d os, reached h w -> make_build_decision solver w m c d = Ok os ->
  forall o, In o os -> (1 <= bo_number o)%Z /\ offers h m c (bo_builder o) (bo_producer o).
Proof. exact orders_sound. Qed.
Print Assumptions C53_orders.

(** With non-negative costs and a producer of positive capacity on offer, the orders cover the demand... *)
Theorem C53_covers : forall solver h w m c d os, reached h w -> 0 < d -> solver_right solver w m c d ->
  (forall b p, offers h m c b p -> 0 <= cost_of h c p) -> (exists b p, offers h m c b p /\ 0 < cap_of h c p) ->
  make_build_decision solver w m c d = Ok os -> d <= plan_cap h c (plan_of os).
Proof. exact decision_covers. Qed.
Print Assumptions C53_covers.
(** ... no other choice of producers on offer that covers it is cheaper... *)
Theorem C53_cheapest : forall solver h w m c d os l, reached h w -> 0 < d -> solver_right solver w m c d ->
  (forall b p, offers h m c b p -> 0 <= cost_of h c p) -> (exists b p, offers h m c b p /\ 0 < cap_of h c p) ->
  make_build_decision solver w m c d = Ok os ->
  (forall n p, In (n, p) l -> (0 <= n)%Z /\ exists b, offers h m c b p) -> d <= plan_cap h c l ->
  plan_cost h c (plan_of os) <= plan_cost h c l.
Proof. exact decision_cheapest. Qed.
Print Assumptions C53_cheapest.
(** ... and one unit less of anything that costs something leaves demand unmet. *)
Theorem C53_tight : forall solver h w m c d os os1 o os2, reached h w -> 0 < d -> solver_right solver w m c d ->
  (forall b p, offers h m c b p -> 0 <= cost_of h c p) -> (exists b p, offers h m c b p /\ 0 < cap_of h c p) ->
  make_build_decision solver w m c d = Ok os -> os = os1 ++ o :: os2 -> 0 < cost_of h c (bo_producer o) ->
  plan_cap h c (plan_of os) - cap_of h c (bo_producer o) < d.
Proof. exact decision_tight. Qed.
Print Assumptions C53_tight.
Example C53_ex_decision : reached ex_h ex_w /\ solver_right ex_solver ex_w 0 "c" 11 /\
  (forall b p, offers ex_h 0 "c" b p -> 0 <= cost_of ex_h "c" p) /\ (exists b p, offers ex_h 0 "c" b p /\ 0 < cap_of ex_h "c" p) /\
  make_build_decision ex_solver ex_w 0 "c" 11 = Ok ex_orders /\ plan_cap ex_h "c" (plan_of ex_orders) == 11 /\
  plan_cost ex_h "c" (plan_of ex_orders) == 7.
Proof.
  split; [exact ex_reached|]. split; [exact ex_right|]. split; [|split; [|split; [exact ex_decision|split; reflexivity]]].
  - intros b p H. apply ex_offers in H as [[_ ->]|[_ ->]]; discriminate.
  - exists 0%nat, 0%nat. split; [apply ex_offers; auto|reflexivity].
Qed.

(** When the program has a solution, when the call is defined. *)
Theorem C53_solvable : forall h w m c d s, reached h w -> set_up w m c = Ok s -> 0 < d ->
  ((exists sol, feasible (program s d) sol) <-> exists b p, offers h m c b p /\ 0 < cap_of h c p).
Proof. exact infeasible. Qed.
Print Assumptions C53_solvable.
Theorem C53_defined : forall solver h w m c d, reached h w -> (m < managers_made h)%nat -> (exists b p, offers h m c b p) ->
  (forall s i, set_up w m c = Ok s -> (i < lp_ncols (program s d))%nat ->
     exists z, solver (program s d) i == inject_Z z /\ (-2147483648 <= z <= 2147483647)%Z) ->
  exists os, make_build_decision solver w m c d = Ok os.
Proof. exact decision_defined. Qed.
Print Assumptions C53_defined.
Theorem C53_no_offer_undefined : forall solver h w m c d, reached h w -> 0 < d -> (m < managers_made h)%nat ->
  (forall b p, ~ offers h m c b p) -> make_build_decision solver w m c d = UB.
Proof. exact no_offer. Qed.
Print Assumptions C53_no_offer_undefined.
Example C53_ex_no_offer : reached ex_h ex_w /\ (0 < managers_made ex_h)%nat /\ (forall b p, ~ offers ex_h 0 "d" b p).
Proof.
  split; [exact ex_reached|]. split; [cbn; lia|]. intros b p (M & B & H). cbn in B.
  destruct B as [N [[-> ->]|[[-> ->]|[[-> ->]|[]]]]]; [apply N; auto|apply H; reflexivity|apply H; reflexivity].
Qed.

(** Closing the loop: ordering for the gap between demand and supply, and registering a copy of every producer
    ordered, brings the supply up to the demand. *)
Theorem C53_closes_gap : forall solver h w m s pm c t dm q os,
  reached h w -> supply w s c = Ok q -> demand w s c t = Ok dm -> supply_has h s pm ->
  solver_right solver w m c (dm - q) ->
  (forall b p, offers h m c b p -> 0 <= cost_of h c p) -> (exists b p, offers h m c b p /\ 0 < cap_of h c p) ->
  make_build_decision solver w m c (dm - q) = Ok os ->
  exists w' q', reached (carry_out pm (producers_made h) os ++ h) w' /\ supply w' s c = Ok q' /\ dm <= q'.
Proof. exact closes_gap. Qed.
Print Assumptions C53_closes_gap.
Example C53_ex_gap : supply ex_w 0 "c" = Ok 4 /\ demand ex_w 0 "c" 0 = Ok 15 /\ 15 - 4 = 11 /\
  carry_out 0 3 ex_orders = [ProducersReg 0 0 5; Copy 5 1; NewProducer 0 0; ProducersReg 0 0 4; Copy 4 0; NewProducer 0 0;
                             ProducersReg 0 0 3; Copy 3 0; NewProducer 0 0].
Proof. vm_compute. repeat split. Qed.

(** Two builders that share a producer: both orders go to the same builder. *)
Theorem C53_shared_producer_refuted : exists h w os, reached h w /\
  offers h 0 "c" 0 0 /\ offers h 0 "c" 1 0 /\
  (exists solver, solver_right solver w 0 "c" 2 /\ make_build_decision solver w 0 "c" 2 = Ok os) /\
  ~ NoDup (map (fun o => (bo_builder o, bo_producer o)) os) /\ forall o, In o os -> bo_builder o <> 0%nat.
Proof.
  exists (rev sh_calls), sh_w, [mkOrder 1 1 0; mkOrder 1 1 0]. split; [exact sh_reached|].
  split; [exact sh_offers0|]. split; [exact sh_offers1|]. split; [|split].
  - exists (fun _ i => match i with O => inject_Z 1 | _ => inject_Z 1 end). split; [|vm_compute; reflexivity].
    apply sh_right. exists 1%Z, 1%Z. repeat split; lia.
  - cbn. intros N. inversion N; subst. cbn in *. auto.
  - intros o [<-|[<-|[]]]; discriminate.
Qed.
Print Assumptions C53_shared_producer_refuted.

(** The conversion to int truncates: a solution a billionth away from the optimum orders nothing. *)
Theorem C53_truncation_refuted : exists h w solver exact, reached h w /\ solver_right exact w 0 "c" 2 /\
  (forall p i, Qabs (solver p i - exact p i) <= 1 # 1000000000) /\
  (exists os, make_build_decision exact w 0 "c" 2 = Ok os /\ plan_cap h "c" (plan_of os) == 2) /\
  make_build_decision solver w 0 "c" 2 = Ok [].
Proof.
  exists (rev sh_calls), sh_w, (fun _ _ => (999999999 # 1000000000)),
    (fun _ i => match i with O => inject_Z 1 | _ => inject_Z 1 end).
  split; [exact sh_reached|]. split; [apply sh_right; exists 1%Z, 1%Z; repeat split; lia|]. split; [|split].
  - intros p [|i]; vm_compute; discriminate.
  - eexists. split; [vm_compute; reflexivity|]. reflexivity.
  - vm_compute. reflexivity.
Qed.
Print Assumptions C53_truncation_refuted.
