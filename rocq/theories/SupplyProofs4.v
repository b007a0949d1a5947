(** Supply, demand, and what carrying out a build decision does to the supply (C53). *)
From Coq Require Import String QArith List Bool Arith ZArith Lia Lqa Permutation.
From Verif Require Import Base ProgModel ProgSpec SupplyModel SupplySpec SupplyProofs SupplyProofs2 SupplyProofs3.
Import ListNotations.
Open Scope Q_scope.

(** ** Counts *)
Lemma made h w : reached h w -> length (w_bman w) = managers_made h /\ length (w_sd w) = supplies_made h.
Proof.
  induction 1 as [|h w o w' R [I1 I2] S]; [split; reflexivity|].
  unfold managers_made, supplies_made in *.
  destruct o; cbn [step] in S; unfold rmap, at_obj in S;
    repeat match type of S with
    | context [match nth_error ?l ?i with _ => _ end] => destruct (nth_error l i); try discriminate
    | context [if valid ?l ?i then _ else _] => destruct (valid l i); try discriminate
    end;
    try discriminate; injection S as <-; cbn; rewrite ?upd_length, ?app_length; cbn; lia.
Qed.

(** ** Supply *)
Lemma produces_cap h w p c : inv h w -> (p < length (w_prod w))%nat ->
  (produces w p c = Ok true /\ capacity w p c = Ok (cap_of h c p)) \/ (produces w p c = Ok false /\ cap_of h c p == 0).
Proof.
  intros I L. unfold produces, capacity, cap_of. destruct (nth_error (w_prod w) p) as [x|] eqn:E.
  - destruct (i_prod _ _ I _ _ E) as [_ F]. rewrite <- F. unfold cp_entry. destruct (sget c (cp_info x)); [left|right]; split; reflexivity.
  - apply nth_error_None in E. lia.
Qed.
Lemma total_from_ok h w c : inv h w -> forall ps t, (forall p, In p ps -> (p < length (w_prod w))%nat) ->
  exists q, total_from w c ps t = Ok q /\ q == t + qsum (map (cap_of h c) ps).
Proof.
  intros I. induction ps as [|p ps IH]; intros t V; cbn [total_from map qsum].
  - exists t. split; auto. lra.
  - destruct (produces_cap h w p c I (V p (or_introl eq_refl))) as [[-> ->]|[-> Z]].
    + destruct (IH (t + cap_of h c p)) as (q & -> & Q1); [intros; apply V; right; auto|]. exists q. split; auto. lra.
    + destruct (IH t) as (q & -> & Q1); [intros; apply V; right; auto|]. exists q. split; auto. lra.
Qed.
Lemma total_ok h w c m : inv h w -> (m < length (w_pman w))%nat ->
  exists ps q, nth_error (w_pman w) m = Some ps /\ total_capacity w m c = Ok q /\ q == qsum (map (cap_of h c) ps) /\
    lists ps (producers_has h m).
Proof.
  intros I L. unfold total_capacity. destruct (nth_error (w_pman w) m) as [ps|] eqn:E; [|apply nth_error_None in E; lia].
  destruct (proj1 (i_pman _ _ I) _ _ E) as [N A].
  destruct (total_from_ok h w c I ps 0) as (q & Q1 & Q2).
  { intros p Hp. apply A in Hp. apply (proj2 (i_pman _ _ I)) in Hp. lia. }
  exists ps, q. split; auto. split; auto. split; [lra|]. split; auto.
Qed.
Lemma lists_sum l l' P (f : nat -> Q) : lists l P -> lists l' P -> qsum (map f l) == qsum (map f l').
Proof.
  intros [N A] [N' A']. apply qsum_perm. apply Permutation_map. apply NoDup_Permutation; auto. intros x. rewrite A, A'. tauto.
Qed.
Lemma supply_from_ok h w c ps : inv h w -> (forall m, lists (ps m) (producers_has h m)) -> forall ms t,
  (forall m, In m ms -> (m < length (w_pman w))%nat) ->
  exists q, supply_from w c ms t = Ok q /\ q == t + qsum (map (fun m => qsum (map (cap_of h c) (ps m))) ms).
Proof.
  intros I LP. induction ms as [|m ms IH]; intros t V; cbn [supply_from map qsum].
  - exists t. split; auto. lra.
  - destruct (total_ok h w c m I (V m (or_introl eq_refl))) as (ps1 & q1 & _ & -> & Q1 & L1).
    destruct (IH (t + q1)) as (q & -> & Q2); [intros; apply V; right; auto|]. exists q. split; auto.
    rewrite Q2, Q1, (lists_sum _ _ _ (cap_of h c) L1 (LP m)). lra.
Qed.

Lemma supply_spec h w s c ms ps : reached h w -> (s < supplies_made h)%nat ->
  lists ms (supply_has h s) -> (forall m, lists (ps m) (producers_has h m)) ->
  exists q, supply w s c = Ok q /\ q == qsum (map (fun m => qsum (map (cap_of h c) (ps m))) ms).
Proof.
  intros R L LM LP. assert (I := refine _ _ R). destruct (made _ _ R) as [_ M]. rewrite <- M in L.
  unfold supply. destruct (nth_error (w_sd w) s) as [x|] eqn:E; [|apply nth_error_None in E; lia].
  assert (E' : nth_error (map sd_mans (w_sd w)) s = Some (sd_mans x)) by (apply map_nth_error; auto).
  destruct (proj1 (i_sd _ _ I) _ _ E') as [N A].
  destruct (supply_from_ok h w c ps I LP (sd_mans x) 0) as (q & Q1 & Q2).
  { intros m Hm. apply A in Hm. apply (proj2 (i_sd _ _ I)) in Hm. lia. }
  exists q. split; auto. rewrite Q2. rewrite (lists_sum (sd_mans x) ms (supply_has h s)); [lra|split; auto|auto].
Qed.

(** The registrations can always be listed. *)
Lemma lists_ex h w : reached h w ->
  (forall s, exists ms, lists ms (supply_has h s)) /\ exists ps, forall m, lists (ps m) (producers_has h m).
Proof.
  intros R. assert (I := refine _ _ R). split.
  - intros s. exists (nth s (map sd_mans (w_sd w)) []). destruct (nth_error (map sd_mans (w_sd w)) s) eqn:E.
    + rewrite (nth_error_nth _ _ _ E). apply (proj1 (i_sd _ _ I) _ _ E).
    + rewrite nth_overflow by (apply nth_error_None; auto). split; [constructor|]. intros x. split; [intros []|].
      intros H. apply (proj2 (i_sd _ _ I)) in H. apply nth_error_None in E. lia.
  - exists (fun m => nth m (w_pman w) []). intros m. destruct (nth_error (w_pman w) m) eqn:E.
    + rewrite (nth_error_nth _ _ _ E). apply (proj1 (i_pman _ _ I) _ _ E).
    + rewrite nth_overflow by (apply nth_error_None; auto). split; [constructor|]. intros x. split; [intros []|].
      intros H. apply (proj2 (i_pman _ _ I)) in H. apply nth_error_None in E. lia.
Qed.

(** ** Demand *)
Lemma demand_spec h w s c t : reached h w -> (s < supplies_made h)%nat ->
  demand w s c t = match demand_function h s c with Some (Some f) => Ok (f t) | _ => UB end /\
  manages w s c = Ok (match demand_function h s c with Some _ => true | None => false end).
Proof.
  intros R L. assert (I := refine _ _ R). destruct (made _ _ R) as [_ M]. rewrite <- M in L.
  unfold demand, manages. destruct (nth_error (w_sd w) s) as [x|] eqn:E; [|apply nth_error_None in E; lia].
  rewrite (i_fun _ _ I _ _ E c). auto.
Qed.

(** ** Carrying out an order *)
Lemma at_obj_lt {A} (l : list A) i f : (i < length l)%nat -> exists x, nth_error l i = Some x /\ at_obj l i f = Ok (upd l i (f x)).
Proof. intros H. unfold at_obj. destruct (nth_error l i) eqn:E; [eauto|]. apply nth_error_None in E. lia. Qed.

Lemma sum_point (f : nat -> Q) a pm : forall ms, NoDup ms -> In pm ms ->
  qsum (map (fun m => if Nat.eqb m pm then a + f m else f m) ms) == a + qsum (map f ms).
Proof.
  induction ms as [|m ms IH]; intros N H; [destruct H|]. inversion N; subst. cbn [map qsum].
  destruct (Nat.eqb_spec m pm) as [->|].
  - rewrite (qsum_map_ext _ f); [lra|]. intros x Hx. destruct (Nat.eqb_spec x pm); [congruence|lra].
  - destruct H; [congruence|]. rewrite IH by auto. lra.
Qed.

Lemma build_one h w s pm c p q : reached h w -> supply_has h s pm -> (p < producers_made h)%nat -> supply w s c = Ok q ->
  let k := producers_made h in
  let h' := ProducersReg 0 pm k :: Copy k p :: NewProducer 0 0 :: h in
  exists w' q', reached h' w' /\ supply w' s c = Ok q' /\ q' == q + cap_of h c p /\
    producers_made h' = S k /\ supply_has h' s pm /\ forall x, (x < k)%nat -> info h' x c = info h x c.
Proof.
  intros R SH L SQ k h'. assert (I := refine _ _ R). assert (MK := i_made _ _ I).
  destruct (proj2 (i_sd _ _ I) _ _ SH) as [Ls Lpm]. rewrite map_length in Ls. destruct (made _ _ R) as [_ MS]. rewrite MS in Ls.
  (* the calls succeed *)
  set (w1 := set_prod w (w_prod w ++ [mkCP [] 0 0])).
  assert (R1 : reached (NewProducer 0 0 :: h) w1) by (econstructor; eauto; reflexivity).
  assert (exists w2, step w1 (Copy k p) = Ok w2) as [w2 S2].
  { cbn [step]. destruct (nth_error (w_prod w1) p) as [src|] eqn:E.
    - destruct (at_obj_lt (w_prod w1) k (cp_copy src)) as (x & _ & ->); [|eexists; reflexivity].
      unfold w1, k. cbn. rewrite app_length. cbn. lia.
    - apply nth_error_None in E. unfold w1 in E. cbn in E. rewrite app_length in E. cbn in E. lia. }
  assert (R2 : reached (Copy k p :: NewProducer 0 0 :: h) w2) by (econstructor; eauto).
  assert (I2 := refine _ _ R2). assert (M2 := i_made _ _ I2). cbn in M2.
  assert (L2 : (pm < length (w_pman w2))%nat).
  { cbn [step] in S2. destruct (nth_error (w_prod w1) p); [|discriminate]. unfold rmap, at_obj in S2.
    destruct (nth_error (w_prod w1) k); [|discriminate]. injection S2 as <-. cbn. auto. }
  assert (exists w3, step w2 (ProducersReg 0 pm k) = Ok w3) as [w3 S3].
  { cbn [step]. unfold valid. destruct (nth_error (w_prod w2) k) eqn:E; [|apply nth_error_None in E; unfold k in E; lia].
    destruct (at_obj_lt (w_pman w2) pm (pins 0 k) L2) as (x & _ & ->). eexists; reflexivity. }
  assert (R3 : reached h' w3) by (econstructor; eauto).
  (* the supply *)
  destruct (lists_ex h w R) as [LM [ps LP]]. destruct (LM s) as [ms Hms].
  destruct (supply_spec h w s c ms ps R Ls Hms LP) as (q0 & Q1 & Q2). assert (q0 = q) by congruence. subst q0.
  set (ps' := fun m => if Nat.eqb m pm then k :: ps m else ps m).
  assert (INF : forall x, (x < k)%nat -> info h' x c = info h x c).
  { intros x Hx. unfold h'. cbn. destruct (Nat.eqb_spec x k); [lia|reflexivity]. }
  assert (INK : info h' k c = info h p c).
  { unfold h'. cbn. rewrite Nat.eqb_refl. destruct (info h p c); auto. cbn. apply (i_none _ _ I). unfold k. lia. }
  assert (NEW : forall m, ~ In k (ps m)).
  { intros m Hk. apply (proj2 (LP m)) in Hk. apply (proj2 (i_pman _ _ I)) in Hk. unfold k in Hk. lia. }
  assert (LP' : forall m, lists (ps' m) (producers_has h' m)).
  { intros m. destruct (LP m) as [N A]. unfold ps', h'. cbn [producers_has]. destruct (Nat.eqb_spec m pm) as [->|NE].
    - split; [constructor; auto|]. intros x. cbn. rewrite A. split; [intros [<-|]; auto|intros [[_ ->]|]; auto].
    - split; auto. intros x. rewrite A. split; auto. intros [[? _]|]; [congruence|auto]. }
  destruct (supply_spec h' w3 s c ms ps' R3) as (q' & Q3 & Q4); auto.
  exists w3, q'. split; [auto|]. split; [auto|]. split; [|split; [reflexivity|split; [exact SH|exact INF]]].
  assert (CAP : forall x, (x < k)%nat -> cap_of h' c x = cap_of h c x). { intros x Hx. unfold cap_of. now rewrite INF. }
  rewrite Q4, Q2. rewrite Qplus_comm.
  rewrite <- (sum_point (fun m => qsum (map (cap_of h c) (ps m))) (cap_of h c p) pm ms); [|apply Hms|apply Hms; auto].
  apply qsum_map_ext. intros m Hm. unfold ps'.
  assert (OLD : qsum (map (cap_of h' c) (ps m)) == qsum (map (cap_of h c) (ps m))).
  { apply qsum_map_ext. intros x Hx. rewrite CAP; [lra|]. apply (proj2 (LP m)) in Hx. apply (proj2 (i_pman _ _ I)) in Hx. unfold k. lia. }
  destruct (Nat.eqb m pm); [|exact OLD]. cbn [map qsum]. rewrite OLD. unfold cap_of at 1. rewrite INK. unfold cap_of. lra.
Qed.

Lemma build_many s pm c p : forall n h w q, reached h w -> supply_has h s pm -> (p < producers_made h)%nat -> supply w s c = Ok q ->
  let h' := build_calls pm (producers_made h) n p ++ h in
  exists w' q', reached h' w' /\ supply w' s c = Ok q' /\ q' == q + inject_Z (Z.of_nat n) * cap_of h c p /\
    producers_made h' = (producers_made h + n)%nat /\ supply_has h' s pm /\
    forall x, (x < producers_made h)%nat -> info h' x c = info h x c.
Proof.
  induction n as [|n IH]; intros h w q R SH L SQ; cbn [build_calls].
  - exists w, q. cbn [app]. split; [auto|]. split; [auto|]. split; [change (inject_Z (Z.of_nat 0)) with 0; lra|]. split; [lia|]. auto.
  - destruct (build_one h w s pm c p q R SH L SQ) as (w1 & q1 & R1 & S1 & Q1 & M1 & H1 & F1).
    cbv zeta in *. rewrite <- app_assoc. cbn [app].
    set (h1 := ProducersReg 0 pm (producers_made h) :: Copy (producers_made h) p :: NewProducer 0 0 :: h) in *.
    assert (L1 : (p < producers_made h1)%nat) by lia.
    destruct (IH h1 w1 q1 R1 H1 L1 S1) as (w2 & q2 & R2 & S2 & Q2 & M2 & H2 & F2). cbv zeta in *. rewrite M1 in R2, M2, F2, H2.
    exists w2, q2. split; [auto|]. split; [auto|]. split.
    + rewrite Q2, Q1. unfold cap_of. rewrite F1 by auto. rewrite Nat2Z.inj_succ, <- Z.add_1_l, inject_Z_plus. change (inject_Z 1) with 1. ring.
    + split; [lia|]. split; [auto|]. intros x Hx. rewrite F2 by lia. auto.
Qed.

Lemma build_all s pm c : forall os h w q, reached h w -> supply_has h s pm ->
  (forall o, In o os -> (0 <= bo_number o)%Z /\ (bo_producer o < producers_made h)%nat) -> supply w s c = Ok q ->
  exists w' q', reached (carry_out pm (producers_made h) os ++ h) w' /\ supply w' s c = Ok q' /\
    q' == q + plan_cap h c (plan_of os).
Proof.
  induction os as [|o os IH]; intros h w q R SH V SQ; cbn [carry_out].
  - exists w, q. split; [auto|]. split; [auto|]. cbn. lra.
  - destruct (V o (or_introl eq_refl)) as [V1 V2].
    destruct (build_many s pm c (bo_producer o) (Z.to_nat (bo_number o)) h w q R SH V2 SQ) as (w1 & q1 & R1 & S1 & Q1 & M1 & H1 & F1).
    cbv zeta in *. rewrite <- app_assoc.
    set (h1 := build_calls pm (producers_made h) (Z.to_nat (bo_number o)) (bo_producer o) ++ h) in *.
    assert (V' : forall o, In o os -> (0 <= bo_number o)%Z /\ (bo_producer o < producers_made h1)%nat).
    { intros o' Ho. destruct (V o' (or_intror Ho)). split; auto. lia. }
    destruct (IH h1 w1 q1 R1 H1 V' S1) as (w2 & q2 & R2 & S2 & Q2). rewrite M1 in R2.
    exists w2, q2. split; [auto|]. split; [auto|]. rewrite Q2, Q1. unfold plan_cap. cbn [plan_of map qsum fst snd].
    rewrite Z2Nat.id by auto.
    rewrite (qsum_map_ext _ (fun e => inject_Z (fst e) * cap_of h c (snd e)) (plan_of os)); [unfold plan_of; ring|].
    intros e He. apply in_map_iff in He as (o' & <- & Ho). cbn. unfold cap_of. rewrite F1; [reflexivity|].
    apply (V o' (or_intror Ho)).
Qed.

Lemma offered_valid h w m c b p : reached h w -> offers h m c b p -> (p < producers_made h)%nat.
Proof.
  intros R (_ & B & _). assert (I := refine _ _ R). rewrite <- (i_made _ _ I). apply (proj2 (i_build _ _ I) _ _ B).
Qed.

Lemma closes_gap solver h w m s pm c t dm q os :
  reached h w -> supply w s c = Ok q -> demand w s c t = Ok dm -> supply_has h s pm ->
  solver_right solver w m c (dm - q) ->
  (forall b p, offers h m c b p -> 0 <= cost_of h c p) -> (exists b p, offers h m c b p /\ 0 < cap_of h c p) ->
  make_build_decision solver w m c (dm - q) = Ok os ->
  exists w' q', reached (carry_out pm (producers_made h) os ++ h) w' /\ supply w' s c = Ok q' /\ dm <= q'.
Proof.
  intros R SQ DQ SH SR C P H.
  assert (SO := orders_sound solver h w m c _ os R H).
  destruct (build_all s pm c os h w q R SH) as (w' & q' & R' & S' & Q').
  { intros o Ho. destruct (SO o Ho) as [X Y]. split; [lia|]. eapply offered_valid; eauto. }
  { auto. }
  exists w', q'. split; [auto|]. split; [auto|]. destruct (Qlt_le_dec 0 (dm - q)) as [D|D].
  - assert (K := decision_covers solver h w m c _ os R D SR C P H). lra.
  - apply no_demand in H; auto. subst os. cbn in Q'. unfold plan_cap in Q'. cbn in Q'. lra.
Qed.

(** When no producer is on offer, or none with a capacity. *)
Lemma no_offer solver h w m c d : reached h w -> 0 < d -> (m < managers_made h)%nat -> (forall b p, ~ offers h m c b p) ->
  make_build_decision solver w m c d = UB.
Proof.
  intros R D L N. assert (I := refine _ _ R). destruct (made _ _ R) as [M _]. rewrite <- M in L.
  unfold make_build_decision. destruct (Qltb_spec 0 d); [|lra]. destruct (set_up_ok h w m c I L) as [s E]. rewrite E.
  destruct (set_up_wf h w m c s I E) as [W F]. unfold solve_orders.
  destruct (su_ip s) as [|p ip] eqn:IP.
  - rewrite (s_obj _ _ _ _ W), IP. reflexivity.
  - exfalso. destruct (proj1 (F p)) as [b O]; [left; auto|]. exact (N b p O).
Qed.
Lemma infeasible h w m c d s : reached h w -> set_up w m c = Ok s -> 0 < d ->
  ((exists sol, feasible (program s d) sol) <-> exists b p, offers h m c b p /\ 0 < cap_of h c p).
Proof.
  intros R E D. assert (I := refine _ _ R). destruct (set_up_wf h w m c s I E) as [W F]. split.
  - intros [sol FS]. apply (program_feasible h m c s d sol W) in FS as [I1 S1].
    assert (G : forall l k, (forall i, (k <= i < k + length l)%nat -> exists z, (0 <= z)%Z /\ sol i == inject_Z z) ->
      0 < dot (map (cap_of h c) l) sol k -> exists p, In p l /\ 0 < cap_of h c p).
    { induction l as [|p l IH]; intros k HI H; cbn in H; [lra|]. cbn in HI. destruct (Qlt_le_dec 0 (cap_of h c p)) as [Y|Y].
      - exists p. split; [left; auto|auto].
      - destruct (IH (S k)) as (p' & X1 & X2); [intros; apply HI; lia| |exists p'; split; [right; auto|auto]].
        destruct (HI k) as (z & Hz & Ez); [lia|]. assert (0 <= sol k). { rewrite Ez. change 0 with (inject_Z 0). rewrite <- Zle_Qle. auto. }
        assert (0 <= sol k * - cap_of h c p) by (apply Qmult_le_0_compat; lra). lra. }
    destruct (G (su_ip s) O) as (p & X1 & X2); [intros i Hi; apply I1; lia|lra|]. apply F in X1 as [b O]. eauto.
  - intros (b & p & O & P). set (sol := plan_sol (su_ip s) [(Z.of_nat (bound d (cap_of h c p)), p)]). exists sol.
    assert (Hp : In p (su_ip s)) by (apply F; eauto).
    apply (program_feasible h m c s d sol W). split.
    + apply plan_integral. intros e [<-|[]]. cbn. lia.
    + unfold sol. rewrite plan_dot; [|intros e [<-|[]]; auto]. cbn [map qsum fst snd]. assert (B := bound_enough d _ D P). lra.
Qed.

(** Asking a producer. *)
Lemma ask_spec h w p c : reached h w -> (p < producers_made h)%nat ->
  produces w p c = Ok (match info h p c with Some _ => true | None => false end) /\
  capacity w p c = Ok (cap_or0 (info h p c)) /\ cost w p c = Ok (cost_or_limit (info h p c)).
Proof.
  intros R L. assert (I := refine _ _ R). rewrite <- (i_made _ _ I) in L. unfold produces, capacity, cost, cp_entry.
  destruct (nth_error (w_prod w) p) as [x|] eqn:E; [|apply nth_error_None in E; lia].
  destruct (i_prod _ _ I _ _ E) as [_ F]. rewrite F. destruct (info h p c); auto.
Qed.

(** The decision is defined when the solution fits in ints. *)
Lemma decision_defined solver h w m c d : reached h w -> (m < managers_made h)%nat -> (exists b p, offers h m c b p) ->
  (forall s i, set_up w m c = Ok s -> (i < lp_ncols (program s d))%nat ->
     exists z, solver (program s d) i == inject_Z z /\ (-2147483648 <= z <= 2147483647)%Z) ->
  exists os, make_build_decision solver w m c d = Ok os.
Proof.
  intros R L (b & p & O) V. assert (I := refine _ _ R). destruct (made _ _ R) as [M _]. rewrite <- M in L.
  unfold make_build_decision. destruct (Qltb_spec 0 d).
  - destruct (set_up_ok h w m c I L) as [s E]. rewrite E. destruct (set_up_wf h w m c s I E) as [W F]. unfold solve_orders.
    assert (LE : length (su_obj s) = length (su_ip s)). { rewrite (s_obj _ _ _ _ W), map_length. auto. }
    destruct (su_obj s) eqn:SO.
    + exfalso. assert (In p (su_ip s)) as H by (apply F; eauto). destruct (su_ip s); [destruct H|discriminate].
    + rewrite <- SO in *. destruct (read_total s (solver (program s d)) h m c W (seq 0 (length (su_obj s)))) as [os E1]; eauto.
      intros i Hi. apply in_seq in Hi. split; [lia|]. apply (V s i E). cbn. lia.
  - destruct (nth_error (w_bman w) m) eqn:E; eauto. apply nth_error_None in E. lia.
Qed.
