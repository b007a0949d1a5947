(** A cheapest plan exists, and the decision is one (C53). *)
From Coq Require Import String QArith Qround List Bool Arith ZArith Lia Lqa.
From Verif Require Import Base GreedySpec ProgModel ProgSpec SupplyModel SupplySpec SupplyProofs SupplyProofs2.
Import ListNotations.
Open Scope Q_scope.

(** ** Finite search *)
Fixpoint vecs (bs : list nat) : list (list nat) :=
  match bs with [] => [[]] | b :: t => flat_map (fun x => map (cons x) (vecs t)) (seq 0 (S b)) end.
Lemma vecs_in : forall bs v, Forall2 le v bs -> In v (vecs bs).
Proof.
  induction bs as [|b t IH]; intros v H; inversion H as [|x ? v' ? A B]; subst; cbn [vecs].
  - left; auto.
  - apply in_flat_map. exists x. split; [apply in_seq; lia|]. apply in_map. auto.
Qed.

Lemma argmin {A} (f : A -> Q) : forall l, l <> [] -> exists x, In x l /\ forall y, In y l -> f x <= f y.
Proof.
  induction l as [|a t IH]; intros N; [congruence|]. destruct t as [|b t'].
  - exists a. split; [left; auto|]. intros y [<-|[]]. lra.
  - destruct IH as (x & Hx & M); [discriminate|]. destruct (Qlt_le_dec (f x) (f a)).
    + exists x. split; [right; auto|]. intros y [<-|Hy]; [lra|auto].
    + exists a. split; [left; auto|]. intros y [<-|Hy]; [lra|]. specialize (M y Hy). lra.
Qed.

Definition vsol (v : list nat) : nat -> Q := fun i => inject_Z (Z.of_nat (nth i v O)).

(** Nobody needs more than this many of a producer. *)
Definition bound (d q : Q) : nat := if Qltb 0 q then Z.to_nat (Qceiling (d / q)) else O.

Lemma bound_enough d q : 0 < d -> 0 < q -> d <= q * inject_Z (Z.of_nat (bound d q)).
Proof.
  intros D P. unfold bound. destruct (Qltb_spec 0 q); [|lra].
  assert (H : d / q <= inject_Z (Qceiling (d / q))) by apply Qle_ceiling.
  assert (0 <= d / q). { apply Qle_shift_div_l; lra. }
  assert ((0 <= Qceiling (d / q))%Z). { rewrite Zle_Qle. change (inject_Z 0) with 0. lra. }
  rewrite Z2Nat.id by auto. assert (E : d == q * (d / q)) by (field; lra). rewrite E at 1.
  rewrite !(Qmult_comm q). apply Qmult_le_compat_r; lra.
Qed.

Definition cut (d : Q) (caps : list Q) (sol : nat -> Q) : list nat :=
  map (fun i => Nat.min (Z.to_nat (Qfloor (sol i))) (bound d (nth i caps 0))) (seq 0 (length caps)).

(** Cutting a solution at the bounds keeps it a solution. *)
Definition capped (d : Q) (sol : nat -> Q) (q : Q) (i : nat) : Q :=
  inject_Z (Z.of_nat (Nat.min (Z.to_nat (Qfloor (sol i))) (bound d q))).
Fixpoint cdot (d : Q) (l : list Q) (sol : nat -> Q) (k : nat) : Q :=
  match l with [] => 0 | q :: t => q * capped d sol q k + cdot d t sol (S k) end.

Lemma nat_inj_nonneg n : 0 <= inject_Z (Z.of_nat n).
Proof. change 0 with (inject_Z 0). rewrite <- Zle_Qle. lia. Qed.
Lemma capped_nonneg d sol q i : 0 <= capped d sol q i.
Proof. apply nat_inj_nonneg. Qed.

Lemma floor_int q z : q == inject_Z z -> Qfloor q = z.
Proof. intros ->. apply Qfloor_Z. Qed.

Lemma capped_le d sol q i z : (0 <= z)%Z -> sol i == inject_Z z -> capped d sol q i <= sol i.
Proof.
  intros Hz E. unfold capped. rewrite (floor_int _ _ E), E. rewrite <- Zle_Qle.
  assert (Nat.min (Z.to_nat z) (bound d q) <= Z.to_nat z)%nat by apply Nat.le_min_l. lia.
Qed.

Lemma cut_enough d sol : 0 < d -> forall l k,
  (forall i, (k <= i < k + length l)%nat -> exists z, (0 <= z)%Z /\ sol i == inject_Z z) ->
  0 <= cdot d l sol k /\ (d <= cdot d l sol k \/ dot l sol k <= cdot d l sol k).
Proof.
  intros D. induction l as [|q t IH]; intros k H; cbn [cdot dot]; [split; [lra|right; lra]|]. cbn in H.
  destruct (IH (S k)) as [P Q]; [intros; apply H; lia|]. clear IH.
  destruct (H k) as (z & Hz & Ez); [lia|]. assert (N := capped_nonneg d sol q k).
  destruct (Qlt_le_dec 0 q) as [Pq|Nq].
  - assert (T : 0 <= q * capped d sol q k) by (apply Qmult_le_0_compat; lra). split; [lra|].
    destruct (Nat.le_gt_cases (Z.to_nat z) (bound d q)).
    + assert (E : capped d sol q k == sol k).
      { unfold capped. rewrite (floor_int _ _ Ez), Ez, Nat.min_l by auto. rewrite Z2Nat.id by auto. reflexivity. }
      rewrite E in *. destruct Q; [left|right]; lra.
    + left. assert (B := bound_enough d q D Pq). unfold capped. rewrite (floor_int _ _ Ez), Nat.min_r by lia. lra.
  - assert (E : capped d sol q k == 0).
    { unfold capped, bound. destruct (Qltb_spec 0 q); [lra|]. rewrite Nat.min_0_r. reflexivity. }
    rewrite E. split; [lra|]. assert (0 <= sol k). { rewrite Ez. change 0 with (inject_Z 0). rewrite <- Zle_Qle. auto. }
    assert (q * sol k <= 0). { setoid_replace (q * sol k) with (- (sol k * - q)) by ring. assert (0 <= sol k * - q) by (apply Qmult_le_0_compat; lra). lra. }
    destruct Q; [left|right]; lra.
Qed.

Lemma cut_nth d caps sol i : (i < length caps)%nat ->
  nth i (cut d caps sol) O = Nat.min (Z.to_nat (Qfloor (sol i))) (bound d (nth i caps 0)).
Proof.
  intros H. unfold cut.
  set (f := fun j => Nat.min (Z.to_nat (Qfloor (sol j))) (bound d (nth j caps 0))).
  rewrite (nth_indep _ O (f O)) by (rewrite map_length, seq_length; auto). rewrite map_nth, seq_nth by auto. reflexivity.
Qed.
Lemma cut_length d caps sol : length (cut d caps sol) = length caps.
Proof. unfold cut. now rewrite map_length, seq_length. Qed.

Lemma dot_cut d caps sol : dot caps (vsol (cut d caps sol)) 0 == cdot d caps sol 0.
Proof.
  assert (G : forall l pre, caps = pre ++ l -> dot l (vsol (cut d caps sol)) (length pre) == cdot d l sol (length pre)).
  { induction l as [|q t IH]; intros pre E; cbn; [lra|].
    specialize (IH (pre ++ [q])). rewrite app_length in IH. cbn in IH.
    replace (length pre + 1)%nat with (S (length pre)) in IH by lia.
    rewrite IH by (rewrite <- app_assoc; auto). unfold vsol, capped.
    rewrite cut_nth by (rewrite E, app_length; cbn; lia).
    replace (nth (length pre) caps 0) with q; [lra|]. rewrite E, app_nth2, Nat.sub_diag by lia. reflexivity. }
  apply (G caps []). reflexivity.
Qed.

Lemma cut_in d caps sol : In (cut d caps sol) (vecs (map (bound d) caps)).
Proof.
  apply vecs_in. unfold cut.
  assert (G : forall l pre, caps = pre ++ l ->
    Forall2 le (map (fun i => Nat.min (Z.to_nat (Qfloor (sol i))) (bound d (nth i caps 0))) (seq (length pre) (length l))) (map (bound d) l)).
  { induction l as [|q t IH]; intros pre E; cbn; constructor.
    - replace (nth (length pre) caps 0) with q; [apply Nat.le_min_r|]. rewrite E, app_nth2, Nat.sub_diag by lia. reflexivity.
    - specialize (IH (pre ++ [q])). rewrite app_length in IH. cbn in IH.
      replace (length pre + 1)%nat with (S (length pre)) in IH by lia. apply IH. rewrite <- app_assoc. auto. }
  apply (G caps []). reflexivity.
Qed.

(** ** The optimum exists *)
Lemma vsol_integral v n : integral (vsol v) n.
Proof. intros i _. exists (Z.of_nat (nth i v O)). split; [lia|reflexivity]. Qed.

Lemma optimum_exists h m c s d : swf h m c s -> 0 < d ->
  (forall p, In p (su_ip s) -> 0 <= cost_of h c p) -> (exists p, In p (su_ip s) /\ 0 < cap_of h c p) ->
  exists sol, optimal (program s d) sol.
Proof.
  intros W D C (p & Hp & Pp). set (caps := map (cap_of h c) (su_ip s)).
  set (F := filter (fun v => Qleb d (dot caps (vsol v) 0)) (vecs (map (bound d) caps))).
  assert (NE : F <> []).
  { set (sol := plan_sol (su_ip s) [(Z.of_nat (bound d (cap_of h c p)), p)]).
    assert (S1 : d <= dot caps sol 0).
    { unfold caps, sol. rewrite plan_dot; [|intros e [<-|[]]; auto]. cbn [map qsum fst snd].
      assert (B := bound_enough d _ D Pp). lra. }
    assert (I1 : integral sol (length (su_ip s))). { apply plan_integral. intros e [<-|[]]. cbn. lia. }
    destruct (cut_enough d sol D caps 0) as [_ K].
    { intros i Hi. apply I1. unfold caps in Hi. rewrite map_length in Hi. lia. }
    intros E. assert (In (cut d caps sol) F); [|rewrite E in *; auto].
    apply filter_In. split; [apply cut_in|]. destruct (Qleb_spec d (dot caps (vsol (cut d caps sol)) 0)) as [|N]; auto.
    exfalso. apply N. rewrite dot_cut. destruct K; lra. }
  destruct (argmin (fun v => objective (program s d) (vsol v)) F NE) as (v & Hv & M).
  apply filter_In in Hv as [Hv1 Hv2]. exists (vsol v). split.
  - apply (program_feasible h m c s d _ W). split; [apply vsol_integral|].
    destruct (Qleb_spec d (dot caps (vsol v) 0)); [auto|discriminate].
  - intros sol FS. apply (program_feasible h m c s d sol W) in FS as [I1 S1]. fold caps in S1.
    assert (RNG : forall i, (0 <= i < 0 + length caps)%nat -> exists z, (0 <= z)%Z /\ sol i == inject_Z z).
    { intros i Hi. apply I1. unfold caps in Hi. rewrite map_length in Hi. lia. }
    destruct (cut_enough d sol D caps 0 RNG) as [_ K].
    assert (In (cut d caps sol) F) as HF.
    { apply filter_In. split; [apply cut_in|]. destruct (Qleb_spec d (dot caps (vsol (cut d caps sol)) 0)) as [|N]; auto.
      exfalso. apply N. rewrite dot_cut. destruct K; lra. }
    specialize (M _ HF). cbn beta in M. rewrite (program_obj h m c s d _ W), (program_obj h m c s d sol W) in *.
    rewrite (program_obj h m c s d (vsol (cut d caps sol)) W) in M.
    assert (dot (map (cost_of h c) (su_ip s)) (vsol (cut d caps sol)) 0 <= dot (map (cost_of h c) (su_ip s)) sol 0); [|lra].
    apply dot_le.
    + intros q Hq. apply in_map_iff in Hq as (x & <- & Hx). auto.
    + intros i Hi. rewrite map_length in Hi. unfold vsol. rewrite cut_nth by (unfold caps; rewrite map_length; lia).
      destruct (RNG i) as (z & Hz & Ez); [unfold caps; rewrite map_length; lia|]. apply (capped_le d sol _ i z Hz Ez).
Qed.

(** ** The decision *)
Lemma decision_inv solver w m c d os : 0 < d -> make_build_decision solver w m c d = Ok os ->
  exists s, set_up w m c = Ok s /\ su_obj s <> [] /\ read_orders s (solver (program s d)) (seq 0 (length (su_obj s))) = Ok os.
Proof.
  intros D. unfold make_build_decision. destruct (Qltb_spec 0 d); [|lra].
  destruct (set_up w m c) as [s| |] eqn:E; try discriminate. unfold solve_orders. destruct (su_obj s) eqn:O; [discriminate|].
  intros H. exists s. rewrite O. repeat split; auto. discriminate.
Qed.

Lemma no_demand solver w m c d os : d <= 0 -> make_build_decision solver w m c d = Ok os -> os = [].
Proof. intros D. unfold make_build_decision. destruct (Qltb_spec 0 d); [lra|]. destruct (nth_error (w_bman w) m); congruence. Qed.

Lemma orders_sound solver h w m c d os : reached h w -> make_build_decision solver w m c d = Ok os ->
  forall o, In o os -> (1 <= bo_number o)%Z /\ offers h m c (bo_builder o) (bo_producer o).
Proof.
  intros R H. destruct (Qlt_le_dec 0 d) as [D|D].
  - destruct (decision_inv _ _ _ _ _ _ D H) as (s & S & _ & RO). destruct (set_up_wf h w m c s (refine _ _ R) S) as [W _].
    eapply read_sound; eauto.
  - apply no_demand in H; auto. subst. intros o [].
Qed.

Lemma decision_solution solver h w m c d os : reached h w -> 0 < d -> solver_right solver w m c d ->
  (forall b p, offers h m c b p -> 0 <= cost_of h c p) -> (exists b p, offers h m c b p /\ 0 < cap_of h c p) ->
  make_build_decision solver w m c d = Ok os ->
  exists s sol, swf h m c s /\ (forall p, In p (su_ip s) <-> exists b, offers h m c b p) /\ optimal (program s d) sol /\
    (forall f, qsum (map (fun e => inject_Z (fst e) * f (snd e)) (plan_of os)) == dot (map f (su_ip s)) sol 0).
Proof.
  intros R D SR C (b & p & O & P) H. destruct (decision_inv _ _ _ _ _ _ D H) as (s & S & _ & RO).
  destruct (set_up_wf h w m c s (refine _ _ R) S) as [W F].
  assert (OPT : optimal (program s d) (solver (program s d))).
  { apply SR; auto. apply (optimum_exists h m c); auto.
    - intros q Hq. apply F in Hq as (b' & O'). eauto.
    - exists p. split; auto. apply F. eauto. }
  exists s, (solver (program s d)). split; auto. split; auto. split; auto. intros f.
  destruct OPT as [FE _]. apply (program_feasible h m c s d _ W) in FE as [I1 _].
  replace (length (su_obj s)) with (length (su_ip s)) in RO by (rewrite (s_obj _ _ _ _ W), map_length; auto).
  apply (read_sum s _ f (su_ip s) [] os); auto.
Qed.

Lemma decision_covers solver h w m c d os : reached h w -> 0 < d -> solver_right solver w m c d ->
  (forall b p, offers h m c b p -> 0 <= cost_of h c p) -> (exists b p, offers h m c b p /\ 0 < cap_of h c p) ->
  make_build_decision solver w m c d = Ok os -> d <= plan_cap h c (plan_of os).
Proof.
  intros R D SR C P H. destruct (decision_solution solver h w m c d os R D SR C P H) as (s & sol & W & F & [FE _] & E).
  apply (program_feasible h m c s d sol W) in FE as [_ S1]. unfold plan_cap. rewrite (E (cap_of h c)). auto.
Qed.

Lemma decision_cheapest solver h w m c d os l : reached h w -> 0 < d -> solver_right solver w m c d ->
  (forall b p, offers h m c b p -> 0 <= cost_of h c p) -> (exists b p, offers h m c b p /\ 0 < cap_of h c p) ->
  make_build_decision solver w m c d = Ok os ->
  (forall n p, In (n, p) l -> (0 <= n)%Z /\ exists b, offers h m c b p) -> d <= plan_cap h c l ->
  plan_cost h c (plan_of os) <= plan_cost h c l.
Proof.
  intros R D SR C P H A S1. destruct (decision_solution solver h w m c d os R D SR C P H) as (s & sol & W & F & [_ M] & E).
  unfold plan_cost. rewrite (E (cost_of h c)). rewrite <- (program_obj h m c s d sol W).
  assert (IN : forall e, In e l -> In (snd e) (su_ip s)). { intros [n p] He. apply F. cbn. apply (A n p He). }
  rewrite <- (plan_dot (cost_of h c) (su_ip s) l IN). rewrite <- (program_obj h m c s d _ W). apply M.
  apply (program_feasible h m c s d _ W). split.
  - apply plan_integral. intros [n p] He. cbn. apply (A n p He).
  - rewrite plan_dot by auto. exact S1.
Qed.

(** Nothing superfluous is ordered: dropping one unit of an order leaves the demand unmet. *)
Lemma plan_split h c os1 o os2 :
  plan_cap h c (plan_of (os1 ++ o :: os2)) ==
    cap_of h c (bo_producer o) + plan_cap h c (plan_of os1 ++ (bo_number o - 1, bo_producer o)%Z :: plan_of os2) /\
  plan_cost h c (plan_of (os1 ++ o :: os2)) ==
    cost_of h c (bo_producer o) + plan_cost h c (plan_of os1 ++ (bo_number o - 1, bo_producer o)%Z :: plan_of os2).
Proof.
  unfold plan_cap, plan_cost, plan_of. rewrite !map_app. cbn [map]. rewrite ?map_app. cbn [map]. rewrite !qsum_app. cbn [qsum fst snd].
  unfold Z.sub. rewrite inject_Z_plus. change (inject_Z (- (1))) with (- (1)). split; ring.
Qed.

Lemma decision_tight solver h w m c d os os1 o os2 : reached h w -> 0 < d -> solver_right solver w m c d ->
  (forall b p, offers h m c b p -> 0 <= cost_of h c p) -> (exists b p, offers h m c b p /\ 0 < cap_of h c p) ->
  make_build_decision solver w m c d = Ok os -> os = os1 ++ o :: os2 -> 0 < cost_of h c (bo_producer o) ->
  plan_cap h c (plan_of os) - cap_of h c (bo_producer o) < d.
Proof.
  intros R D SR C P H E K. destruct (plan_split h c os1 o os2) as [S1 S2]. rewrite <- E in S1, S2.
  set (l := plan_of os1 ++ ((bo_number o - 1)%Z, bo_producer o) :: plan_of os2) in *.
  assert (SO := orders_sound solver h w m c d os R H).
  destruct (Qlt_le_dec (plan_cap h c l) d) as [|N]; [lra|]. exfalso.
  assert (M : plan_cost h c (plan_of os) <= plan_cost h c l).
  { apply (decision_cheapest solver h w m c d os l R D SR C P H); [|exact N]. intros n p Hn. apply in_app_iff in Hn as [Hn|[Hn|Hn]].
    - apply in_map_iff in Hn as (o' & Eo & Ho). injection Eo as <- <-. destruct (SO o') as [X Y]; [rewrite E; apply in_app_iff; auto|]. split; [lia|eauto].
    - injection Hn as <- <-. destruct (SO o) as [X Y]; [rewrite E; apply in_app_iff; right; left; auto|]. split; [lia|eauto].
    - apply in_map_iff in Hn as (o' & Eo & Ho). injection Eo as <- <-. destruct (SO o') as [X Y]; [rewrite E; apply in_app_iff; right; right; auto|]. split; [lia|eauto]. }
  lra.
Qed.

(** When the decision is defined. *)
Lemma to_int_some q z : q == inject_Z z -> (-2147483648 <= z <= 2147483647)%Z -> to_int q = Some z.
Proof.
  intros E B. unfold to_int. assert (Z.quot (Qnum q) (Z.pos (Qden q)) = z) as ->.
  { unfold Qeq in E. cbn in E. replace (Qnum q) with (z * Z.pos (Qden q))%Z by lia. apply Z.quot_mul. lia. }
  destruct (Z.leb_spec (-2147483648) z), (Z.leb_spec z 2147483647); try lia. reflexivity.
Qed.
Lemma read_total s sol h m c : swf h m c s -> forall is,
  (forall i, In i is -> (i < length (su_ip s))%nat /\ exists z, sol i == inject_Z z /\ (-2147483648 <= z <= 2147483647)%Z) ->
  exists os, read_orders s sol is = Ok os.
Proof.
  intros W. induction is as [|i t IH]; intros H; cbn; eauto.
  destruct (H i (or_introl eq_refl)) as (L & z & Ez & B). rewrite (to_int_some _ _ Ez B).
  destruct IH as [os ->]; [intros; apply H; right; auto|]. destruct (0 <? z)%Z; eauto.
  destruct (nth_error (su_ip s) i) as [p|] eqn:N; [|apply nth_error_None in N; lia].
  destruct (s_pb _ _ _ _ W p) as [b ->]; eauto. eapply nth_error_In; eauto.
Qed.
